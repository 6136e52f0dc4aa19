(** Cases that meet the hypotheses of the theorems of PropCkc.v, and the lemmas behind the divergence theorems. *)
From Coq Require Import ZArith Reals List Bool Lia Lra.
From Verif Require Import Cxx Num NumRX Fortran Grid Pushers Yee SpecYee SpecSolver SpecLibrary Ckc SpecCkc CxxLemmas RXLemmas GridLemmas YeeReal YeeProofs YeePush YeeExamples CkcProofs CkcWaves Ckc2D.
Import ListNotations.
Local Open Scope R_scope.

Section X.
Context {tg : R -> R}.
Notation fin r := (Fin r : num (RX tg)).
Theorem ckc_divergence hx hy hz lo hi (E B : field (num (RX tg))) LE HE L H e b dt :
  0 < hx -> 0 < hy -> 0 < hz -> 0 < dt -> holds_field E LE HE e -> holds_field B L H b ->
  (forall p, in_box lo hi p = true -> in_box L H p = true /\ forall d q, uses d p q -> in_box LE HE q = true) ->
  exists B' b', pxrpush_em3d_bvec_ckc lo hi lo hi lo hi E B (fin (dt / hx)) (fin (dt / hy)) (fin (dt / hz)) = Ret B' /\
    holds_field B' L H b' /\
    forall p, (forall d q, uses d p q -> in_box lo hi q = true) -> div (ckc hx hy hz) b' p = div (ckc hx hy hz) b p.
Proof.
  intros Px Py Pz D HE' HB I.
  destruct (ckc_update hx hy hz Px Py Pz lo hi lo hi lo hi E B LE HE L H e b dt D HE' HB) as (B' & b' & R & V & U).
  1-3: intros p Ip; destruct (I p Ip) as [I1 I2]; split; [exact I1|]; intros q [Q|Q]; eapply I2; exact Q.
  exists B', b'. split; [exact R|]. split; [exact V|]. intros p Q. apply (div_push hx hy hz lo hi dt e b b' p); [|exact Q].
  intros q Iq. destruct (U q) as (U1 & U2 & U3). rewrite Iq in U1, U2, U3. cbv zeta. auto.
Qed.
Theorem ckc_longitudinal hx hy hz lo hi (E : field (num (RX tg))) (F : grid (num (RX tg))) L H LF HF e f kappa :
  0 < hx -> 0 < hy -> 0 < hz -> 0 < kappa -> holds_field E L H e -> is_grid F LF HF f ->
  (forall p, in_box lo hi p = true -> in_box L H p = true /\ forall d q, uses d p q -> in_box LF HF q = true) ->
  exists E' e', pxrpush_em3d_evec_f_ckc lo hi lo hi lo hi E F (fin (kappa / hx)) (fin (kappa / hy)) (fin (kappa / hz)) = Ret E' /\
    holds_field E' L H e' /\
    forall p, (forall d q, uses d p q -> in_box lo hi q = true) ->
      comp_x (curl (ckc hx hy hz) e') p = comp_x (curl (ckc hx hy hz) e) p /\
      comp_y (curl (ckc hx hy hz) e') p = comp_y (curl (ckc hx hy hz) e) p /\
      comp_z (curl (ckc hx hy hz) e') p = comp_z (curl (ckc hx hy hz) e) p.
Proof.
  intros Px Py Pz D HE' HF' I.
  destruct (ckc_cleaning hx hy hz Px Py Pz lo hi lo hi lo hi E F L H LF HF e f kappa D HE' HF') as (E' & e' & Rn & V & U).
  1-3: intros p Ip; destruct (I p Ip) as [I1 I2]; split; [exact I1|]; intros q Q; eapply I2; exact Q.
  exists E', e'. split; [exact Rn|]. split; [exact V|]. intros p Q.
  assert (X : forall d (u u' v : idx -> R), (forall q, in_box lo hi q = true -> u' q = u q + kappa * v q) -> ckc hx hy hz d u' p = ckc hx hy hz d u p + kappa * ckc hx hy hz d v p).
  { intros d u u' v Hu. rewrite <- ckc_lin. apply ckc_ext. intros q Hq. apply Hu. eapply Q. exact Hq. }
  set (g := grad (ckc hx hy hz) f) in *.
  assert (Ux : forall q, in_box lo hi q = true -> comp_x e' q = comp_x e q + kappa * comp_x g q) by (intros q Iq; destruct (U q) as (U1 & _); rewrite Iq in U1; exact U1).
  assert (Uy : forall q, in_box lo hi q = true -> comp_y e' q = comp_y e q + kappa * comp_y g q) by (intros q Iq; destruct (U q) as (_ & U1 & _); rewrite Iq in U1; exact U1).
  assert (Uz : forall q, in_box lo hi q = true -> comp_z e' q = comp_z e q + kappa * comp_z g q) by (intros q Iq; destruct (U q) as (_ & _ & U1); rewrite Iq in U1; exact U1).
  cbn [curl comp_x comp_y comp_z].
  rewrite !(X _ _ _ _ Ux), !(X _ _ _ _ Uy), !(X _ _ _ _ Uz). subst g. cbn [grad comp_x comp_y comp_z].
  rewrite (ckc_ckc hx hy hz AY AX), (ckc_ckc hx hy hz AZ AX), (ckc_ckc hx hy hz AZ AY). repeat split; ring.
Qed.
Theorem ckc2_divergence hx hz lo hi (E B : field (num (RX tg))) LE HE L H e b dt :
  0 < hx -> 0 < hz -> 0 < dt -> holds_field E LE HE e -> holds_field B L H b ->
  (forall p, in_box lo hi p = true -> in_box L H p = true /\ forall d q, d <> AY -> uses2 d p q -> in_box LE HE q = true) ->
  exists B' b', pxrpush_em2d_bvec_ckc lo hi lo hi lo hi E B (fin (dt / hx)) (fin (dt / hz)) = Ret B' /\
    holds_field B' L H b' /\
    forall p, (forall d q, d <> AY -> uses2 d p q -> in_box lo hi q = true) -> div (ckc2 hx hz) b' p = div (ckc2 hx hz) b p.
Proof.
  intros Px Pz D HE' HB I.
  destruct (ckc2_update hx hz Px Pz lo hi lo hi lo hi E B LE HE L H e b dt D HE' HB) as (B' & b' & R & V & U).
  1-3: intros p Ip; destruct (I p Ip) as [I1 I2]; split; [exact I1|]; intros q Q; first [eapply I2; [|exact Q]; discriminate | destruct Q as [Q|Q]; (eapply I2; [|exact Q]; discriminate)].
  exists B', b'. split; [exact R|]. split; [exact V|]. intros p Q. apply (div_push2 hx hz lo hi dt e b b' p); [|exact Q].
  intros q Iq. destruct (U q) as (U1 & U2 & U3). rewrite Iq in U1, U2, U3. cbv zeta. auto.
Qed.
End X.

(** ** arrays *)
Definition in_lo : idx := (-2, -2, -2)%Z.
Definition in_hi : idx := (10, 10, 10)%Z.
Definition in_lo2 : idx := (-2, 0, -2)%Z.
Definition in_hi2 : idx := (10, 0, 10)%Z.
Lemma holds_hold tg S f : @holds_field tg (hold S f) (alo S) (ahi S) f.
Proof. unfold holds_field, is_grid, hold. cbn. repeat split. Qed.
Lemma uses_near d p q : uses d p q -> exists a b c, q = (let '(j, k, l) := p in (j + a, k + b, l + c)%Z) /\ (-1 <= a <= 1 /\ -1 <= b <= 1 /\ -1 <= c <= 1)%Z.
Proof.
  intros (a & b & c & -> & I). destruct p as [[j k] l], d; cbn [across fst snd shift]; [exists a, b, c | exists b, a, c | exists b, c, a]; (split; [reflexivity | lia]).
Qed.
Lemma uses2_near d p q : d <> AY -> uses2 d p q -> exists a c, q = (let '(j, k, l) := p in (j + a, k, l + c)%Z) /\ (-1 <= a <= 1 /\ -1 <= c <= 1)%Z.
Proof.
  intros Hd (a & b & -> & I). destruct p as [[j k] l], d; [| contradiction |]; cbn [shift]; [exists a, b | exists b, a]; (split; [reflexivity | lia]).
Qed.
Lemma room p : in_box in_lo in_hi p = true -> in_box (alo S4) (ahi S4) p = true /\ forall d q, uses d p q -> in_box (alo S4) (ahi S4) q = true.
Proof.
  change (alo S4) with (-3, -3, -3)%Z. change (ahi S4) with (11, 11, 11)%Z. unfold in_lo, in_hi. destruct p as [[j k] l]. rewrite in_box_iff. intros I. split; [rewrite in_box_iff; lia|].
  intros d q U. destruct (uses_near _ _ _ U) as (a & b & c & -> & J). rewrite in_box_iff. lia.
Qed.
Lemma room2 p : in_box in_lo2 in_hi2 p = true -> in_box (alo S4p) (ahi S4p) p = true /\ forall d q, d <> AY -> uses2 d p q -> in_box (alo S4p) (ahi S4p) q = true.
Proof.
  change (alo S4p) with (-3, 0, -3)%Z. change (ahi S4p) with (11, 0, 11)%Z. unfold in_lo2, in_hi2. destruct p as [[j k] l]. rewrite in_box_iff. intros I. split; [rewrite in_box_iff; lia|].
  intros d q Hd U. destruct (uses2_near _ _ _ Hd U) as (a & c & -> & J). rewrite in_box_iff. lia.
Qed.
Lemma middle d q : uses d (4, 4, 4)%Z q -> in_box in_lo in_hi q = true.
Proof. intros U. destruct (uses_near _ _ _ U) as (a & b & c & -> & J). unfold in_lo, in_hi. rewrite in_box_iff. lia. Qed.
Lemma middle2 d q : d <> AY -> uses2 d (4, 0, 4)%Z q -> in_box in_lo2 in_hi2 q = true.
Proof. intros Hd U. destruct (uses2_near _ _ _ Hd U) as (a & c & -> & J). unfold in_lo2, in_hi2. rewrite in_box_iff. lia. Qed.

(** ** a run with a wave *)
Section Run.
Variables (D : axis -> (idx -> R) -> idx -> R) (hx hy hz c dt : R) (e0 b0 : rfield).
Fixpoint states (n : nat) : rfield * rfield :=
  match n with
  | O => (e0, b0)
  | S m => let (e, b) := states m in
    let r := curl D e in
    let b' := RField (fun p => comp_x b p - dt * comp_x r p) (fun p => comp_y b p - dt * comp_y r p) (fun p => comp_z b p - dt * comp_z r p) in
    let s := curl (bwd (yee hx hy hz)) b' in
    (RField (fun p => comp_x e p + c ^ 2 * dt * comp_x s p) (fun p => comp_y e p + c ^ 2 * dt * comp_y s p) (fun p => comp_z e p + c ^ 2 * dt * comp_z s p), b')
  end.
Lemma states_run : vacuum_run D hx hy hz c dt (fun n => fst (states n)) (fun n => snd (states n)).
Proof. intros n p. cbn [states]. destruct (states n) as [e b]. cbn [fst snd comp_x comp_y comp_z]. repeat split. Qed.
End Run.
Definition wz : rfield := RField (fun _ => 0) (fun _ => 0) (plane_wave 1 2 0 0).
Definition zero_field : rfield := RField (fun _ => 0) (fun _ => 0) (fun _ => 0).
Lemma flat p n : plane_wave 1 2 0 0 (shift AZ n p) = plane_wave 1 2 0 0 p.
Proof. unfold plane_wave. rewrite wave_shift. cbn [kof]. f_equal. ring. Qed.
Lemma run_case : exists e b a1, vacuum_run (ckc 1 2 3) 1 2 3 1 (1 / 2) e b /\ (forall p, div (bwd (yee 1 2 3)) (e 0%nat) p = 0) /\
  forall p, comp_z (e 0%nat) p = 1 * plane_wave 1 2 0 0 p /\ comp_z (e 1%nat) p = a1 * plane_wave 1 2 0 0 p.
Proof.
  exists (fun n => fst (states (ckc 1 2 3) 1 2 3 1 (1 / 2) wz zero_field n)), (fun n => snd (states (ckc 1 2 3) 1 2 3 1 (1 / 2) wz zero_field n)).
  exists (1 - 1 / 4 * (4 / smallest 1 2 3 ^ 2 * reach 1 2 3 1 2 0)).
  split; [apply states_run|]. split.
  - intros p. cbn [states fst]. unfold div. rewrite !bwd_yee. unfold wz. cbn [comp_x comp_y comp_z]. rewrite flat. ring.
  - intros p. split; [cbn [states fst]; unfold wz; cbn [comp_z]; ring|].
    set (w := plane_wave 1 2 0 0).
    pose proof (wave_symbol 1 2 3 1 2 0 0 Rlt_0_1 ltac:(lra) ltac:(lra) p) as Q. fold w in Q.
    assert (Wz : bwd (yee 1 2 3) AZ (ckc 1 2 3 AZ w) p = 0).
    { rewrite (bwd_yee 1 2 3). unfold w. unfold ckc, step. rewrite !mean_wave, !flat. unfold Rdiv. ring. }
    unfold wave_op in Q. rewrite Wz in Q.
    cbn [states fst]. unfold wz, zero_field. cbn [curl comp_x comp_y comp_z]. fold w.
    assert (Z : forall d q, ckc 1 2 3 d (fun _ => 0) q = 0) by (intros d q; unfold ckc, step, mean; destruct (across d); unfold beside, Rdiv; ring).
    rewrite !bwd_yee in Q |- *. cbn [comp_x comp_y comp_z curl]. rewrite !Z. nra.
Qed.
