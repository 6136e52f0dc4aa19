(** The difference formulas of the CKC solver: they commute, keep the divergence of B, and their wave operator. *)
From Coq Require Import ZArith Reals List Bool Lia Lra.
From Verif Require Import Cxx Num NumRX Grid SpecYee SpecCkc YeeReal.
Import ListNotations.
Local Open Scope R_scope.

(** ** sums of shifted values *)
Definition plus (p v : idx) : idx := let '(j, k, l) := p in let '(a, b, c) := v in (j + a, k + b, l + c)%Z.
Definition op := list (R * idx).
Fixpoint ap (o : op) (f : idx -> R) (p : idx) : R := match o with [] => 0 | (c, v) :: o' => c * f (plus p v) + ap o' f p end.

Lemma ap_ext o f g p : (forall v, In v (map snd o) -> f (plus p v) = g (plus p v)) -> ap o f p = ap o g p.
Proof. induction o as [|[c v] o IH]; intros H; cbn [ap]; [reflexivity|]. rewrite (H v) by (left; reflexivity). rewrite IH; [reflexivity|]. intros; apply H; right; assumption. Qed.
Lemma ap_lin o f g k p : ap o (fun q => f q + k * g q) p = ap o f p + k * ap o g p.
Proof. induction o as [|[c v] o IH]; cbn [ap]; [ring|]. rewrite IH. ring. Qed.
Lemma plus_swap p v w : plus (plus p v) w = plus (plus p w) v.
Proof. destruct p as [[? ?] ?], v as [[? ?] ?], w as [[? ?] ?]. cbn. f_equal; [f_equal|]; lia. Qed.
Lemma ap_shift o f p v : ap o f (plus p v) = ap o (fun q => f (plus q v)) p.
Proof. induction o as [|[c w] o IH]; cbn [ap]; [reflexivity|]. rewrite IH, plus_swap. reflexivity. Qed.
Lemma ap_comm a b f p : ap a (ap b f) p = ap b (ap a f) p.
Proof.
  induction a as [|[c v] a IH]; cbn [ap].
  - induction b as [|[c v] b IH]; cbn [ap]; [reflexivity|]. rewrite <- IH. ring.
  - rewrite IH, ap_shift. clear IH. induction b as [|[d w] b IH]; cbn [ap]; [ring|]. rewrite <- IH. ring.
Qed.

Section H.
Variables hx hy hz : R.
Definition unit (d : axis) (n : Z) : idx := shift d n (0, 0, 0)%Z.
Definition mean_op (d : axis) : op :=
  let (e, e') := across d in
  let s := w_side hx hy hz in let g := w_diag hx hy hz d in
  [(1 - 2 * s e - 2 * s e' - 4 * g, (0, 0, 0)%Z); (s e, unit e 1); (s e, unit e (-1)); (s e', unit e' 1); (s e', unit e' (-1));
   (g, plus (unit e 1) (unit e' 1)); (g, plus (unit e 1) (unit e' (-1))); (g, plus (unit e (-1)) (unit e' 1)); (g, plus (unit e (-1)) (unit e' (-1)))].
Definition ckc_op (d : axis) : op :=
  map (fun cv => (fst cv / cell hx hy hz d, plus (unit d 1) (snd cv))) (mean_op d) ++ map (fun cv => (- fst cv / cell hx hy hz d, snd cv)) (mean_op d).
Lemma ckc_ap d f p : ckc hx hy hz d f p = ap (ckc_op d) f p.
Proof.
  destruct p as [[j k] l], d; unfold ckc, step, mean, beside, ckc_op, mean_op, unit; cbn [across cell map app ap fst snd plus shift];
  rewrite ?Z.add_0_r, ?Z.add_0_l; unfold Rdiv; ring.
Qed.
Definition bwd_op (d : axis) : op := [(/ cell hx hy hz d, (0, 0, 0)%Z); (- / cell hx hy hz d, unit d (-1))].
Lemma bwd_ap d f p : bwd (yee hx hy hz) d f p = ap (bwd_op d) f p.
Proof.
  rewrite bwd_yee. destruct p as [[j k] l], d; unfold bwd_op, unit; cbn [cell ap plus shift]; rewrite ?Z.add_0_r, ?Z.add_0_l; ring.
Qed.

Lemma ckc_ckc d d' f p : ckc hx hy hz d (ckc hx hy hz d' f) p = ckc hx hy hz d' (ckc hx hy hz d f) p.
Proof.
  rewrite !ckc_ap. transitivity (ap (ckc_op d) (ap (ckc_op d') f) p); [apply ap_ext; intros; apply ckc_ap|].
  rewrite ap_comm. apply ap_ext. intros. symmetry. apply ckc_ap.
Qed.
Lemma bwd_ckc d d' f p : bwd (yee hx hy hz) d (ckc hx hy hz d' f) p = ckc hx hy hz d' (bwd (yee hx hy hz) d f) p.
Proof.
  rewrite ckc_ap, bwd_ap. transitivity (ap (bwd_op d) (ap (ckc_op d') f) p); [apply ap_ext; intros; apply ckc_ap|].
  rewrite ap_comm. apply ap_ext. intros. symmetry. apply bwd_ap.
Qed.
Lemma ckc_lin d f g k p : ckc hx hy hz d (fun q => f q + k * g q) p = ckc hx hy hz d f p + k * ckc hx hy hz d g p.
Proof. rewrite !ckc_ap. apply ap_lin. Qed.
Lemma ckc_ext d f g p : (forall q, uses d p q -> f q = g q) -> ckc hx hy hz d f p = ckc hx hy hz d g p.
Proof.
  intros H. destruct p as [[j k] l].
  assert (A : forall a b c, (0 <= a <= 1 /\ -1 <= b <= 1 /\ -1 <= c <= 1)%Z ->
    f (shift d a (shift (fst (across d)) b (shift (snd (across d)) c (j, k, l)))) = g (shift d a (shift (fst (across d)) b (shift (snd (across d)) c (j, k, l))))).
  { intros a b c I. apply H. exists a, b, c. split; [reflexivity | exact I]. }
  rewrite !ckc_ap. apply ap_ext. intros v I.
  assert (Q : exists a b c, plus (j, k, l) v = shift d a (shift (fst (across d)) b (shift (snd (across d)) c (j, k, l))) /\ (0 <= a <= 1 /\ -1 <= b <= 1 /\ -1 <= c <= 1)%Z).
  { unfold ckc_op, mean_op, unit in I.
    destruct v as [[a b] c].
    destruct d; cbn [across map app fst snd plus shift] in I |- *; cbn [In] in I;
    [exists a, b, c | exists b, a, c | exists c, a, b]; (split; [reflexivity|]);
    repeat (destruct I as [I|I]; [inversion I; lia|]); destruct I. }
  destruct Q as (a & b & c & -> & I'). apply A. exact I'.
Qed.
Lemma div_curl e p : div (ckc hx hy hz) (curl (ckc hx hy hz) e) p = 0.
Proof.
  unfold div. cbn [curl comp_x comp_y comp_z].
  assert (L : forall d f g, ckc hx hy hz d (fun q => f q - g q) p = ckc hx hy hz d f p - ckc hx hy hz d g p).
  { intros. transitivity (ckc hx hy hz d (fun q => f q + (-1) * g q) p); [apply ckc_ext; intros; ring|]. rewrite ckc_lin. ring. }
  rewrite !L. rewrite (ckc_ckc AY AX), (ckc_ckc AZ AX), (ckc_ckc AZ AY). ring.
Qed.

(** the divergence of B after a push *)
Lemma div_push lo hi dt (e b b' : rfield) p :
  (forall q, in_box lo hi q = true -> let c := curl (ckc hx hy hz) e in
     comp_x b' q = comp_x b q - dt * comp_x c q /\ comp_y b' q = comp_y b q - dt * comp_y c q /\ comp_z b' q = comp_z b q - dt * comp_z c q) ->
  (forall d q, uses d p q -> in_box lo hi q = true) ->
  div (ckc hx hy hz) b' p = div (ckc hx hy hz) b p.
Proof.
  intros U I. set (c := curl (ckc hx hy hz) e) in *.
  assert (L : forall d (f g h : idx -> R), (forall q, in_box lo hi q = true -> f q = g q - dt * h q) -> ckc hx hy hz d f p = ckc hx hy hz d g p - dt * ckc hx hy hz d h p).
  { intros d f g h Q. transitivity (ckc hx hy hz d (fun q => g q + (- dt) * h q) p); [|rewrite ckc_lin; ring].
    apply ckc_ext. intros q Hq. rewrite Q by (eapply I; exact Hq). ring. }
  unfold div. rewrite (L AX (comp_x b') (comp_x b) (comp_x c)), (L AY (comp_y b') (comp_y b) (comp_y c)), (L AZ (comp_z b') (comp_z b) (comp_z c)) by (intros q Hq; apply (U q Hq)).
  pose proof (div_curl e p) as Z. unfold div in Z. fold c in Z. nra.
Qed.

(** ** consistency: on a function of the coordinate along d, plus linear functions of the others, a difference of neighbours *)
Lemma ckc_plane d f p (g : Z -> R) u v w : (forall j k l, f (j, k, l) = match d with AX => g j | AY => g k | AZ => g l end + u * IZR j + v * IZR k + w * IZR l) ->
  ckc hx hy hz d f p = fwd (yee hx hy hz) d f p.
Proof.
  intros F. rewrite fwd_yee. destruct p as [[j k] l], d; unfold ckc, step, mean, beside; cbn [across cell shift]; rewrite !F, ?plus_IZR; cbn [Z.opp]; change (IZR (-1)) with (- 1);
  unfold Rdiv; ring.
Qed.

(** ** plane waves *)
Section Wave.
Variables kx ky kz phi : R.
Notation w := (plane_wave kx ky kz phi).
Definition kof (d : axis) : R := match d with AX => kx | AY => ky | AZ => kz end.
Lemma wave_shift d n p : phase kx ky kz phi (shift d n p) = phase kx ky kz phi p + kof d * IZR n.
Proof. destruct p as [[j k] l], d; cbn [shift phase kof]; rewrite plus_IZR; ring. Qed.
Lemma beside_wave d p : beside d w p = 2 * cos (kof d) * w p.
Proof. unfold beside, plane_wave. rewrite !wave_shift, !cos_plus. change (IZR (-1)) with (- 1). replace (kof d * - 1) with (- (kof d * 1)) by ring. rewrite cos_neg, sin_neg, Rmult_1_r. ring. Qed.
Definition half_sin (d : axis) : R := (sin (kof d / 2)) ^ 2.
Lemma cos_half d : cos (kof d) = 1 - 2 * half_sin d.
Proof. unfold half_sin. replace (kof d) with (2 * (kof d / 2)) at 1 by field. rewrite cos_2a_sin. ring. Qed.
Definition m_of (d : axis) : R :=
  let (e, e') := across d in
  1 - 4 * w_side hx hy hz e * half_sin e - 4 * w_side hx hy hz e' * half_sin e' - 8 * w_diag hx hy hz d * (half_sin e + half_sin e') + 16 * w_diag hx hy hz d * half_sin e * half_sin e'.
Lemma mean_wave d p : mean hx hy hz d w p = m_of d * w p.
Proof.
  unfold mean, m_of. destruct (across d) as [e e']. unfold beside at 3. rewrite !beside_wave, !cos_half.
  pose proof (beside_wave e p) as Q. unfold beside in Q. rewrite cos_half in Q.
  assert (Q2 : w (shift e (-1) p) = 2 * (1 - 2 * half_sin e) * w p - w (shift e 1 p)) by lra. rewrite Q2. ring.
Qed.
Lemma second_wave d p : bwd (yee hx hy hz) d (ckc hx hy hz d w) p = - 4 * half_sin d * m_of d / (cell hx hy hz d) ^ 2 * w p.
Proof.
  rewrite bwd_yee. unfold ckc, step. rewrite !mean_wave.
  pose proof (beside_wave d p) as Q. unfold beside in Q. rewrite cos_half in Q.
  assert (Q2 : w (shift d (-1) p) = 2 * (1 - 2 * half_sin d) * w p - w (shift d 1 p)) by lra.
  assert (Sh : shift d 1 (shift d (-1) p) = p) by (destruct p as [[j k] l], d; cbn [shift]; repeat apply f_equal2; try reflexivity; lia).
  rewrite Sh, Q2. destruct d; cbn [cell]; unfold Rdiv; rewrite <- pow_inv; cbn [pow]; ring.
Qed.

Hypothesis Px : 0 < hx.
Hypothesis Py : 0 < hy.
Hypothesis Pz : 0 < hz.
(** 1 - (1 - r_x s_x) (1 - r_y s_y) (1 - r_z s_z) *)
Definition reach : R := 1 - (1 - ratio hx hy hz AX * half_sin AX) * (1 - ratio hx hy hz AY * half_sin AY) * (1 - ratio hx hy hz AZ * half_sin AZ).
Lemma wave_symbol p : wave_op (ckc hx hy hz) hx hy hz w p = - (4 / (smallest hx hy hz) ^ 2 * reach) * w p.
Proof.
  unfold wave_op. rewrite !second_wave.
  assert (Sp : 0 < smallest hx hy hz) by (unfold smallest; repeat apply Rmin_case; assumption).
  assert (C : forall d, 0 < cell hx hy hz d) by (intros []; assumption).
  assert (Rp : forall d, 0 < ratio hx hy hz d) by (intros d; unfold ratio; apply pow_lt; apply Rdiv_lt_0_compat; auto).
  assert (K : forall d x, x / (cell hx hy hz d) ^ 2 = x * (ratio hx hy hz d / (smallest hx hy hz) ^ 2)).
  { intros d x. unfold ratio. pose proof (C d). field. split; lra. }
  rewrite !K.
  assert (PP : 0 < pairs hx hy hz).
  { unfold pairs. pose proof (Rmult_lt_0_compat _ _ (Rp AY) (Rp AZ)). pose proof (Rmult_lt_0_compat _ _ (Rp AZ) (Rp AX)). pose proof (Rmult_lt_0_compat _ _ (Rp AX) (Rp AY)). lra. }
  unfold m_of, reach, w_side, w_diag. cbn [across fst snd]. unfold pairs in *.
  set (a := ratio hx hy hz AX) in *. set (b := ratio hx hy hz AY) in *. set (c := ratio hx hy hz AZ) in *.
  set (sx := half_sin AX). set (sy := half_sin AY). set (sz := half_sin AZ). set (s := smallest hx hy hz) in *. clearbody a b c sx sy sz s.
  field. split; lra.
Qed.
Lemma half_sin_range d : 0 <= half_sin d <= 1.
Proof. unfold half_sin. pose proof (SIN_bound (kof d / 2)). split; [apply pow2_ge_0|]. nra. Qed.
Lemma ratio_range d : 0 <= ratio hx hy hz d <= 1.
Proof.
  assert (Sp : 0 < smallest hx hy hz) by (unfold smallest; repeat apply Rmin_case; assumption).
  assert (C : 0 < cell hx hy hz d) by (destruct d; assumption).
  assert (L : smallest hx hy hz <= cell hx hy hz d).
  { unfold smallest. pose proof (Rmin_l hx (Rmin hy hz)). pose proof (Rmin_r hx (Rmin hy hz)). pose proof (Rmin_l hy hz). pose proof (Rmin_r hy hz). destruct d; cbn [cell]; lra. }
  unfold ratio. split; [apply pow2_ge_0|].
  assert (0 <= smallest hx hy hz / cell hx hy hz d <= 1).
  { split; [apply Rlt_le; apply Rdiv_lt_0_compat; assumption|]. apply (Rmult_le_reg_r (cell hx hy hz d)); [assumption|]. unfold Rdiv. rewrite Rmult_assoc, Rinv_l by lra. lra. }
  nra.
Qed.
Lemma reach_range : 0 <= reach <= 1.
Proof.
  unfold reach.
  assert (F : forall d, 0 <= 1 - ratio hx hy hz d * half_sin d <= 1).
  { intros d. pose proof (half_sin_range d). pose proof (ratio_range d). nra. }
  pose proof (F AX) as X. pose proof (F AY) as Y. pose proof (F AZ) as Z.
  set (a := 1 - ratio hx hy hz AX * half_sin AX) in *. set (b := 1 - ratio hx hy hz AY * half_sin AY) in *. set (c := 1 - ratio hx hy hz AZ * half_sin AZ) in *.
  assert (0 <= a * b <= 1) by nra. nra.
Qed.
End Wave.

(** stability: the wave operator times (c dt)^2 has its values in [-4, 0] on every plane wave when c dt is at most the smallest cell size *)
Theorem ckc_stable c dt kx ky kz : 0 < hx -> 0 < hy -> 0 < hz -> 0 <= c * dt <= smallest hx hy hz ->
  exists mu, 0 <= mu <= 4 /\ forall phi p, (c * dt) ^ 2 * wave_op (ckc hx hy hz) hx hy hz (plane_wave kx ky kz phi) p = - mu * plane_wave kx ky kz phi p.
Proof.
  intros Px Py Pz CFL. pose proof (reach_range kx ky kz Px Py Pz) as Q.
  assert (Sp : 0 < smallest hx hy hz) by (unfold smallest; repeat apply Rmin_case; assumption).
  exists (4 * (c * dt / smallest hx hy hz) ^ 2 * reach kx ky kz). split.
  - assert (0 <= c * dt / smallest hx hy hz <= 1).
    { split; [apply Rmult_le_pos; [lra | apply Rlt_le, Rinv_0_lt_compat; assumption]|].
      apply (Rmult_le_reg_r (smallest hx hy hz)); [assumption|]. unfold Rdiv. rewrite Rmult_assoc, Rinv_l by lra. lra. }
    assert (0 <= (c * dt / smallest hx hy hz) ^ 2 <= 1) by nra. nra.
  - intros phi p. rewrite wave_symbol by assumption. field. lra.
Qed.
(** and the bound is exact *)
Theorem ckc_unstable c dt : 0 < hx -> 0 < hy -> 0 < hz -> smallest hx hy hz < c * dt ->
  exists kx ky kz mu, 4 < mu /\ forall phi p, (c * dt) ^ 2 * wave_op (ckc hx hy hz) hx hy hz (plane_wave kx ky kz phi) p = - mu * plane_wave kx ky kz phi p.
Proof.
  intros Px Py Pz CFL.
  assert (Sp : 0 < smallest hx hy hz) by (unfold smallest; repeat apply Rmin_case; assumption).
  assert (D : exists d, cell hx hy hz d = smallest hx hy hz).
  { unfold smallest, Rmin. destruct (Rle_dec hy hz); [destruct (Rle_dec hx hy); [exists AX | exists AY] | destruct (Rle_dec hx hz); [exists AX | exists AZ]]; reflexivity. }
  destruct D as [d D].
  exists (match d with AX => PI | _ => 0 end), (match d with AY => PI | _ => 0 end), (match d with AZ => PI | _ => 0 end), (4 * (c * dt / smallest hx hy hz) ^ 2).
  assert (Q : reach (match d with AX => PI | _ => 0 end) (match d with AY => PI | _ => 0 end) (match d with AZ => PI | _ => 0 end) = 1).
  { assert (R1 : ratio hx hy hz d = 1) by (unfold ratio; rewrite D; field; lra).
    assert (S1 : sin (PI / 2) ^ 2 = 1) by (rewrite sin_PI2; ring).
    assert (S0 : sin (0 / 2) ^ 2 = 0) by (unfold Rdiv; rewrite Rmult_0_l, sin_0; ring).
    unfold reach, half_sin. destruct d; cbn [kof]; rewrite S1, !S0, R1; ring. }
  split.
  - assert (1 < c * dt / smallest hx hy hz). { apply (Rmult_lt_reg_r (smallest hx hy hz)); [assumption|]. unfold Rdiv. rewrite Rmult_assoc, Rinv_l by lra. lra. }
    nra.
  - intros phi p. rewrite wave_symbol by assumption. rewrite Q. field. lra.
Qed.

(** the electric field obeys the wave equation *)
Theorem ckc_wave c dt (e b : nat -> rfield) : vacuum_run (ckc hx hy hz) hx hy hz c dt e b ->
  (forall p, div (bwd (yee hx hy hz)) (e 0%nat) p = 0) ->
  forall n p,
    comp_x (e (S (S n))) p - 2 * comp_x (e (S n)) p + comp_x (e n) p = (c * dt) ^ 2 * wave_op (ckc hx hy hz) hx hy hz (comp_x (e (S n))) p /\
    comp_y (e (S (S n))) p - 2 * comp_y (e (S n)) p + comp_y (e n) p = (c * dt) ^ 2 * wave_op (ckc hx hy hz) hx hy hz (comp_y (e (S n))) p /\
    comp_z (e (S (S n))) p - 2 * comp_z (e (S n)) p + comp_z (e n) p = (c * dt) ^ 2 * wave_op (ckc hx hy hz) hx hy hz (comp_z (e (S n))) p.
Proof.
  intros V D0. set (Bw := bwd (yee hx hy hz)) in *.
  assert (BL : forall d f g k p, Bw d (fun q => f q + k * g q) p = Bw d f p + k * Bw d g p).
  { intros. unfold Bw. rewrite !bwd_ap. apply ap_lin. }
  assert (BE : forall d f g p, (forall q, f q = g q) -> Bw d f p = Bw d g p).
  { intros. unfold Bw. rewrite !bwd_ap. apply ap_ext. intros; auto. }
  assert (BB : forall d d' f p, Bw d (Bw d' f) p = Bw d' (Bw d f) p).
  { intros. unfold Bw. rewrite !bwd_ap. transitivity (ap (bwd_op d) (ap (bwd_op d') f) p); [apply ap_ext; intros; apply bwd_ap|].
    rewrite ap_comm. apply ap_ext. intros. symmetry. apply bwd_ap. }
  assert (BS : forall d f g p, Bw d (fun q => f q - g q) p = Bw d f p - Bw d g p).
  { intros. transitivity (Bw d (fun q => f q + (-1) * g q) p); [apply BE; intros; ring|]. rewrite BL. ring. }
  assert (Dn : forall n p, div Bw (e n) p = 0).
  { induction n as [|n IH]; intros p; [apply D0|]. rewrite <- (IH p). unfold div.
    rewrite (BE AX (comp_x (e (S n))) (fun q => comp_x (e n) q + c ^ 2 * dt * comp_x (curl Bw (b (S n))) q)) by (intros q; apply (V n q)).
    rewrite (BE AY (comp_y (e (S n))) (fun q => comp_y (e n) q + c ^ 2 * dt * comp_y (curl Bw (b (S n))) q)) by (intros q; apply (V n q)).
    rewrite (BE AZ (comp_z (e (S n))) (fun q => comp_z (e n) q + c ^ 2 * dt * comp_z (curl Bw (b (S n))) q)) by (intros q; apply (V n q)).
    rewrite !BL. cbn [curl comp_x comp_y comp_z]. rewrite !BS. rewrite (BB AY AX), (BB AZ AX), (BB AZ AY). ring. }
  assert (CS : forall d f g h p, ckc hx hy hz d (fun q => f q + g q + h q) p = ckc hx hy hz d f p + ckc hx hy hz d g p + ckc hx hy hz d h p).
  { intros. transitivity (ckc hx hy hz d (fun q => (fun r => f r + 1 * g r) q + 1 * h q) p); [apply ckc_ext; intros; ring|]. rewrite !ckc_lin. ring. }
  assert (C0 : forall d n p, ckc hx hy hz d (Bw AX (comp_x (e n))) p + ckc hx hy hz d (Bw AY (comp_y (e n))) p + ckc hx hy hz d (Bw AZ (comp_z (e n))) p = 0).
  { intros d n p. rewrite <- CS. transitivity (ckc hx hy hz d (fun _ => 0 + 0 * 0) p).
    - apply ckc_ext. intros q _. pose proof (Dn n q) as Q. unfold div in Q. lra.
    - rewrite (ckc_lin d (fun _ => 0) (fun _ => 0) 0). rewrite ckc_ap.
      assert (Z : forall o, ap o (fun _ => 0) p = 0) by (induction o as [|[? ?] o IH]; cbn [ap]; [reflexivity | rewrite IH; ring]). rewrite Z. ring. }
  assert (BK : forall d d' f p, Bw d (ckc hx hy hz d' f) p = ckc hx hy hz d' (Bw d f) p) by (intros; apply bwd_ckc).
  intros n p.
  assert (Cb : forall d (sel : rfield -> idx -> R), (sel = comp_x \/ sel = comp_y \/ sel = comp_z) ->
     Bw d (sel (b (S (S n)))) p = Bw d (sel (b (S n))) p - dt * Bw d (sel (curl (ckc hx hy hz) (e (S n)))) p).
  { intros d sel Hs. transitivity (Bw d (fun q => sel (b (S n)) q + (- dt) * sel (curl (ckc hx hy hz) (e (S n))) q) p); [|rewrite BL; ring].
    apply BE. intros q. destruct (V (S n) q) as (B1 & B2 & B3 & _). cbv zeta in B1, B2, B3. destruct Hs as [-> | [-> | ->]]; lra. }
  destruct (V n p) as (_ & _ & _ & X1 & Y1 & Z1). destruct (V (S n) p) as (_ & _ & _ & X2 & Y2 & Z2). cbv zeta in X1, Y1, Z1, X2, Y2, Z2. fold Bw in X1, Y1, Z1, X2, Y2, Z2.
  cbn [curl comp_x comp_y comp_z] in X1, Y1, Z1, X2, Y2, Z2.
  rewrite (Cb AY comp_z), (Cb AZ comp_y) in X2 by auto. rewrite (Cb AZ comp_x), (Cb AX comp_z) in Y2 by auto. rewrite (Cb AX comp_y), (Cb AY comp_x) in Z2 by auto.
  cbn [curl comp_x comp_y comp_z] in X2, Y2, Z2. rewrite !BS in X2, Y2, Z2.
  pose proof (C0 AX (S n) p) as Cx. pose proof (C0 AY (S n) p) as Cy. pose proof (C0 AZ (S n) p) as Cz.
  unfold wave_op. fold Bw.
  rewrite (BK AY AX), (BK AZ AX) in X2. rewrite (BK AZ AY), (BK AX AY) in Y2. rewrite (BK AX AZ), (BK AY AZ) in Z2.
  rewrite (BK AX AX (comp_x (e (S n)))), (BK AY AY (comp_y (e (S n)))), (BK AZ AZ (comp_z (e (S n)))).
  repeat split.
  - replace (ckc hx hy hz AX (Bw AX (comp_x (e (S n)))) p) with (- (ckc hx hy hz AX (Bw AY (comp_y (e (S n)))) p + ckc hx hy hz AX (Bw AZ (comp_z (e (S n)))) p)) by lra.
    rewrite X2, X1. ring.
  - replace (ckc hx hy hz AY (Bw AY (comp_y (e (S n)))) p) with (- (ckc hx hy hz AY (Bw AX (comp_x (e (S n)))) p + ckc hx hy hz AY (Bw AZ (comp_z (e (S n)))) p)) by lra.
    rewrite Y2, Y1. ring.
  - replace (ckc hx hy hz AZ (Bw AZ (comp_z (e (S n)))) p) with (- (ckc hx hy hz AZ (Bw AX (comp_x (e (S n)))) p + ckc hx hy hz AZ (Bw AY (comp_y (e (S n)))) p)) by lra.
    rewrite Z2, Z1. ring.
Qed.

(** ** boundedness of a plane wave in a run *)
Lemma wave_op_lin f g k p : wave_op (ckc hx hy hz) hx hy hz (fun q => f q + k * g q) p =
  wave_op (ckc hx hy hz) hx hy hz f p + k * wave_op (ckc hx hy hz) hx hy hz g p.
Proof.
  unfold wave_op. rewrite !bwd_ap.
  assert (L : forall d, ap (bwd_op d) (ckc hx hy hz d (fun q => f q + k * g q)) p = ap (bwd_op d) (ckc hx hy hz d f) p + k * ap (bwd_op d) (ckc hx hy hz d g) p).
  { intros d. rewrite <- ap_lin. apply ap_ext. intros. apply ckc_lin. }
  rewrite !L. ring.
Qed.
Lemma wave_op_ext f g p : (forall q, f q = g q) -> wave_op (ckc hx hy hz) hx hy hz f p = wave_op (ckc hx hy hz) hx hy hz g p.
Proof.
  intros H. unfold wave_op. rewrite !bwd_ap.
  assert (L : forall d, ap (bwd_op d) (ckc hx hy hz d f) p = ap (bwd_op d) (ckc hx hy hz d g) p) by (intros d; apply ap_ext; intros; apply ckc_ext; auto).
  rewrite !L. reflexivity.
Qed.
Lemma wave_op_scale f k p : wave_op (ckc hx hy hz) hx hy hz (fun q => k * f q) p = k * wave_op (ckc hx hy hz) hx hy hz f p.
Proof.
  assert (Z : wave_op (ckc hx hy hz) hx hy hz (fun _ => 0) p = 0).
  { pose proof (wave_op_lin (fun _ => 0) (fun _ => 0) 1 p) as Q.
    rewrite (wave_op_ext (fun _ => 0 + 1 * 0) (fun _ => 0)) in Q by (intros; ring). lra. }
  transitivity (wave_op (ckc hx hy hz) hx hy hz (fun q => (fun _ => 0) q + k * f q) p); [apply wave_op_ext; intros; ring|].
  rewrite wave_op_lin, Z. ring.
Qed.
End H.

(** u(n+2) - 2 u(n+1) + u(n) = - mu u(n+1) with 0 < mu < 4 stays bounded *)
Lemma rec_bounded mu (u : nat -> R) : 0 < mu < 4 -> (forall n, u (S (S n)) - 2 * u (S n) + u n = - mu * u (S n)) -> exists M, forall n, Rabs (u n) <= M.
Proof.
  intros Hm Rec.
  set (Q n := (u (S n)) ^ 2 - (2 - mu) * u n * u (S n) + (u n) ^ 2).
  assert (Qc : forall n, Q n = Q 0%nat).
  { induction n as [|n IH]; [reflexivity|]. rewrite <- IH. unfold Q. assert (E : u (S (S n)) = (2 - mu) * u (S n) - u n) by (pose proof (Rec n); lra). rewrite E. ring. }
  set (m := Rmin mu (4 - mu)). assert (Pm : 0 < m) by (unfold m; apply Rmin_case; lra).
  assert (Pos : forall n, m / 2 * (u n) ^ 2 <= Q 0%nat).
  { intros n. rewrite <- (Qc n). unfold Q. pose proof (Rmin_l mu (4 - mu)). pose proof (Rmin_r mu (4 - mu)). fold m in H, H0.
    set (x := u n). set (y := u (S n)). clearbody x y.
    assert (S1 : 0 <= (x - y) ^ 2) by apply pow2_ge_0. assert (S2 : 0 <= (x + y) ^ 2) by apply pow2_ge_0. assert (Sy : 0 <= y ^ 2) by apply pow2_ge_0. assert (Sx : 0 <= x ^ 2) by apply pow2_ge_0.
    replace (y ^ 2 - (2 - mu) * x * y + x ^ 2) with ((4 - mu) / 4 * (x - y) ^ 2 + mu / 4 * (x + y) ^ 2) by field.
    assert (A1 : m * (x - y) ^ 2 <= (4 - mu) * (x - y) ^ 2) by (apply Rmult_le_compat_r; lra).
    assert (A2 : m * (x + y) ^ 2 <= mu * (x + y) ^ 2) by (apply Rmult_le_compat_r; lra).
    assert (A3 : m * ((x - y) ^ 2 + (x + y) ^ 2) = 2 * (m * x ^ 2) + 2 * (m * y ^ 2)) by ring.
    assert (0 <= m * y ^ 2) by (apply Rmult_le_pos; lra). lra. }
  exists (1 + 2 * Q 0%nat / m). intros n. pose proof (Pos n) as P.
  assert (P' : (u n) ^ 2 <= 2 * Q 0%nat / m).
  { apply (Rmult_le_reg_l (m / 2)); [lra|]. replace (m / 2 * (2 * Q 0%nat / m)) with (Q 0%nat) by (field; lra). exact P. }
  assert (Rabs (u n) ^ 2 = (u n) ^ 2) by apply pow2_abs. pose proof (Rabs_pos (u n)). nra.
Qed.

(** a plane wave in a run with c dt below the smallest cell size *)
Theorem ckc_bounded hx hy hz c dt e b kx ky kz phi a0 a1 (sel : rfield -> idx -> R) :
  0 < hx -> 0 < hy -> 0 < hz -> 0 < c * dt < smallest hx hy hz ->
  sin (kx / 2) <> 0 \/ sin (ky / 2) <> 0 \/ sin (kz / 2) <> 0 ->
  vacuum_run (ckc hx hy hz) hx hy hz c dt e b -> (forall p, div (bwd (yee hx hy hz)) (e 0%nat) p = 0) ->
  In sel [comp_x; comp_y; comp_z] ->
  (forall p, sel (e 0%nat) p = a0 * plane_wave kx ky kz phi p /\ sel (e 1%nat) p = a1 * plane_wave kx ky kz phi p) ->
  exists M, forall n p, Rabs (sel (e n) p) <= M.
Proof.
  intros Px Py Pz CFL K V D0 Hs I0.
  assert (Sp : 0 < smallest hx hy hz) by (unfold smallest; repeat apply Rmin_case; assumption).
  set (mu := 4 * (c * dt / smallest hx hy hz) ^ 2 * reach hx hy hz kx ky kz).
  assert (W : forall p, (c * dt) ^ 2 * wave_op (ckc hx hy hz) hx hy hz (plane_wave kx ky kz phi) p = - mu * plane_wave kx ky kz phi p).
  { intros p. rewrite wave_symbol by assumption. unfold mu. field. lra. }
  assert (Hmu : 0 < mu < 4).
  { assert (G : 0 < reach hx hy hz kx ky kz <= 1).
    { split; [|apply reach_range; assumption]. unfold reach.
      assert (F : forall d, 0 <= 1 - ratio hx hy hz d * half_sin kx ky kz d <= 1).
      { intros d. pose proof (half_sin_range kx ky kz d). pose proof (ratio_range hx hy hz Px Py Pz d). nra. }
      assert (G : forall d, sin (kof kx ky kz d / 2) <> 0 -> 1 - ratio hx hy hz d * half_sin kx ky kz d < 1).
      { intros d Hd. assert (0 < half_sin kx ky kz d) by (unfold half_sin; rewrite <- Rsqr_pow2; apply Rsqr_pos_lt; exact Hd).
        assert (0 < ratio hx hy hz d). { unfold ratio. apply pow_lt, Rdiv_lt_0_compat; [assumption|]. destruct d; assumption. }
        pose proof (Rmult_lt_0_compat _ _ H0 H). lra. }
      pose proof (F AX) as X. pose proof (F AY) as Y. pose proof (F AZ) as Z.
      pose proof (G AX) as X'. pose proof (G AY) as Y'. pose proof (G AZ) as Z'. cbn [kof] in X', Y', Z'.
      set (a := 1 - ratio hx hy hz AX * half_sin kx ky kz AX) in *. set (b' := 1 - ratio hx hy hz AY * half_sin kx ky kz AY) in *. set (c' := 1 - ratio hx hy hz AZ * half_sin kx ky kz AZ) in *.
      clearbody a b' c'.
      assert (AB : 0 <= a * b' <= 1) by nra. assert (AB1 : a * b' <= a) by nra. assert (AB2 : a * b' <= b') by nra.
      assert (ABC1 : a * b' * c' <= a * b') by nra. assert (ABC2 : a * b' * c' <= c') by nra.
      destruct K as [K|[K|K]]; [specialize (X' K) | specialize (Y' K) | specialize (Z' K)]; lra. }
    assert (T : 0 < c * dt / smallest hx hy hz < 1).
    { split; [apply Rdiv_lt_0_compat; lra|]. apply (Rmult_lt_reg_r (smallest hx hy hz)); [assumption|]. unfold Rdiv. rewrite Rmult_assoc, Rinv_l by lra. lra. }
    assert (T2 : 0 < (c * dt / smallest hx hy hz) ^ 2 < 1) by (split; [apply pow_lt; lra | nra]).
    unfold mu. set (t := (c * dt / smallest hx hy hz) ^ 2) in *. set (g := reach hx hy hz kx ky kz) in *. clearbody t g. split; nra. }
  assert (Wv : forall n p, sel (e (S (S n))) p - 2 * sel (e (S n)) p + sel (e n) p = (c * dt) ^ 2 * wave_op (ckc hx hy hz) hx hy hz (sel (e (S n))) p).
  { intros n p. destruct (ckc_wave hx hy hz c dt e b V D0 n p) as (X & Y & Z). cbn [In] in Hs. destruct Hs as [<- | [<- | [<- | []]]]; assumption. }
  set (u := fix u n := match n with O => a0 | S O => a1 | S (S m as n') => 2 * u n' - u m - mu * u n' end).
  assert (Ru : forall n, u (S (S n)) - 2 * u (S n) + u n = - mu * u (S n)).
  { intros n. change (u (S (S n))) with (2 * u (S n) - u n - mu * u (S n)). ring. }
  assert (Eu : forall n, (forall p, sel (e n) p = u n * plane_wave kx ky kz phi p) /\ (forall p, sel (e (S n)) p = u (S n) * plane_wave kx ky kz phi p)).
  { induction n as [|n [IH1 IH2]]; [split; intros p; apply (I0 p)|]. split; [exact IH2|]. intros p.
    pose proof (Wv n p) as Q. rewrite IH1, IH2 in Q. rewrite (wave_op_ext hx hy hz _ (fun q => u (S n) * plane_wave kx ky kz phi q)) in Q by exact IH2.
    rewrite wave_op_scale in Q. pose proof (W p) as Wp. pose proof (Ru n) as Rn.
    replace ((c * dt) ^ 2 * (u (S n) * wave_op (ckc hx hy hz) hx hy hz (plane_wave kx ky kz phi) p)) with (u (S n) * ((c * dt) ^ 2 * wave_op (ckc hx hy hz) hx hy hz (plane_wave kx ky kz phi) p)) in Q by ring.
    rewrite Wp in Q. replace (u (S (S n))) with (2 * u (S n) - u n - mu * u (S n)) by reflexivity. lra. }
  destruct (rec_bounded mu u Hmu Ru) as [M HM]. exists M. intros n p. destruct (Eu n) as [E _]. rewrite E, Rabs_mult.
  assert (Rabs (plane_wave kx ky kz phi p) <= 1) by (unfold plane_wave; apply Rabs_le; pose proof (COS_bound (phase kx ky kz phi p)); lra).
  pose proof (HM n). pose proof (Rabs_pos (u n)). pose proof (Rabs_pos (plane_wave kx ky kz phi p)). nra.
Qed.
