(** Proofs about Pushers.v. *)
From Coq Require Import ZArith Reals List Bool Lia Lra Psatz.
From Verif Require Import Cxx Num NumRX Fortran Pushers SpecPhys SpecPush CxxLemmas RXLemmas FortranLemmas ChiProofs.
Import ListNotations.
Local Open Scope Z_scope.

(** ** The loops *)
Lemma zlen_app_cons {A} (l1 : list A) a l2 : 1 <= 1 + zlen l1 <= zlen (l1 ++ a :: l2).
Proof. unfold zlen. rewrite app_length. cbn [length]. lia. Qed.

Lemma get1_mid {A} (l1 : list A) a l2 : get1 (l1 ++ a :: l2) (1 + zlen l1) = Ret a.
Proof.
  rewrite (get1_ok _ _ a) by apply zlen_app_cons. f_equal.
  replace (Z.to_nat (1 + zlen l1 - 1)) with (length l1) by (unfold zlen; lia). apply nth_middle.
Qed.

Lemma lset_mid {A} (l1 : list A) a l2 b : lset (l1 ++ a :: l2) (length l1) b = l1 ++ b :: l2.
Proof. induction l1; cbn; [reflexivity|now rewrite IHl1]. Qed.

Lemma set1_mid {A} (l1 : list A) a l2 b : set1 (l1 ++ a :: l2) (1 + zlen l1) b = Ret (l1 ++ b :: l2).
Proof.
  rewrite set1_ok by apply zlen_app_cons. f_equal.
  replace (Z.to_nat (1 + zlen l1 - 1)) with (length l1) by (unfold zlen; lia). apply lset_mid.
Qed.

Definition map2 {A B} (body : B -> A -> A) (fs : list B) (ps : list A) : list A :=
  map (fun fp => body (fst fp) (snd fp)) (combine fs ps).

Lemma for_loop_map2 {A B} (body : B -> A -> A) (ps : list A) : forall (fs : list B) dps dfs,
  length ps = length fs -> length dps = length dfs ->
  do_loop (length ps) (1 + zlen dps)
    (fun ip s => do p <- get1 s ip; do f <- get1 (dfs ++ fs) ip; set1 s ip (body f p)) (dps ++ ps)
  = Ret (dps ++ map2 body fs ps).
Proof.
  induction ps as [|p ps IH]; intros [|f fs] dps dfs H H1; try discriminate.
  - reflexivity.
  - cbn [length do_loop]. rewrite get1_mid. cbn [bind].
    replace (1 + zlen dps) with (1 + zlen dfs) at 1 by (unfold zlen; lia). rewrite get1_mid. cbn [bind].
    rewrite set1_mid. cbn [bind].
    specialize (IH fs (dps ++ [body f p]) (dfs ++ [f])).
    rewrite <- !app_assoc in IH. cbn [app] in IH.
    replace (1 + zlen dps + 1) with (1 + zlen (dps ++ [body f p])) by (unfold zlen; rewrite app_length; cbn [length]; lia).
    rewrite IH; [reflexivity|now injection H|rewrite !app_length; cbn [length]; lia].
Qed.

Lemma for_particles_map2 {A B} (body : B -> A -> A) fs ps : length ps = length fs ->
  for_particles (Z.of_nat (length ps)) body fs ps = Ret (map2 body fs ps).
Proof.
  intros H. unfold for_particles, do_range.
  replace (Z.to_nat (Z.of_nat (length ps) - 1 + 1)) with (length ps) by lia.
  exact (for_loop_map2 body ps fs [] [] H eq_refl).
Qed.

Lemma map2_length {A B} (body : B -> A -> A) fs ps : length ps = length fs -> length (map2 body fs ps) = length ps.
Proof. intros H. unfold map2. rewrite map_length, combine_length. lia. Qed.

Lemma map2_nth {A B} (body : B -> A -> A) : forall fs ps i p f,
  nth_error ps i = Some p -> nth_error fs i = Some f -> nth_error (map2 body fs ps) i = Some (body f p).
Proof.
  induction fs as [|f0 fs IH]; intros [|p0 ps] [|i] p f H1 H2; cbn in *; try discriminate.
  - congruence.
  - now apply IH.
Qed.

Lemma particlewise_for {A B} (body : B -> A -> A) : particlewise (fun np ps fs => for_particles np body fs ps).
Proof.
  intros ps fs H. exists (map2 body fs ps). split; [now apply for_particles_map2|]. split; [now apply map2_length|].
  intros i p f H1 H2. exists (body f p). split; [|now apply map2_nth].
  exact (for_particles_map2 body [f] [p] eq_refl).
Qed.

Lemma do_loop_shift {S} (f : Z -> S -> out S) d n : forall i s,
  do_loop n i (fun k s => f (d + k)%Z s) s = do_loop n (d + i) f s.
Proof.
  induction n as [|n IH]; intros i s; [reflexivity|]. cbn [do_loop].
  destruct (f (d + i) s); cbn [bind]; try reflexivity. rewrite IH. now replace (d + (i + 1)) with (d + i + 1) by lia.
Qed.

Lemma do_step_blocks {S} (f : Z -> S -> out S) hi step : 1 <= step -> forall n i s,
  Z.of_nat n = Z.max 0 ((hi - i + step) / step) ->
  do_step n i step (fun ip s => do_range 1 (Z.min step (hi - ip + 1)) (fun k s => f (ip + k - 1) s) s) s
  = do_range i hi f s.
Proof.
  intros Hs. induction n as [|n IH]; intros i s Hn.
  - cbn [do_step]. assert (hi < i).
    { destruct (Z.lt_ge_cases hi i); [assumption|]. assert (1 <= (hi - i + step) / step) by (apply Z.div_le_lower_bound; lia). lia. }
    now rewrite do_range_empty.
  - cbn [do_step].
    assert (Hq : (hi - i + step) / step = (hi - (i + step) + step) / step + 1).
    { replace (hi - i + step) with (hi - (i + step) + step + 1 * step) by lia. rewrite Z.div_add by lia. lia. }
    assert (Hi : i <= hi).
    { destruct (Z.lt_ge_cases hi i); [|assumption]. assert ((hi - i + step) / step < 1) by (apply Z.div_lt_upper_bound; lia). lia. }
    unfold do_range at 1.
    replace (Z.to_nat (Z.min step (hi - i + 1) - 1 + 1)) with (Z.to_nat (Z.min step (hi - i + 1))) by lia.
    rewrite (do_loop_ext _ (fun k s => f ((i - 1) + k) s)).
    2:{ intros j t _. f_equal. lia. }
    rewrite do_loop_shift. replace (i - 1 + 1) with i by lia.
    unfold do_range at 2.
    destruct (Z.le_gt_cases (hi - i + 1) step) as [Hle|Hgt].
    + rewrite Z.min_r by lia. replace (hi - i + 1) with (hi - i + 1) by lia.
      destruct (do_loop (Z.to_nat (hi - i + 1)) i f s) as [t| | |]; cbn [bind]; try reflexivity.
      assert (n = O). { assert ((hi - i + step) / step < 2) by (apply Z.div_lt_upper_bound; lia). lia. }
      subst n. reflexivity.
    + rewrite Z.min_l by lia.
      replace (Z.to_nat (hi - i + 1)) with (Z.to_nat step + Z.to_nat (hi - (i + step) + 1))%nat by lia.
      rewrite do_loop_app. destruct (do_loop (Z.to_nat step) i f s) as [t| | |]; cbn [bind]; try reflexivity.
      rewrite IH.
      * unfold do_range. now replace (i + Z.of_nat (Z.to_nat step)) with (i + step) by lia.
      * assert (1 <= (hi - (i + step) + step) / step) by (apply Z.div_le_lower_bound; lia). lia.
Qed.

Lemma boris_block {N : NumOps} (K : Consts N) np ps fs q m dt lvect : 1 <= lvect ->
  pxr_boris_push_u_3d_block K np ps fs q m dt lvect = pxr_boris_push_u_3d K np ps fs q m dt.
Proof.
  intros Hl. unfold pxr_boris_push_u_3d_block, pxr_boris_push_u_3d, for_particles.
  set (cst := n_div _ _). set (cl := n_div _ (sq _)).
  apply (do_step_blocks (fun ip s => do p <- get1 s ip; do f <- get1 fs ip; set1 s ip (boris1 cst cl f p)) np lvect Hl).
  rewrite Z2Nat.inj_pos || idtac.
  destruct (Z.le_gt_cases 0 ((np - 1 + lvect) / lvect)) as [H|H].
  - rewrite Z2Nat.id by lia. lia.
  - replace (Z.to_nat ((np - 1 + lvect) / lvect)) with O by lia. lia.
Qed.

Lemma set_gamma_map2 {N : NumOps} (K : Consts N) ps :
  pxr_set_gamma K (Z.of_nat (length ps)) ps = Ret (map (set_gamma1 (n_div (n_lit 1 0) (sq (clight K)))) ps).
Proof.
  unfold pxr_set_gamma, do_range. replace (Z.to_nat (Z.of_nat (length ps) - 1 + 1)) with (length ps) by lia.
  set (cl := n_div _ _).
  assert (H : forall ps d, do_loop (length ps) (1 + zlen d) (fun ip s => do p <- get1 s ip; set1 s ip (set_gamma1 cl p)) (d ++ ps)
     = Ret (d ++ map (set_gamma1 cl) ps)).
  { clear. induction ps as [|p ps IH]; intros d; [reflexivity|]. cbn [length do_loop map].
    rewrite get1_mid. cbn [bind]. rewrite set1_mid. cbn [bind].
    specialize (IH (d ++ [set_gamma1 cl p])). rewrite <- !app_assoc in IH. cbn [app] in IH.
    rewrite <- IH. f_equal. unfold zlen. rewrite app_length. cbn [length]. lia. }
  exact (H ps []).
Qed.

(** ** Exact arithmetic *)
Local Open Scope R_scope.
Section X.
Variable tg : R -> R.
Notation PART := (Part tg). Notation FIELD := (Field tg).

Lemma every_particle_for (body : fld (RX tg) -> mom (RX tg) -> mom (RX tg)) (fu : R3 * R3 -> R3 * R -> R3 * R) (S : R3 -> R -> R3 -> R3 -> R3 -> R -> Prop) :
  (forall f p, body (FIELD f) (PART p) = PART (fu f p)) ->
  (forall E B u g, S u g E B (fst (fu (E, B) (u, g))) (snd (fu (E, B) (u, g)))) ->
  every_particle tg (fun np ps fs => for_particles np body fs ps) S.
Proof.
  intros Hb HS parts fields Hl. exists (map2 fu fields parts). split; [|split; [now apply map2_length|]].
  - rewrite <- (map_length PART parts). rewrite for_particles_map2 by now rewrite !map_length.
    f_equal. clear HS. revert fields Hl. induction parts as [|p ps IH]; intros [|f fs] Hl; try discriminate; [reflexivity|].
    unfold map2 in *. cbn [map combine fst snd]. rewrite Hb. f_equal. apply IH. now injection Hl.
  - intros i u g E B u' g' H1 H2 H3. rewrite (map2_nth _ _ _ _ _ _ H1 H2) in H3. injection H3 as H3.
    specialize (HS E B u g). rewrite H3 in HS. exact HS.
Qed.

Lemma every_particle_mono push (S S' : R3 -> R -> R3 -> R3 -> R3 -> R -> Prop) :
  every_particle tg push S -> (forall u g E B u' g', S u g E B u' g' -> S' u g E B u' g') -> every_particle tg push S'.
Proof.
  intros H HS parts fields Hl. destruct (H parts fields Hl) as (ps' & E1 & E2 & E3).
  exists ps'. split; [exact E1|]. split; [exact E2|]. intros. eapply HS, E3; eauto.
Qed.

Lemma every_particle_seq push1 push2 (S1 S2 S : R3 -> R -> R3 -> R3 -> R3 -> R -> Prop) :
  every_particle tg push1 S1 -> every_particle tg push2 S2 ->
  (forall u g E B u' g' u'' g'', S1 u g E B u' g' -> S2 u' g' E B u'' g'' -> S u g E B u'' g'') ->
  every_particle tg (fun np ps fs => do ps' <- push1 np ps fs; push2 np ps' fs) S.
Proof.
  intros H1 H2 HS parts fields Hl. destruct (H1 parts fields Hl) as (ps' & E1 & L1 & P1).
  destruct (H2 ps' fields ltac:(congruence)) as (ps'' & E2 & L2 & P2).
  exists ps''. rewrite L1 in E2. split; [|split; [congruence|]].
  - rewrite E1. cbn [bind]. exact E2.
  - intros i u g E B u'' g'' A1 A2 A3.
    destruct (nth_error ps' i) as [[u' g']|] eqn:A.
    + eapply HS; [eapply P1; eauto|eapply P2; eauto].
    + exfalso. apply nth_error_None in A. assert (nth_error ps'' i <> None) by congruence. apply nth_error_Some in H. lia.
Qed.

Lemma sqrt_gt0 w : 0 <= w -> 0 < sqrt (1 + w).
Proof. intros. apply sqrt_lt_R0. lra. Qed.

Lemma gaminv_fin w a b d : 0 <= w ->
  @gaminv_of (RX tg) (Fin w) (Fin a) (Fin b) (Fin d) = Fin (1 / sqrt (1 + (a * a + b * b + d * d) * w)).
Proof.
  intros Hw. assert (H : 0 <= (a * a + b * b + d * d) * w) by (apply Rmult_le_pos; nra).
  unfold gaminv_of, usq, sq. cbn [n_add n_mul n_div n_sqrt n_lit RX x_lit x_add x_mul].
  rewrite x_sqrt_fin by lra. rewrite x_div_fin; [reflexivity|]. apply Rgt_not_eq, sqrt_gt0, H.
Qed.

(** the rotation computed with t, before the equation it satisfies *)
Definition rotR (t u : R3) : R3 := add3 u (cross3 (add3 u (cross3 u t)) (scale3 (2 / (1 + dot3 t t)) t)).

Lemma rotate_fin k g E B u g0 :
  @Pushers.rotate (RX tg) (Fin k) (Fin g) (FIELD (E, B)) (PART (u, g0)) = PART (rotR (scale3 (k * g) B) u, g0).
Proof.
  unfold Pushers.rotate, Field, Part, sq.
  cbn [n_add n_sub n_mul n_div n_lit RX x_lit x_add x_sub x_mul ux uy uz gi bx by_ bz].
  rewrite x_div_fin by nra. cbn [x_mul x_sub x_add].
  unfold rotR, add3, cross3, scale3, dot3. cbn [x3 y3 z3].
  replace (1 + (k * g * x3 B * (k * g * x3 B) + k * g * y3 B * (k * g * y3 B) + k * g * z3 B * (k * g * z3 B)))
    with (1 + g * x3 B * k * (g * x3 B * k) + g * y3 B * k * (g * y3 B * k) + g * z3 B * k * (g * z3 B * k)) by ring.
  f_equal; f_equal; ring.
Qed.

Ltac r3f := apply r3_ext; unfold rotR, add3, sub3, cross3, scale3, dot3, zero3; cbn [x3 y3 z3].
Lemma one_dot_pos t : 0 < 1 + dot3 t t.
Proof. pose proof (dot3_nonneg t). lra. Qed.
Lemma rot_implicit t u : sub3 (rotR t u) u = cross3 (add3 u (rotR t u)) t.
Proof. pose proof (one_dot_pos t) as H. unfold dot3 in H. r3f; field; lra. Qed.
Lemma rot_norm t u : dot3 (rotR t u) (rotR t u) = dot3 u u.
Proof. pose proof (one_dot_pos t) as H. unfold dot3 in H. unfold rotR, add3, cross3, scale3, dot3. cbn [x3 y3 z3]. field. lra. Qed.
Lemma rot_back t u : rotR (scale3 (-1) t) (rotR t u) = u.
Proof.
  pose proof (one_dot_pos t) as H. unfold dot3 in H. r3f; field; repeat split; apply Rgt_not_eq; nra.
Qed.
Lemma rot_zero u t : t = zero3 -> rotR t u = u.
Proof. intros ->. r3f; field. Qed.

Lemma inv_gamma_eq c u : inv_gamma c u = 1 / sqrt (1 + (x3 u * x3 u + y3 u * y3 u + z3 u * z3 u) * (1 / (c * c))).
Proof. unfold inv_gamma, dot3. do 3 f_equal. unfold Rdiv. ring. Qed.

Lemma inv_gamma_pos c u : 0 < c -> 0 < inv_gamma c u.
Proof.
  intros Hc. unfold inv_gamma. apply Rdiv_lt_0_compat; [lra|]. apply sqrt_gt0.
  apply Rmult_le_pos; [apply dot3_nonneg|]. left. apply Rinv_0_lt_compat. nra.
Qed.

Lemma w_pos c : 0 < c -> 0 <= 1 / (c * c).
Proof. intros. left. apply Rdiv_lt_0_compat; nra. Qed.

Lemma set_gamma1_fin c u g : 0 < c ->
  @set_gamma1 (RX tg) (Fin (1 / (c * c))) (PART (u, g)) = PART (u, inv_gamma c u).
Proof.
  intros Hc. unfold set_gamma1, Part. cbn [ux uy uz]. rewrite gaminv_fin by now apply w_pos. now rewrite inv_gamma_eq.
Qed.

Lemma kick_fin k E B u g : @kick (RX tg) (Fin k) (FIELD (E, B)) (PART (u, g)) = PART (add3 u (scale3 k E), g).
Proof. unfold kick, Part, Field, add3, scale3. cbn. f_equal; f_equal; ring. Qed.

Definition borisR (c k : R) (f : R3 * R3) (p : R3 * R) : R3 * R :=
  let um := add3 (fst p) (scale3 k (fst f)) in
  let u' := add3 (rotR (scale3 (k * inv_gamma c um) (snd f)) um) (scale3 k (fst f)) in
  (u', inv_gamma c u').

Lemma boris1_fin c k f p : 0 < c -> @boris1 (RX tg) (Fin k) (Fin (1 / (c * c))) (FIELD f) (PART p) = PART (borisR c k f p).
Proof.
  intros Hc. destruct f as [E B], p as [u g]. unfold boris1, borisR. cbn [fst snd]. rewrite kick_fin.
  set (um := add3 u _).
  replace (gaminv_of _ (ux _) _ _) with (Fin (inv_gamma c um) : num (RX tg)).
  2:{ unfold Part. cbn [ux uy uz]. rewrite gaminv_fin by now apply w_pos. now rewrite inv_gamma_eq. }
  rewrite rotate_fin, kick_fin, set_gamma1_fin by assumption. reflexivity.
Qed.

Lemma borisR_step c k E B u g : boris_step c k u E B (fst (borisR c k (E, B) (u, g))) /\
  snd (borisR c k (E, B) (u, g)) = inv_gamma c (fst (borisR c k (E, B) (u, g))).
Proof.
  split; [|reflexivity]. cbn [borisR fst snd].
  exists (add3 u (scale3 k E)), (rotR (scale3 (k * inv_gamma c (add3 u (scale3 k E))) B) (add3 u (scale3 k E))).
  split; [reflexivity|]. split; [|reflexivity]. apply rot_implicit.
Qed.

(** the constants the routines compute *)
Lemma half_const q m dt : m <> 0 -> @n_div (RX tg) (@n_mul (RX tg) (@n_mul (RX tg) (Fin q) (Fin dt)) (@n_lit (RX tg) 5 (-1))) (Fin m)
  = Fin (q * dt / (2 * m)).
Proof. intros H. cbn [n_mul n_div n_lit RX x_lit x_mul]. rewrite x_div_fin by exact H. f_equal. cbn. field. exact H. Qed.
Lemma clsq c : c <> 0 -> @n_div (RX tg) (@n_lit (RX tg) 1 0) (@sq (RX tg) (Fin c)) = Fin (1 / (c * c)).
Proof. intros H. unfold sq. cbn [n_mul n_div n_lit RX x_lit x_mul]. rewrite x_div_fin; [reflexivity|nra]. Qed.

Section Push.
Variables c mu e p q m dt : R.
Hypothesis Hc : 0 < c.
Hypothesis Hm : m <> 0.
Notation K := (Constants tg c mu e p).
Notation k := (q * dt / (2 * m)).

Lemma boris_every (S : R3 -> R -> R3 -> R3 -> R3 -> R -> Prop) :
  (forall E B u g, S u g E B (fst (borisR c k (E, B) (u, g))) (snd (borisR c k (E, B) (u, g)))) ->
  every_particle tg (fun np ps fs => pxr_boris_push_u_3d K np ps fs (Fin q : num (RX tg)) (Fin m : num (RX tg)) (Fin dt : num (RX tg))) S.
Proof.
  intros HS. unfold pxr_boris_push_u_3d. cbn [clight Constants].
  rewrite half_const by exact Hm. rewrite clsq by lra.
  apply (every_particle_for _ (borisR c k)); [|exact HS].
  intros f a. now apply boris1_fin.
Qed.

Lemma boris_follows : every_particle tg
  (fun np ps fs => pxr_boris_push_u_3d K np ps fs (Fin q : num (RX tg)) (Fin m : num (RX tg)) (Fin dt : num (RX tg)))
  (fun u g E B u' g' => boris_step c k u E B u' /\ g' = inv_gamma c u').
Proof. apply boris_every. intros. apply borisR_step. Qed.

Lemma boris_magnetic : every_particle tg
  (fun np ps fs => pxr_boris_push_u_3d K np ps fs (Fin q : num (RX tg)) (Fin m : num (RX tg)) (Fin dt : num (RX tg)))
  (fun u g E B u' g' => E = zero3 -> dot3 u' u' = dot3 u u /\ (g = inv_gamma c u -> g' = g)).
Proof.
  apply boris_every. intros E B u g ->. cbn [borisR fst snd].
  assert (Z : forall v, add3 v (scale3 k zero3) = v) by (intros v; r3f; ring).
  rewrite !Z. assert (H := rot_norm (scale3 (k * inv_gamma c u) B) u).
  split; [exact H|]. intros ->. unfold inv_gamma at 1. rewrite H. reflexivity.
Qed.

Lemma boris_electric : every_particle tg
  (fun np ps fs => pxr_boris_push_u_3d K np ps fs (Fin q : num (RX tg)) (Fin m : num (RX tg)) (Fin dt : num (RX tg)))
  (fun u g E B u' g' => B = zero3 -> u' = add3 u (scale3 (q * dt / m) E)).
Proof.
  apply boris_every. intros E B u g ->. cbn [borisR fst snd].
  rewrite rot_zero by (r3f; ring). r3f; field; exact Hm.
Qed.
End Push.

Lemma boris_step_unique c k u E B a b : boris_step c k u E B a -> boris_step c k u E B b -> a = b.
Proof.
  intros (um1 & up & -> & H1 & ->) (um2 & up' & -> & H2 & ->). f_equal.
  set (t := scale3 _ B) in *. set (w := add3 u _) in *.
  assert (H : sub3 up up' = cross3 (sub3 up up') t).
  { transitivity (sub3 (sub3 up w) (sub3 up' w)); [r3f; ring|]. rewrite H1, H2. r3f; ring. }
  assert (Hd : dot3 (sub3 up up') (sub3 up up') = 0).
  { rewrite H at 1. unfold dot3, cross3. cbn [x3 y3 z3]. ring. }
  apply dot3_zero in Hd. injection Hd as A1 A2 A3. apply r3_ext; lra.
Qed.

Lemma borisR_back c k E B u g : borisR c (- k) (E, B) (borisR c k (E, B) (u, g)) = (u, inv_gamma c u).
Proof.
  unfold borisR. cbn [fst snd]. set (um := add3 u (scale3 k E)).
  set (up := rotR (scale3 (k * inv_gamma c um) B) um).
  replace (add3 (add3 up (scale3 k E)) (scale3 (- k) E)) with up by (r3f; ring).
  assert (Hg : inv_gamma c up = inv_gamma c um) by (unfold inv_gamma, up; now rewrite rot_norm).
  rewrite Hg.
  replace (scale3 (- k * inv_gamma c um) B) with (scale3 (-1) (scale3 (k * inv_gamma c um) B)) by (r3f; ring).
  unfold up. rewrite rot_back.
  replace (add3 um (scale3 (- k) E)) with u by (unfold um; r3f; ring). reflexivity.
Qed.

Section Push2.
Variables c mu e p q m dt : R.
Hypothesis Hc : 0 < c.
Hypothesis Hm : m <> 0.
Notation K := (Constants tg c mu e p).
Notation k := (q * dt / (2 * m)).

Lemma boris_reversible : every_particle tg
  (fun np ps fs =>
     do ps' <- pxr_boris_push_u_3d K np ps fs (Fin q : num (RX tg)) (Fin m : num (RX tg)) (Fin dt : num (RX tg));
     pxr_boris_push_u_3d K np ps' fs (Fin q : num (RX tg)) (Fin m : num (RX tg)) (Fin (- dt) : num (RX tg)))
  (fun u g E B u' g' => u' = u /\ (g = inv_gamma c u -> g' = g)).
Proof.
  eapply every_particle_seq.
  - apply (boris_every c mu e p q m dt Hc Hm (fun u g E B u' g' => (u', g') = borisR c k (E, B) (u, g))).
    intros. symmetry. apply surjective_pairing.
  - apply (boris_every c mu e p q m (- dt) Hc Hm (fun u g E B u' g' => (u', g') = borisR c (- k) (E, B) (u, g))).
    intros. replace (q * - dt / (2 * m)) with (- k) by (field; exact Hm). symmetry. apply surjective_pairing.
  - cbv beta. intros u g E B u' g' u'' g'' H1 H2. rewrite H1, borisR_back in H2. injection H2 as -> ->. split; congruence.
Qed.

Lemma full_const x : @n_div (RX tg) (@n_mul (RX tg) (Fin q) (Fin x)) (Fin m) = Fin (q * x / m).
Proof. cbn [n_mul n_div RX x_mul]. now rewrite x_div_fin by exact Hm. Qed.

Lemma map_map2_body (body : fld (RX tg) -> mom (RX tg) -> mom (RX tg)) fu fields parts : length parts = length fields ->
  (forall f a, body (FIELD f) (PART a) = PART (fu f a)) ->
  for_particles (Z.of_nat (length parts)) body (map FIELD fields) (map PART parts) = Ret (map PART (map2 fu fields parts)).
Proof.
  intros Hl Hb. rewrite <- (map_length PART parts). rewrite for_particles_map2 by now rewrite !map_length.
  f_equal. revert fields Hl. induction parts as [|a ps IH]; intros [|f fs] Hl; try discriminate; [reflexivity|].
  unfold map2 in *. cbn [map combine fst snd]. rewrite Hb. f_equal. apply IH. now injection Hl.
Qed.

Lemma boris_split (parts : list (R3 * R)) (fields : list (R3 * R3)) : length parts = length fields ->
  let np := Z.of_nat (length parts) in let ps := map PART parts in let fs := map FIELD fields in
  let Q := Fin q : num (RX tg) in let M := Fin m : num (RX tg) in
  (do s1 <- pxr_epush_v np ps fs Q M (Fin (dt / 2) : num (RX tg));
   do s2 <- pxr_set_gamma K np s1;
   do s3 <- pxr_bpush_v np s2 fs Q M (Fin dt : num (RX tg));
   do s4 <- pxr_epush_v np s3 fs Q M (Fin (dt / 2) : num (RX tg));
   pxr_set_gamma K np s4) = pxr_boris_push_u_3d K np ps fs Q M (Fin dt : num (RX tg)).
Proof.
  intros Hl np ps fs Q M. unfold pxr_epush_v, pxr_bpush_v, pxr_boris_push_u_3d, Q, M, ps, fs, np.
  cbn [clight Constants]. rewrite !full_const, half_const, clsq by (exact Hm || lra).
  replace (q * (dt / 2) / m) with k by (field; exact Hm).
  assert (SG : forall l : list (R3 * R), length l = length parts -> pxr_set_gamma K (Z.of_nat (length parts)) (map PART l)
    = Ret (map PART (map (fun a => (fst a, inv_gamma c (fst a))) l))).
  { intros l E. rewrite <- E, <- (map_length PART l), set_gamma_map2. cbn [clight Constants]. rewrite clsq by lra.
    f_equal. rewrite !map_map. apply map_ext. intros [u g]. now apply set_gamma1_fin. }
  set (fk := fun (f : R3 * R3) (a : R3 * R) => (add3 (fst a) (scale3 k (fst f)), snd a)).
  set (fr := fun (f : R3 * R3) (a : R3 * R) => (rotR (scale3 (k * snd a) (snd f)) (fst a), snd a)).
  assert (Hk : forall f a, @kick (RX tg) (Fin k) (FIELD f) (PART a) = PART (fk f a)).
  { intros [E B] [u g]. apply kick_fin. }
  assert (Hr : forall f a, (fun f p => @Pushers.rotate (RX tg) (Fin k) (gi p) f p) (FIELD f) (PART a) = PART (fr f a)).
  { intros [E B] [u g]. cbv beta. change (gi (PART (u, g))) with (Fin g : num (RX tg)). apply rotate_fin. }
  rewrite (map_map2_body _ fk) by (exact Hl || exact Hk). cbn [bind].
  rewrite SG by now apply map2_length. cbn [bind].
  assert (L1 : length (map (fun a : R3 * R => (fst a, inv_gamma c (fst a))) (map2 fk fields parts)) = length parts)
    by (rewrite map_length; now apply map2_length).
  rewrite <- L1 at 1. rewrite (map_map2_body _ fr) by (congruence || exact Hr). cbn [bind].
  set (l1 := map _ (map2 fk fields parts)) in *.
  assert (L2 : length (map2 fr fields l1) = length parts) by (rewrite map2_length; congruence).
  rewrite <- L2 at 1. rewrite (map_map2_body _ fk) by (congruence || exact Hk). cbn [bind].
  rewrite SG by (rewrite map2_length; congruence).
  rewrite (map_map2_body _ (borisR c k)) by (exact Hl || (intros; now apply boris1_fin)).
  do 2 f_equal. subst l1. clear - Hl. revert fields Hl.
  induction parts as [|[u g] ps IH]; intros [|[E B] fs] Hl; try discriminate; [reflexivity|].
  unfold map2 in *. cbn [map combine fst snd]. f_equal. apply IH; now injection Hl.
Qed.
End Push2.

(** ** Vay pusher *)
Definition vden (c k : R) (B U : R3) : R :=
  let tau := scale3 k B in let us := dot3 U tau / c in
  let sigma := 1 + dot3 U U / (c * c) - dot3 tau tau in
  sigma + sqrt (sigma * sigma + 4 * (dot3 tau tau + us * us)).

Lemma vden_spec c k B U : 0 < c ->
  let G := vden c k B U / 2 in let tau := scale3 k B in let us := dot3 U tau / c in
  0 < G /\ G * G - (1 + dot3 U U / (c * c) - dot3 tau tau) * G - (dot3 tau tau + us * us) = 0.
Proof.
  intros Hc. cbv zeta. unfold vden. set (tau := scale3 k B). set (us := dot3 U tau / c).
  set (sg := 1 + dot3 U U / (c * c) - dot3 tau tau).
  assert (Ht := dot3_nonneg tau).
  assert (HU : 0 <= dot3 U U / (c * c)).
  { apply Rmult_le_pos; [apply dot3_nonneg|]. left. apply Rinv_0_lt_compat. nra. }
  assert (Hp : 0 <= sg * sg + 4 * (dot3 tau tau + us * us)) by nra.
  assert (Hq := sqrt_sqrt _ Hp). assert (Hn := sqrt_pos (sg * sg + 4 * (dot3 tau tau + us * us))).
  set (r := sqrt _) in *. split; [|nra].
  destruct (Rle_or_lt (sg + r) 0) as [H|H]; [|lra]. exfalso.
  assert (r * r <= sg * sg) by nra.
  assert (dot3 tau tau = 0) by nra. unfold sg in H. lra.
Qed.

Lemma disc_nonneg s t u : 0 <= t -> 0 <= s * s + 4 * (t + u * u).
Proof. intros. nra. Qed.

Definition vaysolveR (c k : R) (B U : R3) : R3 * R :=
  let tau := scale3 k B in
  let gisq := 2 / vden c k B U in let g := sqrt gisq in let t := scale3 g tau in
  (scale3 (1 / (1 + dot3 tau tau * gisq)) (add3 (add3 U (scale3 (dot3 t U) t)) (cross3 U t)), g).

Lemma vay_solve_fin c k E B U : 0 < c ->
  @vay_solve (RX tg) (Fin (1 / c)) (Fin (1 / (c * c))) (Fin k) (FIELD (E, B)) (Fin (x3 U)) (Fin (y3 U)) (Fin (z3 U))
  = PART (vaysolveR c k B U).
Proof.
  intros Hc. destruct (vden_spec c k B U Hc) as [HG _]. assert (Hd : 0 < vden c k B U) by lra.
  unfold vay_solve, Field. cbn [bx by_ bz n_add n_sub n_mul n_lit RX x_lit x_add x_mul x_sub].
  set (tx := k * x3 B). set (ty := k * y3 B). set (tz := k * z3 B).
  assert (Et : tx * tx + ty * ty + tz * tz = dot3 (scale3 k B) (scale3 k B)) by (unfold dot3, scale3; cbn; unfold tx, ty, tz; ring).
  rewrite Et.
  assert (Es : (x3 U * tx + y3 U * ty + z3 U * tz) * (1 / c) = dot3 U (scale3 k B) / c) by (unfold dot3, scale3; cbn; unfold tx, ty, tz, Rdiv; ring).
  rewrite Es.
  assert (Eg : 1 + (x3 U * x3 U + y3 U * y3 U + z3 U * z3 U) * (1 / (c * c)) = 1 + dot3 U U / (c * c)) by (unfold dot3, Rdiv; ring).
  rewrite Eg.
  cbn [n_sqrt RX].
  assert (Hp : 0 <= (1 + dot3 U U / (c * c) - dot3 (scale3 k B) (scale3 k B)) * (1 + dot3 U U / (c * c) - dot3 (scale3 k B) (scale3 k B)) +
     4 * (dot3 (scale3 k B) (scale3 k B) + dot3 U (scale3 k B) / c * (dot3 U (scale3 k B) / c))).
  { apply disc_nonneg, dot3_nonneg. }
  rewrite x_sqrt_fin by exact Hp. cbn [x_add].
  match goal with |- context [Fin (?a + sqrt ?b)] => change (a + sqrt b) with (vden c k B U) end.
  cbn [n_div RX]. rewrite x_div_fin by lra.
  assert (Hg : 0 < 2 / vden c k B U) by (apply Rdiv_lt_0_compat; lra).
  rewrite x_sqrt_fin by lra. cbn [x_mul x_add].
  rewrite x_div_fin by (apply Rgt_not_eq; apply (Rplus_lt_le_0_compat 1); [lra|apply Rmult_le_pos; [apply dot3_nonneg|lra]]).
  cbn [x_mul x_add x_sub]. unfold vaysolveR.
  set (gs := 2 / vden c k B U). set (g := sqrt gs). set (D := 1 / (1 + dot3 (scale3 k B) (scale3 k B) * gs)).
  unfold Part, scale3, add3, cross3, dot3. cbn [x3 y3 z3].
  f_equal; f_equal; ring.
Qed.

Lemma sqrt_div2 d : 0 < d -> sqrt (2 / d) = 1 / sqrt (d / 2).
Proof.
  intros H. assert (H2 : 0 < d / 2) by lra. assert (Hs := sqrt_lt_R0 _ H2).
  replace (2 / d) with (1 / (d / 2)) by (field; lra). rewrite sqrt_div_alt by exact H2. now rewrite sqrt_1.
Qed.

(** u' solves u' = U + u' x t, and is the only solution *)
Lemma cayley t U w : scale3 (1 / (1 + dot3 t t)) (add3 (add3 U (scale3 (dot3 t U) t)) (cross3 U t)) = w <->
  sub3 w (cross3 w t) = U.
Proof.
  pose proof (one_dot_pos t) as H. unfold dot3 in H. split.
  - intros <-. r3f; field; lra.
  - intros <-. r3f; field; lra.
Qed.

Lemma cayley_norm t U w : sub3 w (cross3 w t) = U ->
  dot3 U U = dot3 w w * (1 + dot3 t t) - dot3 w t * dot3 w t /\ dot3 U t = dot3 w t.
Proof. intros <-. unfold dot3, sub3, cross3. cbn [x3 y3 z3]. split; ring. Qed.

Definition gamma2 (c : R) (u : R3) : R := 1 + dot3 u u / (c * c).
Lemma gamma2_ge c u : 0 < c -> 1 <= gamma2 c u.
Proof.
  intros Hc. unfold gamma2. assert (0 <= dot3 u u / (c * c)); [|lra].
  apply Rmult_le_pos; [apply dot3_nonneg|]. left. apply Rinv_0_lt_compat. nra.
Qed.

(** G is the positive root of the quadratic exactly when it is the squared Lorentz factor of the
    solution for t = tau / sqrt G *)
Lemma vaysolve_spec c k B U w g : 0 < c ->
  vaysolveR c k B U = (w, g) <-> (sub3 w (cross3 w (scale3 (k * g) B)) = U /\ g = inv_gamma c w).
Proof.
  intros Hc. destruct (vden_spec c k B U Hc) as [HG Hq]. cbv zeta in HG, Hq.
  set (G := vden c k B U / 2) in *. set (tau := scale3 k B) in *.
  assert (Hcc : 0 < c * c) by nra.
  assert (HsG := sqrt_lt_R0 _ HG). assert (HGG : sqrt G * sqrt G = G) by (apply sqrt_sqrt; lra).
  assert (Hg0 : sqrt (2 / vden c k B U) = 1 / sqrt G) by (apply sqrt_div2; unfold G in HG; lra).
  assert (Hgi : 2 / vden c k B U = 1 / sqrt G * (1 / sqrt G)).
  { replace (1 / sqrt G * (1 / sqrt G)) with (1 / (sqrt G * sqrt G)) by (field; lra). rewrite HGG. unfold G. field. unfold G in HG. lra. }
  assert (Ht : forall g, scale3 (k * g) B = scale3 g tau) by (intros; unfold tau; r3f; ring).
  assert (Hdt : forall g, dot3 (scale3 g tau) (scale3 g tau) = dot3 tau tau * (g * g)) by (intros; unfold dot3, scale3; cbn; ring).
  assert (Htt := dot3_nonneg tau).
  (* the quadratic for any solution *)
  assert (Q : forall w G', 0 < G' -> sub3 w (cross3 w (scale3 (1 / sqrt G') tau)) = U ->
     (gamma2 c w - G') * (G' + dot3 tau tau) =
       - (G' * G' - (1 + dot3 U U / (c * c) - dot3 tau tau) * G' - (dot3 tau tau + dot3 U tau / c * (dot3 U tau / c)))).
  { intros v G' HG' Hv. destruct (cayley_norm _ _ _ Hv) as [N1 N2]. rewrite Hdt in N1.
    assert (Hs' := sqrt_lt_R0 _ HG'). assert (Hss : sqrt G' * sqrt G' = G') by (apply sqrt_sqrt; lra).
    assert (S1 : 1 / sqrt G' * (1 / sqrt G') = 1 / G') by (rewrite <- Hss at 3; field; lra).
    assert (L : forall a b s, dot3 a (scale3 s b) = s * dot3 a b) by (intros; unfold dot3, scale3; cbn; ring).
    rewrite !L in N2. rewrite !L in N1.
    assert (N3 : dot3 U tau = dot3 v tau).
    { apply Rmult_eq_reg_l with (1 / sqrt G'); [exact N2|]. apply Rgt_not_eq, Rdiv_lt_0_compat; lra. }
    replace (1 / sqrt G' * dot3 v tau * (1 / sqrt G' * dot3 v tau)) with ((1 / sqrt G' * (1 / sqrt G')) * (dot3 v tau * dot3 v tau)) in N1 by ring.
    rewrite S1 in N1. rewrite N3, N1. unfold gamma2. field. lra. }
  unfold vaysolveR. fold tau. split.
  - intros H. injection H as H1 H2. subst g. rewrite Hg0 in *. rewrite Ht.
    rewrite Hgi, <- Hdt in H1. apply cayley in H1. split; [exact H1|].
    assert (Q1 := Q w G HG H1). rewrite Hq in Q1. rewrite Ropp_0 in Q1.
    apply Rmult_integral in Q1. destruct Q1 as [Q1|Q1]; [|lra].
    unfold inv_gamma. fold (gamma2 c w). replace (gamma2 c w) with G by lra. reflexivity.
  - intros [H1 H2]. rewrite Ht in H1. unfold inv_gamma in H2. fold (gamma2 c w) in H2.
    assert (H2' := gamma2_ge c w Hc). rewrite H2 in H1.
    assert (Q1 := Q w (gamma2 c w) ltac:(lra) H1).
    assert (EG : gamma2 c w = G).
    { set (G' := gamma2 c w) in *. set (A := dot3 tau tau + dot3 U tau / c * (dot3 U tau / c)) in *.
      set (sg := 1 + dot3 U U / (c * c) - dot3 tau tau) in *.
      assert (HA : 0 <= A) by (unfold A; nra).
      assert (E : (G' - G) * (G' + G - sg) = 0) by nra.
      apply Rmult_integral in E. destruct E as [E|E]; [lra|].
      assert (G * (G - sg) = A) by lra. assert (0 <= G - sg) by nra. lra. }
    rewrite EG in *. rewrite Hg0, Hgi, <- Hdt. f_equal; [|congruence]. now apply cayley.
Qed.

Definition vayU (k g : R) (u E B : R3) : R3 := add3 (add3 u (scale3 (2 * k) E)) (scale3 g (cross3 u (scale3 k B))).

Lemma vay_step_iff c h u g E B w g' : 0 < c ->
  vaysolveR c (h / 2) B (vayU (h / 2) g u E B) = (w, g') <-> vay_step c h u g E B w g'.
Proof.
  intros Hc. rewrite vaysolve_spec by exact Hc. unfold vay_step.
  assert (H : sub3 w (cross3 w (scale3 (h / 2 * g') B)) = vayU (h / 2) g u E B <->
    sub3 w u = scale3 h (add3 E (cross3 (scale3 (1 / 2) (add3 (scale3 g u) (scale3 g' w))) B))).
  { unfold vayU, sub3, cross3, scale3, add3. cbn [x3 y3 z3]. split; intros H; injection H as A1 A2 A3; f_equal; nra. }
  rewrite H. reflexivity.
Qed.

Lemma vay_full1_fin c k f a : 0 < c ->
  @vay_full1 (RX tg) (Fin (1 / c)) (Fin (1 / (c * c))) (Fin (2 * k)) (Fin k) (FIELD f) (PART a)
  = PART (vaysolveR c k (snd f) (vayU k (snd a) (fst a) (fst f) (snd f))).
Proof.
  intros Hc. destruct f as [E B], a as [u g]. cbn [fst snd]. rewrite <- (vay_solve_fin c k E B) by exact Hc.
  unfold vay_full1. cbn [Field Part ux uy uz gi ex ey ez bx by_ bz n_add n_sub n_mul RX x_add x_sub x_mul].
  f_equal; unfold vayU, add3, scale3, cross3; cbn [x3 y3 z3]; f_equal; ring.
Qed.

Lemma vay_first1_fin c k f a : 0 < c ->
  @vay_first1 (RX tg) (Fin (1 / (c * c))) (Fin k) (FIELD f) (PART a)
  = PART (let u1 := add3 (fst a) (scale3 k (add3 (fst f) (cross3 (scale3 (snd a) (fst a)) (snd f)))) in (u1, inv_gamma c u1)).
Proof.
  intros Hc. destruct f as [E B], a as [u g]. cbn [fst snd]. cbv zeta.
  unfold vay_first1. cbn [Field Part ux uy uz gi ex ey ez bx by_ bz n_add n_sub n_mul RX x_add x_sub x_mul n_lit x_lit n_sqrt].
  set (u1 := add3 u _).
  assert (E1 : x3 u + k * (x3 E + y3 u * g * z3 B - z3 u * g * y3 B) = x3 u1) by (unfold u1, add3, scale3, cross3; cbn; ring).
  assert (E2 : y3 u + k * (y3 E + z3 u * g * x3 B - x3 u * g * z3 B) = y3 u1) by (unfold u1, add3, scale3, cross3; cbn; ring).
  assert (E3 : z3 u + k * (z3 E + x3 u * g * y3 B - y3 u * g * x3 B) = z3 u1) by (unfold u1, add3, scale3, cross3; cbn; ring).
  rewrite E1, E2, E3.
  assert (Hp : 0 <= (x3 u1 * x3 u1 + y3 u1 * y3 u1 + z3 u1 * z3 u1) * (1 / (c * c))).
  { apply Rmult_le_pos; [apply (dot3_nonneg u1)|now apply w_pos]. }
  rewrite x_sqrt_fin by lra. cbn [n_div RX]. rewrite x_div_fin by (apply Rgt_not_eq, sqrt_gt0, Hp).
  now rewrite inv_gamma_eq.
Qed.

Lemma vay_second1_fin c k f a : 0 < c ->
  @vay_second1 (RX tg) (Fin (1 / c)) (Fin (1 / (c * c))) (Fin k) (Fin k) (FIELD f) (PART a)
  = PART (vaysolveR c k (snd f) (add3 (fst a) (scale3 k (fst f)))).
Proof.
  intros Hc. destruct f as [E B], a as [u g]. cbn [fst snd]. rewrite <- (vay_solve_fin c k E B) by exact Hc.
  unfold vay_second1. cbn [Field Part ux uy uz gi ex ey ez n_add n_mul RX x_add x_mul]. reflexivity.
Qed.

Section Vay.
Variables c mu e p q m dt : R.
Hypothesis Hc : 0 < c.
Hypothesis Hm : m <> 0.
Notation K := (Constants tg c mu e p).
Notation h := (q * dt / m).
Notation Q := (Fin q : num (RX tg)). Notation M := (Fin m : num (RX tg)).

Lemma inv_c : @n_div (RX tg) (@n_lit (RX tg) 1 0) (Fin c) = Fin (1 / c).
Proof. cbn [n_div n_lit RX x_lit]. rewrite x_div_fin; [reflexivity|lra]. Qed.
Lemma half_const' x : @n_div (RX tg) (@n_mul (RX tg) (@n_mul (RX tg) (@n_lit (RX tg) 5 (-1)) (Fin q)) (Fin x)) (Fin m) = Fin (q * x / m / 2).
Proof. cbn [n_mul n_div n_lit RX x_lit x_mul]. rewrite x_div_fin by exact Hm. f_equal. cbn. field. exact Hm. Qed.

Lemma vay_full_body x np ps fs : pxr_ebcancelpush3d K np ps fs Q M (Fin x : num (RX tg)) 0%Z =
  for_particles np (@vay_full1 (RX tg) (Fin (1 / c)) (Fin (1 / (c * c))) (Fin (2 * (q * x / m / 2))) (Fin (q * x / m / 2))) fs ps.
Proof.
  unfold pxr_ebcancelpush3d. cbn [Z.eqb clight Constants]. rewrite inv_c.
  change (@n_mul (RX tg) (Fin c) (Fin c)) with (@sq (RX tg) (Fin c)). rewrite clsq by lra.
  rewrite (full_const q m Hm x). cbn [n_mul n_lit RX x_lit x_mul].
  replace (5 / IZR (10 ^ 1) * (q * x / m)) with (q * x / m / 2) by (cbn; field; exact Hm).
  replace (2 * (q * x / m / 2)) with (q * x / m) by (field; exact Hm). reflexivity.
Qed.
Lemma vay_first_body np ps fs : pxr_ebcancelpush3d K np ps fs Q M (Fin dt : num (RX tg)) 1%Z =
  for_particles np (@vay_first1 (RX tg) (Fin (1 / (c * c))) (Fin (h / 2))) fs ps.
Proof.
  unfold pxr_ebcancelpush3d. cbn [Z.eqb Pos.eqb clight Constants].
  change (@n_mul (RX tg) (Fin c) (Fin c)) with (@sq (RX tg) (Fin c)). rewrite clsq by lra.
  rewrite half_const'. reflexivity.
Qed.
Lemma vay_second_body np ps fs : pxr_ebcancelpush3d K np ps fs Q M (Fin dt : num (RX tg)) 2%Z =
  for_particles np (@vay_second1 (RX tg) (Fin (1 / c)) (Fin (1 / (c * c))) (Fin (h / 2)) (Fin (h / 2))) fs ps.
Proof.
  unfold pxr_ebcancelpush3d. cbn [Z.eqb Pos.eqb clight Constants]. rewrite inv_c.
  change (@n_mul (RX tg) (Fin c) (Fin c)) with (@sq (RX tg) (Fin c)). rewrite clsq by lra.
  rewrite half_const'. reflexivity.
Qed.

Lemma every_ext push push' S : (forall np ps fs, push np ps fs = push' np ps fs) ->
  every_particle tg push S -> every_particle tg push' S.
Proof. intros E H parts fields Hl. rewrite <- E. now apply H. Qed.

Lemma vay_follows_x x : every_particle tg (fun np ps fs => pxr_ebcancelpush3d K np ps fs Q M (Fin x : num (RX tg)) 0%Z)
  (fun u g E B u' g' => forall w gw, vay_step c (q * x / m) u g E B w gw <-> w = u' /\ gw = g').
Proof.
  eapply every_ext; [intros; symmetry; apply vay_full_body|].
  eapply (every_particle_for _ (fun f a => vaysolveR c (q * x / m / 2) (snd f) (vayU (q * x / m / 2) (snd a) (fst a) (fst f) (snd f)))).
  - intros f a. now apply vay_full1_fin.
  - intros E B u g w gw. cbn [fst snd]. rewrite <- (vay_step_iff c (q * x / m) u g E B w gw Hc).
    destruct (vaysolveR _ _ _ _) as [a b]. cbn [fst snd]. split; [intros H; injection H as -> ->; auto|intros [-> ->]; auto].
Qed.

Lemma vay_halves (parts : list (R3 * R)) (fields : list (R3 * R3)) : length parts = length fields ->
  let np := Z.of_nat (length parts) in let ps := map PART parts in let fs := map FIELD fields in
  let D := Fin dt : num (RX tg) in
  (do s <- pxr_ebcancelpush3d K np ps fs Q M D 1%Z; pxr_ebcancelpush3d K np s fs Q M D 2%Z)
  = pxr_ebcancelpush3d K np ps fs Q M D 0%Z.
Proof.
  intros Hl np ps fs D. unfold np, ps, fs, D. rewrite vay_first_body, vay_full_body.
  rewrite (map_map2_body _ (fun f a => let u1 := add3 (fst a) (scale3 (h / 2) (add3 (fst f) (cross3 (scale3 (snd a) (fst a)) (snd f)))) in (u1, inv_gamma c u1)))
    by (exact Hl || (intros; now apply vay_first1_fin)). cbn [bind].
  rewrite vay_second_body. match goal with |- context [map2 ?f fields parts] => set (fu := f) end.
  assert (L : length (map2 fu fields parts) = length parts) by now apply map2_length.
  rewrite <- L at 1.
  rewrite (map_map2_body _ (fun f a => vaysolveR c (h / 2) (snd f) (add3 (fst a) (scale3 (h / 2) (fst f)))))
    by (congruence || (intros; now apply vay_second1_fin)).
  rewrite (map_map2_body _ (fun f a => vaysolveR c (h / 2) (snd f) (vayU (h / 2) (snd a) (fst a) (fst f) (snd f))))
    by (exact Hl || (intros; now apply vay_full1_fin)).
  do 2 f_equal. clear L. unfold fu. clear fu ps fs D np. revert fields Hl.
  induction parts as [|[u g] l IH]; intros [|[E B] fl] Hl; try discriminate; [reflexivity|].
  unfold map2 in *. cbn [map combine fst snd]. f_equal; [|apply IH; now injection Hl].
  f_equal. unfold vayU. r3f; field; exact Hm.
Qed.

Lemma vay_cancel : every_particle tg (fun np ps fs => pxr_ebcancelpush3d K np ps fs Q M (Fin dt : num (RX tg)) 0%Z)
  (fun u g E B u' g' => g = inv_gamma c u -> add3 E (cross3 (scale3 g u) B) = zero3 -> u' = u /\ g' = g).
Proof.
  eapply every_particle_mono; [apply vay_follows_x|]. cbv beta. intros u g E B u' g' H Hg HE.
  destruct (proj1 (H u g)) as [<- <-]; [|auto]. split; [|exact Hg].
  replace (cross3 (scale3 (1 / 2) (add3 (scale3 g u) (scale3 g u))) B) with (cross3 (scale3 g u) B) by (r3f; field).
  rewrite HE. r3f; ring.
Qed.

Lemma vay_reversible : every_particle tg
  (fun np ps fs => do ps' <- pxr_ebcancelpush3d K np ps fs Q M (Fin dt : num (RX tg)) 0%Z;
                   pxr_ebcancelpush3d K np ps' fs Q M (Fin (- dt) : num (RX tg)) 0%Z)
  (fun u g E B u' g' => g = inv_gamma c u -> u' = u /\ g' = g).
Proof.
  eapply every_particle_seq; [apply vay_follows_x|apply vay_follows_x|]. cbv beta.
  intros u g E B u' g' u'' g'' H1 H2 Hg. destruct (proj2 (H1 u' g')) as [A1 A2]; [auto|].
  destruct (proj1 (H2 u g)) as [<- <-]; [|auto]. split; [|exact Hg].
  replace (sub3 u u') with (scale3 (-1) (sub3 u' u)) by (r3f; ring). rewrite A1. r3f; field; exact Hm.
Qed.
End Vay.

(** ** Radiation reaction *)
Definition lorentz (c k : R) (u E B : R3) : R3 := fst (borisR c k (E, B) (u, 0)).
Lemma boris_PART c k u g E B : 0 < c -> @boris1 (RX tg) (Fin k) (Fin (1 / (c * c))) (FIELD (E, B)) (PART (u, g))
  = PART (lorentz c k u E B, inv_gamma c (lorentz c k u E B)).
Proof. intros Hc. rewrite boris1_fin by exact Hc. reflexivity. Qed.

Lemma gam_fin c h : 0 < c ->
  @n_sqrt (RX tg) (@n_add (RX tg) (@n_lit (RX tg) 1 0) (@usq (RX tg) (Fin (1 / (c * c))) (Fin (x3 h)) (Fin (y3 h)) (Fin (z3 h))))
  = Fin (1 / inv_gamma c h) /\
  @n_div (RX tg) (@n_lit (RX tg) 1 0) (Fin (1 / inv_gamma c h)) = Fin (inv_gamma c h).
Proof.
  intros Hc. assert (Hp : 0 <= (x3 h * x3 h + y3 h * y3 h + z3 h * z3 h) * (1 / (c * c))).
  { apply Rmult_le_pos; [apply (dot3_nonneg h)|now apply w_pos]. }
  assert (Hg := inv_gamma_pos c h Hc). assert (Hs := sqrt_gt0 _ Hp). split.
  - unfold usq, sq. cbn [n_sqrt n_add n_mul n_lit RX x_lit x_add x_mul]. rewrite x_sqrt_fin by lra. f_equal.
    rewrite inv_gamma_eq. field. lra.
  - cbn [n_div n_lit RX x_lit]. rewrite x_div_fin. 2:{ apply Rgt_not_eq, Rdiv_lt_0_compat; lra. } f_equal. field. lra.
Qed.

Lemma single {A B} (body : B -> A -> A) f p : for_particles 1 body [f] [p] = Ret [body f p].
Proof. exact (for_particles_map2 body [f] [p] eq_refl). Qed.

Section RR.
Variables c mu e p q m dt : R.
Hypothesis Hc : 0 < c.
Hypothesis Hm : m <> 0.
Notation K := (Constants tg c mu e p).
Notation k := (q * dt / (2 * m)).
Notation Q := (Fin q : num (RX tg)). Notation M := (Fin m : num (RX tg)). Notation D := (Fin dt : num (RX tg)).


(** replace the first local definition by an equal value *)
Ltac lets y := lazymatch goal with |- (let v := ?x in @?f v) = ?z =>
  change (f x = z); let H := fresh in assert (H : x = y); [|rewrite H; clear H; cbv beta] end.
Ltac fin := cbn [n_add n_sub n_mul n_opp n_lit RX x_lit x_add x_sub x_mul x_opp Part Field ux uy uz gi ex ey ez bx by_ bz
  clight mu0 eps0 pi_ Constants fst snd];
  unfold middle, add3, sub3, scale3, cross3, dot3; cbn [x3 y3 z3]; f_equal.

Lemma mid5 a b : (a + b) * (5 / IZR (10 ^ 1)) = 1 / 2 * (b + a).
Proof. cbn. field. Qed.

Lemma dot_pos h : h <> zero3 -> 0 < dot3 h h.
Proof. intros H. destruct (dot3_nonneg h) as [|E]; [assumption|]. symmetry in E. apply dot3_zero in E. contradiction. Qed.

Lemma B08_alone u g E B : 0 < e -> 0 < p -> let uL := lorentz c k u E B in let h := middle u uL in
  h <> zero3 ->
  let u' := sub3 uL (scale3 (B08_friction c e p q m dt E B h) h) in
  pxr_boris_push_rr_B08_u_3d K 1 [PART (u, g)] [FIELD (E, B)] Q M D = Ret [PART (u', inv_gamma c u')].
Proof.
  intros He Hp uL h Hh u'. unfold pxr_boris_push_rr_B08_u_3d. cbn [clight Constants].
  rewrite half_const, clsq by (exact Hm || lra). rewrite single. do 2 f_equal.
  assert (Hg := inv_gamma_pos c h Hc). assert (Hd := dot_pos h Hh).
  cbv beta delta [rr_B08_1]. lets (PART (u, g)); [reflexivity|].
  rewrite boris_PART by exact Hc. fold uL. lets (PART (uL, inv_gamma c uL)); [reflexivity|].
  lets (Fin (x3 h) : num (RX tg)); [unfold h; fin; apply mid5|].
  lets (Fin (y3 h) : num (RX tg)); [unfold h; fin; apply mid5|].
  lets (Fin (z3 h) : num (RX tg)); [unfold h; fin; apply mid5|].
  destruct (gam_fin c h Hc) as [G1 G2].
  lets (Fin (1 / inv_gamma c h) : num (RX tg)); [exact G1|].
  lets (Fin (inv_gamma c h) : num (RX tg)); [exact G2|].
  set (ig := inv_gamma c h) in *.
  lets (Fin c : num (RX tg)); [reflexivity|].
  lets (Fin (- (2 * (q * q * q * q) * dt / (12 * p * e * (m * m * m) * (c * c * c * c * c) * ig))) : num (RX tg)).
  { unfold sq. cbn [n_add n_sub n_mul n_div n_lit RX x_lit x_mul n_opp pi_ eps0 Constants].
    assert (3 * (m * m) * (c * c * c * c * c) * 4 * p * e <> 0).
    { repeat apply Rmult_integral_contrapositive_currified; (lra || assumption). }
    rewrite x_div_fin by assumption. cbn [x_opp]. f_equal. field. repeat split; (lra || assumption). }
  lets (Fin (1 / dot3 h h) : num (RX tg)).
  { unfold sq. cbn [n_div n_add n_mul n_lit RX x_lit x_add x_mul]. apply x_div_fin. apply Rgt_not_eq. exact Hd. }
  lets (Fin (dot3 E h / dot3 h h) : num (RX tg)); [fin; field; apply Rgt_not_eq; exact Hd|].
  set (Et := sub3 E (scale3 (dot3 E h / dot3 h h) h)).
  lets (Fin (x3 Et) : num (RX tg)); [reflexivity|].
  lets (Fin (y3 Et) : num (RX tg)); [reflexivity|].
  lets (Fin (z3 Et) : num (RX tg)); [reflexivity|].
  lets (Fin (- B08_friction c e p q m dt E B h) : num (RX tg)).
  { unfold B08_friction. fold ig. fold Et. unfold sq. fin. field. repeat split; (lra || assumption). }
  rewrite <- (set_gamma1_fin c u' (inv_gamma c uL)) by exact Hc. f_equal.
  unfold u'. fin; f_equal; ring.
Qed.

Lemma S09_alone u g E B : dt <> 0 -> q <> 0 -> mu <> 0 ->
  let uL := lorentz c k u E B in let h := middle u uL in
  let t0i := 6 * p * m * c / (mu * (q * q)) in
  t0i + 1 / (c * c) * inv_gamma c h * dot3 h (scale3 (1 / dt) (sub3 uL u)) <> 0 ->
  exists u', S09_step c q m dt t0i u uL B u' /\
  pxr_boris_push_rr_S09_u_3d K 1 [PART (u, g)] [FIELD (E, B)] Q M D = Ret [PART (u', inv_gamma c u')].
Proof.
  intros Hdt Hq Hmu uL h t0i Hden. unfold S09_step. eexists. split; [reflexivity|].
  set (u' := add3 uL _).
  unfold pxr_boris_push_rr_S09_u_3d. cbn [clight mu0 pi_ Constants].
  rewrite half_const, clsq by (exact Hm || lra).
  replace (@n_div (RX tg) (@n_lit (RX tg) 1 0) D) with (Fin (1 / dt) : num (RX tg)) by (cbn [n_div n_lit RX x_lit]; now rewrite x_div_fin).
  replace (@n_div (RX tg) _ (@n_mul (RX tg) _ (@sq (RX tg) Q))) with (Fin t0i : num (RX tg)).
  2:{ unfold sq. cbn [n_div n_mul n_lit RX x_lit x_mul]. rewrite x_div_fin; [reflexivity|].
      repeat apply Rmult_integral_contrapositive_currified; assumption. }
  rewrite single. do 2 f_equal.
  assert (Hg := inv_gamma_pos c h Hc).
  cbv beta delta [rr_S09_1]. lets (PART (u, g)); [reflexivity|].
  rewrite boris_PART by exact Hc. fold uL. lets (PART (uL, inv_gamma c uL)); [reflexivity|].
  set (a := scale3 (1 / dt) (sub3 uL u)).
  lets (Fin (x3 a) : num (RX tg)); [unfold a; fin; ring|].
  lets (Fin (y3 a) : num (RX tg)); [unfold a; fin; ring|].
  lets (Fin (z3 a) : num (RX tg)); [unfold a; fin; ring|].
  lets (Fin (x3 h) : num (RX tg)); [unfold h; fin; apply mid5|].
  lets (Fin (y3 h) : num (RX tg)); [unfold h; fin; apply mid5|].
  lets (Fin (z3 h) : num (RX tg)); [unfold h; fin; apply mid5|].
  destruct (gam_fin c h Hc) as [G1 G2].
  lets (Fin (1 / inv_gamma c h) : num (RX tg)); [exact G1|].
  lets (Fin (inv_gamma c h) : num (RX tg)); [exact G2|].
  lets (Fin (dot3 h a) : num (RX tg)); [reflexivity|].
  lets (Fin (1 / (t0i + 1 / (c * c) * inv_gamma c h * dot3 h a)) : num (RX tg)).
  { cbn [n_div n_add n_mul n_lit RX x_lit x_add x_mul]. now rewrite x_div_fin. }
  set (dv := S09_dv c dt t0i u uL).
  lets (Fin (x3 dv) : num (RX tg)); [reflexivity|].
  lets (Fin (y3 dv) : num (RX tg)); [reflexivity|].
  lets (Fin (z3 dv) : num (RX tg)); [reflexivity|].
  lets (Fin (dot3 dv a) : num (RX tg)); [reflexivity|].
  set (r := sub3 (scale3 (q * dt / m) (cross3 dv B)) (scale3 (1 / (c * c) / inv_gamma c h * dot3 dv a * dt) h)).
  lets (Fin (x3 r) : num (RX tg)); [unfold r; fin; field; repeat split; (lra || assumption)|].
  lets (Fin (y3 r) : num (RX tg)); [unfold r; fin; field; repeat split; (lra || assumption)|].
  lets (Fin (z3 r) : num (RX tg)); [unfold r; fin; field; repeat split; (lra || assumption)|].
  rewrite <- (set_gamma1_fin c u' (inv_gamma c uL)) by exact Hc. f_equal.
  unfold u'. change (middle u uL) with h. fold dv a r. unfold a. clearbody r dv uL. fin; f_equal; field; exact Hdt.
Qed.

Lemma LL_alone u g E0 B0 E B : dt <> 0 -> e <> 0 -> p <> 0 ->
  let uL := lorentz c k u E B in let h := middle u uL in
  let u' := add3 uL (scale3 (q * q * q * dt / (6 * p * e * (m * m) * (c * c * c))) (LL_force c q m dt E0 B0 E B h)) in
  pxr_boris_push_rr_LL_u_3d K 1 [PART (u, g)] [(FIELD (E0, B0), FIELD (E, B))] Q M D = Ret [PART (u', inv_gamma c u')].
Proof.
  intros Hdt He Hp uL h u'.
  unfold pxr_boris_push_rr_LL_u_3d. cbn [clight eps0 pi_ Constants].
  rewrite half_const, clsq by (exact Hm || lra).
  replace (@n_div (RX tg) (@n_lit (RX tg) 1 0) D) with (Fin (1 / dt) : num (RX tg)) by (cbn [n_div n_lit RX x_lit]; now rewrite x_div_fin).
  set (cr := q * q * q * dt / (6 * p * e * (m * m) * (c * c * c))) in *.
  replace (@n_div (RX tg) (@n_mul (RX tg) _ D) _) with (Fin cr : num (RX tg)).
  2:{ unfold sq. cbn [n_div n_mul n_lit RX x_lit x_mul]. rewrite x_div_fin.
      - f_equal. unfold cr. field. repeat split; (lra || assumption).
      - repeat apply Rmult_integral_contrapositive_currified; (lra || assumption). }
  replace (@n_div (RX tg) Q M) with (Fin (q / m) : num (RX tg)) by (cbn [n_div RX]; now rewrite x_div_fin).
  cbv zeta. rewrite single. do 2 f_equal.
  assert (Hg := inv_gamma_pos c h Hc).
  cbv beta iota delta [rr_LL_1]. lets (PART (u, g)); [reflexivity|].
  rewrite boris_PART by exact Hc. fold uL. lets (PART (uL, inv_gamma c uL)); [reflexivity|].
  set (a := sub3 uL u).
  lets (Fin (x3 a) : num (RX tg)); [reflexivity|].
  lets (Fin (y3 a) : num (RX tg)); [reflexivity|].
  lets (Fin (z3 a) : num (RX tg)); [reflexivity|].
  set (dE := scale3 (1 / dt) (sub3 E E0)). set (dB := scale3 (1 / dt) (sub3 B B0)).
  lets (Fin (x3 dE) : num (RX tg)); [reflexivity|].
  lets (Fin (y3 dE) : num (RX tg)); [reflexivity|].
  lets (Fin (z3 dE) : num (RX tg)); [reflexivity|].
  lets (Fin (x3 dB) : num (RX tg)); [reflexivity|].
  lets (Fin (y3 dB) : num (RX tg)); [reflexivity|].
  lets (Fin (z3 dB) : num (RX tg)); [reflexivity|].
  lets (Fin (x3 h) : num (RX tg)); [unfold h; fin; apply mid5|].
  lets (Fin (y3 h) : num (RX tg)); [unfold h; fin; apply mid5|].
  lets (Fin (z3 h) : num (RX tg)); [unfold h; fin; apply mid5|].
  destruct (gam_fin c h Hc) as [G1 G2].
  lets (Fin (1 / inv_gamma c h) : num (RX tg)); [exact G1|].
  lets (Fin (inv_gamma c h) : num (RX tg)); [exact G2|].
  set (hb := cross3 h B).
  lets (Fin (x3 hb) : num (RX tg)); [reflexivity|].
  lets (Fin (y3 hb) : num (RX tg)); [reflexivity|].
  lets (Fin (z3 hb) : num (RX tg)); [reflexivity|].
  set (eb := cross3 E B).
  lets (Fin (x3 eb) : num (RX tg)); [reflexivity|].
  lets (Fin (y3 eb) : num (RX tg)); [reflexivity|].
  lets (Fin (z3 eb) : num (RX tg)); [reflexivity|].
  lets (Fin (dot3 E h) : num (RX tg)); [reflexivity|].
  set (bb := cross3 B hb).
  lets (Fin (x3 bb) : num (RX tg)); [reflexivity|].
  lets (Fin (y3 bb) : num (RX tg)); [reflexivity|].
  lets (Fin (z3 bb) : num (RX tg)); [reflexivity|].
  set (f := add3 E (scale3 (inv_gamma c h) hb)).
  lets (Fin (dot3 f f) : num (RX tg)); [reflexivity|].
  set (fr := 1 / (c * c) / inv_gamma c h * (dot3 f f - 1 / (c * c) * (inv_gamma c h * inv_gamma c h) * (dot3 E h * dot3 E h))).
  lets (Fin fr : num (RX tg)).
  { unfold fr, sq. cbn [n_mul n_sub RX x_mul x_sub]. f_equal. generalize (dot3 f f) (dot3 E h). intros. field. split; (lra || assumption). }
  set (F := LL_force c q m dt E0 B0 E B h).
  assert (EF : F = add3 (scale3 (1 / inv_gamma c h) (add3 dE (scale3 (inv_gamma c h) (cross3 h dB))))
    (scale3 (q / m) (sub3 (add3 (sub3 eb (scale3 (inv_gamma c h) bb)) (scale3 (1 / (c * c) * inv_gamma c h * dot3 E h) E)) (scale3 fr h)))) by reflexivity.
  clearbody fr f bb eb hb dE dB.
  lets (Fin (cr * x3 F) : num (RX tg)); [rewrite EF; generalize (dot3 E h); intros; fin; ring|].
  lets (Fin (cr * y3 F) : num (RX tg)); [rewrite EF; generalize (dot3 E h); intros; fin; ring|].
  lets (Fin (cr * z3 F) : num (RX tg)); [rewrite EF; generalize (dot3 E h); intros; fin; ring|].
  rewrite <- (set_gamma1_fin c u' (inv_gamma c uL)) by exact Hc. f_equal.
  unfold u', a. fold F. clearbody F cr uL. fin; f_equal; ring.
Qed.

(** a particle whose mean momentum is zero *)
Lemma B08_rest u g E B : 0 < e -> 0 < p -> let uL := lorentz c k u E B in middle u uL = zero3 ->
  pxr_boris_push_rr_B08_u_3d K 1 [PART (u, g)] [FIELD (E, B)] Q M D = Ret [@Mom (RX tg) NaN NaN NaN NaN].
Proof.
  intros He Hp uL Hh. unfold pxr_boris_push_rr_B08_u_3d. cbn [clight Constants].
  rewrite half_const, clsq by (exact Hm || lra). rewrite single. do 2 f_equal.
  cbv beta delta [rr_B08_1]. lets (PART (u, g)); [reflexivity|].
  rewrite boris_PART by exact Hc. fold uL. lets (PART (uL, inv_gamma c uL)); [reflexivity|].
  injection Hh as Z1 Z2 Z3.
  lets (Fin 0 : num (RX tg)); [fin; rewrite mid5; exact Z1|].
  lets (Fin 0 : num (RX tg)); [fin; rewrite mid5; exact Z2|].
  lets (Fin 0 : num (RX tg)); [fin; rewrite mid5; exact Z3|].
  destruct (gam_fin c zero3 Hc) as [G1 G2]. cbn [x3 y3 z3 zero3] in G1.
  lets (Fin (1 / inv_gamma c zero3) : num (RX tg)); [exact G1|].
  lets (Fin (inv_gamma c zero3) : num (RX tg)); [exact G2|].
  assert (Hg := inv_gamma_pos c zero3 Hc).
  lets (Fin c : num (RX tg)); [reflexivity|].
  lets (Fin (- (4 * k * (q * q * q) * (1 / inv_gamma c zero3) / (3 * (m * m) * (c * c * c * c * c) * 4 * p * e))) : num (RX tg)).
  { unfold sq. cbn [n_add n_sub n_mul n_div n_lit RX x_lit x_mul n_opp pi_ eps0 Constants].
    rewrite x_div_fin; [reflexivity|]. repeat apply Rmult_integral_contrapositive_currified; (lra || assumption). }
  lets (PInf : num (RX tg)).
  { unfold sq. cbn [n_div n_add n_mul n_lit RX x_lit x_add x_mul]. cbn [x_div].
    destruct (Req_EM_T _ 0); [|exfalso; lra]. unfold sgn_inf. destruct (Rlt_dec 0 1); [reflexivity|lra]. }
  lets (NaN : num (RX tg)).
  { cbn [n_add n_mul RX x_add x_mul Field ex ey ez].
    unfold sgn_inf. destruct (Rlt_dec 0 _) as [A|_]; [exfalso; lra|]. destruct (Rlt_dec _ 0) as [A|_]; [exfalso; lra|reflexivity]. }
  reflexivity.
Qed.
End RR.

Lemma finite_gamma c (a : mom (RX tg)) u g : 0 < c -> @set_gamma1 (RX tg) (Fin (1 / (c * c))) a = PART (u, g) -> g = inv_gamma c u.
Proof.
  intros Hc H. assert (H1 := f_equal ux H). assert (H2 := f_equal uy H). assert (H3 := f_equal uz H). assert (H4 := f_equal gi H).
  cbn [set_gamma1 Part ux uy uz gi] in H1, H2, H3, H4. rewrite H1, H2, H3, gaminv_fin in H4 by now apply w_pos.
  rewrite inv_gamma_eq. now injection H4 as H4.
Qed.

(** ** Positions *)
Lemma speed_lt c u : 0 < c -> let v := scale3 (inv_gamma c u) u in dot3 v v < c * c.
Proof.
  intros Hc v. assert (Hcc : 0 < c * c) by nra. assert (H := gamma2_ge c u Hc).
  assert (E : dot3 v v = dot3 u u / gamma2 c u).
  { unfold v. assert (Hs : 0 < gamma2 c u) by lra. assert (Hq := sqrt_lt_R0 _ Hs).
    assert (Hss : sqrt (gamma2 c u) * sqrt (gamma2 c u) = gamma2 c u) by (apply sqrt_sqrt; lra).
    unfold inv_gamma. fold (gamma2 c u).
    transitivity (dot3 u u * (1 / (sqrt (gamma2 c u) * sqrt (gamma2 c u)))).
    - unfold dot3, scale3. cbn [x3 y3 z3]. field. lra.
    - rewrite Hss. field. lra. }
  rewrite E. apply Rmult_lt_reg_r with (gamma2 c u); [lra|].
  replace (dot3 u u / gamma2 c u * gamma2 c u) with (dot3 u u) by (field; lra).
  unfold gamma2. replace (c * c * (1 + dot3 u u / (c * c))) with (c * c + dot3 u u) by (field; lra). lra.
Qed.

Lemma push1_fin dt u g x : @push1 (RX tg) (Fin dt) (PART (u, g)) (Place tg x) = Place tg (add3 x (scale3 (g * dt) u)).
Proof. unfold push1, Part, Place, add3, scale3. cbn. f_equal; f_equal; ring. Qed.

Lemma pushxyz_alone dt u g x : pxr_pushxyz 1 [Place tg x] [PART (u, g)] (Fin dt : num (RX tg)) = Ret [Place tg (add3 x (scale3 (g * dt) u))].
Proof. unfold pxr_pushxyz. rewrite single. do 2 f_equal. apply push1_fin. Qed.

Lemma push2d_alone dt u g x : pxr_push2dxz 1 [Place tg x] [PART (u, g)] (Fin dt : num (RX tg))
  = Ret [Place tg (mk3 (x3 x + g * dt * x3 u) (y3 x) (z3 x + g * dt * z3 u))].
Proof. unfold pxr_push2dxz. rewrite single. do 2 f_equal. unfold push1_2d, Part, Place. cbn. f_equal; f_equal; ring. Qed.

(** ** Kinetic energy *)
Lemma kin_energy c mu e p (gs : list R) mass weight : (forall g, In g gs -> g <> 0) ->
  compute_kin_energy_vector (Constants tg c mu e p) (Z.of_nat (length gs)) (map (fun g => Fin g : num (RX tg)) gs) (Fin mass : num (RX tg)) (Fin weight : num (RX tg))
  = Ret (Fin (fold_right Rplus 0 (map (fun g => (1 / g - 1) * (mass * (c * c) * weight)) gs))).
Proof.
  intros Hg. unfold compute_kin_energy_vector. cbn [clight Constants]. unfold sq. cbn [n_mul n_lit RX x_lit x_mul].
  set (w := mass * (c * c) * weight). unfold do_range.
  replace (Z.to_nat (Z.of_nat (length gs) - 1 + 1)) with (length gs) by lia.
  match goal with |- context [do_loop _ _ ?f _] => set (F := f) end.
  assert (H : forall l d s, (forall g, In g l -> g <> 0) ->
     do_loop (length l) (1 + zlen d) (fun ip kin_e => do g <- get1 (map (fun g => Fin g : num (RX tg)) (d ++ l)) ip;
        Ret (@n_add (RX tg) kin_e (@n_mul (RX tg) (@n_sub (RX tg) (@n_div (RX tg) (Fin 1) g) (Fin 1)) (Fin w)))) (Fin s : num (RX tg))
     = Ret (Fin (s + fold_right Rplus 0 (map (fun g => (1 / g - 1) * w) l)))).
  { induction l as [|g l IH]; intros d s H; cbn [length do_loop map fold_right].
    - do 2 f_equal. ring.
    - rewrite map_app. cbn [map].
      replace (1 + zlen d)%Z with (1 + zlen (map (fun g => Fin g : num (RX tg)) d))%Z at 1 by (unfold zlen; now rewrite map_length).
      rewrite get1_mid. cbn [bind]. cbn [n_add n_mul n_sub n_div RX]. rewrite x_div_fin by (apply H; now left).
      cbn [x_sub x_mul x_add].
      specialize (IH (d ++ [g]) (s + (1 / g - 1) * w) (fun y Hy => H y (or_intror Hy))).
      rewrite <- app_assoc in IH. cbn [app] in IH. rewrite map_app in IH. cbn [map] in IH.
      replace (1 + zlen d + 1)%Z with (1 + zlen (d ++ [g]))%Z by (unfold zlen; rewrite app_length; cbn [length]; lia).
      etransitivity; [exact IH|]. do 2 f_equal. ring. }
  assert (E := H gs [] 0 Hg). cbn [app] in E. change (1 + zlen [])%Z with 1%Z in E.
  etransitivity; [exact E|]. do 2 f_equal. ring.
Qed.
End X.
