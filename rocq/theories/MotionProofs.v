(** Proofs about the pushers of the test program (C54, C55). *)
From Coq Require Import ZArith Reals List Bool Lra Lia Psatz.
From Verif Require Import Cxx Num NumRX CxxLemmas LookupTables VecFun SpecPhys ChiProofs TestProgram SpecSpecies SpeciesProofs SpecMotion.
Import ListNotations.
Local Open Scope R_scope.

Lemma gamma_ge1 p : 1 <= gamma_of p.
Proof. unfold gamma_of. rewrite <- sqrt_1 at 1. apply sqrt_le_1_alt. pose proof (dot3_nonneg p). lra. Qed.
Lemma gamma_pos p : 0 < gamma_of p.
Proof. pose proof (gamma_ge1 p). lra. Qed.

(** ** the midpoint equation *)
(** v = w x b has only the zero solution in v = w *)
Lemma cross_fixed d b : d = cross3 d b -> d = zero3.
Proof.
  intros H. apply dot3_zero. rewrite H at 1. unfold dot3, cross3. cbn. ring.
Qed.
Lemma midpoint_unique beta p E B p1 p2 : midpoint beta p E B p1 -> midpoint beta p E B p2 -> p1 = p2.
Proof.
  unfold midpoint. set (b := scale3 (beta / gamma_of p) B). intros H1 H2.
  assert (D : sub3 p1 p2 = cross3 (sub3 p1 p2) b).
  { apply r3_ext.
    - apply (f_equal x3) in H1. apply (f_equal x3) in H2. cbn in *. lra.
    - apply (f_equal y3) in H1. apply (f_equal y3) in H2. cbn in *. lra.
    - apply (f_equal z3) in H1. apply (f_equal z3) in H2. cbn in *. lra. }
  apply cross_fixed in D. apply r3_ext; [apply (f_equal x3) in D|apply (f_equal y3) in D|apply (f_equal z3) in D]; cbn in D; lra.
Qed.
Lemma midpoint_energy beta p E B p' : midpoint beta p E B p' -> dot3 p' p' - dot3 p p = 2 * beta * dot3 E (add3 p' p).
Proof.
  unfold midpoint. set (b := scale3 (beta / gamma_of p) B). intros H.
  assert (S : dot3 p' p' - dot3 p p = dot3 (sub3 p' p) (add3 p' p)) by (unfold dot3; cbn; ring).
  rewrite S, H. unfold dot3. cbn. ring.
Qed.
Lemma midpoint_norm beta p B p' : midpoint beta p zero3 B p' -> norm3 p' = norm3 p.
Proof.
  intros H. apply midpoint_energy in H. unfold norm3. f_equal.
  assert (dot3 zero3 (add3 p' p) = 0) by (unfold dot3; cbn; ring). rewrite H0 in H. lra.
Qed.
Lemma midpoint_reverse beta p B p' : midpoint beta p zero3 B p' -> midpoint (- beta) p' zero3 B p.
Proof.
  intros H. assert (L : gamma_of p' = gamma_of p).
  { unfold gamma_of. f_equal. pose proof (midpoint_energy _ _ _ _ _ H) as E. assert (dot3 zero3 (add3 p' p) = 0) by (unfold dot3; cbn; ring).
    rewrite H0 in E. lra. }
  unfold midpoint in *. rewrite L. replace (- beta / gamma_of p) with (- (beta / gamma_of p)) by (field; pose proof (gamma_pos p); lra).
  set (k := beta / gamma_of p) in *. apply r3_ext; [apply (f_equal x3) in H|apply (f_equal y3) in H|apply (f_equal z3) in H]; cbn in *; lra.
Qed.
(** E = 2x, B = z, beta = 1: from rest to (2,-2,0), which is not undone *)
Lemma midpoint_irreversible : exists beta p E B p', midpoint beta p E B p' /\ ~ midpoint (- beta) p' E B p.
Proof.
  exists 1, zero3, (mk3 2 0 0), (mk3 0 0 1), (mk3 2 (-2) 0).
  assert (L0 : gamma_of zero3 = 1). { unfold gamma_of, dot3. cbn. replace (1 + (0 * 0 + 0 * 0 + 0 * 0)) with 1 by ring. apply sqrt_1. }
  assert (L1 : gamma_of (mk3 2 (-2) 0) = 3). { unfold gamma_of, dot3. cbn. replace (1 + (2 * 2 + -2 * -2 + 0 * 0)) with (3 * 3) by ring. apply sqrt_square. lra. }
  split.
  - unfold midpoint. rewrite L0. apply r3_ext; cbn; field.
  - unfold midpoint. rewrite L1. intros H. apply (f_equal x3) in H. cbn in H. lra.
Qed.

Section RX.
Variable tg : R -> R.
Notation F := (F3 tg).

(** the closed form the program computes *)
Definition boris_R (beta : R) (p E B : R3) : R3 :=
  let pt := add3 p (scale3 beta E) in
  let b := scale3 (beta / gamma_of p) B in
  let pn := scale3 (1 / (1 + dot3 b b)) (add3 (add3 pt (cross3 pt b)) (scale3 (dot3 pt b) b)) in
  sub3 (scale3 2 pn) p.

Lemma boris_F beta p E B : boris (Fin beta : num (RX tg)) (F p) (F E) (F B) = F (boris_R beta p E B).
Proof.
  unfold boris. cbn [F3 vx vy vz]. rewrite !fmul, !fadd.
  change (@n_one (RX tg)) with (Fin 1). change (@n_two (RX tg)) with (Fin 2). rewrite !fadd.
  assert (HL : 1 + x3 p * x3 p + y3 p * y3 p + z3 p * z3 p = 1 + dot3 p p) by (unfold dot3; ring).
  rewrite HL. rewrite fsqrt by (pose proof (dot3_nonneg p); lra). fold (gamma_of p).
  rewrite fdiv by apply gamma_pos. rewrite !fmul, !fadd.
  match goal with |- context [Fin (1 + ?x)] => set (b2 := x) end.
  assert (Hb2 : b2 = dot3 (scale3 (beta / gamma_of p) B) (scale3 (beta / gamma_of p) B)) by (unfold b2, dot3; cbn; ring).
  assert (0 <= b2) by (rewrite Hb2; apply dot3_nonneg). rewrite fdiv by lra.
  repeat rewrite ?fmul, ?fadd, ?fsub.
  unfold F3, boris_R. rewrite <- Hb2. clearbody b2. unfold dot3. cbn.
  f_equal; f_equal; ring.
Qed.

Lemma boris_midpoint beta p E B : midpoint beta p E B (boris_R beta p E B).
Proof.
  unfold midpoint, boris_R. set (b := scale3 (beta / gamma_of p) B). clearbody b.
  assert (H : 1 + dot3 b b <> 0) by (pose proof (dot3_nonneg b); lra).
  unfold dot3 in *. destruct b as [b1 b2 b3], p as [p1 p2 p3], E as [e1 e2 e3]. cbn in *.
  apply r3_ext; cbn; field; exact H.
Qed.

Lemma half : @n_lit (RX tg) 5 (-1) = Fin (1 / 2).
Proof. change (-1)%Z with (Zneg 1). rewrite lit_neg. f_equal. change (Pos.to_nat 1) with 1%nat. rewrite pow_1. field. Qed.

Definition set_rp (r : rpart) (v : R3) : rpart := mkR (r_x r) v (r_e r) (r_b r) (r_opt r) (r_flag r).
Definition set_rx (r : rpart) (v : R3) : rpart := mkR v (r_p r) (r_e r) (r_b r) (r_opt r) (r_flag r).

Lemma push_momenta_rx {W} (s : species (RX tg) W) m q dt rs :
  s_kind s = Leptons -> s_pusher s = None -> s_mass s = Fin m -> s_charge s = Fin q -> 0 < m ->
  s_data s = data_of (map (FP tg) rs) -> (Z.of_nat (length rs) < 2 ^ 31)%Z ->
  push_momenta (Fin dt : num (RX tg)) s = Done (with_data s (data_of (map (FP tg)
     (map (fun r => set_rp r (boris_R (q * dt / (2 * m)) (r_p r) (r_e r) (r_b r))) rs)))).
Proof.
  intros Hk Hp Hm Hq Hm0 Hd Hn. unfold push_momenta. rewrite Hk, Hp. unfold on_data. rewrite Hd, Hm, Hq.
  rewrite boris_map by (rewrite map_length; exact Hn). cbn [of_out]. f_equal. f_equal. f_equal.
  rewrite !map_map. apply map_ext. intros r. rewrite half, !fmul. rewrite fdiv by exact Hm0.
  replace (1 / 2 * q * dt / m) with (q * dt / (2 * m)) by (field; lra).
  unfold FP, set_p, set_rp. cbn [q_x q_p q_e q_b q_opt q_flag r_x r_p r_e r_b r_opt r_flag]. now rewrite boris_F.
Qed.

(** ** positions *)
Lemma move_phot_F dt x p : p <> zero3 -> move (@p0_phot (RX tg)) (Fin dt) (F x) (F p) = F (add3 x (scale3 dt (unit3 p))).
Proof.
  intros Hp. unfold move, p0_phot. cbn [F3 vx vy vz]. rewrite !fmul, !fadd. change (@n_one (RX tg)) with (Fin 1).
  change (x3 p * x3 p + y3 p * y3 p + z3 p * z3 p) with (dot3 p p). rewrite fsqrt by apply dot3_nonneg.
  fold (norm3 p). pose proof (norm3_pos p Hp). rewrite fdiv by exact H. rewrite !fmul, !fadd.
  unfold F3, unit3. cbn. f_equal; f_equal; field; lra.
Qed.
Lemma move_lep_F dt x p : move (@p0_lep (RX tg)) (Fin dt) (F x) (F p) = F (add3 x (scale3 (dt / gamma_of p) p)).
Proof.
  unfold move, p0_lep. cbn [F3 vx vy vz]. change (@n_one (RX tg)) with (Fin 1). rewrite !fmul, !fadd.
  assert (HL : 1 + x3 p * x3 p + y3 p * y3 p + z3 p * z3 p = 1 + dot3 p p) by (unfold dot3; ring).
  rewrite HL. rewrite fsqrt by (pose proof (dot3_nonneg p); lra). fold (gamma_of p). pose proof (gamma_pos p).
  rewrite fdiv by exact H. rewrite !fmul, !fadd. unfold F3. cbn. f_equal; f_equal; field; lra.
Qed.
Lemma move_zero_photon dt x : dt <> 0 -> move (@p0_phot (RX tg)) (Fin dt) (F x) (F zero3) = V3 (NaN : num (RX tg)) NaN NaN.
Proof.
  intros Hd. unfold move, p0_phot. cbn [F3 vx vy vz zero3 x3 y3 z3]. rewrite !fmul, !fadd. change (@n_one (RX tg)) with (Fin 1).
  replace (0 * 0 + 0 * 0 + 0 * 0) with 0 by ring. rewrite fsqrt by lra. rewrite sqrt_0.
  assert (H : @n_div (RX tg) (Fin 1) (Fin 0) = PInf).
  { cbn. destruct (Req_EM_T 0 0); [|lra]. unfold sgn_inf. destruct (Rlt_dec 0 1); [reflexivity|lra]. }
  rewrite H. assert (H2 : exists v, @n_mul (RX tg) (Fin dt) PInf = v /\ (v = PInf \/ v = NInf)).
  { cbn. unfold sgn_inf. destruct (Rlt_dec 0 dt); [eauto|]. destruct (Rlt_dec dt 0); [eauto|lra]. }
  assert (HZ : sgn_inf 0 = NaN). { unfold sgn_inf. destruct (Rlt_dec 0 0); [lra|reflexivity]. }
  destruct H2 as (v & -> & [-> | ->]); cbn; rewrite HZ; reflexivity.
Qed.

Lemma norm_scale k p : norm3 (scale3 k p) = Rabs k * norm3 p.
Proof.
  unfold norm3. replace (dot3 (scale3 k p) (scale3 k p)) with (Rsqr k * dot3 p p) by (unfold dot3, Rsqr; cbn; ring).
  rewrite sqrt_mult_alt by apply Rle_0_sqr. now rewrite sqrt_Rsqr_abs.
Qed.
Lemma norm_unit p : p <> zero3 -> norm3 (unit3 p) = 1.
Proof. intros H. unfold norm3. rewrite (unit3_dot p H). apply sqrt_1. Qed.
Lemma norm_lt_gamma p : norm3 p < gamma_of p.
Proof. unfold norm3, gamma_of. apply sqrt_lt_1_alt. pose proof (dot3_nonneg p). lra. Qed.
Lemma phot_step_length dt p : p <> zero3 -> norm3 (scale3 dt (unit3 p)) = Rabs dt.
Proof. intros H. rewrite norm_scale, norm_unit by auto. ring. Qed.
Lemma lep_step_length dt p : dt <> 0 -> norm3 (scale3 (dt / gamma_of p) p) < Rabs dt.
Proof.
  intros H. pose proof (gamma_pos p). pose proof (norm_lt_gamma p). pose proof (norm3_nonneg p). pose proof (Rabs_pos_lt dt H).
  rewrite norm_scale. unfold Rdiv. rewrite Rabs_mult, (Rabs_right (/ gamma_of p)) by (left; now apply Rinv_0_lt_compat).
  rewrite Rmult_assoc. rewrite <- (Rmult_1_r (Rabs dt)) at 2. apply Rmult_lt_compat_l; auto.
  apply (Rmult_lt_reg_l (gamma_of p)); auto. rewrite <- Rmult_assoc, Rinv_r by lra. lra.
Qed.

Lemma push_photons_rx {W} (s : species (RX tg) W) dt rs :
  s_kind s = Photons -> s_data s = data_of (map (FP tg) rs) -> Forall (fun r => r_p r <> zero3) rs ->
  (Z.of_nat (length rs) < 2 ^ 31)%Z ->
  push_positions (Fin dt : num (RX tg)) s = Done (with_data s (data_of (map (FP tg)
     (map (fun r => set_rx r (add3 (r_x r) (scale3 dt (unit3 (r_p r))))) rs)))).
Proof.
  intros Hk Hd Hp Hn. unfold push_positions, on_data. rewrite Hk, Hd.
  rewrite push_positions_map by (rewrite map_length; exact Hn). cbn [of_out]. do 3 f_equal.
  rewrite !map_map. apply map_ext_in. intros r Hr. rewrite Forall_forall in Hp.
  unfold FP, set_x, set_rx. cbn [q_x q_p q_e q_b q_opt q_flag r_x r_p r_e r_b r_opt r_flag]. now rewrite move_phot_F by auto.
Qed.
Lemma push_leptons_rx {W} (s : species (RX tg) W) dt rs :
  s_kind s = Leptons -> s_data s = data_of (map (FP tg) rs) -> (Z.of_nat (length rs) < 2 ^ 31)%Z ->
  push_positions (Fin dt : num (RX tg)) s = Done (with_data s (data_of (map (FP tg)
     (map (fun r => set_rx r (add3 (r_x r) (scale3 (dt / gamma_of (r_p r)) (r_p r)))) rs)))).
Proof.
  intros Hk Hd Hn. unfold push_positions, on_data. rewrite Hk, Hd.
  rewrite push_positions_map by (rewrite map_length; exact Hn). cbn [of_out]. do 3 f_equal.
  rewrite !map_map. apply map_ext. intros r.
  unfold FP, set_x, set_rx. cbn [q_x q_p q_e q_b q_opt q_flag r_x r_p r_e r_b r_opt r_flag]. now rewrite move_lep_F.
Qed.
End RX.
