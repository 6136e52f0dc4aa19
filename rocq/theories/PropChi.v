(** Properties C21-C25 and C57: vectors and the quantum parameter
    (src/multi_physics/QED/src/vec_functions.hpp, chi_functions.hpp, qed_commons.h).
    [F3 tg a] is the code's vector holding the three reals of [a]; [units true]
    is the S.I. build, [units false] the build with normalised units. *)
From Coq Require Import ZArith Reals List Bool Lra.
From Verif Require Import Cxx Num NumRX VecFun Units ChiFun Oracles BreitWheeler QuantumSync Schwinger.
From Verif Require Import SpecPhys ChiProofs.
Import ListNotations.
Local Open Scope R_scope.

(** *** C21 *)
Theorem C21_vector_operations : forall tg a b k,
  dot (F3 tg a) (F3 tg b) = Fin (dot3 a b) /\ cross (F3 tg a) (F3 tg b) = F3 tg (cross3 a b) /\
  vadd (F3 tg a) (F3 tg b) = F3 tg (add3 a b) /\ vsub (F3 tg a) (F3 tg b) = F3 tg (sub3 a b) /\
  @vscale_l (RX tg) (Fin k) (F3 tg a) = F3 tg (scale3 k a) /\ @vscale_r (RX tg) (F3 tg a) (Fin k) = F3 tg (scale3 k a) /\
  (k <> 0 -> @vdiv (RX tg) (F3 tg a) (Fin k) = F3 tg (scale3 (/ k) a)) /\
  norm2 (F3 tg a) = Fin (dot3 a a) /\ norm (F3 tg a) = Fin (norm3 a).
Proof. exact vec_operations. Qed.
Print Assumptions C21_vector_operations.

Theorem C21_vector_laws : forall tg a b d k,
  let A := F3 tg a in let B := F3 tg b in let D := F3 tg d in
  let K : num (RX tg) := Fin k in let M1 : num (RX tg) := Fin (-1) in
  dot A B = dot B A /\
  dot A (vadd B D) = n_add (dot A B) (dot A D) /\
  dot A (vscale_l K B) = n_mul K (dot A B) /\
  cross A B = vscale_l M1 (cross B A) /\
  cross A (vadd B D) = vadd (cross A B) (cross A D) /\
  cross A (vscale_l K B) = vscale_l K (cross A B) /\
  dot A (cross A B) = Fin 0 /\ dot B (cross A B) = Fin 0 /\
  cross A (cross B D) = vsub (vscale_l (dot A D) B) (vscale_l (dot A B) D) /\
  n_add (norm2 (cross A B)) (n_mul (dot A B) (dot A B)) = n_mul (norm2 A) (norm2 B) /\
  vscale_r A K = vscale_l K A /\
  vadd A (vsub B A) = B /\
  (k <> 0 -> vscale_l K (vdiv A K) = A).
Proof. exact vec_laws. Qed.
Print Assumptions C21_vector_laws.

Theorem C21_norm_laws : forall tg a b k,
  let A := F3 tg a in let B := F3 tg b in let K : num (RX tg) := Fin k in
  exists na nb nab nka ab,
    norm A = Fin na /\ norm B = Fin nb /\ norm (vadd A B) = Fin nab /\
    norm (vscale_l K A) = Fin nka /\ dot A B = Fin ab /\
    0 <= na /\ (na = 0 <-> a = mk3 0 0 0) /\ n_mul (norm A) (norm A) = dot A A /\
    nka = Rabs k * na /\ Rabs ab <= na * nb /\ nab <= na + nb.
Proof. exact norm_laws. Qed.
Print Assumptions C21_norm_laws.

(** *** C22 *)
Theorem C22_chi_photon : forall tg si p E B lam, p <> zero3 -> 0 < lam ->
  let m := nu_m si in let c := nu_c si in let Es := nu_Es si * nu_lambda si lam in
  let n := unit3 p in
  let L := add3 E (scale3 c (cross3 n B)) in
  chi_photon (units si) (F3 tg p) (F3 tg E) (F3 tg B) (Fin lam)
  = Fin (norm3 p / (m * c * Es) * sqrt (dot3 L L - dot3 n E * dot3 n E)).
Proof. exact chi_photon_textbook. Qed.
Print Assumptions C22_chi_photon.

(** the same as |F^{mu nu} k_nu| / (m c E_s) *)
Theorem C22_chi_photon_covariant : forall tg si p E B lam, p <> zero3 -> 0 < lam ->
  chi_photon (units si) (F3 tg p) (F3 tg E) (F3 tg B) (Fin lam)
  = Fin (chi_cov (nu_m si) (nu_c si) (nu_Es si * nu_lambda si lam) (p0_photon p) p E B).
Proof. exact chi_photon_val. Qed.
Print Assumptions C22_chi_photon_covariant.

Theorem C22_nonnegative : forall tg si p E B lam, 0 < lam ->
  exists v, chi_photon (units si) (F3 tg p) (F3 tg E) (F3 tg B) (Fin lam) = Fin v /\ 0 <= v.
Proof. exact chi_photon_nonneg. Qed.
Print Assumptions C22_nonnegative.

Theorem C22_zero_momentum : forall tg si E B lam,
  chi_photon (units si) (F3 tg zero3) E B (Fin lam) = Fin 0.
Proof. exact chi_photon_zero. Qed.
Print Assumptions C22_zero_momentum.

Theorem C22_parallel_electric_field : forall tg si p k lam, 0 < lam ->
  chi_photon (units si) (F3 tg p) (F3 tg (scale3 k p)) (F3 tg zero3) (Fin lam) = Fin 0.
Proof. exact chi_photon_parallel. Qed.
Print Assumptions C22_parallel_electric_field.

(** photon crossing a plane wave: B = s n x E / c; s = 1 co-propagating (chi
    vanishes), s = -1 counter-propagating (twice the static value) *)
Theorem C22_plane_wave : forall tg si p E s lam, p <> zero3 -> dot3 p E = 0 -> s * s = 1 -> 0 < lam ->
  chi_photon (units si) (F3 tg p) (F3 tg E) (F3 tg (scale3 (s / nu_c si) (cross3 (unit3 p) E))) (Fin lam)
  = Fin (norm3 p * norm3 E * (1 - s) / (nu_m si * nu_c si * (nu_Es si * nu_lambda si lam))).
Proof. exact chi_photon_wave. Qed.
Print Assumptions C22_plane_wave.

Example C22_nonvacuous : mk3 1 0 0 <> zero3 /\ dot3 (mk3 1 0 0) (mk3 0 5 0) = 0 /\ (-1) * (-1) = 1.
Proof. repeat split; try (unfold dot3; cbn; ring). intros H. injection H. lra. Qed.

(** *** C23 *)
Theorem C23_chi_lepton : forall tg si p E B lam, p <> zero3 -> 0 < lam ->
  let m := nu_m si in let c := nu_c si in let Es := nu_Es si * nu_lambda si lam in
  let g := lorentz m c p in
  let beta := scale3 (/ (g * m * c)) p in
  let L := add3 E (cross3 (scale3 c beta) B) in
  chi_lepton (units si) (F3 tg p) (F3 tg E) (F3 tg B) (Fin lam)
  = Fin (g / Es * sqrt (dot3 L L - dot3 beta E * dot3 beta E)).
Proof. exact chi_lepton_textbook. Qed.
Print Assumptions C23_chi_lepton.

Theorem C23_chi_lepton_covariant : forall tg si p E B lam, p <> zero3 -> 0 < lam ->
  chi_lepton (units si) (F3 tg p) (F3 tg E) (F3 tg B) (Fin lam)
  = Fin (chi_cov (nu_m si) (nu_c si) (nu_Es si * nu_lambda si lam) (p0_lepton (nu_m si) (nu_c si) p) p E B).
Proof. exact chi_lepton_val. Qed.
Print Assumptions C23_chi_lepton_covariant.

Theorem C23_nonnegative : forall tg si p E B lam, 0 < lam ->
  exists v, chi_lepton (units si) (F3 tg p) (F3 tg E) (F3 tg B) (Fin lam) = Fin v /\ 0 <= v.
Proof. exact chi_lepton_nonneg. Qed.
Print Assumptions C23_nonnegative.

(** at rest the invariant is |E|/E_s, but the function returns 0 *)
Theorem C23_rest_refuted : forall tg si E B lam, 0 < lam -> E <> zero3 ->
  chi_lepton (units si) (F3 tg zero3) (F3 tg E) (F3 tg B) (Fin lam) = Fin 0 /\
  chi_cov (nu_m si) (nu_c si) (nu_Es si * nu_lambda si lam) (p0_lepton (nu_m si) (nu_c si) zero3) zero3 E B
    = norm3 E / (nu_Es si * nu_lambda si lam) /\
  0 < norm3 E / (nu_Es si * nu_lambda si lam).
Proof. exact chi_lepton_rest. Qed.
Print Assumptions C23_rest_refuted.

(** *** C24 *)
Theorem C24_photon_rotation : forall tg si M p E B lam, 0 < lam ->
  chi_photon (units si) (F3 tg (rotate M p)) (F3 tg (rotate M E)) (F3 tg (rotate M B)) (Fin lam)
  = chi_photon (units si) (F3 tg p) (F3 tg E) (F3 tg B) (Fin lam).
Proof. exact chi_photon_rotate. Qed.
Print Assumptions C24_photon_rotation.

Theorem C24_lepton_rotation : forall tg si M p E B lam, 0 < lam ->
  chi_lepton (units si) (F3 tg (rotate M p)) (F3 tg (rotate M E)) (F3 tg (rotate M B)) (Fin lam)
  = chi_lepton (units si) (F3 tg p) (F3 tg E) (F3 tg B) (Fin lam).
Proof. exact chi_lepton_rotate. Qed.
Print Assumptions C24_lepton_rotation.

(** boosts along x; with the rotations, boosts along every direction *)
Theorem C24_photon_boost : forall tg si b p E B lam, b * b < 1 -> 0 < lam ->
  chi_photon (units si) (F3 tg (boost_p b (p0_photon p) p))
     (F3 tg (boost_E (nu_c si) b E B)) (F3 tg (boost_B (nu_c si) b E B)) (Fin lam)
  = chi_photon (units si) (F3 tg p) (F3 tg E) (F3 tg B) (Fin lam).
Proof. exact chi_photon_boost. Qed.
Print Assumptions C24_photon_boost.

Theorem C24_lepton_boost : forall tg si b p E B lam, b * b < 1 -> 0 < lam -> p <> zero3 ->
  boost_p b (p0_lepton (nu_m si) (nu_c si) p) p <> zero3 ->
  chi_lepton (units si) (F3 tg (boost_p b (p0_lepton (nu_m si) (nu_c si) p) p))
     (F3 tg (boost_E (nu_c si) b E B)) (F3 tg (boost_B (nu_c si) b E B)) (Fin lam)
  = chi_lepton (units si) (F3 tg p) (F3 tg E) (F3 tg B) (Fin lam).
Proof. exact chi_lepton_boost. Qed.
Print Assumptions C24_lepton_boost.

(** a lepton of velocity 3c/5 in an electric field has chi > 0, and chi = 0 is
    returned in its rest frame *)
Theorem C24_rest_frame_refuted : forall tg, exists p E b v,
  b * b < 1 /\ boost_p b (p0_lepton 1 1 p) p = zero3 /\
  chi_lepton (units false) (F3 tg p) (F3 tg E) (F3 tg zero3) (Fin 1) = Fin v /\ 0 < v /\
  chi_lepton (units false) (F3 tg (boost_p b (p0_lepton 1 1 p) p)) (F3 tg (boost_E 1 b E zero3))
     (F3 tg (boost_B 1 b E zero3)) (Fin 1) = Fin 0.
Proof. exact chi_lepton_rest_frame. Qed.
Print Assumptions C24_rest_frame_refuted.

(** non-vacuity: a rotation by a right angle and a boost of a moving lepton *)
Example C24_nonvacuous :
  (exists M, rotate M (mk3 1 2 3) = mk3 2 (-1) 3) /\ (1/2) * (1/2) < 1 /\
  boost_p (1/2) (p0_lepton 1 1 (mk3 0 1 0)) (mk3 0 1 0) <> zero3.
Proof.
  repeat split; try lra.
  - assert (H1 : dot3 (mk3 0 1 0) (mk3 0 1 0) = 1) by (unfold dot3; cbn; ring).
    assert (H2 : dot3 (mk3 (-1) 0 0) (mk3 (-1) 0 0) = 1) by (unfold dot3; cbn; ring).
    assert (H3 : dot3 (mk3 0 1 0) (mk3 (-1) 0 0) = 0) by (unfold dot3; cbn; ring).
    exists (Build_rotation _ _ H1 H2 H3). unfold rotate, dot3, cross3; cbn. f_equal; ring.
  - intros H. unfold boost_p in H; cbn in H. injection H. lra.
Qed.

(** *** C25 *)
Theorem C25_si_chi_ignores_lambda : forall (N : NumOps) p e b l1 l2,
  chi_photon (units (N := N) true) p e b l1 = chi_photon (units (N := N) true) p e b l2 /\
  chi_lepton (units (N := N) true) p e b l1 = chi_lepton (units (N := N) true) p e b l2.
Proof. exact chi_si_lambda. Qed.
Print Assumptions C25_si_chi_ignores_lambda.

Theorem C25_normalised_chi_photon : forall tg si k lam p E B, 0 < lam -> 0 < k ->
  exists v, chi_photon (units si) (F3 tg p) (F3 tg E) (F3 tg B) (Fin lam) = Fin v /\
            chi_photon (units si) (F3 tg p) (F3 tg E) (F3 tg B) (Fin (k * lam)) = Fin (if si then v else v / k).
Proof. exact chi_photon_lambda. Qed.
Print Assumptions C25_normalised_chi_photon.

Theorem C25_normalised_chi_lepton : forall tg si k lam p E B, 0 < lam -> 0 < k ->
  exists v, chi_lepton (units si) (F3 tg p) (F3 tg E) (F3 tg B) (Fin lam) = Fin v /\
            chi_lepton (units si) (F3 tg p) (F3 tg E) (F3 tg B) (Fin (k * lam)) = Fin (if si then v else v / k).
Proof. exact chi_lepton_lambda. Qed.
Print Assumptions C25_normalised_chi_lepton.

(** whatever the history of set_lambda calls: 1 in S.I., the last value set otherwise *)
Theorem C25_engines_report_lambda : forall (N : NumOps) si (G : Rng N) r l0 cb cq ls,
  bw_get_lambda _ (fold_left (bw_set_lambda (units si) G) ls (bw_new (units si) G r l0 cb))
    = (if si then n_lit 1 0 else last ls l0) /\
  qs_get_lambda _ (fold_left (qs_set_lambda (units si) G) ls (qs_new (units si) G r l0 cq))
    = (if si then n_lit 1 0 else last ls l0) /\
  sw_get_lambda _ (fold_left (sw_set_lambda (units si) G) ls (sw_new (units si) G r l0))
    = (if si then n_lit 1 0 else last ls l0).
Proof. exact engines_lambda. Qed.
Print Assumptions C25_engines_report_lambda.

(** *** C57: the two builds agree on the same physical situation *)
Theorem C57_chi_photon_units : forall tg lam lam' p E B, 0 < lam -> 0 < lam' ->
  chi_photon (units false) (F3 tg (scale3 (/ (ph_m * ph_c)) p)) (F3 tg (scale3 (/ E_ref lam) E))
     (F3 tg (scale3 (ph_c / E_ref lam) B)) (Fin lam)
  = chi_photon (units true) (F3 tg p) (F3 tg E) (F3 tg B) (Fin lam').
Proof. exact chi_photon_units. Qed.
Print Assumptions C57_chi_photon_units.

Theorem C57_chi_lepton_units : forall tg lam lam' p E B, 0 < lam -> 0 < lam' ->
  chi_lepton (units false) (F3 tg (scale3 (/ (ph_m * ph_c)) p)) (F3 tg (scale3 (/ E_ref lam) E))
     (F3 tg (scale3 (ph_c / E_ref lam) B)) (Fin lam)
  = chi_lepton (units true) (F3 tg p) (F3 tg E) (F3 tg B) (Fin lam').
Proof. exact chi_lepton_units. Qed.
Print Assumptions C57_chi_lepton_units.

Example C57_nonvacuous : 0 < ph_m * ph_c /\ 0 < E_ref 1.
Proof. split; [apply Rmult_lt_0_compat; [apply ph_m_pos|apply ph_c_pos]|apply E_ref_pos; lra]. Qed.
