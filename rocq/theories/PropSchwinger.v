(** Properties C46-C48 and the Schwinger part of C57: pair production in vacuum
    (src/multi_physics/QED/src/schwinger_pair_engine.hpp).
    [sw_rate] is compute_schwinger_pair_production_rate, [sw_single] and
    [sw_multiple] are internal_generate_pairs_single/multiple. *)
From Coq Require Import ZArith Reals List Bool Lra Lia.
From Flocq Require Import BinarySingleNaN.
From Verif Require Import Cxx Num NumRX NumIEEE Utilities VecFun Units Oracles Schwinger.
From Verif Require Import Spec SpecPhys SpecQED SpecSchwinger ChiProofs SchwingerProofs SchwingerIEEE.
Import ListNotations.
Local Open Scope R_scope.

(** *** C46 *)
(** the rate is the physical one: for the fields a, b (in units of the critical
    field) of the frame in which they are parallel, it is
    coefficient * a b coth(pi b/a) exp(-pi/a) *)
Theorem C46_rate_value : forall tg si E B lam a b, parallel_frame (nu_c si) (nu_Es si) E B a b ->
  sw_rate (units si) (F3 tg E) (F3 tg B) (Fin lam) = Fin (nu_sw si * nu_lambda si lam ^ 4 * pair_density a b).
Proof. exact sw_rate_formula. Qed.
Print Assumptions C46_rate_value.

(** those fields exist and are unique *)
Theorem C46_parallel_fields : forall c Es E B, 0 < Es ->
  (exists a b, parallel_frame c Es E B a b) /\
  (forall a b a' b', parallel_frame c Es E B a b -> parallel_frame c Es E B a' b' -> a = a' /\ b = b').
Proof.
  exact (fun c Es E B HE => conj (parallel_frame_exists c Es E B HE) (fun a b a' b' => parallel_frame_unique c Es E B a b a' b' HE)).
Qed.
Print Assumptions C46_parallel_fields.

(** the branch for b = 0 is the limit of the general one *)
Theorem C46_limit : forall a, 0 < a -> forall eps, 0 < eps -> exists del, 0 < del /\
  forall b, 0 < b < del -> Rabs (pair_density a b - pair_density a 0) < eps.
Proof. exact density_continuous. Qed.
Print Assumptions C46_limit.

(** finite, not negative, zero exactly when E.B = 0 and |E| <= c |B| *)
Theorem C46_rate_sign : forall tg si E B lam, 0 < lam ->
  exists r, sw_rate (units si) (F3 tg E) (F3 tg B) (Fin lam) = Fin r /\ 0 <= r /\
    (r = 0 <-> inv2 (nu_c si) E B = 0 /\ inv1 (nu_c si) E B <= 0).
Proof. exact rate_facts. Qed.
Print Assumptions C46_rate_sign.

Theorem C46_invariants : forall tg si E B E' B' lam, inv1 (nu_c si) E B = inv1 (nu_c si) E' B' ->
  Rabs (inv2 (nu_c si) E B) = Rabs (inv2 (nu_c si) E' B') ->
  sw_rate (units si) (F3 tg E) (F3 tg B) (Fin lam) = sw_rate (units si) (F3 tg E') (F3 tg B') (Fin lam).
Proof. exact rate_invariants. Qed.
Print Assumptions C46_invariants.

Theorem C46_boost : forall tg si b E B lam, b * b < 1 ->
  sw_rate (units si) (F3 tg (boost_E (nu_c si) b E B)) (F3 tg (boost_B (nu_c si) b E B)) (Fin lam) = sw_rate (units si) (F3 tg E) (F3 tg B) (Fin lam).
Proof. exact rate_boost. Qed.
Print Assumptions C46_boost.

Theorem C46_rotation : forall tg si M E B lam,
  sw_rate (units si) (F3 tg (rotate M E)) (F3 tg (rotate M B)) (Fin lam) = sw_rate (units si) (F3 tg E) (F3 tg B) (Fin lam).
Proof. exact rate_rotate. Qed.
Print Assumptions C46_rotation.

(** finding: in floating point the square of the first invariant underflows for
    weak magnetic fields and the rate, zero in theory, is not a number: in single
    precision and normalised units already for |B| = 1 *)
Theorem C46_binary32_refuted : forall (lm : Libm b32) lambda,
  sw_rate (units false) (V3 n_zero n_zero n_zero) (V3 n_one n_zero n_zero) lambda = (B754_nan : num (B32 lm)).
Proof. exact rate_nan_b32. Qed.
Print Assumptions C46_binary32_refuted.

Theorem C46_binary64_refuted : forall (lm : Libm b64) lambda,
  sw_rate (units true) (V3 n_zero n_zero n_zero) (V3 (n_lit 1 (-75)) n_zero n_zero) lambda = (B754_nan : num (B64 lm)).
Proof. exact rate_nan_b64. Qed.
Print Assumptions C46_binary64_refuted.

(** fields with E.B <> 0, parallel in their own frame; and a null field *)
Example C46_nonvacuous : parallel_frame 1 1 (mk3 2 0 0) (mk3 (-3) 0 0) 2 3 /\
  (let E := mk3 0 2 0 in let B := mk3 0 0 2 in inv2 1 E B = 0 /\ inv1 1 E B <= 0 /\ E <> zero3) /\
  (let E := mk3 1 0 0 in let B := mk3 1 0 0 in 0 < Rabs (inv2 1 E B)).
Proof.
  unfold parallel_frame, inv1, inv2, dot3, zero3. cbn. repeat split; try lra.
  - replace (1 * (2 * -3 + 0 * 0 + 0 * 0)) with (-6) by ring. rewrite Rabs_left by lra. ring.
  - intros H. injection H as H. lra.
  - rewrite Rabs_pos_eq; lra.
Qed.

(** *** C47 *)
Theorem C47_single : forall tg si E B dx dy dz dt lam u, 0 < lam -> 0 < dx -> 0 < dy -> 0 < dz ->
  exists r, sw_rate (units si) (F3 tg E) (F3 tg B) (Fin lam) = Fin r /\ 0 <= r /\
    exists ev, sw_single (units si) (F3 tg E) (F3 tg B) (Fin dx) (Fin dy) (Fin dz) (Fin dt) (Fin lam) (Fin u) = (ev, Fin (1 / (dx * dy * dz))) /\
    (ev = true <-> u < r * (dx * dy * dz) * dt).
Proof. exact single_spec. Qed.
Print Assumptions C47_single.

(** offsets of the pair inside the cell, in units of the cell size *)
Theorem C47_position : forall tg (G : Rng (RX tg)) (x : sw_engine G), unit_rng G -> exists a b c x',
  sw_new_position G x = ([Fin a; Fin b; Fin c], x') /\ 0 <= a < 1 /\ 0 <= b < 1 /\ 0 <= c < 1 /\
  se_rng x' = nth_state G 3 (se_rng x) /\ se_lambda x' = se_lambda x.
Proof. exact position_spec. Qed.
Print Assumptions C47_position.

(** strong electric field: the event happens for small random numbers and not for
    large ones when the expected number is between 0 and 1 *)
Example C47_nonvacuous : forall tg, exists E r, 0 < r /\
  sw_rate (units false) (F3 tg E) (F3 tg zero3) (Fin 1) = Fin r /\
  (exists u, u < r * (1 * 1 * 1) * (1 / (2 * r)) /\ 0 <= u < 1) /\ (exists u, ~ u < r * (1 * 1 * 1) * (1 / (2 * r)) /\ 0 <= u < 1).
Proof.
  intros tg. destruct (rate_facts tg false (mk3 1 0 0) zero3 1 ltac:(lra)) as (r & Er & Hr & Hz).
  assert (Hn : r <> 0). { intros H. apply Hz in H as (_ & H). unfold inv1, dot3, zero3 in H. cbn in H. lra. }
  exists (mk3 1 0 0), r. assert (0 < r) by lra. split; [lra|]. split; [exact Er|].
  replace (r * (1 * 1 * 1) * (1 / (2 * r))) with (1 / 2) by (field; lra). split; [exists 0|exists (3 / 4)]; lra.
Qed.

(** *** C48 *)
Theorem C48_multiple : forall tg si E B dx dy dz dt lam u, 0 < lam -> 0 < dx -> 0 < dy -> 0 < dz -> 0 <= dt -> 0 <= u < 1 ->
  exists r, sw_rate (units si) (F3 tg E) (F3 tg B) (Fin lam) = Fin r /\
    exists k fuel0, (forall fuel, (fuel0 <= fuel)%nat ->
       sw_multiple (units si) fuel (F3 tg E) (F3 tg B) (Fin dx) (Fin dy) (Fin dz) (Fin dt) (Fin lam) (Fin u) = Ret (Z.of_nat k, Fin (1 / (dx * dy * dz)))) /\
    u <= poisson_cdf (r * (dx * dy * dz) * dt) k /\ (forall i, (i < k)%nat -> poisson_cdf (r * (dx * dy * dz) * dt) i < u).
Proof. exact multiple_spec. Qed.
Print Assumptions C48_multiple.

Example C48_nonvacuous : exists lam dx dy dz dt u, 0 < lam /\ 0 < dx /\ 0 < dy /\ 0 < dz /\ 0 <= dt /\ 0 <= u < 1.
Proof. exists 1, 1, 2, 3, (1 / 2), (9 / 10). lra. Qed.

(** *** C57: Schwinger rate *)
(** the normalised rate is the SI rate (in normalised units of time and volume)
    of fields lambda times as strong *)
Theorem C57_schwinger_units : forall tg lam lam' E B, 0 < lam ->
  exists r, sw_rate (units true) (F3 tg (scale3 lam E)) (F3 tg (scale3 lam B)) (Fin lam') = Fin r /\
  sw_rate (units false) (F3 tg (scale3 (/ E_ref lam) E)) (F3 tg (scale3 (ph_c / E_ref lam) B)) (Fin lam)
  = Fin (r * (lam ^ 4 / (16 * ph_pi * ph_pi * ph_pi * ph_pi * ph_c))).
Proof. exact sw_units. Qed.
Print Assumptions C57_schwinger_units.

(** finding: so for every wavelength below one metre the normalised build gives
    too small a rate for every electric field *)
Theorem C57_schwinger_units_refuted : forall tg lam lam' E, 0 < lam < 1 -> E <> zero3 -> exists r r',
  sw_rate (units true) (F3 tg E) (F3 tg zero3) (Fin lam') = Fin r /\
  sw_rate (units false) (F3 tg (scale3 (/ E_ref lam) E)) (F3 tg zero3) (Fin lam) = Fin r' /\
  r' < r * (lam ^ 4 / (16 * ph_pi * ph_pi * ph_pi * ph_pi * ph_c)).
Proof. exact sw_units_wrong. Qed.
Print Assumptions C57_schwinger_units_refuted.

Example C57_schwinger_nonvacuous : 0 < 1 / 1000000 < 1 /\ mk3 1 0 0 <> zero3.
Proof. split; [lra|]. intros H. injection H as H. lra. Qed.
