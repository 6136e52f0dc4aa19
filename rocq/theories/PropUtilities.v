(** Properties C07-C12: searches, grids and the Poisson sampler
    (src/multi_physics/QED/src/utilities.hpp).
    [RX tg] is exact arithmetic on the extended reals ([tg] plays no role here);
    a C++ vector of ordinary numbers is [map Fin xs] for a list of reals. *)
From Coq Require Import ZArith Reals List Bool Lia Lra.
From Flocq Require Import Core BinarySingleNaN.
From Verif Require Import Cxx Num NumRX NumIEEE Utilities Spec.
From Verif Require Import UtilitiesProofs LogLinLogProofs PoissonIEEE.
Import ListNotations.

(** *** C07 *)
(** Every arithmetic (so float, double, NaN included), every range, sorted or
    not: the search terminates, stays in the range and returns a boundary. *)
Theorem C07_upper_bound_any_range : forall (N : NumOps) (v : list (num N)) (val : num N),
  exists r, picsar_upper_bound v val = Ret r /\ (0 <= r <= zlen v)%Z /\
    (forall x, (0 < r)%Z -> nth_error v (Z.to_nat (r - 1)) = Some x -> n_lt val x = false) /\
    (forall x, nth_error v (Z.to_nat r) = Some x -> n_lt val x = true).
Proof. exact @upper_bound_any. Qed.
Print Assumptions C07_upper_bound_any_range.

(** Every arithmetic: if the comparison splits the range at k, the result is k. *)
Theorem C07_upper_bound_partitioned : forall (N : NumOps) (v : list (num N)) (val : num N) (k : nat),
  (k <= length v)%nat ->
  (forall i x, (i < k)%nat -> nth_error v i = Some x -> n_lt val x = false) ->
  (forall i x, (k <= i)%nat -> nth_error v i = Some x -> n_lt val x = true) ->
  picsar_upper_bound v val = Ret (Z.of_nat k).
Proof. exact @upper_bound_partitioned. Qed.
Print Assumptions C07_upper_bound_partitioned.

Theorem C07_upper_bound_sorted : forall tg (xs : list R) (w : R),
  nondecreasing xs ->
  exists k, (k <= length xs)%nat /\
    @picsar_upper_bound (RX tg) (map Fin xs) (Fin w) = Ret (Z.of_nat k) /\
    (forall i, (i < k)%nat -> (el xs i <= w)%R) /\
    (forall i, (k <= i < length xs)%nat -> (w < el xs i)%R).
Proof. exact upper_bound_sorted. Qed.
Print Assumptions C07_upper_bound_sorted.

Example C07_nonvacuous : nondecreasing [1; 2; 2; 5]%R.
Proof. intros [|[|[|i]]] [|[|[|[|j]]]] H; cbn in *; unfold el; cbn; try lia; lra. Qed.

(** *** C08 *)
Theorem C08_lin_grid : forall tg a b n, (a < b)%R -> (2 <= n)%nat ->
  exists xs, @generate_lin_spaced_vec (RX tg) (Fin a) (Fin b) (Z.of_nat n) = map Fin xs /\
    length xs = n /\ el xs 0 = a /\ el xs (n - 1) = b /\ strictly_increasing xs /\
    (forall i, (S i < n)%nat -> (el xs (S i) - el xs i = (b - a) / INR (n - 1))%R).
Proof. exact lin_spaced_full. Qed.
Print Assumptions C08_lin_grid.

(** Every arithmetic: exact size, exact last point; invalid requests refused. *)
Theorem C08_lin_grid_shape : forall (N : NumOps) (a b : num N) n, (2 <= n)%Z -> n_le b a = false ->
  let v := generate_lin_spaced_vec a b n in
  zlen v = n /\ nth_error v (Z.to_nat (n - 1)) = Some b.
Proof. exact @lin_spaced_shape. Qed.
Print Assumptions C08_lin_grid_shape.

Theorem C08_lin_grid_invalid : forall (N : NumOps) (a b : num N) n,
  (n_le b a = true \/ n < 2)%Z -> generate_lin_spaced_vec a b n = [].
Proof. exact @lin_spaced_invalid. Qed.
Print Assumptions C08_lin_grid_invalid.

Example C08_nonvacuous : (0 < 1)%R /\ (2 <= 5)%nat.
Proof. split; [lra|lia]. Qed.

(** *** C09 *)
Theorem C09_log_grid : forall tg a b n, (0 < a < b)%R -> (2 <= n)%nat ->
  exists xs, @generate_log_spaced_vec (RX tg) (Fin a) (Fin b) (Z.of_nat n) = map Fin xs /\
    length xs = n /\ el xs 0 = a /\ el xs (n - 1) = b /\ strictly_increasing xs /\
    (forall i, (S i < n)%nat -> (el xs (S i) = el xs i * Rpower (b / a) (1 / INR (n - 1)))%R).
Proof. exact log_spaced_full. Qed.
Print Assumptions C09_log_grid.

Theorem C09_log_grid_shape : forall (N : NumOps) (a b : num N) n, (2 <= n)%Z ->
  n_le b a = false -> n_lt a (n_lit 0 0) = false -> n_lt b (n_lit 0 0) = false ->
  let v := generate_log_spaced_vec a b n in
  zlen v = n /\ nth_error v 0 = Some a /\ nth_error v (Z.to_nat (n - 1)) = Some b.
Proof. exact @log_spaced_shape. Qed.
Print Assumptions C09_log_grid_shape.

Theorem C09_log_grid_invalid : forall (N : NumOps) (a b : num N) n,
  (n_le b a = true \/ n_lt a (n_lit 0 0) = true \/ n_lt b (n_lit 0 0) = true \/ n < 2)%Z ->
  generate_log_spaced_vec a b n = [].
Proof. exact @log_spaced_invalid. Qed.
Print Assumptions C09_log_grid_invalid.

(** Finding: a zero minimum is not refused although no such grid exists. *)
Theorem C09_zero_minimum_refuted : forall tg b n, (0 < b)%R -> (3 <= n)%nat ->
  nth_error (@generate_log_spaced_vec (RX tg) (Fin 0) (Fin b) (Z.of_nat n)) 1 = Some NaN.
Proof. exact log_spaced_zero. Qed.
Print Assumptions C09_zero_minimum_refuted.

Example C09_nonvacuous : (0 < 1 / 100 < 1000)%R /\ (2 <= 128)%nat.
Proof. split; [lra|lia]. Qed.

(** *** C10 *)
(** Sizes that are a multiple of three: a strictly increasing grid, logarithmic
    up to max/10, linear up to 9/10 max, then logarithmic up to max. *)
Theorem C10_log_lin_log_grid : forall tg a b k,
  (0 < a < b / 10)%R -> (2 <= k)%nat -> (Z.of_nat k < 2 ^ 62)%Z ->
  exists xs, @generate_log_lin_log_spaced_vec (RX tg) (Fin a) (Fin b) (Z.of_nat (3 * k)) = Ret (map Fin xs) /\
    length xs = (3 * k)%nat /\ strictly_increasing xs /\
    el xs 0 = a /\ el xs k = (b / 10)%R /\ el xs (2 * k) = (9 * b / 10)%R /\ el xs (3 * k - 1) = b /\
    (forall i, (S i < k)%nat -> (el xs (S i) = el xs i * Rpower (b / 10 / a) (1 / INR k))%R) /\
    (forall i, (k <= i)%nat -> (S i < 2 * k)%nat -> (el xs (S i) - el xs i = 8 * b / 10 / INR k)%R) /\
    (forall i, (2 * k <= i)%nat -> (S i < 3 * k)%nat ->
       (el xs i = el xs (S i) * Rpower (9 / 10) (1 / INR (k - 1)))%R).
Proof. exact lll_spec. Qed.
Print Assumptions C10_log_lin_log_grid.

(** Finding: every other size gives a grid that is not increasing. *)
Theorem C10_other_sizes_refuted : forall tg a b k r,
  (0 < a < b / 10)%R -> (2 <= k)%nat -> (Z.of_nat k < 2 ^ 62)%Z -> (r = 1 \/ r = 2)%nat ->
  exists xs, @generate_log_lin_log_spaced_vec (RX tg) (Fin a) (Fin b) (Z.of_nat (3 * k + r)) = Ret (map Fin xs) /\
    length xs = (3 * k + r)%nat /\ ~ strictly_increasing xs /\
    (r = 2%nat -> (el xs (3 * k) < el xs (3 * k - 1))%R).
Proof. exact lll_bad_size. Qed.
Print Assumptions C10_other_sizes_refuted.

Example C10_nonvacuous : (0 < 1 / 100 < 10 / 10)%R /\ (2 <= 4)%nat /\ (Z.of_nat 4 < 2 ^ 62)%Z.
Proof. split; [lra|split; [lia|cbn; lia]]. Qed.

(** *** C11 *)
(** The sampler terminates (enough fuel always exists, more changes nothing)
    with the least k whose cumulative probability reaches u. *)
Theorem C11_poisson_quantile : forall tg l u, (0 <= l)%R -> (0 <= u < 1)%R ->
  exists k fuel0, (forall fuel, (fuel0 <= fuel)%nat ->
      @poisson_distrib (RX tg) fuel (Fin l) (Fin u) = Ret (Z.of_nat k)) /\
    (u <= poisson_cdf l k)%R /\ (forall i, (i < k)%nat -> (poisson_cdf l i < u)%R).
Proof. exact poisson_spec. Qed.
Print Assumptions C11_poisson_quantile.

Theorem C11_poisson_monotone : forall tg l u1 u2 k1 k2 f1 f2,
  (0 <= l)%R -> (0 <= u1 <= u2)%R -> (u2 < 1)%R ->
  @poisson_distrib (RX tg) f1 (Fin l) (Fin u1) = Ret k1 ->
  @poisson_distrib (RX tg) f2 (Fin l) (Fin u2) = Ret k2 -> (k1 <= k2)%Z.
Proof. exact poisson_monotone. Qed.
Print Assumptions C11_poisson_monotone.

(** Finding: in double precision exp(-1000) is 0, the sampler then returns 1 for
    u = 1/2 although P(k <= 1) is below 1/2. *)
Theorem C11_large_mean_refuted :
  (forall lm : Libm b64, lm_exp lm (@n_opp (B64 lm) (n_lit 1000 0)) = @n_lit (B64 lm) 0 0 ->
     @poisson_distrib (B64 lm) 2 (n_lit 1000 0) (n_lit 5 (-1)) = Ret 1%Z) /\
  (poisson_cdf 1000 1 < 1 / 2)%R.
Proof. exact (conj poisson_underflow poisson_cdf_1000). Qed.
Print Assumptions C11_large_mean_refuted.

Example C11_nonvacuous : (0 <= 3)%R /\ (0 <= 1 / 2 < 1)%R.
Proof. lra. Qed.

(** *** C12 *)
(** Every binary format, every exp implementation, every pair of inputs
    (infinities and NaN included). *)
Theorem C12_poisson_terminates_ieee :
  forall prec emax (Hp : Prec_gt_0 prec) (He : Prec_lt_emax prec emax)
         (lm : Libm (binary_float prec emax)) (lambda u : binary_float prec emax),
  exists fuel0, forall fuel, (fuel0 <= fuel)%nat ->
    exists r, @poisson_distrib (IEEE prec emax Hp He lm) fuel lambda u = Ret r /\ (0 <= r)%Z.
Proof. exact poisson_total. Qed.
Print Assumptions C12_poisson_terminates_ieee.

Example C12_nonvacuous : exists lm : Libm b64, lm_exp lm (n_zero (N := B64 lm)) = n_one (N := B64 lm).
Proof.
  exists (Build_Libm _ (fun _ => ieee_lit 53 1024 prec53 emax1024 1 0) (fun x => x) (fun x _ => x) (fun x => x) (fun x => x)).
  reflexivity.
Qed.
