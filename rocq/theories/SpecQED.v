(** Vocabulary of the statements about the engines: what a pair or a photon must
    look like, which control parameters and random numbers are meant. *)
From Coq Require Import ZArith Reals List.
From Verif Require Import Cxx Num NumRX LookupTables Oracles BreitWheeler QuantumSync Spec SpecPhys.
Import ListNotations.
Local Open Scope R_scope.

(** exchanging the members of a pair *)
Definition swap_pair {A} (x : A * A) : A * A := (snd x, fst x).

(** uniform draws are in [0,1) *)
Definition unit_draws {tg} (us : list (num (RX tg))) : Prop := Forall (fun u => exists r, u = Fin r /\ 0 <= r < 1) us.
Definition unit_rng {tg} (G : Rng (RX tg)) : Prop :=
  forall s, exists r s', rng_unf G s n_zero n_one = (Fin r, s') /\ 0 <= r < 1.
(** the generator after n uniform draws *)
Fixpoint nth_state {N} (G : Rng N) (n : nat) (s : rng_state G) : rng_state G :=
  match n with O => s | S k => nth_state G k (snd (rng_unf G s n_zero n_one)) end.

Fixpoint sum_weights (l : list rx) : rx := match l with [] => Fin 0 | a :: t => x_add a (sum_weights t) end.

(** control parameters of a pair table: n values of chi between a and b, nf
    fractions *)
Definition pair_ctrl {tg} (c : bw_ctrl (RX tg)) (a b : R) (n nf : nat) : Prop :=
  bc_tpair_min c = Fin a /\ bc_tpair_max c = Fin b /\ bc_tpair_how_many c = Z.of_nat n /\ bc_frac_how_many c = Z.of_nat nf /\
  0 < a < b /\ (2 <= n)%nat /\ (2 <= nf)%nat /\ (Z.of_nat (n * nf) < 2 ^ 31)%Z.
(** logarithm of the i-th value of chi of the table *)
Definition chi_node (a b : R) (n i : nat) : R := ln a + INR i * ((ln b - ln a) / INR (n - 1)).

(** the numerical quadrature gives positive finite cumulative probabilities *)
Definition good_cumulative {tg} (Orc : Oracles (RX tg)) (a b : R) : Prop :=
  forall chi f, a <= chi <= b -> 0 < f < 1 / 2 -> exists v, 0 < v /\ bw_cumulative_pair Orc (Fin chi) (Fin (chi * f)) = Fin v.

(** gamma_e + gamma_p = gamma_photon, both along the photon *)
Definition pair_spec (m c : R) (p : R3) (pe pq : R3) : Prop :=
  lorentz m c pe + lorentz m c pq = norm3 p / (m * c) /\
  (exists k, 0 <= k /\ pe = scale3 k p) /\ (exists k, 0 <= k /\ pq = scale3 k p).

(** [P j] is the cumulative probability at [chi] of the j-th fraction
    j / (2 (nf - 1)): 0 and 1/2 at the ends; between them, when chi is in the
    table, the logarithm is interpolated linearly in log chi between the
    quadratures at the two neighbouring nodes *)
Definition cumulative_at {tg} (Orc : Oracles (RX tg)) (a b : R) (n nf : nat) (chi : R) (P : nat -> R) : Prop :=
  P 0%nat = 0 /\ P (nf - 1)%nat = 1 / 2 /\ (forall j, (0 < j < nf - 1)%nat -> 0 < P j) /\
  (a <= chi <= b -> exists i, (S i < n)%nat /\ chi_node a b n i <= ln chi <= chi_node a b n (S i) /\
    forall j, (0 < j < nf - 1)%nat -> exists v1 v2, 0 < v1 /\ 0 < v2 /\
      let f := INR j * (1 / 2 / INR (nf - 1)) in
      bw_cumulative_pair Orc (Fin (exp (chi_node a b n i))) (Fin (exp (chi_node a b n i) * f)) = Fin v1 /\
      bw_cumulative_pair Orc (Fin (exp (chi_node a b n (S i)))) (Fin (exp (chi_node a b n (S i)) * f)) = Fin v2 /\
      P j = exp (line (chi_node a b n i) (ln v1) (chi_node a b n (S i)) (ln v2) (ln chi))).

(** the share [s] of the energy is read off [P] at probability [v] by linear
    interpolation between two neighbouring fractions *)
Definition share_of (nf : nat) (P : nat -> R) (v : R) (k : nat) (s : R) : Prop :=
  (S k < nf)%nat /\ P k <= v < P (S k) /\
  s = line (P k) (INR k * (1 / 2 / INR (nf - 1))) (P (S k)) (INR (S k) * (1 / 2 / INR (nf - 1))) v /\ 0 <= s <= 1 / 2.

(** ** photon emission *)
(** control parameters of an emission table: n values of chi between a and b, np
    probabilities *)
Definition emit_ctrl {tg} (c : qs_ctrl (RX tg)) (a b : R) (n np : nat) : Prop :=
  qc_tem_min c = Fin a /\ qc_tem_max c = Fin b /\ qc_tem_how_many c = Z.of_nat n /\ qc_prob_how_many c = Z.of_nat np /\
  0 < a < b /\ (2 <= n)%nat /\ (2 <= np)%nat /\ (Z.of_nat (n * np) < 2 ^ 31)%Z.

(** the root finder returns a finite number of the sign of the guess (boost:
    "the root must have the same sign as the guess") *)
Definition root_keeps_sign {tg} (Orc : Oracles (RX tg)) : Prop :=
  forall f g, g < 0 -> exists r, r < 0 /\ o_root Orc f (Fin g) true = Fin r.

(** [t] holds the fractions [v i j] for the i-th chi and the j-th probability, as logarithms *)
Definition emission_table {tg} (t : lookup_2d (RX tg)) (a b : R) (n np : nat) (v : nat -> nat -> R) : Prop :=
  t2_x t = map (fun i => Fin (chi_node a b n i)) (seq 0 n) /\
  t2_y t = map (fun j => Fin (INR j / INR (np - 1))) (seq 0 np) /\
  length (t2_data t) = (n * np)%nat /\ 0 < a < b /\ (2 <= n)%nat /\ (2 <= np)%nat /\ (Z.of_nat (n * np) < 2 ^ 31)%Z /\
  forall i j, (i < n)%nat -> (j < np)%nat -> 0 < v i j <= 1 /\ nth_error (t2_data t) (i * np + j) = Some (Fin (ln (v i j))).

(** [L j]: fraction of the j-th probability at [chi]: linear in log-log between
    two values of chi, constant outside *)
Definition fraction_at (a b : R) (n np : nat) (v : nat -> nat -> R) (chi : R) (L : nat -> R) : Prop :=
  forall j, (j < np)%nat ->
  (chi <= a -> L j = v 0%nat j) /\ (b <= chi -> L j = v (n - 1)%nat j) /\
  (a < chi < b -> exists i, (S i < n)%nat /\ chi_node a b n i <= ln chi < chi_node a b n (S i) /\
     L j = exp (line (chi_node a b n i) (ln (v i j)) (chi_node a b n (S i)) (ln (v (S i) j)) (ln chi))).

(** [f] is read off [L] at probability [r] by linear interpolation between two
    neighbouring probabilities *)
Definition emitted_fraction (np : nat) (L : nat -> R) (r f : R) : Prop :=
  exists k, (S k < np)%nat /\ INR k / INR (np - 1) <= r < INR (S k) / INR (np - 1) /\
    f = line (INR k / INR (np - 1)) (L k) (INR (S k) / INR (np - 1)) (L (S k)) r.

Definition sumR (l : list R) : R := fold_right Rplus 0 l.
Definition mean (l : list R) : R := sumR l / INR (length l).
Fixpoint sum3 (l : list R3) : R3 := match l with [] => zero3 | a :: t => add3 a (sum3 t) end.

(** momentum of the photon carrying the fraction f of the kinetic energy
    (gamma - 1) m c^2, along the lepton *)
Definition photon_momentum (m c : R) (p : R3) (f : R) : R3 := scale3 (f * (lorentz m c p - 1) * (m * c)) (unit3 p).
