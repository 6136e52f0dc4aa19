(** Properties C32-C38: pair generation of the Breit-Wheeler engine and the
    generation of the cumulative tables
    (src/multi_physics/QED/src/breit_wheeler_engine.hpp, quantum_sync_engine.hpp).
    [bw_generate x p E B weight sampling] is generate_breit_wheeler_pairs,
    [bw_internal_generate] its static core, which receives the random numbers. *)
From Coq Require Import ZArith Reals List Bool Lra Lia.
From Flocq Require Import Core BinarySingleNaN.
From Verif Require Import Cxx Num NumRX NumIEEE Utilities LookupTables VecFun Units ChiFun Oracles OmpFor BreitWheeler QuantumSync.
From Verif Require Import RXLemmas Spec SpecPhys SpecQED UtilitiesProofs ChiProofs OmpProofs PairProofs PairIEEE PropEvolve.
Import ListNotations.
Local Open Scope R_scope.

(** *** C32 *)
(** every pair of every call conserves energy and is emitted along the photon;
    the particle that takes the share s <= 1/2 has gamma = 1 + s (gamma_photon - 2),
    where s is read off the tabulated cumulative probability at the drawn number *)
Theorem C32_pairs_conserve_energy : forall tg si (Orc : Oracles (RX tg)) (G : Rng (RX tg)) (x : bw_engine G) garbage a b n nf p E B lam chi weight sampling,
  pair_ctrl (be_ctrl x) a b n nf -> good_cumulative Orc a b -> bw_cumulative_table Orc (be_ctrl x) garbage = Ret (be_cum x) ->
  unit_rng G -> be_lambda x = Fin lam -> (0 <= sampling)%Z ->
  chi_photon (units si) (F3 tg p) (F3 tg E) (F3 tg B) (Fin lam) = Fin chi -> 0 < chi -> 2 * (nu_m si * nu_c si) <= norm3 p ->
  (forall i, (0 < i < n - 1)%nat -> ln chi <> chi_node a b n i) ->
  exists els poss x', bw_generate (units si) G x (F3 tg p) (F3 tg E) (F3 tg B) weight sampling = Ret (els, poss, x') /\
    exists P : nat -> R, cumulative_at Orc a b n nf chi P /\
    Forall2 (fun u q => exists r pe pq s k, u = Fin r /\ fst (fst q) = F3 tg pe /\ fst (snd q) = F3 tg pq /\
        pair_spec (nu_m si) (nu_c si) p pe pq /\ share_of nf P (if Rlt_dec r (1 / 2) then r else r - 1 / 2) k s /\
        lorentz (nu_m si) (nu_c si) (if Rlt_dec r (1 / 2) then pe else pq) = 1 + s * (norm3 p / (nu_m si * nu_c si) - 2))
      (fst (draw_unf G (Z.to_nat sampling) (be_rng x))) (combine els poss).
Proof. exact bw_generate_pairs. Qed.
Print Assumptions C32_pairs_conserve_energy.

(** an oracle whose cumulative probability is the fraction itself *)
Definition uniform_oracles tg : Oracles (RX tg) :=
  Build_Oracles (RX tg) (fun _ a b => x_sub b a) (fun _ _ => Fin 1) (fun _ _ => Fin 1) (fun _ g _ => g).
Definition quarter_rng tg : Rng (RX tg) := Build_Rng (RX tg) unit (fun _ => tt) (fun s _ _ => (Fin (1 / 4), s)) (fun s _ => (Fin 1, s)).

Lemma uniform_good tg a b : 0 < a -> good_cumulative (uniform_oracles tg) a b.
Proof.
  intros Ha chi f Hc Hf. exists f. split; [lra|]. unfold bw_cumulative_pair, bw_TT_function, uniform_oracles. cbn [o_quad_a_b].
  unfold n_zero. rewrite !flit. cbn [x_sub]. rewrite (fdiv tg) by lra. f_equal. field. lra.
Qed.

Example C32_nonvacuous : forall tg, exists (c : bw_ctrl (RX tg)) a b n nf t p E B chi,
  pair_ctrl c a b n nf /\ (3 <= n)%nat /\ (3 <= nf)%nat /\ good_cumulative (uniform_oracles tg) a b /\
  bw_cumulative_table (uniform_oracles tg) c (Fin 0) = Ret t /\ unit_rng (quarter_rng tg) /\
  chi_photon (units false) (F3 tg p) (F3 tg E) (F3 tg B) (Fin 1) = Fin chi /\ 0 < chi /\ 2 * (nu_m false * nu_c false) <= norm3 p /\
  (forall i, (0 < i < n - 1)%nat -> ln chi <> chi_node a b n i).
Proof.
  intros tg. destruct (C28_nonvacuous tg) as (p & E & B & r & Hchi & Hp & _).
  exists (mk_bw_ctrl (RX tg) (Fin 0) (Fin 1) (Fin 2) 2 (Fin 1) (Fin 100) 3 3), 1, 100, 3%nat, 3%nat.
  assert (Hc : pair_ctrl (mk_bw_ctrl (RX tg) (Fin 0) (Fin 1) (Fin 2) 2 (Fin 1) (Fin 100) 3 3) 1 100 3 3).
  { unfold pair_ctrl. cbn. repeat split; try lra; lia. }
  destruct Hc as (H1 & H2 & H3 & H4 & H5 & H6 & H7 & H8).
  destruct (generated_pair_table tg (uniform_oracles tg) _ (Fin 0) 1 100 3 3 H1 H2 H3 H4 H5 H6 H7 H8) as (t & Et & _).
  exists t, p, E, B, 20. split; [now repeat split|]. split; [lia|]. split; [lia|]. split; [apply uniform_good; lra|]. split; [exact Et|].
  split. { intros s. exists (1 / 4), s. split; [reflexivity|lra]. }
  split; [exact Hchi|]. split; [lra|]. split. { cbn [nu_m nu_c] in *. lra. }
  intros i Hi. assert (i = 1%nat) by lia. subst i. unfold chi_node. cbn [INR Nat.sub]. rewrite ln_1.
  replace 100 with (10 * 10) by lra. rewrite ln_mult by lra.
  replace (0 + 1 * ((ln 10 + ln 10 - 0) / (1 + 1))) with (ln 10) by field.
  pose proof (ln_increasing 10 20 ltac:(lra) ltac:(lra)). lra.
Qed.

(** *** C33 *)
(** in every arithmetic: as many electrons and positrons as asked for, each with
    weight / sampling, one uniform draw per pair, nothing else of the engine changes *)
Theorem C33_counts_weights_draws : forall (N : NumOps) (U : Units N) (G : Rng N) (x x' : bw_engine G) p e b weight sampling els poss, (0 <= sampling)%Z ->
  bw_generate U G x p e b weight sampling = Ret (els, poss, x') ->
  zlen els = sampling /\ zlen poss = sampling /\
  (forall q, In q els \/ In q poss -> snd q = (weight / n_of_Z sampling)%N) /\
  be_rng x' = nth_state G (Z.to_nat sampling) (be_rng x) /\
  be_lambda x' = be_lambda x /\ be_ctrl x' = be_ctrl x /\ be_TT x' = be_TT x /\ be_cum x' = be_cum x.
Proof. exact @bw_generate_count. Qed.
Print Assumptions C33_counts_weights_draws.

Theorem C33_weights_add_up : forall tg U (G : Rng (RX tg)) (x x' : bw_engine G) p e b w sampling els poss, (0 < sampling)%Z ->
  bw_generate U G x p e b (Fin w) sampling = Ret (els, poss, x') ->
  sum_weights (map snd els) = Fin w /\ sum_weights (map snd poss) = Fin w.
Proof. exact bw_generate_weight_sum. Qed.
Print Assumptions C33_weights_add_up.

(** the successful calls the two theorems speak about exist: see C32_nonvacuous,
    which meets every hypothesis of C32_pairs_conserve_energy *)
Example C33_nonvacuous : forall tg, exists (x : bw_engine (quarter_rng tg)) p e b els poss x',
  bw_generate (units false) (quarter_rng tg) x p e b (Fin 1) 3 = Ret (els, poss, x').
Proof.
  intros tg. destruct (C32_nonvacuous tg) as (c & a & b & n & nf & t & p & E & B & chi & H1 & _ & _ & H2 & H3 & H4 & H5 & H6 & H7 & H8).
  destruct (C32_pairs_conserve_energy tg false (uniform_oracles tg) (quarter_rng tg) (@mk_bw (RX tg) (quarter_rng tg) (Fin 1) tt c lookup_1d_empty t) (Fin 0) a b n nf p E B 1 chi (Fin 1) 3)
    as (els & poss & x' & H & _); auto; [lia|]. do 7 eexists. exact H.
Qed.

(** *** C34 *)
(** real arithmetic, every table, photon, field and weight, every outcome
    (including undefined behaviour): adding 1/2 to every random number exchanges
    the electrons with the positrons *)
Theorem C34_symmetry : forall tg si p e b weight lam t c us vs,
  length us = length vs -> (forall i, (i < length us)%nat -> 0 <= el us i < 1 / 2 /\ el vs i = el us i + 1 / 2) ->
  bw_internal_generate (units si) p e b weight (Z.of_nat (length us)) lam t c (map Fin vs : list (num (RX tg)))
  = (do r <- bw_internal_generate (units si) p e b weight (Z.of_nat (length us)) lam t c (map Fin us : list (num (RX tg)));
     Ret (map swap_pair r)).
Proof. exact internal_swap. Qed.
Print Assumptions C34_symmetry.

Example C34_nonvacuous : let us := [1/8; 1/3] in let vs := [5/8; 5/6] in
  length us = length vs /\ (forall i, (i < length us)%nat -> 0 <= el us i < 1 / 2 /\ el vs i = el us i + 1 / 2).
Proof. cbn zeta. split; [reflexivity|]. intros [|[|i]] Hi; cbn in Hi; [| |lia]; unfold el; cbn; lra. Qed.

(** *** C35 *)
(** real arithmetic: every quadrature (even one that returns NaN or negative
    probabilities), every chi (inside or outside the table, on a node or not),
    every random number, every photon, also below the pair threshold *)
Theorem C35_search_in_bounds : forall tg si (Orc : Oracles (RX tg)) (G : Rng (RX tg)) (x : bw_engine G) garbage a b n nf p E B lam weight sampling,
  pair_ctrl (be_ctrl x) a b n nf -> bw_cumulative_table Orc (be_ctrl x) garbage = Ret (be_cum x) ->
  unit_rng G -> be_lambda x = Fin lam -> 0 < lam -> (0 <= sampling)%Z ->
  exists els poss x', bw_generate (units si) G x (F3 tg p) (F3 tg E) (F3 tg B) weight sampling = Ret (els, poss, x').
Proof. exact bw_generate_safe. Qed.
Print Assumptions C35_search_in_bounds.

(** every arithmetic: the search returns a position whose neighbours bracket the
    random number, and reads the table at columns 0 .. n-1 only *)
Theorem C35_search_any_arithmetic : forall (N : NumOps) (t : lookup_2d N) lw prob (f : nat -> bool) n,
  (forall j, (j < n)%nat -> exists v, interp2_linear_first_equispaced t lw (Z.of_nat j) = Ret v /\ n_lt prob (n_exp v) = f j) ->
  exists k, bw_search t lw prob (S n) 0 (Z.of_nat n) = Ret (Z.of_nat k) /\ (k <= n)%nat /\
    (k = 0%nat \/ f (k - 1)%nat = false) /\ (k = n \/ f k = true).
Proof. exact @bw_search_from_start. Qed.
Print Assumptions C35_search_any_arithmetic.

(** finding: in binary32 the last column, interpolated, can be one unit in the
    last place below 1/2; the random number of that value is then not below any
    entry and the fraction after the last one is read *)
Theorem C35_refuted_b32 : forall (lm : Libm b32) weight,
  lm_log lm (f32 11448769 (-18)) = f32 15840810 (-22) -> lm_exp lm (f32 (-11629081) (-24)) = below_half ->
  bw_internal_generate (units false) (photon32 lm) (e32 lm) (b_32 lm) weight 1 (n_lit 1 (-6)) (pair_table32 lm)
    (bw_ctrl_default (B32 lm)) [below_half : num (B32 lm)] = UB.
Proof. exact pair_search_b32_oob. Qed.
Print Assumptions C35_refuted_b32.

Example C35_nonvacuous : exists lm : Libm b32,
  lm_log lm (f32 11448769 (-18)) = f32 15840810 (-22) /\ lm_exp lm (f32 (-11629081) (-24)) = below_half.
Proof. exists (Build_Libm b32 (fun _ => below_half) (fun _ => f32 15840810 (-22)) (fun x _ => x) (fun x => x) (fun x => x)). split; reflexivity. Qed.

(** *** C36 *)
(** away from the interior nodes the momenta are finite: C32 exhibits them.  At
    an interior node every small enough random number gives momenta that are not
    numbers, for every table *)
Theorem C36_momenta_numbers_refuted : forall tg si (Orc : Oracles (RX tg)) (c : bw_ctrl (RX tg)) garbage t a b n nf p E B lam i weight u,
  pair_ctrl c a b n nf -> good_cumulative Orc a b -> bw_cumulative_table Orc c garbage = Ret t ->
  0 <= u < 1 -> (0 < i < n - 1)%nat ->
  chi_photon (units si) (F3 tg p) (F3 tg E) (F3 tg B) lam = Fin (exp (chi_node a b n i)) -> p <> zero3 ->
  (forall j v, (0 < j < nf - 1)%nat ->
     bw_cumulative_pair Orc (Fin (exp (chi_node a b n i))) (Fin (exp (chi_node a b n i) * (INR j * (1 / 2 / INR (nf - 1))))) = Fin v ->
     (if Rlt_dec u (1 / 2) then u else u - 1 / 2) < v) ->
  exists w, bw_internal_generate (units si) (F3 tg p) (F3 tg E) (F3 tg B) weight 1 lam t c [Fin u : num (RX tg)]
  = Ret [((@V3 (RX tg) NaN NaN NaN, w), (@V3 (RX tg) NaN NaN NaN, w))].
Proof. exact bw_generate_nan. Qed.
Print Assumptions C36_momenta_numbers_refuted.

(** away from the interior nodes, for every chi, momentum and random number *)
Theorem C36_momenta_numbers : forall tg si (Orc : Oracles (RX tg)) (G : Rng (RX tg)) (x : bw_engine G) garbage a b n nf p E B lam chi weight sampling,
  pair_ctrl (be_ctrl x) a b n nf -> good_cumulative Orc a b -> bw_cumulative_table Orc (be_ctrl x) garbage = Ret (be_cum x) ->
  unit_rng G -> be_lambda x = Fin lam -> (0 <= sampling)%Z ->
  chi_photon (units si) (F3 tg p) (F3 tg E) (F3 tg B) (Fin lam) = Fin chi -> 0 < chi -> 2 * (nu_m si * nu_c si) <= norm3 p ->
  (forall i, (0 < i < n - 1)%nat -> ln chi <> chi_node a b n i) ->
  exists els poss x', bw_generate (units si) G x (F3 tg p) (F3 tg E) (F3 tg B) weight sampling = Ret (els, poss, x') /\
    forall q, In q els \/ In q poss -> exists pr, fst q = F3 tg pr.
Proof. exact bw_generate_finite. Qed.
Print Assumptions C36_momenta_numbers.

(** a photon on the middle node of the table of C32_nonvacuous *)
Example C36_nonvacuous : forall tg, exists (c : bw_ctrl (RX tg)) a b n nf t p E B i u,
  pair_ctrl c a b n nf /\ good_cumulative (uniform_oracles tg) a b /\ bw_cumulative_table (uniform_oracles tg) c (Fin 0) = Ret t /\
  0 <= u < 1 /\ (0 < i < n - 1)%nat /\
  chi_photon (units false) (F3 tg p) (F3 tg E) (F3 tg B) (Fin 1) = Fin (exp (chi_node a b n i)) /\ p <> zero3 /\
  (forall j v, (0 < j < nf - 1)%nat ->
     bw_cumulative_pair (uniform_oracles tg) (Fin (exp (chi_node a b n i))) (Fin (exp (chi_node a b n i) * (INR j * (1 / 2 / INR (nf - 1))))) = Fin v ->
     (if Rlt_dec u (1 / 2) then u else u - 1 / 2) < v).
Proof.
  intros tg. destruct (C28_nonvacuous tg) as (p & E & B & r & Hchi & Hp & _).
  exists (mk_bw_ctrl (RX tg) (Fin 0) (Fin 1) (Fin 2) 2 (Fin 1) (Fin 400) 3 3), 1, 400, 3%nat, 3%nat.
  assert (Hc : pair_ctrl (mk_bw_ctrl (RX tg) (Fin 0) (Fin 1) (Fin 2) 2 (Fin 1) (Fin 400) 3 3) 1 400 3 3).
  { unfold pair_ctrl. cbn. repeat split; try lra; lia. }
  destruct Hc as (H1 & H2 & H3 & H4 & H5 & H6 & H7 & H8).
  destruct (generated_pair_table tg (uniform_oracles tg) _ (Fin 0) 1 400 3 3 H1 H2 H3 H4 H5 H6 H7 H8) as (t & Et & _).
  assert (Hnode : exp (chi_node 1 400 3 1) = 20).
  { unfold chi_node. cbn [INR Nat.sub]. rewrite ln_1. replace 400 with (20 * 20) by lra. rewrite ln_mult by lra.
    replace (0 + 1 * ((ln 20 + ln 20 - 0) / (1 + 1))) with (ln 20) by field. apply exp_ln. lra. }
  exists t, p, E, B, 1%nat, (1 / 8). split; [now repeat split|]. split; [apply uniform_good; lra|]. split; [exact Et|].
  split; [lra|]. split; [lia|]. rewrite Hnode. split; [exact Hchi|]. split.
  { intros ->. replace (norm3 zero3) with 0 in Hp; [cbn in Hp; lra|]. symmetry. now apply norm3_zero. }
  intros j v Hj Hv. assert (j = 1%nat) by lia. subst j. cbn [INR Nat.sub] in Hv.
  destruct (uniform_good tg 1 400 ltac:(lra) 20 (1 * (1 / 2 / (1 + 1))) ltac:(lra) ltac:(lra)) as (v' & _ & Ev).
  revert Hv. unfold bw_cumulative_pair, bw_TT_function, uniform_oracles. cbn [o_quad_a_b].
  unfold n_zero. rewrite !flit. cbn [x_sub]. rewrite (fdiv tg) by lra. intros Hv. injection Hv as <-.
  destruct (Rlt_dec (1 / 8) (1 / 2)); lra.
Qed.

(** *** C37 *)
(** every arithmetic, every quadrature: the iterations never write to the same
    element; every interleaving of their writes, hence every schedule and number
    of threads, gives the table the sequential loop gives, and its entries are
    those of the definition *)
Theorem C37_pair_table_any_schedule : forall (N : NumOps) (Orc : Oracles N) (c : bw_ctrl N) garbage,
  let chis := generate_log_spaced_vec (bc_tpair_min c) (bc_tpair_max c) (bc_tpair_how_many c) in
  let frac := generate_lin_spaced_vec n_zero (n_one / n_two)%N (bc_frac_how_many c) in
  let n := length chis in let nf := length frac in
  let vals := repeat garbage (n * nf) in
  (2 <= nf)%nat -> (Z.of_nat (n * nf) < 2 ^ 31)%Z ->
  exists its, mapM (bw_row_writes Orc chis frac (zlen vals)) (zseq n) = Ret its /\ disjoint its /\
  forall sched, interleaving its sched ->
  exists arr, apply_writes vals sched = Ret arr /\
    bw_cumulative_table Orc c garbage = Ret (lookup_2d_make (map n_log chis) frac (map n_log arr)) /\
    length arr = (n * nf)%nat /\
    forall i j chi, nth_error chis i = Some chi -> (j < nf)%nat ->
      nth_error arr (i * nf + j) = Some
        (if (j =? 0)%nat then n_lit 0 0 else if (S j =? nf)%nat then (n_lit 1 0 / n_lit 2 0)%N
         else bw_cumulative_pair Orc chi (chi * nth j frac (n_lit 0 0))%N).
Proof. exact @bw_table_schedules. Qed.
Print Assumptions C37_pair_table_any_schedule.

Theorem C37_photon_table_any_schedule : forall (N : NumOps) (Orc : Oracles N) (c : qs_ctrl N) garbage,
  let chis := generate_log_spaced_vec (qc_tem_min c) (qc_tem_max c) (qc_tem_how_many c) in
  let probs := generate_lin_spaced_vec (n_lit 0 0) (n_lit 1 0) (qc_prob_how_many c) in
  let n := length chis in let np := length probs in
  let vals := repeat garbage (n * np) in
  let p j := nth j probs (n_lit 0 0) in
  let prob j := if (S j =? np)%nat then (n_lit 1 0 - (n_lit 1 0 - p (np - 2)%nat) / n_lit 10 0)%N
                else if (j =? 0)%nat then (p 1%nat / n_lit 10 0)%N else p j in
  (2 <= np)%nat -> (Z.of_nat (n * np) < 2 ^ 31)%Z ->
  exists its, mapM (qs_row_writes Orc chis probs) (zseq n) = Ret its /\ disjoint its /\
  forall sched, interleaving its sched ->
  exists arr, apply_writes vals sched = Ret arr /\
    qs_cumulative_table Orc c garbage = Ret (lookup_2d_make (map n_log chis) probs (map n_log arr)) /\
    length arr = (n * np)%nat /\
    forall i chi, nth_error chis i = Some chi -> exists root : nat -> num N,
      root 0%nat = o_root Orc (qs_root_fun Orc chi (prob 0%nat) (n_lit 0 0) true) (- n_lit 10 0)%N true /\
      (forall j, (S j < np)%nat -> root (S j) = o_root Orc (qs_root_fun Orc chi (prob (S j)) (root j) false) (root j) true) /\
      (forall j, (j < np)%nat -> nth_error arr (i * np + j) = Some (n_exp (root j))).
Proof. exact @qs_table_recurrence. Qed.
Print Assumptions C37_photon_table_any_schedule.

(** default parameters: 50 x 50 for pairs, 64 x 256 for photons *)
Example C37_nonvacuous : forall tg,
  let c := bw_ctrl_default (RX tg) in let d := qs_ctrl_default (RX tg) in
  length (generate_log_spaced_vec (bc_tpair_min c) (bc_tpair_max c) (bc_tpair_how_many c)) = 50%nat /\
  length (generate_lin_spaced_vec (N := RX tg) n_zero (n_one / n_two)%N (bc_frac_how_many c)) = 50%nat /\
  length (generate_log_spaced_vec (qc_tem_min d) (qc_tem_max d) (qc_tem_how_many d)) = 64%nat /\
  length (generate_lin_spaced_vec (N := RX tg) (n_lit 0 0) (n_lit 1 0) (qc_prob_how_many d)) = 256%nat.
Proof.
  intros tg. cbn zeta. unfold bw_ctrl_default, qs_ctrl_default; cbn [bc_tpair_min bc_tpair_max bc_tpair_how_many bc_frac_how_many qc_tem_min qc_tem_max qc_tem_how_many qc_prob_how_many].
  unfold n_zero, n_one, n_two. rewrite !flit, fdiv by lra.
  repeat split; cbn; unfold x_lit, generate_log_spaced_vec, generate_lin_spaced_vec; cbn; repeat rewrite ?Rleb_false, ?Rltb_false by lra; cbn; reflexivity.
Qed.

(** *** C38 *)
(** every arithmetic: with fewer than two fractions the first write of the pair
    table is out of bounds *)
Theorem C38_pair_table_refuted : forall (N : NumOps) (Orc : Oracles N) (c : bw_ctrl N) garbage,
  (bc_frac_how_many c < 2)%Z -> (2 <= bc_tpair_how_many c)%Z ->
  n_le (bc_tpair_max c) (bc_tpair_min c) = false ->
  n_lt (bc_tpair_min c) (n_lit 0 0) = false -> n_lt (bc_tpair_max c) (n_lit 0 0) = false ->
  bw_cumulative_table Orc c garbage = UB.
Proof. exact @bw_table_too_few. Qed.
Print Assumptions C38_pair_table_refuted.

(** with fewer than two probabilities a photon table is returned and marked as
    initialised, but every photon generation from it reads out of bounds *)
Theorem C38_photon_table_refuted : forall (N : NumOps) (Orc : Oracles N) (c : qs_ctrl N) garbage,
  (qc_prob_how_many c < 2)%Z -> (Z.of_nat (length (generate_log_spaced_vec (qc_tem_min c) (qc_tem_max c) (qc_tem_how_many c))) < 2 ^ 31)%Z ->
  exists t, qs_cumulative_table Orc c garbage = Ret t /\ t2_y t = [] /\ t2_init t = true /\
    forall chi_part tab_chi gamma_part me_c n_part u,
      qs_one_photon chi_part tab_chi gamma_part me_c n_part t u = UB.
Proof. exact @qs_table_too_few. Qed.
Print Assumptions C38_photon_table_refuted.

(** with at least two, both tables are generated without leaving the array *)
Theorem C38_enough_points : forall (N : NumOps) (Orc : Oracles N) (c : bw_ctrl N) (d : qs_ctrl N) garbage,
  (2 <= length (generate_lin_spaced_vec (N := N) n_zero (n_one / n_two)%N (bc_frac_how_many c)))%nat ->
  (Z.of_nat (length (generate_log_spaced_vec (bc_tpair_min c) (bc_tpair_max c) (bc_tpair_how_many c)) *
             length (generate_lin_spaced_vec (N := N) n_zero (n_one / n_two)%N (bc_frac_how_many c))) < 2 ^ 31)%Z ->
  (2 <= length (generate_lin_spaced_vec (N := N) (n_lit 0 0) (n_lit 1 0) (qc_prob_how_many d)))%nat ->
  (Z.of_nat (length (generate_log_spaced_vec (qc_tem_min d) (qc_tem_max d) (qc_tem_how_many d)) *
             length (generate_lin_spaced_vec (N := N) (n_lit 0 0) (n_lit 1 0) (qc_prob_how_many d))) < 2 ^ 31)%Z ->
  (exists t, bw_cumulative_table Orc c garbage = Ret t) /\ (exists t, qs_cumulative_table Orc d garbage = Ret t).
Proof. exact @tables_generated. Qed.
Print Assumptions C38_enough_points.

Example C38_nonvacuous : forall tg,
  let c := mk_bw_ctrl (RX tg) (Fin 0) (Fin 1) (Fin 2) 2 (Fin 1) (Fin 100) 3 1 in
  (bc_frac_how_many c < 2)%Z /\ (2 <= bc_tpair_how_many c)%Z /\ n_le (bc_tpair_max c) (bc_tpair_min c) = false /\
  n_lt (bc_tpair_min c) (n_lit 0 0) = false /\ n_lt (bc_tpair_max c) (n_lit 0 0) = false.
Proof.
  intros tg. cbn zeta. cbn [bc_frac_how_many bc_tpair_how_many bc_tpair_min bc_tpair_max]. rewrite flit. cbn [n_le n_lt RX x_le x_lt].
  rewrite Rleb_false, !Rltb_false by lra. repeat split; lia.
Qed.
