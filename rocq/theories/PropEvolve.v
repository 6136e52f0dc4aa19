(** Properties C26-C31, C41, C42 and the rates of C57: optical depths, rates and
    events of the Breit-Wheeler and quantum synchrotron engines
    (src/multi_physics/QED/src/breit_wheeler_engine.hpp, quantum_sync_engine.hpp).
    [bw_evolve x p E B dt opt] is evolve_opt_depth_and_determine_event: it returns
    (has an event happened, time of the event, new optical depth). *)
From Coq Require Import ZArith Reals List Bool Lra Lia.
From Flocq Require Import Core BinarySingleNaN.
From Verif Require Import Cxx Num NumRX NumIEEE Utilities LookupTables VecFun Units ChiFun Oracles OmpFor BreitWheeler QuantumSync.
From Verif Require Import RXLemmas Spec SpecPhys UtilitiesProofs ChiProofs EvolveProofs RateProofs EvolveIEEE.
Import ListNotations.
Local Open Scope R_scope.

(** *** C26 *)
Theorem C26_exponential : forall tg u, 0 <= u < 1 ->
  exists t, @get_optical_depth_unf (RX tg) (Fin u) = Fin t /\ @qs_get_optical_depth_unf (RX tg) (Fin u) = Fin t /\
    0 <= t /\ 1 - exp (- t) = u.
Proof. exact optical_depth_spec. Qed.
Print Assumptions C26_exponential.

Theorem C26_increasing : forall tg u1 u2 t1 t2, 0 <= u1 < u2 -> u2 < 1 ->
  @get_optical_depth_unf (RX tg) (Fin u1) = Fin t1 -> @get_optical_depth_unf (RX tg) (Fin u2) = Fin t2 -> t1 < t2.
Proof. exact optical_depth_mono. Qed.
Print Assumptions C26_increasing.

Example C26_nonvacuous : 0 <= 1/4 < 3/4 /\ 3/4 < 1.
Proof. lra. Qed.

(** *** C27 *)
(** in every arithmetic: no event, time zero, the optical depth bit for bit the same *)
Theorem C27_photon_any_arithmetic : forall (N : NumOps) (U : Units N) Orc (G : Rng N) (x : bw_engine G) p e b dt opt,
  n_le (chi_photon U p e b (be_lambda x)) (bc_chi_phot_min (be_ctrl x)) = true \/
  n_lt (norm p * u_c U)%N (n_lit 2 0 * (u_emass U * u_c U * u_c U))%N = true ->
  bw_evolve U Orc G x p e b dt opt = Ret (false, n_lit 0 0, opt).
Proof. exact @bw_below_any. Qed.
Print Assumptions C27_photon_any_arithmetic.

Theorem C27_lepton_any_arithmetic : forall (N : NumOps) (U : Units N) Orc (G : Rng N) (x : qs_engine G) p e b dt opt,
  n_le (chi_lepton U p e b (qe_lambda x)) (qc_chi_part_min (qe_ctrl x)) = true ->
  qs_evolve U Orc G x p e b dt opt = Ret (false, n_lit 0 0, opt).
Proof. exact @qs_below_any. Qed.
Print Assumptions C27_lepton_any_arithmetic.

Theorem C27_photon_below_threshold : forall tg si (Orc : Oracles (RX tg)) (G : Rng (RX tg)) (x : bw_engine G)
    p E B dt opt lam cmin,
  be_lambda x = Fin lam -> bc_chi_phot_min (be_ctrl x) = Fin cmin -> 0 < lam ->
  (exists v, chi_photon (units si) (F3 tg p) (F3 tg E) (F3 tg B) (Fin lam) = Fin v /\ v <= cmin) \/
  norm3 p * nu_c si < 2 * (nu_m si * nu_c si * nu_c si) ->
  bw_evolve (units si) Orc G x (F3 tg p) (F3 tg E) (F3 tg B) dt opt = Ret (false, Fin 0, opt).
Proof. exact bw_below_threshold. Qed.
Print Assumptions C27_photon_below_threshold.

(** non-vacuity: a photon of energy m c^2 in normalised units *)
Example C27_nonvacuous : norm3 (mk3 1 0 0) * nu_c false < 2 * (nu_m false * nu_c false * nu_c false).
Proof.
  cbn [nu_c nu_m]. replace (norm3 (mk3 1 0 0)) with 1; [lra|].
  unfold norm3, dot3. cbn. replace (1 * 1 + 0 * 0 + 0 * 0) with 1 by ring. now rewrite sqrt_1.
Qed.

(** *** C28 *)
(** [r] is the rate: the interpolated one if the engine has a rate table, the
    directly computed one otherwise *)
Theorem C28_photon_event_time : forall tg si (Orc : Oracles (RX tg)) (G : Rng (RX tg)) (x : bw_engine G)
    p E B lam cmin v r dt opt,
  be_lambda x = Fin lam -> bc_chi_phot_min (be_ctrl x) = Fin cmin ->
  chi_photon (units si) (F3 tg p) (F3 tg E) (F3 tg B) (Fin lam) = Fin v -> cmin < v ->
  2 * (nu_m si * nu_c si * nu_c si) <= norm3 p * nu_c si ->
  (if t1_init (be_TT x)
   then @bw_engine_interp_dN_dt (RX tg) (units si) G x (Fin (norm3 p * nu_c si)) (Fin v)
   else Ret (@bw_compute_dN_dt (RX tg) (units si) Orc (Fin lam) (Fin (norm3 p * nu_c si)) (Fin v))) = Ret (Fin r) ->
  0 <= r -> 0 <= dt -> 0 <= opt ->
  let res := bw_evolve (units si) Orc G x (F3 tg p) (F3 tg E) (F3 tg B) (Fin dt) (Fin opt) in
  (opt < r * dt /\ exists t, res = Ret (true, Fin t, Fin (opt - r * dt)) /\ 0 <= t < dt /\ r * t = opt) \/
  (r * dt <= opt /\ exists o, res = Ret (false, Fin 0, Fin o) /\ o = opt - r * dt /\ 0 <= o).
Proof. exact bw_event. Qed.
Print Assumptions C28_photon_event_time.

Theorem C28_lepton_event_time : forall tg si (Orc : Oracles (RX tg)) (G : Rng (RX tg)) (x : qs_engine G)
    p E B lam cmin v r dt opt,
  qe_lambda x = Fin lam -> nu_lambda si lam = lam -> qc_chi_part_min (qe_ctrl x) = Fin cmin ->
  chi_lepton (units si) (F3 tg p) (F3 tg E) (F3 tg B) (Fin lam) = Fin v -> cmin < v ->
  (if t1_init (qe_KK x)
   then @qs_engine_interp_dN_dt (RX tg) (units si) G x (Fin (norm3 p * nu_c si)) (Fin v)
   else Ret (@qs_compute_dN_dt (RX tg) (units si) Orc (Fin lam) (Fin (norm3 p * nu_c si)) (Fin v))) = Ret (Fin r) ->
  0 <= r -> 0 <= dt -> 0 <= opt ->
  let res := qs_evolve (units si) Orc G x (F3 tg p) (F3 tg E) (F3 tg B) (Fin dt) (Fin opt) in
  (opt < r * dt /\ exists t, res = Ret (true, Fin t, Fin (opt - r * dt)) /\ 0 <= t < dt /\ r * t = opt) \/
  (r * dt <= opt /\ exists o, res = Ret (false, Fin 0, Fin o) /\ o = opt - r * dt /\ 0 <= o).
Proof. exact qs_event. Qed.
Print Assumptions C28_lepton_event_time.

(** every IEEE format, one step at the finite rate [r]: the event time does not
    exceed the step and the optical depth does not grow *)
Theorem C28_ieee_event_time : forall prec emax (Hp : Prec_gt_0 prec) (He : Prec_lt_emax prec emax)
    (lm : Libm (binary_float prec emax)) (r dt opt : binary_float prec emax) ev,
  @evolve_with_rate (IEEE prec emax Hp He lm) r dt opt = ev ->
  is_finite r = true -> is_finite dt = true -> 0 <= B2R dt ->
  (0 < B2R r -> ev_event ev = true -> Bleb (ev_dt ev) dt = true) /\
  (ev_event ev = false -> Beqb (ev_dt ev) (B754_zero false) = true) /\
  (is_finite opt = true -> 0 <= B2R opt -> Bsign r = false -> Bsign dt = false ->
    Bleb (ev_opt_depth ev) opt = true).
Proof. exact evolve_ieee. Qed.
Print Assumptions C28_ieee_event_time.

(** binary64, rate 3, step 0.1, depth 0: an event at a negative time *)
Theorem C28_ieee_nonnegative_refuted : forall lm : Libm b64, exists r dt : b64,
  r = @n_lit (B64 lm) 3 0 /\ dt = @n_lit (B64 lm) 1 (-1) /\
  let ev := @evolve_with_rate (B64 lm) r dt (@n_lit (B64 lm) 0 0) in
  ev_event ev = true /\ @n_lt (B64 lm) (ev_dt ev) (@n_lit (B64 lm) 0 0) = true.
Proof. exact evolve_negative_b64. Qed.
Print Assumptions C28_ieee_nonnegative_refuted.

(** non-vacuity: a photon of energy 10 m c^2 against a counter-propagating wave
    of the strength of the Schwinger field has chi = 20 (normalised units,
    lambda = 1), above the default threshold, and a positive rate if T = 1 *)
Definition ex_oracles tg : Oracles (RX tg) :=
  Build_Oracles (RX tg) (fun _ _ _ => Fin 1) (fun _ _ => Fin 1) (fun _ _ => Fin 1) (fun _ g _ => g).

Example C28_nonvacuous : forall tg, exists p E B r,
  chi_photon (units false) (F3 tg p) (F3 tg E) (F3 tg B) (Fin 1) = Fin 20 /\
  2 * (nu_m false * nu_c false * nu_c false) <= norm3 p * nu_c false /\
  @bw_compute_dN_dt (RX tg) (units false) (ex_oracles tg) (Fin 1) (Fin (norm3 p * nu_c false)) (Fin 20) = Fin r /\ 0 < r.
Proof.
  intros tg. pose proof (nu_Es_pos false) as HE. pose proof (nu_pair_pos false) as HP.
  set (p := mk3 10 0 0). set (E := mk3 0 (nu_Es false) 0).
  assert (Hn : norm3 p = 10).
  { unfold norm3, dot3, p. cbn [x3 y3 z3]. replace (10 * 10 + 0 * 0 + 0 * 0) with (10 * 10) by ring. apply sqrt_square. lra. }
  assert (HnE : norm3 E = nu_Es false).
  { unfold norm3, dot3, E. cbn [x3 y3 z3]. replace (0 * 0 + nu_Es false * nu_Es false + 0 * 0) with (nu_Es false * nu_Es false) by ring.
    apply sqrt_square. lra. }
  exists p, E, (scale3 (-1 / nu_c false) (cross3 (unit3 p) E)), (nu_pair false * 1 / (20 * (norm3 p * nu_c false)) * 1).
  split; [|split; [|split]].
  - rewrite chi_photon_wave; try lra.
    + rewrite Hn, HnE. cbn [nu_m nu_c nu_lambda]. f_equal. field. lra.
    + unfold p, zero3. intros H. injection H. lra.
    + unfold dot3, p, E. cbn [x3 y3 z3]. ring.
  - rewrite Hn. cbn [nu_m nu_c]. lra.
  - rewrite Hn. cbn [nu_c]. apply bw_direct_rate; try lra. reflexivity.
  - rewrite Hn. cbn [nu_c]. apply Rmult_lt_0_compat; [|lra]. apply Rmult_lt_0_compat; [lra|]. apply Rinv_0_lt_compat. lra.
Qed.

(** *** C29 *)
(** [run_steps step dts opt 0] (EvolveProofs.v) is the caller's time loop: it
    calls [step] for the successive durations [dts], feeding back the optical
    depth, until an event; it returns the time of the event since the beginning
    (None without event) and the last depth.  [total dts] is the sum. *)
Theorem C29_photon_step_splitting : forall tg si (Orc : Oracles (RX tg)) (G : Rng (RX tg)) (x : bw_engine G)
    p E B lam cmin v r dts opt,
  be_lambda x = Fin lam -> bc_chi_phot_min (be_ctrl x) = Fin cmin ->
  chi_photon (units si) (F3 tg p) (F3 tg E) (F3 tg B) (Fin lam) = Fin v -> cmin < v ->
  2 * (nu_m si * nu_c si * nu_c si) <= norm3 p * nu_c si ->
  (if t1_init (be_TT x)
   then @bw_engine_interp_dN_dt (RX tg) (units si) G x (Fin (norm3 p * nu_c si)) (Fin v)
   else Ret (@bw_compute_dN_dt (RX tg) (units si) Orc (Fin lam) (Fin (norm3 p * nu_c si)) (Fin v))) = Ret (Fin r) ->
  0 <= r -> 0 <= opt -> Forall (fun dt => 0 <= dt) dts ->
  let loop := run_steps (fun dt o => bw_evolve (units si) Orc G x (F3 tg p) (F3 tg E) (F3 tg B) (Fin dt) o) dts (Fin opt) 0 in
  (opt < r * total dts -> exists o, loop = Ret (Some (opt / r), o)) /\
  (r * total dts <= opt -> loop = Ret (None, Fin (opt - r * total dts))).
Proof. exact bw_steps. Qed.
Print Assumptions C29_photon_step_splitting.

Theorem C29_lepton_step_splitting : forall tg si (Orc : Oracles (RX tg)) (G : Rng (RX tg)) (x : qs_engine G)
    p E B lam cmin v r dts opt,
  qe_lambda x = Fin lam -> nu_lambda si lam = lam -> qc_chi_part_min (qe_ctrl x) = Fin cmin ->
  chi_lepton (units si) (F3 tg p) (F3 tg E) (F3 tg B) (Fin lam) = Fin v -> cmin < v ->
  (if t1_init (qe_KK x)
   then @qs_engine_interp_dN_dt (RX tg) (units si) G x (Fin (norm3 p * nu_c si)) (Fin v)
   else Ret (@qs_compute_dN_dt (RX tg) (units si) Orc (Fin lam) (Fin (norm3 p * nu_c si)) (Fin v))) = Ret (Fin r) ->
  0 <= r -> 0 <= opt -> Forall (fun dt => 0 <= dt) dts ->
  let loop := run_steps (fun dt o => qs_evolve (units si) Orc G x (F3 tg p) (F3 tg E) (F3 tg B) (Fin dt) o) dts (Fin opt) 0 in
  (opt < r * total dts -> exists o, loop = Ret (Some (opt / r), o)) /\
  (r * total dts <= opt -> loop = Ret (None, Fin (opt - r * total dts))).
Proof. exact qs_steps. Qed.
Print Assumptions C29_lepton_step_splitting.

Example C29_nonvacuous : Forall (fun dt => 0 <= dt) [1; 0; 1/2] /\ total [1; 0; 1/2] = 3/2.
Proof. split; [repeat constructor; lra|unfold total; cbn; lra]. Qed.

(** *** C30 *)
Theorem C30_zero : forall tg si en chi t c lam, en = 0 \/ chi = 0 ->
  @bw_interp_dN_dt (RX tg) (units si) (Fin en) (Fin chi) t c lam = Ret (Fin 0).
Proof. exact bw_rate_zero. Qed.
Print Assumptions C30_zero.

(** the rate is [nu_pair * lambda * T / (chi * energy)], with T > 0 the
    asymptotic form outside the table and, inside, interpolated in the logarithms
    between the two neighbouring tabulated values *)
Theorem C30_rate : forall tg si (Orc : Oracles (RX tg)) (c : bw_ctrl (RX tg)) a b n lam en chi,
  bc_tdndt_min c = Fin a -> bc_tdndt_max c = Fin b -> bc_tdndt_how_many c = Z.of_nat n ->
  0 < a < b -> (2 <= n)%nat -> (Z.of_nat n < 2 ^ 31)%Z ->
  (forall x, a <= x <= b -> exists v, 0 < v /\ @bw_TT_function (RX tg) Orc (Fin x) = Fin v) ->
  0 < lam -> 0 < en -> 0 < chi -> 0 < tg (1 / 3) ->
  exists T, 0 < T /\
    @bw_interp_dN_dt (RX tg) (units si) (Fin en) (Fin chi) (bw_dN_dt_table Orc c) c (Fin lam)
      = Ret (Fin (nu_pair si * nu_lambda si lam / (chi * en) * T)) /\
    (chi <= a -> T = T_small chi) /\ (b <= chi -> T = T_large (tg (1 / 3)) chi) /\
    (a < chi < b -> exists i xl xr Tl Tr,
       (S i < n)%nat /\ el (log_grid a b n) i = xl /\ el (log_grid a b n) (S i) = xr /\ xl <= chi < xr /\
       @bw_TT_function (RX tg) Orc (Fin xl) = Fin Tl /\ @bw_TT_function (RX tg) Orc (Fin xr) = Fin Tr /\
       ln T = line (ln xl) (ln Tl) (ln xr) (ln Tr) (ln chi) /\
       Rmin Tl Tr <= T <= Rmax Tl Tr /\ (chi = xl -> T = Tl)).
Proof. exact bw_rate_spec. Qed.
Print Assumptions C30_rate.

Theorem C30_inverse_energy : forall tg si t c lam en chi k T, 0 < k -> 0 < lam -> 0 < en -> 0 < chi ->
  @bw_interp_dN_dt (RX tg) (units si) (Fin en) (Fin chi) t c (Fin lam) = Ret (Fin T) ->
  @bw_interp_dN_dt (RX tg) (units si) (Fin (k * en)) (Fin chi) t c (Fin lam) = Ret (Fin (T / k)).
Proof. exact bw_rate_energy. Qed.
Print Assumptions C30_inverse_energy.

Theorem C30_direct_rate : forall tg si (Orc : Oracles (RX tg)) lam en chi T, 0 < en -> 0 < chi ->
  @bw_TT_function (RX tg) Orc (Fin chi) = Fin T ->
  @bw_compute_dN_dt (RX tg) (units si) Orc (Fin lam) (Fin en) (Fin chi) = Fin (nu_pair si * lam / (chi * en) * T).
Proof. exact bw_direct_rate. Qed.
Print Assumptions C30_direct_rate.

Theorem C30_coefficient_positive : forall si, 0 < nu_pair si.
Proof. exact nu_pair_pos. Qed.
Print Assumptions C30_coefficient_positive.

Example C30_nonvacuous : forall tg,
  let c := bw_ctrl_default (RX tg) in
  bc_tdndt_min c = Fin (1 / 10) /\ bc_tdndt_max c = Fin 500 /\ bc_tdndt_how_many c = Z.of_nat 50 /\
  (forall x, 1 / 10 <= x <= 500 -> exists v, 0 < v /\ @bw_TT_function (RX tg) (ex_oracles tg) (Fin x) = Fin v).
Proof.
  intros tg. cbn zeta. repeat split. intros x _. exists 1. split; [lra|reflexivity].
Qed.

(** *** C31 *)
Theorem C31_lookup_in_table : forall tg si (Orc : Oracles (RX tg)) (c : bw_ctrl (RX tg)) a b n lam en chi,
  bc_tdndt_min c = Fin a -> bc_tdndt_max c = Fin b -> bc_tdndt_how_many c = Z.of_nat n ->
  0 < a < b -> (2 <= n)%nat -> (Z.of_nat n < 2 ^ 31)%Z ->
  (forall x, a <= x <= b -> exists v, 0 < v /\ @bw_TT_function (RX tg) Orc (Fin x) = Fin v) ->
  exists v, @bw_interp_dN_dt (RX tg) (units si) en (Fin chi) (bw_dN_dt_table Orc c) c lam = Ret v.
Proof. exact bw_rate_in_table. Qed.
Print Assumptions C31_lookup_in_table.

(** binary64, default parameters: chi is the largest double below the table
    maximum 500 and its logarithm rounds to that of 500 *)
Theorem C31_binary64_refuted : forall (lm : Libm b64) (Orc : Oracles (B64 lm)) si energy lambda,
  lm_log lm (@n_lit (B64 lm) 1 (-1)) = log_01 -> lm_log lm (@n_lit (B64 lm) 500 0) = log_500 ->
  lm_log lm below_500 = log_500 -> @n_eq (B64 lm) energy (@n_lit (B64 lm) 0 0) = false ->
  @n_lt (B64 lm) below_500 (@n_lit (B64 lm) 500 0) = true /\
  bw_interp_dN_dt (units si) energy (below_500 : num (B64 lm))
    (bw_dN_dt_table Orc (bw_ctrl_default (B64 lm))) (bw_ctrl_default (B64 lm)) lambda = UB.
Proof. exact bw_rate_b64_oob. Qed.
Print Assumptions C31_binary64_refuted.

(** non-vacuity: a logarithm with the three values; the two arguments differ *)
Example C31_nonvacuous : exists lm : Libm b64,
  lm_log lm (@n_lit (B64 lm) 1 (-1)) = log_01 /\ lm_log lm (@n_lit (B64 lm) 500 0) = log_500 /\
  lm_log lm below_500 = log_500.
Proof.
  pose (lg := fun x : b64 => if Bltb x (binary_normalize 53 1024 prec53 emax1024 mode_NE 1 0 false) then log_01 else log_500).
  exists (Build_Libm b64 (fun x => x) lg (fun x _ => x) (fun x => x) (fun x => x)).
  repeat split; vm_compute; reflexivity.
Qed.

(** *** C41 *)
(** every arithmetic; above the thresholds [answer] is what a missing table
    gives, and what a table giving the same rate gives *)
Theorem C41_photon_missing_table : forall (N : NumOps) (U : Units N) Orc (G : Rng N) (x : bw_engine G) p e b dt opt,
  let energy := (norm p * u_c U)%N in
  let chi := chi_photon U p e b (be_lambda x) in
  (n_le chi (bc_chi_phot_min (be_ctrl x)) || n_lt energy (n_lit 2 0 * (u_emass U * u_c U * u_c U))%N)%bool = false ->
  let r := bw_compute_dN_dt U Orc (be_lambda x) energy chi in
  let o := (opt - r * dt)%N in
  let answer := if (o <? n_lit 0 0)%N then (true, (o / r + dt)%N, o) else (false, n_lit 0 0, o) in
  (t1_init (be_TT x) = false -> bw_evolve U Orc G x p e b dt opt = Ret answer) /\
  (t1_init (be_TT x) = true -> bw_engine_interp_dN_dt U G x energy chi = Ret r ->
   bw_evolve U Orc G x p e b dt opt = Ret answer).
Proof. exact @bw_no_table. Qed.
Print Assumptions C41_photon_missing_table.

Theorem C41_lepton_missing_table : forall (N : NumOps) (U : Units N) Orc (G : Rng N) (x : qs_engine G) p e b dt opt,
  (u_si U = true -> qe_lambda x = n_lit 1 0) ->
  let energy := (norm p * u_c U)%N in
  let chi := chi_lepton U p e b (qe_lambda x) in
  n_le chi (qc_chi_part_min (qe_ctrl x)) = false ->
  let r := qs_compute_dN_dt U Orc (qe_lambda x) energy chi in
  let o := (opt - r * dt)%N in
  let answer := if (o <? n_lit 0 0)%N then (true, (o / r + dt)%N, o) else (false, n_lit 0 0, o) in
  (t1_init (qe_KK x) = false -> qs_evolve U Orc G x p e b dt opt = Ret answer) /\
  (t1_init (qe_KK x) = true -> qs_engine_interp_dN_dt U G x energy chi = Ret r ->
   qs_evolve U Orc G x p e b dt opt = Ret answer).
Proof. exact @qs_no_table. Qed.
Print Assumptions C41_lepton_missing_table.

(** a new engine has no tables *)
Example C41_nonvacuous : forall (N : NumOps) (U : Units N) (G : Rng N) r l cb cq,
  t1_init (be_TT (bw_new U G r l cb)) = false /\ t1_init (qe_KK (qs_new U G r l cq)) = false.
Proof. intros. split; reflexivity. Qed.

(** *** C42 *)
Theorem C42_rate_below_maximum : forall tg si (Orc : Oracles (RX tg)) (c : qs_ctrl (RX tg)) a b n lam en chi,
  qc_tdndt_min c = Fin a -> qc_tdndt_max c = Fin b -> qc_tdndt_how_many c = Z.of_nat n ->
  0 < a < b -> (2 <= n)%nat -> (Z.of_nat n < 2 ^ 31)%Z ->
  (forall x, a <= x <= b -> exists v, 0 < v /\ @qs_KK_function (RX tg) Orc (Fin x) = Fin v) ->
  0 < en -> 0 < chi < b ->
  exists K, 0 < K /\
    @qs_interp_dN_dt (RX tg) (units si) (Fin en) (Fin chi) (qs_dN_dt_table Orc c) c (Fin lam)
      = Ret (Fin (nu_qs si * lam / en * K)) /\
    (exists i xl xr Kl Kr, let x := Rmax chi a in
       (S i < n)%nat /\ el (log_grid a b n) i = xl /\ el (log_grid a b n) (S i) = xr /\ xl <= x < xr /\
       @qs_KK_function (RX tg) Orc (Fin xl) = Fin Kl /\ @qs_KK_function (RX tg) Orc (Fin xr) = Fin Kr /\
       ln K = line (ln xl) (ln Kl) (ln xr) (ln Kr) (ln x) /\
       Rmin Kl Kr <= K <= Rmax Kl Kr /\ (x = xl -> K = Kl)).
Proof. exact qs_rate_spec. Qed.
Print Assumptions C42_rate_below_maximum.

(** at and above the table maximum the lookup reads past the end of the table *)
Theorem C42_above_maximum_refuted : forall tg si (Orc : Oracles (RX tg)) (c : qs_ctrl (RX tg)) a b n lam en chi,
  qc_tdndt_min c = Fin a -> qc_tdndt_max c = Fin b -> qc_tdndt_how_many c = Z.of_nat n ->
  0 < a < b -> (2 <= n)%nat -> (Z.of_nat n < 2 ^ 31)%Z ->
  (forall x, a <= x <= b -> exists v, 0 < v /\ @qs_KK_function (RX tg) Orc (Fin x) = Fin v) ->
  0 < en -> b <= chi ->
  @qs_interp_dN_dt (RX tg) (units si) (Fin en) (Fin chi) (qs_dN_dt_table Orc c) c (Fin lam) = UB.
Proof. exact qs_rate_oob. Qed.
Print Assumptions C42_above_maximum_refuted.

(** the same in binary64 with the default parameters, whenever the C library's
    log(0.001) and log(200) are correctly rounded *)
Theorem C42_binary64_refuted : forall (lm : Libm b64) (Orc : Oracles (B64 lm)) si energy lambda chi,
  lm_log lm (@n_lit (B64 lm) 1 (-3)) = log_0001 -> lm_log lm (@n_lit (B64 lm) 200 0) = log_200 ->
  @n_eq (B64 lm) energy (@n_lit (B64 lm) 0 0) = false ->
  @n_eq (B64 lm) chi (@n_lit (B64 lm) 0 0) = false ->
  @n_le (B64 lm) chi (@n_lit (B64 lm) 1 (-3)) = false ->
  @n_le (B64 lm) (@n_lit (B64 lm) 200 0) chi = true ->
  qs_interp_dN_dt (units si) energy (chi : num (B64 lm))
    (qs_dN_dt_table Orc (qs_ctrl_default (B64 lm))) (qs_ctrl_default (B64 lm)) lambda = UB.
Proof. exact qs_rate_b64_oob. Qed.
Print Assumptions C42_binary64_refuted.

Theorem C42_zero : forall tg si en chi t c lam, en = 0 \/ chi = 0 ->
  @qs_interp_dN_dt (RX tg) (units si) (Fin en) (Fin chi) t c lam = Ret (Fin 0).
Proof. exact qs_rate_zero. Qed.
Print Assumptions C42_zero.

Theorem C42_inverse_energy : forall tg si t c lam en chi k T, 0 < k -> 0 < en -> 0 < chi -> 0 < lam ->
  @qs_interp_dN_dt (RX tg) (units si) (Fin en) (Fin chi) t c (Fin lam) = Ret (Fin T) ->
  @qs_interp_dN_dt (RX tg) (units si) (Fin (k * en)) (Fin chi) t c (Fin lam) = Ret (Fin (T / k)).
Proof. exact qs_rate_energy. Qed.
Print Assumptions C42_inverse_energy.

Theorem C42_direct_rate : forall tg si (Orc : Oracles (RX tg)) lam en chi K, 0 < en -> 0 < chi ->
  @qs_KK_function (RX tg) Orc (Fin chi) = Fin K ->
  @qs_compute_dN_dt (RX tg) (units si) Orc (Fin lam) (Fin en) (Fin chi) = Fin (nu_qs si * lam / en * K).
Proof. exact qs_direct_rate. Qed.
Print Assumptions C42_direct_rate.

Example C42_nonvacuous : forall tg,
  let c := qs_ctrl_default (RX tg) in
  qc_tdndt_min c = Fin (1 / 1000) /\ qc_tdndt_max c = Fin 200 /\ qc_tdndt_how_many c = Z.of_nat 64 /\
  (forall x, 1 / 1000 <= x <= 200 -> exists v, 0 < v /\ @qs_KK_function (RX tg) (ex_oracles tg) (Fin x) = Fin v).
Proof.
  intros tg. cbn zeta. repeat split. intros x _. exists 2. split; [lra|]. unfold qs_KK_function, ex_oracles. cbn [o_quad_a_b]. rewrite fadd. f_equal; lra.
Qed.

(** *** C57: rates in the two unit systems, energies in units of m c^2 and times
    in units of lambda / (2 pi c) *)
Theorem C57_pair_rate_units : forall tg t c lam l1 en chi r, 0 < lam -> 0 < en -> 0 < chi ->
  @bw_interp_dN_dt (RX tg) (units true) (Fin en) (Fin chi) t c (Fin l1) = Ret (Fin r) ->
  @bw_interp_dN_dt (RX tg) (units false) (Fin (en / (ph_m * ph_c * ph_c))) (Fin chi) t c (Fin lam)
    = Ret (Fin (r * (lam / (2 * ph_pi * ph_c)))).
Proof. exact bw_rate_units. Qed.
Print Assumptions C57_pair_rate_units.

Theorem C57_photon_rate_units : forall tg t c lam en chi r, 0 < lam -> 0 < en -> 0 < chi ->
  @qs_interp_dN_dt (RX tg) (units true) (Fin en) (Fin chi) t c (Fin 1) = Ret (Fin r) ->
  @qs_interp_dN_dt (RX tg) (units false) (Fin (en / (ph_m * ph_c * ph_c))) (Fin chi) t c (Fin lam)
    = Ret (Fin (r * (lam / (2 * ph_pi * ph_c)))).
Proof. exact qs_rate_units. Qed.
Print Assumptions C57_photon_rate_units.
