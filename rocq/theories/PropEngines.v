(** Properties C39 and C40: histories of calls on engines and clones of engines
    (src/multi_physics/QED/src/breit_wheeler_engine.hpp, quantum_sync_engine.hpp,
    schwinger_pair_engine.hpp, rng_wrapper.hpp).
    [bw_call], [qs_call], [sw_call] are the public functions as calls on an engine;
    [program sem cp h pool] runs the history h of calls, copies and assignments on
    the engines of the pool. *)
From Coq Require Import ZArith Reals List Bool Lra.
From Verif Require Import Cxx Num NumRX LookupTables VecFun Units Oracles BreitWheeler QuantumSync Schwinger EngineCalls.
From Verif Require Import SpecPhys SpecQED SpecEngines ChiProofs EngineProofs.
Import ListNotations.

(** *** C39 *)
(** an engine answers as if it were alone: other engines, copies made of it and
    what happens to them do not matter *)
Theorem C39_bw_isolated : forall (N : NumOps) si (Orc : Oracles N) (G : Rng N) h pool ans pool' i x,
  program (bw_call (units si) Orc G) (bw_copy G) h pool = Ret (ans, pool') ->
  nth_error pool i = Some x -> never_assigned i h ->
  exists x', run (bw_call (units si) Orc G) (calls_on i h) x = Ret (answers_of i ans, x') /\ nth_error pool' i = Some x'.
Proof. exact (fun N si Orc G => program_isolated (bw_call (units si) Orc G) (bw_copy G)). Qed.
Print Assumptions C39_bw_isolated.

Theorem C39_qs_isolated : forall (N : NumOps) si (Orc : Oracles N) (G : Rng N) h pool ans pool' i x,
  program (qs_call (units si) Orc G) (qs_copy G) h pool = Ret (ans, pool') ->
  nth_error pool i = Some x -> never_assigned i h ->
  exists x', run (qs_call (units si) Orc G) (calls_on i h) x = Ret (answers_of i ans, x') /\ nth_error pool' i = Some x'.
Proof. exact (fun N si Orc G => program_isolated (qs_call (units si) Orc G) (qs_copy G)). Qed.
Print Assumptions C39_qs_isolated.

Theorem C39_sw_isolated : forall (N : NumOps) si (G : Rng N) h pool ans pool' i x,
  program (sw_call (units si) G) (sw_copy G) h pool = Ret (ans, pool') ->
  nth_error pool i = Some x -> never_assigned i h ->
  exists x', run (sw_call (units si) G) (calls_on i h) x = Ret (answers_of i ans, x') /\ nth_error pool' i = Some x'.
Proof. exact (fun N si G => program_isolated (sw_call (units si) G) (sw_copy G)). Qed.
Print Assumptions C39_sw_isolated.

(** engines built with the same seed, wavelength and parameters, in whatever two
    programs, give the same answers to the same calls *)
Theorem C39_bw_replay : forall (N : NumOps) si (Orc : Oracles N) (G : Rng N) seed lambda c h1 h2 pool1 pool2 ans1 ans2 p1 p2 i j,
  program (bw_call (units si) Orc G) (bw_copy G) h1 pool1 = Ret (ans1, p1) ->
  program (bw_call (units si) Orc G) (bw_copy G) h2 pool2 = Ret (ans2, p2) ->
  nth_error pool1 i = Some (bw_new (units si) G (rng_seed G seed) lambda c) ->
  nth_error pool2 j = Some (bw_new (units si) G (rng_seed G seed) lambda c) ->
  never_assigned i h1 -> never_assigned j h2 -> calls_on i h1 = calls_on j h2 ->
  answers_of i ans1 = answers_of j ans2.
Proof. exact (fun N si Orc G seed lambda c h1 h2 p1 p2 a1 a2 p1' p2' i j => program_replay (bw_call (units si) Orc G) (bw_copy G) h1 h2 p1 p2 a1 a2 p1' p2' i j _). Qed.
Print Assumptions C39_bw_replay.

Theorem C39_qs_replay : forall (N : NumOps) si (Orc : Oracles N) (G : Rng N) seed lambda c h1 h2 pool1 pool2 ans1 ans2 p1 p2 i j,
  program (qs_call (units si) Orc G) (qs_copy G) h1 pool1 = Ret (ans1, p1) ->
  program (qs_call (units si) Orc G) (qs_copy G) h2 pool2 = Ret (ans2, p2) ->
  nth_error pool1 i = Some (qs_new (units si) G (rng_seed G seed) lambda c) ->
  nth_error pool2 j = Some (qs_new (units si) G (rng_seed G seed) lambda c) ->
  never_assigned i h1 -> never_assigned j h2 -> calls_on i h1 = calls_on j h2 ->
  answers_of i ans1 = answers_of j ans2.
Proof. exact (fun N si Orc G seed lambda c h1 h2 p1 p2 a1 a2 p1' p2' i j => program_replay (qs_call (units si) Orc G) (qs_copy G) h1 h2 p1 p2 a1 a2 p1' p2' i j _). Qed.
Print Assumptions C39_qs_replay.

(** a copy made at any moment continues like the original *)
Theorem C39_bw_copy : forall (N : NumOps) si (Orc : Oracles N) (G : Rng N) h1 h2 pool ans pool' i,
  program (bw_call (units si) Orc G) (bw_copy G) (h1 ++ CopyOf i :: h2) pool = Ret (ans, pool') ->
  exists ans1 ans2 p1, ans = ans1 ++ ans2 /\ program (bw_call (units si) Orc G) (bw_copy G) h1 pool = Ret (ans1, p1) /\
  (i < length p1)%nat /\
  (never_assigned i h2 -> never_assigned (length p1) h2 -> calls_on i h2 = calls_on (length p1) h2 ->
   answers_of i ans2 = answers_of (length p1) ans2).
Proof. exact (fun N si Orc G => program_copy (bw_call (units si) Orc G) (bw_copy G) (fun x => match x with mk_bw _ _ _ _ _ => eq_refl end)). Qed.
Print Assumptions C39_bw_copy.

Theorem C39_bw_assign : forall (N : NumOps) si (Orc : Oracles N) (G : Rng N) h1 h2 pool ans pool' d s,
  program (bw_call (units si) Orc G) (bw_copy G) (h1 ++ Assign d s :: h2) pool = Ret (ans, pool') ->
  exists ans1 ans2 p1, ans = ans1 ++ ans2 /\ program (bw_call (units si) Orc G) (bw_copy G) h1 pool = Ret (ans1, p1) /\
  (never_assigned d h2 -> never_assigned s h2 -> calls_on d h2 = calls_on s h2 ->
   answers_of d ans2 = answers_of s ans2).
Proof. exact (fun N si Orc G => program_assign (bw_call (units si) Orc G) (bw_copy G) (fun x => match x with mk_bw _ _ _ _ _ => eq_refl end)). Qed.
Print Assumptions C39_bw_assign.

Theorem C39_qs_copy : forall (N : NumOps) si (Orc : Oracles N) (G : Rng N) h1 h2 pool ans pool' i,
  program (qs_call (units si) Orc G) (qs_copy G) (h1 ++ CopyOf i :: h2) pool = Ret (ans, pool') ->
  exists ans1 ans2 p1, ans = ans1 ++ ans2 /\ program (qs_call (units si) Orc G) (qs_copy G) h1 pool = Ret (ans1, p1) /\
  (i < length p1)%nat /\
  (never_assigned i h2 -> never_assigned (length p1) h2 -> calls_on i h2 = calls_on (length p1) h2 ->
   answers_of i ans2 = answers_of (length p1) ans2).
Proof. exact (fun N si Orc G => program_copy (qs_call (units si) Orc G) (qs_copy G) (fun x => match x with mk_qs _ _ _ _ _ => eq_refl end)). Qed.
Print Assumptions C39_qs_copy.

Theorem C39_sw_copy : forall (N : NumOps) si (G : Rng N) h1 h2 pool ans pool' i,
  program (sw_call (units si) G) (sw_copy G) (h1 ++ CopyOf i :: h2) pool = Ret (ans, pool') ->
  exists ans1 ans2 p1, ans = ans1 ++ ans2 /\ program (sw_call (units si) G) (sw_copy G) h1 pool = Ret (ans1, p1) /\
  (i < length p1)%nat /\
  (never_assigned i h2 -> never_assigned (length p1) h2 -> calls_on i h2 = calls_on (length p1) h2 ->
   answers_of i ans2 = answers_of (length p1) ans2).
Proof. exact (fun N si G => program_copy (sw_call (units si) G) (sw_copy G) (fun x => match x with mk_sw _ _ => eq_refl end)). Qed.
Print Assumptions C39_sw_copy.

(** what a history leaves behind: the last wavelength set (none in S.I. units),
    the parameters unchanged, the generator advanced by one exponential draw per
    optical depth and one uniform draw per generated pair or photon, the tables
    last made or read *)
Theorem C39_bw_history : forall (N : NumOps) si (Orc : Oracles N) (G : Rng N) h x ans x',
  run (bw_call (units si) Orc G) h x = Ret (ans, x') ->
  be_lambda x' = (if si then be_lambda x else last_lambda h (be_lambda x)) /\
  be_ctrl x' = be_ctrl x /\
  be_rng x' = drawn G (flat_map draws h) (be_rng x) /\
  be_TT x' = last_rate_table (bw_dN_dt_table Orc (be_ctrl x)) h (be_TT x) /\
  last_cum_table (bw_cumulative_table Orc (be_ctrl x)) h (be_cum x) (be_cum x').
Proof. exact @bw_history. Qed.
Print Assumptions C39_bw_history.

Theorem C39_qs_history : forall (N : NumOps) si (Orc : Oracles N) (G : Rng N) h x ans x',
  run (qs_call (units si) Orc G) h x = Ret (ans, x') ->
  qe_lambda x' = (if si then qe_lambda x else last_lambda h (qe_lambda x)) /\
  qe_ctrl x' = qe_ctrl x /\
  qe_rng x' = drawn G (flat_map draws h) (qe_rng x) /\
  qe_KK x' = last_rate_table (qs_dN_dt_table Orc (qe_ctrl x)) h (qe_KK x) /\
  last_cum_table (qs_cumulative_table Orc (qe_ctrl x)) h (qe_cum x) (qe_cum x').
Proof. exact @qs_history. Qed.
Print Assumptions C39_qs_history.

Theorem C39_sw_history : forall (N : NumOps) si (G : Rng N) h x ans x',
  run (sw_call (units si) G) h x = Ret (ans, x') ->
  se_lambda x' = (if si then se_lambda x else fold_left (fun l c => match c with SSetLambda l' => l' | _ => l end) h (se_lambda x)) /\
  se_rng x' = nth_state G (3 * length (filter (fun c => match c with SPosition => true | _ => false end) h)) (se_rng x).
Proof. exact @sw_history. Qed.
Print Assumptions C39_sw_history.

(** a generator that counts: an engine, a copy of it and an assignment *)
Definition counting_rng (N : NumOps) : Rng N :=
  {| rng_state := Z; rng_seed := fun s => s; rng_unf := fun s _ _ => (n_of_Z s, (s + 1)%Z); rng_exp := fun s _ => (n_of_Z s, (s + 1)%Z) |}.
Example C39_nonvacuous : forall (N : NumOps) si (Orc : Oracles N) c,
  exists h1 h2 ans pool', 
  program (bw_call (units si) Orc (counting_rng N)) (bw_copy (counting_rng N)) (h1 ++ CopyOf 0 :: h2)
    [bw_new (units si) (counting_rng N) (rng_seed (counting_rng N) 7) n_one c] = Ret (ans, pool') /\
  never_assigned 0 h2 /\ never_assigned 1 h2 /\ calls_on 0 h2 = calls_on 1 h2 /\
  answers_of 1 ans = [ANum (n_of_Z 8); ANum (n_of_Z 9)].
Proof.
  intros. exists [On 0 COpticalDepth], [On 1 COpticalDepth; On 0 COpticalDepth; On 0 COpticalDepth; On 1 COpticalDepth].
  do 2 eexists. split; [reflexivity|].
  split; [intros d s [H|[H|[H|[H|[]]]]]; discriminate|]. split; [intros d s [H|[H|[H|[H|[]]]]]; discriminate|].
  split; reflexivity.
Qed.

(** *** C40 *)
(** the clone is in the state of the original when the tables are initialised *)
Theorem C40_bw_clone : forall (N : NumOps) (G : Rng N) (x : bw_engine G), rate_table_ok (be_TT x) -> cum_table_ok (be_cum x) ->
  bw_of_innards G (bw_export_innards G x) = x.
Proof. exact @bw_clone_same. Qed.
Print Assumptions C40_bw_clone.

Theorem C40_qs_clone : forall (N : NumOps) (G : Rng N) (x : qs_engine G), rate_table_ok (qe_KK x) -> cum_table_ok (qe_cum x) ->
  qs_clone G x = x.
Proof. exact @qs_clone_same. Qed.
Print Assumptions C40_qs_clone.

(** the tables the engines make are of that kind *)
Theorem C40_bw_tables : forall (N : NumOps) (Orc : Oracles N) c g t,
  rate_table_ok (bw_dN_dt_table Orc c) /\
  ((0 <= bc_tpair_how_many c)%Z -> (0 <= bc_frac_how_many c)%Z -> (bc_tpair_how_many c * bc_frac_how_many c < 2 ^ 64)%Z ->
   bw_cumulative_table Orc c g = Ret t -> cum_table_ok t).
Proof. exact (fun N Orc c g t => conj (bw_rate_table_ok Orc c) (bw_cum_table_ok Orc c g t)). Qed.
Print Assumptions C40_bw_tables.

Theorem C40_qs_tables : forall (N : NumOps) (Orc : Oracles N) c g t,
  rate_table_ok (qs_dN_dt_table Orc c) /\
  ((0 <= qc_tem_how_many c)%Z -> (0 <= qc_prob_how_many c)%Z -> (qc_tem_how_many c * qc_prob_how_many c < 2 ^ 64)%Z ->
   qs_cumulative_table Orc c g = Ret t -> cum_table_ok t).
Proof. exact (fun N Orc c g t => conj (qs_rate_table_ok Orc c) (qs_cum_table_ok Orc c g t)). Qed.
Print Assumptions C40_qs_tables.

(** finding: for an engine without tables, which computes the rate directly, the
    clone believes its tables and reads an empty one *)
Theorem C40_empty_refuted : forall tg si (Orc : Oracles (RX tg)) (G : Rng (RX tg)) r lam (c : bw_ctrl (RX tg)) p E B dt opt chi cmin a b,
  (0 < lam -> p <> zero3 ->
  chi = chi_cov (nu_m si) (nu_c si) (nu_Es si * nu_lambda si lam) (p0_photon p) p E B ->
  bc_chi_phot_min c = Fin cmin -> bc_tdndt_min c = Fin a -> bc_tdndt_max c = Fin b ->
  cmin < chi -> 0 < a < chi -> chi < b -> 2 * nu_m si * nu_c si <= norm3 p ->
  let x := bw_new (units si) G r (Fin lam) c in
  (exists v, bw_evolve (units si) Orc G x (F3 tg p) (F3 tg E) (F3 tg B) dt opt = Ret v) /\
  bw_evolve (units si) Orc G (bw_of_innards G (bw_export_innards G x)) (F3 tg p) (F3 tg E) (F3 tg B) dt opt = UB)%R.
Proof. exact bw_clone_empty_rx. Qed.
Print Assumptions C40_empty_refuted.

Example C40_nonvacuous : forall (N : NumOps) (G : Rng N) (r : rng_state G),
  let x : bw_engine G := mk_bw n_one r (bw_ctrl_default N) (mk1d [n_zero; n_one] [n_one; n_one] true)
             (mk2d [n_zero; n_one] [n_zero; n_one; n_two] [n_one; n_one; n_one; n_two; n_two; n_two] true) in
  rate_table_ok (be_TT x) /\ cum_table_ok (be_cum x).
Proof. intros. split; [split; reflexivity|]. split; [reflexivity|]. split; reflexivity. Qed.

Example C40_empty_nonvacuous : exists p E, let chi := chi_cov (nu_m false) (nu_c false) (nu_Es false * nu_lambda false 1) (p0_photon p) p E zero3 in
  (p <> zero3 /\ 2 * nu_m false * nu_c false <= norm3 p /\ 0 < chi /\ exists cmin a b, cmin < chi /\ 0 < a < chi /\ chi < b)%R.
Proof.
  exists (mk3 3 4 0), (mk3 0 0 1).
  assert (Hn : (norm3 (mk3 3 4 0) = 5)%R).
  { unfold norm3, dot3. cbn. replace (3 * 3 + 4 * 4 + 0 * 0)%R with (5 * 5)%R by ring. apply sqrt_square. lra. }
  assert (HE := nu_Es_pos false).
  assert (Hc : (0 < chi_cov (nu_m false) (nu_c false) (nu_Es false * nu_lambda false 1) (p0_photon (mk3 3 4 0)) (mk3 3 4 0) (mk3 0 0 1) zero3)%R).
  { unfold chi_cov. apply Rdiv_lt_0_compat.
    - unfold p0_photon. rewrite Hn. apply sqrt_lt_R0. unfold force2, dot3, add3, scale3, cross3, zero3. cbn. lra.
    - change (nu_m false) with 1%R. change (nu_c false) with 1%R. change (nu_lambda false 1) with 1%R. lra. }
  intros chi. change (0 < chi)%R in Hc. clearbody chi. split; [intros H; apply (f_equal x3) in H; cbn in H; lra|].
  rewrite Hn. split; [unfold nu_m, nu_c; lra|]. split; [exact Hc|]. exists 0%R, (chi / 2)%R, (2 * chi)%R. lra.
Qed.
