(** Optical depth evolution and rate lookups of the Breit-Wheeler and quantum
    synchrotron engines. *)
From Coq Require Import ZArith Reals List Bool Lia Lra.
From Verif Require Import Cxx Num NumRX Utilities LookupTables VecFun Units ChiFun Oracles OmpFor BreitWheeler QuantumSync.
From Verif Require Import CxxLemmas RXLemmas Spec SpecPhys UtilitiesProofs TableProofs ChiProofs.
Import ListNotations.
Local Open Scope R_scope.

(** ** optical depths *)
Lemma optical_depth_spec tg u : 0 <= u < 1 ->
  exists t, @get_optical_depth_unf (RX tg) (Fin u) = Fin t /\ @qs_get_optical_depth_unf (RX tg) (Fin u) = Fin t /\
    0 <= t /\ 1 - exp (- t) = u.
Proof.
  intros Hu. exists (- ln (1 - u)).
  assert (E : x_log (Fin (1 - u)) = Fin (ln (1 - u))) by (apply x_log_fin; lra).
  unfold get_optical_depth_unf, qs_get_optical_depth_unf, n_one. cbn [n_opp n_log n_sub n_lit RX x_lit x_sub].
  rewrite E. split; [reflexivity|]. split; [reflexivity|]. split.
  - assert (ln (1 - u) <= 0); [|lra]. rewrite <- ln_1.
    destruct (Req_dec u 0) as [->|]; [right; f_equal; lra|]. left. apply ln_increasing; lra.
  - rewrite Ropp_involutive, exp_ln by lra. lra.
Qed.

Lemma optical_depth_mono tg u1 u2 t1 t2 : 0 <= u1 < u2 -> u2 < 1 ->
  @get_optical_depth_unf (RX tg) (Fin u1) = Fin t1 -> @get_optical_depth_unf (RX tg) (Fin u2) = Fin t2 -> t1 < t2.
Proof.
  intros H1 H2 E1 E2. destruct (optical_depth_spec tg u1 ltac:(lra)) as (s1 & F1 & _ & _ & G1).
  destruct (optical_depth_spec tg u2 ltac:(lra)) as (s2 & F2 & _ & _ & G2).
  rewrite E1 in F1. rewrite E2 in F2. injection F1 as <-. injection F2 as <-.
  assert (exp (- t2) < exp (- t1)) as H by lra. apply exp_lt_inv in H. lra.
Qed.

(** ** one step at a given rate *)
Lemma evolve_rate_spec tg r dt opt : 0 <= r -> 0 <= dt -> 0 <= opt ->
  @evolve_with_rate (RX tg) (Fin r) (Fin dt) (Fin opt) =
  if Rlt_dec opt (r * dt) then mk_ev (RX tg) true (Fin (opt - r * dt)) true (Fin (opt / r))
  else mk_ev (RX tg) true (Fin (opt - r * dt)) false (Fin 0).
Proof.
  intros Hr Hdt Ho. unfold evolve_with_rate, n_zero. cbn [n_sub n_mul n_lt n_lit RX x_mul x_sub x_lit x_lt]. cbn zeta.
  destruct (Rlt_dec opt (r * dt)) as [H|H].
  - rewrite Rltb_true by lra. cbn [n_div n_add RX].
    assert (0 < r). { destruct Hr as [|<-]; [assumption|]. lra. }
    rewrite x_div_fin by lra. cbn [x_add]. f_equal. f_equal. field. lra.
  - rewrite Rltb_false by lra. reflexivity.
Qed.

(** ** the engines' evolve, decomposed; for every arithmetic *)
Definition decide {N : NumOps} (r dt opt : num N) : bool * num N * num N :=
  let o := (opt - r * dt)%N in
  if (o <? n_lit 0 0)%N then (true, (o / r + dt)%N, o) else (false, n_lit 0 0, o).

Lemma si_lambda_idem {N} (U : Units N) l : si_lambda U (si_lambda U l) = si_lambda U l.
Proof. unfold si_lambda. now destruct (u_si U). Qed.
Lemma chi_photon_si {N} (U : Units N) p e b l : chi_photon U p e b (si_lambda U l) = chi_photon U p e b l.
Proof. unfold chi_photon. now rewrite si_lambda_idem. Qed.
Lemma chi_lepton_si {N} (U : Units N) p e b l : chi_lepton U p e b (si_lambda U l) = chi_lepton U p e b l.
Proof. unfold chi_lepton. now rewrite si_lambda_idem. Qed.
Lemma bw_interp_si {N} (U : Units N) en chi t c l : bw_interp_dN_dt U en chi t c (si_lambda U l) = bw_interp_dN_dt U en chi t c l.
Proof. unfold bw_interp_dN_dt. now rewrite si_lambda_idem. Qed.

Lemma bw_evolve_decomposed {N : NumOps} (U : Units N) Orc (G : Rng N) (x : bw_engine G) p e b dt opt :
  let energy := (norm p * u_c U)%N in
  let chi := chi_photon U p e b (be_lambda x) in
  bw_evolve U Orc G x p e b dt opt =
  if (n_le chi (bc_chi_phot_min (be_ctrl x)) || n_lt energy (n_two * (u_emass U * u_c U * u_c U))%N)%bool
  then Ret (false, n_lit 0 0, opt)
  else do r <- (if t1_init (be_TT x) then bw_engine_interp_dN_dt U G x energy chi
                else Ret (bw_compute_dN_dt U Orc (be_lambda x) energy chi));
       Ret (decide r dt opt).
Proof.
  cbn zeta. unfold bw_evolve, bw_internal_evolve, bw_engine_interp_dN_dt. cbn zeta.
  rewrite chi_photon_si, bw_interp_si.
  destruct (_ || _)%bool; cbn [bind ev_ok ev_event ev_dt ev_opt_depth]; [reflexivity|].
  destruct (t1_init (be_TT x)).
  - destruct (bw_interp_dN_dt _ _ _ _ _ _); cbn [bind]; try reflexivity.
    unfold evolve_with_rate, decide, n_zero. cbn zeta. destruct (_ <? _)%N; reflexivity.
  - cbn [bind ev_ok ev_opt_depth]. unfold evolve_with_rate, decide, n_zero. cbn zeta. destruct (_ <? _)%N; reflexivity.
Qed.

Lemma qs_evolve_decomposed {N : NumOps} (U : Units N) Orc (G : Rng N) (x : qs_engine G) p e b dt opt :
  si_lambda U (qe_lambda x) = qe_lambda x ->
  let energy := (norm p * u_c U)%N in
  let chi := chi_lepton U p e b (qe_lambda x) in
  qs_evolve U Orc G x p e b dt opt =
  if n_le chi (qc_chi_part_min (qe_ctrl x))
  then Ret (false, n_lit 0 0, opt)
  else do r <- (if t1_init (qe_KK x) then qs_engine_interp_dN_dt U G x energy chi
                else Ret (qs_compute_dN_dt U Orc (qe_lambda x) energy chi));
       Ret (decide r dt opt).
Proof.
  intros Hl. cbn zeta. unfold qs_evolve, qs_internal_evolve, qs_engine_interp_dN_dt. cbn zeta.
  rewrite chi_lepton_si, Hl.
  destruct (n_le _ _); cbn [bind ev_ok ev_event ev_dt ev_opt_depth]; [reflexivity|].
  destruct (t1_init (qe_KK x)).
  - destruct (qs_interp_dN_dt _ _ _ _ _ _); cbn [bind]; try reflexivity.
    unfold evolve_with_rate, decide, n_zero. cbn zeta. destruct (_ <? _)%N; reflexivity.
  - cbn [bind ev_ok ev_opt_depth]. unfold evolve_with_rate, decide, n_zero. cbn zeta. destruct (_ <? _)%N; reflexivity.
Qed.

Lemma decide_spec tg r dt opt : 0 <= r -> 0 <= dt -> 0 <= opt ->
  @decide (RX tg) (Fin r) (Fin dt) (Fin opt) =
  if Rlt_dec opt (r * dt) then (true, Fin (opt / r), Fin (opt - r * dt)) else (false, Fin 0, Fin (opt - r * dt)).
Proof.
  intros Hr Hdt Ho. unfold decide. cbn [n_sub n_mul n_lt n_lit RX x_mul x_sub x_lit x_lt]. cbn zeta.
  destruct (Rlt_dec opt (r * dt)) as [H|H].
  - rewrite Rltb_true by lra. cbn [n_div n_add RX].
    assert (0 < r). { destruct Hr as [|<-]; [assumption|]. lra. }
    rewrite x_div_fin by lra. cbn [x_add]. do 3 f_equal. field. lra.
  - rewrite Rltb_false by lra. reflexivity.
Qed.

(** thresholds over exact arithmetic *)
Lemma bw_below_threshold tg si (Orc : Oracles (RX tg)) (G : Rng (RX tg)) (x : bw_engine G) p E B dt opt lam cmin :
  be_lambda x = Fin lam -> bc_chi_phot_min (be_ctrl x) = Fin cmin -> 0 < lam -> 
  (exists v, chi_photon (units si) (F3 tg p) (F3 tg E) (F3 tg B) (Fin lam) = Fin v /\ v <= cmin) \/
  norm3 p * nu_c si < 2 * (nu_m si * nu_c si * nu_c si) ->
  bw_evolve (units si) Orc G x (F3 tg p) (F3 tg E) (F3 tg B) dt opt = Ret (false, Fin 0, opt).
Proof.
  intros Hl Hc Hpos H. rewrite bw_evolve_decomposed. cbn zeta. rewrite Hl, Hc, F3_norm, u_c_val, u_m_val.
  destruct (chi_photon_nonneg tg si p E B lam Hpos) as (w & Ew & Hw).
  replace (_ || _)%bool with true; [reflexivity|]. symmetry. apply orb_true_iff.
  destruct H as [(v & Ev & Hv)|H].
  - left. rewrite Ev. cbn [n_le RX x_le]. now apply Rleb_true.
  - right. unfold n_two. cbn [n_lt n_mul n_lit RX x_lit x_mul x_lt]. now apply Rltb_true.
Qed.

Lemma qs_below_threshold tg si (Orc : Oracles (RX tg)) (G : Rng (RX tg)) (x : qs_engine G) p E B dt opt lam cmin v :
  qe_lambda x = Fin lam -> qc_chi_part_min (qe_ctrl x) = Fin cmin -> 
  (chi_lepton (units si) (F3 tg p) (F3 tg E) (F3 tg B) (Fin lam) = Fin v) -> v <= cmin ->
  qs_evolve (units si) Orc G x (F3 tg p) (F3 tg E) (F3 tg B) dt opt = Ret (false, Fin 0, opt).
Proof.
  intros Hl Hc Hv Hle. unfold qs_evolve, qs_internal_evolve. cbn zeta. rewrite chi_lepton_si, Hl, Hc, Hv.
  cbn [n_le RX x_le]. rewrite Rleb_true by assumption. reflexivity.
Qed.

(** one step above the thresholds *)
Lemma bw_above tg si (Orc : Oracles (RX tg)) (G : Rng (RX tg)) (x : bw_engine G) p E B lam cmin v r dt opt :
  be_lambda x = Fin lam -> bc_chi_phot_min (be_ctrl x) = Fin cmin ->
  chi_photon (units si) (F3 tg p) (F3 tg E) (F3 tg B) (Fin lam) = Fin v -> cmin < v ->
  2 * (nu_m si * nu_c si * nu_c si) <= norm3 p * nu_c si ->
  (if t1_init (be_TT x)
   then @bw_engine_interp_dN_dt (RX tg) (units si) G x (Fin (norm3 p * nu_c si)) (Fin v)
   else Ret (@bw_compute_dN_dt (RX tg) (units si) Orc (Fin lam) (Fin (norm3 p * nu_c si)) (Fin v))) = Ret (Fin r) ->
  0 <= r -> 0 <= dt -> 0 <= opt ->
  bw_evolve (units si) Orc G x (F3 tg p) (F3 tg E) (F3 tg B) (Fin dt) (Fin opt) =
  if Rlt_dec opt (r * dt) then Ret (true, Fin (opt / r), Fin (opt - r * dt))
  else Ret (false, Fin 0, Fin (opt - r * dt)).
Proof.
  intros Hl Hc Hv Hcv He Hr Hr0 Hdt Ho. rewrite bw_evolve_decomposed. cbn zeta.
  rewrite Hl, Hc, F3_norm, u_c_val, u_m_val, Hv. unfold n_two.
  cbn [n_le n_lt n_mul n_lit RX x_lit x_mul x_lt x_le].
  rewrite Rleb_false, Rltb_false by assumption. cbn [orb].
  match goal with |- bind ?m _ = _ => replace m with (@Ret rx (Fin r)) end.
  cbn [bind]. rewrite decide_spec by assumption. now destruct (Rlt_dec _ _).
Qed.

Lemma qs_above tg si (Orc : Oracles (RX tg)) (G : Rng (RX tg)) (x : qs_engine G) p E B lam cmin v r dt opt :
  qe_lambda x = Fin lam -> nu_lambda si lam = lam -> qc_chi_part_min (qe_ctrl x) = Fin cmin ->
  chi_lepton (units si) (F3 tg p) (F3 tg E) (F3 tg B) (Fin lam) = Fin v -> cmin < v ->
  (if t1_init (qe_KK x)
   then @qs_engine_interp_dN_dt (RX tg) (units si) G x (Fin (norm3 p * nu_c si)) (Fin v)
   else Ret (@qs_compute_dN_dt (RX tg) (units si) Orc (Fin lam) (Fin (norm3 p * nu_c si)) (Fin v))) = Ret (Fin r) ->
  0 <= r -> 0 <= dt -> 0 <= opt ->
  qs_evolve (units si) Orc G x (F3 tg p) (F3 tg E) (F3 tg B) (Fin dt) (Fin opt) =
  if Rlt_dec opt (r * dt) then Ret (true, Fin (opt / r), Fin (opt - r * dt))
  else Ret (false, Fin 0, Fin (opt - r * dt)).
Proof.
  intros Hl Hsi Hc Hv Hcv Hr Hr0 Hdt Ho. rewrite qs_evolve_decomposed.
  2: { rewrite Hl, si_lambda_val. now rewrite Hsi. }
  cbn zeta. rewrite Hl, Hc, F3_norm, u_c_val, Hv.
  cbn [n_le n_mul RX x_mul x_le]. rewrite Rleb_false by assumption.
  match goal with |- bind ?m _ = _ => replace m with (@Ret rx (Fin r)) end.
  cbn [bind]. rewrite decide_spec by assumption. now destruct (Rlt_dec _ _).
Qed.

(** ** step splitting *)
(** A user's time loop: call [step dt depth] for the successive durations until
    an event; the time of the event since the beginning, and the last depth. *)
Fixpoint run_steps (step : R -> rx -> out (bool * rx * rx)) (dts : list R) (opt : rx) (elapsed : R)
    : out (option R * rx) :=
  match dts with
  | [] => Ret (None, opt)
  | dt :: rest =>
      do '(ev, t, o) <- step dt opt;
      if (ev : bool) then match t with Fin t0 => Ret (Some (elapsed + t0), o) | _ => UB end
      else run_steps step rest o (elapsed + dt)
  end.

Definition total (dts : list R) : R := fold_right Rplus 0 dts.

Lemma run_steps_spec step r : 0 <= r ->
  (forall dt opt, 0 <= dt -> 0 <= opt -> step dt (Fin opt) =
     if Rlt_dec opt (r * dt) then Ret (true, Fin (opt / r), Fin (opt - r * dt))
     else Ret (false, Fin 0, Fin (opt - r * dt))) ->
  forall dts opt elapsed, 0 <= opt -> Forall (fun dt => 0 <= dt) dts ->
  (opt < r * total dts -> exists o, run_steps step dts (Fin opt) elapsed = Ret (Some (elapsed + opt / r), o)) /\
  (r * total dts <= opt -> run_steps step dts (Fin opt) elapsed = Ret (None, Fin (opt - r * total dts))).
Proof.
  intros Hr Hstep. induction dts as [|dt dts IH]; intros opt elapsed Ho Hd.
  - cbn. split; [lra|]. intros _. do 3 f_equal. lra.
  - inversion Hd; subst. cbn [run_steps total fold_right]. fold (total dts).
    rewrite Hstep by assumption.
    assert (Ht : 0 <= total dts).
    { clear -H2. induction H2; cbn; [lra|]. fold (total l). lra. }
    destruct (Rlt_dec opt (r * dt)) as [Hlt|Hge]; cbn [bind].
    + split; [intros _; eexists; reflexivity|]. intros Hle. nra.
    + destruct (IH (opt - r * dt) (elapsed + dt) ltac:(lra) H2) as [IH1 IH2]. split; intros Hx.
      * destruct (IH1 ltac:(lra)) as (o & Eo). exists o. rewrite Eo. do 3 f_equal.
        assert (0 < r) by (destruct Hr as [|<-]; [assumption|lra]). field. lra.
      * rewrite IH2 by lra. do 3 f_equal. lra.
Qed.

(** thresholds, for every arithmetic *)
Lemma bw_below_any {N : NumOps} (U : Units N) Orc (G : Rng N) (x : bw_engine G) p e b dt opt :
  n_le (chi_photon U p e b (be_lambda x)) (bc_chi_phot_min (be_ctrl x)) = true \/
  n_lt (norm p * u_c U)%N (n_lit 2 0 * (u_emass U * u_c U * u_c U))%N = true ->
  bw_evolve U Orc G x p e b dt opt = Ret (false, n_lit 0 0, opt).
Proof.
  intros H. rewrite bw_evolve_decomposed. cbn zeta. change n_two with (@n_lit N 2 0).
  destruct H as [-> | ->]; [reflexivity|]. now rewrite orb_true_r.
Qed.
Lemma qs_below_any {N : NumOps} (U : Units N) Orc (G : Rng N) (x : qs_engine G) p e b dt opt :
  n_le (chi_lepton U p e b (qe_lambda x)) (qc_chi_part_min (qe_ctrl x)) = true ->
  qs_evolve U Orc G x p e b dt opt = Ret (false, n_lit 0 0, opt).
Proof.
  intros H. unfold qs_evolve, qs_internal_evolve. cbn zeta. rewrite chi_lepton_si, H. reflexivity.
Qed.

(** the time loop over an engine *)
Lemma bw_steps tg si (Orc : Oracles (RX tg)) (G : Rng (RX tg)) (x : bw_engine G) p E B lam cmin v r dts opt :
  be_lambda x = Fin lam -> bc_chi_phot_min (be_ctrl x) = Fin cmin ->
  chi_photon (units si) (F3 tg p) (F3 tg E) (F3 tg B) (Fin lam) = Fin v -> cmin < v ->
  2 * (nu_m si * nu_c si * nu_c si) <= norm3 p * nu_c si ->
  (if t1_init (be_TT x)
   then @bw_engine_interp_dN_dt (RX tg) (units si) G x (Fin (norm3 p * nu_c si)) (Fin v)
   else Ret (@bw_compute_dN_dt (RX tg) (units si) Orc (Fin lam) (Fin (norm3 p * nu_c si)) (Fin v))) = Ret (Fin r) ->
  0 <= r -> 0 <= opt -> Forall (fun dt => 0 <= dt) dts ->
  let loop := run_steps (fun dt o => bw_evolve (units si) Orc G x (F3 tg p) (F3 tg E) (F3 tg B) (Fin dt) o) dts (Fin opt) 0 in
  (opt < r * total dts -> exists o, loop = Ret (Some (opt / r), o)) /\
  (r * total dts <= opt -> loop = Ret (None, Fin (opt - r * total dts))).
Proof.
  intros. cbn zeta.
  destruct (run_steps_spec (fun dt o => bw_evolve (units si) Orc G x (F3 tg p) (F3 tg E) (F3 tg B) (Fin dt) o) r H5) with (dts := dts) (opt := opt) (elapsed := 0) as [A1 A2]; auto.
  - intros dt o Hdt Ho. eapply bw_above; eassumption.
  - split; [|exact A2]. intros Hx. destruct (A1 Hx) as (o & Eo). exists o. rewrite Rplus_0_l in Eo. exact Eo.
Qed.
Lemma qs_steps tg si (Orc : Oracles (RX tg)) (G : Rng (RX tg)) (x : qs_engine G) p E B lam cmin v r dts opt :
  qe_lambda x = Fin lam -> nu_lambda si lam = lam -> qc_chi_part_min (qe_ctrl x) = Fin cmin ->
  chi_lepton (units si) (F3 tg p) (F3 tg E) (F3 tg B) (Fin lam) = Fin v -> cmin < v ->
  (if t1_init (qe_KK x)
   then @qs_engine_interp_dN_dt (RX tg) (units si) G x (Fin (norm3 p * nu_c si)) (Fin v)
   else Ret (@qs_compute_dN_dt (RX tg) (units si) Orc (Fin lam) (Fin (norm3 p * nu_c si)) (Fin v))) = Ret (Fin r) ->
  0 <= r -> 0 <= opt -> Forall (fun dt => 0 <= dt) dts ->
  let loop := run_steps (fun dt o => qs_evolve (units si) Orc G x (F3 tg p) (F3 tg E) (F3 tg B) (Fin dt) o) dts (Fin opt) 0 in
  (opt < r * total dts -> exists o, loop = Ret (Some (opt / r), o)) /\
  (r * total dts <= opt -> loop = Ret (None, Fin (opt - r * total dts))).
Proof.
  intros. cbn zeta.
  destruct (run_steps_spec (fun dt o => qs_evolve (units si) Orc G x (F3 tg p) (F3 tg E) (F3 tg B) (Fin dt) o) r H5) with (dts := dts) (opt := opt) (elapsed := 0) as [A1 A2]; auto.
  - intros dt o Hdt Ho. eapply qs_above; eassumption.
  - split; [|exact A2]. intros Hx. destruct (A1 Hx) as (o & Eo). exists o. rewrite Rplus_0_l in Eo. exact Eo.
Qed.

(** the shape asked for by the property: time in the step *)
Lemma event_time (r dt opt : R) res : 0 <= r -> 0 <= dt -> 0 <= opt ->
  res = (if Rlt_dec opt (r * dt) then Ret (true, Fin (opt / r), Fin (opt - r * dt))
         else Ret (false, Fin 0, Fin (opt - r * dt))) ->
  (opt < r * dt /\ exists t, res = Ret (true, Fin t, Fin (opt - r * dt)) /\ 0 <= t < dt /\ r * t = opt) \/
  (r * dt <= opt /\ exists o, res = Ret (false, Fin 0, Fin o) /\ o = opt - r * dt /\ 0 <= o).
Proof.
  intros Hr Hdt Ho ->. destruct (Rlt_dec opt (r * dt)) as [H|H].
  - left. split; [exact H|]. exists (opt / r). split; [reflexivity|].
    assert (0 < r) by (destruct Hr as [|<-]; [assumption|lra]). split; [split|].
    + apply Rmult_le_pos; [lra|apply Rlt_le, Rinv_0_lt_compat; lra].
    + apply Rmult_lt_reg_r with r; [assumption|]. unfold Rdiv. rewrite Rmult_assoc, Rinv_l by lra. lra.
    + field. lra.
  - right. split; [lra|]. exists (opt - r * dt). split; [reflexivity|]. split; [reflexivity|lra].
Qed.

Lemma bw_event tg si (Orc : Oracles (RX tg)) (G : Rng (RX tg)) (x : bw_engine G) p E B lam cmin v r dt opt :
  be_lambda x = Fin lam -> bc_chi_phot_min (be_ctrl x) = Fin cmin ->
  chi_photon (units si) (F3 tg p) (F3 tg E) (F3 tg B) (Fin lam) = Fin v -> cmin < v ->
  2 * (nu_m si * nu_c si * nu_c si) <= norm3 p * nu_c si ->
  (if t1_init (be_TT x)
   then @bw_engine_interp_dN_dt (RX tg) (units si) G x (Fin (norm3 p * nu_c si)) (Fin v)
   else Ret (@bw_compute_dN_dt (RX tg) (units si) Orc (Fin lam) (Fin (norm3 p * nu_c si)) (Fin v))) = Ret (Fin r) ->
  0 <= r -> 0 <= dt -> 0 <= opt ->
  let res := bw_evolve (units si) Orc G x (F3 tg p) (F3 tg E) (F3 tg B) (Fin dt) (Fin opt) in
  (opt < r * dt /\ exists t, res = Ret (true, Fin t, Fin (opt - r * dt)) /\ 0 <= t < dt /\ r * t = opt) \/
  (r * dt <= opt /\ exists o, res = Ret (false, Fin 0, Fin o) /\ o = opt - r * dt /\ 0 <= o).
Proof. intros. apply event_time; auto. eapply bw_above; eassumption. Qed.
Lemma qs_event tg si (Orc : Oracles (RX tg)) (G : Rng (RX tg)) (x : qs_engine G) p E B lam cmin v r dt opt :
  qe_lambda x = Fin lam -> nu_lambda si lam = lam -> qc_chi_part_min (qe_ctrl x) = Fin cmin ->
  chi_lepton (units si) (F3 tg p) (F3 tg E) (F3 tg B) (Fin lam) = Fin v -> cmin < v ->
  (if t1_init (qe_KK x)
   then @qs_engine_interp_dN_dt (RX tg) (units si) G x (Fin (norm3 p * nu_c si)) (Fin v)
   else Ret (@qs_compute_dN_dt (RX tg) (units si) Orc (Fin lam) (Fin (norm3 p * nu_c si)) (Fin v))) = Ret (Fin r) ->
  0 <= r -> 0 <= dt -> 0 <= opt ->
  let res := qs_evolve (units si) Orc G x (F3 tg p) (F3 tg E) (F3 tg B) (Fin dt) (Fin opt) in
  (opt < r * dt /\ exists t, res = Ret (true, Fin t, Fin (opt - r * dt)) /\ 0 <= t < dt /\ r * t = opt) \/
  (r * dt <= opt /\ exists o, res = Ret (false, Fin 0, Fin o) /\ o = opt - r * dt /\ 0 <= o).
Proof. intros. apply event_time; auto. eapply qs_above; eassumption. Qed.

(** missing tables *)
Lemma bw_no_table {N : NumOps} (U : Units N) Orc (G : Rng N) (x : bw_engine G) p e b dt opt :
  let energy := (norm p * u_c U)%N in
  let chi := chi_photon U p e b (be_lambda x) in
  (n_le chi (bc_chi_phot_min (be_ctrl x)) || n_lt energy (n_lit 2 0 * (u_emass U * u_c U * u_c U))%N)%bool = false ->
  let r := bw_compute_dN_dt U Orc (be_lambda x) energy chi in
  let o := (opt - r * dt)%N in
  let answer := if (o <? n_lit 0 0)%N then (true, (o / r + dt)%N, o) else (false, n_lit 0 0, o) in
  (t1_init (be_TT x) = false -> bw_evolve U Orc G x p e b dt opt = Ret answer) /\
  (t1_init (be_TT x) = true -> bw_engine_interp_dN_dt U G x energy chi = Ret r ->
   bw_evolve U Orc G x p e b dt opt = Ret answer).
Proof.
  cbn zeta. intros H. rewrite bw_evolve_decomposed. cbn zeta. change n_two with (@n_lit N 2 0). rewrite H.
  split; intros ->; [reflexivity|]. intros ->. reflexivity.
Qed.
Lemma qs_no_table {N : NumOps} (U : Units N) Orc (G : Rng N) (x : qs_engine G) p e b dt opt :
  (u_si U = true -> qe_lambda x = n_lit 1 0) ->
  let energy := (norm p * u_c U)%N in
  let chi := chi_lepton U p e b (qe_lambda x) in
  n_le chi (qc_chi_part_min (qe_ctrl x)) = false ->
  let r := qs_compute_dN_dt U Orc (qe_lambda x) energy chi in
  let o := (opt - r * dt)%N in
  let answer := if (o <? n_lit 0 0)%N then (true, (o / r + dt)%N, o) else (false, n_lit 0 0, o) in
  (t1_init (qe_KK x) = false -> qs_evolve U Orc G x p e b dt opt = Ret answer) /\
  (t1_init (qe_KK x) = true -> qs_engine_interp_dN_dt U G x energy chi = Ret r ->
   qs_evolve U Orc G x p e b dt opt = Ret answer).
Proof.
  intros Hl. cbn zeta. intros H. rewrite qs_evolve_decomposed.
  2: { unfold si_lambda. destruct (u_si U); [symmetry; auto|reflexivity]. }
  cbn zeta. rewrite H.
  split; intros ->; [reflexivity|]. intros ->. reflexivity.
Qed.
