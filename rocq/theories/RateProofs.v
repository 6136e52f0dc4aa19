(** Rate lookups with generated tables. *)
From Coq Require Import ZArith Reals List Bool Lia Lra.
From Verif Require Import Cxx Num NumRX Utilities LookupTables VecFun Units ChiFun Oracles OmpFor BreitWheeler QuantumSync.
From Verif Require Import CxxLemmas RXLemmas Spec SpecPhys UtilitiesProofs TableProofs ChiProofs EvolveProofs.
Import ListNotations.
Local Open Scope R_scope.

Section R.
Variable tg : R -> R.
Notation N := (RX tg).

(** logarithms of a positive function on a log grid *)
Lemma log_table_shape (f : rx -> rx) a b n : 0 < a < b -> (2 <= n)%nat ->
  (forall x, a <= x <= b -> exists v, 0 < v /\ f (Fin x) = Fin v) ->
  exists ys, length ys = n /\
    @lookup_1d_make N (map (@n_log N) (@generate_log_spaced_vec N (Fin a) (Fin b) (Z.of_nat n)))
       (map (@n_log N) (map f (@generate_log_spaced_vec N (Fin a) (Fin b) (Z.of_nat n))))
    = table1 tg (lin_grid (ln a) (ln b) n) ys true /\
    (forall i, (i < n)%nat -> f (Fin (el (log_grid a b n) i)) = Fin (exp (el ys i))).
Proof.
  intros Hab Hn Hf.
  assert (Hg : forall x, In x (log_grid a b n) -> exists y, f (Fin x) = Fin (exp y)).
  { intros x Hx. destruct (In_nth _ _ 0 Hx) as (i & Hi & <-). fold (el (log_grid a b n) i).
    rewrite log_grid_length in Hi. destruct (Hf (el (log_grid a b n) i)) as (v & Hv & E).
    - split.
      + destruct (Nat.eq_dec i 0) as [->|]; [rewrite log_grid_first by (auto || lra); lra|].
        rewrite <- (log_grid_first a b n) at 1 by (auto || lra). apply Rlt_le, log_grid_increasing; auto; try lra. rewrite log_grid_length. lia.
      + destruct (Nat.eq_dec i (n - 1)) as [->|]; [rewrite log_grid_last by (auto || lra); lra|].
        rewrite <- (log_grid_last a b n) at 2 by (auto || lra). apply Rlt_le, log_grid_increasing; auto; try lra. rewrite log_grid_length. lia.
    - exists (ln v). rewrite exp_ln by exact Hv. exact E. }
  assert (Hys : exists ys, map f (map Fin (log_grid a b n)) = map (fun y => Fin (exp y)) ys /\ length ys = length (log_grid a b n)).
  { revert Hg. generalize (log_grid a b n). intros l. induction l as [|x l IH]; intros H.
    - exists []. auto.
    - destruct (H x) as (y & E); [now left|]. destruct IH as (ys & E2 & L); [intros; apply H; now right|].
      exists (y :: ys). cbn. rewrite E, E2, L. auto. }
  destruct Hys as (ys & Eys & Lys). rewrite log_grid_length in Lys.
  exists ys. split; [exact Lys|]. rewrite log_coords_eq by auto. rewrite log_spaced_eq by auto.
  change (num N) with rx. split.
  - rewrite Eys. unfold lookup_1d_make, table1. f_equal. rewrite map_map. apply map_ext. intros y.
    cbn [n_log RX]. rewrite x_log_fin by apply exp_pos. now rewrite ln_exp.
  - intros i Hi. rewrite map_map in Eys.
    assert (E : nth_error (map (fun x => f (Fin x)) (log_grid a b n)) i = nth_error (map (fun y => Fin (exp y)) ys) i) by congruence.
    rewrite !nth_error_map in E.
    rewrite (nth_error_nth' (log_grid a b n) 0), (nth_error_nth' ys 0) in E by (rewrite ?log_grid_length; lia).
    cbn in E. injection E as E. exact E.
Qed.

(** the table value at a tabulated chi: between the neighbouring nodes *)
Lemma log_table_lookup a b n ys w : 0 < a < b -> (2 <= n)%nat -> (Z.of_nat n < 2 ^ 31)%Z -> length ys = n ->
  a <= w < b ->
  exists v i, interp_linear_equispaced (table1 tg (lin_grid (ln a) (ln b) n) ys true) (Fin (ln w)) = Ret (Fin v) /\
    (S i < n)%nat /\ el (log_grid a b n) i <= w < el (log_grid a b n) (S i) /\
    v = line (ln (el (log_grid a b n) i)) (el ys i) (ln (el (log_grid a b n) (S i))) (el ys (S i)) (ln w).
Proof.
  intros Hab Hn Hf Hl Hw.
  assert (Hln : ln a < ln b) by (apply ln_increasing; lra).
  destruct (interp_eq_spec tg (lin_grid (ln a) (ln b) n) ys true (ln w)) as (v & E & i & Hi & Hc & Ev).
  - now apply lin_grid_equispaced.
  - now rewrite lin_grid_length.
  - unfold fits. now rewrite lin_grid_length.
  - now rewrite lin_grid_length.
  - rewrite lin_grid_length, lin_grid_first, lin_grid_last by auto. split.
    + destruct (Req_dec a w) as [->|]; [lra|]. apply Rlt_le, ln_increasing; lra.
    + apply ln_increasing; lra.
  - rewrite lin_grid_length in Hi.
    assert (Hnode : forall j, (j < n)%nat -> el (lin_grid (ln a) (ln b) n) j = ln (el (log_grid a b n) j)).
    { intros j Hj. rewrite log_grid_ln by auto. now rewrite lin_grid_el by auto. }
    rewrite !Hnode in Hc, Ev by lia.
    exists v, i. split; [exact E|]. split; [exact Hi|].
    split; [|exact Ev]. 
    pose proof (log_grid_pos a b n i ltac:(lra) ltac:(lia)). pose proof (log_grid_pos a b n (S i) ltac:(lra) Hi).
    destruct Hc as [Hc1 Hc2]. split.
    + destruct Hc1 as [Hc1|Hc1]; [apply Rlt_le, ln_lt_inv; lra|]. apply ln_inv in Hc1; lra.
    + apply ln_lt_inv; lra.
Qed.

Lemma exp_line_between xl yl xr yr w : xl < xr -> xl <= w <= xr ->
  Rmin (exp yl) (exp yr) <= exp (line xl yl xr yr w) <= Rmax (exp yl) (exp yr).
Proof.
  intros Hx Hw. pose proof (line_between xl yl xr yr w Hx Hw) as [H1 H2].
  assert (Hm : forall u v, u <= v -> exp u <= exp v).
  { intros u v [H| ->]; [apply Rlt_le, exp_increasing, H|lra]. }
  split.
  - eapply Rle_trans; [|apply Hm, H1]. unfold Rmin at 2. destruct (Rle_dec yl yr); [apply Rmin_l|apply Rmin_r].
  - eapply Rle_trans; [apply Hm, H2|]. unfold Rmax at 1. destruct (Rle_dec yl yr); [apply Rmax_r|apply Rmax_l].
Qed.

(** ** Breit-Wheeler *)
Lemma pair_coeff_val si : u_pair_prod_coeff (units (N := N) si) = Fin (nu_pair si).
Proof.
  assert (HW : @pair_prod_rate_coeff N = Fin ph_W).
  { unfold pair_prod_rate_coeff. rewrite m_alpha, m_em, m_c, m_hbar, !fmul. rewrite fdiv by apply ph_hbar_pos. reflexivity. }
  destruct si; cbn [units u_pair_prod_coeff]; rewrite HW, ?m_em, ?m_c, ?m_pi, ?flit, ?fmul.
  - reflexivity.
  - rewrite fdiv; [reflexivity|]. pose proof ph_pi_pos. pose proof ph_c_pos. repeat apply Rmult_lt_0_compat; lra.
Qed.
Ltac posr := repeat (first [assumption | lra | apply exp_pos | apply Rmult_lt_0_compat | apply Rdiv_lt_0_compat | apply Rinv_0_lt_compat]).
Lemma nu_pair_pos si : 0 < nu_pair si.
Proof.
  pose proof ph_pi_pos. pose proof ph_c_pos. pose proof ph_m_pos. pose proof ph_alpha_pos. pose proof ph_hbar_pos.
  assert (0 < ph_W) by (unfold ph_W; posr).
  unfold nu_pair. destruct si; posr.
Qed.

Lemma erber_a_val : @erber_a N = Fin erb_a.
Proof. reflexivity. Qed.
Lemma erber_b_val : @erber_b N = Fin erb_b.
Proof. unfold erber_b. rewrite !flit, fdiv by lra. reflexivity. Qed.

(** the physical meaning of the looked-up T for a table [t] *)
Lemma bw_rate_zero si en chi t c lam : en = 0 \/ chi = 0 ->
  @bw_interp_dN_dt N (units si) (Fin en) (Fin chi) t c lam = Ret (Fin 0).
Proof.
  intros H. unfold bw_interp_dN_dt. cbn zeta. unfold n_zero. cbn [n_eq n_lit RX x_lit x_eq].
  replace (_ || _)%bool with true; [reflexivity|]. symmetry. apply orb_true_iff.
  destruct H as [->| ->]; [left|right]; now apply Reqb_true.
Qed.

Lemma bw_rate_spec si (Orc : Oracles N) (c : bw_ctrl N) a b n lam en chi :
  bc_tdndt_min c = Fin a -> bc_tdndt_max c = Fin b -> bc_tdndt_how_many c = Z.of_nat n ->
  0 < a < b -> (2 <= n)%nat -> (Z.of_nat n < 2 ^ 31)%Z ->
  (forall x, a <= x <= b -> exists v, 0 < v /\ @bw_TT_function N Orc (Fin x) = Fin v) ->
  0 < lam -> 0 < en -> 0 < chi -> 0 < tg (1 / 3) ->
  exists T, 0 < T /\
    @bw_interp_dN_dt N (units si) (Fin en) (Fin chi) (bw_dN_dt_table Orc c) c (Fin lam)
      = Ret (Fin (nu_pair si * nu_lambda si lam / (chi * en) * T)) /\
    (chi <= a -> T = T_small chi) /\ (b <= chi -> T = T_large (tg (1 / 3)) chi) /\
    (a < chi < b -> exists i xl xr Tl Tr,
       (S i < n)%nat /\ el (log_grid a b n) i = xl /\ el (log_grid a b n) (S i) = xr /\ xl <= chi < xr /\
       @bw_TT_function N Orc (Fin xl) = Fin Tl /\ @bw_TT_function N Orc (Fin xr) = Fin Tr /\
       ln T = line (ln xl) (ln Tl) (ln xr) (ln Tr) (ln chi) /\
       Rmin Tl Tr <= T <= Rmax Tl Tr /\ (chi = xl -> T = Tl)).
Proof.
  intros Ha Hb Hn Hab Hn2 Hf HT Hl He Hc Hg.
  destruct (log_table_shape (@bw_TT_function N Orc) a b n Hab Hn2 HT) as (ys & Lys & Et & Hys).
  assert (Et' : bw_dN_dt_table Orc c = table1 tg (lin_grid (ln a) (ln b) n) ys true).
  { unfold bw_dN_dt_table. cbn zeta. rewrite Ha, Hb, Hn. exact Et. }
  unfold bw_interp_dN_dt. rewrite Et', Ha, Hb, si_lambda_val, pair_coeff_val. cbn zeta. unfold n_zero, n_one, n_two, n_three.
  cbn [n_eq n_le RX x_eq x_le]. rewrite !flit. cbn [x_eq]. rewrite !Reqb_false by lra. cbn [orb].
  rewrite m_pi, erber_a_val, erber_b_val, !fmul.
  rewrite (fdiv tg 1 (chi * en)) by (apply Rmult_lt_0_compat; lra).
  assert (Hbb : 0 < 2 * erb_b) by (unfold erb_b; lra).
  rewrite fmul.
  replace (nu_pair si * nu_lambda si lam * (1 / (chi * en))) with (nu_pair si * nu_lambda si lam / (chi * en)) by (field; split; lra).
  destruct (Rle_lt_dec chi a) as [H1|H1].
  { exists (T_small chi). split.
    { unfold T_small. pose proof ph_pi_pos. repeat apply Rmult_lt_0_compat; try lra; try apply exp_pos; unfold erb_a, erb_b; lra. }
    rewrite Rleb_true by lra. cbn [bind].
    rewrite (fdiv tg (ph_pi * erb_a) (2 * erb_b)) by assumption.
    change (@n_opp N (Fin 2)) with (Fin (- (2))). rewrite !fmul. rewrite fdiv by lra.
    change (@n_exp N (Fin ?x)) with (Fin (exp x)). cbn [n_exp RX x_exp]. rewrite !fmul.
    split; [|split; [reflexivity|split; intros; lra]]. do 3 f_equal. }
  destruct (Rle_lt_dec b chi) as [H2|H2].
  { exists (T_large (tg (1 / 3)) chi). rewrite Rleb_false, Rleb_true by lra. split.
    { unfold T_large, erb_a, Rpower. repeat apply Rmult_lt_0_compat; try lra. apply exp_pos. }
    cbn [bind]. rewrite !fdiv by (unfold erb_b; lra). cbn [n_tgamma n_pow RX].
    rewrite !fdiv by lra. rewrite !x_pow_fin.
    2: { apply Rdiv_lt_0_compat; [lra|unfold erb_b; lra]. }
    rewrite !fmul. split; [reflexivity|]. split; [lra|]. split; [reflexivity|lra]. }
  rewrite !Rleb_false by lra.
  destruct (log_table_lookup a b n ys chi Hab Hn2 Hf Lys ltac:(lra)) as (v & i & Ev & Hi & Hc2 & Hv).
  cbn [n_log RX]. rewrite x_log_fin by lra. rewrite Ev. cbn [bind].
  change (@n_exp N (Fin v)) with (Fin (exp v)). rewrite fmul.
  exists (exp v). split; [apply exp_pos|]. split; [reflexivity|]. split; [lra|]. split; [lra|].
  intros _. exists i, (el (log_grid a b n) i), (el (log_grid a b n) (S i)), (exp (el ys i)), (exp (el ys (S i))).
  pose proof (log_grid_pos a b n i ltac:(lra) ltac:(lia)) as P1.
  assert (Hlt : ln (el (log_grid a b n) i) < ln (el (log_grid a b n) (S i))) by (apply ln_increasing; lra).
  assert (Hle : ln (el (log_grid a b n) i) <= ln chi <= ln (el (log_grid a b n) (S i))).
  { split; [|apply Rlt_le, ln_increasing; lra]. destruct Hc2 as [[H|H] _]; [apply Rlt_le, ln_increasing; lra|rewrite H; lra]. }
  split; [exact Hi|]. split; [reflexivity|]. split; [reflexivity|]. split; [exact Hc2|].
  split; [apply Hys; lia|]. split; [apply Hys; lia|]. rewrite !ln_exp. split; [exact Hv|]. split.
  - rewrite Hv. now apply exp_line_between.
  - intros E. rewrite E, line_at_left in Hv. now rewrite Hv.
Qed.

(** energy dependence and units; for every table *)
Lemma bw_rate_energy si t c lam en chi k T : 0 < k -> 0 < lam -> 0 < en -> 0 < chi ->
  @bw_interp_dN_dt N (units si) (Fin en) (Fin chi) t c (Fin lam) = Ret (Fin T) ->
  @bw_interp_dN_dt N (units si) (Fin (k * en)) (Fin chi) t c (Fin lam) = Ret (Fin (T / k)).
Proof.
  intros Hk Hl He Hc. unfold bw_interp_dN_dt. cbn zeta. unfold n_zero, n_one, n_two, n_three. rewrite si_lambda_val, pair_coeff_val, !flit.
  cbn [n_eq RX x_eq]. rewrite !Reqb_false by nra. cbn [orb]. rewrite !fmul.
  rewrite !(fdiv tg 1) by (repeat apply Rmult_lt_0_compat; lra). rewrite !fmul.
  match goal with |- bind ?m _ = _ -> _ => destruct m as [x| | |]; cbn [bind]; try discriminate end.
  destruct x as [| | |x]; cbn [n_mul RX x_mul].
  - discriminate.
  - intros H. injection H. unfold sgn_inf. destruct (Rlt_dec 0 _); [discriminate|]. destruct (Rlt_dec _ 0); discriminate.
  - intros H. injection H. unfold sgn_inf. destruct (Rlt_dec 0 _); [discriminate|]. destruct (Rlt_dec _ 0); discriminate.
  - intros H. injection H as <-. do 2 f_equal. field. repeat split; lra.
Qed.

(** the rate computed without a table *)
Lemma bw_direct_rate si (Orc : Oracles N) lam en chi T : 0 < en -> 0 < chi ->
  @bw_TT_function N Orc (Fin chi) = Fin T ->
  @bw_compute_dN_dt N (units si) Orc (Fin lam) (Fin en) (Fin chi) = Fin (nu_pair si * lam / (chi * en) * T).
Proof.
  intros He Hc HT. unfold bw_compute_dN_dt. cbn zeta. unfold n_zero, n_one. rewrite pair_coeff_val, !flit.
  cbn [n_eq RX x_eq]. rewrite !Reqb_false by lra. cbn [orb]. rewrite HT, !fmul.
  rewrite (fdiv tg 1) by (apply Rmult_lt_0_compat; lra). rewrite !fmul. f_equal. field. lra.
Qed.

Lemma bw_direct_zero si (Orc : Oracles N) lam en chi : en = 0 \/ chi = 0 ->
  @bw_compute_dN_dt N (units si) Orc lam (Fin en) (Fin chi) = Fin 0.
Proof.
  intros H. unfold bw_compute_dN_dt. cbn zeta. unfold n_zero. cbn [n_eq n_lit RX x_lit x_eq].
  replace (_ || _)%bool with true; [reflexivity|]. symmetry. apply orb_true_iff.
  destruct H as [->| ->]; [left|right]; now apply Reqb_true.
Qed.

(** ** photon emission *)
Lemma qs_coeff_val si : u_qs_rate_coeff (units (N := N) si) = Fin (nu_qs si).
Proof.
  pose proof ph_pi_pos. pose proof ph_c_pos. pose proof ph_m_pos. pose proof ph_alpha_pos.
  assert (Hq : @quantum_synchrotron_rate_coeff N = Fin (ph_alpha * ph_alpha / ph_tau)).
  { unfold quantum_synchrotron_rate_coeff. rewrite m_alpha, m_tau, !fmul. rewrite fdiv by apply ph_tau_pos. reflexivity. }
  destruct si; cbn [units u_qs_rate_coeff]; rewrite Hq, ?m_em, ?m_c, ?m_pi, ?flit, ?fmul.
  - reflexivity.
  - rewrite fdiv; [reflexivity|]. repeat apply Rmult_lt_0_compat; lra.
Qed.
Lemma nu_qs_pos si : 0 < nu_qs si.
Proof.
  pose proof ph_pi_pos. pose proof ph_c_pos. pose proof ph_m_pos. pose proof ph_alpha_pos. pose proof ph_tau_pos.
  unfold nu_qs. destruct si; posr.
Qed.

Lemma qs_rate_zero si en chi t c lam : en = 0 \/ chi = 0 ->
  @qs_interp_dN_dt N (units si) (Fin en) (Fin chi) t c lam = Ret (Fin 0).
Proof.
  intros H. unfold qs_interp_dN_dt. cbn zeta. unfold n_zero. cbn [n_eq n_lit RX x_lit x_eq].
  replace (_ || _)%bool with true; [reflexivity|]. symmetry. apply orb_true_iff.
  destruct H as [->| ->]; [left|right]; now apply Reqb_true.
Qed.

Lemma qs_table_eq (Orc : Oracles N) (c : qs_ctrl N) a b n :
  qc_tdndt_min c = Fin a -> qc_tdndt_max c = Fin b -> qc_tdndt_how_many c = Z.of_nat n ->
  0 < a < b -> (2 <= n)%nat ->
  (forall x, a <= x <= b -> exists v, 0 < v /\ @qs_KK_function N Orc (Fin x) = Fin v) ->
  exists ys, length ys = n /\ qs_dN_dt_table Orc c = table1 tg (lin_grid (ln a) (ln b) n) ys true /\
    (forall i, (i < n)%nat -> @qs_KK_function N Orc (Fin (el (log_grid a b n) i)) = Fin (exp (el ys i))).
Proof.
  intros Ha Hb Hn Hab Hn2 HT.
  destruct (log_table_shape (@qs_KK_function N Orc) a b n Hab Hn2 HT) as (ys & Lys & Et & Hys).
  exists ys. split; [exact Lys|]. split; [|exact Hys].
  unfold qs_dN_dt_table. cbn zeta. rewrite Ha, Hb, Hn. exact Et.
Qed.

Lemma qs_rate_spec si (Orc : Oracles N) (c : qs_ctrl N) a b n lam en chi :
  qc_tdndt_min c = Fin a -> qc_tdndt_max c = Fin b -> qc_tdndt_how_many c = Z.of_nat n ->
  0 < a < b -> (2 <= n)%nat -> (Z.of_nat n < 2 ^ 31)%Z ->
  (forall x, a <= x <= b -> exists v, 0 < v /\ @qs_KK_function N Orc (Fin x) = Fin v) ->
  0 < en -> 0 < chi < b ->
  exists K, 0 < K /\
    @qs_interp_dN_dt N (units si) (Fin en) (Fin chi) (qs_dN_dt_table Orc c) c (Fin lam)
      = Ret (Fin (nu_qs si * lam / en * K)) /\
    (exists i xl xr Kl Kr, let x := Rmax chi a in
       (S i < n)%nat /\ el (log_grid a b n) i = xl /\ el (log_grid a b n) (S i) = xr /\ xl <= x < xr /\
       @qs_KK_function N Orc (Fin xl) = Fin Kl /\ @qs_KK_function N Orc (Fin xr) = Fin Kr /\
       ln K = line (ln xl) (ln Kl) (ln xr) (ln Kr) (ln x) /\
       Rmin Kl Kr <= K <= Rmax Kl Kr /\ (x = xl -> K = Kl)).
Proof.
  intros Ha Hb Hn Hab Hn2 Hf HT He Hc.
  destruct (qs_table_eq Orc c a b n Ha Hb Hn Hab Hn2 HT) as (ys & Lys & Et & Hys).
  unfold qs_interp_dN_dt, qs_clamp_rate. rewrite Et, Ha, Hb, qs_coeff_val. cbn zeta. unfold n_zero, n_one.
  cbn [n_eq n_le RX x_eq x_le]. rewrite !flit. cbn [x_eq]. rewrite !Reqb_false by lra. cbn [orb].
  rewrite !fmul, fdiv by lra.
  replace (nu_qs si * lam * 1 / en) with (nu_qs si * lam / en) by (field; lra).
  set (x := Rmax chi a).
  assert (Hx : a <= x < b) by (unfold x, Rmax; destruct (Rle_dec chi a); lra).
  cbn [n_log RX].
  assert (Hcl : (if Rleb chi a then Fin a else if Rleb b chi then Fin b else Fin chi) = Fin x).
  { unfold x, Rmax. destruct (Rle_dec chi a); [now rewrite Rleb_true by lra|].
       now rewrite !Rleb_false by lra. }
  destruct (log_table_lookup a b n ys x Hab Hn2 Hf Lys Hx) as (v & i & Ev & Hi & Hc2 & Hv).
  cbn [n_log RX]. change (num N) with rx. rewrite Hcl. rewrite x_log_fin by lra. rewrite Ev. cbn [bind].
  change (@n_exp N (Fin v)) with (Fin (exp v)). rewrite fmul.
  exists (exp v). split; [apply exp_pos|]. split; [reflexivity|].
  exists i, (el (log_grid a b n) i), (el (log_grid a b n) (S i)), (exp (el ys i)), (exp (el ys (S i))).
  cbn zeta.
  pose proof (log_grid_pos a b n i ltac:(lra) ltac:(lia)) as P1.
  assert (Hlt : ln (el (log_grid a b n) i) < ln (el (log_grid a b n) (S i))) by (apply ln_increasing; lra).
  assert (Hle : ln (el (log_grid a b n) i) <= ln x <= ln (el (log_grid a b n) (S i))).
  { split; [|apply Rlt_le, ln_increasing; lra]. destruct Hc2 as [[H|H] _]; [apply Rlt_le, ln_increasing; lra|rewrite H; lra]. }
  split; [exact Hi|]. split; [reflexivity|]. split; [reflexivity|]. split; [exact Hc2|].
  split; [apply Hys; lia|]. split; [apply Hys; lia|]. rewrite !ln_exp. split; [exact Hv|]. split.
  - rewrite Hv. now apply exp_line_between.
  - intros E. fold x in Hv. rewrite E, line_at_left in Hv. now rewrite Hv.
Qed.

(** at and above the table maximum: past the end of the table *)
Lemma qs_rate_oob si (Orc : Oracles N) (c : qs_ctrl N) a b n lam en chi :
  qc_tdndt_min c = Fin a -> qc_tdndt_max c = Fin b -> qc_tdndt_how_many c = Z.of_nat n ->
  0 < a < b -> (2 <= n)%nat -> (Z.of_nat n < 2 ^ 31)%Z ->
  (forall x, a <= x <= b -> exists v, 0 < v /\ @qs_KK_function N Orc (Fin x) = Fin v) ->
  0 < en -> b <= chi ->
  @qs_interp_dN_dt N (units si) (Fin en) (Fin chi) (qs_dN_dt_table Orc c) c (Fin lam) = UB.
Proof.
  intros Ha Hb Hn Hab Hn2 Hf HT He Hc.
  destruct (qs_table_eq Orc c a b n Ha Hb Hn Hab Hn2 HT) as (ys & Lys & Et & Hys).
  unfold qs_interp_dN_dt, qs_clamp_rate. rewrite Et, Ha, Hb, qs_coeff_val. cbn zeta. unfold n_zero, n_one.
  cbn [n_eq n_le RX x_eq x_le]. rewrite !flit. cbn [x_eq]. rewrite !Reqb_false by lra. cbn [orb].
  rewrite Rleb_false, Rleb_true by lra. cbn [n_log RX]. rewrite x_log_fin by lra.
  assert (Hln : ln a < ln b) by (apply ln_increasing; lra).
  pose proof (lin_grid_equispaced (ln a) (ln b) n Hn2 Hln) as Heq.
  pose proof (equispaced_increasing _ Heq (n - 2)%nat (n - 1)%nat) as Hinc.
  rewrite lin_grid_length in Hinc. specialize (Hinc ltac:(lia)).
  rewrite interp_eq_last; [reflexivity| | | |]; auto.
  - now rewrite lin_grid_length.
  - unfold fits. now rewrite lin_grid_length.
  - rewrite lin_grid_length, (lin_grid_last (ln a) (ln b) n) in * by auto. lra.
Qed.

Lemma qs_rate_energy si t c lam en chi k T : 0 < k -> 0 < en -> 0 < chi -> 0 < lam ->
  @qs_interp_dN_dt N (units si) (Fin en) (Fin chi) t c (Fin lam) = Ret (Fin T) ->
  @qs_interp_dN_dt N (units si) (Fin (k * en)) (Fin chi) t c (Fin lam) = Ret (Fin (T / k)).
Proof.
  intros Hk He Hc Hl. unfold qs_interp_dN_dt. cbn zeta. unfold n_zero, n_one. rewrite qs_coeff_val, !flit.
  cbn [n_eq RX x_eq]. rewrite !Reqb_false by nra. cbn [orb]. rewrite !fmul.
  rewrite !fdiv by (repeat apply Rmult_lt_0_compat; lra).
  match goal with |- bind ?m _ = _ -> _ => destruct m as [x| | |]; cbn [bind]; try discriminate end.
  pose proof (nu_qs_pos si) as Hq.
  assert (P1 : 0 < nu_qs si * lam * 1 / en) by posr.
  destruct (@n_exp N x) as [| | |y]; cbn [n_mul RX x_mul].
  - discriminate.
  - unfold sgn_inf. destruct (Rlt_dec 0 _); [discriminate|contradiction].
  - unfold sgn_inf. destruct (Rlt_dec 0 _); [discriminate|contradiction].
  - intros H. injection H as <-. do 2 f_equal. field. repeat split; lra.
Qed.

Lemma qs_direct_rate si (Orc : Oracles N) lam en chi K : 0 < en -> 0 < chi ->
  @qs_KK_function N Orc (Fin chi) = Fin K ->
  @qs_compute_dN_dt N (units si) Orc (Fin lam) (Fin en) (Fin chi) = Fin (nu_qs si * lam / en * K).
Proof.
  intros He Hc HT. unfold qs_compute_dN_dt. cbn zeta. unfold n_zero, n_one. rewrite qs_coeff_val, !flit.
  cbn [n_eq RX x_eq]. rewrite !Reqb_false by lra. cbn [orb]. rewrite HT.
  rewrite !fdiv by lra. rewrite !fmul. f_equal. field. lra.
Qed.

(** ** the two unit systems: energies in units of m c^2, times in units of
    lambda / (2 pi c) *)
Lemma bw_rate_units t c lam l1 en chi r : 0 < lam -> 0 < en -> 0 < chi ->
  @bw_interp_dN_dt N (units true) (Fin en) (Fin chi) t c (Fin l1) = Ret (Fin r) ->
  @bw_interp_dN_dt N (units false) (Fin (en / (ph_m * ph_c * ph_c))) (Fin chi) t c (Fin lam)
    = Ret (Fin (r * (lam / (2 * ph_pi * ph_c)))).
Proof.
  intros Hl He Hc. pose proof ph_pi_pos. pose proof ph_c_pos. pose proof ph_m_pos.
  assert (HM : 0 < ph_m * ph_c * ph_c) by posr. assert (HE : 0 < en / (ph_m * ph_c * ph_c)) by posr.
  unfold bw_interp_dN_dt. cbn zeta. unfold n_zero, n_one, n_two, n_three. rewrite !si_lambda_val, !pair_coeff_val, !flit.
  cbn [n_eq RX x_eq]. rewrite !Reqb_false by lra. cbn [orb nu_lambda]. rewrite !fmul.
  rewrite !(fdiv tg 1) by posr. rewrite !fmul.
  match goal with |- bind ?m _ = _ -> _ => destruct m as [x| | |]; cbn [bind]; try discriminate end.
  unfold nu_pair.
  destruct x as [| | |x]; cbn [n_mul RX x_mul].
  - discriminate.
  - unfold sgn_inf. destruct (Rlt_dec 0 _); [discriminate|]. destruct (Rlt_dec _ 0); discriminate.
  - unfold sgn_inf. destruct (Rlt_dec 0 _); [discriminate|]. destruct (Rlt_dec _ 0); discriminate.
  - intros E. injection E as <-. do 2 f_equal. field. repeat split; lra.
Qed.

Lemma qs_rate_units t c lam en chi r : 0 < lam -> 0 < en -> 0 < chi ->
  @qs_interp_dN_dt N (units true) (Fin en) (Fin chi) t c (Fin 1) = Ret (Fin r) ->
  @qs_interp_dN_dt N (units false) (Fin (en / (ph_m * ph_c * ph_c))) (Fin chi) t c (Fin lam)
    = Ret (Fin (r * (lam / (2 * ph_pi * ph_c)))).
Proof.
  intros Hl He Hc. pose proof ph_pi_pos. pose proof ph_c_pos. pose proof ph_m_pos. pose proof ph_tau_pos.
  assert (HM : 0 < ph_m * ph_c * ph_c) by posr. assert (HE : 0 < en / (ph_m * ph_c * ph_c)) by posr.
  unfold qs_interp_dN_dt. cbn zeta. unfold n_zero, n_one. rewrite !qs_coeff_val, !flit.
  cbn [n_eq RX x_eq]. rewrite !Reqb_false by lra. cbn [orb]. rewrite !fmul.
  rewrite !fdiv by posr.
  match goal with |- bind ?m _ = _ -> _ => destruct m as [x| | |]; cbn [bind]; try discriminate end.
  unfold nu_qs.
  destruct (@n_exp N x) as [| | |y]; cbn [n_mul RX x_mul].
  - discriminate.
  - unfold sgn_inf. destruct (Rlt_dec 0 _); [discriminate|]. destruct (Rlt_dec _ 0); discriminate.
  - unfold sgn_inf. destruct (Rlt_dec 0 _); [discriminate|]. destruct (Rlt_dec _ 0); discriminate.
  - intros E. injection E as <-. do 2 f_equal. field. repeat split; lra.
Qed.
End R.

Lemma bw_rate_in_table tg si (Orc : Oracles (RX tg)) (c : bw_ctrl (RX tg)) a b n lam en chi :
  bc_tdndt_min c = Fin a -> bc_tdndt_max c = Fin b -> bc_tdndt_how_many c = Z.of_nat n ->
  0 < a < b -> (2 <= n)%nat -> (Z.of_nat n < 2 ^ 31)%Z ->
  (forall x, a <= x <= b -> exists v, 0 < v /\ @bw_TT_function (RX tg) Orc (Fin x) = Fin v) ->
  exists v, @bw_interp_dN_dt (RX tg) (units si) en (Fin chi) (bw_dN_dt_table Orc c) c lam = Ret v.
Proof.
  intros Ha Hb Hn Hab Hn2 Hf HT.
  destruct (log_table_shape tg (@bw_TT_function (RX tg) Orc) a b n Hab Hn2 HT) as (ys & Lys & Et & Hys).
  assert (Et' : bw_dN_dt_table Orc c = table1 tg (lin_grid (ln a) (ln b) n) ys true).
  { unfold bw_dN_dt_table. cbn zeta. rewrite Ha, Hb, Hn. exact Et. }
  unfold bw_interp_dN_dt. cbn zeta. rewrite Et', Ha, Hb. destruct (_ || _)%bool; [eauto|].
  cbn [n_le RX x_le]. destruct (Rle_lt_dec chi a) as [H1|H1].
  { rewrite Rleb_true by lra. cbn [bind]. eauto. }
  rewrite Rleb_false by lra. destruct (Rle_lt_dec b chi) as [H2|H2].
  { rewrite Rleb_true by lra. cbn [bind]. eauto. }
  rewrite Rleb_false by lra.
  destruct (log_table_lookup tg a b n ys chi Hab Hn2 Hf Lys ltac:(lra)) as (v & i & Ev & _).
  cbn [n_log RX]. rewrite x_log_fin by lra. rewrite Ev. cbn [bind]. eauto.
Qed.
