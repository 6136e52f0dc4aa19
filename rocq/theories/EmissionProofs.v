(** Photon emission of the quantum synchrotron engine. *)
From Coq Require Import ZArith Reals List Bool Lia Lra.
From Verif Require Import Cxx Num NumRX Utilities LookupTables VecFun Units ChiFun Oracles OmpFor BreitWheeler QuantumSync.
From Verif Require Import CxxLemmas RXLemmas Spec SpecPhys SpecQED UtilitiesProofs TableProofs ChiProofs EvolveProofs OmpProofs PairProofs.
Import ListNotations.
Local Open Scope R_scope.

Section E.
Variable tg : R -> R.
Notation N := (RX tg).

Lemma chi_grid a b n : map (fun i => Fin (chi_node a b n i)) (seq 0 n) = map Fin (lin_grid (ln a) (ln b) n).
Proof.
  apply nth_error_ext. intros i. destruct (Nat.lt_ge_cases i n) as [H|H].
  - rewrite (map_nth_error _ i (seq 0 n) (d := i)). 2: { rewrite (nth_error_nth' _ 0%nat) by now rewrite seq_length. now rewrite seq_nth. }
    symmetry. erewrite map_nth_error; [reflexivity|].
    rewrite (nth_error_nth' _ 0) by now rewrite lin_grid_length. change (nth i ?l 0) with (el l i). rewrite lin_grid_el by exact H. reflexivity.
  - transitivity (@None rx); [|symmetry]; apply nth_error_None; now rewrite map_length, ?seq_length, ?lin_grid_length.
Qed.

Lemma prob_grid np : (2 <= np)%nat -> map (fun j => Fin (INR j / INR (np - 1))) (seq 0 np) = map Fin (lin_grid 0 1 np).
Proof.
  intros Hn. apply nth_error_ext. intros i. destruct (Nat.lt_ge_cases i np) as [H|H].
  - rewrite (map_nth_error _ i (seq 0 np) (d := i)). 2: { rewrite (nth_error_nth' _ 0%nat) by now rewrite seq_length. now rewrite seq_nth. }
    symmetry. erewrite map_nth_error; [reflexivity|].
    rewrite (nth_error_nth' _ 0) by now rewrite lin_grid_length. change (nth i ?l 0) with (el l i). rewrite lin_grid_el by exact H.
    f_equal. unfold Rdiv. ring.
  - transitivity (@None rx); [|symmetry]; apply nth_error_None; now rewrite map_length, ?seq_length, ?lin_grid_length.
Qed.

Lemma emission_has_data t a b n np v : emission_table (tg := tg) t a b n np v ->
  has_data tg t (lin_grid (ln a) (ln b) n) (lin_grid 0 1 np) (fun i j => Fin (ln (v i j))).
Proof.
  intros (Ex & Ey & Ld & Hab & Hn & Hnp & Hfit & Hv). unfold has_data. rewrite !lin_grid_length.
  split; [rewrite Ex; apply chi_grid|]. split; [rewrite Ey; now apply prob_grid|].
  intros i j Hi Hj. unfold data_at_coords, row_major. rewrite Ey, zlen_map. unfold zlen. rewrite seq_length.
  pose proof (entry_index _ _ i j Hi Hj). rewrite wrap64_small by nia. unfold vget. rewrite to_int32_small by nia.
  apply zget_ok; [nia|]. replace (Z.to_nat (Z.of_nat i * Z.of_nat np + Z.of_nat j)) with (i * np + j)%nat by nia.
  now apply Hv.
Qed.

(** the columns at one chi *)
Lemma emission_columns t a b n np v chi : emission_table (tg := tg) t a b n np v -> 0 < chi ->
  exists L, fraction_at a b n np v chi L /\ (forall j, (j < np)%nat -> 0 < L j <= 1) /\
    forall j, (j < np)%nat -> exists w, interp2_linear_first_equispaced t (Fin (ln (Rmax a (Rmin b chi)))) (Z.of_nat j) = Ret (Fin w : num N) /\ exp w = L j.
Proof.
  intros Ht Hchi. pose proof (emission_has_data t a b n np v Ht) as Hd. destruct Ht as (Ex & Ey & Ld & Hab & Hn & Hnp & Hfit & Hv).
  assert (Hlnab : ln a < ln b) by (apply ln_increasing; lra).
  pose proof (lin_grid_equispaced (ln a) (ln b) n Hn Hlnab) as He. pose proof (lin_grid_length (ln a) (ln b) n) as Ln. pose proof (lin_grid_length 0 1 np) as Lp.
  assert (Hfx : fits (lin_grid (ln a) (ln b) n)) by (unfold fits; rewrite Ln; nia).
  destruct (first_eq_rx tg t _ _ _ (ln (Rmax a (Rmin b chi))) Hd He ltac:(lia) Hfx) as (A1 & A2 & A3). rewrite Ln, Lp in *.
  rewrite lin_grid_first, lin_grid_last in * by exact Hn.
  assert (Hln1 : forall i j, (i < n)%nat -> (j < np)%nat -> ln (v i j) <= 0).
  { intros i j Hi Hj. destruct (Hv i j Hi Hj) as ((H1 & H2) & _). rewrite <- ln_1. destruct (Req_dec (v i j) 1) as [->|]; [lra|]. apply Rlt_le, ln_increasing; lra. }
  destruct (Rle_lt_dec chi a) as [Hca|Hca].
  - assert (E : Rmax a (Rmin b chi) = a) by (rewrite Rmin_right, Rmax_left by lra; reflexivity). rewrite E in *.
    exists (v 0%nat). split; [|split].
    + intros j Hj. repeat split; intros; lra.
    + intros j Hj. now apply Hv; [lia|].
    + intros j Hj. eexists. split; [now apply A1; [lra|]|]. apply exp_ln. now apply Hv; [lia|].
  - destruct (Rle_lt_dec b chi) as [Hcb|Hcb].
    + assert (E : Rmax a (Rmin b chi) = b) by (rewrite Rmin_left, Rmax_right by lra; reflexivity). rewrite E in *.
      exists (v (n - 1)%nat). split; [|split].
      * intros j Hj. repeat split; intros; lra.
      * intros j Hj. now apply Hv; [lia|].
      * intros j Hj. eexists. split; [now apply A2; [lra|]|]. apply exp_ln. now apply Hv; [lia|].
    + assert (E : Rmax a (Rmin b chi) = chi) by (rewrite Rmin_right, Rmax_right by lra; reflexivity). rewrite E in *.
      assert (ln a < ln chi) by (apply ln_increasing; lra). assert (ln chi < ln b) by (apply ln_increasing; lra).
      destruct A3 as (i & Hi & Hw & Hall); [lra|]. rewrite !lin_grid_el in * by lia.
      change (ln a + INR i * ((ln b - ln a) / INR (n - 1))) with (chi_node a b n i) in *.
      change (ln a + INR (S i) * ((ln b - ln a) / INR (n - 1))) with (chi_node a b n (S i)) in *.
      exists (fun j => exp (line (chi_node a b n i) (ln (v i j)) (chi_node a b n (S i)) (ln (v (S i) j)) (ln chi))). split; [|split].
      * intros j Hj. split; [intros; lra|]. split; [intros; lra|]. intros _. exists i. auto.
      * intros j Hj. split; [apply exp_pos|]. rewrite <- exp_0.
        pose proof (line_between (chi_node a b n i) (ln (v i j)) (chi_node a b n (S i)) (ln (v (S i) j)) (ln chi) ltac:(lra) ltac:(lra)) as Hl.
        pose proof (Hln1 i j ltac:(lia) Hj). pose proof (Hln1 (S i) j ltac:(lia) Hj).
        assert (Rmax (ln (v i j)) (ln (v (S i) j)) <= 0) by (apply Rmax_lub; assumption).
        destruct (Req_dec (line (chi_node a b n i) (ln (v i j)) (chi_node a b n (S i)) (ln (v (S i) j)) (ln chi)) 0) as [->|]; [lra|].
        apply Rlt_le, exp_increasing. lra.
      * intros j Hj. eexists. split; [|reflexivity]. rewrite Hall by exact Hj. rewrite first_formula_line by lra. reflexivity.
Qed.

(** ** one photon *)
Lemma prob_index np r : (2 <= np)%nat -> (Z.of_nat np < 2 ^ 31)%Z -> 0 <= r < 1 ->
  exists k, (S k < np)%nat /\ INR k / INR (np - 1) <= r < INR (S k) / INR (np - 1) /\
    @floor_size N (n_of_Z (n:=N) (Z.of_nat np - 1) * (Fin r : num N))%N = Ret (Z.of_nat k).
Proof.
  intros Hn H31 Hr. assert (Hp : 0 < INR (np - 1)) by (apply lt_0_INR; lia).
  cbn [n_mul n_of_Z RX x_mul]. replace (IZR (Z.of_nat np - 1)) with (INR (np - 1)) by (rewrite INR_IZR_INZ; f_equal; lia).
  set (q := INR (np - 1) * r). destruct (Int_part_bounds q) as [B1 B2]. set (z := Int_part q) in *.
  assert (Hz0 : (0 <= z)%Z). { assert (-1 < z)%Z; [|lia]. apply lt_IZR. unfold q in *. nra. }
  assert (Hzn : (z < Z.of_nat (np - 1))%Z). { apply lt_IZR. rewrite <- INR_IZR_INZ. unfold q in *. nra. }
  assert (EI : INR (Z.to_nat z) = IZR z) by (rewrite INR_IZR_INZ, Z2Nat.id by lia; reflexivity).
  exists (Z.to_nat z). split; [lia|]. rewrite S_INR, EI. split.
  - split; apply Rmult_le_reg_r with (INR (np - 1)) || apply Rmult_lt_reg_r with (INR (np - 1)); auto;
      unfold Rdiv; rewrite Rmult_assoc, Rinv_l by lra; unfold q in *; lra.
  - unfold floor_size. cbn [n_floor_size RX]. rewrite (x_floor_size_fin q z) by (lra || lia). now rewrite Z2Nat.id by lia.
Qed.

Lemma one_photon_spec (t : lookup_2d N) np (L : nat -> R) lc chi g mec n3 r : t2_y t = map Fin (lin_grid 0 1 np) -> (2 <= np)%nat -> (Z.of_nat np < 2 ^ 31)%Z ->
  (forall j, (j < np)%nat -> exists w, interp2_linear_first_equispaced t (n_log lc) (Z.of_nat j) = Ret (Fin w : num N) /\ exp w = L j) ->
  (forall j, (j < np)%nat -> 0 < L j <= 1) -> 0 < chi -> 0 <= r < 1 ->
  exists f, @qs_one_photon N (Fin chi) lc (Fin g) (Fin mec) (F3 tg n3) t (Fin r) = Ret (F3 tg (scale3 (f * (g - 1) * mec) n3)) /\
    emitted_fraction np L r f /\ 0 < f <= 1.
Proof.
  intros Ey Hnp H31 HL HL1 Hchi Hr. destruct (prob_index np r Hnp H31 Hr) as (k & Hk & Hkr & Ek).
  assert (Hp : 0 < INR (np - 1)) by (apply lt_0_INR; lia).
  unfold qs_one_photon. cbn zeta. rewrite Ey.
  assert (EZ : wrap64 (@zlen (num N) (map Fin (lin_grid 0 1 np)) - 1) = (Z.of_nat np - 1)%Z).
  { rewrite zlen_map. unfold zlen. rewrite lin_grid_length. apply wrap64_small. lia. }
  rewrite EZ, Ek. cbn [bind]. rewrite (wrap64_small (Z.of_nat k + 1)) by lia.
  replace (Z.of_nat k + 1)%Z with (Z.of_nat (S k)) by lia.
  rewrite (vget_el (lin_grid 0 1 np) _ k), (vget_el (lin_grid 0 1 np) _ (S k)) by (reflexivity || rewrite ?lin_grid_length; lia). cbn [bind].
  destruct (HL k ltac:(lia)) as (w1 & E1 & W1). destruct (HL (S k) ltac:(lia)) as (w2 & E2 & W2).
  rewrite E1. cbn [bind]. rewrite E2. cbn [bind]. cbn [n_exp RX x_exp]. rewrite W1, W2.
  rewrite !lin_grid_el by lia.
  replace (0 + INR k * ((1 - 0) / INR (np - 1))) with (INR k / INR (np - 1)) by (unfold Rdiv; ring).
  replace (0 + INR (S k) * ((1 - 0) / INR (np - 1))) with (INR (S k) / INR (np - 1)) by (unfold Rdiv; ring).
  set (x1 := INR k / INR (np - 1)) in *. set (x2 := INR (S k) / INR (np - 1)) in *. assert (Hx : x1 < x2) by lra.
  cbn [n_sub n_mul n_add RX x_sub x_mul x_add].
  change (n_div (Fin ((r - x1) * (L (S k) - L k)) : num N) (Fin (x2 - x1))) with (x_div (Fin ((r - x1) * (L (S k) - L k))) (Fin (x2 - x1))).
  change (@n_div N) with x_div. rewrite x_div_fin by lra. cbn [x_add x_mul]. rewrite x_div_fin by lra. 
  unfold n_one. rewrite flit. cbn [x_sub x_mul].
  change (@vscale_l N (Fin ?q) (F3 tg n3)) with (@vscale_l N (Fin q) (F3 tg n3)). rewrite F3_scale_l, F3_scale_r.
  exists (line x1 (L k) x2 (L (S k)) r). split; [|split].
  - f_equal. unfold line. f_equal. unfold scale3; cbn. f_equal; field; lra.
  - exists k. auto.
  - pose proof (line_between x1 (L k) x2 (L (S k)) r Hx ltac:(lra)) as Hl.
    pose proof (HL1 k ltac:(lia)). pose proof (HL1 (S k) ltac:(lia)).
    assert (Rmax (L k) (L (S k)) <= 1) by (apply Rmax_lub; lra). assert (0 < Rmin (L k) (L (S k))) by (apply Rmin_glb_lt; lra). lra.
Qed.

(** ** the sampling loop *)
Lemma qs_loop_spec chi lc g mec (nw : num N) oo n3 t us (Q : num N -> R -> Prop) (ph : R -> R3) :
  (forall u, In u us -> exists f, @qs_one_photon N chi lc g mec n3 t u = Ret (F3 tg (ph f)) /\ Q u f) ->
  forall post pre pp, us = pre ++ post ->
  exists fs, @qs_loop N chi lc g mec nw (Fin oo) n3 t us (map Z.of_nat (seq (length pre) (length post))) (F3 tg pp)
    = Ret (map (fun f => (F3 tg (ph f), nw)) fs, F3 tg (sub3 pp (scale3 oo (sum3 (map ph fs))))) /\ Forall2 Q post fs.
Proof.
  intros H. induction post as [|u post IH]; intros pre pp E.
  - exists []. split; [|constructor]. cbn [length seq map qs_loop]. do 3 f_equal. destruct pp; unfold sub3, scale3; cbn. f_equal; ring.
  - destruct (H u) as (f & Ef & Hf). { rewrite E. apply in_or_app. right. now left. }
    cbn [length seq map qs_loop]. rewrite (zget_ok us _ u); [|lia|]. 2: { rewrite Nat2Z.id, E, nth_error_app2, Nat.sub_diag by lia. reflexivity. }
    cbn [bind]. rewrite Ef. cbn [bind].
    destruct (IH (pre ++ [u]) (sub3 pp (scale3 oo (ph f)))) as (fs & Efs & Hfs). { now rewrite <- app_assoc. }
    rewrite app_length, Nat.add_1_r in Efs.
    match goal with |- context [qs_loop _ _ _ _ _ _ _ _ _ _ ?v] => replace v with (F3 tg (sub3 pp (scale3 oo (ph f)))) end.
    2: { unfold F3. cbn. do 2 f_equal; ring. }
    rewrite Efs. cbn [bind]. exists (f :: fs). split; [|now constructor]. do 2 f_equal.
    cbn [map sum3]. unfold F3, sub3, scale3, add3; cbn. f_equal; f_equal; ring.
Qed.

Lemma sum3_photons m c p fs : sum3 (map (photon_momentum m c p) fs) = scale3 (sumR fs * (lorentz m c p - 1) * (m * c)) (unit3 p).
Proof.
  induction fs as [|f fs IH]; cbn [map sum3 sumR fold_right].
  - unfold zero3, scale3. f_equal; ring.
  - rewrite IH. unfold photon_momentum, add3, scale3; cbn. f_equal; unfold sumR; ring.
Qed.

Lemma internal_photons si p E B (lam weight : num N) t (c : qs_ctrl N) us a b chi n np v :
  qc_tem_min c = Fin a -> qc_tem_max c = Fin b -> emission_table (tg := tg) t a b n np v ->
  chi_lepton (units si) (F3 tg p) (F3 tg E) (F3 tg B) lam = Fin chi -> 0 < chi -> p <> zero3 ->
  unit_draws (tg := tg) us -> us <> [] ->
  exists fs L, qs_internal_generate (units si) (F3 tg p) (F3 tg E) (F3 tg B) weight (Z.of_nat (length us)) lam t c us
    = Ret (map (fun f => (F3 tg (photon_momentum (nu_m si) (nu_c si) p f), (weight / n_of_Z (Z.of_nat (length us)))%N)) fs,
           F3 tg (sub3 p (scale3 (/ INR (length us)) (sum3 (map (photon_momentum (nu_m si) (nu_c si) p) fs))))) /\
    fraction_at a b n np v chi L /\ Forall2 (fun u f => exists r, u = Fin r /\ emitted_fraction np L r f) us fs /\ Forall (fun f => 0 < f <= 1) fs.
Proof.
  intros Ea Eb Ht Echi Hchi Hp Hus Hne. pose proof (emission_has_data t a b n np v Ht) as (_ & Ey & _).
  destruct (emission_columns t a b n np v chi Ht Hchi) as (L & HL & HL1 & Hcol).
  destruct Ht as (_ & _ & _ & Hab & Hn & Hnp & Hfit & _).
  set (m := nu_m si). set (cc := nu_c si). pose proof (nu_m_pos si) as Hm. pose proof (nu_c_pos si) as Hc. fold m in Hm. fold cc in Hc.
  assert (Hmc : 0 < m * cc) by nra. pose proof (norm3_pos p Hp) as Hnp3.
  unfold qs_internal_generate. cbn zeta. rewrite chi_lepton_si, Echi, Ea, Eb, F3_norm2, u_m_val, u_c_val, fmul. fold m cc.
  rewrite fsqrt by apply dot3_nonneg. change (sqrt (dot3 p p)) with (norm3 p). rewrite F3_div by lra.
  replace (scale3 (/ norm3 p) p) with (unit3 p) by reflexivity.
  rewrite (fdiv tg (dot3 p p)) by lra. rewrite (fdiv tg (dot3 p p / (m * cc))) by lra. unfold n_one. rewrite !flit, fadd.
  rewrite fsqrt. 2: { pose proof (dot3_nonneg p). assert (0 <= dot3 p p / (m * cc) / (m * cc)); [|lra].
    apply Rmult_le_pos; [apply Rmult_le_pos|]; auto; apply Rlt_le, Rinv_0_lt_compat; lra. }
  replace (1 + dot3 p p / (m * cc) / (m * cc)) with (1 + norm3 p / (m * cc) * (norm3 p / (m * cc))) by (rewrite <- norm3_sq; field; lra).
  rewrite lepton_gamma by assumption. rewrite clamp_val by lra. rewrite Nat2Z.id.
  assert (Hlen : 0 < INR (length us)). { apply lt_0_INR. destruct us; [congruence|cbn; lia]. }
  cbn [n_of_Z RX]. rewrite <- INR_IZR_INZ. rewrite (fdiv tg 1) by exact Hlen.
  set (tc := Rmax a (Rmin b chi)). assert (Htc : 0 < tc) by (unfold tc; pose proof (Rmax_l a (Rmin b chi)); lra).
  destruct (qs_loop_spec (Fin chi) (Fin tc) (Fin (lorentz m cc p)) (Fin (m * cc)) (weight / Fin (INR (length us)))%N (1 / INR (length us)) (F3 tg (unit3 p)) t us
     (fun u f => (exists r, u = Fin r /\ emitted_fraction np L r f) /\ 0 < f <= 1) (photon_momentum m cc p)) with (post := us) (pre := @nil (num N)) (pp := p) as (fs & Efs & Hfs); auto.
  - intros u Hu. unfold unit_draws in Hus. rewrite Forall_forall in Hus. destruct (Hus u Hu) as (r & -> & Hr).
    destruct (one_photon_spec t np L (Fin tc) chi (lorentz m cc p) (m * cc) (unit3 p) r Ey Hnp ltac:(nia)) as (f & Ef & Hf1 & Hf2); auto.
    { cbn [n_log RX]. rewrite x_log_fin by exact Htc. exact Hcol. }
    exists f. split; [exact Ef|]. split; [eauto|exact Hf2].
  - exists fs, L. split; [|split; [exact HL|split]].
    + change (zseq (length us)) with (map Z.of_nat (seq (length (@nil (num N))) (length us))). etransitivity; [exact Efs|].
      replace (1 / INR (length us)) with (/ INR (length us)) by (unfold Rdiv; ring). reflexivity.
    + clear -Hfs. induction Hfs as [|? ? ? ? H]; constructor; auto. apply H.
    + clear -Hfs. induction Hfs as [|? ? ? ? H]; constructor; auto. apply H.
Qed.

(** ** generated tables *)
Lemma generated_emission_table (Orc : Oracles N) (c : qs_ctrl N) garbage a b n np :
  emit_ctrl c a b n np -> root_keeps_sign Orc ->
  exists t, qs_cumulative_table Orc c garbage = Ret t /\ t2_init t = true /\
  exists v, emission_table (tg := tg) t a b n np v.
Proof.
  intros (Ea & Eb & En & Enp & Hab & Hn & Hnp & Hfit) HO.
  assert (Hchis : generate_log_spaced_vec (qc_tem_min c) (qc_tem_max c) (qc_tem_how_many c) = map Fin (log_grid a b n)).
  { rewrite Ea, Eb, En. now apply log_spaced_eq. }
  assert (Hpr : @generate_lin_spaced_vec N (n_lit 0 0) (n_lit 1 0) (qc_prob_how_many c) = map Fin (lin_grid 0 1 np)).
  { rewrite Enp, !flit. apply lin_spaced_eq; [lra|exact Hnp]. }
  destruct (qs_table_recurrence Orc c garbage) as (its & Hits & Hd & H).
  - rewrite Hpr. now rewrite map_length, lin_grid_length.
  - rewrite Hpr, Hchis. now rewrite !map_length, lin_grid_length, log_grid_length.
  - destruct (H (concat its) (concat_interleaving its)) as (arr & E1 & E2 & L & Hc).
    rewrite Hchis, Hpr in *. rewrite !map_length, lin_grid_length, log_grid_length in *.
    eexists. split; [exact E2|]. split; [reflexivity|].
    assert (Hroot : forall i j, (i < n)%nat -> (j < np)%nat -> exists r, r < 0 /\ nth_error arr (i * np + j) = Some (Fin (exp r))).
    { intros i j Hi Hj. destruct (Hc i (Fin (el (log_grid a b n) i))) as (root & R0 & RS & Ra).
      { rewrite nth_error_map. unfold el. rewrite (nth_error_nth' _ 0) by (rewrite log_grid_length; lia). reflexivity. }
      assert (Hr : forall j, (j < np)%nat -> exists r, r < 0 /\ root j = Fin r).
      { induction j0 as [|j0 IH]; intros Hj0.
        - rewrite R0. unfold n_ten. rewrite !flit. cbn [n_opp RX x_opp]. apply HO. lra.
        - destruct IH as (r & Hr & Er); [lia|]. rewrite RS by lia. rewrite Er. now apply HO. }
      destruct (Hr j Hj) as (r & Hr' & Er). exists r. split; [exact Hr'|]. rewrite Ra, Er by exact Hj. reflexivity. }
    exists (fun i j => match nth_error arr (i * np + j) with Some (Fin w) => w | _ => 0 end).
    split; [|split; [|split; [|repeat split; try lra; try lia]]].
    + cbn [lookup_2d_make t2_x]. rewrite chi_grid, map_log_Fin; [now rewrite log_grid_ln_map|]. intros i Hi.
      rewrite log_grid_length in Hi. apply log_grid_pos; lra || exact Hi.
    + cbn [lookup_2d_make t2_y]. now rewrite prob_grid.
    + cbn [lookup_2d_make t2_data]. now rewrite map_length.
    + destruct (Hroot i j) as (r & Hr & ->); auto. apply exp_pos.
    + destruct (Hroot i j) as (r & Hr & ->); auto. rewrite <- exp_0. apply Rlt_le, exp_increasing, Hr.
    + cbn [lookup_2d_make t2_data]. rewrite nth_error_map. destruct (Hroot i j) as (r & Hr & ->); auto. cbn [option_map n_log RX].
      rewrite x_log_fin by apply exp_pos. reflexivity.
Qed.

(** ** the public function *)
Lemma qs_generate_photons si (G : Rng N) (x : qs_engine G) p E B weight sampling a b n np v chi :
  qc_tem_min (qe_ctrl x) = Fin a -> qc_tem_max (qe_ctrl x) = Fin b -> emission_table (qe_cum x) a b n np v ->
  unit_rng G -> (0 < sampling)%Z ->
  chi_lepton (units si) (F3 tg p) (F3 tg E) (F3 tg B) (qe_lambda x) = Fin chi -> 0 < chi -> p <> zero3 ->
  exists x' fs L, qs_generate (units si) G x (F3 tg p) (F3 tg E) (F3 tg B) weight sampling
    = Ret (map (fun f => (F3 tg (photon_momentum (nu_m si) (nu_c si) p f), (weight / n_of_Z sampling)%N)) fs,
           F3 tg (sub3 p (scale3 (/ IZR sampling) (sum3 (map (photon_momentum (nu_m si) (nu_c si) p) fs)))), x') /\
    length fs = Z.to_nat sampling /\
    fraction_at a b n np v chi L /\
    Forall2 (fun u f => exists r, u = Fin r /\ emitted_fraction np L r f) (fst (draw_unf G (Z.to_nat sampling) (qe_rng x))) fs /\
    Forall (fun f => 0 < f <= 1) fs.
Proof.
  intros Ea Eb Ht HG Hs Echi Hchi Hp.
  pose proof (draw_unf_length G (Z.to_nat sampling) (qe_rng x)) as Hl. pose proof (draw_unf_unit G (Z.to_nat sampling) HG (qe_rng x)) as Hu.
  unfold qs_generate. destruct (draw_unf G (Z.to_nat sampling) (qe_rng x)) as (us, r). cbn [fst] in *.
  destruct (internal_photons si p E B (qe_lambda x) weight (qe_cum x) (qe_ctrl x) us a b chi n np v) as (fs & L & Eg & HL & HF & H1); auto.
  { intros ->. cbn in Hl. lia. }
  replace (Z.of_nat (length us)) with sampling in * by lia. rewrite Eg. cbn [bind].
  eexists _, fs, L. split.
  { do 3 f_equal. rewrite Hl. now rewrite INR_IZR_INZ, Z2Nat.id by lia. }
  split; [|auto]. rewrite <- Hl. symmetry. eapply Forall2_length. exact HF.
Qed.

Lemma photon_momentum_scale m c p f : p <> zero3 -> photon_momentum m c p f = scale3 (f * ((lorentz m c p - 1) * (m * c) / norm3 p)) p.
Proof. intros Hp. pose proof (norm3_pos p Hp). unfold photon_momentum, unit3, scale3; cbn. f_equal; field; lra. Qed.

Lemma kinetic_ratio m c p : 0 < m -> 0 < c -> p <> zero3 -> 0 < (lorentz m c p - 1) * (m * c) / norm3 p < 1.
Proof.
  intros Hm Hc Hp. pose proof (norm3_pos p Hp) as Hn. rewrite <- lepton_gamma by assumption.
  assert (Hmc : 0 < m * c) by nra. set (x := norm3 p / (m * c)). assert (Hx : 0 < x) by (apply Rmult_lt_0_compat; [lra|apply Rinv_0_lt_compat; lra]).
  assert (En : norm3 p = x * (m * c)) by (unfold x; field; lra).
  assert (Hg : 1 < sqrt (1 + x * x) < 1 + x).
  { split; [rewrite <- sqrt_1 at 1; apply sqrt_lt_1; nra|]. rewrite <- (sqrt_square (1 + x)) by lra. apply sqrt_lt_1; nra. }
  rewrite En. replace ((sqrt (1 + x * x) - 1) * (m * c) / (x * (m * c))) with ((sqrt (1 + x * x) - 1) / x) by (field; split; lra).
  split; [apply Rmult_lt_0_compat; [lra|apply Rinv_0_lt_compat; lra]|].
  apply Rmult_lt_reg_r with x; [lra|]. unfold Rdiv. rewrite Rmult_assoc, Rinv_l by lra. lra.
Qed.

Lemma sumR_bounds fs : Forall (fun f => 0 < f <= 1) fs -> fs <> [] -> 0 < sumR fs <= INR (length fs).
Proof.
  intros H Hne. destruct fs as [|f fs]; [congruence|]. clear Hne. inversion H as [|? ? Hf Hfs]; subst.
  assert (0 <= sumR fs <= INR (length fs)).
  { clear - Hfs. induction Hfs as [|y l Hy Hl IH]; [cbn; lra|]. cbn [length]. rewrite S_INR. unfold sumR in *. cbn [fold_right]. lra. }
  cbn [length]. rewrite S_INR. unfold sumR in *. cbn [fold_right]. lra.
Qed.

Lemma final_momentum m c p fs : 0 < m -> 0 < c -> p <> zero3 -> Forall (fun f => 0 < f <= 1) fs -> fs <> [] ->
  exists q, 0 < q < 1 /\ q = 1 - mean fs * ((lorentz m c p - 1) * (m * c) / norm3 p) /\
    sub3 p (scale3 (/ INR (length fs)) (sum3 (map (photon_momentum m c p) fs))) = scale3 q p.
Proof.
  intros Hm Hc Hp H1 Hne. pose proof (kinetic_ratio m c p Hm Hc Hp) as Hk. pose proof (sumR_bounds fs H1 Hne) as Hs. pose proof (norm3_pos p Hp).
  set (k := (lorentz m c p - 1) * (m * c) / norm3 p) in *.
  assert (Hl : 0 < INR (length fs)) by (apply lt_0_INR; destruct fs; [congruence|cbn; lia]).
  assert (Hmean : 0 < mean fs <= 1).
  { unfold mean. split; [apply Rmult_lt_0_compat; [lra|now apply Rinv_0_lt_compat]|].
    apply Rmult_le_reg_r with (INR (length fs)); [lra|]. unfold Rdiv. rewrite Rmult_assoc, Rinv_l by lra. lra. }
  exists (1 - mean fs * k). split; [nra|]. split; [reflexivity|].
  rewrite sum3_photons. unfold mean, k, unit3, sub3, scale3; cbn. f_equal; field; lra.
Qed.

(** whatever the table: if the photons are numbers, momentum is conserved *)
Lemma qs_loop_conserves chi lc g mec (nw : num N) oo n3 t us : forall ss pp phs pf,
  @qs_loop N chi lc g mec nw (Fin oo) n3 t us ss (F3 tg pp) = Ret (phs, pf) ->
  forall ks, map fst phs = map (F3 tg) ks -> pf = F3 tg (sub3 pp (scale3 oo (sum3 ks))).
Proof.
  induction ss as [|s ss IH]; intros pp phs pf H ks Hk; cbn [qs_loop] in H.
  - injection H as <- <-. destruct ks; [|discriminate]. destruct pp; unfold F3, sub3, scale3; cbn. f_equal; f_equal; ring.
  - destruct (zget us s) as [u| | |]; try discriminate. cbn [bind] in H.
    destruct (qs_one_photon chi lc g mec n3 t u) as [ph| | |]; try discriminate. cbn [bind] in H.
    match type of H with (do _ <- ?m; _) = _ => destruct m as [(phs', pf')| | |] eqn:E; try discriminate end. cbn [bind] in H.
    injection H as <- <-. destruct ks as [|k ks]; [discriminate|]. cbn [map fst] in Hk. injection Hk as -> Hk.
    apply (IH (sub3 pp (scale3 oo k)) phs' pf') with (ks := ks) in Hk.
    + rewrite Hk. unfold F3, sub3, scale3, add3; cbn. f_equal; f_equal; ring.
    + etransitivity; [|exact E]. f_equal. unfold F3; cbn. do 2 f_equal; ring.
Qed.

Lemma qs_generate_conserves (U : Units N) (G : Rng N) (x x' : qs_engine G) p e b weight sampling phs pf ks : (0 < sampling)%Z ->
  qs_generate U G x (F3 tg p) e b weight sampling = Ret (phs, pf, x') -> map fst phs = map (F3 tg) ks ->
  pf = F3 tg (sub3 p (scale3 (/ IZR sampling) (sum3 ks))).
Proof.
  intros Hs H Hk. unfold qs_generate in H. destruct (draw_unf G (Z.to_nat sampling) (qe_rng x)) as (us, r).
  unfold qs_internal_generate in H. cbn zeta in H. unfold n_one in H.
  change (n_of_Z sampling : num N) with (Fin (IZR sampling) : num N) in H. rewrite !flit in H.
  rewrite (fdiv tg 1 (IZR sampling)) in H by (apply IZR_lt; lia).
  match type of H with (do _ <- ?m; _) = _ => destruct m as [(phs', pf')| | |] eqn:E; try discriminate end. cbn [bind] in H. injection H as -> -> _.
  replace (1 / IZR sampling) with (/ IZR sampling) in E by (unfold Rdiv; ring).
  exact (qs_loop_conserves _ _ _ _ _ _ _ _ _ _ _ _ _ E ks Hk).
Qed.

(** energy: sqrt(1 + (x-k)^2) + k > sqrt(1+x^2) *)
Lemma energy_created x k : 0 < k -> k <= x -> let g := sqrt (1 + x * x) in let g' := sqrt (1 + (x - k) * (x - k)) in
  g < g' + k < g + 1.
Proof.
  intros Hk Hx. cbn zeta.
  assert (G1 : x < sqrt (1 + x * x)) by (rewrite <- (sqrt_square x) at 1 by lra; apply sqrt_lt_1; nra).
  assert (G2 : x - k < sqrt (1 + (x - k) * (x - k))) by (rewrite <- (sqrt_square (x - k)) at 1 by lra; apply sqrt_lt_1; nra).
  split.
  - assert (sqrt (1 + x * x) - k < sqrt (1 + (x - k) * (x - k))); [|lra].
    rewrite <- (sqrt_square (sqrt (1 + x * x) - k)) by lra. apply sqrt_lt_1; [apply Rle_0_sqr|nra|].
    replace ((sqrt (1 + x * x) - k) * (sqrt (1 + x * x) - k)) with (sqrt (1 + x * x) * sqrt (1 + x * x) - 2 * k * sqrt (1 + x * x) + k * k) by ring.
    rewrite sqrt_sqrt by nra. nra.
  - assert (sqrt (1 + (x - k) * (x - k)) <= 1 + (x - k)); [|lra].
    rewrite <- (sqrt_square (1 + (x - k))) by lra. apply sqrt_le_1; nra.
Qed.

End E.

(** ** the statements of C43, C44 and C58 *)
Lemma norm3_scale s p : 0 <= s -> norm3 (scale3 s p) = s * norm3 p.
Proof.
  intros Hs. unfold norm3. replace (dot3 (scale3 s p) (scale3 s p)) with ((s * s) * dot3 p p) by (unfold dot3, scale3; cbn; ring).
  rewrite sqrt_mult by (nra || apply dot3_nonneg). now rewrite sqrt_square.
Qed.

Lemma add3_sub3 p q : add3 (sub3 p q) q = p.
Proof. destruct p; unfold add3, sub3; cbn. f_equal; ring. Qed.

Lemma sum3_scale s ks : sum3 (map (scale3 s) ks) = scale3 s (sum3 ks).
Proof. induction ks as [|k ks IH]; cbn [map sum3]; [unfold zero3|rewrite IH; unfold add3]; unfold scale3; cbn; f_equal; ring. Qed.

Lemma emission_conserves tg si (G : Rng (RX tg)) (x : qs_engine G) p E B w sampling a b n np v chi :
  qc_tem_min (qe_ctrl x) = Fin a -> qc_tem_max (qe_ctrl x) = Fin b -> emission_table (qe_cum x) a b n np v ->
  unit_rng G -> (0 < sampling)%Z ->
  chi_lepton (units si) (F3 tg p) (F3 tg E) (F3 tg B) (qe_lambda x) = Fin chi -> 0 < chi -> p <> zero3 ->
  exists phs pf x' ks, qs_generate (units si) G x (F3 tg p) (F3 tg E) (F3 tg B) (Fin w) sampling = Ret (phs, F3 tg pf, x') /\
    zlen phs = sampling /\
    Forall2 (fun q k => q = (F3 tg k, Fin (w / IZR sampling)) /\ exists s, 0 < s /\ k = scale3 s p) phs ks /\
    add3 (scale3 w pf) (sum3 (map (scale3 (w / IZR sampling)) ks)) = scale3 w p.
Proof.
  intros Ea Eb Ht HG Hs Echi Hchi Hp.
  destruct (qs_generate_photons tg si G x p E B (Fin w) sampling a b n np v chi Ea Eb Ht HG Hs Echi Hchi Hp) as (x' & fs & L & Eg & Hl & _ & _ & H1).
  assert (HsR : 0 < IZR sampling) by (apply IZR_lt; lia).
  eexists _, _, x', (map (photon_momentum (nu_m si) (nu_c si) p) fs). split; [exact Eg|]. split; [unfold zlen; rewrite map_length; lia|]. split.
  - clear - H1 Hp HsR. pose proof (kinetic_ratio (nu_m si) (nu_c si) p (nu_m_pos si) (nu_c_pos si) Hp) as Hk.
    induction H1 as [|f fs Hf H IH]; cbn [map]; constructor; [|exact IH]. split.
    + change (n_of_Z sampling : num (RX tg)) with (Fin (IZR sampling)). now rewrite fdiv by exact HsR.
    + rewrite photon_momentum_scale by exact Hp. eexists. split; [|reflexivity]. apply Rmult_lt_0_compat; lra.
  - rewrite sum3_scale. set (K := sum3 _). destruct p, K; unfold add3, sub3, scale3; cbn. f_equal; field; lra.
Qed.

Lemma emission_fractions tg si (G : Rng (RX tg)) (x : qs_engine G) p E B weight sampling a b n np v chi :
  qc_tem_min (qe_ctrl x) = Fin a -> qc_tem_max (qe_ctrl x) = Fin b -> emission_table (qe_cum x) a b n np v ->
  unit_rng G -> (0 < sampling)%Z ->
  chi_lepton (units si) (F3 tg p) (F3 tg E) (F3 tg B) (qe_lambda x) = Fin chi -> 0 < chi -> p <> zero3 ->
  exists phs pf x' fs L, qs_generate (units si) G x (F3 tg p) (F3 tg E) (F3 tg B) weight sampling = Ret (phs, F3 tg pf, x') /\
    fraction_at a b n np v chi L /\
    Forall2 (fun u f => 0 < f <= 1 /\ exists r, u = Fin r /\ emitted_fraction np L r f) (fst (draw_unf G (Z.to_nat sampling) (qe_rng x))) fs /\
    Forall2 (fun q f => exists k, fst q = F3 tg k /\ unit3 k = unit3 p /\
               norm3 k * nu_c si = f * ((lorentz (nu_m si) (nu_c si) p - 1) * (nu_m si * nu_c si * nu_c si))) phs fs /\
    exists q, 0 < q < 1 /\ pf = scale3 q p.
Proof.
  intros Ea Eb Ht HG Hs Echi Hchi Hp.
  destruct (qs_generate_photons tg si G x p E B weight sampling a b n np v chi Ea Eb Ht HG Hs Echi Hchi Hp) as (x' & fs & L & Eg & Hl & HL & HF & H1).
  pose proof (nu_m_pos si) as Hm. pose proof (nu_c_pos si) as Hc. pose proof (norm3_pos p Hp) as Hn.
  pose proof (kinetic_ratio (nu_m si) (nu_c si) p Hm Hc Hp) as Hk.
  eexists _, _, x', fs, L. split; [exact Eg|]. split; [exact HL|]. split; [|split].
  - clear - HF H1. induction HF as [|u f us fs Hu HF IH]; constructor; inversion H1; subst; auto.
  - clear - H1 Hp Hk Hn Hm Hc. induction H1 as [|f fs Hf H IH]; cbn [map]; constructor; [|exact IH].
    eexists. split; [reflexivity|]. rewrite photon_momentum_scale by exact Hp.
    assert (Hpos : 0 < f * ((lorentz (nu_m si) (nu_c si) p - 1) * (nu_m si * nu_c si) / norm3 p)) by (apply Rmult_lt_0_compat; lra).
    split.
    + unfold unit3. rewrite norm3_scale by lra. set (k := f * _) in *. unfold scale3; cbn. f_equal; field; lra.
    + rewrite norm3_scale by lra. field. lra.
  - destruct (final_momentum (nu_m si) (nu_c si) p fs Hm Hc Hp H1) as (q & Hq & _ & Eq).
    { intros ->. cbn in Hl. lia. }
    exists q. split; [exact Hq|]. rewrite <- Eq. rewrite Hl, INR_IZR_INZ, Z2Nat.id by lia. reflexivity.
Qed.

Lemma emission_energy tg si (G : Rng (RX tg)) (x : qs_engine G) p E B weight sampling a b n np v chi :
  qc_tem_min (qe_ctrl x) = Fin a -> qc_tem_max (qe_ctrl x) = Fin b -> emission_table (qe_cum x) a b n np v ->
  unit_rng G -> (0 < sampling)%Z ->
  chi_lepton (units si) (F3 tg p) (F3 tg E) (F3 tg B) (qe_lambda x) = Fin chi -> 0 < chi -> p <> zero3 ->
  let mc := nu_m si * nu_c si in let gamma := lorentz (nu_m si) (nu_c si) in
  exists phs pf x' ks, qs_generate (units si) G x (F3 tg p) (F3 tg E) (F3 tg B) weight sampling = Ret (phs, F3 tg pf, x') /\
    map fst phs = map (F3 tg) ks /\
    gamma p < gamma pf + sumR (map norm3 ks) / IZR sampling / mc < gamma p + 1.
Proof.
  intros Ea Eb Ht HG Hs Echi Hchi Hp. cbn zeta.
  destruct (qs_generate_photons tg si G x p E B weight sampling a b n np v chi Ea Eb Ht HG Hs Echi Hchi Hp) as (x' & fs & L & Eg & Hl & HL & HF & H1).
  pose proof (nu_m_pos si) as Hm. pose proof (nu_c_pos si) as Hc. pose proof (norm3_pos p Hp) as Hn.
  pose proof (kinetic_ratio (nu_m si) (nu_c si) p Hm Hc Hp) as Hk. set (m := nu_m si) in *. set (c := nu_c si) in *.
  assert (HsR : 0 < IZR sampling) by (apply IZR_lt; lia). assert (Hmc : 0 < m * c) by nra.
  eexists _, _, x', (map (photon_momentum m c p) fs). split; [exact Eg|]. split; [now rewrite !map_map|].
  assert (Hne : fs <> []) by (intros ->; cbn in Hl; lia).
  destruct (final_momentum m c p fs Hm Hc Hp H1 Hne) as (q & Hq & Eq & Ef).
  replace (/ IZR sampling) with (/ INR (length fs)). 2: { rewrite Hl, INR_IZR_INZ, Z2Nat.id by lia. reflexivity. }
  rewrite Ef. rewrite <- !lepton_gamma by assumption.
  set (X := norm3 p / (m * c)). set (kr := (lorentz m c p - 1) * (m * c) / norm3 p) in *.
  assert (HX : 0 < X) by (apply Rmult_lt_0_compat; [lra|apply Rinv_0_lt_compat; lra]).
  replace (norm3 (scale3 q p) / (m * c)) with (X - (1 - q) * X) by (rewrite norm3_scale by lra; unfold X; field; lra).
  replace (sumR (map norm3 (map (photon_momentum m c p) fs)) / IZR sampling / (m * c)) with ((1 - q) * X).
  - apply energy_created; nra.
  - rewrite map_map. replace (sumR (map (fun f => norm3 (photon_momentum m c p f)) fs)) with (sumR fs * (kr * norm3 p)).
    + rewrite Eq. unfold mean, X. replace (INR (length fs)) with (IZR sampling) by (rewrite Hl, INR_IZR_INZ, Z2Nat.id by lia; reflexivity). field. lra.
    + clear - H1 Hp Hk Hn. induction H1 as [|f fs Hf H IH]; cbn [map sumR fold_right]; [ring|]. fold (sumR (map (fun f => norm3 (photon_momentum m c p f)) fs)). fold (sumR fs).
      rewrite <- IH. rewrite photon_momentum_scale by exact Hp. fold kr. rewrite norm3_scale; [ring|]. apply Rmult_le_pos; lra.
Qed.

(** ** columns in exact arithmetic, for every table *)
Lemma one_photon_columns_exact tg (t : lookup_2d (RX tg)) chi lc g mec n3 r :
  (2 <= length (t2_y t))%nat -> (zlen (t2_y t) < 2 ^ 31)%Z -> 0 <= r < 1 ->
  exists k, (S k < length (t2_y t))%nat /\ INR k <= INR (length (t2_y t) - 1) * r < INR k + 1 /\
  exists q : num (RX tg) -> num (RX tg) -> vec3 (RX tg),
  @qs_one_photon (RX tg) chi lc g mec n3 t (Fin r)
  = (do l <- interp2_linear_first_equispaced t (n_log lc) (Z.of_nat k);
     do r <- interp2_linear_first_equispaced t (n_log lc) (Z.of_nat k + 1);
     Ret (q l r)).
Proof.
  intros H2 H31 Hr. unfold zlen in *. destruct (prob_index tg (length (t2_y t)) r H2 H31 Hr) as (k & Hk & Hkr & Ek).
  exists k. split; [exact Hk|]. assert (Hp : 0 < INR (length (t2_y t) - 1)) by (apply lt_0_INR; lia). split.
  { rewrite S_INR in Hkr. destruct Hkr as [K1 K2]. split.
    - apply Rmult_le_compat_l with (r := INR (length (t2_y t) - 1)) in K1; [|lra].
      replace (INR (length (t2_y t) - 1) * (INR k / INR (length (t2_y t) - 1))) with (INR k) in K1 by (field; lra). exact K1.
    - apply Rmult_lt_compat_l with (r := INR (length (t2_y t) - 1)) in K2; [|lra].
      replace (INR (length (t2_y t) - 1) * ((INR k + 1) / INR (length (t2_y t) - 1))) with (INR k + 1) in K2 by (field; lra). exact K2. }
  destruct (nth_error (t2_y t) k) as [pl|] eqn:El; [|apply nth_error_None in El; lia].
  destruct (nth_error (t2_y t) (S k)) as [pr|] eqn:Er; [|apply nth_error_None in Er; lia].
  eexists (fun l r => _). unfold qs_one_photon. cbn zeta. unfold zlen. rewrite (wrap64_small (Z.of_nat (length (t2_y t)) - 1)) by lia.
  rewrite Ek. cbn [bind].
  rewrite (wrap64_small (Z.of_nat k + 1)) by lia. unfold vget. rewrite !to_int32_small by lia.
  rewrite (zget_ok (t2_y t) (Z.of_nat k) pl) by (lia || now rewrite Nat2Z.id).
  rewrite (zget_ok (t2_y t) (Z.of_nat k + 1) pr) by (lia || now replace (Z.to_nat (Z.of_nat k + 1)) with (S k) by lia). cbn [bind].
  reflexivity.
Qed.

(** ** counts, weights, draws: every arithmetic *)
Lemma qs_loop_length {N : NumOps} (chi lc g mec nw oo : num N) n3 t us : forall ss pp phs pf,
  qs_loop chi lc g mec nw oo n3 t us ss pp = Ret (phs, pf) -> length phs = length ss /\ forall q, In q phs -> snd q = nw.
Proof.
  induction ss as [|s ss IH]; intros pp phs pf H; cbn [qs_loop] in H.
  - injection H as <- <-. split; [reflexivity|]. intros q [].
  - destruct (zget us s) as [u| | |]; try discriminate. cbn [bind] in H.
    destruct (qs_one_photon chi lc g mec n3 t u) as [ph| | |]; try discriminate. cbn [bind] in H.
    match type of H with (do _ <- ?m; _) = _ => destruct m as [(phs', pf')| | |] eqn:E; try discriminate end. cbn [bind] in H.
    injection H as <- <-. destruct (IH _ _ _ E) as (IH1 & IH2). split; [cbn; now rewrite IH1|]. intros q [<-|Hq]; [reflexivity|]. now apply IH2.
Qed.

Lemma qs_generate_count {N} U (G : Rng N) (x x' : qs_engine G) p e b weight sampling phs pf : (0 <= sampling)%Z ->
  qs_generate U G x p e b weight sampling = Ret (phs, pf, x') ->
  zlen phs = sampling /\
  (forall q, In q phs -> snd q = (weight / n_of_Z sampling)%N) /\
  qe_rng x' = nth_state G (Z.to_nat sampling) (qe_rng x) /\
  qe_lambda x' = qe_lambda x /\ qe_ctrl x' = qe_ctrl x /\ qe_KK x' = qe_KK x /\ qe_cum x' = qe_cum x.
Proof.
  intros Hs. unfold qs_generate. pose proof (draw_unf_state G (Z.to_nat sampling) (qe_rng x)) as Hst.
  destruct (draw_unf G (Z.to_nat sampling) (qe_rng x)) as (us, r). cbn in Hst.
  destruct (qs_internal_generate _ _ _ _ _ _ _ _ _ us) as [(phs', pf')| | |] eqn:E; cbn; try discriminate.
  intros H. injection H as <- <- <-. cbn. unfold qs_internal_generate in E. destruct (qs_loop_length _ _ _ _ _ _ _ _ _ _ _ _ _ E) as (L & Hw).
  rewrite zseq_length in L. split; [unfold zlen; rewrite L; lia|]. split; [exact Hw|]. repeat split; auto.
Qed.

Lemma qs_generate_weight_sum tg U (G : Rng (RX tg)) (x x' : qs_engine G) p e b w sampling phs pf : (0 < sampling)%Z ->
  qs_generate U G x p e b (Fin w) sampling = Ret (phs, pf, x') -> sum_weights (map snd phs) = Fin w.
Proof.
  intros Hs E. destruct (qs_generate_count U G x x' p e b _ sampling phs pf ltac:(lia) E) as (L1 & Hw & _).
  assert (Hn : n_of_Z sampling = (Fin (IZR sampling) : num (RX tg))) by reflexivity.
  assert (Hz : IZR sampling <> 0) by (apply IZR_neq; lia).
  rewrite Hn, fdiv in Hw by (apply IZR_lt; lia).
  rewrite (sum_const _ (w / IZR sampling)).
  - match goal with |- Fin (?k * _) = _ => assert (Hk : k = IZR sampling) end.
    { rewrite map_length, INR_IZR_INZ. f_equal. exact L1. }
    rewrite Hk. f_equal. field. exact Hz.
  - apply Forall_forall. intros v Hv. apply in_map_iff in Hv as (q & <- & Hq). symmetry. now apply Hw.
Qed.

(** sampling 0: nothing happens *)
Lemma qs_generate_zero {N} U (G : Rng N) (x : qs_engine G) p e b weight :
  exists x', qs_generate U G x p e b weight 0 = Ret ([], p, x') /\ qe_rng x' = qe_rng x.
Proof. unfold qs_generate. cbn. eauto. Qed.
