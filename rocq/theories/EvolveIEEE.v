(** Optical depth evolution in IEEE arithmetic of any format. *)
From Coq Require Import ZArith Reals List Bool Lia Lra.
From Flocq Require Import Core BinarySingleNaN.
From Verif Require Import Cxx Num NumIEEE Utilities LookupTables VecFun Units ChiFun Oracles OmpFor BreitWheeler QuantumSync.
From Verif Require Import CxxLemmas UtilitiesProofs EvolveProofs.
Local Open Scope R_scope.

Section T.
Variables (prec emax : Z).
Context (Hp : Prec_gt_0 prec) (He : Prec_lt_emax prec emax).
Notation bf := (binary_float prec emax).
Notation fe := (SpecFloat.fexp prec emax).
Notation rnd := (round radix2 fe (round_mode mode_NE)).

Local Instance vexp : Valid_exp fe := fexp_correct prec emax Hp.
Local Instance vrnd : Valid_rnd (round_mode mode_NE) := valid_rnd_N _.

Definition nonpos (q : bf) : Prop := q = B754_infinity true \/ (is_finite q = true /\ B2R q <= 0).
Definition nonneg (q : bf) : Prop := q = B754_infinity false \/ (is_finite q = true /\ 0 <= B2R q).

Lemma overflow_NE (x : bf) s : B2SF x = binary_overflow prec emax mode_NE s -> x = B754_infinity s.
Proof. unfold binary_overflow. cbn. destruct x; cbn; try discriminate. now intros [= ->]. Qed.

Lemma ltb_zero (o : bf) z : Bltb o (B754_zero z) = true ->
  o = B754_infinity true \/ (is_finite o = true /\ B2R o < 0).
Proof.
  intros H. destruct (is_finite o) eqn:F.
  - right. split; [reflexivity|]. rewrite Bltb_correct in H by (assumption || reflexivity).
    destruct (Rlt_bool_spec (B2R o) (B2R (B754_zero z : bf))); [assumption|discriminate].
  - left. destruct o as [s|[]| |s m e B]; cbn in *; try discriminate. reflexivity.
Qed.

Lemma div_nonpos (o r : bf) z : Bltb o (B754_zero z) = true -> is_finite r = true -> 0 < B2R r ->
  nonpos (Bdiv mode_NE o r).
Proof.
  intros Ho Fr Hr. destruct (ltb_zero o z Ho) as [->|[Fo Ho2]].
  - destruct r as [s|s| |s m e B]; try discriminate; [cbn in Hr; lra|].
    left. cbn. destruct s; [|reflexivity]. exfalso.
    assert (B2R (B754_finite true m e B) < 0); [|lra]. cbn. now apply F2R_lt_0.
  - pose proof (Bdiv_correct prec emax Hp He mode_NE o r ltac:(lra)) as H.
    assert (Hq : B2R o / B2R r <= 0).
    { unfold Rdiv. rewrite <- (Rmult_0_l (/ B2R r)). apply Rmult_le_compat_r; [apply Rlt_le, Rinv_0_lt_compat; lra|lra]. }
    destruct (Rlt_bool _ _).
    + destruct H as (E & F & _). right. split; [congruence|]. rewrite E.
      rewrite <- (round_0 radix2 fe (round_mode mode_NE)). now apply round_le; try typeclasses eauto.
    + left. apply overflow_NE in H. rewrite H. f_equal.
      assert (So : Bsign o = true).
      { destruct o as [s|s| |[] m e B]; try discriminate; cbn in *; try lra; try reflexivity. }
      assert (Sr : Bsign r = false).
      { destruct r as [s|s| |[] m e B]; try discriminate; cbn in *; try lra; try reflexivity. exfalso.
        assert (F2R (Float radix2 (Zneg m) e) < 0) by now apply F2R_lt_0. lra. }
      now rewrite So, Sr.
Qed.

Lemma plus_le (q d : bf) : nonpos q -> is_finite d = true -> 0 <= B2R d -> Bleb (Bplus mode_NE q d) d = true.
Proof.
  intros [->|[Fq Hq]] Fd Hd.
  - destruct d as [s|s| |s m e B]; try discriminate; cbn; try reflexivity; destruct s; reflexivity.
  - pose proof (Bplus_correct prec emax Hp He mode_NE q d Fq Fd) as H.
    assert (L : rnd (B2R q + B2R d) <= B2R d).
    { rewrite <- (round_generic radix2 fe (round_mode mode_NE) (B2R d)) at 2 by apply generic_format_B2R.
      apply round_le; try typeclasses eauto. lra. }
    assert (L2 : B2R q <= rnd (B2R q + B2R d)).
    { rewrite <- (round_generic radix2 fe (round_mode mode_NE) (B2R q)) at 1 by apply generic_format_B2R.
      apply round_le; try typeclasses eauto. lra. }
    rewrite Rlt_bool_true in H.
    + destruct H as (E & F & _). rewrite Bleb_correct by assumption. apply Rle_bool_true. rewrite E. exact L.
    + pose proof (abs_B2R_lt_emax prec emax q) as A1. pose proof (abs_B2R_lt_emax prec emax d) as A2.
      apply Rabs_lt. apply Rabs_lt_inv in A1, A2. lra.
Qed.

Lemma mult_nonneg (r d : bf) : is_finite r = true -> 0 <= B2R r -> is_finite d = true -> 0 <= B2R d ->
  Bsign r = false -> Bsign d = false -> nonneg (Bmult mode_NE r d).
Proof.
  intros Fr Hr Fd Hd Sr Sd. pose proof (Bmult_correct prec emax Hp He mode_NE r d) as H.
  destruct (Rlt_bool _ _).
  - destruct H as (E & F & _). right. rewrite Fr, Fd in F. split; [exact F|]. rewrite E.
    rewrite <- (round_0 radix2 fe (round_mode mode_NE)). apply round_le; try typeclasses eauto.
    now apply Rmult_le_pos.
  - left. apply overflow_NE in H. rewrite H. now rewrite Sr, Sd.
Qed.

Lemma minus_le (o x : bf) : is_finite o = true -> 0 <= B2R o -> nonneg x -> Bleb (Bminus mode_NE o x) o = true.
Proof.
  intros Fo Ho [->|[Fx Hx]].
  - destruct o as [s|s| |s m e B]; try discriminate; cbn; try reflexivity; destruct s; reflexivity.
  - pose proof (Bminus_correct prec emax Hp He mode_NE o x Fo Fx) as H.
    assert (L : rnd (B2R o - B2R x) <= B2R o).
    { rewrite <- (round_generic radix2 fe (round_mode mode_NE) (B2R o)) at 2 by apply generic_format_B2R.
      apply round_le; try typeclasses eauto. lra. }
    assert (L2 : - B2R x <= rnd (B2R o - B2R x)).
    { rewrite <- B2R_Bopp. rewrite <- (round_generic radix2 fe (round_mode mode_NE) (B2R (Bopp x))) at 1 by apply generic_format_B2R.
      apply round_le; try typeclasses eauto. rewrite B2R_Bopp. lra. }
    rewrite Rlt_bool_true in H.
    + destruct H as (E & F & _). rewrite Bleb_correct by assumption. apply Rle_bool_true. rewrite E. exact L.
    + pose proof (abs_B2R_lt_emax prec emax o) as A1. pose proof (abs_B2R_lt_emax prec emax x) as A2.
      apply Rabs_lt. apply Rabs_lt_inv in A1, A2. lra.
Qed.

Variable lm : Libm bf.
Notation N := (IEEE prec emax Hp He lm).

Lemma evolve_ieee (r dt opt : bf) ev :
  @evolve_with_rate N r dt opt = ev ->
  is_finite r = true -> is_finite dt = true -> 0 <= B2R dt ->
  (0 < B2R r -> ev_event ev = true -> Bleb (ev_dt ev) dt = true) /\
  (ev_event ev = false -> Beqb (ev_dt ev) (B754_zero false) = true) /\
  (is_finite opt = true -> 0 <= B2R opt -> Bsign r = false -> Bsign dt = false ->
    Bleb (ev_opt_depth ev) opt = true).
Proof.
  intros <- Fr Fd Hd. unfold evolve_with_rate. cbn zeta.
  change (@n_zero N) with (B754_zero false : bf).
  change (@n_lt N) with (@Bltb prec emax). change (@n_div N) with (@Bdiv prec emax Hp He mode_NE).
  change (@n_add N) with (@Bplus prec emax Hp He mode_NE). change (@n_sub N) with (@Bminus prec emax Hp He mode_NE).
  change (@n_mul N) with (@Bmult prec emax Hp He mode_NE).
  match goal with |- context [Bltb ?o ?z] => destruct (Bltb o z) eqn:E end;
    cbn [ev_event ev_dt ev_opt_depth].
  - split; [|split; [discriminate|]].
    + intros Hr _. apply plus_le; auto. eapply div_nonpos; eassumption.
    + intros Fo Ho Sr Sd. apply minus_le; auto. apply mult_nonneg; auto.
      destruct r as [s|s| |[] m e B]; try discriminate; cbn; try lra. apply Rlt_le. now apply F2R_gt_0.
  - split; [discriminate|]. split; [reflexivity|].
    intros Fo Ho Sr Sd. apply minus_le; auto. apply mult_nonneg; auto.
    destruct r as [s|s| |[] m e B]; try discriminate; cbn; try lra. apply Rlt_le. now apply F2R_gt_0.
Qed.
End T.

(** binary64: the reported time can be negative *)
Lemma evolve_negative_b64 (lm : Libm b64) : exists r dt : b64,
  r = @n_lit (B64 lm) 3 0 /\ dt = @n_lit (B64 lm) 1 (-1) /\
  let ev := @evolve_with_rate (B64 lm) r dt (@n_lit (B64 lm) 0 0) in
  ev_event ev = true /\ @n_lt (B64 lm) (ev_dt ev) (@n_lit (B64 lm) 0 0) = true.
Proof.
  eexists; eexists; split; [reflexivity|]; split; [reflexivity|]. cbn zeta. split; vm_compute; reflexivity.
Qed.

(** binary64: the rate lookup with the default parameters reads past the end of
    its table for the chi just below the table maximum, when log(chi) and
    log(maximum) round to the same number (they do in glibc) *)
Definition log_01 : b64 := binary_normalize 53 1024 prec53 emax1024 mode_NE (-5184960683398421) (-51) false.
Definition log_500 : b64 := binary_normalize 53 1024 prec53 emax1024 mode_NE 3498513339538481 (-49) false.
Definition below_500 : b64 := binary_normalize 53 1024 prec53 emax1024 mode_NE 8796093022207999 (-44) false.

Lemma bw_rate_b64_oob (lm : Libm b64) (Orc : Oracles (B64 lm)) si energy lambda :
  lm_log lm (@n_lit (B64 lm) 1 (-1)) = log_01 -> lm_log lm (@n_lit (B64 lm) 500 0) = log_500 ->
  lm_log lm below_500 = log_500 -> @n_eq (B64 lm) energy (@n_lit (B64 lm) 0 0) = false ->
  @n_lt (B64 lm) below_500 (@n_lit (B64 lm) 500 0) = true /\
  bw_interp_dN_dt (units si) energy (below_500 : num (B64 lm))
    (bw_dN_dt_table Orc (bw_ctrl_default (B64 lm))) (bw_ctrl_default (B64 lm)) lambda = UB.
Proof.
  intros L1 L2 L3 He. split; [vm_compute; reflexivity|].
  unfold bw_interp_dN_dt. cbn zeta. change (@n_zero (B64 lm)) with (@n_lit (B64 lm) 0 0).
  rewrite He.
  replace (@n_eq (B64 lm) below_500 (n_lit 0 0)) with false by (vm_compute; reflexivity).
  replace (@n_le (B64 lm) below_500 (bc_tdndt_min (bw_ctrl_default (B64 lm)))) with false by (vm_compute; reflexivity).
  replace (@n_le (B64 lm) (bc_tdndt_max (bw_ctrl_default (B64 lm))) below_500) with false by (vm_compute; reflexivity).
  cbn [orb]. change (@n_log (B64 lm)) with (lm_log lm). rewrite L3.
  pose proof (@log_spaced_shape (B64 lm) (bc_tdndt_min (bw_ctrl_default (B64 lm))) (bc_tdndt_max (bw_ctrl_default (B64 lm))) 50 ltac:(lia)
    ltac:(vm_compute; reflexivity) ltac:(vm_compute; reflexivity) ltac:(vm_compute; reflexivity)) as (Hn & H0 & H49).
  unfold bw_dN_dt_table. cbn zeta.
  change (bc_tdndt_how_many (bw_ctrl_default (B64 lm))) with 50%Z.
  set (cs := generate_log_spaced_vec _ _ 50) in *. clearbody cs.
  unfold interp_linear_equispaced, lookup_1d_make. cbn [t1_coords t1_data].
  change (@n_log (B64 lm)) with (lm_log lm).
  change (num (B64 lm)) with b64 in *.
  assert (V0 : vfront (map (lm_log lm) cs) = Ret log_01).
  { unfold vfront. apply zget_ok; [lia|]. cbn [Z.to_nat]. rewrite nth_error_map, H0. cbn. f_equal. exact L1. }
  assert (V1 : vback (map (lm_log lm) cs) = Ret log_500).
  { unfold vback. rewrite zlen_map, Hn.
    apply zget_ok; [vm_compute; discriminate|]. change (Z.to_nat (wrap64 (50 - 1)%Z)) with (Z.to_nat (50 - 1)%Z).
    rewrite nth_error_map, H49. cbn. f_equal. exact L2. }
  rewrite V0, V1. cbn [bind]. cbn zeta. rewrite zlen_map, Hn.
  replace (@floor_size (B64 lm) _) with (@Ret Z 49%Z).
  2: { vm_compute. reflexivity. }
  cbn [bind].
  assert (G49 : exists v, vget (map (lm_log lm) cs) 49%Z = Ret v).
  { unfold vget. change (to_int32 49%Z) with 49%Z. destruct (zget_cases (map (lm_log lm) cs) 49%Z) as [(a & _ & _ & E)|[H _]]; [eauto|].
    rewrite zlen_map, Hn in H. lia. }
  destruct G49 as (v & ->). cbn [bind].
  replace (vget (map (lm_log lm) cs) (wrap64 (49 + 1)%Z)) with (@UB b64); [reflexivity|].
  symmetry. unfold vget. change (to_int32 (wrap64 (49 + 1)%Z)) with 50%Z. apply zget_ub.
  rewrite zlen_map, Hn. lia.
Qed.

(** the photon emission rate, default parameters: every chi at or above the table maximum *)
Definition log_0001 : b64 := binary_normalize 53 1024 prec53 emax1024 mode_NE (-243045032034301) (-45) false.
Definition log_200 : b64 := binary_normalize 53 1024 prec53 emax1024 mode_NE 5965375029419091 (-50) false.

Lemma qs_rate_b64_oob (lm : Libm b64) (Orc : Oracles (B64 lm)) si energy lambda chi :
  lm_log lm (@n_lit (B64 lm) 1 (-3)) = log_0001 -> lm_log lm (@n_lit (B64 lm) 200 0) = log_200 ->
  @n_eq (B64 lm) energy (@n_lit (B64 lm) 0 0) = false ->
  @n_eq (B64 lm) chi (@n_lit (B64 lm) 0 0) = false ->
  @n_le (B64 lm) chi (@n_lit (B64 lm) 1 (-3)) = false ->
  @n_le (B64 lm) (@n_lit (B64 lm) 200 0) chi = true ->
  qs_interp_dN_dt (units si) energy (chi : num (B64 lm))
    (qs_dN_dt_table Orc (qs_ctrl_default (B64 lm))) (qs_ctrl_default (B64 lm)) lambda = UB.
Proof.
  intros L1 L2 He Hc0 Hc1 Hc2.
  unfold qs_interp_dN_dt, qs_clamp_rate. cbn zeta. change (@n_zero (B64 lm)) with (@n_lit (B64 lm) 0 0).
  rewrite He, Hc0. cbn [orb]. change (qc_tdndt_min (qs_ctrl_default (B64 lm))) with (@n_lit (B64 lm) 1 (-3)) at 1.
  change (qc_tdndt_max (qs_ctrl_default (B64 lm))) with (@n_lit (B64 lm) 200 0). rewrite Hc1, Hc2.
  change (@n_log (B64 lm)) with (lm_log lm). rewrite L2.
  pose proof (@log_spaced_shape (B64 lm) (qc_tdndt_min (qs_ctrl_default (B64 lm))) (qc_tdndt_max (qs_ctrl_default (B64 lm))) 64 ltac:(lia)
    ltac:(vm_compute; reflexivity) ltac:(vm_compute; reflexivity) ltac:(vm_compute; reflexivity)) as (Hn & H0 & H49).
  unfold qs_dN_dt_table. cbn zeta.
  change (qc_tdndt_how_many (qs_ctrl_default (B64 lm))) with 64%Z.
  set (cs := generate_log_spaced_vec _ _ 64) in *. clearbody cs.
  unfold interp_linear_equispaced, lookup_1d_make. cbn [t1_coords t1_data].
  change (@n_log (B64 lm)) with (lm_log lm).
  change (num (B64 lm)) with b64 in *.
  assert (V0 : vfront (map (lm_log lm) cs) = Ret log_0001).
  { unfold vfront. apply zget_ok; [lia|]. cbn [Z.to_nat]. rewrite nth_error_map, H0. cbn. f_equal. exact L1. }
  assert (V1 : vback (map (lm_log lm) cs) = Ret log_200).
  { unfold vback. rewrite zlen_map, Hn.
    apply zget_ok; [vm_compute; discriminate|]. change (Z.to_nat (wrap64 (64 - 1)%Z)) with (Z.to_nat (64 - 1)%Z).
    rewrite nth_error_map, H49. cbn. f_equal. exact L2. }
  rewrite V0, V1. cbn [bind]. cbn zeta. rewrite zlen_map, Hn.
  replace (@floor_size (B64 lm) _) with (@Ret Z 63%Z).
  2: { vm_compute. reflexivity. }
  cbn [bind].
  assert (G49 : exists v, vget (map (lm_log lm) cs) 63%Z = Ret v).
  { unfold vget. change (to_int32 63%Z) with 63%Z. destruct (zget_cases (map (lm_log lm) cs) 63%Z) as [(a & _ & _ & E)|[H _]]; [eauto|].
    rewrite zlen_map, Hn in H. lia. }
  destruct G49 as (v & ->). cbn [bind].
  replace (vget (map (lm_log lm) cs) (wrap64 (63 + 1)%Z)) with (@UB b64); [reflexivity|].
  symmetry. unfold vget. change (to_int32 (wrap64 (63 + 1)%Z)) with 64%Z. apply zget_ub.
  rewrite zlen_map, Hn. lia.
Qed.
