(** The column of a random number in IEEE arithmetic of any format: the product
    (number of intervals) * u of a u below one rounds to a number below the number
    of intervals. *)
From Coq Require Import ZArith Reals List Bool Lia Lra.
From Flocq Require Import Core BinarySingleNaN.
From Verif Require Import Cxx Num NumRX NumIEEE LookupTables VecFun QuantumSync CxxLemmas.
Import ListNotations.
Local Open Scope R_scope.

Section T.
Variables (prec emax : Z).
Context (Hp : Prec_gt_0 prec) (He : Prec_lt_emax prec emax).
Hypothesis H3 : (3 <= emax)%Z.
Notation bf := (binary_float prec emax).
Notation fexp := (SpecFloat.fexp prec emax).
Notation rnd := (round radix2 fexp ZnearestE).

Local Instance fexp_valid : Valid_exp fexp := fexp_correct prec emax Hp.
Local Instance fexp_mono : Monotone_exp fexp := fexp_monotone prec emax.

Lemma fexp_0 : fexp 0 = (- prec)%Z.
Proof. unfold SpecFloat.fexp, SpecFloat.emin. unfold Prec_gt_0, Prec_lt_emax in *. lia. Qed.

Lemma below_one x : generic_format radix2 fexp x -> x < 1 -> x <= 1 - bpow radix2 (- prec).
Proof.
  intros Hx Hl. change 1 with (bpow radix2 0) in Hl.
  assert (F1 : generic_format radix2 fexp (bpow radix2 0)).
  { apply generic_format_bpow. unfold SpecFloat.fexp, SpecFloat.emin. unfold Prec_gt_0, Prec_lt_emax in *. lia. }
  pose proof (pred_ge_gt radix2 fexp x (bpow radix2 0) Hx F1 Hl) as H. rewrite pred_bpow, fexp_0 in H. exact H.
Qed.

Lemma round_below (M : Z) x : (1 <= M)%Z -> generic_format radix2 fexp x -> 0 <= x < 1 -> rnd (IZR M * x) < IZR M.
Proof.
  intros HM Hx Hx1. assert (HMR : 1 <= IZR M) by now apply IZR_le.
  pose proof (below_one x Hx (proj2 Hx1)) as Hb. pose proof (bpow_gt_0 radix2 (- prec)) as Hpp.
  set (y := IZR M * x). assert (Hy0 : 0 <= y) by (unfold y; nra). assert (HyM : y <= IZR M - IZR M * bpow radix2 (- prec)) by (unfold y; nra).
  assert (HyM' : y < IZR M) by nra.
  apply Rnot_le_lt. intros Hge.
  pose proof (error_le_half_ulp radix2 fexp (fun n => negb (Z.even n)) y) as Herr. apply Rabs_le_inv in Herr. fold rnd in Herr.
  assert (Hulp : / 2 * ulp radix2 fexp y < IZR M * bpow radix2 (- prec)).
  { destruct (Req_dec y 0) as [E0|Hy].
    - exfalso. rewrite E0, round_0 in Hge by apply valid_rnd_N. lra.
    - rewrite ulp_neq_0 by exact Hy. unfold cexp, SpecFloat.fexp.
      pose proof (bpow_mag_le radix2 y Hy) as Hmag. rewrite (Rabs_pos_eq y Hy0) in Hmag.
      destruct (Z.max_spec (mag radix2 y - prec) (SpecFloat.emin prec emax)) as [[_ ->]|[_ ->]].
      + apply Rlt_le_trans with (bpow radix2 (- prec)); [|nra].
        replace (/ 2) with (bpow radix2 (-1)) by reflexivity. rewrite <- bpow_plus. apply bpow_lt. unfold SpecFloat.emin. lia.
      + replace (/ 2) with (bpow radix2 (-1)) by reflexivity. rewrite <- bpow_plus.
        replace (-1 + (mag radix2 y - prec))%Z with ((mag radix2 y - 1) + - prec)%Z by lia. rewrite bpow_plus. nra. }
  lra.
Qed.

Lemma small_int_exact (M : Z) : (0 <= M <= 2 ^ prec)%Z -> generic_format radix2 fexp (IZR M).
Proof.
  intros HM. unfold Prec_gt_0, Prec_lt_emax in *. destruct (Z.eq_dec M (2 ^ prec)) as [->|].
  - change (2 ^ prec)%Z with (Zpower radix2 prec). rewrite IZR_Zpower by lia. apply generic_format_bpow.
    unfold SpecFloat.fexp, SpecFloat.emin. lia.
  - change (generic_format radix2 (FLT_exp (SpecFloat.emin prec emax) prec) (IZR M)). apply generic_format_FLT.
    apply FLT_spec with (Float radix2 M 0).
    + unfold F2R; cbn [Fnum Fexp bpow]. ring.
    + cbn [Fnum]. change (Zpower radix2 prec) with (2 ^ prec)%Z. lia.
    + cbn [Fexp]. unfold SpecFloat.emin. lia.
Qed.

Lemma pow_prec_lt : bpow radix2 prec < bpow radix2 emax.
Proof. apply bpow_lt. apply He. Qed.

Lemma of_Z_exact (M : Z) : (0 <= M <= 2 ^ prec)%Z -> B2R (ieee_of_Z prec emax Hp He M) = IZR M /\ is_finite (ieee_of_Z prec emax Hp He M) = true.
Proof.
  intros HM. pose proof (binary_normalize_correct prec emax Hp He mode_NE M 0 false) as H. cbv zeta in H.
  change (F2R (Float radix2 M 0)) with (IZR M * 1) in H. rewrite Rmult_1_r in H.
  change (round_mode mode_NE) with ZnearestE in H.
  rewrite round_generic in H by (auto with typeclass_instances; now apply small_int_exact).
  rewrite Rlt_bool_true in H.
  - destruct H as (H1 & H2 & _). split; assumption.
  - rewrite Rabs_pos_eq by (apply IZR_le; lia). apply Rle_lt_trans with (2 := pow_prec_lt).
    rewrite <- IZR_Zpower by (unfold Prec_gt_0 in *; lia). apply IZR_le. change (Zpower radix2 prec) with (2 ^ prec)%Z. lia.
Qed.

Lemma floor_finite (y : bf) : is_finite y = true -> 0 <= B2R y < IZR (2 ^ 64) -> ieee_floor_size prec emax y = Some (Zfloor (B2R y)).
Proof.
  destruct y as [s|s| |s m e Hb]; try discriminate; intros _ Hy.
  - cbn. now rewrite Zfloor_IZR.
  - destruct s.
    + exfalso. cbn [B2R] in Hy. assert (F2R (Float radix2 (cond_Zopp true (Zpos m)) e) < 0) by (apply F2R_lt_0; reflexivity). lra.
    + cbn [ieee_floor_size]. cbn [B2R cond_Zopp] in *. unfold F2R in *. cbn [Fnum Fexp] in *.
      assert (E : Zfloor (IZR (Zpos m) * bpow radix2 e) = (if (0 <=? e)%Z then Zpos m * 2 ^ e else Zpos m / 2 ^ (- e))%Z).
      { destruct (Z.leb_spec 0 e).
        - change (2 ^ e)%Z with (Zpower radix2 e). rewrite <- IZR_Zpower by lia. now rewrite <- mult_IZR, Zfloor_IZR.
        - rewrite <- (Z.opp_involutive e) at 1. rewrite bpow_opp, <- IZR_Zpower by lia. 
          rewrite <- (Zfloor_div (Zpos m) (2 ^ (- e))); [reflexivity|]. apply Z.pow_nonzero; lia. }
      rewrite <- E. rewrite (proj2 (Z.ltb_lt _ _)); [reflexivity|]. apply lt_IZR. pose proof (Zfloor_lb (IZR (Zpos m) * bpow radix2 e)). lra.
Qed.

Lemma column_in_bounds (M : Z) (u : bf) : (1 <= M <= 2 ^ prec)%Z -> (M <= 2 ^ 64)%Z -> is_finite u = true -> 0 <= B2R u < 1 ->
  let k := Zfloor (rnd (IZR M * B2R u)) in
  ieee_floor_size prec emax (Bmult mode_NE (ieee_of_Z prec emax Hp He M) u) = Some k /\ (0 <= k < M)%Z.
Proof.
  intros HM H64 Hf Hu. cbn zeta. destruct (of_Z_exact M ltac:(lia)) as (E1 & E2).
  pose proof (generic_format_B2R prec emax u) as Fu. pose proof (round_below M (B2R u) ltac:(lia) Fu Hu) as Hlt.
  assert (HMR : 1 <= IZR M) by (apply IZR_le; lia).
  assert (H0 : 0 <= rnd (IZR M * B2R u)) by (rewrite <- (round_0 radix2 fexp ZnearestE); apply round_le; auto with typeclass_instances; nra).
  pose proof (Bmult_correct prec emax Hp He mode_NE (ieee_of_Z prec emax Hp He M) u) as Hm. rewrite E1 in Hm.
  change (round_mode mode_NE) with ZnearestE in Hm. rewrite Rlt_bool_true in Hm.
  - destruct Hm as (B1 & B2 & _). rewrite E2, Hf in B2. split.
    + rewrite floor_finite; [now rewrite B1|exact B2|]. rewrite B1. split; [exact H0|]. apply Rlt_le_trans with (1 := Hlt). now apply IZR_le.
    + pose proof (Zfloor_lb (rnd (IZR M * B2R u))). pose proof (Zfloor_ub (rnd (IZR M * B2R u))). split.
      * apply Zfloor_lub. exact H0.
      * apply lt_IZR. lra.
  - rewrite Rabs_pos_eq by exact H0. apply Rlt_trans with (1 := Hlt). apply Rle_lt_trans with (2 := pow_prec_lt).
    rewrite <- IZR_Zpower by (unfold Prec_gt_0 in *; lia). apply IZR_le. change (Zpower radix2 prec) with (2 ^ prec)%Z. lia.
Qed.

(** one photon reads two neighbouring probabilities of the table and two
    neighbouring columns *)
Lemma one_photon_columns (lm : Libm bf) (t : lookup_2d (IEEE prec emax Hp He lm)) chi lc g mec n3 (u : bf) :
  (2 <= length (t2_y t))%nat -> (zlen (t2_y t) - 1 <= 2 ^ prec)%Z -> (zlen (t2_y t) < 2 ^ 31)%Z -> is_finite u = true -> 0 <= B2R u < 1 ->
  let k := Zfloor (rnd (IZR (zlen (t2_y t) - 1) * B2R u)) in
  (0 <= k < zlen (t2_y t) - 1)%Z /\
  exists q : num _ -> num _ -> vec3 _,
  @qs_one_photon (IEEE prec emax Hp He lm) chi lc g mec n3 t u
  = (do l <- interp2_linear_first_equispaced t (n_log lc) k;
     do r <- interp2_linear_first_equispaced t (n_log lc) (k + 1);
     Ret (q l r)).
Proof.
  intros H2 Hl H31 Hf Hu. cbn zeta. unfold zlen in *.
  destruct (column_in_bounds (Z.of_nat (length (t2_y t)) - 1) u ltac:(lia) ltac:(lia) Hf Hu) as (Ek & Hk). cbn zeta in *.
  set (k := Zfloor _) in *. split; [exact Hk|].
  destruct (nth_error (t2_y t) (Z.to_nat k)) as [pl|] eqn:El; [|apply nth_error_None in El; lia].
  destruct (nth_error (t2_y t) (Z.to_nat (k + 1))) as [pr|] eqn:Er; [|apply nth_error_None in Er; lia].
  eexists (fun l r => _). unfold qs_one_photon. cbn zeta. unfold zlen. rewrite (wrap64_small (Z.of_nat (length (t2_y t)) - 1)) by lia.
  unfold floor_size. cbn [n_floor_size n_mul n_of_Z IEEE] in *. rewrite Ek. cbn [bind].
  rewrite (wrap64_small (k + 1)) by lia. unfold vget. rewrite !to_int32_small by lia.
  rewrite (zget_ok (t2_y t) k pl) by (lia || exact El). rewrite (zget_ok (t2_y t) (k + 1) pr) by (lia || exact Er). cbn [bind].
  reflexivity.
Qed.

(** u = 1, which some implementations of the uniform distribution return *)
Lemma one_photon_at_one (lm : Libm bf) (t : lookup_2d (IEEE prec emax Hp He lm)) chi lc g mec n3 :
  (2 <= length (t2_y t))%nat -> (zlen (t2_y t) - 1 <= 2 ^ prec)%Z -> (zlen (t2_y t) < 2 ^ 31)%Z ->
  @qs_one_photon (IEEE prec emax Hp He lm) chi lc g mec n3 t (ieee_of_Z prec emax Hp He 1) = UB.
Proof.
  intros H2 Hl H31. unfold zlen in *. set (M := (Z.of_nat (length (t2_y t)) - 1)%Z) in *.
  assert (H2p : (1 <= 2 ^ prec)%Z) by (change 1%Z with (2 ^ 0)%Z; apply Z.pow_le_mono_r; unfold Prec_gt_0 in *; lia).
  destruct (of_Z_exact M ltac:(lia)) as (E1 & E2). destruct (of_Z_exact 1 ltac:(lia)) as (E3 & E4).
  assert (Ek : ieee_floor_size prec emax (Bmult mode_NE (ieee_of_Z prec emax Hp He M) (ieee_of_Z prec emax Hp He 1)) = Some M).
  { pose proof (Bmult_correct prec emax Hp He mode_NE (ieee_of_Z prec emax Hp He M) (ieee_of_Z prec emax Hp He 1)) as Hm.
    rewrite E1, E3, Rmult_1_r in Hm. change (round_mode mode_NE) with ZnearestE in Hm.
    rewrite round_generic in Hm by (auto with typeclass_instances; apply small_int_exact; lia).
    rewrite Rlt_bool_true in Hm.
    - destruct Hm as (B1 & B2 & _). rewrite E2, E4 in B2. rewrite floor_finite; [now rewrite B1, Zfloor_IZR|exact B2|].
      rewrite B1. split; [apply IZR_le; lia|]. apply IZR_lt. lia.
    - rewrite Rabs_pos_eq by (apply IZR_le; lia). apply Rle_lt_trans with (2 := pow_prec_lt).
      rewrite <- IZR_Zpower by (unfold Prec_gt_0 in *; lia). apply IZR_le. change (Zpower radix2 prec) with (2 ^ prec)%Z. lia. }
  unfold qs_one_photon. cbn zeta. unfold zlen. rewrite (wrap64_small (Z.of_nat (length (t2_y t)) - 1)) by lia. fold M.
  unfold floor_size. cbn [n_floor_size n_mul n_of_Z IEEE] in *. rewrite Ek. cbn [bind].
  rewrite (wrap64_small (M + 1)) by lia. unfold vget. rewrite !to_int32_small by lia.
  destruct (nth_error (t2_y t) (Z.to_nat M)) as [pl|] eqn:El; [|apply nth_error_None in El; lia].
  rewrite (zget_ok (t2_y t) M pl) by (lia || exact El). cbn [bind].
  unfold zget. destruct (nth_error (t2_y t) (Z.to_nat (M + 1))) eqn:Er.
  - assert (nth_error (t2_y t) (Z.to_nat (M + 1)) <> None) by congruence. apply nth_error_Some in H. lia.
  - destruct ((0 <=? M + 1)%Z && (M + 1 <? zlen (t2_y t))%Z); reflexivity.
Qed.
End T.
