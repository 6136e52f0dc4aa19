(** The sizes of the particle arrays computed in IEEE binary64. *)
From Coq Require Import ZArith Reals List Bool Lia Lra.
From Flocq Require Import Core BinarySingleNaN.
From Verif Require Import Cxx Num NumIEEE Fortran FortranNum EmissionIEEE Deposit Tiles TilesProofs.
Import ListNotations.
Local Open Scope R_scope.

Notation fe := (SpecFloat.fexp 53 1024).
Notation rnd64 := (round radix2 fe ZnearestE).
Local Instance fe_valid : Valid_exp fe := fexp_correct 53 1024 prec53.

Lemma floor64_finite (y : b64) : is_finite y = true -> @ieee_floor 53 1024 y = Some (Zfloor (B2R y)).
Proof.
  destruct y as [s|s| |s m e Hb]; try discriminate; intros _.
  - cbn. now rewrite Zfloor_IZR.
  - cbn [ieee_floor B2R]. f_equal. unfold F2R. cbn [Fnum Fexp]. set (z := cond_Zopp s (Zpos m)).
    destruct (Z.leb_spec 0 e).
    + change (2 ^ e)%Z with (Zpower radix2 e). rewrite <- IZR_Zpower by lia. now rewrite <- mult_IZR, Zfloor_IZR.
    + rewrite <- (Z.opp_involutive e) at 2. rewrite bpow_opp, <- IZR_Zpower by lia.
      rewrite <- (Zfloor_div z (2 ^ (- e))); [reflexivity|]. apply Z.pow_nonzero; lia.
Qed.

Lemma int_format (k : Z) : (0 <= k <= 2 ^ 53)%Z -> generic_format radix2 fe (IZR k).
Proof. intros H. apply (small_int_exact 53 1024 prec53 ltac:(lia)). exact H. Qed.
Lemma int_small (k : Z) : (0 <= k <= 2 ^ 53)%Z -> Rabs (IZR k) < bpow radix2 1024.
Proof.
  intros H. rewrite Rabs_pos_eq by (apply IZR_le; lia). apply Rle_lt_trans with (IZR (2 ^ 53)); [apply IZR_le; lia|].
  change (2 ^ 53)%Z with (Zpower radix2 53). rewrite IZR_Zpower by lia. apply bpow_lt. lia.
Qed.
Lemma of_Z64 (k : Z) : (0 <= k <= 2 ^ 53)%Z -> B2R (ieee_of_Z 53 1024 prec53 emax1024 k) = IZR k /\ is_finite (ieee_of_Z 53 1024 prec53 emax1024 k) = true.
Proof. intros H. apply (of_Z_exact 53 1024 prec53 emax1024 ltac:(lia)). exact H. Qed.

Notation mult64 := (@Bmult 53 1024 prec53 emax1024 mode_NE).
Notation plus64 := (@Bplus 53 1024 prec53 emax1024 mode_NE).
Notation minus64 := (@Bminus 53 1024 prec53 emax1024 mode_NE).

Lemma mult_int (x y : b64) k : is_finite x = true -> is_finite y = true -> B2R x * B2R y = IZR k -> (0 <= k <= 2 ^ 53)%Z ->
  B2R (mult64 x y) = IZR k /\ is_finite (mult64 x y) = true.
Proof.
  intros Fx Fy E Hk. pose proof (Bmult_correct 53 1024 prec53 emax1024 mode_NE x y) as H. change (round_mode mode_NE) with ZnearestE in H. rewrite E in H.
  rewrite round_generic in H by (auto with typeclass_instances; now apply int_format). rewrite Rlt_bool_true in H by now apply int_small.
  destruct H as (H1 & H2 & _). rewrite Fx, Fy in H2. split; assumption.
Qed.
Lemma plus_int (x y : b64) k : is_finite x = true -> is_finite y = true -> B2R x + B2R y = IZR k -> (0 <= k <= 2 ^ 53)%Z ->
  B2R (plus64 x y) = IZR k /\ is_finite (plus64 x y) = true.
Proof.
  intros Fx Fy E Hk. pose proof (Bplus_correct 53 1024 prec53 emax1024 mode_NE x y Fx Fy) as H. change (round_mode mode_NE) with ZnearestE in H. rewrite E in H.
  rewrite round_generic in H by (auto with typeclass_instances; now apply int_format). rewrite Rlt_bool_true in H by now apply int_small.
  destruct H as (H1 & H2 & _). split; assumption.
Qed.
Lemma minus_zero (x y : b64) : is_finite x = true -> is_finite y = true -> B2R x = B2R y -> B2R (minus64 x y) = 0 /\ is_finite (minus64 x y) = true.
Proof.
  intros Fx Fy E. pose proof (Bminus_correct 53 1024 prec53 emax1024 mode_NE x y Fx Fy) as H. change (round_mode mode_NE) with ZnearestE in H.
  replace (B2R x - B2R y) with 0 in H by lra. rewrite round_0 in H by auto with typeclass_instances. rewrite Rlt_bool_true in H.
  - destruct H as (H1 & H2 & _). split; assumption.
  - rewrite Rabs_R0. apply bpow_gt_0.
Qed.

(** the literals *)
Lemma lit_04 : is_finite (ieee_lit 53 1024 prec53 emax1024 4 (-1)) = true /\ 0 <= B2R (ieee_lit 53 1024 prec53 emax1024 4 (-1)) <= 1 / 2.
Proof.
  split; [vm_compute; reflexivity|]. rewrite <- SF2R_B2SF.
  replace (B2SF (ieee_lit 53 1024 prec53 emax1024 4 (-1))) with (SpecFloat.S754_finite false 7205759403792794 (-54)) by (vm_compute; reflexivity).
  cbn [SF2R cond_Zopp]. unfold F2R. cbn [Fnum Fexp]. rewrite <- (Z.opp_involutive (-54)), bpow_opp. change (- (-54))%Z with 54%Z. rewrite <- IZR_Zpower by lia.
  change (Zpower radix2 54) with 18014398509481984%Z. lra.
Qed.
Lemma lit_05 : is_finite (ieee_lit 53 1024 prec53 emax1024 5 (-1)) = true /\ B2R (ieee_lit 53 1024 prec53 emax1024 5 (-1)) = 1 / 2.
Proof.
  split; [vm_compute; reflexivity|]. rewrite <- SF2R_B2SF.
  replace (B2SF (ieee_lit 53 1024 prec53 emax1024 5 (-1))) with (SpecFloat.S754_finite false 4503599627370496 (-53)) by (vm_compute; reflexivity).
  cbn [SF2R cond_Zopp]. unfold F2R. cbn [Fnum Fexp]. rewrite <- (Z.opp_involutive (-53)), bpow_opp. change (- (-53))%Z with 53%Z. rewrite <- IZR_Zpower by lia.
  change (Zpower radix2 53) with 9007199254740992%Z. lra.
Qed.
Lemma lit_2 : is_finite (ieee_lit 53 1024 prec53 emax1024 2 0) = true /\ B2R (ieee_lit 53 1024 prec53 emax1024 2 0) = 2.
Proof. change (ieee_lit 53 1024 prec53 emax1024 2 0) with (ieee_of_Z 53 1024 prec53 emax1024 2). destruct (of_Z64 2) as (A & B); [lia|]. now split. Qed.

(** half of an integer is a binary64 number *)
Lemma half_format (n : Z) : (0 <= n < 2 ^ 53)%Z -> generic_format radix2 fe (1 / 2 * IZR n).
Proof.
  intros H. change (generic_format radix2 (FLT_exp (SpecFloat.emin 53 1024) 53) (1 / 2 * IZR n)). apply generic_format_FLT.
  apply FLT_spec with (Float radix2 n (-1)).
  - unfold F2R; cbn [Fnum Fexp bpow]. change (Z.pow_pos radix2 1) with 2%Z. lra.
  - cbn [Fnum]. change (Zpower radix2 53) with (2 ^ 53)%Z. lia.
  - cbn [Fexp]. unfold SpecFloat.emin. lia.
Qed.

Lemma in32 z : (0 <= z < 2 ^ 31)%Z -> (((- 2 ^ 31 <=? z) && (z <? 2 ^ 31))%Z = true).
Proof. intros H. apply andb_true_iff. split; [apply Z.leb_le|apply Z.ltb_lt]; lia. Qed.
Lemma in64 z : (0 <= z < 2 ^ 63)%Z -> (((- 2 ^ 63 <=? z) && (z <? 2 ^ 63))%Z = true).
Proof. intros H. apply andb_true_iff. split; [apply Z.leb_le|apply Z.ltb_lt]; lia. Qed.

Theorem sizes_b64 (lm : Libm b64) M : (0 <= M < 2 ^ 31)%Z -> sizes_exact (F64 lm) M.
Proof.
  intros HM n Hn. destruct (of_Z64 n ltac:(lia)) as (En & Fn). set (fn := ieee_of_Z 53 1024 prec53 emax1024 n) in *.
  assert (Hn0 : 0 <= IZR n) by (apply IZR_le; lia). assert (Hn1 : IZR n < IZR (2 ^ 31)) by (apply IZR_lt; lia).
  assert (P31 : IZR (2 ^ 31) < bpow radix2 1024).
  { change (2 ^ 31)%Z with (Zpower radix2 31). rewrite IZR_Zpower by lia. apply bpow_lt. lia. }
  destruct lit_04 as (F4 & B4). destruct lit_05 as (F5 & B5). destruct lit_2 as (F2' & B2').
  split.
  - (* 0.5 n is exact, 0.4 n is at most that *)
    pose proof (Bmult_correct 53 1024 prec53 emax1024 mode_NE (ieee_lit 53 1024 prec53 emax1024 5 (-1)) fn) as H5.
    change (round_mode mode_NE) with ZnearestE in H5. rewrite B5, En in H5. rewrite round_generic in H5 by (auto with typeclass_instances; apply half_format; lia).
    rewrite Rlt_bool_true in H5 by (rewrite Rabs_pos_eq; lra). destruct H5 as (V5 & W5 & _). rewrite F5, Fn in W5. cbn [andb] in W5.
    set (r4 := rnd64 (B2R (ieee_lit 53 1024 prec53 emax1024 4 (-1)) * IZR n)) in *.
    assert (R4 : 0 <= r4 <= 1 / 2 * IZR n).
    { unfold r4. split.
      - rewrite <- (round_0 radix2 fe ZnearestE). apply round_le; auto with typeclass_instances. apply Rmult_le_pos; lra.
      - rewrite <- (round_generic radix2 fe ZnearestE (1 / 2 * IZR n)) by (apply half_format; lia). apply round_le; auto with typeclass_instances. apply Rmult_le_compat_r; lra. }
    pose proof (Bmult_correct 53 1024 prec53 emax1024 mode_NE (ieee_lit 53 1024 prec53 emax1024 4 (-1)) fn) as H4.
    change (round_mode mode_NE) with ZnearestE in H4. rewrite En in H4. fold r4 in H4. rewrite Rlt_bool_true in H4 by (rewrite Rabs_pos_eq; lra).
    destruct H4 as (V4 & W4 & _). rewrite F4, Fn in W4. cbn [andb] in W4.
    exists (Zfloor r4), (Zfloor (1 / 2 * IZR n)).
    assert (Z1 : (0 <= Zfloor r4)%Z) by (apply Zfloor_lub; lra).
    assert (Z2 : (Zfloor r4 <= Zfloor (1 / 2 * IZR n))%Z) by (apply Zfloor_le; lra).
    assert (Z3 : (Zfloor (1 / 2 * IZR n) <= n)%Z).
    { apply le_IZR. pose proof (Zfloor_lb (1 / 2 * IZR n)). lra. }
    unfold floor32, floor64, downsize_threshold, downsize_factor.
    change (@f_floor (F64 lm)) with (@ieee_floor 53 1024). change (@n_mul (F64 lm)) with mult64.
    change (@n_lit (F64 lm)) with (ieee_lit 53 1024 prec53 emax1024). change (@n_of_Z (F64 lm) n) with fn.
    rewrite !floor64_finite by assumption. rewrite V4, V5. rewrite !in32, in64 by lia.
    split; [reflexivity|]. split; [reflexivity|]. split; [reflexivity|]. lia.
  - unfold nint64, nearest_pos, resize_factor. change (@f_floor (F64 lm)) with (@ieee_floor 53 1024). change (@n_mul (F64 lm)) with mult64.
    change (@n_add (F64 lm)) with plus64. change (@n_sub (F64 lm)) with minus64. change (@n_lt (F64 lm)) with (@Bltb 53 1024).
    change (@n_lit (F64 lm)) with (ieee_lit 53 1024 prec53 emax1024). change (@n_of_Z (F64 lm)) with (ieee_of_Z 53 1024 prec53 emax1024). fold fn.
    destruct (of_Z64 1) as (E1 & F1); [lia|]. destruct (of_Z64 0) as (E0 & F0); [lia|].
    destruct (mult_int (ieee_lit 53 1024 prec53 emax1024 2 0) fn (2 * n)) as (Em & Fm); try assumption; [rewrite B2', En, mult_IZR; ring|lia|].
    destruct (plus_int (mult64 (ieee_lit 53 1024 prec53 emax1024 2 0) fn) (ieee_of_Z 53 1024 prec53 emax1024 1) (2 * n + 1)) as (Ep & Fp); try assumption; [rewrite Em, E1, plus_IZR; ring|lia|].
    set (x := plus64 _ _) in *. rewrite Bltb_correct by assumption. rewrite Rlt_bool_false.
    2:{ rewrite Ep, E0. apply IZR_le. lia. }
    rewrite floor64_finite by exact Fp. rewrite Ep, Zfloor_IZR.
    destruct (of_Z64 (2 * n + 1)) as (Ek & Fk); [lia|].
    destruct (minus_zero x (ieee_of_Z 53 1024 prec53 emax1024 (2 * n + 1)) Fp Fk ltac:(congruence)) as (Es & Fs).
    rewrite Bltb_correct by assumption. rewrite Rlt_bool_true by (rewrite Es, B5; lra). cbn [bind]. rewrite in64 by lia. reflexivity.
Qed.
