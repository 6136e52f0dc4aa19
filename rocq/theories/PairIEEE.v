(** Pair generation in binary32: the interpolated last column of the cumulative
    table can round below 1/2. *)
From Coq Require Import ZArith List Lia.
From Flocq Require Import Core BinarySingleNaN.
From Verif Require Import Cxx Num NumIEEE LookupTables VecFun Units ChiFun BreitWheeler CxxLemmas.
Import ListNotations.

Definition f32 (m e : Z) : b32 := binary_normalize 24 128 prec24 emax128 mode_NE m e false.

(** log(0.01), log(500), log(0.5) rounded to binary32 *)
Definition log32_001 : b32 := f32 (-9657742) (-21).
Definition log32_500 : b32 := f32 13032978 (-21).
Definition log32_half : b32 := f32 (-11629080) (-24).
(** the largest binary32 below 1/2 *)
Definition below_half : b32 := f32 16777215 (-25).
Definition ninf32 : b32 := B754_infinity true.

Definition pair_table32 (lm : Libm b32) : lookup_2d (B32 lm) :=
  @lookup_2d_make (B32 lm) [log32_001; log32_500] [@n_lit (B32 lm) 0 0; @n_lit (B32 lm) 5 (-1)] [ninf32; log32_half; ninf32; log32_half].

(** a photon of momentum (2000,0,0) in the field B = (0,0,9000), lambda = 1e-6 *)
Definition photon32 (lm : Libm b32) : vec3 (B32 lm) := @V3 (B32 lm) (n_lit 2000 0) (n_lit 0 0) (n_lit 0 0).
Definition e32 (lm : Libm b32) : vec3 (B32 lm) := @V3 (B32 lm) (n_lit 0 0) (n_lit 0 0) (n_lit 0 0).
Definition b_32 (lm : Libm b32) : vec3 (B32 lm) := @V3 (B32 lm) (n_lit 0 0) (n_lit 0 0) (n_lit 9000 0).

Definition map_out {A B} (f : A -> B) (o : out A) : out B :=
  match o with Ret a => Ret (f a) | UB => UB | Throw => Throw | OutOfFuel => OutOfFuel end.
Lemma out_B2SF_inj prec emax (x y : out (binary_float prec emax)) : map_out (B2SF) x = map_out (B2SF) y -> x = y.
Proof. destruct x, y; cbn; intros H; try discriminate; auto. injection H as H. apply B2SF_inj in H. now rewrite H. Qed.

Lemma pair_search_b32_oob (lm : Libm b32) weight :
  (** log and exp are correctly rounded at these two arguments *)
  lm_log lm (f32 11448769 (-18)) = f32 15840810 (-22) -> lm_exp lm (f32 (-11629081) (-24)) = below_half ->
  bw_internal_generate (units false) (photon32 lm) (e32 lm) (b_32 lm) weight 1 (n_lit 1 (-6)) (pair_table32 lm)
    (bw_ctrl_default (B32 lm)) [below_half : num (B32 lm)] = UB.
Proof.
  intros Hlog Hexp. unfold bw_internal_generate. cbn zeta.
  replace (@chi_photon (B32 lm) (units false) (photon32 lm) (e32 lm) (b_32 lm) (n_lit 1 (-6))) with (f32 11448769 (-18) : num (B32 lm))
    by (symmetry; apply (B2SF_inj 24 128); vm_compute; reflexivity).
  replace (@clamp_chi (B32 lm) (bc_tpair_min (bw_ctrl_default (B32 lm))) (bc_tpair_max (bw_ctrl_default (B32 lm))) (f32 11448769 (-18)))
    with (f32 11448769 (-18) : num (B32 lm)) by (symmetry; apply (B2SF_inj 24 128); vm_compute; reflexivity).
  change (zseq (Z.to_nat 1)) with [0%Z]. cbn [mapM].
  change (zget [below_half : num (B32 lm)] 0) with (Ret (below_half : num (B32 lm))). cbn [bind].
  unfold bw_one_pair. cbn zeta.
  replace (@n_le (B32 lm) (n_one / n_two)%N below_half) with false by (vm_compute; reflexivity).
  replace (@n_log (B32 lm) (f32 11448769 (-18))) with (f32 15840810 (-22) : num (B32 lm)) by (symmetry; exact Hlog).
  assert (E1 : @interp2_linear_first_equispaced (B32 lm) (pair_table32 lm) (f32 15840810 (-22)) 1 = Ret (f32 (-11629081) (-24) : num (B32 lm))).
  { apply (out_B2SF_inj 24 128). vm_compute. reflexivity. }
  change (length (t2_y (pair_table32 lm))) with 2%nat. change (zlen (t2_y (pair_table32 lm))) with 2%Z.
  cbn [bw_search]. change (0 <? 2)%Z with true. cbn iota. change (2 / 2)%Z with 1%Z. change (0 + 1)%Z with 1%Z.
  rewrite E1. cbn [bind]. replace (@n_exp (B32 lm) (f32 (-11629081) (-24))) with (below_half : num (B32 lm)) by (symmetry; exact Hexp).
  replace (@n_lt (B32 lm) below_half below_half) with false by (vm_compute; reflexivity). cbn [negb].
  change (2 - (1 + 1))%Z with 0%Z. change (0 <? 0)%Z with false. cbn iota. cbn [bind].
  change (vget (t2_y (pair_table32 lm)) (1 + 1)%Z) with (@UB (num (B32 lm))). reflexivity.
Qed.
