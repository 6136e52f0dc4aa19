(** Witnesses in binary32 and binary64: the rate of a weak magnetic field is not a
    number, whatever the mathematical library. *)
From Coq Require Import ZArith List Bool.
From Flocq Require Import Core BinarySingleNaN.
From Verif Require Import Cxx Num NumIEEE VecFun Units Schwinger.
Local Open Scope Z_scope.

Lemma mult_nan_r prec emax (Hp : Prec_gt_0 prec) (He : Prec_lt_emax prec emax) m x : @Bmult prec emax Hp He m x B754_nan = B754_nan.
Proof. now destruct x. Qed.
Lemma mult_nan_l prec emax (Hp : Prec_gt_0 prec) (He : Prec_lt_emax prec emax) m x : @Bmult prec emax Hp He m B754_nan x = B754_nan.
Proof. reflexivity. Qed.
Lemma div_nan_l prec emax (Hp : Prec_gt_0 prec) (He : Prec_lt_emax prec emax) m x : @Bdiv prec emax Hp He m B754_nan x = B754_nan.
Proof. reflexivity. Qed.

Lemma rate_nan prec emax (Hp : Prec_gt_0 prec) (He : Prec_lt_emax prec emax) (lm : Libm (binary_float prec emax))
    (U : Units (IEEE prec emax Hp He lm)) ee bb lambda :
  let N := IEEE prec emax Hp He lm in
  let ff := ((norm2 ee - (u_c U * u_c U) * norm2 bb) * (n_one / (n_two * u_schwinger U * u_schwinger U)))%N in
  let gg := (dot ee bb * (u_c U / u_schwinger U / u_schwinger U))%N in
  let inner := n_sqrt (ff * ff + gg * gg)%N in
  n_sqrt (inner + ff)%N = (B754_nan : num N) -> @n_eq N (n_sqrt (inner - ff)%N) n_zero = false ->
  sw_rate U ee bb lambda = (B754_nan : num N).
Proof.
  cbn zeta. intros H1 H2. unfold sw_rate. cbn zeta. rewrite H1, H2.
  assert (E : @n_eq (IEEE prec emax Hp He lm) B754_nan n_zero = false) by reflexivity.
  rewrite E. cbn [negb andb]. cbn [n_mul n_div IEEE]. rewrite !mult_nan_l, div_nan_l. apply mult_nan_r.
Qed.

(** normalised units, single precision, |B| = 1 *)
Lemma rate_nan_b32 (lm : Libm b32) lambda :
  sw_rate (units false) (V3 n_zero n_zero n_zero) (V3 n_one n_zero n_zero) lambda = (B754_nan : num (B32 lm)).
Proof.
  apply (rate_nan 24 128 prec24 emax128 lm).
  - apply (B2SF_inj 24 128). vm_compute. reflexivity.
  - vm_compute. reflexivity.
Qed.

(** SI units, double precision, |B| = 1e-75 T *)
Lemma rate_nan_b64 (lm : Libm b64) lambda :
  sw_rate (units true) (V3 n_zero n_zero n_zero) (V3 (n_lit 1 (-75)) n_zero n_zero) lambda = (B754_nan : num (B64 lm)).
Proof.
  apply (rate_nan 53 1024 prec53 emax1024 lm).
  - apply (B2SF_inj 53 1024). vm_compute. reflexivity.
  - vm_compute. reflexivity.
Qed.
