(** Instances of [NumOps]: IEEE-754 binary64 and binary32 (Flocq), rounding to
    nearest even.  The transcendental functions of the C library are parameters. *)
From Coq Require Import ZArith Bool.
From Flocq Require Import Core BinarySingleNaN.
From Verif Require Import Cxx Num.
Local Open Scope Z_scope.

Record Libm (T : Type) := {
  lm_exp : T -> T; lm_log : T -> T; lm_pow : T -> T -> T;
  lm_tanh : T -> T; lm_tgamma : T -> T }.
Arguments lm_exp {_}. Arguments lm_log {_}. Arguments lm_pow {_}.
Arguments lm_tanh {_}. Arguments lm_tgamma {_}.

Section IEEE.
Variables (prec emax : Z).
Context (Hp : Prec_gt_0 prec) (He : Prec_lt_emax prec emax).
Let bf := binary_float prec emax.

Definition ieee_of_Z (z : Z) : bf := binary_normalize prec emax Hp He mode_NE z 0 false.

(** Correctly rounded decimal literal m * 10^e: quotient with 200 guard bits and
    a sticky bit for negative exponents. *)
Definition ieee_lit (m e : Z) : bf :=
  if 0 <=? e then binary_normalize prec emax Hp He mode_NE (m * 10 ^ e) 0 false
  else
    let d := 10 ^ (- e) in
    let s := 200 + 4 * (- e) in
    let q := Z.abs m * 2 ^ s / d in
    let r := (Z.abs m * 2 ^ s) mod d in
    let v := 2 * q + (if r =? 0 then 0 else 1) in
    binary_normalize prec emax Hp He mode_NE (if m <? 0 then - v else v) (- s - 1) false.

Definition ieee_floor_size (x : bf) : option Z :=
  match x with
  | B754_zero _ => Some 0
  | B754_finite false m e _ =>
      let z := if 0 <=? e then Zpos m * 2 ^ e else Zpos m / 2 ^ (- e) in
      if z <? 2 ^ 64 then Some z else None
  | _ => None
  end.

Definition IEEE (lm : Libm bf) : NumOps := {|
  num := bf;
  n_lit := ieee_lit;
  n_of_Z := ieee_of_Z;
  n_add := Bplus mode_NE; n_sub := Bminus mode_NE;
  n_mul := Bmult mode_NE; n_div := Bdiv mode_NE;
  n_opp := Bopp; n_sqrt := Bsqrt mode_NE; n_fabs := Babs;
  n_exp := lm_exp lm; n_log := lm_log lm; n_pow := lm_pow lm;
  n_tanh := lm_tanh lm; n_tgamma := lm_tgamma lm;
  n_lt := Bltb; n_le := Bleb; n_eq := Beqb;
  n_floor_size := ieee_floor_size
|}.
End IEEE.

Lemma prec53 : Prec_gt_0 53. Proof. reflexivity. Qed.
Lemma emax1024 : Prec_lt_emax 53 1024. Proof. reflexivity. Qed.
Lemma prec24 : Prec_gt_0 24. Proof. reflexivity. Qed.
Lemma emax128 : Prec_lt_emax 24 128. Proof. reflexivity. Qed.

Definition b64 := binary_float 53 1024.
Definition b32 := binary_float 24 128.
Definition B64 (lm : Libm b64) : NumOps := IEEE 53 1024 prec53 emax1024 lm.
Definition B32 (lm : Libm b32) : NumOps := IEEE 24 128 prec24 emax128 lm.
