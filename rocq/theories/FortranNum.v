(** Instances of [FNum]: exact arithmetic on the extended reals and IEEE binary64
    (REAL(num) is double precision, src/modules/modules.F90: picsar_precision).
    The Fortran kernels use no gamma function, so that of [RX] is arbitrary. *)
From Coq Require Import ZArith Reals Bool.
From Flocq Require Import Core BinarySingleNaN.
From Verif Require Import Cxx Num NumRX NumIEEE Fortran.

Definition x_floor (a : rx) : option Z :=
  match a with Fin x => Some (Int_part x) | _ => None end.

(** Real numbers extended with infinities and NaN, exact arithmetic. *)
Definition FRX : FNum := {| f_ops := RX (fun x => x); f_floor := x_floor |}.

Definition ieee_floor {prec emax : Z} (x : binary_float prec emax) : option Z :=
  match x with
  | B754_zero _ => Some 0%Z
  | B754_finite s m e _ =>
      let z := cond_Zopp s (Zpos m) in
      Some (if (0 <=? e)%Z then z * 2 ^ e else z / 2 ^ (- e))%Z
  | _ => None
  end.

(** IEEE-754 binary64, rounding to nearest even. *)
Definition F64 (lm : Libm b64) : FNum := {| f_ops := B64 lm; f_floor := @ieee_floor 53 1024 |}.
