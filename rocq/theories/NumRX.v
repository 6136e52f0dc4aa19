(** Instance of [NumOps]: real numbers extended with infinities and NaN, exact
    arithmetic.  Models the mathematical meaning of the floating point code,
    including the special values it runs into, but not rounding.
    Simplification: there is a single zero, which behaves like +0 as a divisor;
    [pow] of a negative base is NaN. *)
From Coq Require Import ZArith Reals Bool.
From Verif Require Import Cxx Num.
Local Open Scope R_scope.

Inductive rx : Type := NaN | PInf | NInf | Fin (r : R).

Definition Rltb (a b : R) : bool := if Rlt_dec a b then true else false.
Definition Rleb (a b : R) : bool := if Rle_dec a b then true else false.
Definition Reqb (a b : R) : bool := if Req_EM_T a b then true else false.

Definition x_add (a b : rx) : rx :=
  match a, b with
  | Fin x, Fin y => Fin (x + y)
  | NaN, _ | _, NaN => NaN
  | PInf, NInf | NInf, PInf => NaN
  | PInf, _ | _, PInf => PInf
  | NInf, _ | _, NInf => NInf
  end.

Definition x_opp (a : rx) : rx :=
  match a with NaN => NaN | PInf => NInf | NInf => PInf | Fin x => Fin (- x) end.

Definition x_sub (a b : rx) : rx :=
  match a, b with
  | Fin x, Fin y => Fin (x - y)
  | _, _ => x_add a (x_opp b)
  end.

(** infinity of the sign of [x], NaN for zero *)
Definition sgn_inf (x : R) : rx :=
  if Rlt_dec 0 x then PInf else if Rlt_dec x 0 then NInf else NaN.

Definition x_mul (a b : rx) : rx :=
  match a, b with
  | Fin x, Fin y => Fin (x * y)
  | NaN, _ | _, NaN => NaN
  | PInf, PInf | NInf, NInf => PInf
  | PInf, NInf | NInf, PInf => NInf
  | PInf, Fin x | Fin x, PInf => sgn_inf x
  | NInf, Fin x | Fin x, NInf => x_opp (sgn_inf x)
  end.

Definition x_div (a b : rx) : rx :=
  match a, b with
  | Fin x, Fin y => if Req_EM_T y 0 then sgn_inf x else Fin (x / y)
  | NaN, _ | _, NaN => NaN
  | Fin _, PInf | Fin _, NInf => Fin 0
  | PInf, Fin y => if Rlt_dec y 0 then NInf else PInf
  | NInf, Fin y => if Rlt_dec y 0 then PInf else NInf
  | _, _ => NaN
  end.

Definition x_sqrt (a : rx) : rx :=
  match a with
  | Fin x => if Rlt_dec x 0 then NaN else Fin (sqrt x)
  | PInf => PInf
  | _ => NaN
  end.

Definition x_fabs (a : rx) : rx :=
  match a with NaN => NaN | PInf | NInf => PInf | Fin x => Fin (Rabs x) end.

Definition x_exp (a : rx) : rx :=
  match a with NaN => NaN | PInf => PInf | NInf => Fin 0 | Fin x => Fin (exp x) end.

Definition x_log (a : rx) : rx :=
  match a with
  | Fin x => if Rlt_dec x 0 then NaN
             else if Req_EM_T x 0 then NInf else Fin (ln x)
  | PInf => PInf
  | _ => NaN
  end.

Definition x_pow (a b : rx) : rx :=
  match a, b with
  | Fin x, Fin y =>
      if Rlt_dec x 0 then NaN
      else if Req_EM_T x 0 then
        (if Rlt_dec 0 y then Fin 0 else if Req_EM_T y 0 then Fin 1 else PInf)
      else Fin (Rpower x y)
  | PInf, Fin y =>
      if Rlt_dec 0 y then PInf else if Req_EM_T y 0 then Fin 1 else Fin 0
  | _, _ => NaN
  end.

Definition x_tanh (a : rx) : rx :=
  match a with
  | NaN => NaN | PInf => Fin 1 | NInf => Fin (-1) | Fin x => Fin (tanh x)
  end.

Definition x_lt (a b : rx) : bool :=
  match a, b with
  | Fin x, Fin y => Rltb x y
  | NaN, _ | _, NaN => false
  | NInf, NInf | PInf, _ | _, NInf => false
  | _, _ => true
  end.

Definition x_le (a b : rx) : bool :=
  match a, b with
  | Fin x, Fin y => Rleb x y
  | NaN, _ | _, NaN => false
  | PInf, PInf | NInf, _ | _, PInf => true
  | _, _ => false
  end.

Definition x_eq (a b : rx) : bool :=
  match a, b with
  | Fin x, Fin y => Reqb x y
  | PInf, PInf | NInf, NInf => true
  | _, _ => false
  end.

Definition x_lit (m e : Z) : rx :=
  match e with
  | Z0 => Fin (IZR m)
  | Zpos _ => Fin (IZR (m * 10 ^ e))
  | Zneg p => Fin (IZR m / IZR (10 ^ Zpos p))
  end.

Definition x_floor_size (a : rx) : option Z :=
  match a with
  | Fin x => let z := Int_part x in
             if ((0 <=? z) && (z <? 2 ^ 64))%Z then Some z else None
  | _ => None
  end.

(** [tg] is the mathematical gamma function, left as a parameter. *)
Definition RX (tg : R -> R) : NumOps := {|
  num := rx;
  n_lit := x_lit;
  n_of_Z := fun z => Fin (IZR z);
  n_add := x_add; n_sub := x_sub; n_mul := x_mul; n_div := x_div;
  n_opp := x_opp; n_sqrt := x_sqrt; n_fabs := x_fabs;
  n_exp := x_exp; n_log := x_log; n_pow := x_pow; n_tanh := x_tanh;
  n_tgamma := fun a => match a with Fin x => Fin (tg x) | _ => NaN end;
  n_lt := x_lt; n_le := x_le; n_eq := x_eq;
  n_floor_size := x_floor_size
|}.
