(** The Fortran subset used by the particle-in-cell kernels.  This file models the
    language, not a file of /repo.  Simplifications: INTEGER(idp) values are
    unbounded integers (no overflow of 64 bit integers); allocation never fails. *)
From Coq Require Import ZArith List Bool.
From Verif Require Import Cxx Num.
Import ListNotations.
Local Open Scope Z_scope.

(** Element of an array declared with lower bound 1. *)
Definition get1 {A} (a : list A) (i : Z) : out A := zget a (i - 1).
Definition set1 {A} (a : list A) (i : Z) (x : A) : out (list A) := zset a (i - 1) x.

(** [DO i = lo, hi] *)
Fixpoint do_loop {S} (n : nat) (i : Z) (f : Z -> S -> out S) (s : S) : out S :=
  match n with
  | O => Ret s
  | Datatypes.S n' => do s' <- f i s; do_loop n' (i + 1) f s'
  end.

Definition do_range {S} (lo hi : Z) (f : Z -> S -> out S) (s : S) : out S :=
  do_loop (Z.to_nat (hi - lo + 1)) lo f s.

(** [DO i = hi, lo, -1] *)
Fixpoint do_down {S} (n : nat) (i : Z) (f : Z -> S -> out S) (s : S) : out S :=
  match n with
  | O => Ret s
  | Datatypes.S n' => do s' <- f i s; do_down n' (i - 1) f s'
  end.

Definition do_range_down {S} (hi lo : Z) (f : Z -> S -> out S) (s : S) : out S :=
  do_down (Z.to_nat (hi - lo + 1)) hi f s.

(** REAL(num) with the FLOOR intrinsic before the conversion to an integer kind;
    [None] for infinities and NaN. *)
Record FNum := { f_ops :> NumOps; f_floor : num f_ops -> option Z }.
Arguments f_floor {_}.

(** FLOOR(x) with the default integer kind (32 bit) *)
Definition floor32 {N : FNum} (x : num N) : out Z :=
  match f_floor x with
  | Some z => if (- 2 ^ 31 <=? z) && (z <? 2 ^ 31) then Ret z else UB
  | None => UB
  end.

(** FLOOR(x, idp) *)
Definition floor64 {N : FNum} (x : num N) : out Z :=
  match f_floor x with
  | Some z => if (- 2 ^ 63 <=? z) && (z <? 2 ^ 63) then Ret z else UB
  | None => UB
  end.

(** CEILING(x) with the default integer kind: negation is exact *)
Definition ceiling32 {N : FNum} (x : num N) : out Z :=
  do z <- floor32 (- x)%N; Ret (- z).

(** SUM(a): the standard leaves the order of the additions to the processor; here
    from left to right *)
Definition sum_array {N : FNum} (a : list (num N)) : num N := fold_left n_add a (n_of_Z 0).
