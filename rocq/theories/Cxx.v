(** Outcomes, machine integers and memory accesses of the C++ subset used by
    the QED library.  This file models the language, not a file of /repo. *)
From Coq Require Import ZArith List Bool.
Import ListNotations.
Local Open Scope Z_scope.

(** Outcome of running a C++ function.
    [UB]: undefined behaviour (out-of-range access, bad float->int conversion,
    use after free, ...). [Throw]: a C++ exception leaves the function.
    [OutOfFuel]: a loop did not finish within the fuel given to the model. *)
Inductive out (A : Type) : Type :=
| Ret (a : A)
| UB
| Throw
| OutOfFuel.
Arguments Ret {A} a.
Arguments UB {A}.
Arguments Throw {A}.
Arguments OutOfFuel {A}.

Definition bind {A B} (m : out A) (f : A -> out B) : out B :=
  match m with
  | Ret a => f a
  | UB => UB
  | Throw => Throw
  | OutOfFuel => OutOfFuel
  end.

Notation "'do' x <- m ; k" := (bind m (fun x => k))
  (at level 200, x name, m at level 100, k at level 200, right associativity).
Notation "'do' ' p <- m ; k" := (bind m (fun p => k))
  (at level 200, p strict pattern, m at level 100, k at level 200, right associativity).

(** [std::size_t] on the supported 64 bit platforms: arithmetic modulo 2^64. *)
Definition wrap64 (z : Z) : Z := z mod 2 ^ 64.

(** Implicit conversion [size_t -> int] (two's complement, modulo 2^32). *)
Definition to_int32 (z : Z) : Z :=
  let m := z mod 2 ^ 32 in if m <? 2 ^ 31 then m else m - 2 ^ 32.

(** Length of a list as an unbounded integer. *)
Definition zlen {A} (l : list A) : Z := Z.of_nat (length l).

(** Access through a raw pointer to the first element: in range or [UB]. *)
Definition zget {A} (l : list A) (i : Z) : out A :=
  if (0 <=? i) && (i <? zlen l) then
    match nth_error l (Z.to_nat i) with Some a => Ret a | None => UB end
  else UB.

(** Write through a raw pointer to the first element: in range or [UB]. *)
Fixpoint lset {A} (l : list A) (n : nat) (a : A) : list A :=
  match l, n with
  | [], _ => []
  | _ :: t, O => a :: t
  | h :: t, S m => h :: lset t m a
  end.

Definition zset {A} (l : list A) (i : Z) (a : A) : out (list A) :=
  if (0 <=? i) && (i <? zlen l) then Ret (lset l (Z.to_nat i) a) else UB.

(** Sequencing of the elements of a list ([std::transform] with an effectful
    function, or a for loop filling an array). *)
Fixpoint mapM {A B} (f : A -> out B) (l : list A) : out (list B) :=
  match l with
  | [] => Ret []
  | a :: t => do b <- f a; do bs <- mapM f t; Ret (b :: bs)
  end.

(** [0; 1; ...; n-1] as integers. *)
Definition zseq (n : nat) : list Z := map Z.of_nat (seq 0 n).
