(** The floating point type [_REAL] of the library, as a record of operations.
    The library is a set of templates over [_REAL]; the model is written over
    an arbitrary instance.  Simplification: [static_cast<_REAL>] between
    [double] and [_REAL] is the identity, i.e. [_REAL = double]. *)
From Coq Require Import ZArith Bool.
From Verif Require Import Cxx.
Local Open Scope Z_scope.

Record NumOps := {
  num : Type;
  (** decimal literal: [n_lit m e] is the literal m * 10^e *)
  n_lit : Z -> Z -> num;
  (** conversion of an (unsigned) integer to floating point *)
  n_of_Z : Z -> num;
  n_add : num -> num -> num;
  n_sub : num -> num -> num;
  n_mul : num -> num -> num;
  n_div : num -> num -> num;
  n_opp : num -> num;
  n_sqrt : num -> num;
  n_fabs : num -> num;
  n_exp : num -> num;
  n_log : num -> num;
  n_pow : num -> num -> num;
  n_tanh : num -> num;
  n_tgamma : num -> num;
  (** comparisons, false as soon as one operand is NaN *)
  n_lt : num -> num -> bool;
  n_le : num -> num -> bool;
  n_eq : num -> num -> bool;
  (** [static_cast<size_t>(floor(x))]; [None] when the conversion is undefined
      behaviour (negative, too large, infinite or NaN) *)
  n_floor_size : num -> option Z
}.

Arguments n_lit {_}. Arguments n_of_Z {_}. Arguments n_add {_}.
Arguments n_sub {_}. Arguments n_mul {_}. Arguments n_div {_}.
Arguments n_opp {_}. Arguments n_sqrt {_}. Arguments n_fabs {_}.
Arguments n_exp {_}. Arguments n_log {_}. Arguments n_pow {_}.
Arguments n_tanh {_}. Arguments n_tgamma {_}. Arguments n_lt {_}.
Arguments n_le {_}. Arguments n_eq {_}. Arguments n_floor_size {_}.

Declare Scope num_scope.
Delimit Scope num_scope with N.
Bind Scope num_scope with num.
Infix "+" := n_add : num_scope.
Infix "-" := n_sub : num_scope.
Infix "*" := n_mul : num_scope.
Infix "/" := n_div : num_scope.
Notation "- x" := (n_opp x) : num_scope.
Infix "<?" := n_lt : num_scope.
Infix "<=?" := n_le : num_scope.
Infix "=?" := n_eq : num_scope.
(** [a > b] and [a >= b] of C++ *)
Notation "a >? b" := (n_lt b a) : num_scope.
Notation "a >=? b" := (n_le b a) : num_scope.

(** [static_cast<size_t>(floor(x))] in the outcome monad. *)
Definition floor_size {N : NumOps} (x : num N) : out Z :=
  match n_floor_size x with Some z => Ret z | None => UB end.

(** Literals used by the engines: the members zero, one, two, ... of
    src/multi_physics/QED/src/breit_wheeler_engine.hpp:144-147,
    quantum_sync_engine.hpp:250-256, schwinger_pair_engine.hpp:143-145. *)
Definition n_zero {N : NumOps} : num N := n_lit 0 0.
Definition n_one {N : NumOps} : num N := n_lit 1 0.
Definition n_two {N : NumOps} : num N := n_lit 2 0.
Definition n_three {N : NumOps} : num N := n_lit 3 0.
Definition n_five {N : NumOps} : num N := n_lit 5 0.
Definition n_ten {N : NumOps} : num N := n_lit 10 0.
