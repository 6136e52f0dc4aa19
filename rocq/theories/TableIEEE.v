(** Binary64 witness about the equispaced look-up in the first coordinate. *)
From Coq Require Import ZArith List.
From Flocq Require Import Core BinarySingleNaN.
From Verif Require Import Cxx Num NumIEEE LookupTables.
Import ListNotations.
Local Open Scope Z_scope.

Lemma first_eq_b64_oob (lm : Libm b64) :
  exists x0 x1 w : b64, exists z0 z1 : b64,
    @n_lt (B64 lm) x0 w = true /\ @n_lt (B64 lm) w x1 = true /\
    @interp2_linear_first_equispaced (B64 lm) (@mk2d (B64 lm) [x0; x1] [x0] [z0; z1] true) w 0 = UB.
Proof.
  exists (@n_lit (B64 lm) (-4) 0), (@n_lit (B64 lm) 1 0),
    (binary_normalize 53 1024 prec53 emax1024 mode_NE (2 ^ 53 - 1) (-53) false),
    (@n_lit (B64 lm) 1 0), (@n_lit (B64 lm) 2 0).
  repeat split; vm_compute; reflexivity.
Qed.
