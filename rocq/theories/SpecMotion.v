(** Vocabulary of the statements about particle motion: particles with real
    coordinates, units with c = 1 and momenta in units of mass. *)
From Coq Require Import Reals List Bool.
From Verif Require Import Num NumRX VecFun SpecPhys ChiProofs SpecSpecies.
Import ListNotations.
Local Open Scope R_scope.

Record rpart := mkR { r_x : R3; r_p : R3; r_e : R3; r_b : R3; r_opt : rx; r_flag : bool }.
(** the same particle in the arithmetic of the model *)
Definition FP (tg : R -> R) (r : rpart) : part (RX tg) :=
  @mkP (RX tg) (F3 tg (r_x r)) (F3 tg (r_p r)) (F3 tg (r_e r)) (F3 tg (r_b r)) (r_opt r) (r_flag r).

(** Lorentz factor of a momentum in units of m c *)
Definition gamma_of (p : R3) : R := sqrt (1 + dot3 p p).
(** the momentum step: beta = q dt / 2 m; the Lorentz force of E and of B on the
    mean of the old and the new momentum, with the Lorentz factor of the old one *)
Definition midpoint (beta : R) (p E B p' : R3) : Prop :=
  sub3 p' p = add3 (scale3 (2 * beta) E) (cross3 (add3 p' p) (scale3 (beta / gamma_of p) B)).
