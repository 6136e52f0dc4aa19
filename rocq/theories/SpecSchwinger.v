(** Vocabulary of the statements about pair production in vacuum. *)
From Coq Require Import Reals.
From Verif Require Import Spec SpecPhys.
Local Open Scope R_scope.

(** the two Lorentz invariants of the field *)
Definition inv1 (c : R) (E B : R3) : R := dot3 E E - c * c * dot3 B B.
Definition inv2 (c : R) (E B : R3) : R := c * dot3 E B.

(** [a], [b]: electric and magnetic field, in units of the critical field [Es], in
    the frame where both are parallel *)
Definition parallel_frame (c Es : R) (E B : R3) (a b : R) : Prop :=
  0 <= a /\ 0 <= b /\ (a * a - b * b) * (Es * Es) = inv1 c E B /\ a * b * (Es * Es) = Rabs (inv2 c E B).

(** a b coth(pi b / a) exp(-pi / a), with its limits at b = 0 and a = 0 *)
Definition pair_density (a b : R) : R :=
  if Req_EM_T a 0 then 0
  else if Req_EM_T b 0 then a * a * exp (- ph_pi / a) / ph_pi
  else a * b * exp (- ph_pi / a) / tanh (ph_pi * b / a).

(** pairs per unit volume and time: e^2 Es^2 / (4 pi^2 hbar^2 c) in SI units; in
    normalised units lengths are multiples of lambda / (2 pi) and times of
    lambda / (2 pi c) *)
Definition nu_sw (si : bool) : R :=
  let k := ph_e * ph_e * ph_Es * ph_Es / (4 * ph_pi * ph_pi * ph_hbar * ph_hbar * ph_c) in
  if si then k else k / (16 * ph_pi * ph_pi * ph_pi * ph_pi * ph_c).
