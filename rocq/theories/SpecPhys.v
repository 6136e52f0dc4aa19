(** Physical vocabulary used by the property statements: Euclidean vectors,
    constants, the quantum parameter chi, rotations and boosts.  Nothing here
    refers to the model of the code. *)
From Coq Require Import ZArith Reals.
Local Open Scope R_scope.

(** ** vectors *)
Record R3 := mk3 { x3 : R; y3 : R; z3 : R }.
Definition dot3 (a b : R3) : R := x3 a * x3 b + y3 a * y3 b + z3 a * z3 b.
Definition cross3 (a b : R3) : R3 :=
  mk3 (y3 a * z3 b - z3 a * y3 b) (z3 a * x3 b - x3 a * z3 b) (x3 a * y3 b - y3 a * x3 b).
Definition add3 (a b : R3) : R3 := mk3 (x3 a + x3 b) (y3 a + y3 b) (z3 a + z3 b).
Definition sub3 (a b : R3) : R3 := mk3 (x3 a - x3 b) (y3 a - y3 b) (z3 a - z3 b).
Definition scale3 (k : R) (a : R3) : R3 := mk3 (k * x3 a) (k * y3 a) (k * z3 a).
Definition zero3 : R3 := mk3 0 0 0.
Definition norm3 (a : R3) : R := sqrt (dot3 a a).
Definition unit3 (a : R3) : R3 := scale3 (/ norm3 a) a.

(** ** constants (S.I. values of the library) *)
Definition ph_pi : R := 3141592653589793 / 10 ^ 15.
Definition ph_m : R := 910938356 / 10 ^ 39.
Definition ph_e : R := 16021766208 / 10 ^ 29.
Definition ph_c : R := 299792458.
Definition ph_hbar : R := 1054571800 / 10 ^ 43.
Definition ph_eps0 : R := 8854187817 / 10 ^ 21.
Definition ph_alpha : R := 72973525664 / 10 ^ 13.
(** Schwinger field m^2 c^3 / (e hbar), classical electron radius, its light time *)
Definition ph_Es : R := ph_m * ph_m * (ph_c * ph_c * ph_c) / (ph_e * ph_hbar).
Definition ph_re : R := ph_e * ph_e / (4 * ph_pi * ph_eps0 * ph_m * ph_c * ph_c).
Definition ph_tau : R := ph_re / ph_c.

(** speed of light, electron mass and Schwinger field in the two unit systems:
    [true] S.I., [false] normalised (fields in units of m_e c omega / e, i.e.
    2 pi m_e c^2 / (e lambda), so that the Schwinger field is [nu_Es false]
    times lambda) *)
Definition nu_c (si : bool) : R := if si then ph_c else 1.
Definition nu_m (si : bool) : R := if si then ph_m else 1.
Definition nu_Es (si : bool) : R := if si then ph_Es else ph_m * ph_c / (ph_hbar * 2 * ph_pi).
(** lambda is meaningful in normalised units only *)
Definition nu_lambda (si : bool) (lambda : R) : R := if si then 1 else lambda.

(** ** chi: modulus of F^{mu nu} p_nu over (m c E_s), for a particle of momentum
    [p] and energy [p0 * c] in the fields E, B *)
Definition force2 (c : R) (p0 : R) (p E B : R3) : R :=
  let f := add3 (scale3 p0 E) (scale3 c (cross3 p B)) in
  dot3 f f - dot3 p E * dot3 p E.
Definition chi_cov (m c Es : R) (p0 : R) (p E B : R3) : R := sqrt (force2 c p0 p E B) / (m * c * Es).

Definition p0_photon (p : R3) : R := norm3 p.
Definition p0_lepton (m c : R) (p : R3) : R := sqrt (dot3 p p + m * c * (m * c)).
Definition lorentz (m c : R) (p : R3) : R := p0_lepton m c p / (m * c).

(** ** rotations: right-handed orthonormal frames acting by projection *)
Record rotation := { rot1 : R3; rot2 : R3;
  rot_n1 : dot3 rot1 rot1 = 1; rot_n2 : dot3 rot2 rot2 = 1; rot_12 : dot3 rot1 rot2 = 0 }.
Definition rotate (M : rotation) (a : R3) : R3 :=
  mk3 (dot3 (rot1 M) a) (dot3 (rot2 M) a) (dot3 (cross3 (rot1 M) (rot2 M)) a).

(** ** Lorentz boost of velocity [b*c] along x *)
Definition boost_gamma (b : R) : R := / sqrt (1 - b * b).
Definition boost_p (b p0 : R) (p : R3) : R3 :=
  mk3 (boost_gamma b * (x3 p - b * p0)) (y3 p) (z3 p).
Definition boost_E (c b : R) (E B : R3) : R3 :=
  mk3 (x3 E) (boost_gamma b * (y3 E - b * c * z3 B)) (boost_gamma b * (z3 E + b * c * y3 B)).
Definition boost_B (c b : R) (E B : R3) : R3 :=
  mk3 (x3 B) (boost_gamma b * (y3 B + b / c * z3 E)) (boost_gamma b * (z3 B - b / c * y3 E)).

(** reference electric field of the normalised units, m_e c omega / e with
    omega = 2 pi c / lambda *)
Definition E_ref (lambda : R) : R := 2 * ph_pi * ph_m * ph_c * ph_c / (ph_e * lambda).

(** ** rates.  Pair production by a photon of energy e (in units of m c^2 when
    normalised) is [nu_pair * lambda * T(chi) / (chi * e)] per unit of time, photon
    emission by a lepton is [nu_qs * lambda * K(chi) / e] (e: energy c |p|). *)
Definition ph_W : R := ph_alpha * ph_m * ph_c * ph_c / ph_hbar.
Definition nu_pair (si : bool) : R :=
  if si then ph_W * ph_m * ph_c * ph_c else ph_W / (2 * ph_pi * ph_c).
Definition nu_qs (si : bool) : R :=
  if si then ph_alpha * ph_alpha / ph_tau * ph_m * ph_c * ph_c
  else ph_alpha * ph_alpha / ph_tau / (2 * ph_pi * ph_c).
(** coefficients of Erber's approximation, and the two asymptotic forms of T *)
Definition erb_a : R := 16 / 100.
Definition erb_b : R := 4 / 3.
Definition T_small (chi : R) : R := ph_pi * erb_a / (2 * erb_b) * chi * chi * exp (- 2 * erb_b / chi).
Definition T_large (gamma13 chi : R) : R :=
  erb_a * chi * (gamma13 / 2) * Rpower (chi * 2 / erb_b) (2 / 3).
