(** Vocabulary of the statements about the particle pushers. *)
From Coq Require Import ZArith Reals List.
From Verif Require Import Cxx Num NumRX SpecPhys Pushers.
Import ListNotations.
Local Open Scope R_scope.

(** The arrays are pushed without error, and particle i ends as if it had been pushed
    alone in its own fields. *)
Definition particlewise {A B} (push : Z -> list A -> list B -> out (list A)) : Prop :=
  forall ps fs, length ps = length fs ->
  exists ps', push (Z.of_nat (length ps)) ps fs = Ret ps' /\ length ps' = length ps /\
    forall i p f, nth_error ps i = Some p -> nth_error fs i = Some f ->
    exists p', push 1%Z [p] [f] = Ret [p'] /\ nth_error ps' i = Some p'.

Section Exact.
Variable tg : R -> R.

(** A particle of momentum u (per unit mass) and stored inverse Lorentz factor g; fields E, B;
    a position; the physical constants. *)
Definition Part (ug : R3 * R) : mom (RX tg) :=
  let '(u, g) := ug in @Mom (RX tg) (Fin (x3 u)) (Fin (y3 u)) (Fin (z3 u)) (Fin g).
Definition Field (eb : R3 * R3) : fld (RX tg) :=
  let '(E, B) := eb in @Fld (RX tg) (Fin (x3 E)) (Fin (y3 E)) (Fin (z3 E)) (Fin (x3 B)) (Fin (y3 B)) (Fin (z3 B)).
Definition Place (x : R3) : pos3 (RX tg) := @Pos (RX tg) (Fin (x3 x)) (Fin (y3 x)) (Fin (z3 x)).
Definition Constants (c mu e p : R) : Consts (RX tg) := @mkConsts (RX tg) (Fin c) (Fin mu) (Fin e) (Fin p).

(** Pushing any arrays of particles in any fields succeeds with finite results, and S relates
    the old state, the fields and the new state of each particle. *)
Definition every_particle (push : Z -> list (mom (RX tg)) -> list (fld (RX tg)) -> out (list (mom (RX tg))))
    (S : R3 -> R -> R3 -> R3 -> R3 -> R -> Prop) : Prop :=
  forall parts fields, length parts = length fields ->
  exists parts', push (Z.of_nat (length parts)) (map Part parts) (map Field fields) = Ret (map Part parts') /\
    length parts' = length parts /\
    forall i u g E B u' g', nth_error parts i = Some (u, g) -> nth_error fields i = Some (E, B) ->
      nth_error parts' i = Some (u', g') -> S u g E B u' g'.
End Exact.

(** Inverse of the Lorentz factor of a particle of momentum u *)
Definition inv_gamma (c : R) (u : R3) : R := 1 / sqrt (1 + dot3 u u / (c * c)).

(** The Boris scheme: half a kick by E, a rotation about B given implicitly by
    up - um = (um + up) x (q dt B / (2 m gamma)), half a kick by E.  k = q dt / (2 m). *)
Definition boris_step (c k : R) (u E B u' : R3) : Prop :=
  exists um up, um = add3 u (scale3 k E) /\
    sub3 up um = cross3 (add3 um up) (scale3 (k * inv_gamma c um) B) /\
    u' = add3 up (scale3 k E).

(** The Vay scheme: u' - u = (q dt / m) (E + (v + v') / 2 x B) with v = g u, v' = g' u'
    and g' the inverse Lorentz factor of u'.  h = q dt / m. *)
Definition vay_step (c h : R) (u : R3) (g : R) (E B u' : R3) (g' : R) : Prop :=
  sub3 u' u = scale3 h (add3 E (cross3 (scale3 (1 / 2) (add3 (scale3 g u) (scale3 g' u'))) B)) /\
  g' = inv_gamma c u'.

(** The radiation reaction schemes, as equations for the new momentum.  uL is the momentum after the
    Boris push alone, h the mean of u and uL, g its inverse Lorentz factor, w = 1/c^2. *)
Definition middle (u uL : R3) : R3 := scale3 (1 / 2) (add3 u uL).

(** Sokolov (2009): a = (uL - u)/dt, t0i = 6 pi m c / (mu0 q^2),
    dv = (a - w g^2 (h.a) h) / (t0i + w g (h.a)),
    u' = uL + (q dt / m) dv x B - w (dv.a) dt h / g *)
Definition S09_dv (c dt t0i : R) (u uL : R3) : R3 :=
  let h := middle u uL in let g := inv_gamma c h in let a := scale3 (1 / dt) (sub3 uL u) in let w := 1 / (c * c) in
  scale3 (1 / (t0i + w * g * dot3 h a)) (sub3 a (scale3 (w * (g * g) * dot3 h a) h)).
Definition S09_step (c q m dt t0i : R) (u uL B u' : R3) : Prop :=
  let h := middle u uL in let g := inv_gamma c h in let a := scale3 (1 / dt) (sub3 uL u) in let w := 1 / (c * c) in
  let dv := S09_dv c dt t0i u uL in
  u' = add3 uL (sub3 (scale3 (q * dt / m) (cross3 dv B)) (scale3 (w / g * dot3 dv a * dt) h)).

(** Bulanov (2008): a friction along the mean momentum,
    u' = uL - 2 q^4 dt / (12 pi eps0 m^3 c^5 g) |Et + g h x B|^2 h, Et the part of E orthogonal to h *)
Definition B08_friction (c e p q m dt : R) (E B h : R3) : R :=
  let g := inv_gamma c h in
  let Et := sub3 E (scale3 (dot3 E h / dot3 h h) h) in
  let f := add3 Et (scale3 g (cross3 h B)) in
  2 * (q * q * q * q) * dt / (12 * p * e * (m * m * m) * (c * c * c * c * c) * g) * dot3 f f.

(** Landau-Lifshitz: u' = uL + q^3 dt / (6 pi eps0 m^2 c^3) F, with dE, dB the time derivatives of
    the fields and
    F = (dE + g h x dB) / g
      + (q/m) (E x B - g B x (h x B) + w g (E.h) E - w (|E + g h x B|^2 - w g^2 (E.h)^2) h / g) *)
Definition LL_force (c q m dt : R) (E0 B0 E B h : R3) : R3 :=
  let g := inv_gamma c h in let w := 1 / (c * c) in
  let dE := scale3 (1 / dt) (sub3 E E0) in let dB := scale3 (1 / dt) (sub3 B B0) in
  let f := add3 E (scale3 g (cross3 h B)) in
  add3 (scale3 (1 / g) (add3 dE (scale3 g (cross3 h dB))))
    (scale3 (q / m)
      (sub3 (add3 (sub3 (cross3 E B) (scale3 g (cross3 B (cross3 h B)))) (scale3 (w * g * dot3 E h) E))
            (scale3 (w / g * (dot3 f f - w * (g * g) * (dot3 E h * dot3 E h))) h))).
