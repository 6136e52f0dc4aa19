(** Specification vocabulary for the Cole-Karkkainen-Cowan solver (Cowan et al., PRST-AB 16, 041303 (2013)):
    differences of averages of a field over the neighbours across the direction of the difference. *)
From Coq Require Import ZArith Reals List Bool.
From Verif Require Import Cxx Num NumRX Grid SpecYee.
Import ListNotations.
Local Open Scope R_scope.

Definition cell (hx hy hz : R) (d : axis) : R := match d with AX => hx | AY => hy | AZ => hz end.
(** the other two axes *)
Definition across (d : axis) : axis * axis := match d with AX => (AY, AZ) | AY => (AX, AZ) | AZ => (AX, AY) end.
(** sum of the two neighbours of p along e *)
Definition beside (e : axis) (f : idx -> R) (p : idx) : R := f (shift e 1 p) + f (shift e (-1) p).

(** a difference of neighbours *)
Definition step (h : R) (d : axis) (f : idx -> R) (p : idx) : R := (f (shift d 1 p) - f p) / h.

(** ** three dimensions *)
Section Three.
Variables hx hy hz : R.
Definition smallest : R := Rmin hx (Rmin hy hz).
Definition ratio (d : axis) : R := (smallest / cell hx hy hz d) ^ 2.
Definition pairs : R := ratio AY * ratio AZ + ratio AZ * ratio AX + ratio AX * ratio AY.
(** the weight of the neighbours along e and the one of the diagonal neighbours across d *)
Definition w_side (e : axis) : R := ratio e / 8 * (1 - ratio AX * ratio AY * ratio AZ / pairs).
Definition w_diag (d : axis) : R :=
  let r := ratio (fst (across d)) * ratio (snd (across d)) in r * (1 / 16 - r / (8 * pairs)).
(** the weighted average of f across d *)
Definition mean (d : axis) (f : idx -> R) (p : idx) : R :=
  let (e, e') := across d in
  (1 - 2 * w_side e - 2 * w_side e' - 4 * w_diag d) * f p
  + w_side e * beside e f p + w_side e' * beside e' f p + w_diag d * beside e (beside e' f) p.
(** the difference along d *)
Definition ckc (d : axis) (f : idx -> R) (p : idx) : R := step (cell hx hy hz d) d (mean d f) p.
(** the points it uses *)
Definition uses (d : axis) (p q : idx) : Prop :=
  exists a b c, q = shift d a (shift (fst (across d)) b (shift (snd (across d)) c p)) /\ (0 <= a <= 1 /\ -1 <= b <= 1 /\ -1 <= c <= 1)%Z.
End Three.

(** ** two dimensions, x and z: nothing depends on y *)
Section Two.
Variables hx hz : R.
Definition smallest2 : R := Rmin hx hz.
(** the weight of the neighbours along e *)
Definition w_side2 (e : axis) : R := (smallest2 / match e with AZ => hz | _ => hx end) ^ 2 / 8.
Definition mean2 (e : axis) (f : idx -> R) (p : idx) : R := (1 - 2 * w_side2 e) * f p + w_side2 e * beside e f p.
Definition ckc2 (d : axis) (f : idx -> R) (p : idx) : R :=
  match d with AX => step hx AX (mean2 AZ f) p | AY => 0 | AZ => step hz AZ (mean2 AX f) p end.
Definition uses2 (d : axis) (p q : idx) : Prop :=
  exists a b, q = shift d a (shift (match d with AX => AZ | _ => AX end) b p) /\ (0 <= a <= 1 /\ -1 <= b <= 1)%Z.
End Two.

(** the plane wave with phase advance kx, ky, kz per cell *)
Definition phase (kx ky kz phi : R) (p : idx) : R := let '(j, k, l) := p in kx * IZR j + ky * IZR k + kz * IZR l + phi.
Definition plane_wave (kx ky kz phi : R) (p : idx) : R := cos (phase kx ky kz phi p).

(** ** the wave operator of the scheme: the magnetic push uses [D], the electric push the differences of two neighbours *)
Definition wave_op (D : axis -> (idx -> R) -> idx -> R) (hx hy hz : R) (f : idx -> R) (p : idx) : R :=
  bwd (yee hx hy hz) AX (D AX f) p + bwd (yee hx hy hz) AY (D AY f) p + bwd (yee hx hy hz) AZ (D AZ f) p.
(** a run of the scheme in vacuum: B is advanced with the differences [D] of E, then E with the differences of B *)
Definition vacuum_run (D : axis -> (idx -> R) -> idx -> R) (hx hy hz c dt : R) (e b : nat -> rfield) : Prop :=
  forall n p,
    let r := curl D (e n) in let s := curl (bwd (yee hx hy hz)) (b (S n)) in
    comp_x (b (S n)) p = comp_x (b n) p - dt * comp_x r p /\
    comp_y (b (S n)) p = comp_y (b n) p - dt * comp_y r p /\
    comp_z (b (S n)) p = comp_z (b n) p - dt * comp_z r p /\
    comp_x (e (S n)) p = comp_x (e n) p + c ^ 2 * dt * comp_x s p /\
    comp_y (e (S n)) p = comp_y (e n) p + c ^ 2 * dt * comp_y s p /\
    comp_z (e (S n)) p = comp_z (e n) p + c ^ 2 * dt * comp_z s p.
