(** Specification vocabulary for the coefficients of difference formulas. *)
From Coq Require Import ZArith Reals List Bool.
From Verif Require Import Cxx Num NumRX Grid SpecYee.
Import ListNotations.
Local Open Scope R_scope.

(** the polynomial that is 1 at m and 0 at the other integers from first to last *)
Definition lagrange (first last m : Z) (x : R) : R :=
  fold_right Rmult 1 (map (fun j => (x - IZR j) / (IZR m - IZR j)) (filter (fun j => negb (j =? m)%Z) (zrange first last))).
(** a_0 + a_1 x + a_2 x^2 + ... *)
Definition poly (a : list R) (x : R) : R := fold_right (fun c s => c + x * s) 0 a.
(** the difference formulas on points that are h apart: staggered, around x between two points, and nodal, around a point x *)
Definition staggered (cs : list R) (h : R) (f : R -> R) (x : R) : R :=
  Sum (zlen cs) (fun i => weight cs i * (f (x + (IZR i - 1 / 2) * h) - f (x - (IZR i - 1 / 2) * h))) / h.
Definition nodal (cs : list R) (h : R) (f : R -> R) (x : R) : R :=
  Sum (zlen cs) (fun i => weight cs i * (f (x + IZR i * h) - f (x - IZR i * h))) / h.
(** exact on polynomials of degree at most n *)
Definition exact_to (n : nat) (D : (R -> R) -> R -> R) : Prop :=
  forall a x, (length a <= S n)%nat -> derivable_pt_lim (poly a) x (D (poly a) x).
