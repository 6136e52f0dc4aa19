(** Specification vocabulary for the field solver: finite differences, curl and divergence
    of fields of real numbers on the grid, independent of the model. *)
From Coq Require Import ZArith Reals List Bool.
From Verif Require Import Cxx Num NumRX Grid.
Import ListNotations.
Local Open Scope R_scope.

Inductive axis := AX | AY | AZ.

(** the point n cells further along an axis *)
Definition shift (d : axis) (n : Z) (p : idx) : idx :=
  let '(j, k, l) := p in
  match d with AX => (j + n, k, l)%Z | AY => (j, k + n, l)%Z | AZ => (j, k, l + n)%Z end.

(** f 1 + ... + f n *)
Definition Sum (n : Z) (f : Z -> R) : R := fold_right Rplus 0 (map f (zrange 1 n)).

(** A family of difference formulas: on axis d, [half_order d] coefficients c_1, c_2, ...; [ist] is
    1 for staggered and 0 for nodal fields. *)
Record stencil := { coef : axis -> Z -> R; half_order : axis -> Z; ist : Z }.

(** sum over i of c_i (f(p + i) - f(p + ist - i)) *)
Definition fwd (s : stencil) (d : axis) (f : idx -> R) (p : idx) : R :=
  Sum (half_order s d) (fun i => coef s d i * (f (shift d i p) - f (shift d (ist s - i) p))).
(** sum over i of c_i (f(p + i - ist) - f(p - i)) *)
Definition bwd (s : stencil) (d : axis) (f : idx -> R) (p : idx) : R :=
  Sum (half_order s d) (fun i => coef s d i * (f (shift d (i - ist s) p) - f (shift d (- i) p))).

Record rfield := RField { comp_x : idx -> R; comp_y : idx -> R; comp_z : idx -> R }.

(** curl and divergence made of the differences D *)
Definition curl (D : axis -> (idx -> R) -> idx -> R) (f : rfield) : rfield :=
  RField (fun p => D AY (comp_z f) p - D AZ (comp_y f) p)
         (fun p => D AZ (comp_x f) p - D AX (comp_z f) p)
         (fun p => D AX (comp_y f) p - D AY (comp_x f) p).
Definition div (D : axis -> (idx -> R) -> idx -> R) (f : rfield) (p : idx) : R :=
  D AX (comp_x f) p + D AY (comp_y f) p + D AZ (comp_z f) p.
Definition grad (D : axis -> (idx -> R) -> idx -> R) (f : idx -> R) : rfield :=
  RField (D AX f) (D AY f) (D AZ f).

(** the second order staggered formulas for cells of size (hx, hy, hz): (f(p + 1) - f(p)) / h *)
Definition yee (hx hy hz : R) : stencil :=
  {| coef := fun d _ => match d with AX => / hx | AY => / hy | AZ => / hz end;
     half_order := fun _ => 1%Z; ist := 1%Z |}.

(** all points p + m with lo <= m <= hi on every axis are in the box [a, b] *)
Definition reaches (lo hi : axis -> Z) (a b p : idx) : Prop :=
  forall d m, (lo d <= m <= hi d)%Z -> in_box a b (shift d m p) = true.

(** ** how the arrays of the code hold real fields *)
Section Represent.
Context {tg : R -> R}.
(** an array with bounds lo:hi whose elements are the real numbers r *)
Definition is_grid (g : grid (num (RX tg))) (lo hi : idx) (r : idx -> R) : Prop :=
  glo g = lo /\ ghi g = hi /\ forall p, in_box lo hi p = true -> gat g p = Fin (r p).
End Represent.

(** coefficient number i of a list *)
Definition weight (c : list R) (i : Z) : R := nth (Z.to_nat (i - 1)) c 0.
(** differences with the coefficients cx, cy, cz on cells of size (hx, hy, hz) *)
Definition any_order (nodal : bool) (hx hy hz : R) (cx cy cz : list R) : stencil :=
  {| coef := fun d i => match d with AX => weight cx i / hx | AY => weight cy i / hy | AZ => weight cz i / hz end;
     half_order := fun d => zlen (match d with AX => cx | AY => cy | AZ => cz end);
     ist := if nodal then 0%Z else 1%Z |}.
