(** Specification vocabulary for the solver that is called from outside (solve_maxwell_fdtd_pxr). *)
From Coq Require Import ZArith Reals List Bool.
From Verif Require Import Cxx Num NumRX Fortran Grid Pushers Yee SpecYee SpecSolver.
Import ListNotations.
Local Open Scope Z_scope.

(** time step, cell sizes and coefficients as init_params_external leaves them: the coefficients are multiplied by dt/dx, dt/dy, dt/dz *)
Definition library_steps {tg : R -> R} (q : rsteps) : Steps (N := RX tg) :=
  @Build_Steps (RX tg) (Fin (rdt q)) (Fin (rdx q)) (Fin (rdy q)) (Fin (rdz q))
    (map Fin (map (fun c => rdt q / rdx q * c)%R (rcx q))) (map Fin (map (fun c => rdt q / rdy q * c)%R (rcy q)))
    (map Fin (map (fun c => rdt q / rdz q * c)%R (rcz q))).
(** the staggered difference formulas with these coefficients *)
Definition library_formulas (q : rsteps) : stencil := any_order false (rdx q) (rdy q) (rdz q) (rcx q) (rcy q) (rcz q).
Definition library_set (S : Sizes) (q : rsteps) : Prop :=
  zlen (rcx q) = norderx S ÷ 2 /\ zlen (rcy q) = nordery S ÷ 2 /\ zlen (rcz q) = norderz S ÷ 2 /\
  2 <= norderx S /\ 2 <= nordery S /\ 2 <= norderz S /\ 0 <= nxguard S /\ 0 <= nyguard S /\ 0 <= nzguard S.
(** the points that have as many neighbours on each side as there are coefficients *)
Definition lib_lo (S : Sizes) : idx := (norderx S ÷ 2 - nxguard S, nordery S ÷ 2 - nyguard S, norderz S ÷ 2 - nzguard S).
Definition lib_hi (S : Sizes) : idx :=
  (nx S + nxguard S - norderx S ÷ 2, ny S + nyguard S - nordery S ÷ 2, nz S + nzguard S - norderz S ÷ 2).
(** the divergence at p uses such points only *)
Definition lib_inner (S : Sizes) (p : idx) : Prop :=
  forall d m, Z.abs m <= match d with AX => norderx S | AY => nordery S | AZ => norderz S end ÷ 2 -> in_box (lib_lo S) (lib_hi S) (shift d m p) = true.

(** arrays with bounds L:H that hold the field f *)
Definition holds_field {tg : R -> R} (F : field (num (RX tg))) (L H : idx) (f : rfield) : Prop :=
  is_grid (fx F) L H (comp_x f) /\ is_grid (fy F) L H (comp_y f) /\ is_grid (fz F) L H (comp_z f).
