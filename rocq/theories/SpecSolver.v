(** Specification vocabulary for the field solver of the code: which arrays, time step and
    difference formulas a run of the solver works with, in terms of real numbers. *)
From Coq Require Import ZArith Reals List Bool.
From Verif Require Import Cxx Num NumRX Grid Pushers Yee SpecYee.
Import ListNotations.
Local Open Scope Z_scope.

(** the bounds of all field arrays: the cells and the guard cells around them *)
Definition alo (S : Sizes) : idx := (- nxguard S, - nyguard S, - nzguard S).
Definition ahi (S : Sizes) : idx := (nx S + nxguard S, ny S + nyguard S, nz S + nzguard S).

(** the three arrays of F hold the real field f *)
Definition is_field {tg : R -> R} (S : Sizes) (F : field (num (RX tg))) (f : rfield) : Prop :=
  is_grid (fx F) (alo S) (ahi S) (comp_x f) /\
  is_grid (fy F) (alo S) (ahi S) (comp_y f) /\
  is_grid (fz F) (alo S) (ahi S) (comp_z f).

(** time step, cell sizes, coefficients *)
Record rsteps := { rdt : R; rdx : R; rdy : R; rdz : R; rcx : list R; rcy : list R; rcz : list R }.
Definition steps_of {tg : R -> R} (q : rsteps) : Steps (N := RX tg) :=
  @Build_Steps (RX tg) (Fin (rdt q)) (Fin (rdx q)) (Fin (rdy q)) (Fin (rdz q))
    (map Fin (rcx q)) (map Fin (rcy q)) (map Fin (rcz q)).
(** speed of light and vacuum permeability *)
Definition consts_of {tg : R -> R} (c mu : R) : Consts (RX tg) :=
  mkConsts (Fin c : num (RX tg)) (Fin mu : num (RX tg)) (Fin (1 / (mu * (c * c))) : num (RX tg)) (Fin 3%R : num (RX tg)).

Definition second_order (S : Sizes) : bool := (norderx S =? 2) && (nordery S =? 2) && (norderz S =? 2).

(** the difference formulas the solver is set up for *)
Definition formulas (S : Sizes) (q : rsteps) : stencil :=
  if second_order S then yee (rdx q) (rdy q) (rdz q)
  else any_order (l_nodalgrid S) (rdx q) (rdy q) (rdz q) (rcx q) (rcy q) (rcz q).

(** the updated region, without the points of the guard region where the formulas are
    cut because the array ends *)
Definition full_lo (S : Sizes) : idx :=
  if second_order S then slo S else
  (Z.max (- nxs S) (norderx S ÷ 2 - nxguard S), Z.max (- nys S) (nordery S ÷ 2 - nyguard S),
   Z.max (- nzs S) (norderz S ÷ 2 - nzguard S)).
Definition full_hi (S : Sizes) : idx :=
  if second_order S then shi S else
  (Z.min (nx S + nxs S) (nx S + nxguard S - norderx S ÷ 2), Z.min (ny S + nys S) (ny S + nyguard S - nordery S ÷ 2),
   Z.min (nz S + nzs S) (nz S + nzguard S - norderz S ÷ 2)).

(** enough guard cells, cells of non-zero size, as many coefficients as the order says *)
Definition well_set (S : Sizes) (q : rsteps) : Prop :=
  (let m := if second_order S then 1 else 0 in
   0 <= nxs S /\ nxs S + m <= nxguard S /\ 0 <= nys S /\ nys S + m <= nyguard S /\ 0 <= nzs S /\ nzs S + m <= nzguard S) /\
  (rdx q <> 0 /\ rdy q <> 0 /\ rdz q <> 0)%R /\
  (second_order S = false -> zlen (rcx q) = norderx S ÷ 2 /\ zlen (rcy q) = nordery S ÷ 2 /\ zlen (rcz q) = norderz S ÷ 2).

(** every point used by the divergence at p is in the fully updated region *)
Definition interior_fwd (S : Sizes) (q : rsteps) (p : idx) : Prop :=
  let s := formulas S q in reaches (fun d => ist s - half_order s d) (half_order s) (full_lo S) (full_hi S) p.
Definition interior_bwd (S : Sizes) (q : rsteps) (p : idx) : Prop :=
  let s := formulas S q in reaches (fun d => - half_order s d) (fun d => half_order s d - ist s) (full_lo S) (full_hi S) p.

(** ** two dimensions: the fields live in the plane y = 0 and do not vary along y *)
Definition second_order_2d (S : Sizes) : bool := (norderx S =? 2) && (norderz S =? 2).
Definition formulas_2d (S : Sizes) (q : rsteps) : stencil :=
  if second_order_2d S then any_order false (rdx q) 1 (rdz q) [1%R] [] [1%R]
  else any_order (l_nodalgrid S) (rdx q) 1 (rdz q) (rcx q) [] (rcz q).
Definition well_set_2d (S : Sizes) (q : rsteps) : Prop :=
  (0 <= nxs S /\ 0 <= nzs S /\ 0 <= nyguard S /\ 0 <= ny S + nyguard S /\
   nxs S + (if second_order_2d S then 1 else norderx S ÷ 2) <= nxguard S /\
   nzs S + (if second_order_2d S then 1 else norderz S ÷ 2) <= nzguard S /\
   0 <= norderx S /\ 0 <= norderz S) /\
  (rdx q <> 0 /\ rdz q <> 0)%R /\
  (second_order_2d S = false -> zlen (rcx q) = norderx S ÷ 2 /\ zlen (rcz q) = norderz S ÷ 2).
Definition interior_fwd_2d (S : Sizes) (q : rsteps) (p : idx) : Prop :=
  let s := formulas_2d S q in reaches (fun d => ist s - half_order s d) (half_order s) (slo2 S 0) (shi2 S 0) p.
Definition interior_bwd_2d (S : Sizes) (q : rsteps) (p : idx) : Prop :=
  let s := formulas_2d S q in reaches (fun d => - half_order s d) (fun d => half_order s d - ist s) (slo2 S 0) (shi2 S 0) p.

(** ** histories: pushes, in any order and number, with anything happening to the guard
    cells in between *)
Definition cells_lo : idx := (0, 0, 0).
Definition cells_hi (S : Sizes) : idx := (nx S, ny S, nz S).
(** arrays of finite numbers that differ at most outside the cells of the domain *)
Definition guards_changed {tg : R -> R} (S : Sizes) (F F' : field (num (RX tg))) : Prop :=
  (exists f', is_field S F' f') /\
  forall p, in_box cells_lo (cells_hi S) p = true ->
    gat (fx F') p = gat (fx F) p /\ gat (fy F') p = gat (fy F) p /\ gat (fz F') p = gat (fz F) p.

Section History.
Context {tg : R -> R}.
Variables (S : Sizes) (q : rsteps) (c mu : R).
(** electric field, magnetic field, charge density *)
Definition fstate : Type := (field (num (RX tg)) * field (num (RX tg)) * (idx -> R))%type.
Inductive fstep : fstate -> fstate -> Prop :=
| step_b E B B' rho : push_bfield S (steps_of q) E B = Ret B' -> fstep (E, B, rho) (E, B', rho)
| step_e E B J E' j rho rho' : is_field S J j -> push_efield (consts_of c mu) S (steps_of q) E B J = Ret E' ->
    (** the current and the charge density satisfy the discrete continuity equation *)
    (forall p, rho' p = rho p - rdt q * div (bwd (formulas S q)) j p)%R -> fstep (E, B, rho) (E', B, rho')
| step_guards E B E' B' rho : guards_changed S E E' -> guards_changed S B B' -> fstep (E, B, rho) (E', B', rho).
Inductive fsteps : fstate -> fstate -> Prop :=
| fnil s : fsteps s s
| fcons s1 s2 s3 : fsteps s1 s2 -> fstep s2 s3 -> fsteps s1 s3.
End History.

(** every point used by the divergence at p is a cell of the domain (and updated in full) *)
Definition inner_fwd (S : Sizes) (q : rsteps) (p : idx) : Prop :=
  let s := formulas S q in interior_fwd S q p /\
  reaches (fun d => ist s - half_order s d) (half_order s) cells_lo (cells_hi S) p.
Definition inner_bwd (S : Sizes) (q : rsteps) (p : idx) : Prop :=
  let s := formulas S q in interior_bwd S q p /\
  reaches (fun d => - half_order s d) (fun d => half_order s d - ist s) cells_lo (cells_hi S) p.

(** ** other vocabulary *)
Local Open Scope R_scope.
(** the same set-up with the opposite time step *)
Definition backwards (q : rsteps) : rsteps :=
  {| rdt := - rdt q; rdx := rdx q; rdy := rdy q; rdz := rdz q; rcx := rcx q; rcy := rcy q; rcz := rcz q |}.
(** x f + y g *)
Definition comb (x y : R) (f g : rfield) : rfield :=
  RField (fun p => x * comp_x f p + y * comp_x g p) (fun p => x * comp_y f p + y * comp_y g p) (fun p => x * comp_z f p + y * comp_z g p).
Definition uniform (x y z : R) : rfield := RField (fun _ => x) (fun _ => y) (fun _ => z).
(** the field does not vary along y *)
Definition flat (f : rfield) : Prop := forall j k k' l,
  comp_x f (j, k, l) = comp_x f (j, k', l) /\ comp_y f (j, k, l) = comp_y f (j, k', l) /\ comp_z f (j, k, l) = comp_z f (j, k', l).
Local Open Scope Z_scope.
(** the arrays of F have the bounds of all field arrays *)
Definition sized {N : NumOps} (S : Sizes) (F : field (num N)) : Prop :=
  (glo (fx F) = alo S /\ ghi (fx F) = ahi S) /\ (glo (fy F) = alo S /\ ghi (fy F) = ahi S) /\ (glo (fz F) = alo S /\ ghi (fz F) = ahi S).
(** the updated region has a point *)
Definition nonempty (S : Sizes) : Prop :=
  0 <= nx S + 2 * nxs S /\ 0 <= ny S + 2 * nys S /\ 0 <= nz S + 2 * nzs S.

(** same bounds, and the same elements outside lo:hi *)
Definition untouched {N : NumOps} (lo hi : idx) (F F' : field (num N)) : Prop :=
  (glo (fx F') = glo (fx F) /\ ghi (fx F') = ghi (fx F)) /\ (glo (fy F') = glo (fy F) /\ ghi (fy F') = ghi (fy F)) /\ (glo (fz F') = glo (fz F) /\ ghi (fz F') = ghi (fz F)) /\
  forall p, in_box lo hi p = false -> gat (fx F') p = gat (fx F) p /\ gat (fy F') p = gat (fy F) p /\ gat (fz F') p = gat (fz F) p.
(** one guard cell at least *)
Definition guard1 (S : Sizes) : Prop := (1 <= nxguard S /\ 1 <= nyguard S /\ 1 <= nzguard S)%Z.
