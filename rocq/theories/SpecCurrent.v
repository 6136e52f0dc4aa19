(** Specification vocabulary for the charge conserving current deposition and for the histories of a run
    made of particle pushes, current depositions and field solver steps; independent of the proofs. *)
From Coq Require Import ZArith Reals List Bool.
From Verif Require Import Cxx Num NumRX Fortran FortranNum Grid Pushers Yee Deposit Esirkepov SpecYee SpecSolver SpecDeposit.
Import ListNotations.
Local Open Scope R_scope.

(** the routine for order n along x, y and z, n = 1, 2, 3 *)
Definition depose_fixed {N : FNum} (n : Z) :=
  match n with
  | 1%Z => depose_jxjyjz_esirkepov_1_1_1 (N := N)
  | 2%Z => depose_jxjyjz_esirkepov_2_2_2 (N := N)
  | _ => depose_jxjyjz_esirkepov_3_3_3 (N := N)
  end.
(** it is called with the particles ps of charge q, and so is the routine of any order *)
Notation current_fixed n g q dt ps J :=
  (depose_fixed n (zlen ps) (map pos_of ps) (map mom_of ps) (map weight_of ps) (Fin q : num FRX) (geom_of g) (Fin dt : num FRX) J).
Notation current_n K o lw l4 g q dt ps J :=
  (pxr_depose_jxjyjz_esirkepov_n K (zlen ps) (map pos_of ps) (map mom_of ps) (map weight_of ps) (Fin q : num FRX) (geom_of g) (Fin dt : num FRX)
     (onx o) (ony o) (onz o) lw l4 J).
(** the charge deposition of any order, called with the particles ps *)
Notation charge_call o lw l4 g q ps rho :=
  (pxr_depose_rho_n (zlen ps) (map pos_of ps) (map weight_of ps) (Fin q : num FRX) (geom_of g) (onx o) (ony o) (onz o) lw l4 rho).

(** the particle is far enough from the ends of the three arrays *)
Definition inside (o : orders) (g : cells) (lo hi : axis -> idx) (a : rpart) : Prop := forall d, moderate (lo d) (hi d) /\ fits3 o g (lo d) (hi d) a.
(** the particle moved by less than a cell *)
Definition small_step (g : cells) (dt : R) (a : rpart) : Prop := forall d, Rabs (unit_on g d a - unit_on g d (before_move dt a)) < 1.
(** the speed of light of the run is c *)
Definition light (c : R) (K : Consts FRX) : Prop := clight K = (Fin c : num FRX).
(** the current field c is zero outside the arrays *)
Definition within (lo hi : axis -> idx) (c : rfield) : Prop := forall d p, in_box (lo d) (hi d) p = false -> comp d c p = 0.
(** the equation of continuity, in the differences of the Yee scheme: d rho / dt + div J = 0, for the change of the
    density from rho0 to rho1 in the time dt *)
Definition continuous (g : cells) (dt : R) (rho0 rho1 : idx -> R) (c : rfield) : Prop :=
  forall p, (rho1 p - rho0 p) / dt + div (bwd (yee (hx g) (hy g) (hz g))) c p = 0.

(** ** histories of a run without boundaries between tiles and processes: one species of charge q, one tile *)
Section Run.
Variables (S : Sizes) (t : rsteps) (c mu : R) (n : Z) (g : cells) (q : R).
Definition Rarrays : Type := field (num FRX).
(** electric field, magnetic field, particles *)
Definition rstate : Type := (Rarrays * Rarrays * list rpart)%type.
Definition zero_field : rfield := RField (fun _ => 0) (fun _ => 0) (fun _ => 0).
Inductive rstep : rstate -> rstate -> Prop :=
| run_b E B B' ps : push_bfield S (steps_of t) E B = Ret B' -> rstep (E, B, ps) (E, B', ps)
(** the fields accelerate the particles: their momenta change, in any way *)
| run_kick E B ps ps' : map pos_of ps' = map pos_of ps -> map weight_of ps' = map weight_of ps -> rstep (E, B, ps) (E, B, ps')
(** the particles move, their current is deposited in arrays that were set to zero, the electric field is advanced *)
| run_move E B J0 J E' ps ps' :
    pxr_pushxyz (zlen ps) (map pos_of ps) (map mom_of ps) (Fin (rdt t) : num FRX) = Ret (map pos_of ps') ->
    map mom_of ps' = map mom_of ps -> map weight_of ps' = map weight_of ps ->
    is_field (tg := fun x => x) S J0 zero_field ->
    current_fixed n g q (rdt t) ps' J0 = Ret J ->
    push_efield (consts_of (tg := fun x => x) c mu) S (steps_of t) E B J = Ret E' -> rstep (E, B, ps) (E', B, ps')
(** anything happens to the guard cells of E and B *)
| run_guards E B E' B' ps : guards_changed (tg := fun x => x) S E E' -> guards_changed (tg := fun x => x) S B B' -> rstep (E, B, ps) (E', B', ps).
Inductive run : rstate -> rstate -> Prop :=
| run0 s : run s s
| runs s1 s2 s3 : run s1 s2 -> rstep s2 s3 -> run s1 s3.
End Run.
