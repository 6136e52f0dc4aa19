(** Examples for the motion of the particles in the fields. *)
From Coq Require Import ZArith Reals List Bool Lia Lra Permutation.
From Verif Require Import Cxx Num NumRX Fortran FortranNum Grid Pushers Yee SpecYee SpecSolver Deposit Tiles DepositTiles Gather SpecTiles SpecDeposit SpecCurrent SpecGather SpecDepositTiles DepositExamples.
From Verif Require Import PartBC FieldBC SpecFieldBC SpecWhole WholeExamples SpecParallelField ParallelFieldExamples PushTiles SpecPic.
Import ListNotations.
Local Open Scope R_scope.

(** the first of the two processes: a particle just below the pulse, which is at the border *)
Definition eg_ps (q : idx) : list rpart := [at_x (15 / 4)].
Definition eg_axis : taxis FRX := TAxis 0 (Fin 0 : num FRX) (Fin 0 : num FRX).
Definition eg_tile : tile FRX := Tile eg_axis eg_axis eg_axis true true 1 2 [Some (part_of (at_x (15 / 4))); None] 0.
Definition eg_tiles1 : grid (tile FRX) := Grid (1, 1, 1)%Z (1, 1, 1)%Z (fun _ => eg_tile).
Definition eg_s : scheme := {| sc_order := w_orders eg_W; sc_lower := false; sc_nodal := false |}.
Lemma eg_exact : exact_choice 0 (sc_order eg_s). Proof. left. cbn. lia. Qed.
Local Notation x := (part_x (eg_cut 2 4) eg_W (0, 0, 0)%Z). Local Notation y := (part_y (eg_cut 2 4) eg_W (0, 0, 0)%Z). Local Notation z := (part_z (eg_cut 2 4) eg_W (0, 0, 0)%Z).
Lemma eg_in : in_tiles x y z [RSpecies true 1 eg_ps].
Proof. apply (eg_two_placed (0, 0, 0)%Z). now left. Qed.
Lemma eg_filled1 : SpecPic.filled x y z eg_tiles1 eg_ps.
Proof.
  split; [reflexivity|]. split; [reflexivity|]. intros q _. split; [reflexivity|]. split; [reflexivity|]. split; [reflexivity|]. exists [None]. reflexivity.
Qed.
Lemma eg_one_tile : tiles_of x y z = [(1, 1, 1)%Z]. Proof. reflexivity. Qed.
