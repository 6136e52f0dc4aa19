(** C132: gathering and push of the particles on the tiles of a process (src/particle_pushers/particle_pusher_manager_3d.F90). *)
From Coq Require Import ZArith Reals List Bool Permutation Lia Lra.
From Verif Require Import Cxx Num NumRX Fortran FortranNum Grid Pushers Yee Deposit Tiles DepositTiles Gather SpecYee SpecSolver SpecDeposit SpecCurrent SpecGather SpecTiles SpecDepositTiles DepositExamples.
From Verif Require Import PartBC FieldBC SpecFieldBC SpecWhole WholeExamples SpecParallelField ParallelFieldExamples PushTiles SpecPic PushTilesProofs PicExamples.
Import ListNotations.
Local Open Scope R_scope.

(** ** C132: the particles move in the fields of the whole grid *)
(** the arrays of the processes hold the fields e and b of the whole grid.  On a process r, whatever the order in which its tiles are
    pushed: the call ends, every tile has the particles it had, each moved in the fields e and b at its place, by the scheme
    of the pusher; the extents of the tiles are as before *)
Theorem C132_push : forall L W s which lvec algo c q m dt K r,
  sound_parts L W -> In r (processes (l_procs L)) ->
  sc_order s = w_orders W -> exact_choice algo (sc_order s) -> (1 <= lvec)%Z -> which = Boris \/ which = Vay -> light c K -> 0 < c -> m <> 0 ->
  let x := part_x L W r in let y := part_y L W r in let z := part_z L W r in
  forall E B e b ps l T, carrying L E e -> carrying L B b -> in_tiles x y z [RSpecies true q ps] -> filled x y z T ps -> Permutation l (tiles_of x y z) ->
  exists T' ps', push_tiles K (choices_of s lvec algo which) (motion_of q m dt) (steps x y z) (mesh_of (fin_axis x) (fin_axis y) (fin_axis z)) (E r) (B r) l T = Ret T' /\ filled x y z T' ps' /\
    forall p, In p (tiles_of x y z) -> same_extents (gat T p) (gat T' p) /\ t_max (gat T' p) = t_max (gat T p) /\
      Forall2 (fun a a' => moved which c q m dt (fields_seen s (w_cells W) e b a) a a') (ps p) (ps' p).
Proof. exact whole_push. Qed.
Print Assumptions C132_push.
(** two processes, a particle of the first one beside a pulse at the border *)
Example C132_case :
  let L := eg_cut 2 4 in let W := eg_W in let r := (0, 0, 0)%Z in let x := part_x L W r in let y := part_y L W r in let z := part_z L W r in
  sound_parts L W /\ In r (processes (l_procs L)) /\ sc_order eg_s = w_orders W /\ exact_choice 0 (sc_order eg_s) /\ light 1 K1 /\
  carrying L (filled_field L pulse) pulse /\ carrying L (filled_field L rest) rest /\ in_tiles x y z [RSpecies true 1 eg_ps] /\ filled x y z eg_tiles1 eg_ps /\
  tiles_of x y z = [(1, 1, 1)%Z] /\ eg_ps (1, 1, 1)%Z = [at_x (15 / 4)].
Proof.
  intros L W r x y z. split; [apply eg_cut_parts; lia|]. split; [now left|]. split; [reflexivity|]. split; [exact eg_exact|]. split; [exact K1_light|].
  split; [apply filled_carrying|]. split; [apply filled_carrying|]. split; [exact eg_in|]. split; [exact eg_filled1|]. split; [exact eg_one_tile|reflexivity].
Qed.
