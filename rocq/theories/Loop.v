(** Model of a time step of the main loop in 3D: src/submain.F90:105-176, with particles and without FFTW (l_spectral false).
    One species of particles whose only additional number is the weight; no laser, no sorting of the particles; periodic boundaries, exact arithmetic. *)
From Coq Require Import ZArith Reals List Bool Permutation.
From Verif Require Import Cxx Num NumRX Fortran FortranNum Grid Pushers Yee Deposit Esirkepov Tiles DepositTiles CurrentTiles Gather.
From Verif Require Import SpecYee SpecSolver SpecDeposit SpecCurrent SpecGather SpecTiles SpecDepositTiles SpecCurrentTiles PartBC SpecPartBC PartDefault SpecPartDefault FieldBC SpecFieldBC SpecWhole SpecWholeCurrent SpecParallelField.
From Verif Require Import PushTiles SpecPic.
Import ListNotations.
Local Open Scope R_scope.

(** the ways to exchange the particles (particle_boundaries.F90:98-240): first between the tiles, with one thread (partcom 2) or
    several (partcom 1), and then between the processes, or both at once (the default); messages with mpicom_curr 1 *)
Inductive exchange := Serial | Threads | AtOnce.
(** a run: the domain, its processes and tiles; guard cells; orders of the shape of the particles; the solver; constants; order of the
    gathering, its block size and algorithm; pusher; charge and mass of the species; algorithm of the current deposition; kind of
    the messages for the fields; threads; exchange of the particles, and block size of its buffers *)
Record plan := Plan { pl_x : gaxis; pl_y : gaxis; pl_z : gaxis; pl_guards : idx; pl_orders : idx; pl_solver : setup; pl_consts : Consts FRX; pl_lower : bool; pl_lvec : Z; pl_algo : Z;
  pl_pusher : pusher; pl_q : R; pl_m : R; pl_optimised : bool; pl_blocking : bool; pl_threads : Z; pl_exchange : exchange; pl_block : Z }.

Section Loop.
Variable P : plan.
Definition pl_axis (a : dir) : gaxis := match a with DirX => pl_x P | DirY => pl_y P | DirZ => pl_z P end.
(** the grids of the processes for the fields, and the axes of the whole grid *)
Definition lay : layout :=
  Layout (g_procs (pl_x P) (pl_y P) (pl_z P)) (fun a c => (SpecPartBC.cut (g_n (pl_axis a)) (g_np (pl_axis a)) (c + 1) - SpecPartBC.cut (g_n (pl_axis a)) (g_np (pl_axis a)) c)%Z) (pl_guards P) (fun _ => false).
Definition axs (a : dir) : waxis := WAxis (g_lo (pl_axis a)) (g_d (pl_axis a)) (g_nt (pl_axis a)) (FieldBC.comp a (pl_orders P)).
Definition procs : list idx := processes (g_procs (pl_x P) (pl_y P) (pl_z P)).
Notation x := (part_x lay axs). Notation y := (part_y lay axs). Notation z := (part_z lay axs).
Notation D := (rank_dom (pl_x P) (pl_y P) (pl_z P)).
Notation Bd := (rank_bnd (pl_x P) (pl_y P) (pl_z P)).
Notation np := (g_procs (pl_x P) (pl_y P) (pl_z P)).
Notation U := (pl_solver P).
Notation dt := (rdt (u_steps U)).
Definition gathering : scheme := {| sc_order := w_orders axs; sc_lower := pl_lower P; sc_nodal := u_nodal U |}.

(** the particles and the species_npart of every process, and the fields *)
Definition state : Type := ((idx -> grid (tile FRX) * Z) * (idx -> field (num FRX)) * (idx -> field (num FRX)))%type.
(** submain.F90:114 field_gathering_plus_particle_pusher: every process pushes its tiles, in an order that the threads choose *)
Definition all_pushed (W : idx -> grid (tile FRX) * Z) (E B : idx -> field (num FRX)) (T1 : idx -> grid (tile FRX)) : Prop :=
  forall r, In r procs -> exists l, Permutation l (tiles_of (x r) (y r) (z r)) /\
    push_tiles (pl_consts P) (choices_of gathering (pl_lvec P) (pl_algo P) (pl_pusher P)) (motion_of (pl_q P) (pl_m P) dt) (steps (x r) (y r) (z r))
      (mesh_of (fin_axis (x r)) (fin_axis (y r)) (fin_axis (z r))) (E r) (B r) l (fst (W r)) = Ret (T1 r).
(** submain.F90:119 particle_bcs, particle_boundaries.F90:98-240 *)
Definition all_exchanged (W1 W' : idx -> grid (tile FRX) * Z) : Prop :=
  match pl_exchange P with
  | AtOnce => forall r, In r procs -> particle_bcs_tiles_and_mpi at_once (pl_block P) 1 np D Bd W1 r = Ret (W' r)
  | Serial => exists T2, (forall r, In r procs -> particle_bcs_tiles (D r) (fst (W1 r)) = Ret (T2 r)) /\
      forall r, In r procs -> particle_bcs_mpi_blocking 1 np D Bd (fun s => (T2 s, snd (W1 s))) r = Ret (W' r)
  | Threads => exists T2, (forall r, In r procs -> particle_bcs_tiles_openmp (D r) (fst (W1 r)) (Ret (T2 r))) /\
      forall r, In r procs -> particle_bcs_mpi_blocking 1 np D Bd (fun s => (T2 s, snd (W1 s))) r = Ret (W' r)
  end.
(** the species as the current deposition sees it: the particles 1:np_tile(1) of every tile, the weight is the first number of pid *)
Definition jspecies_in (q : num FRX) (T : grid (tile FRX)) : jspecies FRX :=
  JSpecies true q (fun i => if in_box (glo T) (ghi T) i
    then match tile_particles (gat T i) with Ret ps => map (fun p => (part_pos p, part_mom p, hd (Fin 0 : num FRX) (ppid p))) ps | _ => [] end else []).
(** submain.F90:136 pxrdepose_currents_on_grid_jxjyjz, on arrays that are zero (current_deposition_manager_3d.F90:375-377) *)
Definition all_currents (W : idx -> grid (tile FRX) * Z) (J0 : idx -> field (num FRX)) : Prop :=
  forall r, In r procs ->
    currents_outcome (pl_threads P) (depose_jxjyjz (pl_consts P) (pl_optimised P) (p_o (x r)) (p_o (y r)) (p_o (z r))) (steps (x r) (y r) (z r)) (Fin dt : num FRX)
      (mesh_of (fin_axis (x r)) (fin_axis (y r)) (fin_axis (z r))) (tiles_of (x r) (y r) (z r)) [jspecies_in (Fin (pl_q P) : num FRX) (fst (W r))] (zero_arrays lay r) (Ret (J0 r)).
(** a time step: 114, 119, 136, 140 (current_bcs), 160-175 (the fields) *)
Definition full_step (s s' : state) : Prop :=
  let '(W, E, B) := s in let '(W', E', B') := s' in
  exists T1 J0 J T,
    all_pushed W E B T1 /\ all_exchanged (fun r => (T1 r, snd (W r))) W' /\ all_currents W' J0 /\
    (forall d r, In r procs -> right_types lay r (T d r)) /\
    (forall d, exists S', current_summed lay (pl_blocking P) J0 T d = Ret (start lay S') /\ forall r, In r procs -> array d (J r) = arr (S' r)) /\
    field_step lay U (pl_blocking P) J E B E' B'.
(** n time steps *)
Inductive full_run : nat -> state -> state -> Prop :=
| full_none s : full_run 0 s s
| full_more n s1 s2 s3 : full_step s1 s2 -> full_run n s2 s3 -> full_run (S n) s1 s3.
End Loop.
