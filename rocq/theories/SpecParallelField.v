(** The field solver of a run on several processes: what the run does with the arrays of all processes, and the fields on the
    whole periodic grid that they have to hold, stated without the routines. *)
From Coq Require Import ZArith Reals List Bool.
From Verif Require Import Cxx Num NumRX Fortran FortranNum Grid Pushers Yee Deposit Tiles DepositTiles CurrentTiles SpecYee SpecSolver SpecDeposit SpecCurrent SpecTiles SpecDepositTiles SpecCurrentTiles.
From Verif Require Import PartBC FieldBC SpecFieldBC SpecWhole SpecWholeCurrent.
Import ListNotations.
Local Open Scope R_scope.

(** ** the whole grid *)
(** the solver: orders, cells updated beyond the ends of the process, staggered or nodal fields, time step and cell sizes,
    speed of light and vacuum permeability *)
Record setup := { u_order : idx; u_extra : idx; u_nodal : bool; u_steps : rsteps; u_c : R; u_mu : R }.
Definition all_second (U : setup) : bool := let '(o1, o2, o3) := u_order U in ((o1 =? 2) && (o2 =? 2) && (o3 =? 2))%Z.
(** the difference formulas of the whole grid *)
Definition diffs (U : setup) : stencil :=
  let q := u_steps U in
  if all_second U then yee (rdx q) (rdy q) (rdz q) else SpecYee.any_order (u_nodal U) (rdx q) (rdy q) (rdz q) (rcx q) (rcy q) (rcz q).
(** half a step of B: dB/dt = - curl E *)
Definition b_after (U : setup) (e b : rfield) : rfield :=
  let r := curl (fwd (diffs U)) e in let h := rdt (u_steps U) / 2 in
  RField (fun p => comp_x b p - h * comp_x r p) (fun p => comp_y b p - h * comp_y r p) (fun p => comp_z b p - h * comp_z r p).
(** a step of E: dE/dt = c^2 (curl B - mu J) *)
Definition e_after (U : setup) (e b j : rfield) : rfield :=
  let r := curl (bwd (diffs U)) b in let k := u_c U ^ 2 * rdt (u_steps U) in
  RField (fun p => comp_x e p + k * (comp_x r p - u_mu U * comp_x j p)) (fun p => comp_y e p + k * (comp_y r p - u_mu U * comp_y j p))
         (fun p => comp_z e p + k * (comp_z r p - u_mu U * comp_z j p)).
(** a time step *)
Definition whole_step (U : setup) (j : rfield) (eb : rfield * rfield) : rfield * rfield :=
  let b1 := b_after U (fst eb) (snd eb) in let e2 := e_after U (fst eb) b1 j in (e2, b_after U e2 b1).
(** time steps with these currents, the first one first *)
Definition whole_run (U : setup) (js : list rfield) (eb : rfield * rfield) : rfield * rfield := fold_left (fun eb j => whole_step U j eb) js eb.
(** the function has the periods of the grid *)
Definition repeats (L : layout) (f : idx -> R) : Prop := forall d p, f (shift d (all_cells L (dir_of d)) p) = f p.
Definition repeating (L : layout) (f : rfield) : Prop := forall d, repeats L (SpecDeposit.comp d f).

(** ** the arrays of the processes *)
Definition periodic (L : layout) : Prop := forall a, l_absorbing L a = false.
Definition sizes_at (L : layout) (U : setup) (r : idx) : Sizes :=
  let '(n1, n2, n3) := local_cells L r in let '(g1, g2, g3) := l_guards L in
  let '(x1, x2, x3) := u_extra U in let '(o1, o2, o3) := u_order U in
  {| nx := n1; ny := n2; nz := n3; nxguard := g1; nyguard := g2; nzguard := g3; nxs := x1; nys := x2; nzs := x3;
     norderx := o1; nordery := o2; norderz := o3; l_nodalgrid := u_nodal U |}.
(** cells of non-zero size, as many coefficients as the orders say, and guard cells for the longest differences *)
Definition fitting (L : layout) (U : setup) : Prop :=
  let q := u_steps U in
  (rdx q <> 0 /\ rdy q <> 0 /\ rdz q <> 0) /\
  (all_second U = false -> zlen (rcx q) = FieldBC.comp DirX (u_order U) ÷ 2 /\ zlen (rcy q) = FieldBC.comp DirY (u_order U) ÷ 2 /\ zlen (rcz q) = FieldBC.comp DirZ (u_order U) ÷ 2)%Z /\
  forall a, (0 <= FieldBC.comp a (u_extra U) /\ FieldBC.comp a (u_extra U) + (if all_second U then 1 else 0) <= FieldBC.comp a (l_guards L) /\
             FieldBC.comp a (u_order U) ÷ 2 <= FieldBC.comp a (l_guards L))%Z.
(** the arrays of all processes hold f, in the guard cells too *)
Definition carries (L : layout) (G : idx -> grid (num FRX)) (f : idx -> R) : Prop :=
  (forall r, In r (processes (l_procs L)) -> right_bounds L r (G r)) /\
  forall u, In u (nodes L) -> gat (G (fst u)) (snd u) = Fin (f (point_of L u)).
Definition carrying (L : layout) (F : idx -> field (num FRX)) (f : rfield) : Prop :=
  forall d, carries L (fun r => array d (F r)) (SpecDeposit.comp d f).

(** field_bc for the three arrays of a field (efield_bcs, bfield_bcs without absorbing boundaries, field_boundaries.F90:1768-1774,
    1819-1825), starting with any derived types that the processes may have created before *)
Definition exchanged (L : layout) (blocking : bool) (F F' : idx -> field (num FRX)) : Prop :=
  forall d, exists T S', (forall r, In r (processes (l_procs L)) -> right_types L r (T r)) /\
    field_bc (l_procs L) (local_cells L) (l_guards L) blocking (l_absorbing L) (start L (fun r => PState (array d (F r)) (T r))) = Ret (start L S') /\
    forall r, In r (processes (l_procs L)) -> array d (F' r) = arr (S' r).
(** the pushes of all processes, each followed by the exchange of the guard cells (submain.F90:160-163, 166-169, 172-175) *)
Definition pushed_b (L : layout) (U : setup) (blocking : bool) (E B B' : idx -> field (num FRX)) : Prop :=
  exists B1, (forall r, In r (processes (l_procs L)) -> push_bfield (N := FRX) (sizes_at L U r) (steps_of (u_steps U)) (E r) (B r) = Ret (B1 r)) /\ exchanged L blocking B1 B'.
Definition pushed_e (L : layout) (U : setup) (blocking : bool) (E B J E' : idx -> field (num FRX)) : Prop :=
  exists E1, (forall r, In r (processes (l_procs L)) -> push_efield (N := FRX) (consts_of (u_c U) (u_mu U)) (sizes_at L U r) (steps_of (u_steps U)) (E r) (B r) (J r) = Ret (E1 r)) /\ exchanged L blocking E1 E'.
(** the fields during a time step *)
Definition field_step (L : layout) (U : setup) (blocking : bool) (J : idx -> field (num FRX)) (E B E' B' : idx -> field (num FRX)) : Prop :=
  exists B1, pushed_b L U blocking E B B1 /\ pushed_e L U blocking E B1 J E' /\ pushed_b L U blocking E' B1 B'.
(** time steps with these currents, the first one first *)
Inductive field_run (L : layout) (U : setup) (blocking : bool) : list (idx -> field (num FRX)) -> (idx -> field (num FRX)) -> (idx -> field (num FRX)) ->
    (idx -> field (num FRX)) -> (idx -> field (num FRX)) -> Prop :=
| run_none E B : field_run L U blocking [] E B E B
| run_step J Js E B E1 B1 E2 B2 : field_step L U blocking J E B E1 B1 -> field_run L U blocking Js E1 B1 E2 B2 -> field_run L U blocking (J :: Js) E B E2 B2.

(** ** time steps with particles *)
(** the particles of all processes and the fields *)
Definition pic_state : Type := ((idx -> list rspecies) * (idx -> field (num FRX)) * (idx -> field (num FRX)))%type.
Section Run.
Variables (L : layout) (W : dir -> waxis) (U : setup) (K : Consts FRX) (optimised blocking : bool) (threads : Z).
Notation dt := (rdt (u_steps U)).
(** a time step: the particles have moved with their velocities, to any tiles and processes and across the periodic borders; they deposit
    their currents, these are summed, and then the fields are pushed *)
Definition pic_step (s s' : pic_state) : Prop :=
  let '(ss0, E, B) := s in let '(ss, E', B') := s' in
  well_placed L W ss /\ slow_charges (u_c U) (charges L W ss) /\
  same_particles L W (charges L W ss0) (charges_before dt (charges L W ss)) /\
  exists J0 J T, currents_deposited L W K optimised threads dt ss J0 /\
    (forall d r, In r (processes (l_procs L)) -> right_types L r (T d r)) /\
    (forall d, exists S', current_summed L blocking J0 T d = Ret (start L S') /\ forall r, In r (processes (l_procs L)) -> array d (J r) = arr (S' r)) /\
    field_step L U blocking J E B E' B'.
(** time steps; the list has the particles after each of them *)
Inductive pic_run : list (idx -> list rspecies) -> pic_state -> pic_state -> Prop :=
| pic_none s : pic_run [] s s
| pic_more l s1 s2 s3 : pic_step s1 s2 -> pic_run l s2 s3 -> pic_run (fst (fst s2) :: l) s1 s3.
(** the particles are in the tiles of the processes, and the arrays of the fields hold e and b *)
Definition holding (s : pic_state) (e b : rfield) : Prop :=
  let '(ss, E, B) := s in well_placed L W ss /\ repeating L e /\ repeating L b /\ carrying L E e /\ carrying L B b.
(** rho of the particles of all processes at point p of the whole periodic grid *)
Definition whole_rho (ss : idx -> list rspecies) (p : idx) : R :=
  let far := (Z.max (FieldBC.comp DirX (l_guards L)) (Z.max (FieldBC.comp DirY (l_guards L)) (FieldBC.comp DirZ (l_guards L))) + 1)%Z in
  sumR (map (density_of (w_orders W) (w_cells W) (charges L W ss)) (filter (stands_for L ((0, 0, 0)%Z, p)) (around L far))).
(** what Gauss's law says is zero *)
Definition gauss (ss : idx -> list rspecies) (e : rfield) (p : idx) : R :=
  div (bwd (diffs U)) e p - u_c U ^ 2 * u_mu U * whole_rho ss p.
(** the set-ups agree about the cells *)
Definition same_grid : Prop :=
  all_second U = true /\ w_d (W DirX) = rdx (u_steps U) /\ w_d (W DirY) = rdy (u_steps U) /\ w_d (W DirZ) = rdz (u_steps U).
(** the assumptions about a run: periodic, enough guard cells, one thread or tiles along x only, short time steps *)
Definition run_set : Prop :=
  sound_layout L /\ periodic L /\ fitting L U /\ sound_parts L W /\ no_race L W threads /\ light (u_c U) K /\ short_time W (u_c U) dt /\ roomy_parts L W.
End Run.
(** the same equations: the regions that the processes update beyond their ends may differ *)
Definition same_solver (U U' : setup) : Prop := u_order U = u_order U' /\ u_nodal U = u_nodal U' /\ u_steps U = u_steps U' /\ u_c U = u_c U' /\ u_mu U = u_mu U'.
