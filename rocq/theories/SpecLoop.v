(** The main loop as a recursion on the whole periodic grid, stated without the routines. *)
From Coq Require Import ZArith Reals List Bool Permutation.
From Verif Require Import Cxx Num NumRX Fortran FortranNum Grid Pushers Yee Deposit Tiles DepositTiles CurrentTiles Gather.
From Verif Require Import SpecYee SpecSolver SpecDeposit SpecCurrent SpecFlux SpecGather SpecTiles SpecDepositTiles SpecCurrentTiles PartBC SpecPartBC PartDefault SpecPartDefault FieldBC SpecFieldBC SpecWhole SpecWholeCurrent SpecParallelField.
From Verif Require Import PushTiles SpecPic Loop.
Import ListNotations.
Local Open Scope R_scope.

(** a position that has left the periodic domain comes back at the other side *)
Definition back_in (g : gaxis) (v : R) : R :=
  if Rlt_dec v (g_lo g) then v + (g_hi g - g_lo g) else if Rle_dec (g_hi g) v then v - (g_hi g - g_lo g) else v.
Section Spec.
Variable P : plan.
Notation U := (pl_solver P).
Definition wrapped (a : rpart) : rpart :=
  {| rpx := back_in (pl_x P) (rpx a); rpy := back_in (pl_y P) (rpy a); rpz := back_in (pl_z P) (rpz a); rux := rux a; ruy := ruy a; ruz := ruz a; rgam := rgam a; rw := rw a |}.
(** the current of the particles ps, which have just moved, on the periodic grid: the sum over the points of the unbounded grid, up to
    m points outside of the domain, that are the same point up to periods *)
Definition current_at (m : Z) (ps : list rpart) (d : axis) (p : idx) : R :=
  sumR (map (current_of (w_orders (axs P)) (w_cells (axs P)) (rdt (u_steps U)) (map (pair (pl_q P)) ps) d) (filter (stands_for (lay P) ((0, 0, 0)%Z, p)) (around (lay P) m))).
Definition current (m : Z) (ps : list rpart) : rfield := RField (current_at m ps AX) (current_at m ps AY) (current_at m ps AZ).
(** a time step on the whole grid: all particles move in the fields and come back into the domain, and the fields change
    with the currents of the particles.  The order of the particles does not matter *)
Definition whole_pic_step (m : Z) (s s' : list rpart * rfield * rfield) : Prop :=
  let '(ps, e, b) := s in let '(ps', e', b') := s' in
  exists l, Forall2 (fun a a' => exists a1, moved (pl_pusher P) (u_c U) (pl_q P) (pl_m P) (rdt (u_steps U)) (fields_seen (gathering P) (w_cells (axs P)) e b a) a a1 /\ a' = wrapped a1) ps l /\
    Permutation l ps' /\ (e', b') = whole_step U (current m ps') (e, b).
Inductive whole_pic_run (m : Z) : nat -> list rpart * rfield * rfield -> list rpart * rfield * rfield -> Prop :=
| whole_none s : whole_pic_run m 0 s s
| whole_more n s1 s2 s3 : whole_pic_step m s1 s2 -> whole_pic_run m n s2 s3 -> whole_pic_run m (S n) s1 s3.

(** ** the states of the processes *)
Notation D := (rank_dom (pl_x P) (pl_y P) (pl_z P)).
(** all particles of all processes, *)
Definition everyone (ps : idx -> idx -> list rpart) : list rpart := flat_map (fun r => flat_map (ps r) (all_tiles (D r))) (procs P).
(** in their tiles and in the domains of their processes; the arrays hold the fields e and b *)
Definition representing (M : Z) (s : state) (ps : idx -> idx -> list rpart) (e b : rfield) : Prop :=
  let '(W, E, B) := s in
  (forall r, In r (procs P) ->
     contents M (D r) (fst (W r)) (fun q => map part_of (ps r q)) /\ rank_tiles (pl_x P) (pl_y P) (pl_z P) r (fst (W r)) /\
     forall q a, In q (all_tiles (D r)) -> In a (ps r q) -> outside (D r) (part_of a) = false /\ Tiles.inside (gat (fst (W r)) q) (part_of a) = true) /\
  repeating (lay P) e /\ repeating (lay P) b /\ carrying (lay P) E e /\ carrying (lay P) B b.
(** the assumptions about a run: those of C126; gathering that is exact; a pusher without radiation; for the default exchange of the
    particles at least two tiles in each direction *)
Definition sound_plan : Prop :=
  (good_gaxis (pl_x P) /\ good_gaxis (pl_y P) /\ good_gaxis (pl_z P)) /\ run_set (lay P) (axs P) U (pl_consts P) (pl_threads P) /\ (1 <= pl_threads P)%Z /\
  exact_choice (pl_algo P) (w_orders (axs P)) /\ (1 <= pl_lvec P)%Z /\ (pl_pusher P = Boris \/ pl_pusher P = Vay) /\ pl_m P <> 0 /\
  (pl_exchange P = AtOnce -> (1 <= pl_block P)%Z /\ forall r, In r (procs P) -> several_tiles (D r)).
(** there is room for n particles in arrays of M elements, and integers are large enough *)
Definition room (M n : Z) : Prop := (2 * n + 1 <= M /\ M < 2 ^ 31 /\ n * 8 + 1 < 2 ^ 31)%Z.
(** more points than there are guard cells *)
Definition beyond_guards (m : Z) : Prop := forall a, (FieldBC.comp a (pl_guards P) < m)%Z.
(** the charge density of the particles on the periodic grid *)
Definition density_at (ps : list rpart) (p : idx) : R :=
  let m := (Z.max (FieldBC.comp DirX (pl_guards P)) (Z.max (FieldBC.comp DirY (pl_guards P)) (FieldBC.comp DirZ (pl_guards P))) + 1)%Z in
  sumR (map (density_of (w_orders (axs P)) (w_cells (axs P)) (map (pair (pl_q P)) ps)) (filter (stands_for (lay P) ((0, 0, 0)%Z, p)) (around (lay P) m))).
End Spec.
(** two runs of the same problem: the processes, tiles, guard cells, threads, messages and algorithms may differ *)
Definition same_problem (P P' : plan) : Prop :=
  (forall a, g_lo (pl_axis P a) = g_lo (pl_axis P' a) /\ g_hi (pl_axis P a) = g_hi (pl_axis P' a) /\ g_n (pl_axis P a) = g_n (pl_axis P' a)) /\ pl_orders P = pl_orders P' /\
  same_solver (pl_solver P) (pl_solver P') /\ pl_lower P = pl_lower P' /\ pl_pusher P = pl_pusher P' /\ pl_q P = pl_q P' /\ pl_m P = pl_m P'.
