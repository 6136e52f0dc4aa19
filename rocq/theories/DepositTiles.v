(** Model of the deposition on tiles: every tile deposits its particles into an array of its own, and four parallel loops
    add these arrays to the array of the process.  src/particle_deposition/charge_deposition/charge_deposition_manager.F90,
    pxrdepose_rho_on_grid_sub_openmp_3d_n (278-486) and pxrdepose_rho_on_grid_sub_openmp_3d (516-752), which differ only in the
    routine that is called for a tile; the loops of
    src/particle_deposition/current_deposition/current_deposition_manager_3d.F90 for jx, jy and jz (1534-1812) are the same. *)
From Coq Require Import ZArith List Bool Permutation.
From Verif Require Import Cxx Num Fortran Grid Pushers Deposit Tiles.
Import ListNotations.
Local Open Scope Z_scope.

Section DepositTiles.
Context {N : FNum}.
Local Open Scope num_scope.

(** modules.F90:344-406, one direction of the grid of a tile: nx_tile_min, nx_cells_tile, nxg_tile, x_grid_tile_min;
    nx_tile_max is nx_tile_min + nx_cells_tile (tiling.F90:163) *)
Record maxis := MAxis { ma_min : Z; ma_cells : Z; ma_g : Z; ma_gmin : num N }.
(** tiling.F90:109-186 (x) and the same for y and z: grid of tile i of nt0 in a direction with n points from lo;
    764-769: its guard cells, for ng guard cells of the process and order o.  The last tile overwrites the others, as in Tiles.v. *)
Definition mesh_axis (d lo : num N) (n nt0 ng o : Z) (i : Z) : maxis :=
  let n0 := (n ÷ nt0)%Z in
  let nt := ntiles n nt0 in
  let cells := ((if i =? nt then n0 + (n - n0 * nt) else n0) - 1)%Z in
  let g := (if (1 <? i) && (i <? nt) then Z.max (o + 1) 2 else ng)%Z in
  let gmin := if (i =? 1)%Z && negb (i =? nt)%Z then lo else lo + n_of_Z ((i - 1) * n0) * d in
  MAxis ((i - 1) * n0) cells g gmin.

Record mtile := MTile { m_x : maxis; m_y : maxis; m_z : maxis }.
Definition m_min (t : mtile) : idx := (ma_min (m_x t), ma_min (m_y t), ma_min (m_z t)).
Definition m_cells (t : mtile) : idx := (ma_cells (m_x t), ma_cells (m_y t), ma_cells (m_z t)).
Definition m_g (t : mtile) : idx := (ma_g (m_x t), ma_g (m_y t), ma_g (m_z t)).

(** tiling.F90:834-839: the array of the tile, set to zero in charge_deposition_manager.F90:331 *)
Definition tile_zero (t : mtile) : grid (num N) :=
  let '(c1, c2, c3) := m_cells t in let '(g1, g2, g3) := m_g t in
  (Grid (- g1, - g2, - g3) (c1 + g1, c2 + g2, c3 + g3) (fun _ => n_lit 0 0))%Z.

(** one species: ldodepos, charge, and for each tile positions and weights of its particles *)
Record species := Species { s_depos : bool; s_q : num N; s_parts : idx -> list (pos3 N * num N) }.
(** the routine called for a tile (func_order, or pxr_depose_rho_n): np, positions, weights, charge, grid of the tile *)
Definition charge_routine : Type := Z -> list (pos3 N) -> list (num N) -> num N -> Geom N -> grid (num N) -> out (grid (num N)).

(** charge_deposition_manager.F90:333-350 (562-580): loop on the species *)
Definition species_step (f : charge_routine) (d : num N * num N * num N) (t : mtile) (q : idx) (s : species) (st : grid (num N) * bool) :
    out (grid (num N) * bool) :=
  if negb (s_depos s) then Ret st else
  let ps := s_parts s q in
  if (zlen ps =? 0)%Z then Ret st else
  let '(dx, dy, dz) := d in
  do a <- f (zlen ps) (map fst ps) (map snd ps) (s_q s) (Build_Geom (ma_gmin (m_x t)) (ma_gmin (m_y t)) (ma_gmin (m_z t)) dx dy dz) (fst st);
  Ret (a, true).
Definition tile_deposit (f : charge_routine) (d : num N * num N * num N) (t : mtile) (q : idx) (ss : list species) : out (grid (num N) * bool) :=
  for_each (species_step f d t q) ss (tile_zero t, false).

(** an element of an assignment g(lo:hi) = g(lo:hi) + v *)
Notation update := (idx * num N)%type.
Definition shape3 (lo hi : idx) : idx :=
  let '(a1, a2, a3) := lo in let '(b1, b2, b3) := hi in (b1 - a1 + 1, b2 - a2 + 1, b3 - a3 + 1)%Z.
(** g(lo:hi) = g(lo:hi) + arr(alo:ahi); the shapes have to agree *)
Definition section_add (lo hi : idx) (arr : grid (num N)) (alo ahi : idx) : out (list update) :=
  if negb (idx_eqb (shape3 lo hi) (shape3 alo ahi)) then UB else
  mapM (fun pq => do v <- get3 arr (snd pq); Ret (fst pq, v)) (combine (box lo hi) (box alo ahi)).

Inductive phase := Inner | FaceX | FaceY | FaceZ.
(** charge_deposition_manager.F90:351-354 (inner), 390-397 (+/- X), 435-440 (+/- Y), 475-480 (+/- Z) *)
Definition tile_updates (ph : phase) (t : mtile) (arr : grid (num N)) : out (list update) :=
  (let '(jmin, kmin, lmin) := m_min t in let '(nxc, nyc, nzc) := m_cells t in let '(nxjg, nyjg, nzjg) := m_g t in
  let jmax := jmin + nxc in let kmax := kmin + nyc in let lmax := lmin + nzc in
  let jminc := jmin - nxjg in let jmaxc := jmax + nxjg in
  let kminc := kmin - nyjg in let kmaxc := kmax + nyjg in
  let lminc := lmin - nzjg in let lmaxc := lmax + nzjg in
  match ph with
  | Inner => section_add (jmin, kmin, lmin) (jmax, kmax, lmax) arr (0, 0, 0) (nxc, nyc, nzc)
  | FaceX =>
      do a <- section_add (jminc, kminc, lminc) (jmin - 1, kmaxc, lmaxc) arr (- nxjg, - nyjg, - nzjg) (-1, nyc + nyjg, nzc + nzjg);
      do b <- section_add (jmax + 1, kminc, lminc) (jmaxc, kmaxc, lmaxc) arr (nxc + 1, - nyjg, - nzjg) (nxc + nxjg, nyc + nyjg, nzc + nzjg);
      Ret (a ++ b)
  | FaceY =>
      do a <- section_add (jmin, kminc, lminc) (jmax, kmin - 1, lmaxc) arr (0, - nyjg, - nzjg) (nxc, -1, nzc + nzjg);
      do b <- section_add (jmin, kmax + 1, lminc) (jmax, kmaxc, lmaxc) arr (0, nyc + 1, - nzjg) (nxc, nyc + nyjg, nzc + nzjg);
      Ret (a ++ b)
  | FaceZ =>
      do a <- section_add (jmin, kmin, lminc) (jmax, kmax, lmin - 1) arr (0, 0, - nzjg) (nxc, nyc, -1);
      do b <- section_add (jmin, kmin, lmax + 1) (jmax, kmax, lmaxc) arr (0, 0, nzc + 1) (nxc, nyc, nzc + nzjg);
      Ret (a ++ b)
  end)%Z.

(** *** Threads.  This models the language. *)
(** A thread has updates to make, one after the other; an update of an element is a load into a register and a store.  The
    iterations of a loop under [!$OMP DO] are given to the threads in any way, and the loads and stores of the threads
    are interleaved in any way, as nothing in these loops is atomic or critical.  Simplification: a thread does not load several elements
    at once before it stores the first. *)
Record thread := Thread { todo : list update; reg : option (num N) }.
Definition advance (G : grid (num N)) (t : thread) : out (grid (num N) * thread) :=
  match todo t with
  | [] => Ret (G, t)
  | (p, x) :: l =>
      match reg t with
      | None => do v <- get3 G p; Ret (G, Thread ((p, x) :: l) (Some v))
      | Some v => do G' <- set3 G p (v + x); Ret (G', Thread l None)
      end
  end.
Fixpoint advance_nth (i : nat) (G : grid (num N)) (ts : list thread) : out (grid (num N) * list thread) :=
  match ts, i with
  | [], _ => Ret (G, [])
  | t :: ts', O => do r <- advance G t; Ret (fst r, snd r :: ts')
  | t :: ts', S j => do r <- advance_nth j G ts'; Ret (fst r, t :: snd r)
  end.
(** a schedule says which thread does the next load or store *)
Fixpoint run (sched : list nat) (G : grid (num N)) (ts : list thread) : out (grid (num N) * list thread) :=
  match sched with
  | [] => Ret (G, ts)
  | i :: s => do r <- advance_nth i G ts; run s (fst r) (snd r)
  end.
Definition finished (ts : list thread) : Prop := forall t, In t ts -> todo t = [] /\ reg t = None.

(** the outcome r is possible for a parallel loop over [tiles] with at most n threads whose iterations make the updates [body] *)
Definition loop_outcome (n : Z) (body : idx -> out (list update)) (tiles : list idx) (G : grid (num N)) (r : out (grid (num N))) : Prop :=
  exists threads sched, Permutation (concat threads) tiles /\ (zlen threads <= n)%Z /\
  match mapM (fun th => do l <- mapM body th; Ret (concat l)) threads with
  | Ret todos =>
      match run sched G (map (fun l => Thread l None) todos) with
      | Ret (G', ts') => finished ts' /\ r = Ret G'
      | _ => r = UB
      end
  | _ => r = UB
  end.

(** charge_deposition_manager.F90:312-484 (542-750): the four loops; a tile where nothing was deposited is left out *)
Definition tile_body (mesh : idx -> mtile) (arrs : idx -> grid (num N) * bool) (ph : phase) (q : idx) : out (list update) :=
  if snd (arrs q) then tile_updates ph (mesh q) (fst (arrs q)) else Ret [].
Definition reduce_outcome (n : Z) (mesh : idx -> mtile) (arrs : idx -> grid (num N) * bool) (tiles : list idx) (G : grid (num N)) (r : out (grid (num N))) : Prop :=
  exists r1 r2 r3,
    loop_outcome n (tile_body mesh arrs Inner) tiles G r1 /\
    match r1 with
    | Ret G1 => loop_outcome n (tile_body mesh arrs FaceX) tiles G1 r2 /\
        match r2 with
        | Ret G2 => loop_outcome n (tile_body mesh arrs FaceY) tiles G2 r3 /\
            match r3 with Ret G3 => loop_outcome n (tile_body mesh arrs FaceZ) tiles G3 r | _ => r = UB end
        | _ => r = UB
        end
    | _ => r = UB
    end.
(** the whole routine; a tile's own array is written by one thread only *)
Definition depose_outcome (n : Z) (f : charge_routine) (d : num N * num N * num N) (mesh : idx -> mtile) (tiles : list idx) (ss : list species)
    (G : grid (num N)) (r : out (grid (num N))) : Prop :=
  if forallb (fun q => match tile_deposit f d (mesh q) q ss with Ret _ => true | _ => false end) tiles
  then exists arrs, (forall q, In q tiles -> tile_deposit f d (mesh q) q ss = Ret (arrs q)) /\ reduce_outcome n mesh arrs tiles G r
  else r = UB.
End DepositTiles.
Arguments maxis : clear implicits. Arguments mtile : clear implicits. Arguments species : clear implicits. Arguments thread : clear implicits.
Arguments charge_routine : clear implicits.
