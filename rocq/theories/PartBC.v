(** Model of the boundary conditions of the particles and of their exchange between
    processes (blocking version): src/boundary_conditions/particle_boundaries.F90 and the set up of the
    boundaries in src/parallelization/mpi/mpi_routines.F90.  3D, one species. *)
From Coq Require Import ZArith List Bool.
From Verif Require Import Cxx Num Fortran Grid Deposit Tiles.
Import ListNotations.
Local Open Scope Z_scope.

Section PartBC.
Context {N : FNum}.
Local Open Scope num_scope.
Notation half := (n_lit 5 (-1)).
Notation two := (n_lit 2 0).
Notation zero := (n_lit 0 0).

(** x_min_local_part, x_max_local_part, x_min_boundary_part, x_max_boundary_part, pbound_x_min,
    pbound_x_max, xmin_part, xmax_part, length_x_part, dx, and the same for y and z *)
Record bax := BAx { b_plo : num N; b_phi : num N; b_atlo : bool; b_athi : bool; b_klo : Z; b_khi : Z;
                    b_glo : num N; b_ghi : num N; b_len : num N; b_d : num N }.
Record bnd := Bnd { bX : bax; bY : bax; bZ : bax }.

(** mpi_routines.F90:1599-1628 (x), 1629-1658 (y), 1659-1688 (z), 1691-1693: lo and hi are x_min_local and
    x_max_local, atlo and athi x_min_boundary and x_max_boundary *)
Definition part_axis (klo khi : Z) (offlo offhi xmin xmax lo hi d : num N) (atlo athi : bool) : bax :=
  let inside v := (lo <=? v) && (v <? hi) in
  let special k := ((k =? 3) || (k =? 1))%Z in
  let glo := if special klo then xmin + offlo else xmin in
  let ghi := if special khi then xmax + offhi else xmax in
  BAx (if special klo then (if inside glo then glo else lo) else lo)
      (if special khi then (if inside ghi then ghi else hi) else hi)
      (if special klo then inside glo else atlo)
      (if special khi then inside ghi else athi)
      klo khi glo ghi (ghi - glo) d.

(** mpi_routines.F90:1437-1439 (nx0), 1443-1459 (nxp) and 1461-1492: the arrays cell_x_min and cell_x_max of one
    direction with n cells and np processes; [None] is an undefined element *)
Definition cells := (list (option Z) * list (option Z))%type.
Definition next_cells (w idim : Z) (s : cells) : out cells :=
  do o <- get1 (snd s) (idim - 1)%Z;
  match o with
  | None => UB
  | Some m =>
      do mins <- set1 (fst s) idim (Some (m + 1)%Z);
      do o <- get1 mins idim;
      match o with None => UB | Some k => do maxs <- set1 (snd s) idim (Some (k + w)%Z); Ret (mins, maxs) end
  end.
Definition regular_split (n np : Z) : out cells :=
  if (np =? 0)%Z then UB else
  let nx0 := (n ÷ np)%Z in
  let nxp := (if nx0 * np =? n then np else (nx0 + 1) * np - n)%Z in
  let new := repeat None (Z.to_nat np) in
  do mins <- set1 new 1 (Some 0%Z);
  do maxs <- set1 new 1 (Some (nx0 - 1)%Z);
  do s <- do_range 2 nxp (next_cells (nx0 - 1)%Z) (mins, maxs);
  do_range (nxp + 1)%Z np (next_cells nx0) s.

(** mpi_routines.F90:1494-1495, 1505-1518 (dx), 1729, 1740-1741, 1579-1580 and 545-548: one direction of the process
    with coordinate c, whose cells are cmin to cmax, with nt0 tiles, and [part_axis] *)
Definition process_axis (klo khi : Z) (offlo offhi xmin xmax : num N) (n np nt0 c cmin cmax : Z) : ageo N * bax :=
  let dx := (xmax - xmin) / n_of_Z n in
  let lo := xmin + n_of_Z cmin * dx in
  let hi := xmin + n_of_Z (cmax + 1) * dx in
  let b := part_axis klo khi offlo offhi xmin xmax lo hi dx (c =? 0)%Z (c =? np - 1)%Z in
  (AGeo lo dx (ntiles (cmax + 1 - cmin + 1) nt0) (b_plo b) (b_phi b), b).

(** the three directions; the source has the same lines for x, y and z *)
Inductive dir := DirX | DirY | DirZ.
Definition b_axis (B : bnd) (a : dir) : bax := match a with DirX => bX B | DirY => bY B | DirZ => bZ B end.
Definition pos (a : dir) (p : part N) : num N := match a with DirX => px p | DirY => py p | DirZ => pz p end.
Definition set_pos (a : dir) (v : num N) (p : part N) : part N :=
  match a with
  | DirX => Part v (py p) (pz p) (pux p) (puy p) (puz p) (pgi p) (ppid p)
  | DirY => Part (px p) v (pz p) (pux p) (puy p) (puz p) (pgi p) (ppid p)
  | DirZ => Part (px p) (py p) v (pux p) (puy p) (puz p) (pgi p) (ppid p)
  end.
Definition flip (a : dir) (p : part N) : part N :=
  match a with
  | DirX => Part (px p) (py p) (pz p) (- pux p) (puy p) (puz p) (pgi p) (ppid p)
  | DirY => Part (px p) (py p) (pz p) (pux p) (- puy p) (puz p) (pgi p) (ppid p)
  | DirZ => Part (px p) (py p) (pz p) (pux p) (puy p) (- puz p) (pgi p) (ppid p)
  end.

(** MAX and MIN *)
Definition fmax (a b : num N) : num N := if a <? b then b else a.
Definition fmin (a b : num N) : num N := if b <? a then b else a.

(** particle_boundaries.F90:1119-1128 and its repetitions: momentum zero, then the sanity check *)
Definition reinject (t : tile N) (B : bnd) (p : part N) : part N :=
  let c (a : taxis N) (b : bax) x := fmin (fmax x (ta_min a + half * b_d b)) (ta_max a - half * b_d b) in
  Part (c (t_x t) (bX B) (px p)) (c (t_y t) (bY B) (py p)) (c (t_z t) (bZ B) (pz p)) zero zero zero (pgi p) (ppid p).

(** what happens to a particle in one direction: [Goes p b] with xbd (or ybd, zbd) = b, or CYCLE with the
    particle kept or removed *)
Inductive moved := Goes (p : part N) (b : Z) | Stays (p : part N) | Gone.

(** particle_boundaries.F90:1104-1167 (x), 1169-1232 (y), 1234-1298 (z) *)
Definition bc_axis (t : tile N) (B : bnd) (a : dir) (p : part N) : moved :=
  let b := b_axis B a in
  let x := pos a p in
  let lower :=
    if x <? b_plo b then
      if b_atlo b then
        match b_klo b with
        | 1%Z => Gone
        | 2%Z => Goes (flip a (set_pos a (x + b_d b) p)) 0
        | 3%Z => Stays (reinject t B (set_pos a (two * b_glo b - pos a p) p))
        | _ => Goes (set_pos a (x + b_len b) p) (-1)
        end
      else Goes p (-1)
    else Goes p 0 in
  match lower with
  | Goes p0 _ =>
      if b_phi b <=? x then
        if b_athi b then
          match b_khi b with
          | 1%Z => Gone
          | 2%Z => Goes (flip a (set_pos a (x - b_d b) p0)) 0
          | 3%Z => Stays (reinject t B (set_pos a (two * b_ghi b - pos a p0) p0))
          | _ => Goes (set_pos a (x - b_len b) p0) 1
          end
        else Goes p0 1
      else lower
  | _ => lower
  end.

(** the particle is removed, stays in its tile, or is sent in direction (xbd, ybd, zbd) *)
Inductive fate := Drop | Keep (p : part N) | Leave (p : part N) (d : idx).

(** particle_boundaries.F90:1099-1300: all three directions *)
Definition bc_particle (t : tile N) (B : bnd) (p : part N) : fate :=
  match bc_axis t B DirX p with
  | Gone => Drop | Stays p => Keep p
  | Goes p xbd =>
      match bc_axis t B DirY p with
      | Gone => Drop | Stays p => Keep p
      | Goes p ybd =>
          match bc_axis t B DirZ p with
          | Gone => Drop | Stays p => Keep p
          | Goes p zbd => if (0 <? Z.abs xbd + Z.abs ybd + Z.abs zbd)%Z then Leave p (xbd, ybd, zbd) else Keep p
          end
      end
  end.

(** modules.F90:461-465 buff_part, and nptoexch of the same direction *)
Record sbuf := SBuf { sb_i : Z; sb_n : Z; sb_arr : list (option (num N)); sb_np : Z }.

(** particle_boundaries.F90:1303-1320: the particle is packed behind those that are in the buffer *)
Definition put_in_buffer (npid : Z) (p : part N) (b : sbuf) : out sbuf :=
  let nvar := (npid + 7)%Z in
  let i := sb_i b in
  do need <- int32 (i + nvar)%Z;
  do b <- (if (sb_n b <? need)%Z
           then let nnew := (2 * (sb_n b + nvar + 1))%Z in
                do a <- resize_array (sb_arr b) (sb_n b) nnew; Ret (SBuf i nnew a (sb_np b))
           else Ret b);
  do a <- set1 (sb_arr b) i (Some (px p));
  do a <- set1 a (i + 1)%Z (Some (py p));
  do a <- set1 a (i + 2)%Z (Some (pz p));
  do a <- set1 a (i + 3)%Z (Some (pux p));
  do a <- set1 a (i + 4)%Z (Some (puy p));
  do a <- set1 a (i + 5)%Z (Some (puz p));
  do a <- set1 a (i + 6)%Z (Some (pgi p));
  do a <- do_range 1 npid (fun j a => do v <- get1 (ppid p) j; set1 a (i + 6 + j)%Z (Some v)) a;
  let np := (sb_np b + 1)%Z in
  Ret (SBuf (np * nvar + 1)%Z (sb_n b) a np).

(** particle_boundaries.F90:1099-1322: one iteration of the loop over the particles of a tile; the state is the
    particle array, the mask and the send buffers *)
Definition tile_particle (npid : Z) (t : tile N) (B : bnd) (i : Z) (s : list (option (part N)) * list bool * grid sbuf) :
    out (list (option (part N)) * list bool * grid sbuf) :=
  let '(arr, mask, bufs) := s in
  do o <- get1 arr i;
  match o with
  | None => UB
  | Some p =>
      match bc_particle t B p with
      | Drop => do mask <- set1 mask i false; Ret (arr, mask, bufs)
      | Keep p => do arr <- set1 arr i (Some p); Ret (arr, mask, bufs)
      | Leave p d =>
          do arr <- set1 arr i (Some p);
          do mask <- set1 mask i false;
          do b <- get3 bufs d; do b <- put_in_buffer npid p b; do bufs <- set3 bufs d b;
          Ret (arr, mask, bufs)
      end
  end.

(** particle_boundaries.F90:1091-1325: one tile; the state is the tiles, species_npart and the send buffers *)
Definition bc_tile (npid : Z) (B : bnd) (q : idx) (s : grid (tile N) * Z * grid sbuf) : out (grid (tile N) * Z * grid sbuf) :=
  let '(T, npart, bufs) := s in
  do t <- get3 T q;
  if negb (t_bound t) then Ret s else
  do r <- do_range 1 (t_np t) (tile_particle npid t B) (t_arr t, repeat true (Z.to_nat (t_np t)), bufs);
  let '(arr, mask, bufs) := r in
  do u <- rm_with_mask mask (set_arrays t (t_np t) (t_max t) arr (t_moved t)) npart;
  do T <- set3 T q (fst u);
  Ret (T, snd u, bufs).

(** particle_boundaries.F90:1068-1329: what a process does before the messages are exchanged *)
Definition empty_bufs : grid sbuf := Grid (-1, -1, -1)%Z (1, 1, 1)%Z (fun _ => SBuf 1 1 [None] 0).
Definition local_phase (npid : Z) (D : dom N) (B : bnd) (s : grid (tile N) * Z) : out (grid (tile N) * Z * grid sbuf) :=
  for_each (bc_tile npid B) (all_tiles D) (fst s, snd s, empty_bufs).

(** particle_boundaries.F90:1340-1350: sendbuf%buff_arr(1:nsend_buf) *)
Definition message (npid : Z) (b : sbuf) : out (list (option (num N))) :=
  let n := (sb_np b * (npid + 7))%Z in
  if (n <=? zlen (sb_arr b))%Z then Ret (firstn (Z.to_nat n) (sb_arr b)) else UB.

(** an element of the message; an undefined one is UB *)
Definition value (m : list (option (num N))) (i : Z) : out (num N) :=
  do o <- get1 m i; match o with Some v => Ret v | None => UB end.

(** particle_boundaries.F90:1351-1356: DO i = 1, nrecv_buf, nvar *)
Definition receive (npid : Z) (D : dom N) (m : list (option (num N))) (s : grid (tile N) * Z) : out (grid (tile N) * Z) :=
  let nvar := (npid + 7)%Z in
  do_range 1 ((zlen m - 1 + nvar) ÷ nvar)%Z (fun k s =>
    let i := (1 + (k - 1) * nvar)%Z in
    do x <- value m i; do y <- value m (i + 1)%Z; do z <- value m (i + 2)%Z;
    do ux <- value m (i + 3)%Z; do uy <- value m (i + 4)%Z; do uz <- value m (i + 5)%Z; do gi <- value m (i + 6)%Z;
    do pid <- mapM (fun j => value m (i + 6 + j)%Z) (zrange 1 npid);
    add_particle_to_species D (Part x y z ux uy uz gi pid) s) s.
End PartBC.
Arguments bax : clear implicits. Arguments bnd : clear implicits. Arguments sbuf : clear implicits. Arguments fate : clear implicits. Arguments moved : clear implicits.

(** *** The processes *)
(** mpi_routines.F90:562-582 with periods = .TRUE. (502-504): the process in direction d; processes are named by
    their coordinates, and MPI_CART_RANK wraps coordinates outside the range around *)
Definition neighbour (np r d : idx) : idx :=
  let '(n1, n2, n3) := np in let '(a, b, c) := r in let '(x, y, z) := d in
  ((a + x) mod n1, (b + y) mod n2, (c + z) mod n3).
Definition opposite (d : idx) : idx := let '(x, y, z) := d in (- x, - y, - z).
(** particle_boundaries.F90:1333-1336: the directions, in program order *)
Definition directions : list idx := filter (fun d => negb (idx_eqb d (0, 0, 0))) (box (-1, -1, -1) (1, 1, 1)).
Definition processes (np : idx) : list idx := let '(n1, n2, n3) := np in box (0, 0, 0) (n1 - 1, n2 - 1, n3 - 1).

(** MPI: of the messages from one process to another with the same tag, the k-th receive gets the k-th one
    sent.  Process r receives in direction d from s = neighbour(-d).  The two messages of a direction (the
    count and the data) are matched in the same way. *)
Definition sent (np s r : idx) : list idx := filter (fun d => idx_eqb (neighbour np s d) r) directions.
Definition received (np r s : idx) : list idx := filter (fun d => idx_eqb (neighbour np r (opposite d)) s) directions.
Fixpoint index_of (d : idx) (l : list idx) : nat :=
  match l with [] => O | a :: l' => if idx_eqb a d then O else S (index_of d l') end.
(** the direction in which the sender has sent the message that r receives in direction d *)
Definition matched (np r d : idx) : option idx :=
  let s := neighbour np r (opposite d) in nth_error (sent np s r) (index_of d (received np r s)).

(** particle_boundaries.F90:1040-1371 particle_bcs_mpi_blocking on process r; a receive for which there is no message
    would never end *)
Definition particle_bcs_mpi_blocking {N : FNum} (npid : Z) (np : idx) (D : idx -> dom N) (B : idx -> bnd N) (W : idx -> grid (tile N) * Z) (r : idx) :
    out (grid (tile N) * Z) :=
  do me <- local_phase npid (D r) (B r) (W r);
  for_each (fun d s =>
    match matched np r d with
    | None => OutOfFuel
    | Some d' =>
        let src := neighbour np r (opposite d) in
        do l <- local_phase npid (D src) (B src) (W src);
        do b <- get3 (snd l) d';
        do m <- message npid b;
        receive npid (D r) m s
    end) directions (fst me).
