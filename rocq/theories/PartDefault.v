(** Model of the boundary conditions of the particles that are used by default in 3D:
    src/boundary_conditions/particle_boundaries.F90, particle_bcs_tiles_and_mpi_3d (2107-3030), which exchanges the particles between
    the tiles and between the processes in one pass.  One species.
    Simplifications: the arrays part_x, part_y, ..., pid of a buffer (and of a message) are one array of records; the messages
    of the counts have 4 bytes while the variable k has 8 (little endian is assumed); the branches under IF (.FALSE.) are left out. *)
From Coq Require Import ZArith List Bool.
From Verif Require Import Cxx Num Fortran Grid Deposit Tiles PartBC.
Import ListNotations.
Local Open Scope Z_scope.

Section PartDefault.
Context {N : FNum}.
Local Open Scope num_scope.
Notation half := (n_lit 5 (-1)).
Notation two := (n_lit 2 0).

(** particle_boundaries.F90:2303-2368 (x), 2370-2434 (y), 2436-2501 (z): what happens to a particle outside of the local domain in
    one direction *)
Definition default_axis (t : tile N) (B : bnd N) (a : dir) (p : part N) : moved N :=
  let b := b_axis B a in
  let x := pos a p in
  if x <? b_plo b then
    if b_atlo b then
      match b_klo b with
      | 1%Z => Gone
      | 3%Z => Stays (reinject t B (set_pos a (two * b_glo b - pos a p) p))
      | _ => Goes (set_pos a (x + b_len b) p) (-1)
      end
    else Goes p (-1)
  else if b_phi b <=? x then
    if b_athi b then
      match b_khi b with
      | 1%Z => Gone
      | 3%Z => Stays (reinject t B (set_pos a (two * b_ghi b - pos a p) p))
      | _ => Goes (set_pos a (x - b_len b) p) 1
      end
    else Goes p 1
  else Goes p 0.

(** particle_boundaries.F90:2298-2501: all three directions *)
Definition default_fate (t : tile N) (B : bnd N) (p : part N) : fate N :=
  match default_axis t B DirX p with
  | Gone => Drop | Stays p => Keep p
  | Goes p xbd =>
      match default_axis t B DirY p with
      | Gone => Drop | Stays p => Keep p
      | Goes p ybd =>
          match default_axis t B DirZ p with
          | Gone => Drop | Stays p => Keep p
          | Goes p zbd => Leave p (xbd, ybd, zbd)
          end
      end
  end.

(** particle_boundaries.F90:2506: ib = 2+xbd + (1+ybd)*3 + (1+zbd)*9 *)
Definition slot (d : idx) : Z := let '(x, y, z) := d in (2 + x + (1 + y) * 3 + (1 + z) * 9)%Z.

(** modules.F90:861-930 mpi_tile_buffer: the buffers of a tile, one for each of the 27 directions, all with the same number of elements;
    tb_size is [None] if they are not allocated *)
Record tbuf := TBuf { tb_size : option Z; tb_col : Z -> list (option (part N)); tb_np : Z -> Z }.
(** modification of a function on integers *)
Definition updz {A} (f : Z -> A) (i : Z) (a : A) : Z -> A := fun j => if (i =? j)%Z then a else f j.

(** particle_boundaries.F90:2252-2263: allocation, npart(1:27) = 0 *)
Definition new_tbuf (bs : Z) (t : tile N) : tbuf :=
  TBuf (if t_bound t then Some bs else None) (fun _ => repeat None (Z.to_nat bs)) (fun _ => 0%Z).

(** particle_boundaries.F90:2508-2544: the particle is put into the buffer of direction ib; a full buffer is doubled *)
Definition put_in_tbuf (ib : Z) (p : part N) (b : tbuf) : out tbuf :=
  match tb_size b with
  | None => UB
  | Some n =>
      if ((1 <=? ib) && (ib <=? 27))%Z then
        let k := (tb_np b ib + 1)%Z in
        do col <- set1 (tb_col b ib) k (Some p);
        let cols := updz (tb_col b) ib col in
        if (k =? n)%Z
        then do l <- mapM (fun j => resize_array (cols j) n (n * 2)) (zrange 1 27);
             Ret (TBuf (Some (n * 2)%Z) (fun j => nth (Z.to_nat (j - 1)) l []) (updz (tb_np b) ib k))
        else Ret (TBuf (Some n) cols (updz (tb_np b) ib k))
      else UB
  end.

(** particle_boundaries.F90:2555-2560 and 2921-2926: the tile of a position; the grid is that of [tile_index], but multiplied
    with the inverse of the length of a tile *)
Definition default_index (g : ageo N) (n0 : Z) (x : num N) : out Z :=
  do f <- floor64 ((x - ag_lo g + ag_d g * half) * (n_of_Z 1 / (n_of_Z n0 * ag_d g)));
  Ret (Z.min (f + 1) (ag_nt g)).
Definition default_target (D : dom N) (n0 : idx) (p : part N) : out idx :=
  let '(n1, n2, n3) := n0 in
  do i <- default_index (dX D) n1 (px p); do j <- default_index (dY D) n2 (py p); do k <- default_index (dZ D) n3 (pz p);
  Ret (i, j, k).

(** particle_boundaries.F90:2270-2565: particle i of tile q; the state is the tiles and the buffers of the tiles *)
Definition default_particle (D : dom N) (B : bnd N) (n0 : idx) (q : idx) (i : Z) (s : grid (tile N) * grid tbuf) : out (grid (tile N) * grid tbuf) :=
  let '(T, F) := s in
  do t <- get3 T q;
  do o <- get1 (t_arr t) i;
  match o with
  | None => UB
  | Some p =>
      if inside t p then Ret s
      else if outside D p then
        match default_fate t B p with
        | Drop => do T <- rm_particle_at_tile q i T; Ret (T, F)
        | Keep p' =>
            do arr <- set1 (t_arr t) i (Some p');
            do T <- set3 T q (set_arrays t (t_np t) (t_max t) arr (t_moved t)); Ret (T, F)
        | Leave p' d =>
            do b <- get3 F q; do b <- put_in_tbuf (slot d) p' b; do F <- set3 F q b;
            do T <- rm_particle_at_tile q i T; Ret (T, F)
        end
      else do r <- default_target D n0 p;
           do T <- rm_particle_at_tile q i T;
           do T <- add_particle_at_tile r p T; Ret (T, F)
  end.

(** particle_boundaries.F90:2249-2263: the start of the iteration of a tile *)
Definition default_start (bs : Z) (q : idx) (s : grid (tile N) * grid tbuf) : out (grid (tile N) * grid tbuf) :=
  let '(T, F) := s in
  do t <- get3 T q; do F <- set3 F q (new_tbuf bs t); Ret (T, F).

(** particle_boundaries.F90:2577-2582: the numbers of particles to be sent; the directives around it are not
    OpenMP directives, since they start with !OMP and not with !$OMP *)
Definition add_counts (c : Z -> Z) (b : tbuf) : Z -> Z := fun ib => (c ib + tb_np b ib)%Z.

(** particle_boundaries.F90:2249-2584: one tile, without interruption; the state contains mpi_npart *)
Definition default_tile (bs : Z) (D : dom N) (B : bnd N) (n0 : idx) (q : idx) (s : grid (tile N) * grid tbuf * (Z -> Z)) : out (grid (tile N) * grid tbuf * (Z -> Z)) :=
  let '(T, F, c) := s in
  do t <- get3 T q;
  let nptile := t_np t in
  do s <- default_start bs q (T, F);
  do s <- do_range_down nptile 1 (default_particle D B n0 q) s;
  let '(T, F) := s in
  do t <- get3 T q; do b <- get3 F q;
  Ret (T, F, if t_bound t then add_counts c b else c).

(** particle_boundaries.F90:2191-2193, 2208-2594: part 1, with one thread *)
Definition no_tbufs (D : dom N) : grid tbuf :=
  Grid (1, 1, 1)%Z (ag_nt (dX D), ag_nt (dY D), ag_nt (dZ D)) (fun _ => TBuf None (fun _ => []) (fun _ => 0%Z)).
Definition default_part1 (bs : Z) (D : dom N) (B : bnd N) (T : grid (tile N)) : out (grid (tile N) * grid tbuf * (Z -> Z)) :=
  do n0 <- first_tile T;
  for_each (default_tile bs D B n0) (flat_map (colour D) colours) (T, no_tbufs D, fun _ => 0%Z).

(** particle_boundaries.F90:2613, 2620-2660: the buffer of direction ib that is sent, for which there are cap elements *)
Definition send_tile (F : grid tbuf) (cap ib : Z) (q : idx) (m : list (option (part N))) : out (list (option (part N))) :=
  do b <- get3 F q;
  let k := tb_np b ib in
  if (k =? 0)%Z then Ret m else
  match tb_size b with
  | None => UB
  | Some n => if ((k <=? n) && (zlen m + k <=? cap))%Z then Ret (m ++ firstn (Z.to_nat k) (tb_col b ib)) else UB
  end.
Definition send_buffer (D : dom N) (F : grid tbuf) (cap ib : Z) : out (list (option (part N))) :=
  for_each (send_tile F cap ib) (all_tiles D) [].
(** MAXVAL(mpi_npart(:, :)) *)
Definition maxval (c : Z -> Z) : Z := fold_right (fun ib => Z.max (c ib)) 0%Z (zrange 1 27).
Definition default_part2 (D : dom N) (F : grid tbuf) (c : Z -> Z) : out (list (list (option (part N)))) :=
  mapM (fun d => send_buffer D F (maxval c) (slot d)) directions.

(** particle_boundaries.F90:2731-2767: the numbers of particles are sent from the variable k, which gets its next value while the
    messages are under way.  The message of direction number i is read [late] iterations after it has been sent. *)
Definition count_read (counts : list Z) (i late : nat) : Z := nth (Nat.min (i + late) (length counts - 1)) counts 0%Z.

(** particle_boundaries.F90:2847-2879: the message m is received where j particles are expected: MPI reports an error for a longer
    message.  A shorter one would be put in wrong places, here UB. *)
Definition default_receive (npid j : Z) (m : list (option (part N))) : out (list (option (part N))) :=
  do _ <- int32 ((7 + npid) * zlen m)%Z;
  if (zlen m =? j)%Z then Ret m else if (j <? zlen m)%Z then Throw else UB.

(** particle_boundaries.F90:2931-2955: the particle is added to the tile *)
Definition take_particle (t : tile N) (p : part N) : out (tile N) := if t_alloc t then add_to_tile t p else UB.

(** particle_boundaries.F90:2907-2963: tile q takes its particles out of what has been received *)
Definition take_tile (D : dom N) (n0 : idx) (buf : list (option (part N))) (q : idx) (T : grid (tile N)) : out (grid (tile N)) :=
  do t <- get3 T q;
  if negb (t_bound t) then Ret T else
  do t <- for_each (fun o t =>
    match o with
    | None => UB
    | Some p => do r <- default_target D n0 p; if idx_eqb r q then take_particle t p else Ret t
    end) buf t;
  set3 T q t.
(** particle_boundaries.F90:2891-2969 *)
Definition default_part4 (D : dom N) (buf : list (option (part N))) (s : grid (tile N) * Z) : out (grid (tile N) * Z) :=
  if (0 <? zlen buf)%Z then
    do n0 <- first_tile (fst s);
    do T <- for_each (take_tile D n0 buf) (all_tiles D) (fst s);
    Ret (T, (snd s + zlen buf)%Z)
  else Ret s.

(** parts 1 and 2 on one process: the tiles and the messages, in the order of the directions *)
Definition default_local (bs : Z) (D : dom N) (B : bnd N) (T : grid (tile N)) : out (grid (tile N) * list (list (option (part N)))) :=
  do s <- default_part1 bs D B T;
  let '(T, F, c) := s in
  do ms <- default_part2 D F c;
  Ret (T, ms).
End PartDefault.
Arguments tbuf : clear implicits.

(** particle_boundaries.F90:2107-2976 on process r, with one thread on each process.  The tag of a message is ib, so what is
    received in direction d is what the sender has sent in direction d.  [late s i]: how late the count number i of process
    s is read (0: at once). *)
Definition particle_bcs_tiles_and_mpi {N : FNum} (late : idx -> nat -> nat) (bs npid : Z) (np : idx) (D : idx -> dom N) (B : idx -> bnd N) (W : idx -> grid (tile N) * Z) (r : idx) :
    out (grid (tile N) * Z) :=
  do me <- default_local bs (D r) (B r) (fst (W r));
  do bufs <- mapM (fun d =>
    let s := neighbour np r (opposite d) in
    let i := index_of d directions in
    do l <- default_local bs (D s) (B s) (fst (W s));
    do m <- get1 (snd l) (Z.of_nat i + 1);
    default_receive npid (count_read (map (fun m => zlen m) (snd l)) i (late s i)) m) directions;
  default_part4 (D r) (concat bufs) (fst me, snd (W r)).
