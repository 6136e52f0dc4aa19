(** C62-C67: the domain decomposition and the particle sorting of the Fortran kernels
    (src/housekeeping/load_balancing.F90, sorting.F90). *)
From Coq Require Import ZArith Reals List Bool Lia Lra Permutation Sorted.
From Flocq Require Import Core BinarySingleNaN.
From Verif Require Import Cxx Num NumRX NumIEEE Fortran FortranNum LoadBalance Sorting SpecDecomp SpecSorting
  FortranLemmas DecompProofs BalanceProofs SortingProofs DecompExamples.
Import ListNotations.
Local Open Scope Z_scope.

(** ** C62: which process owns a cell *)
(** the answer is an owner or -1, whatever the arrays contain *)
Theorem C62_sound : forall ic mins maxs, length mins = length maxs ->
  exists r, get_proc_interval ic mins maxs (Z.of_nat (length mins)) = Ret r /\
    (r = -1 \/ owns mins maxs r ic).
Proof. exact get_proc_interval_sound. Qed.
Print Assumptions C62_sound.

Theorem C62_finds_owner : forall ic mins maxs p, ordered_intervals mins maxs -> owns mins maxs p ic ->
  get_proc_interval ic mins maxs (Z.of_nat (length mins)) = Ret p.
Proof. exact get_proc_interval_complete. Qed.
Print Assumptions C62_finds_owner.

Theorem C62_no_owner : forall ic mins maxs, length mins = length maxs -> (forall p, ~ owns mins maxs p ic) ->
  get_proc_interval ic mins maxs (Z.of_nat (length mins)) = Ret (-1).
Proof. exact get_proc_interval_none. Qed.
Print Assumptions C62_no_owner.

Example C62_nonvacuous : ordered_intervals [0; 4; 9] [3; 8; 9] /\ owns [0; 4; 9] [3; 8; 9] 1 6 /\
  (forall p, ~ owns [0; 4; 9] [3; 8; 9] p 12).
Proof. exact ex_intervals. Qed.

(** ** C63: search of a rank in a sorted list *)
Theorem C63_search : forall crank arr, sorted_array arr ->
  exists r, binary_search crank arr (Z.of_nat (length arr)) = Ret r /\
    ((1 <= r <= Z.of_nat (length arr) /\ zel arr (r - 1) = crank) \/ (r = -1 /\ ~ In crank arr)).
Proof. exact binary_search_spec. Qed.
Print Assumptions C63_search.

(** without the order the answer is still an occurrence or -1 *)
Theorem C63_sound : forall crank arr,
  exists r, binary_search crank arr (Z.of_nat (length arr)) = Ret r /\
    (r = -1 \/ (1 <= r <= Z.of_nat (length arr) /\ zel arr (r - 1) = crank)).
Proof. exact binary_search_sound. Qed.
Print Assumptions C63_sound.

Example C63_nonvacuous : sorted_array [2; 2; 5; 9] /\ binary_search 5 [2; 2; 5; 9] 4 = Ret 3 /\ binary_search 4 [2; 2; 5; 9] 4 = Ret (-1).
Proof. exact ex_sorted. Qed.

(** ** C64: intersection of two boxes of nodes *)
Theorem C64_3d : forall a b, nonempty a -> nonempty b ->
  (fst (get_3Dintersection a b) = true <-> exists x y z, in_box a x y z /\ in_box b x y z) /\
  (fst (get_3Dintersection a b) = true ->
     forall x y z, in_box (snd (get_3Dintersection a b)) x y z <-> in_box a x y z /\ in_box b x y z).
Proof. exact get_3Dintersection_spec. Qed.
Print Assumptions C64_3d.

Theorem C64_2d : forall a b, nonempty a -> nonempty b ->
  (fst (get_2Dintersection a b) = true <->
     exists x z, (bx1 a <= x <= bx2 a /\ bz1 a <= z <= bz2 a) /\ (bx1 b <= x <= bx2 b /\ bz1 b <= z <= bz2 b)) /\
  (fst (get_2Dintersection a b) = true ->
     forall x z, in_box (snd (get_2Dintersection a b)) x 1 z <->
       (bx1 a <= x <= bx2 a /\ bz1 a <= z <= bz2 a) /\ (bx1 b <= x <= bx2 b /\ bz1 b <= z <= bz2 b)).
Proof. exact get_2Dintersection_spec. Qed.
Print Assumptions C64_2d.

(** sender and receiver, which compute it with the arguments exchanged, agree *)
Theorem C64_symmetric : forall a b, nonempty a -> nonempty b ->
  fst (get_3Dintersection a b) = fst (get_3Dintersection b a) /\
  (fst (get_3Dintersection a b) = true -> snd (get_3Dintersection a b) = snd (get_3Dintersection b a)).
Proof. exact get_3Dintersection_sym. Qed.
Print Assumptions C64_symmetric.

(** with an empty box the answer can be wrong *)
Theorem C64_empty_refuted : exists a b, nonempty a /\ fst (get_3Dintersection a b) = true /\
  forall x y z, ~ in_box b x y z.
Proof. exact intersection_empty. Qed.
Print Assumptions C64_empty_refuted.

Example C64_nonvacuous : nonempty (Box 0 4 0 4 0 4) /\ nonempty (Box 3 9 1 2 4 7) /\
  get_3Dintersection (Box 0 4 0 4 0 4) (Box 3 9 1 2 4 7) = (true, Box 3 4 1 2 4 4).
Proof. exact ex_boxes. Qed.

(** ** C65: balancing the load of one direction *)
(** in every arithmetic: the intervals follow each other from cell 0, none is empty,
    and at most the last cell of the grid belongs to nobody *)
Theorem C65_any_arithmetic : forall (N : FNum) (load : list (num N)) ncell nproc mins0 maxs0,
  zlen load = ncell -> 1 <= nproc -> zlen mins0 = nproc -> zlen maxs0 = nproc ->
  exists mins maxs, balance_in_dir load ncell nproc mins0 maxs0 = Ret (mins, maxs) /\
    zlen mins = nproc /\ zlen maxs = nproc /\ zel mins 0 = 0 /\
    (forall p, 0 <= p < nproc -> zel mins p <= zel maxs p) /\
    (forall p, 0 <= p -> p + 1 < nproc -> zel mins (p + 1) = zel maxs p + 1) /\
    ncell - 2 <= zel maxs (nproc - 1) /\
    (forall p, 0 <= p < nproc -> zel maxs p <= Z.max (zel mins p) (ncell - 1)).
Proof. exact @balance_in_dir_cover. Qed.
Print Assumptions C65_any_arithmetic.

(** exact arithmetic: process p ends at the first cell at which the load of all cells
    so far reaches (p+1) times the mean, and the whole grid is covered *)
Theorem C65_exact : forall rs ncell nproc B,
  zlen rs = ncell -> (B * IZR nproc)%R = total_load rs -> 1 <= ncell ->
  (forall j, (0 <= nth j rs 0)%R) -> (0 < nth (Z.to_nat (ncell - 1)) rs 0)%R ->
  forall mins0 maxs0, 1 <= nproc -> zlen mins0 = nproc -> zlen maxs0 = nproc ->
  exists mins maxs, balance_in_dir (N := FRX) (map Fin rs) ncell nproc mins0 maxs0 = Ret (mins, maxs) /\
    (forall p, 0 <= p < nproc ->
       (forall c, zel mins p <= c < zel maxs p -> (load_before rs (Z.to_nat (c + 1)) < (IZR p + 1) * B)%R) /\
       (zel maxs p < ncell - 1 -> (load_before rs (Z.to_nat (zel maxs p + 1)) >= (IZR p + 1) * B)%R)) /\
    ncell - 1 <= zel maxs (nproc - 1).
Proof. exact balance_exact. Qed.
Print Assumptions C65_exact.

(** if no cell carries more than the mean load, the cells are shared out exactly and
    the load of every process differs from the mean by less than the largest cell *)
Theorem C65_quality : forall rs nproc w mins0 maxs0,
  1 <= nproc -> zlen mins0 = nproc -> zlen maxs0 = nproc -> rs <> [] ->
  (forall x, In x rs -> (0 <= x <= w)%R) -> (0 < last rs 0)%R -> (w * IZR nproc <= total_load rs)%R ->
  exists mins maxs, balance_in_dir (N := FRX) (map Fin rs) (zlen rs) nproc mins0 maxs0 = Ret (mins, maxs) /\
    zlen mins = nproc /\ zlen maxs = nproc /\
    zel mins 0 = 0 /\ zel maxs (nproc - 1) = zlen rs - 1 /\
    (forall p, 0 <= p < nproc -> zel mins p <= zel maxs p) /\
    (forall p, 0 <= p -> p + 1 < nproc -> zel mins (p + 1) = zel maxs p + 1) /\
    (forall p, 0 <= p < nproc ->
       (Rabs (load_before rs (Z.to_nat (zel maxs p + 1)) - load_before rs (Z.to_nat (zel mins p)) - total_load rs / IZR nproc) < w)%R).
Proof. exact balance_quality. Qed.
Print Assumptions C65_quality.

(** a heavy last cell: process 1 gets an interval outside the grid *)
Theorem C65_outside_refuted : forall lm : Libm b64,
  balance_in_dir (N := F64 lm) (map (fun z => @n_of_Z (F64 lm) z) [1; 1; 1; 10]) 4 2 [7; 7] [7; 7] = Ret ([0; 4], [3; 4]).
Proof. exact balance_outside. Qed.
Print Assumptions C65_outside_refuted.

(** a last load absorbed by rounding: the last cell belongs to nobody *)
Theorem C65_last_cell_refuted : forall lm : Libm b64, exists tiny : num (F64 lm),
  @n_lt (F64 lm) (n_of_Z 0) tiny = true /\
  exists mins maxs, balance_in_dir (N := F64 lm) [n_of_Z 1; n_of_Z 1; tiny] 3 1 [7] [7] = Ret (mins, maxs) /\
    forall p, ~ owns mins maxs p 2.
Proof. exact balance_last_cell. Qed.
Print Assumptions C65_last_cell_refuted.

Example C65_nonvacuous : let rs := [1; 2; 1; 2; 2]%R in
  (forall x, In x rs -> (0 <= x <= 2)%R) /\ (0 < last rs 0)%R /\ (2 * IZR 4 <= total_load rs)%R /\ rs <> [].
Proof. exact ex_loads. Qed.

(** ** C66: ranks of the process grid without a Cartesian communicator *)
Theorem C66_ranks : forall npx npy npz ix iy iz jx jy jz,
  npy <= npx -> npz <= npx ->
  0 <= ix < npx -> 0 <= iy < npy -> 0 <= iz < npz -> 0 <= jx < npx -> 0 <= jy < npy -> 0 <= jz < npz ->
  pxr_convertindtoproc ix iy iz npx npy npz = pxr_convertindtoproc jx jy jz npx npy npz ->
  ix = jx /\ iy = jy /\ iz = jz.
Proof. exact convert_rank_inj. Qed.
Print Assumptions C66_ranks.

Theorem C66_range : forall ix iy iz npx npy npz,
  0 <= ix < npx -> 0 <= iy < npy -> 0 <= iz < npz -> npy <= npx -> npz <= npx ->
  0 <= pxr_convertindtoproc ix iy iz npx npy npz < npx * npy * npz.
Proof. exact convert_rank_range. Qed.
Print Assumptions C66_range.

(** the limits of every process, nothing else *)
Theorem C66_limits : forall l cxmin cymin czmin cxmax cymax czmax npx npy npz,
  1 <= npx -> 1 <= npy <= npx -> 1 <= npz <= npx ->
  zlen cxmin = npx -> zlen cxmax = npx -> zlen cymin = npy -> zlen cymax = npy -> zlen czmin = npz -> zlen czmax = npz ->
  (let np := npx * npy * npz in
   zlen (lx1 l) = np /\ zlen (lx2 l) = np /\ zlen (ly1 l) = np /\ zlen (ly2 l) = np /\ zlen (lz1 l) = np /\ zlen (lz2 l) = np) ->
  exists l', get_1Darray_proclimits l cxmin cymin czmin cxmax cymax czmax npx npy npz = Ret l' /\
    forall ix iy iz, 0 <= ix < npx -> 0 <= iy < npy -> 0 <= iz < npz ->
      let r := pxr_convertindtoproc ix iy iz npx npy npz in
      zel (lx1 l') r = zel cxmin ix /\ zel (lx2 l') r = zel cxmax ix + 1 /\
      zel (ly1 l') r = zel cymin iy /\ zel (ly2 l') r = zel cymax iy + 1 /\
      zel (lz1 l') r = zel czmin iz /\ zel (lz2 l') r = zel czmax iz + 1.
Proof. exact proclimits. Qed.
Print Assumptions C66_limits.

Theorem C66_periodic_x : forall iy iz npx npy npz, 1 <= npx ->
  pxr_convertindtoproc (-1) iy iz npx npy npz = pxr_convertindtoproc (npx - 1) iy iz npx npy npz /\
  pxr_convertindtoproc npx iy iz npx npy npz = pxr_convertindtoproc 0 iy iz npx npy npz.
Proof. exact convert_wrap_x. Qed.
Print Assumptions C66_periodic_x.

(** with more processes in y than in x two processes share a rank *)
Theorem C66_ranks_refuted : forall npx npy npz, 1 <= npx < npy -> 1 <= npz ->
  pxr_convertindtoproc 0 npx 0 npx npy npz = pxr_convertindtoproc 0 0 0 npx npy npz.
Proof. exact ranks_shared. Qed.
Print Assumptions C66_ranks_refuted.

(** with fewer, the neighbour of the last process in y is not the first one *)
Theorem C66_periodic_y_refuted : forall npx npy npz, 1 <= npy < npx -> 1 <= npz ->
  pxr_convertindtoproc 0 npy 0 npx npy npz <> pxr_convertindtoproc 0 0 0 npx npy npz.
Proof. exact wrap_y_missing. Qed.
Print Assumptions C66_periodic_y_refuted.

Example C66_nonvacuous : pxr_convertindtoproc 2 1 1 3 2 2 = 11 /\
  exists l', get_1Darray_proclimits (Limits [0; 0] [0; 0] [0; 0] [0; 0] [0; 0] [0; 0]) [0; 4] [0] [0] [3; 9] [5] [5] 2 1 1 = Ret l' /\
    lx1 l' = [0; 4] /\ lx2 l' = [4; 10].
Proof. exact ex_limits. Qed.

(** ** C67: sorting the particles of a tile *)
(** any bins and any attribute values *)
Theorem C67_counting_sort : forall A bins nb (src : list (list A)),
  (forall b, In b bins -> 1 <= b <= Z.of_nat nb) -> Forall (fun a => length a = length bins) src ->
  exists perm r, counting_sort (Z.of_nat (length bins)) (Z.of_nat nb) bins src = Ret r /\
    is_permutation (length bins) perm /\ stably_sorted (fun i => nth i bins 0) perm /\
    Forall2 (rearranged perm) src r.
Proof. exact @counting_sort_spec. Qed.
Print Assumptions C67_counting_sort.

Theorem C67_exact_3d : forall (xs ys zs : list R) rest xmin ymin zmin xmax ymax zmax dx dy dz ux uy uz gam pid,
  rest = [ux; uy; uz; gam; pid] ->
  let n := length xs in
  length ys = n -> length zs = n -> Forall (fun a => length a = n) rest ->
  cells_fit xmin xmax dx -> cells_fit ymin ymax dy -> cells_fit zmin zmax dz ->
  (forall x, In x xs -> (xmin <= x < xmax)%R) -> (forall y, In y ys -> (ymin <= y < ymax)%R) ->
  (forall z, In z zs -> (zmin <= z < zmax)%R) ->
  exists perm r, pxr_particle_bin_sorting (N := FRX) (Z.of_nat n) (map Fin xs) (map Fin ys) (map Fin zs) ux uy uz gam pid
      (Fin xmin) (Fin ymin) (Fin zmin) (Fin xmax) (Fin ymax) (Fin zmax) (Fin dx) (Fin dy) (Fin dz) = Ret r /\
    is_permutation n perm /\
    Forall2 (rearranged perm) (map Fin xs :: map Fin ys :: map Fin zs :: rest) r /\
    forall cx cy cz : nat -> Z,
      (forall i, (i < n)%nat -> in_cell xmin dx (nth i xs 0%R) (cx i) /\ in_cell ymin dy (nth i ys 0%R) (cy i) /\ in_cell zmin dz (nth i zs 0%R) (cz i)) ->
      StronglySorted (cell_order cx cy cz) perm.
Proof. exact bin_sorting_3d_exact. Qed.
Print Assumptions C67_exact_3d.

Theorem C67_exact_2d : forall (xs zs : list R) rest xmin zmin xmax zmax dx dz ux uy uz gam pid,
  rest = [ux; uy; uz; gam; pid] ->
  let n := length xs in
  length zs = n -> Forall (fun a => length a = n) rest ->
  cells_fit xmin xmax dx -> cells_fit zmin zmax dz ->
  (forall x, In x xs -> (xmin <= x < xmax)%R) -> (forall z, In z zs -> (zmin <= z < zmax)%R) ->
  exists perm r, pxr_particle_bin_sorting_2d (N := FRX) (Z.of_nat n) (map Fin xs) (map Fin zs) ux uy uz gam pid
      (Fin xmin) (Fin zmin) (Fin xmax) (Fin zmax) (Fin dx) (Fin dz) = Ret r /\
    is_permutation n perm /\
    Forall2 (rearranged perm) (map Fin xs :: map Fin zs :: rest) r /\
    forall cx cz : nat -> Z,
      (forall i, (i < n)%nat -> in_cell xmin dx (nth i xs 0%R) (cx i) /\ in_cell zmin dz (nth i zs 0%R) (cz i)) ->
      StronglySorted (cell_order cx (fun _ => 0) cz) perm.
Proof. exact bin_sorting_2d_exact. Qed.
Print Assumptions C67_exact_2d.

(** on binary64 a particle inside [min, max) can round to the bin past the last one *)
Theorem C67_binary64_refuted : forall lm : Libm b64, exists x : num (F64 lm),
  let N := F64 lm in let one : num N := n_of_Z 1 in let zero : num N := n_of_Z 0 in
  @n_lt N x one = true /\ @n_le N (- one)%N x = true /\
  pxr_particle_bin_sorting (N := N) 1 [x] [zero] [zero] [zero] [zero] [zero] [one] [one]
    (- one)%N (- one)%N (- one)%N one one one one one one = UB.
Proof. exact sort_edge. Qed.
Print Assumptions C67_binary64_refuted.

(** a particle below the lower corner is undefined behaviour (the callers add the
    user's shift to the lower corner of the tile) *)
Theorem C67_below_refuted :
  pxr_particle_bin_sorting_2d (N := FRX) 1 [Fin (-1/2)] [Fin 0] [Fin 0] [Fin 0] [Fin 0] [Fin 1] [Fin 1]
    (Fin 0) (Fin 0) (Fin 1) (Fin 1) (Fin 1) (Fin 1) = UB.
Proof. exact sort_below. Qed.
Print Assumptions C67_below_refuted.

Example C67_nonvacuous : cells_fit 0 4 1 /\ (forall x, In x [2.5; 0.5; 3]%R -> (0 <= x < 4)%R) /\
  counting_sort 4 3 [3; 1; 3; 2] [[10; 20; 30; 40]; [1; 2; 3; 4]] = Ret [[20; 40; 10; 30]; [2; 4; 1; 3]].
Proof. exact ex_sort. Qed.
