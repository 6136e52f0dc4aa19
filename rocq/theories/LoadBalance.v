(** Model of the domain decomposition of src/housekeeping/load_balancing.F90:
    searches, intersections of boxes, one-dimensional balancing, process grid. *)
From Coq Require Import ZArith List Bool.
From Verif Require Import Cxx Num Fortran.
Import ListNotations.
Local Open Scope Z_scope.

(** load_balancing.F90:61-69 compute_currproc_array_dimensions *)
Definition compute_currproc_array_dimensions (ncmin ncmax : list Z) (mpi_rank : Z) : out Z :=
  do mx <- zget ncmax mpi_rank; do mn <- zget ncmin mpi_rank; Ret (mx - mn + 1).

(** load_balancing.F90:2954-2966: the loop of get_proc_interval.  Arrays are
    declared (0:ncpus-1); [/] of non-negative integers truncates. *)
Fixpoint gpi_loop (fuel : nat) (ic : Z) (ncmin ncmax : list Z) (imin imax : Z) : out Z :=
  match fuel with
  | O => OutOfFuel
  | S f =>
      if imin <=? imax then
        let imid := Z.quot (imax + imin) 2 in
        do mn <- zget ncmin imid; do mx <- zget ncmax imid;
        if (mn <=? ic) && (ic <=? mx) then Ret imid
        else if ic <? mn then gpi_loop f ic ncmin ncmax imin (imid - 1)
        else gpi_loop f ic ncmin ncmax (imid + 1) imax
      else Ret (-1)
  end.

(** load_balancing.F90:2939-2968 get_proc_interval *)
Definition get_proc_interval (ic : Z) (ncmin ncmax : list Z) (ncpus : Z) : out Z :=
  gpi_loop (S (Z.to_nat ncpus)) ic ncmin ncmax 0 (ncpus - 1).

(** load_balancing.F90:2993-3005: the loop of binary_search; arr is declared (narr) *)
Fixpoint bs_loop (fuel : nat) (crank : Z) (arr : list Z) (imin imax : Z) : out Z :=
  match fuel with
  | O => OutOfFuel
  | S f =>
      if imin <=? imax then
        let imid := Z.quot (imax + imin) 2 in
        do a <- get1 arr imid;
        if a =? crank then Ret imid
        else if crank <=? a then bs_loop f crank arr imin (imid - 1)
        else bs_loop f crank arr (imid + 1) imax
      else Ret (-1)
  end.

(** load_balancing.F90:2979-3007 binary_search *)
Definition binary_search (crank : Z) (arr : list Z) (narr : Z) : out Z :=
  bs_loop (S (Z.to_nat narr)) crank arr 1 narr.

(** load_balancing.F90:572-584 (x), 587-598 (y), 601-612 (z), 651-675: one
    direction of an intersection: (is there one, lower end, upper end) *)
Definition intersect_dir (i1min i1max i2min i2max : Z) : bool * Z * Z :=
  if i1min <=? i2min then
    if i2min <=? i1max then (true, i2min, Z.min i2max i1max) else (false, 0, 0)
  else
    if i1min <=? i2max then (true, i1min, Z.min i1max i2max) else (false, 0, 0).

(** A box of nodes: inclusive limits of three directions. *)
Record box := Box { bx1 : Z; bx2 : Z; by1 : Z; by2 : Z; bz1 : Z; bz2 : Z }.

(** load_balancing.F90:554-617 get_3Dintersection *)
Definition get_3Dintersection (a b : box) : bool * box :=
  let '(lx, x1, x2) := intersect_dir (bx1 a) (bx2 a) (bx1 b) (bx2 b) in
  let '(ly, y1, y2) := intersect_dir (by1 a) (by2 a) (by1 b) (by2 b) in
  let '(lz, z1, z2) := intersect_dir (bz1 a) (bz2 a) (bz1 b) (bz2 b) in
  (lx && ly && lz, Box x1 x2 y1 y2 z1 z2).

(** load_balancing.F90:633-679 get_2Dintersection: the same without y (the limits of
    y of the arguments are ignored, those of the result are 1, the only index of y) *)
Definition get_2Dintersection (a b : box) : bool * box :=
  let '(lx, x1, x2) := intersect_dir (bx1 a) (bx2 a) (bx1 b) (bx2 b) in
  let '(lz, z1, z2) := intersect_dir (bz1 a) (bz2 a) (bz1 b) (bz2 b) in
  (lx && lz, Box x1 x2 1 1 z1 z2).

(** load_balancing.F90:138-149: pxr_convertindtoproc with l_cart_comm false.  Note
    the comparisons of iyt and izt with npx-1.  (With l_cart_comm true the rank comes
    from MPI_CART_RANK, which is not modelled.) *)
Definition pxr_convertindtoproc (ix iy iz npx npy npz : Z) : Z :=
  let ixt := ix in let iyt := iy in let izt := iz in
  let ixt := if ixt <? 0 then npx - 1 else ixt in
  let ixt := if npx - 1 <? ixt then 0 else ixt in
  let iyt := if iyt <? 0 then npy - 1 else iyt in
  let iyt := if npx - 1 <? iyt then 0 else iyt in
  let izt := if izt <? 0 then npz - 1 else izt in
  let izt := if npx - 1 <? izt then 0 else izt in
  ixt + iyt * npx + izt * npx * npy.

(** The six arrays of get_1Darray_proclimits, declared (0:np-1). *)
Record limits := Limits { lx1 : list Z; lx2 : list Z; ly1 : list Z; ly2 : list Z; lz1 : list Z; lz2 : list Z }.

(** load_balancing.F90:93-109 get_1Darray_proclimits with l_cart_comm false *)
Definition get_1Darray_proclimits (l : limits) (cxmin cymin czmin cxmax cymax czmax : list Z)
  (npx npy npz : Z) : out limits :=
  do_range 0 (npz - 1) (fun iz l =>
  do_range 0 (npy - 1) (fun iy l =>
  do_range 0 (npx - 1) (fun ix l =>
    let r := pxr_convertindtoproc ix iy iz npx npy npz in
    do v <- zget cxmin ix; do a1 <- zset (lx1 l) r v;
    do v <- zget cxmax ix; do a2 <- zset (lx2 l) r (v + 1);
    do v <- zget cymin iy; do b1 <- zset (ly1 l) r v;
    do v <- zget cymax iy; do b2 <- zset (ly2 l) r (v + 1);
    do v <- zget czmin iz; do c1 <- zset (lz1 l) r v;
    do v <- zget czmax iz; do c2 <- zset (lz2 l) r (v + 1);
    Ret (Limits a1 a2 b1 b2 c1 c2)) l) l) l.

Section Balance.
Context {N : FNum}.
Local Open Scope Z_scope.

(** load_balancing.F90:2016-2023: the DO WHILE of balance_in_dir; result: the cell
    reached and the load gathered *)
Fixpoint balance_while (fuel : nat) (load : list (num N)) (ncell : Z) (target : num N)
  (icell : Z) (cur : num N) : out (Z * num N) :=
  match fuel with
  | O => OutOfFuel
  | S f =>
      if icell <? ncell - 1 then
        do l <- zget load icell;
        let cur := (cur + l)%N in
        if (cur >=? target)%N then Ret (icell, cur)
        else balance_while f load ncell target (icell + 1) cur
      else Ret (icell, cur)
  end.

(** The variables of balance_in_dir that live across the loop on processes. *)
Record bal_state := BS { bs_icell : Z; bs_target : num N; bs_per_proc : list (num N);
                         bs_min : list Z; bs_max : list Z }.

(** load_balancing.F90:2010-2033: body of the loop on processes *)
Definition balance_body (load : list (num N)) (ncell nproc : Z) (balanced : num N)
  (iproc : Z) (s : bal_state) : out bal_state :=
  do mins <- zset (bs_min s) iproc (bs_icell s);
  do ic <- balance_while (S (Z.to_nat ncell)) load ncell (bs_target s) (bs_icell s) (n_of_Z 0);
  let '(icell, cur) := ic in
  do maxs <- zset (bs_max s) iproc icell;
  do per <- zset (bs_per_proc s) iproc cur;
  let delta := ((n_of_Z iproc + n_of_Z 1) * balanced - sum_array per)%N in
  let target := (balanced + delta)%N in
  let icell := icell + 1 in
  do maxs <- (if (iproc =? nproc - 1) && (icell <? ncell - 1)
              then zset maxs iproc (ncell - 1) else Ret maxs);
  Ret (BS icell target per mins maxs).

(** load_balancing.F90:1996-2037 balance_in_dir: new limits (idirmin, idirmax) *)
Definition balance_in_dir (load : list (num N)) (ncell nproc : Z) (idirmin idirmax : list Z)
  : out (list Z * list Z) :=
  let per := repeat (n_of_Z 0) (Z.to_nat nproc) in
  let balanced := (sum_array load / n_of_Z nproc)%N in
  do s <- do_range 0 (nproc - 1) (balance_body load ncell nproc balanced)
            (BS 0 balanced per idirmin idirmax);
  Ret (bs_min s, bs_max s).
End Balance.
Arguments bal_state N : clear implicits.
