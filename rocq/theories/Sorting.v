(** Model of src/housekeeping/sorting.F90: counting sort of the particles of a tile.
    Simplification: wpid = 1, the only value for which the arrays pid(np2,1) and
    pids(np2,wpid) are conformable; the DEBUG checks are off. *)
From Coq Require Import ZArith List Bool.
From Verif Require Import Cxx Num Fortran.
Import ListNotations.
Local Open Scope Z_scope.

(** sorting.F90:317, 432: counting of one particle in its bin *)
Definition count_one (k : Z) (nbppc : list Z) : out (list Z) :=
  do c <- get1 nbppc k; set1 nbppc k (c + 1).

(** sorting.F90:321-326, 436-441: first position of every bin *)
Definition bin_starts (nbhc : Z) (nbppc piihc : list Z) : out (list Z) :=
  do r <- do_range 1 nbhc (fun ic s =>
            let '(p, k) := s in
            do p <- set1 p ic k; do c <- get1 nbppc ic; Ret (p, k + c)) (piihc, 0);
  Ret (fst r).

(** sorting.F90:330-346, 445-459: particle ip goes to position piihc(hcnb(ip)) of
    every attribute array; the temporary arrays start undefined ([None]) *)
Definition scatter_one {A} (src : list (list A)) (hcnb : list Z) (ip : Z)
  (s : list Z * list (list (option A))) : out (list Z * list (list (option A))) :=
  let '(piihc, dst) := s in
  do k <- get1 hcnb ip;
  do p <- get1 piihc k;
  do piihc <- set1 piihc k (p + 1);
  do dst <- mapM (fun sd : list A * list (option A) =>
                    do v <- get1 (fst sd) ip; set1 (snd sd) (p + 1) (Some v)) (combine src dst);
  Ret (piihc, dst).

(** sorting.F90:349-356, 462-468: copy back; reading an undefined element is [UB] *)
Definition copy_back {A} (dst : list (list (option A))) : out (list (list A)) :=
  mapM (mapM (fun o => match o with Some v => Ret v | None => UB end)) dst.

(** sorting.F90:284-357, 399-470 from the allocation on: [src] are the attribute
    arrays, [hcnb] the bin of every particle *)
Definition counting_sort {A} (np2 nbhc : Z) (hcnb : list Z) (src : list (list A)) : out (list (list A)) :=
  let piihc := repeat 0 (Z.to_nat nbhc) in
  let nbppc := repeat 0 (Z.to_nat nbhc) in
  do nbppc <- do_range 1 np2 (fun ip n => do k <- get1 hcnb ip; count_one k n) nbppc;
  do piihc <- bin_starts nbhc nbppc piihc;
  do r <- do_range 1 np2 (scatter_one src hcnb) (piihc, map (map (fun _ => None)) src);
  copy_back (snd r).

Section Bins.
Context {N : FNum}.

(** sorting.F90:274-281, 292-300: bin of a particle in 3D *)
Definition bin_3d (nx3 ny3 : Z) (xmin ymin zmin dxi dyi dzi xp yp zp : num N) : out Z :=
  do ix <- floor32 ((xp - xmin) * dxi)%N;
  do iy <- floor32 ((yp - ymin) * dyi)%N;
  do iz <- floor32 ((zp - zmin) * dzi)%N;
  Ret (iz * nx3 * ny3 + iy * nx3 + ix + 1).

(** sorting.F90:247-361 pxr_particle_bin_sorting: result, the eight arrays xp, yp,
    zp, ux, uy, uz, gam, pid.  Simplification: the bins of all particles are
    computed before the counting (the loop at 292-318 does both; an out-of-range bin
    is undefined behaviour either way). *)
Definition pxr_particle_bin_sorting (np2 : Z) (xp yp zp ux uy uz gam pid : list (num N))
  (xmin ymin zmin xmax ymax zmax dxf dyf dzf : num N) : out (list (list (num N))) :=
  let dxi := (n_of_Z 1 / dxf)%N in let dyi := (n_of_Z 1 / dyf)%N in let dzi := (n_of_Z 1 / dzf)%N in
  do nx3 <- ceiling32 ((xmax - xmin) * dxi)%N;
  do ny3 <- ceiling32 ((ymax - ymin) * dyi)%N;
  do nz3 <- ceiling32 ((zmax - zmin) * dzi)%N;
  do hcnb <- mapM (fun ip => do x <- get1 xp ip; do y <- get1 yp ip; do z <- get1 zp ip;
                             bin_3d nx3 ny3 xmin ymin zmin dxi dyi dzi x y z)
               (map (Z.add 1) (zseq (Z.to_nat np2)));
  counting_sort np2 (nx3 * ny3 * nz3) hcnb [xp; yp; zp; ux; uy; uz; gam; pid].

(** sorting.F90:413-420: bin of a particle in 2D *)
Definition bin_2d (nx3 : Z) (xmin zmin dxi dzi xp zp : num N) : out Z :=
  do ix <- floor32 ((xp - xmin) * dxi)%N;
  do iz <- floor32 ((zp - zmin) * dzi)%N;
  Ret (iz * nx3 + ix + 1).

(** sorting.F90:364-472 pxr_particle_bin_sorting_2d *)
Definition pxr_particle_bin_sorting_2d (np2 : Z) (xp zp ux uy uz gam pid : list (num N))
  (xmin zmin xmax zmax dxf dzf : num N) : out (list (list (num N))) :=
  let dxi := (n_of_Z 1 / dxf)%N in let dzi := (n_of_Z 1 / dzf)%N in
  do nx3 <- ceiling32 ((xmax - xmin) * dxi)%N;
  do nz3 <- ceiling32 ((zmax - zmin) * dzi)%N;
  do hcnb <- mapM (fun ip => do x <- get1 xp ip; do z <- get1 zp ip;
                             bin_2d nx3 xmin zmin dxi dzi x z)
               (map (Z.add 1) (zseq (Z.to_nat np2)));
  counting_sort np2 (nx3 * nz3) hcnb [xp; zp; ux; uy; uz; gam; pid].
End Bins.
