(** Model of the current deposition on tiles: src/particle_deposition/current_deposition/current_deposition_manager_3d.F90,
    depose_jxjyjz_generic (107-207) and pxrdepose_currents_on_grid_jxjyjz_esirkepov_sub_openmp (1534-1812). *)
From Coq Require Import ZArith List Bool.
From Verif Require Import Cxx Num Fortran Grid Pushers Yee Deposit Esirkepov Tiles DepositTiles.
Import ListNotations.
Local Open Scope Z_scope.

Section CurrentTiles.
Context {N : FNum}.

(** the routine called for a tile (func_order): np, positions, momenta, weights, charge, grid of the tile, time step, jx, jy, jz *)
Definition current_routine : Type :=
  Z -> list (pos3 N) -> list (mom N) -> list (num N) -> num N -> Geom N -> num N -> field (num N) -> out (field (num N)).
(** current_deposition_manager_3d.F90:47-68 depose_jxjyjz, which calls depose_jxjyjz_generic (107-207); [optimised] is
    current_depo_algo = 0 (CASE DEFAULT, 183-203) and its negation CASE(1) (176-181).  The classical routines (CASE(2) and CASE(3))
    are not modelled. *)
Definition depose_jxjyjz (K : Consts N) (optimised : bool) (nox noy noz : Z) : current_routine := fun np xs ms ws q G dt J =>
  let all n := (nox =? n) && (noy =? n) && (noz =? n) in
  if optimised && all 1 then depose_jxjyjz_esirkepov_1_1_1 np xs ms ws q G dt J
  else if optimised && all 2 then depose_jxjyjz_esirkepov_2_2_2 np xs ms ws q G dt J
  else if optimised && all 3 then depose_jxjyjz_esirkepov_3_3_3 np xs ms ws q G dt J
  else pxr_depose_jxjyjz_esirkepov_n K np xs ms ws q G dt nox noy noz true false J.

(** one species: ldodepos, charge, and for each tile positions, momenta and weights of its particles *)
Record jspecies := JSpecies { j_depos : bool; j_q : num N; j_parts : idx -> list (pos3 N * mom N * num N) }.
(** current_deposition_manager_3d.F90:1613-1634: loop on the species *)
Definition jspecies_step (f : current_routine) (d : num N * num N * num N) (dt : num N) (t : mtile N) (q : idx) (s : jspecies) (st : field (num N) * bool) :
    out (field (num N) * bool) :=
  if negb (j_depos s) then Ret st else
  let ps := j_parts s q in
  if zlen ps =? 0 then Ret st else
  let '(dx, dy, dz) := d in
  do a <- f (zlen ps) (map (fun a => fst (fst a)) ps) (map (fun a => snd (fst a)) ps) (map snd ps) (j_q s)
            (Build_Geom (ma_gmin (m_x t)) (ma_gmin (m_y t)) (ma_gmin (m_z t)) dx dy dz) dt (fst st);
  Ret (a, true).
(** 1608-1634: arr1, arr2 and arr3 of the tile are set to zero, then the species deposit *)
Definition tile_currents (f : current_routine) (d : num N * num N * num N) (dt : num N) (t : mtile N) (q : idx) (ss : list jspecies) : out (field (num N) * bool) :=
  for_each (jspecies_step f d dt t q) ss (Field3 (tile_zero t) (tile_zero t) (tile_zero t), false).

(** 1590-1810: the four loops; in each of them an iteration updates jx, then jy, then jz.  The updates of one of the three
    arrays are those of the charge density (tile_updates).  Simplification: each of jx, jy and jz may come out of its own
    distribution of the iterations and its own interleaving of the threads, so that there are more outcomes here than in the code. *)
Definition one_of {A B} (c : field A -> grid A) (arrs : idx -> field A * B) (q : idx) : grid A * B := (c (fst (arrs q)), snd (arrs q)).
Definition currents_outcome (n : Z) (f : current_routine) (d : num N * num N * num N) (dt : num N) (mesh : idx -> mtile N) (tiles : list idx) (ss : list jspecies)
    (J : field (num N)) (r : out (field (num N))) : Prop :=
  if forallb (fun q => match tile_currents f d dt (mesh q) q ss with Ret _ => true | _ => false end) tiles
  then exists arrs r1 r2 r3, (forall q, In q tiles -> tile_currents f d dt (mesh q) q ss = Ret (arrs q)) /\
    reduce_outcome n mesh (one_of fx arrs) tiles (fx J) r1 /\ reduce_outcome n mesh (one_of fy arrs) tiles (fy J) r2 /\ reduce_outcome n mesh (one_of fz arrs) tiles (fz J) r3 /\
    r = (do jx <- r1; do jy <- r2; do jz <- r3; Ret (Field3 jx jy jz))
  else r = UB.
End CurrentTiles.
Arguments current_routine : clear implicits. Arguments jspecies : clear implicits.
