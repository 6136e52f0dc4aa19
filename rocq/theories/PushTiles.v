(** Model of the field gathering and particle push on tiles: src/particle_pushers/particle_pusher_manager_3d.F90. *)
From Coq Require Import ZArith List Bool.
From Verif Require Import Cxx Num Fortran FortranNum Grid Pushers Deposit Tiles DepositTiles Gather.
Import ListNotations.
Local Open Scope Z_scope.

(** particle_pusher: 1, 2, 3, and the other values, for which Boris is the default.  Not modelled: 4 (Landau-Lifshitz in the manager), which
    also keeps the fields of the last step in pid. *)
Inductive pusher := Boris | Vay | Sokolov | Bulanov.

Section Push.
Context {N : FNum}.
(** part_x, part_y, part_z and part_ux, part_uy, part_uz, part_gaminv of a particle *)
Definition part_pos (p : part N) : pos3 N := Pos (px p) (py p) (pz p).
Definition part_mom (p : part N) : mom N := Mom (pux p) (puy p) (puz p) (pgi p).
Definition put_back (x : pos3 N) (u : mom N) (p : part N) : part N :=
  Part (xp x) (yp x) (zp x) (ux u) (uy u) (uz u) (gi u) (ppid p).

(** particle_pusher_manager_3d.F90:322-377: the momenta *)
Definition push_momenta (K : Consts N) (which : pusher) (np : Z) (us : list (mom N)) (fs : list (fld N)) (q m dt : num N) : out (list (mom N)) :=
  match which with
  | Vay => pxr_ebcancelpush3d K np us fs q m dt 0
  | Sokolov => pxr_boris_push_rr_S09_u_3d K np us fs q m dt
  | Bulanov => pxr_boris_push_rr_B08_u_3d K np us fs q m dt
  | Boris => pxr_boris_push_u_3d K np us fs q m dt
  end.
(** the particles 1:np_tile(1) of a tile *)
Definition tile_particles (t : tile N) : out (list (part N)) :=
  mapM (fun i => do o <- get1 (t_arr t) i; match o with Some p => Ret p | None => UB end) (zrange 1 (t_np t)).
(** the choices of a run: nox, noy, noz, l_lower_order_in_v, l_nodalgrid, LVEC_fieldgathe, fieldgathe, particle_pusher *)
Record choices := Choices { ch_nox : Z; ch_noy : Z; ch_noz : Z; ch_lower : bool; ch_nodal : bool; ch_lvec : Z; ch_algo : Z; ch_pusher : pusher }.
(** charge and mass of the species, and dt *)
Record motion := Motion { mo_q : num N; mo_m : num N; mo_dt : num N }.

(** particle_pusher_manager_3d.F90:215-381, for one tile with the grid [mesh] and one species, neither antenna nor frozen.  Simplifications:
    the fields are copied for each species (the source copies them once for all species of a tile, 268-273); part_ex, ..., part_bz
    are not kept, since they are set to zero before they are used (284-289) *)
Definition push_tile (K : Consts N) (C : choices) (S : motion) (steps : num N * num N * num N) (E B : field (num N)) (mesh : mtile N) (t : tile N) : out (tile N) :=
  let '(dx, dy, dz) := steps in
  let count := t_np t in
  if count =? 0 then Ret t else
  do ps <- tile_particles t;
  let '(a1, a2, a3) := m_min mesh in let '(c1, c2, c3) := m_cells mesh in
  let G := GTile (a1, a2, a3) (a1 + c1, a2 + c2, a3 + c3) (m_g mesh) (ma_gmin (m_x mesh)) (ma_gmin (m_y mesh)) (ma_gmin (m_z mesh))
             (map part_pos ps) (map (fun _ => zero_fld) ps) in
  do G' <- gather_tile G dx dy dz (ch_nox C) (ch_noy C) (ch_noz C) E B (ch_lower C) (ch_nodal C) (ch_lvec C) (ch_algo C);
  do us <- push_momenta K (ch_pusher C) count (map part_mom ps) (gt_fld G') (mo_q S) (mo_m S) (mo_dt S);
  do xs <- pxr_pushxyz count (map part_pos ps) us (mo_dt S);
  let ps' := map (fun c => put_back (fst (fst c)) (snd (fst c)) (snd c)) (combine (combine xs us) ps) in
  Ret (Tile (t_x t) (t_y t) (t_z t) (t_bound t) (t_alloc t) count (t_max t) (map Some ps' ++ skipn (length ps') (t_arr t)) (t_moved t)).

(** particle_pusher_manager_3d.F90:212-386: the tiles in the order of the list.  The loop is an OpenMP loop (211), whose iterations
    read the fields and read and write one tile each. *)
Definition push_tiles (K : Consts N) (C : choices) (S : motion) (steps : num N * num N * num N) (mesh : idx -> mtile N) (E B : field (num N)) (l : list idx) (T : grid (tile N)) : out (grid (tile N)) :=
  for_each (fun q T => do t <- get3 T q; do t' <- push_tile K C S steps E B (mesh q) t; set3 T q t') l T.
End Push.
Arguments motion : clear implicits.
