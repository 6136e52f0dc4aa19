(** Specification vocabulary for the exchange of the particles that is used by default. *)
From Coq Require Import ZArith Reals List Bool Permutation.
From Verif Require Import Cxx Num NumRX Fortran FortranNum Grid Tiles SpecTiles PartBC SpecPartBC PartDefault.
Import ListNotations.

Section Spec.
Context {N : FNum}.
(** what becomes of a particle that is in tile q: it is removed, it is in a tile of the same process, or it goes to
    the process in direction d *)
Inductive lot := Removed | InTile (q : idx) (p : part N) | Sent (d : idx) (p : part N).
Definition lot_of (D : dom N) (B : bnd N) (n0 : idx) (T : grid (tile N)) (q : idx) (p : part N) : lot :=
  if inside (gat T q) p then InTile q p
  else if outside D p
  then match default_fate (gat T q) B p with Drop => Removed | Keep p' => InTile q p' | Leave p' d => Sent d p' end
  else match default_target D n0 p with Ret r => InTile r p | _ => Removed end.
(** the particles of a process that have to be in tile r, *)
Definition to_tile (D : dom N) (B : bnd N) (n0 : idx) (T : grid (tile N)) (A : idx -> list (part N)) (r : idx) : list (part N) :=
  flat_map (fun q => flat_map (fun p => match lot_of D B n0 T q p with InTile s p' => if idx_eqb s r then [p'] else [] | _ => [] end) (A q)) (all_tiles D).
(** those that go in direction d, *)
Definition to_send (D : dom N) (B : bnd N) (n0 : idx) (T : grid (tile N)) (A : idx -> list (part N)) (d : idx) : list (part N) :=
  flat_map (fun q => flat_map (fun p => match lot_of D B n0 T q p with Sent e p' => if idx_eqb e d then [p'] else [] | _ => [] end) (A q)) (all_tiles D).
(** and all that are not removed *)
Definition to_survive (D : dom N) (B : bnd N) (n0 : idx) (T : grid (tile N)) (A : idx -> list (part N)) : list (part N) :=
  flat_map (fun q => flat_map (fun p => match lot_of D B n0 T q p with InTile _ p' | Sent _ p' => [p'] | Removed => [] end) (A q)) (all_tiles D).

(** the limits of the local domain are the same in both records *)
Definition agree (D : dom N) (B : bnd N) : Prop :=
  (ag_plo (dX D) = b_plo (bX B) /\ ag_phi (dX D) = b_phi (bX B)) /\ (ag_plo (dY D) = b_plo (bY B) /\ ag_phi (dY D) = b_phi (bY B)) /\
  (ag_plo (dZ D) = b_plo (bZ B) /\ ag_phi (dZ D) = b_phi (bZ B)).
(** a particle that has left its tile but not the local domain has a tile; one that leaves the process is in a tile at the edge *)
Definition placeable (D : dom N) (B : bnd N) (n0 : idx) (T : grid (tile N)) (A : idx -> list (part N)) : Prop :=
  forall q p, In q (all_tiles D) -> In p (A q) -> inside (gat T q) p = false ->
    (outside D p = false -> exists r, default_target D n0 p = Ret r /\ In r (all_tiles D)) /\
    (outside D p = true -> t_bound (gat T q) = true).

(** a set of processes np *)
Variables (np : idx) (D : idx -> dom N) (B : idx -> bnd N) (n0 : idx -> idx) (W : idx -> grid (tile N) * Z) (A : idx -> idx -> list (part N)).
(** the particles that are sent to process r *)
Definition to_arrive (r : idx) : list (part N) :=
  flat_map (fun d => let s := neighbour np r (opposite d) in to_send (D s) (B s) (n0 s) (fst (W s)) (A s) d) directions.
Definition to_exist : list (part N) := flat_map (fun r => to_survive (D r) (B r) (n0 r) (fst (W r)) (A r)) (processes np).
(** every process has the tiles it thinks it has, and all its particles can be placed *)
Definition placeable_all (M : Z) : Prop := forall r, In r (processes np) ->
  contents M (D r) (fst (W r)) (A r) /\ first_tile (fst (W r)) = Ret (n0 r) /\ agree (D r) (B r) /\ placeable (D r) (B r) (n0 r) (fst (W r)) (A r).
(** the process that gets a particle has a tile at its edge for it *)
Definition arrivals_have_edge_tile : Prop := forall r p, In r (processes np) -> In p (to_arrive r) ->
  exists q, default_target (D r) (n0 r) p = Ret q /\ In q (all_tiles (D r)) /\ t_bound (gat (fst (W r)) q) = true.
Definition has_default_target (r q : idx) (p : part N) : bool :=
  match default_target (D r) (n0 r) p with Ret s => idx_eqb s q | _ => false end.
End Spec.
Arguments lot : clear implicits.

(** at least two tiles in each direction *)
Definition several_tiles {N} (D : dom N) : Prop := (2 <= ag_nt (dX D) /\ 2 <= ag_nt (dY D) /\ 2 <= ag_nt (dZ D))%Z.
(** the number of a message is read at once *)
Definition at_once (r : idx) (i : nat) : nat := 0%nat.
