(** C118 and C119: the charge density of a run on several processes with tiles. *)
From Coq Require Import ZArith Reals List Bool Lia Lra Permutation.
From Verif Require Import Cxx Num NumRX Fortran FortranNum Grid Pushers Deposit Tiles DepositTiles SpecDeposit SpecTiles SpecDepositTiles DepositTilesExamples.
From Verif Require Import PartBC FieldBC SpecFieldBC SpecWhole WholeProofs WholeExamples.
Import ListNotations.
Local Open Scope R_scope.

(** ** C118: the cut among processes and tiles cannot be seen in the charge density *)
(** every copy of a node gets the density of all particles of all processes at the points it stands for *)
Theorem C118_density : forall L W ss f n blocking G T m,
  sound_layout L -> sound_parts L W -> well_placed L W ss -> routine_for (w_orders W) f -> no_race L W n ->
  (blocking = true -> forall a, l_absorbing L a = false) -> (forall r, In r (processes (l_procs L)) -> right_types L r (T r)) ->
  deposited L W n f ss G -> (forall a, comp a (l_guards L) <= m)%Z ->
  exists F', summed L blocking G T = Ret (start L F') /\ right_start L F' /\
    forall u, In u (nodes L) ->
      value F' u = Fin (sumR (map (density_of (w_orders W) (w_cells W) (charges L W ss)) (filter (stands_for L u) (around L m)))).
Proof. intros L W ss f n blocking G T m HL HW Hs Hf Hn Hb HT HD Hm. exact (whole_density L W ss f HL HW Hs Hf n blocking G T Hn Hb HT HD m Hm). Qed.
Print Assumptions C118_density.

(** two runs with the same whole grid and the same particles, cut in any two ways: the same densities *)
Theorem C118_decomposition : forall L W L' W' ss ss' f f' n n' blocking blocking' G G' T T' w w',
  sound_layout L -> sound_parts L W -> well_placed L W ss -> routine_for (w_orders W) f -> no_race L W n -> (blocking = true -> forall a, l_absorbing L a = false) ->
  (forall r, In r (processes (l_procs L)) -> right_types L r (T r)) -> deposited L W n f ss G -> summed L blocking G T = Ret (start L w) ->
  sound_layout L' -> sound_parts L' W' -> well_placed L' W' ss' -> routine_for (w_orders W') f' -> no_race L' W' n' -> (blocking' = true -> forall a, l_absorbing L' a = false) ->
  (forall r, In r (processes (l_procs L')) -> right_types L' r (T' r)) -> deposited L' W' n' f' ss' G' -> summed L' blocking' G' T' = Ret (start L' w') ->
  same_whole L L' -> same_axes W W' -> Permutation (charges L W ss) (charges L' W' ss') ->
  forall u u', In u (nodes L) -> In u' (nodes L') -> stands_for L u (point_of L' u') = true -> value w u = value w' u'.
Proof. exact decomposition. Qed.
Print Assumptions C118_decomposition.

Theorem C118_possible : forall L W ss f n, sound_layout L -> sound_parts L W -> well_placed L W ss -> routine_for (w_orders W) f -> (1 <= n)%Z ->
  exists G, deposited L W n f ss G.
Proof. intros L W ss f n HL HW Hs Hf Hn. exact (deposited_possible L W ss f HW Hs Hf n Hn). Qed.
Print Assumptions C118_possible.

(** two processes with one particle each, and one process with both: they share the charge of the node between them *)
Example C118_case :
  (sound_layout (eg_cut 2 4) /\ sound_parts (eg_cut 2 4) eg_W /\ well_placed (eg_cut 2 4) eg_W eg_ss2 /\ routine_for (w_orders eg_W) linear /\ no_race (eg_cut 2 4) eg_W 1) /\
  (sound_layout (eg_cut 1 8) /\ sound_parts (eg_cut 1 8) eg_W /\ well_placed (eg_cut 1 8) eg_W eg_ss1 /\ no_race (eg_cut 1 8) eg_W 1) /\
  same_whole (eg_cut 2 4) (eg_cut 1 8) /\ Permutation (charges (eg_cut 2 4) eg_W eg_ss2) (charges (eg_cut 1 8) eg_W eg_ss1) /\
  (In ((1, 0, 0), (0, 1, 1))%Z (nodes (eg_cut 2 4)) /\ In ((0, 0, 0), (4, 1, 1))%Z (nodes (eg_cut 1 8)) /\
   stands_for (eg_cut 2 4) ((1, 0, 0), (0, 1, 1))%Z (point_of (eg_cut 1 8) ((0, 0, 0), (4, 1, 1))%Z) = true) /\
  density_of (w_orders eg_W) (w_cells eg_W) (charges (eg_cut 1 8) eg_W eg_ss1) (4, 1, 1)%Z = 3 / 2.
Proof.
  split; [|split; [|split; [exact eg_whole|split; [rewrite eg_charges; apply Permutation_refl|split; [exact eg_nodes|exact eg_density]]]]].
  - split; [apply eg_cut_sound; lia|]. split; [apply eg_cut_parts; lia|]. split; [exact eg_two_placed|]. split; [exact eg_routine|apply eg_race].
  - split; [apply eg_cut_sound; lia|]. split; [apply eg_cut_parts; lia|]. split; [exact eg_one_placed|apply eg_race].
Qed.

(** ** C119: the charge of the whole run is on the grid, each node counted once *)
Theorem C119_total_charge : forall L W ss f n blocking G T,
  sound_layout L -> sound_parts L W -> well_placed L W ss -> routine_for (w_orders W) f -> no_race L W n ->
  (blocking = true -> forall a, l_absorbing L a = false) -> (forall r, In r (processes (l_procs L)) -> right_types L r (T r)) ->
  deposited L W n f ss G ->
  exists F' f', summed L blocking G T = Ret (start L F') /\ (forall u, In u (nodes L) -> value F' u = Fin (f' u)) /\
    w_d (W DirX) * w_d (W DirY) * w_d (W DirZ) * total (map f' (filter (responsible L) (nodes L))) = sumR (map (fun c => fst c * rw (snd c)) (charges L W ss)).
Proof. intros L W ss f n blocking G T HL HW Hs Hf Hn Hb HT HD. exact (whole_charge L W ss f HL HW Hs Hf n blocking G T Hn Hb HT HD). Qed.
Print Assumptions C119_total_charge.
Example C119_case : (exists G, deposited (eg_cut 2 4) eg_W 1 linear eg_ss2 G) /\ sumR (map (fun c => fst c * rw (snd c)) (charges (eg_cut 2 4) eg_W eg_ss2)) = 2.
Proof.
  split; [apply C118_possible; [apply eg_cut_sound; lia|apply eg_cut_parts; lia|exact eg_two_placed|exact eg_routine|lia]|].
  change (charges (eg_cut 2 4) eg_W eg_ss2) with [(1, at_x (15 / 4)); (1, at_x (17 / 4))]. unfold sumR. cbn. lra.
Qed.
