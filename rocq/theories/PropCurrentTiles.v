(** C120, C121 and C122: the currents of a process with tiles and of a run on several processes. *)
From Coq Require Import ZArith Reals List Bool Lia Lra Permutation.
From Verif Require Import Cxx Num NumRX Fortran FortranNum Grid Pushers Yee Deposit Esirkepov Tiles DepositTiles CurrentTiles SpecYee SpecDeposit SpecCurrent SpecTiles SpecDepositTiles SpecCurrentTiles DepositExamples DepositTilesExamples CurrentTilesProofs SpecFlux Flux.
From Verif Require Import PartBC FieldBC SpecFieldBC SpecWhole WholeProofs WholeExamples SpecWholeCurrent WholeCurrentProofs WholeContinuity CurrentTilesExamples.
Import ListNotations.
Local Open Scope R_scope.

(** ** C120: the currents of a process with tiles carry the change of its charge density *)
Theorem C120_continuity : forall x y z K optimised c dt ss n J j out,
  sensible x -> sensible y -> sensible z -> 0 < p_d x -> 0 < p_d y -> 0 < p_d z ->
  light c K -> short_step c dt x y z -> roomy x -> roomy y -> roomy z ->
  in_tiles x y z ss -> all_slower c x y z ss ->
  holds J (every (first_node x y z)) (every (last_node x y z)) j ->
  (n <= 1)%Z \/ one_cut x y z ->
  tile_current K optimised n dt x y z ss J out ->
  exists J' m, out = Ret J' /\ holds J' (every (first_node x y z)) (every (last_node x y z)) (plus_field j m) /\
    within (every (first_node x y z)) (every (last_node x y z)) m /\
    continuous (cells_of x y z) dt (all_density x y z (map (earlier dt) ss)) (all_density x y z ss) m /\
    forall d p, SpecDeposit.comp d m p = current_of (orders_of x y z) (cells_of x y z) dt (proc_charges x y z ss) d p.
Proof. intros x y z K optimised c dt ss n J j out Hx Hy Hz Dx Dy Dz Hc Hs Rx Ry Rz Hss Hsl. exact (currents_real x y z Hx Hy Hz Dx Dy Dz K optimised c dt Hc Hs Rx Ry Rz ss Hss Hsl n J j out). Qed.
Print Assumptions C120_continuity.
Theorem C120_possible : forall x y z K optimised c dt ss n J j,
  sensible x -> sensible y -> sensible z -> 0 < p_d x -> 0 < p_d y -> 0 < p_d z ->
  light c K -> short_step c dt x y z -> roomy x -> roomy y -> roomy z ->
  in_tiles x y z ss -> all_slower c x y z ss -> (1 <= n)%Z ->
  holds J (every (first_node x y z)) (every (last_node x y z)) j ->
  exists J', tile_current K optimised n dt x y z ss J (Ret J').
Proof. intros x y z K optimised c dt ss n J j Hx Hy Hz Dx Dy Dz Hc Hs Rx Ry Rz Hss Hsl. exact (currents_exist x y z Hx Hy Hz Dx Dy Dz K optimised c dt Hc Hs Rx Ry Rz ss Hss Hsl n J j). Qed.
Print Assumptions C120_possible.
(** two tiles along x, two threads, a particle that came from the first tile into the second *)
Example C120_case :
  (sensible ax8 /\ sensible ax81 /\ sensible ax4) /\ light 1 K1 /\ short_step 1 (1 / 2) ax8 ax81 ax4 /\ (roomy ax8 /\ roomy ax81 /\ roomy ax4) /\
  in_tiles ax8 ax81 ax4 came_in /\ all_slower 1 ax8 ax81 ax4 came_in /\ one_cut ax8 ax81 ax4 /\
  exists J', tile_current K1 true 2 (1 / 2) ax8 ax81 ax4 came_in (zero_currents ax8 ax81 ax4) (Ret J').
Proof.
  split; [exact (conj sens8 (conj sens81 sens4))|]. split; [exact K1_lights|]. split; [exact came_step|]. split; [exact came_roomy|]. split; [exact in_came|]. split; [exact came_slower|]. split; [exact along_cut|].
  destruct came_roomy as (R1 & R2 & R3).
  apply (C120_possible ax8 ax81 ax4 K1 true 1 (1 / 2) came_in 2 (zero_currents ax8 ax81 ax4) zero_field sens8 sens81 sens4); try exact R1; try exact R2; try exact R3; try (cbn; lra); try lia;
    [exact K1_lights|exact came_step|exact in_came|exact came_slower|apply zero_currents_hold].
Qed.

(** ** C121: the equation of continuity holds in the arrays of a run on several processes *)
(** rho of the particles before the move, rho and the currents of those after it; in between the particles may have gone to
    other tiles and processes and across the periodic borders *)
Theorem C121_continuity : forall L W ss0 ss f n blocking K optimised c dt G0 T0 G1 T1 J T,
  sound_layout L -> sound_parts L W -> well_placed L W ss0 -> well_placed L W ss -> routine_for (w_orders W) f -> no_race L W n ->
  (blocking = true -> forall a, l_absorbing L a = false) ->
  (forall r, In r (processes (l_procs L)) -> right_types L r (T0 r) /\ right_types L r (T1 r) /\ forall d, right_types L r (T d r)) ->
  light c K -> short_time W c dt -> roomy_parts L W -> slow_charges c (charges L W ss) ->
  same_particles L W (charges L W ss0) (charges_before dt (charges L W ss)) ->
  deposited L W n f ss0 G0 -> deposited L W n f ss G1 -> currents_deposited L W K optimised n dt ss J ->
  exists rho0 rho1 j,
    (exists F, summed L blocking G0 T0 = Ret (start L F) /\ forall u, In u (nodes L) -> value F u = Fin (rho0 u)) /\
    (exists F, summed L blocking G1 T1 = Ret (start L F) /\ forall u, In u (nodes L) -> value F u = Fin (rho1 u)) /\
    (forall d, exists F, current_summed L blocking J T d = Ret (start L F) /\ forall u, In u (nodes L) -> value F u = Fin (j d u)) /\
    forall u, In u (nodes L) -> (forall d, In (node_before d u) (nodes L)) -> balanced W dt rho0 rho1 j u.
Proof. exact whole_continuity. Qed.
Print Assumptions C121_continuity.
(** also where particles left the grid: the currents carry the change of the density of the particles that are deposited *)
Theorem C121_deposited : forall L W ss n blocking K optimised c dt J T,
  sound_layout L -> sound_parts L W -> well_placed L W ss -> no_race L W n ->
  (blocking = true -> forall a, l_absorbing L a = false) ->
  (forall d r, In r (processes (l_procs L)) -> right_types L r (T d r)) ->
  light c K -> short_time W c dt -> roomy_parts L W -> slow_charges c (charges L W ss) ->
  currents_deposited L W K optimised n dt ss J ->
  exists j,
    (forall d, exists F, current_summed L blocking J T d = Ret (start L F) /\ right_start L F /\ forall u, In u (nodes L) -> value F u = Fin (j d u)) /\
    forall m u, (forall a, comp a (l_guards L) < m)%Z ->
      balanced W dt (folded L m (density_of (w_orders W) (w_cells W) (charges_before dt (charges L W ss))))
                    (folded L m (density_of (w_orders W) (w_cells W) (charges L W ss))) j u /\
      forall d, j d u = folded L m (current_of (w_orders W) (w_cells W) dt (charges L W ss) d) u.
Proof. intros L W ss n blocking K optimised c dt J T HL HW Hss Hn Hb HT Hc Ht Hg Hsl HD. exact (whole_currents L W ss K optimised c dt HL HW Hss Hc Ht Hg Hsl n blocking J T Hn Hb HT HD). Qed.
Print Assumptions C121_deposited.
Theorem C121_possible : forall L W ss K optimised c dt n,
  sound_parts L W -> well_placed L W ss -> light c K -> short_time W c dt -> roomy_parts L W -> (1 <= n)%Z ->
  (forall r s q a, In r (processes (l_procs L)) -> In s (ss r) -> In q (tiles_of (part_x L W r) (part_y L W r) (part_z L W r)) -> In a (rs_parts s q) -> slower c a) ->
  exists J, currents_deposited L W K optimised n dt ss J.
Proof. intros L W ss K optimised c dt n HW Hss Hc Ht Hg. exact (currents_possible L W ss K optimised c dt HW Hss Hc Ht Hg n). Qed.
Print Assumptions C121_possible.
(** two periodic processes: one particle goes from the first to the second, another across the border from the second to the first *)
Example C121_case :
  (sound_layout (eg_cut 2 4) /\ sound_parts (eg_cut 2 4) eg_W /\ well_placed (eg_cut 2 4) eg_W eg_old /\ well_placed (eg_cut 2 4) eg_W eg_new /\ routine_for (w_orders eg_W) linear /\ no_race (eg_cut 2 4) eg_W 1) /\
  (light 1 K1 /\ short_time eg_W 1 (1 / 2) /\ roomy_parts (eg_cut 2 4) eg_W /\ slow_charges 1 (charges (eg_cut 2 4) eg_W eg_new)) /\
  same_particles (eg_cut 2 4) eg_W (charges (eg_cut 2 4) eg_W eg_old) (charges_before (1 / 2) (charges (eg_cut 2 4) eg_W eg_new)) /\
  ((exists G, deposited (eg_cut 2 4) eg_W 1 linear eg_old G) /\ (exists G, deposited (eg_cut 2 4) eg_W 1 linear eg_new G) /\ exists J, currents_deposited (eg_cut 2 4) eg_W K1 true 1 (1 / 2) eg_new J) /\
  (In ((1, 0, 0), (1, 1, 1))%Z (nodes (eg_cut 2 4)) /\ forall d, In (node_before d ((1, 0, 0), (1, 1, 1))%Z) (nodes (eg_cut 2 4))) /\
  density_of (w_orders eg_W) (w_cells eg_W) (charges (eg_cut 2 4) eg_W eg_new) (5, 1, 1)%Z = 1 / 4.
Proof.
  assert (HL : sound_layout (eg_cut 2 4)) by (apply eg_cut_sound; lia). assert (HW : sound_parts (eg_cut 2 4) eg_W) by (apply eg_cut_parts; lia).
  split; [exact (conj HL (conj HW (conj eg_old_placed (conj eg_new_placed (conj eg_routine (eg_race _))))))|].
  split; [exact (conj K1_lights (conj eg_short (conj eg_roomy eg_slow)))|]. split; [exact eg_same|]. split; [|exact (conj eg_inner eg_change)].
  split; [exact (deposited_possible _ _ _ _ HW eg_old_placed eg_routine 1%Z ltac:(lia))|]. split; [exact (deposited_possible _ _ _ _ HW eg_new_placed eg_routine 1%Z ltac:(lia))|].
  apply (C121_possible _ _ _ _ _ 1); [exact HW|exact eg_new_placed|exact K1_lights|exact eg_short|exact eg_roomy|lia|]. intros r s q a _ Is _ Ia. exact (eg_all_slow r s q a Is Ia).
Qed.

(** ** C122: the cut among processes and tiles cannot be seen in the currents *)
Theorem C122_decomposition : forall L W L' W' ss ss' K K' optimised optimised' c c' dt n n' blocking blocking' J J' T T' d w w',
  sound_layout L -> sound_parts L W -> well_placed L W ss -> no_race L W n -> (blocking = true -> forall a, l_absorbing L a = false) ->
  (forall d r, In r (processes (l_procs L)) -> right_types L r (T d r)) ->
  light c K -> short_time W c dt -> roomy_parts L W -> slow_charges c (charges L W ss) ->
  currents_deposited L W K optimised n dt ss J -> current_summed L blocking J T d = Ret (start L w) ->
  sound_layout L' -> sound_parts L' W' -> well_placed L' W' ss' -> no_race L' W' n' -> (blocking' = true -> forall a, l_absorbing L' a = false) ->
  (forall d r, In r (processes (l_procs L')) -> right_types L' r (T' d r)) ->
  light c' K' -> short_time W' c' dt -> roomy_parts L' W' -> slow_charges c' (charges L' W' ss') ->
  currents_deposited L' W' K' optimised' n' dt ss' J' -> current_summed L' blocking' J' T' d = Ret (start L' w') ->
  same_whole L L' -> same_axes W W' -> Permutation (charges L W ss) (charges L' W' ss') ->
  forall u u', In u (nodes L) -> In u' (nodes L') -> stands_for L u (point_of L' u') = true -> value w u = value w' u'.
Proof. exact current_decomposition. Qed.
Print Assumptions C122_decomposition.
(** a moving particle at the node between two processes, and the same run on one process: the current there *)
Example C122_case :
  (well_placed (eg_cut 2 4) eg_W eg_new /\ no_race (eg_cut 2 4) eg_W 1 /\ roomy_parts (eg_cut 2 4) eg_W /\ slow_charges 1 (charges (eg_cut 2 4) eg_W eg_new)) /\
  (well_placed (eg_cut 1 8) eg_W eg_new1 /\ no_race (eg_cut 1 8) eg_W 1 /\ roomy_parts (eg_cut 1 8) eg_W /\ slow_charges 1 (charges (eg_cut 1 8) eg_W eg_new1)) /\
  (exists J, currents_deposited (eg_cut 2 4) eg_W K1 true 1 (1 / 2) eg_new J) /\ (exists J, currents_deposited (eg_cut 1 8) eg_W K1 false 1 (1 / 2) eg_new1 J) /\
  same_whole (eg_cut 2 4) (eg_cut 1 8) /\ Permutation (charges (eg_cut 2 4) eg_W eg_new) (charges (eg_cut 1 8) eg_W eg_new1) /\
  (In ((1, 0, 0), (0, 1, 1))%Z (nodes (eg_cut 2 4)) /\ In ((0, 0, 0), (4, 1, 1))%Z (nodes (eg_cut 1 8)) /\
  stands_for (eg_cut 2 4) ((1, 0, 0), (0, 1, 1))%Z (point_of (eg_cut 1 8) ((0, 0, 0), (4, 1, 1))%Z) = true) /\
  current_of (w_orders eg_W) (w_cells eg_W) (1 / 2) (charges (eg_cut 1 8) eg_W eg_new1) AX (4, 1, 1)%Z = 1 / 2.
Proof.
  assert (HW : sound_parts (eg_cut 2 4) eg_W) by (apply eg_cut_parts; lia). assert (HW1 : sound_parts (eg_cut 1 8) eg_W) by (apply eg_cut_parts; lia).
  split; [exact (conj eg_new_placed (conj (eg_race _) (conj eg_roomy eg_slow)))|]. split; [exact (conj eg_new1_placed (conj (eg_race _) (conj eg_roomy1 eg_slow1)))|].
  split; [|split; [|split; [exact eg_whole|split; [rewrite eg_new_charges, eg_new1_charges; apply Permutation_refl|split; [exact eg_nodes|exact eg_current]]]]].
  - apply (C121_possible _ _ _ _ _ 1); [exact HW|exact eg_new_placed|exact K1_lights|exact eg_short|exact eg_roomy|lia|]. intros r s q a _ Is _ Ia. exact (eg_all_slow r s q a Is Ia).
  - apply (C121_possible _ _ _ _ _ 1); [exact HW1|exact eg_new1_placed|exact K1_lights|exact eg_short|exact eg_roomy1|lia|]. intros r s q a _ Is _ Ia. exact (eg_all_slow1 r s q a Is Ia).
Qed.
