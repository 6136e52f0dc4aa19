(** C125, C126 and C127: the fields of a run on several processes (src/submain.F90:136-175, periodic boundaries). *)
From Coq Require Import ZArith Reals List Bool Lia Lra Permutation.
From Verif Require Import Cxx Num NumRX Fortran FortranNum Grid Pushers Yee Deposit Tiles DepositTiles CurrentTiles SpecYee SpecSolver SpecDeposit SpecCurrent SpecTiles SpecDepositTiles SpecCurrentTiles DepositExamples.
From Verif Require Import PartBC FieldBC SpecFieldBC SpecWhole SpecWholeCurrent WholeProofs WholeCurrentProofs WholeExamples CurrentTilesExamples SpecParallelField ParallelField ParallelGauss ParallelFieldExamples.
Import ListNotations.
Local Open Scope R_scope.

(** ** C125: the processes together solve Maxwell's equations on the whole periodic grid *)
(** any number of time steps, any formulas that fit in the guard cells, any cut: if the arrays of all processes hold the fields e and b and
    the currents js of the whole grid, they hold in the end what the whole grid has after these time steps, in the guard cells too *)
Theorem C125_run : forall L U blocking Js js E B E' B' e b,
  sound_layout L -> periodic L -> fitting L U -> repeating L e -> repeating L b -> carrying L E e -> carrying L B b ->
  Forall2 (fun J j => carrying L J j /\ repeating L j) Js js ->
  field_run L U blocking Js E B E' B' ->
  carrying L E' (fst (whole_run U js (e, b))) /\ carrying L B' (snd (whole_run U js (e, b))).
Proof. intros L U blocking Js js E B E' B' e b HL HP HF He Hb HE HB HJ R. exact (run_carries L U HL HP HF blocking Js E B E' B' R js e b He Hb HE HB HJ). Qed.
Print Assumptions C125_run.
(** and the run gets there *)
Theorem C125_possible : forall L U blocking Js js E B e b,
  sound_layout L -> periodic L -> fitting L U -> repeating L e -> repeating L b -> carrying L E e -> carrying L B b ->
  Forall2 (fun J j => carrying L J j /\ repeating L j) Js js -> exists E' B', field_run L U blocking Js E B E' B'.
Proof. intros L U blocking Js js E B e b HL HP HF. exact (run_possible L U HL HP HF blocking Js js E B e b). Qed.
Print Assumptions C125_possible.
(** two cuts of the same grid: the same fields at the same points *)
Theorem C125_decomposition : forall L L' U U' blocking blocking' Js Js' js E B E' B' E1 B1 E1' B1' e b,
  sound_layout L -> periodic L -> fitting L U -> sound_layout L' -> periodic L' -> fitting L' U' -> same_whole L L' -> same_solver U U' ->
  repeating L e -> repeating L b ->
  carrying L E e -> carrying L B b -> Forall2 (fun J j => carrying L J j /\ repeating L j) Js js ->
  carrying L' E' e -> carrying L' B' b -> Forall2 (fun J j => carrying L' J j) Js' js ->
  field_run L U blocking Js E B E1 B1 -> field_run L' U' blocking' Js' E' B' E1' B1' ->
  forall d u u', In u (nodes L) -> In u' (nodes L') -> stands_for L u (point_of L' u') = true ->
    gat (array d (E1 (fst u))) (snd u) = gat (array d (E1' (fst u'))) (snd u') /\ gat (array d (B1 (fst u))) (snd u) = gat (array d (B1' (fst u'))) (snd u').
Proof. exact field_decomposition. Qed.
Print Assumptions C125_decomposition.
(** two processes and one, second and fourth order: a pulse at the border of the processes *)
Example C125_case : forall order, order = 2%Z \/ order = 4%Z ->
  (sound_layout (eg_cut 2 4) /\ periodic (eg_cut 2 4) /\ fitting (eg_cut 2 4) (eg_U order 1)) /\ (sound_layout (eg_cut 1 8) /\ periodic (eg_cut 1 8) /\ fitting (eg_cut 1 8) (eg_U order 0)) /\
  same_whole (eg_cut 2 4) (eg_cut 1 8) /\ same_solver (eg_U order 1) (eg_U order 0) /\ repeating (eg_cut 2 4) pulse /\ repeating (eg_cut 2 4) rest /\
  (carrying (eg_cut 2 4) (filled_field (eg_cut 2 4) pulse) pulse /\ carrying (eg_cut 2 4) (filled_field (eg_cut 2 4) rest) rest) /\
  (carrying (eg_cut 1 8) (filled_field (eg_cut 1 8) pulse) pulse /\ carrying (eg_cut 1 8) (filled_field (eg_cut 1 8) rest) rest) /\
  (In ((0, 0, 0), (3, 1, 1))%Z (nodes (eg_cut 2 4)) /\ In ((0, 0, 0), (3, 1, 1))%Z (nodes (eg_cut 1 8)) /\
   stands_for (eg_cut 2 4) ((0, 0, 0), (3, 1, 1))%Z (point_of (eg_cut 1 8) ((0, 0, 0), (3, 1, 1))%Z) = true) /\
  comp_z (b_after (eg_U 2 0) pulse rest) (3, 1, 1)%Z = - (1 / 4).
Proof.
  intros order Ho. split; [split; [apply eg_cut_sound; lia|split; [intros a; reflexivity|apply eg_fitting; [exact Ho|lia]]]|].
  split; [split; [apply eg_cut_sound; lia|split; [intros a; reflexivity|apply eg_fitting; [exact Ho|lia]]]|].
  split; [exact eg_whole|]. split; [repeat split|]. split; [exact pulse_two|]. split; [apply rest_repeats|]. split; [split; apply filled_carrying|]. split; [split; apply filled_carrying|].
  split; [exact eg_stands|exact eg_moved].
Qed.

(** ** C126: Gauss's law in a run on several processes *)
(** div E - c^2 mu rho and div B stay as they are at every point of the whole grid, in any number of time steps: the particles move
    among tiles and processes and across the borders, the currents are deposited and summed, the fields pushed and exchanged *)
Theorem C126_gauss : forall L W U K optimised blocking n l ss E B ss' E' B' e b,
  run_set L W U K n -> same_grid W U -> holding L W (ss, E, B) e b -> pic_run L W U K optimised blocking n l (ss, E, B) (ss', E', B') ->
  exists e' b', holding L W (ss', E', B') e' b' /\
    forall p, div (bwd (diffs U)) e' p - u_c U ^ 2 * u_mu U * whole_rho L W ss' p = div (bwd (diffs U)) e p - u_c U ^ 2 * u_mu U * whole_rho L W ss p.
Proof.
  intros L W U K optimised blocking n l ss E B ss' E' B' e b (HL & HP & HF & HW & Hn & Hc & Ht & Hg) SG G R.
  destruct (run_gauss L W U K optimised blocking n HL HP HF HW Hn Hc Ht Hg l _ _ R e b G) as (e' & b' & G' & _ & D). exact (ex_intro _ e' (ex_intro _ b' (conj G' (D SG)))).
Qed.
Print Assumptions C126_gauss.
(** for any formulas *)
Theorem C126_magnetic : forall L W U K optimised blocking n l ss E B ss' E' B' e b,
  run_set L W U K n -> holding L W (ss, E, B) e b -> pic_run L W U K optimised blocking n l (ss, E, B) (ss', E', B') ->
  exists e' b', holding L W (ss', E', B') e' b' /\ forall p, div (fwd (diffs U)) b' p = div (fwd (diffs U)) b p.
Proof.
  intros L W U K optimised blocking n l ss E B ss' E' B' e b (HL & HP & HF & HW & Hn & Hc & Ht & Hg) G R.
  destruct (run_gauss L W U K optimised blocking n HL HP HF HW Hn Hc Ht Hg l _ _ R e b G) as (e' & b' & G' & M & _). exact (ex_intro _ e' (ex_intro _ b' (conj G' M))).
Qed.
Print Assumptions C126_magnetic.
(** particles that move with their velocities make a time step *)
Theorem C126_possible : forall L W U K optimised blocking n ss0 ss E B e b, run_set L W U K n -> holding L W (ss0, E, B) e b ->
  well_placed L W ss -> slow_charges (u_c U) (charges L W ss) -> same_particles L W (charges L W ss0) (charges_before (rdt (u_steps U)) (charges L W ss)) ->
  (exists J, currents_deposited L W K optimised n (rdt (u_steps U)) ss J) -> exists E' B', pic_run L W U K optimised blocking n [ss] (ss0, E, B) (ss, E', B').
Proof.
  intros L W U K optimised blocking n ss0 ss E B e b (HL & HP & HF & HW & Hn & Hc & Ht & Hg) G H1 Hs Hp HJ.
  destruct (step_possible L W U K optimised blocking n HL HP HF HW Hn Hc Ht Hg ss0 ss E B e b G H1 Hs Hp HJ) as (E' & B' & St).
  exact (ex_intro _ E' (ex_intro _ B' (pic_more L W U K optimised blocking n [] _ (ss, E', B') _ St (pic_none _ _ _ _ _ _ _ _)))).
Qed.
Print Assumptions C126_possible.
(** two periodic processes: one particle goes from the first to the second, another across the border *)
Example C126_case : run_set (eg_cut 2 4) eg_W (eg_U 2 0) K1 1 /\ same_grid eg_W (eg_U 2 0) /\
  holding (eg_cut 2 4) eg_W (eg_old, filled_field (eg_cut 2 4) pulse, filled_field (eg_cut 2 4) rest) pulse rest /\
  (exists E' B', pic_run (eg_cut 2 4) eg_W (eg_U 2 0) K1 true false 1 [eg_new] (eg_old, filled_field (eg_cut 2 4) pulse, filled_field (eg_cut 2 4) rest) (eg_new, E', B')) /\
  density_of (w_orders eg_W) (w_cells eg_W) (charges (eg_cut 2 4) eg_W eg_new) (5, 1, 1)%Z = 1 / 4.
Proof.
  assert (HL : sound_layout (eg_cut 2 4)) by (apply eg_cut_sound; lia). assert (HW : sound_parts (eg_cut 2 4) eg_W) by (apply eg_cut_parts; lia).
  assert (HR : run_set (eg_cut 2 4) eg_W (eg_U 2 0) K1 1).
  { split; [exact HL|]. split; [intros a; reflexivity|]. split; [apply eg_fitting; [left; reflexivity|lia]|]. split; [exact HW|]. split; [apply eg_race|]. split; [exact K1_lights|]. split; [exact eg_short|exact eg_roomy]. }
  assert (HH : holding (eg_cut 2 4) eg_W (eg_old, filled_field (eg_cut 2 4) pulse, filled_field (eg_cut 2 4) rest) pulse rest).
  { split; [exact eg_old_placed|]. split; [exact pulse_two|]. split; [apply rest_repeats|]. split; apply filled_carrying. }
  split; [exact HR|]. split; [repeat split|]. split; [exact HH|]. split; [|exact eg_change].
  apply (C126_possible _ _ _ _ _ _ _ _ _ _ _ _ _ HR HH eg_new_placed eg_slow eg_same).
  apply (currents_possible _ _ _ _ _ 1 _ HW eg_new_placed K1_lights eg_short eg_roomy 1%Z ltac:(lia)). intros r s q a _ Is _ Ia. exact (eg_all_slow r s q a Is Ia).
Qed.

(** ** C127: the cut among processes and tiles cannot be seen in the fields of a run with particles *)
Theorem C127_decomposition : forall L L' W W' U U' K K' optimised optimised' blocking blocking' n n' l l' s s' ss1 E1 B1 ss1' E1' B1' e b,
  run_set L W U K n -> run_set L' W' U' K' n' -> same_whole L L' -> same_axes W W' -> same_solver U U' ->
  holding L W s e b -> holding L' W' s' e b ->
  pic_run L W U K optimised blocking n l s (ss1, E1, B1) -> pic_run L' W' U' K' optimised' blocking' n' l' s' (ss1', E1', B1') ->
  Forall2 (fun ss ss' => Permutation (charges L W ss) (charges L' W' ss')) l l' ->
  forall d u u', In u (nodes L) -> In u' (nodes L') -> stands_for L u (point_of L' u') = true ->
    gat (array d (E1 (fst u))) (snd u) = gat (array d (E1' (fst u'))) (snd u') /\ gat (array d (B1 (fst u))) (snd u) = gat (array d (B1' (fst u'))) (snd u').
Proof. exact run_decomposition. Qed.
Print Assumptions C127_decomposition.
(** one process with the particles of the two above *)
Example C127_case : run_set (eg_cut 1 8) eg_W (eg_U 2 1) K1 1 /\ same_whole (eg_cut 2 4) (eg_cut 1 8) /\ same_axes eg_W eg_W /\ same_solver (eg_U 2 0) (eg_U 2 1) /\
  repeating (eg_cut 1 8) pulse /\ carrying (eg_cut 1 8) (filled_field (eg_cut 1 8) pulse) pulse /\ well_placed (eg_cut 1 8) eg_W eg_new1 /\
  Permutation (charges (eg_cut 2 4) eg_W eg_new) (charges (eg_cut 1 8) eg_W eg_new1) /\ exists J, currents_deposited (eg_cut 1 8) eg_W K1 true 1 (1 / 2) eg_new1 J.
Proof.
  assert (HL : sound_layout (eg_cut 1 8)) by (apply eg_cut_sound; lia). assert (HW : sound_parts (eg_cut 1 8) eg_W) by (apply eg_cut_parts; lia).
  split.
  { split; [exact HL|]. split; [intros a; reflexivity|]. split; [apply eg_fitting; [left; reflexivity|lia]|]. split; [exact HW|]. split; [apply eg_race|]. split; [exact K1_lights|]. split; [exact eg_short|exact eg_roomy1]. }
  split; [exact eg_whole|]. split; [intros a; repeat split|]. split; [repeat split|]. split; [exact pulse_one|]. split; [apply filled_carrying|]. split; [exact eg_new1_placed|].
  split; [rewrite eg_new_charges, eg_new1_charges; apply Permutation_refl|].
  apply (currents_possible _ _ _ _ _ 1 _ HW eg_new1_placed K1_lights eg_short eg_roomy1 1%Z ltac:(lia)). intros r s q a _ Is _ Ia. exact (eg_all_slow1 r s q a Is Ia).
Qed.
