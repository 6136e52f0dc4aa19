(** Examples for the field solver on several processes. *)
From Coq Require Import ZArith Reals List Bool Lia Lra.
From Verif Require Import Cxx Num NumRX Fortran FortranNum Grid Pushers Yee Deposit Tiles DepositTiles CurrentTiles SpecYee SpecSolver SpecDeposit SpecCurrent SpecTiles SpecDepositTiles SpecCurrentTiles YeeReal.
From Verif Require Import PartBC FieldBC SpecFieldBC SpecWhole SpecWholeCurrent WholeExamples SpecParallelField ParallelField.
Import ListNotations.
Local Open Scope R_scope.

(** arrays that hold a function *)
Definition filled (L : layout) (f : idx -> R) (r : idx) : grid (num FRX) :=
  let '(g1, g2, g3) := l_guards L in let '(n1, n2, n3) := local_cells L r in
  Grid (- g1, - g2, - g3)%Z (n1 + g1, n2 + g2, n3 + g3)%Z (fun p => Fin (f (point_of L (r, p))) : num FRX).
Definition filled_field (L : layout) (f : rfield) (r : idx) : field (num FRX) := Field3 (filled L (comp_x f) r) (filled L (comp_y f) r) (filled L (comp_z f) r).
Lemma filled_carries L f : carries L (filled L f) f.
Proof.
  unfold carries, right_bounds, filled. split.
  - intros r _. destruct (l_guards L) as [[? ?] ?], (local_cells L r) as [[? ?] ?]. split; reflexivity.
  - intros [r p] _. cbn [fst snd]. destruct (l_guards L) as [[? ?] ?], (local_cells L r) as [[? ?] ?]. reflexivity.
Qed.
Lemma filled_carrying L f : carrying L (filled_field L f) f.
Proof. intros d. destruct d; apply filled_carries. Qed.

(** a plane pulse at the first node of the second process *)
Definition pulse : rfield := RField (fun _ => 0) (fun p => if (FieldBC.comp DirX p mod 8 =? 4)%Z then 1 else 0) (fun _ => 0).
Definition rest : rfield := RField (fun _ => 0) (fun _ => 0) (fun _ => 0).
Lemma pulse_repeats n c : (n * c = 8)%Z -> all_cells (eg_cut n c) DirX = 8%Z -> repeating (eg_cut n c) pulse.
Proof.
  intros _ H d d' p. destruct d; [reflexivity| |reflexivity]. cbn [SpecDeposit.comp pulse comp_y]. destruct p as [[p1 p2] p3], d'; cbn [shift FieldBC.comp dir_of]; [|reflexivity|reflexivity].
  rewrite H. replace (p1 + 8)%Z with (p1 + 1 * 8)%Z by lia. rewrite Z_mod_plus_full. reflexivity.
Qed.
Lemma pulse_two : repeating (eg_cut 2 4) pulse. Proof. apply pulse_repeats; reflexivity. Qed.
Lemma pulse_one : repeating (eg_cut 1 8) pulse. Proof. apply pulse_repeats; reflexivity. Qed.
Lemma rest_repeats L : repeating L rest. Proof. intros d d' p. destruct d; reflexivity. Qed.
(** second order, and fourth order *)
Definition eg_q : rsteps := {| rdt := 1 / 2; rdx := 1; rdy := 1; rdz := 1; rcx := [9 / 8; - (1 / 24)]; rcy := [9 / 8; - (1 / 24)]; rcz := [9 / 8; - (1 / 24)] |}.
Definition eg_U (order extra : Z) : setup := {| u_order := (order, order, order); u_extra := (extra, 0, 0)%Z; u_nodal := false; u_steps := eg_q; u_c := 1; u_mu := 1 |}.
Lemma eg_fitting n c order extra : order = 2%Z \/ order = 4%Z -> (0 <= extra <= 1)%Z -> fitting (eg_cut n c) (eg_U order extra).
Proof.
  intros [-> | ->] H; (split; [cbn; lra|]); (split; [first [intros X; discriminate X|intros _; repeat split; reflexivity]|]); intros a; destruct a; cbn; lia.
Qed.
(** half a step later the pulse is in the magnetic field of the other process *)
Lemma eg_moved : comp_z (b_after (eg_U 2 0) pulse rest) (3, 1, 1)%Z = - (1 / 4).
Proof. unfold b_after, curl. cbn [comp_z comp_x comp_y]. change (diffs (eg_U 2 0)) with (yee 1 1 1). rewrite !fwd_yee. cbn. lra. Qed.
Lemma eg_stands : In ((0, 0, 0), (3, 1, 1))%Z (nodes (eg_cut 2 4)) /\ In ((0, 0, 0), (3, 1, 1))%Z (nodes (eg_cut 1 8)) /\
  stands_for (eg_cut 2 4) ((0, 0, 0), (3, 1, 1))%Z (point_of (eg_cut 1 8) ((0, 0, 0), (3, 1, 1))%Z) = true.
Proof. split; [|split]; [| |reflexivity]; apply FieldBCProofs.in_nodes; (split; [vm_compute; auto|]); intros a; destruct a; cbn; lia. Qed.
