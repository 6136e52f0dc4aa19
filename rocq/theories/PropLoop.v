(** C133 and C134: the whole main loop on several processes (src/submain.F90:105-176, one species, periodic boundaries). *)
From Coq Require Import ZArith Reals List Bool Lia Lra Permutation.
From Verif Require Import Cxx Num NumRX Fortran FortranNum Grid Pushers Yee SpecYee SpecSolver Deposit Tiles DepositTiles CurrentTiles Gather SpecTiles SpecDeposit SpecCurrent SpecFlux SpecGather SpecDepositTiles.
From Verif Require Import PartBC SpecPartBC PartDefault SpecPartDefault FieldBC SpecFieldBC SpecWhole SpecWholeCurrent SpecParallelField PushTiles SpecPic Loop SpecLoop LoopStep LoopExamples ParallelFieldExamples.
Import ListNotations.
Local Open Scope R_scope.

(** ** C133: the processes together simulate the plasma on the whole periodic grid *)
(** n time steps of the processes are n time steps on the whole grid: the processes and the tiles still have, together, the particles, each in
    the right place, and the arrays still hold the fields *)
Theorem C133_run : forall P M m n s s' ps e b,
  sound_plan P -> room M (zlen (everyone P ps)) -> beyond_guards P m -> representing P M s ps e b -> full_run P n s s' ->
  exists ps' e' b', representing P M s' ps' e' b' /\ whole_pic_run P m n (everyone P ps, e, b) (everyone P ps', e', b') /\ zlen (everyone P ps') = zlen (everyone P ps).
Proof.
  intros P M m n s s' ps e b HP Hr Hm Hs R. destruct (run_refines P M HP n s s' R m ps e b Hr Hm Hs) as (ps' & e' & b' & l & H & W & E & _). exact (ex_intro _ ps' (ex_intro _ e' (ex_intro _ b' (conj H (conj W E))))).
Qed.
Print Assumptions C133_run.
(** the time steps never fail *)
Theorem C133_goes_on : forall P M n s ps e b, sound_plan P -> room M (zlen (everyone P ps)) -> representing P M s ps e b -> exists s', full_run P n s s'.
Proof. intros P M n s ps e b HP. exact (run_exists P M HP n s ps e b). Qed.
Print Assumptions C133_goes_on.
(** Gauss's law, and div B *)
Theorem C133_gauss : forall P M n s s' ps e b, sound_plan P -> same_grid (axs P) (pl_solver P) -> room M (zlen (everyone P ps)) -> representing P M s ps e b -> full_run P n s s' ->
  exists ps' e' b', representing P M s' ps' e' b' /\ forall p,
    div (fwd (diffs (pl_solver P))) b' p = div (fwd (diffs (pl_solver P))) b p /\
    div (bwd (diffs (pl_solver P))) e' p - u_c (pl_solver P) ^ 2 * u_mu (pl_solver P) * density_at P (everyone P ps') p =
    div (bwd (diffs (pl_solver P))) e p - u_c (pl_solver P) ^ 2 * u_mu (pl_solver P) * density_at P (everyone P ps) p.
Proof.
  intros P M n s s' ps e b HP SG Hr Hs R. destruct (run_gauss_full P M HP n s s' ps e b R Hr Hs) as (ps' & e' & b' & H & Gb & Ge).
  exact (ex_intro _ ps' (ex_intro _ e' (ex_intro _ b' (conj H (fun p => conj (Gb p) (Ge SG p)))))).
Qed.
Print Assumptions C133_gauss.
(** two processes with eight tiles each, the default exchange, and a particle that is about to change the process *)
Example C133_case : sound_plan eq_two /\ same_grid (axs eq_two) (pl_solver eq_two) /\ beyond_guards eq_two 3 /\ room 100 (zlen (everyone eq_two eq_ps)) /\ everyone eq_two eq_ps = [eq_a] /\
  representing eq_two 100 (eq_state eq_two) eq_ps pulse rest /\ exists s', full_run eq_two 10 (eq_state eq_two) s'.
Proof.
  assert (HP : sound_plan eq_two) by (apply eq_sound; now left). assert (Hs : representing eq_two 100 (eq_state eq_two) eq_ps pulse rest) by (apply eq_representing; now left).
  assert (Hr : room 100 (zlen (everyone eq_two eq_ps))) by (unfold room; vm_compute; repeat split; discriminate).
  split; [exact HP|]. split; [exact eq_grid|]. split; [intros a; destruct a; reflexivity|]. split; [exact Hr|]. split; [reflexivity|]. split; [exact Hs|]. exact (C133_goes_on _ 100 10 _ _ _ _ HP Hr Hs).
Qed.

(** ** C134: the decomposition cannot be seen in the result of a run *)
(** after the same number of time steps the particles are the same ones and the fields are the same functions, whatever the processes, tiles, guard
    cells, threads, ways to exchange particles, messages and algorithms of the deposition and of the gathering *)
Theorem C134_decomposition : forall P P' M M' n s s' s1 s1' ps ps' e b,
  sound_plan P -> sound_plan P' -> same_problem P P' -> room M (zlen (everyone P ps)) -> room M' (zlen (everyone P' ps')) ->
  representing P M s ps e b -> representing P' M' s' ps' e b -> Permutation (everyone P ps) (everyone P' ps') ->
  full_run P n s s1 -> full_run P' n s' s1' ->
  exists ps1 ps1' e1 b1, representing P M s1 ps1 e1 b1 /\ representing P' M' s1' ps1' e1 b1 /\ Permutation (everyone P ps1) (everyone P' ps1').
Proof. intros P P' M M' n s s' s1 s1' ps ps' e b HP HP' SP. exact (two_plans P P' HP HP' SP M M' n s s' s1 s1' ps ps' e b). Qed.
Print Assumptions C134_decomposition.
(** then the elements of the arrays that stand for the same points have the same values *)
Theorem C134_arrays : forall P P' M M' W1 E1 B1 W1' E1' B1' ps1 ps1' e1 b1,
  sound_plan P -> sound_plan P' -> same_problem P P' -> representing P M (W1, E1, B1) ps1 e1 b1 -> representing P' M' (W1', E1', B1') ps1' e1 b1 ->
  forall d u u', In u (nodes (lay P)) -> In u' (nodes (lay P')) -> stands_for (lay P) u (point_of (lay P') u') = true ->
    gat (array d (E1 (fst u))) (snd u) = gat (array d (E1' (fst u'))) (snd u') /\ gat (array d (B1 (fst u))) (snd u) = gat (array d (B1' (fst u'))) (snd u').
Proof. intros P P' M M' W1 E1 B1 W1' E1' B1' ps1 ps1' e1 b1 HP HP' SP. exact (two_arrays P P' HP HP' SP M M' W1 E1 B1 W1' E1' B1' ps1 ps1' e1 b1). Qed.
Print Assumptions C134_arrays.
(** one process with three by two by two tiles, more guard cells, other messages, and the exchange with one thread *)
Example C134_case : sound_plan eq_two /\ sound_plan eq_one /\ same_problem eq_two eq_one /\ everyone eq_two eq_ps = everyone eq_one eq_ps /\
  room 100 (zlen (everyone eq_two eq_ps)) /\ room 100 (zlen (everyone eq_one eq_ps)) /\
  representing eq_two 100 (eq_state eq_two) eq_ps pulse rest /\ representing eq_one 100 (eq_state eq_one) eq_ps pulse rest /\
  (exists s, full_run eq_two 10 (eq_state eq_two) s) /\ exists s, full_run eq_one 10 (eq_state eq_one) s.
Proof.
  assert (HP : sound_plan eq_two) by (apply eq_sound; now left). assert (HP' : sound_plan eq_one) by (apply eq_sound; now right).
  assert (Hs : representing eq_two 100 (eq_state eq_two) eq_ps pulse rest) by (apply eq_representing; now left). assert (Hs' : representing eq_one 100 (eq_state eq_one) eq_ps pulse rest) by (apply eq_representing; now right).
  assert (Hr : room 100 (zlen (everyone eq_two eq_ps))) by (unfold room; vm_compute; repeat split; discriminate). assert (Hr' : room 100 (zlen (everyone eq_one eq_ps))) by (unfold room; vm_compute; repeat split; discriminate).
  split; [exact HP|]. split; [exact HP'|]. split; [exact eq_same|]. split; [reflexivity|]. split; [exact Hr|]. split; [exact Hr'|]. split; [exact Hs|]. split; [exact Hs'|].
  split; [exact (C133_goes_on _ 100 10 _ _ _ _ HP Hr Hs)|exact (C133_goes_on _ 100 10 _ _ _ _ HP' Hr' Hs')].
Qed.
