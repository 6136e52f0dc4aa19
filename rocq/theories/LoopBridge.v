(** The grids of the processes for the particles and for the fields are the same. *)
From Coq Require Import ZArith Reals List Bool Lia Lra Permutation.
From Verif Require Import Cxx CxxLemmas Num NumRX RXLemmas Fortran FortranNum FortranLemmas Grid GridLemmas Pushers SpecPhys SpecPush PusherProofs Yee SpecYee SpecSolver Deposit Tiles DepositTiles CurrentTiles Gather SpecTiles SpecDeposit SpecCurrent SpecFlux SpecGather SpecDepositTiles SpecCurrentTiles.
From Verif Require Import TilesReal TilesFacts TilesDomain TilesBoth PartBC SpecPartBC PartBCProofs PartBCReal PartDefault SpecPartDefault FieldBC SpecFieldBC SpecWhole SpecWholeCurrent SpecParallelField.
From Verif Require Import PushTiles SpecPic Loop SpecLoop.
Import ListNotations.
Local Open Scope R_scope.

Lemma before_cut n np c : (1 <= np)%Z -> (0 <= n)%Z -> (0 <= c)%Z ->
  cells_before (fun c => (SpecPartBC.cut n np (c + 1) - SpecPartBC.cut n np c)%Z) c = SpecPartBC.cut n np c.
Proof.
  intros Hp Hn Hc. unfold cells_before. revert c Hc. apply natlike_ind.
  - cbn. symmetry. apply cut_0; assumption.
  - intros c Hc IH. replace (Z.succ c - 1)%Z with (c - 1 + 1)%Z by lia. rewrite zrange_snoc by lia. rewrite map_app, fold_right_app. cbn [map fold_right].
    replace (c - 1 + 1)%Z with c by lia. rewrite Z.add_0_r. 
    assert (E : forall l (k : Z), fold_right Z.add k l = (fold_right Z.add 0 l + k)%Z) by (induction l as [|a l IHl]; intros k; cbn; [lia|rewrite IHl; lia]).
    rewrite E, IH. unfold Z.succ. lia.
Qed.
Section Bridge.
Variable P : plan.
Hypothesis Hg : forall a, good_gaxis (pl_axis P a).
Lemma bridge_axis a c : (0 <= c < g_np (pl_axis P a))%Z ->
  part_axis (lay P) (axs P) a c = PAxis (g_left (pl_axis P a) c) (g_d (pl_axis P a)) (ra_n (rank_axis (pl_axis P a) c)) (g_nt (pl_axis P a)) (FieldBC.comp a (pl_guards P)) (FieldBC.comp a (pl_orders P)).
Proof.
  intros Hc. unfold part_axis. cbn [l_cells lay w_lo w_d w_nt w_o axs l_guards]. destruct (Hg a) as (_ & H2 & _). rewrite before_cut by lia. reflexivity.
Qed.
Lemma bridge_procs r : In r (procs P) -> forall a, (0 <= FieldBC.comp a r < g_np (pl_axis P a))%Z.
Proof. unfold procs, g_procs, processes. destruct r as [[r1 r2] r3]. intros H a. apply in_box_box, in_box_iff in H. destruct a; cbn [FieldBC.comp pl_axis]; lia. Qed.
Notation x r := (part_x (lay P) (axs P) r). Notation y r := (part_y (lay P) (axs P) r). Notation z r := (part_z (lay P) (axs P) r).
Notation D := (rank_dom (pl_x P) (pl_y P) (pl_z P)).
Lemma bridge_cut r a : In r (procs P) -> SpecDepositTiles.cut (part_axis (lay P) (axs P) a (FieldBC.comp a r)) = ntiles (ra_n (rank_axis (pl_axis P a) (FieldBC.comp a r))) (g_nt (pl_axis P a)).
Proof. intros Hr. rewrite bridge_axis by now apply bridge_procs. reflexivity. Qed.
Lemma bridge_tiles r : In r (procs P) -> tiles_of (x r) (y r) (z r) = all_tiles (D r).
Proof.
  intros Hr. unfold tiles_of, part_x, part_y, part_z. rewrite !bridge_cut by assumption. destruct r as [[r1 r2] r3]. reflexivity.
Qed.
Lemma bridge_slab r a i v : In r (procs P) -> in_slab (part_axis (lay P) (axs P) a (FieldBC.comp a r)) i v <-> inside_axis (tile_of (rank_axis (pl_axis P a) (FieldBC.comp a r)) i) (Fin v : num FRX) = true.
Proof. intros Hr. rewrite bridge_axis by now apply bridge_procs. unfold in_slab. cbn [p_lo p_d p_n p_nt]. reflexivity. Qed.
Lemma bridge_inside r T i j k a M A : In r (procs P) -> contents M (D r) T A -> rank_tiles (pl_x P) (pl_y P) (pl_z P) r T -> In (i, j, k) (all_tiles (D r)) ->
  Tiles.inside (gat T (i, j, k)) (part_of a) = true <-> in_slab (x r) i (rpx a) /\ in_slab (y r) j (rpy a) /\ in_slab (z r) k (rpz a).
Proof.
  intros Hr (C1 & C2 & _) L Iq. unfold part_x, part_y, part_z. rewrite !bridge_slab by assumption. destruct r as [[r1 r2] r3]. destruct L as (L & _).
  assert (I' : In (i, j, k) (box (glo T) (ghi T))) by (rewrite C1, C2; exact Iq). specialize (L i j k I'). cbv zeta in L. destruct L as (L1 & L2 & L3).
  unfold Tiles.inside. rewrite L1, L2, L3, !andb_true_iff. cbn [part_of px py pz FieldBC.comp pl_axis]. tauto.
Qed.
Lemma bridge_outside r a : In r (procs P) -> outside (D r) (part_of a) = false <->
  (g_left (pl_x P) (FieldBC.comp DirX r) <= rpx a < g_left (pl_x P) (FieldBC.comp DirX r + 1)) /\ (g_left (pl_y P) (FieldBC.comp DirY r) <= rpy a < g_left (pl_y P) (FieldBC.comp DirY r + 1)) /\
  (g_left (pl_z P) (FieldBC.comp DirZ r) <= rpz a < g_left (pl_z P) (FieldBC.comp DirZ r + 1)).
Proof.
  intros Hr. destruct r as [[r1 r2] r3]. unfold outside, outside_axis. cbn [rank_dom dom_of dX dY dZ axis_of ag_plo ag_phi rank_axis ra_plo ra_phi part_of px py pz FieldBC.comp].
  assert (A : forall l h v : R, ((Fin v : num FRX) <? Fin l)%N || ((Fin h : num FRX) <=? Fin v)%N = false <-> l <= v < h).
  { intros l h v. change ((Fin v : num FRX) <? Fin l)%N with (Rltb v l). change ((Fin h : num FRX) <=? Fin v)%N with (Rleb h v). rewrite orb_false_iff.
    destruct (Rltb_spec v l), (Rleb_spec h v); split; intros; try (split; congruence || lra); lra || (destruct H; discriminate). }
  rewrite !orb_false_iff, <- !orb_false_iff. rewrite <- !A. rewrite !orb_false_iff. tauto.
Qed.
End Bridge.
