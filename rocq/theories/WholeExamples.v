(** An example of a run on two processes, and the same run on one. *)
From Coq Require Import ZArith Reals List Bool Lia Lra Permutation.
From Verif Require Import Cxx CxxLemmas Num NumRX Fortran FortranNum Grid GridLemmas Pushers Deposit Tiles DepositTiles SpecYee SpecDeposit SpecTiles TilesReal SpecDepositTiles DepositTilesProofs DepositTilesReal DepositTilesExamples.
From Verif Require Import PartBC FieldBC SpecFieldBC FieldBCWorld FieldBCProofs SpecWhole WholeProofs.
Import ListNotations.
Local Open Scope R_scope.

(** n processes along x with c cells each; four cells along y and z *)
Definition eg_cut (n c : Z) : layout := Layout (n, 1, 1)%Z (fun a _ => match a with DirX => c | _ => 4%Z end) (2, 2, 2)%Z (fun _ => false).
Definition eg_W (a : dir) : waxis := WAxis 0 1 1 1.
Definition at_x (v : R) : rpart := {| rpx := v; rpy := 1; rpz := 1; rux := 0; ruy := 0; ruz := 0; rgam := 1; rw := 1 |}.
(** two particles beside the middle *)
Definition eg_ss2 (r : idx) : list rspecies :=
  [RSpecies true 1 (fun _ => if idx_eqb r (0, 0, 0)%Z then [at_x (15 / 4)] else [at_x (17 / 4)])].
Definition eg_ss1 (r : idx) : list rspecies := [RSpecies true 1 (fun _ => [at_x (15 / 4); at_x (17 / 4)])].
Lemma eg_cut_sound n c : (1 <= n)%Z -> (3 <= c)%Z -> sound_layout (eg_cut n c).
Proof. intros Hn Hc a. destruct a; cbn [comp l_procs l_guards l_cells eg_cut]; repeat split; try lia. Qed.
Lemma eg_cut_parts n c : (3 <= c <= 1000)%Z -> sound_parts (eg_cut n c) eg_W.
Proof. intros Hc. split; [intros a; cbn; lra|]. intros a k Hk. unfold sensible. destruct a; cbn; lia. Qed.
Lemma one_tile a v : p_nt a = 1%Z -> (2 <= p_n a)%Z -> p_d a = 1 -> p_lo a <= v < p_lo a + IZR (p_n a - 1) -> in_slab a 1 v.
Proof.
  intros E Hn D H. assert (Ec : cut a = 1%Z) by (unfold cut, ntiles; rewrite E; destruct (p_n a ÷ 1 <? 4)%Z; reflexivity).
  apply (slab_ok a 1 v (p_lo a - 1 / 2) (p_lo a + IZR (p_n a - 1))).
  - rewrite Ec. lia.
  - unfold left_of. cbn [ra_n ra_nt ra_lo ra_d ra_plo]. unfold cut in Ec. rewrite Ec, D. cbn. lra.
  - unfold right_of, ra_hi. cbn [ra_n ra_nt ra_lo ra_d ra_phi]. unfold cut in Ec. rewrite Ec, D. cbn [Z.eqb Pos.eqb]. lra.
  - lra.
Qed.
Lemma eg_tiles L r q : In q (tiles_of (part_x L eg_W r) (part_y L eg_W r) (part_z L eg_W r)) -> q = (1, 1, 1)%Z.
Proof.
  unfold tiles_of. assert (E : forall a c, cut (part_axis L eg_W a c) = 1%Z) by (intros a c; unfold cut, ntiles; cbn [part_axis p_n p_nt eg_W w_nt]; destruct (_ <? 4)%Z; reflexivity).
  unfold part_x, part_y, part_z. rewrite !E. intros [<-|[]]. reflexivity.
Qed.
Lemma eg_two_placed : well_placed (eg_cut 2 4) eg_W eg_ss2.
Proof.
  intros r Hr s i j k a Is Iq Ia. apply eg_tiles in Iq. injection Iq as -> -> ->. destruct Is as [<-|[]]. cbn [rs_parts] in Ia.
  assert (Er : r = (0, 0, 0)%Z \/ r = (1, 0, 0)%Z) by (destruct Hr as [<-|[<-|[]]]; tauto).
  destruct Er as [->| ->]; cbv beta iota delta [idx_eqb Z.eqb Pos.eqb andb] in Ia; (destruct Ia as [<-|[]]; split; [|split]; apply one_tile; try reflexivity; cbn; try lia; change (Pos.to_nat 1) with 1%nat; cbn; lra).
Qed.
Lemma eg_one_placed : well_placed (eg_cut 1 8) eg_W eg_ss1.
Proof.
  intros r Hr s i j k a Is Iq Ia. apply eg_tiles in Iq. injection Iq as -> -> ->. destruct Is as [<-|[]]. cbn [rs_parts] in Ia. destruct Hr as [<-|[]].
  destruct Ia as [<-|[<-|[]]]; (split; [|split]; apply one_tile; try reflexivity; cbn; try lia; lra).
Qed.
Lemma eg_routine : routine_for (w_orders eg_W) linear.
Proof. apply (any_order (N := FRX)). Qed.
Lemma eg_charges : charges (eg_cut 2 4) eg_W eg_ss2 = charges (eg_cut 1 8) eg_W eg_ss1.
Proof. reflexivity. Qed.
Lemma eg_race L : no_race L eg_W 1. Proof. left. lia. Qed.
Lemma eg_whole : same_whole (eg_cut 2 4) (eg_cut 1 8).
Proof. intros a. destruct a; split; reflexivity. Qed.
(** the first node of the second process is node 4 of the single one *)
Lemma eg_nodes : In ((1, 0, 0), (0, 1, 1))%Z (nodes (eg_cut 2 4)) /\ In ((0, 0, 0), (4, 1, 1))%Z (nodes (eg_cut 1 8)) /\
  stands_for (eg_cut 2 4) ((1, 0, 0), (0, 1, 1))%Z (point_of (eg_cut 1 8) ((0, 0, 0), (4, 1, 1))%Z) = true.
Proof. split; [|split; [|reflexivity]]; apply in_nodes; (split; [apply processes_comp; intros a; destruct a; cbn; lia|intros a; destruct a; cbn; lia]). Qed.
(** both particles give 3/4 to it *)
Lemma eg_density : density_of (w_orders eg_W) (w_cells eg_W) (charges (eg_cut 1 8) eg_W eg_ss1) (4, 1, 1)%Z = 3 / 2.
Proof.
  change (charges (eg_cut 1 8) eg_W eg_ss1) with [(1, at_x (15 / 4)); (1, at_x (17 / 4))]. unfold density_of, sumR. cbn [map fold_right fst snd]. unfold share. cbn [w_orders onx ony onz eg_W w_o].
  rewrite !(spline1 _ 1 1), (spline1 (unit_x _ (rpx (at_x (15 / 4)))) 4 (3 / 4)), (spline1 (unit_x _ (rpx (at_x (17 / 4)))) 4 (3 / 4)); unfold SpecDeposit.volume, unit_x, unit_y, unit_z; cbn; try lra.
  - rewrite Rabs_right by lra. lra.
  - rewrite Rabs_left by lra. lra.
  - replace ((1 - 0) / 1 - 1) with 0 by lra. rewrite Rabs_R0. lra.
  - replace ((1 - 0) / 1 - 1) with 0 by lra. rewrite Rabs_R0. lra.
  - replace ((1 - 0) / 1 - 1) with 0 by lra. rewrite Rabs_R0. lra.
  - replace ((1 - 0) / 1 - 1) with 0 by lra. rewrite Rabs_R0. lra.
Qed.
