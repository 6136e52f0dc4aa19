(** Examples for the currents on tiles and processes. *)
From Coq Require Import ZArith Reals List Bool Lia Lra Permutation.
From Verif Require Import Cxx CxxLemmas Num NumRX Fortran FortranNum Grid GridLemmas Pushers Yee Deposit Esirkepov Tiles DepositTiles CurrentTiles SpecYee SpecDeposit SpecCurrent SpecTiles TilesReal SpecDepositTiles SpecCurrentTiles DepositExamples DepositTilesProofs DepositTilesReal DepositTilesExamples CurrentTilesProofs.
From Verif Require Import PartBC FieldBC SpecFieldBC FieldBCWorld FieldBCProofs SpecWhole WholeProofs WholeExamples SpecWholeCurrent WholeCurrentProofs WholeContinuity SpecFlux Flux.
Import ListNotations.
Local Open Scope R_scope.

(** a particle that moves with the speed of light along x *)
Definition fast_x (v : R) : rpart := {| rpx := v; rpy := 1; rpz := 1; rux := 1; ruy := 0; ruz := 0; rgam := 1; rw := 1 |}.
(** it came into the second of two tiles along x *)
Definition came_in : list rspecies := [RSpecies true 1 (fun q => if idx_eqb q (2, 1, 1)%Z then [fast_x (15 / 4)] else [])].
Lemma in_came : in_tiles ax8 ax81 ax4 came_in.
Proof.
  intros s i j k a Is Iq Ia. destruct Is as [<-|[]]; cbn [rs_parts] in Ia. destruct (idx_eqb (i, j, k) (2, 1, 1)%Z) eqn:E; [|destruct Ia].
  apply idx_eqb_eq in E. injection E as -> -> ->. destruct Ia as [<-|[]]. cbn. split; [apply slab8_2; lra|]. split; [apply slab81; lra|apply slab4; lra].
Qed.
Lemma fast_slower v : slower 1 (fast_x v).
Proof. intros d. destruct d; cbn [speed fast_x rux ruy ruz rgam]; [rewrite Rmult_1_r, Rabs_R1|rewrite Rmult_0_l, Rabs_R0|rewrite Rmult_0_l, Rabs_R0]; lra. Qed.
Lemma came_slower : all_slower 1 ax8 ax81 ax4 came_in.
Proof. intros s q a Is _ Ia. destruct Is as [<-|[]]; cbn [rs_parts] in Ia. destruct (idx_eqb q (2, 1, 1)%Z); [|destruct Ia]. destruct Ia as [<-|[]]. apply fast_slower. Qed.
Lemma K1_lights : light 1 K1. Proof. reflexivity. Qed.
Lemma came_step : short_step 1 (1 / 2) ax8 ax81 ax4. Proof. unfold short_step. cbn. lra. Qed.
Lemma came_roomy : roomy ax8 /\ roomy ax81 /\ roomy ax4. Proof. unfold roomy. cbn. lia. Qed.
Definition zero_currents (x y z : paxis R) : field (num FRX) := Field3 (zero_rho x y z) (zero_rho x y z) (zero_rho x y z).
Lemma zero_currents_hold x y z : holds (zero_currents x y z) (every (first_node x y z)) (every (last_node x y z)) zero_field.
Proof. intros d. destruct d; apply zero_rho_real. Qed.

(** two processes of four cells, periodic: a particle comes from the first process into the second, another one from the second across the border into the first *)
Definition eg_old (r : idx) : list rspecies := [RSpecies true 1 (fun _ => if idx_eqb r (0, 0, 0)%Z then [at_x (15 / 4)] else [at_x (31 / 4)])].
Definition eg_new (r : idx) : list rspecies := [RSpecies true 1 (fun _ => if idx_eqb r (0, 0, 0)%Z then [fast_x (1 / 4)] else [fast_x (17 / 4)])].
Lemma eg_old_placed : well_placed (eg_cut 2 4) eg_W eg_old.
Proof.
  intros r Hr s i j k a Is Iq Ia. apply eg_tiles in Iq. injection Iq as -> -> ->. destruct Is as [<-|[]]. cbn [rs_parts] in Ia.
  assert (Er : r = (0, 0, 0)%Z \/ r = (1, 0, 0)%Z) by (destruct Hr as [<-|[<-|[]]]; tauto).
  destruct Er as [->| ->]; cbv beta iota delta [idx_eqb Z.eqb Pos.eqb andb] in Ia; (destruct Ia as [<-|[]]; split; [|split]; apply one_tile; try reflexivity; cbn; try lia; change (Pos.to_nat 1) with 1%nat; cbn; lra).
Qed.
Lemma eg_new_placed : well_placed (eg_cut 2 4) eg_W eg_new.
Proof.
  intros r Hr s i j k a Is Iq Ia. apply eg_tiles in Iq. injection Iq as -> -> ->. destruct Is as [<-|[]]. cbn [rs_parts] in Ia.
  assert (Er : r = (0, 0, 0)%Z \/ r = (1, 0, 0)%Z) by (destruct Hr as [<-|[<-|[]]]; tauto).
  destruct Er as [->| ->]; cbv beta iota delta [idx_eqb Z.eqb Pos.eqb andb] in Ia; (destruct Ia as [<-|[]]; split; [|split]; apply one_tile; try reflexivity; cbn; try lia; change (Pos.to_nat 1) with 1%nat; cbn; lra).
Qed.
Lemma eg_new_charges : charges (eg_cut 2 4) eg_W eg_new = [(1, fast_x (1 / 4)); (1, fast_x (17 / 4))]. Proof. reflexivity. Qed.
Lemma eg_old_charges : charges (eg_cut 2 4) eg_W eg_old = [(1, at_x (15 / 4)); (1, at_x (31 / 4))]. Proof. reflexivity. Qed.
Lemma eg_slow : slow_charges 1 (charges (eg_cut 2 4) eg_W eg_new).
Proof. rewrite eg_new_charges. intros b [<-|[<-|[]]]; apply fast_slower. Qed.
Lemma eg_all_slow r s q a : In s (eg_new r) -> In a (rs_parts s q) -> slower 1 a.
Proof. intros [<-|[]] Ia. cbn [rs_parts] in Ia. destruct (idx_eqb r (0, 0, 0)%Z); destruct Ia as [<-|[]]; apply fast_slower. Qed.
Lemma eg_same : same_particles (eg_cut 2 4) eg_W (charges (eg_cut 2 4) eg_W eg_old) (charges_before (1 / 2) (charges (eg_cut 2 4) eg_W eg_new)).
Proof.
  rewrite eg_old_charges, eg_new_charges. exists [(1, at_x (31 / 4)); (1, at_x (15 / 4))]. split; [apply perm_swap|]. unfold charges_before. cbn [map fst snd].
  assert (N : all_cells (eg_cut 2 4) DirX = 8%Z) by reflexivity.
  constructor; [|constructor; [|constructor]]; (split; [reflexivity|]; split; [reflexivity|]; intros a; destruct a; cbn [snd coord before_move fast_x at_x rpx rpy rpz rux ruy ruz rgam eg_W w_d]).
  - exists (-1)%Z. split; [rewrite N; unfold back; cbn; lra|discriminate].
  - exists 0%Z. split; [unfold back; cbn; lra|reflexivity].
  - exists 0%Z. split; [unfold back; cbn; lra|reflexivity].
  - exists 0%Z. split; [unfold back; cbn; lra|reflexivity].
  - exists 0%Z. split; [unfold back; cbn; lra|reflexivity].
  - exists 0%Z. split; [unfold back; cbn; lra|reflexivity].
Qed.
Lemma eg_short : short_time eg_W 1 (1 / 2). Proof. split; [lra|]. split; [lra|]. intros a. cbn. lra. Qed.
Lemma eg_roomy : roomy_parts (eg_cut 2 4) eg_W. Proof. intros a. destruct a; cbn; lia. Qed.
Lemma eg_inner : In ((1, 0, 0), (1, 1, 1))%Z (nodes (eg_cut 2 4)) /\ forall d, In (node_before d ((1, 0, 0), (1, 1, 1))%Z) (nodes (eg_cut 2 4)).
Proof. split; [|intros d; destruct d]; apply in_nodes; (split; [apply processes_comp; intros a; destruct a; cbn; lia|intros a; destruct a; cbn; lia]). Qed.
(** the charge at that node changes: it got 1/4 *)
Lemma eg_change : density_of (w_orders eg_W) (w_cells eg_W) (charges (eg_cut 2 4) eg_W eg_new) (5, 1, 1)%Z = 1 / 4.
Proof.
  rewrite eg_new_charges. unfold density_of, sumR. cbn [map fold_right fst snd]. unfold share. cbn [w_orders onx ony onz eg_W w_o].
  assert (S0 : spline 1 (unit_x (w_cells eg_W) (rpx (fast_x (1 / 4)))) 5 = 0).
  { unfold spline. apply Rmax_left. unfold unit_x. cbn. rewrite Rabs_left by lra. lra. }
  rewrite S0, (spline1 (unit_x _ (rpx (fast_x (17 / 4)))) 5 (1 / 4)), !(spline1 _ 1 1); unfold SpecDeposit.volume, unit_x, unit_y, unit_z; cbn; try lra.
  all: first [solve [replace ((1 - 0) / 1 - 1) with 0 by lra; rewrite Rabs_R0; lra] | solve [rewrite Rabs_left by lra; lra] | lra].
Qed.
(** the same particles on one process *)
Definition eg_new1 (r : idx) : list rspecies := [RSpecies true 1 (fun _ => [fast_x (1 / 4); fast_x (17 / 4)])].
Lemma eg_new1_placed : well_placed (eg_cut 1 8) eg_W eg_new1.
Proof.
  intros r Hr s i j k a Is Iq Ia. apply eg_tiles in Iq. injection Iq as -> -> ->. destruct Is as [<-|[]]. cbn [rs_parts] in Ia. destruct Hr as [<-|[]].
  destruct Ia as [<-|[<-|[]]]; (split; [|split]; apply one_tile; try reflexivity; cbn; try lia; lra).
Qed.
Lemma eg_new1_charges : charges (eg_cut 1 8) eg_W eg_new1 = [(1, fast_x (1 / 4)); (1, fast_x (17 / 4))]. Proof. reflexivity. Qed.
Lemma eg_slow1 : slow_charges 1 (charges (eg_cut 1 8) eg_W eg_new1).
Proof. rewrite eg_new1_charges. intros b [<-|[<-|[]]]; apply fast_slower. Qed.
Lemma eg_all_slow1 r s q a : In s (eg_new1 r) -> In a (rs_parts s q) -> slower 1 a.
Proof. intros [<-|[]] Ia. cbn [rs_parts] in Ia. destruct Ia as [<-|[<-|[]]]; apply fast_slower. Qed.
Lemma eg_roomy1 : roomy_parts (eg_cut 1 8) eg_W. Proof. intros a. destruct a; cbn; lia. Qed.
Lemma int_least u k : IZR k <= u -> (k <= Int_part u)%Z.
Proof. intros H. destruct (base_Int_part u) as (_ & B). apply Z.lt_succ_r. apply lt_IZR. rewrite succ_IZR. lra. Qed.
Lemma line n i u : spline 1 u i = n -> forall v, v = u -> spline 1 v i = n. Proof. intros H v ->. exact H. Qed.
(** the current of both particles across the face after node 4 *)
Lemma eg_current : current_of (w_orders eg_W) (w_cells eg_W) (1 / 2) (charges (eg_cut 1 8) eg_W eg_new1) AX (4, 1, 1)%Z = 1 / 2.
Proof.
  rewrite eg_new1_charges. unfold current_of, sumR. cbn [map fold_right fst snd].
  assert (O : sized (w_orders eg_W)) by (intros d; destruct d; cbn; lia).
  assert (One : spline 1 1 1 = 1) by (apply spline1; [lra|]; replace (1 - 1) with 0 by lra; rewrite Rabs_R0; lra).
  assert (Flow : forall v i, inflow (w_orders eg_W) (w_cells eg_W) AX (fast_x v) (before_move (1 / 2) (fast_x v)) (i, 1, 1)%Z = spline 1 (v - 1 / 2) i - spline 1 v i).
  { intros v i. unfold inflow, unit_x, unit_y, unit_z. cbn [before_move fast_x rpx rpy rpz rux ruy ruz rgam w_cells ox oy oz hx hy hz w_orders onx ony onz eg_W w_lo w_d w_o]. unfold back.
    rewrite (line 1 1 1 One ((1 - 0) / 1)), (line 1 1 1 One ((1 - 1 / 2 * (0 * 1) - 0) / 1)) by lra. unfold path_mean.
    replace ((v - 1 / 2 * (1 * 1) - 0) / 1) with (v - 1 / 2) by lra. replace ((v - 0) / 1) with v by lra. lra. }
  assert (Sum : forall v L, (L <= behind (w_cells eg_W) AX (fast_x v) (before_move (1 / 2) (fast_x v)))%Z ->
    flux (w_orders eg_W) (w_cells eg_W) AX (fast_x v) (before_move (1 / 2) (fast_x v)) (4, 1, 1)%Z = sumR (map (fun i => spline 1 (v - 1 / 2) i - spline 1 v i) (zrange L 4))).
  { intros v L H. rewrite (flux_from _ _ _ _ _ _ L O H). unfold YeeReal.rsum. fold (sumR (map (fun i => inflow (w_orders eg_W) (w_cells eg_W) AX (fast_x v) (before_move (1 / 2) (fast_x v)) (put AX i (4, 1, 1)%Z)) (zrange L 4))).
    apply Sums.sumR_ext. intros i _. apply Flow. }
  assert (Bh : forall v k, IZR k <= v - 1 / 2 -> (k - 3 <= behind (w_cells eg_W) AX (fast_x v) (before_move (1 / 2) (fast_x v)))%Z).
  { intros v k H. unfold behind. assert (k <= Int_part (unit_on (w_cells eg_W) AX (fast_x v)))%Z by (apply int_least; cbn; unfold unit_x; cbn; lra).
    assert (k <= Int_part (unit_on (w_cells eg_W) AX (before_move (1 / 2) (fast_x v))))%Z by (apply int_least; cbn; unfold unit_x, back; cbn; lra). lia. }
  rewrite (Sum (1 / 4) (-4)%Z (Bh (1 / 4) (-1)%Z ltac:(lra))), (Sum (17 / 4) 0%Z (Bh (17 / 4) 3%Z ltac:(lra))).
  change (zrange (-4) 4) with [-4; -3; -2; -1; 0; 1; 2; 3; 4]%Z. change (zrange 0 4) with [0; 1; 2; 3; 4]%Z. cbn [map]. unfold sumR. cbn [fold_right].
  unfold spline, Rmax, Rabs. repeat (destruct (Rcase_abs _); try (exfalso; lra); [] || destruct (Rcase_abs _); try (exfalso; lra)). 
  repeat (destruct (Rle_dec _ _); try (exfalso; lra)). cbn. lra.
Qed.
