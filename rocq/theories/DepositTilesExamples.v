(** Examples for the deposition on tiles. *)
From Coq Require Import ZArith Reals List Bool Lia Lra.
From Verif Require Import Cxx Num NumRX Fortran FortranNum Grid GridLemmas Pushers SpecYee Deposit Tiles DepositTiles SpecTiles SpecDeposit DepositProofs TilesReal SpecDepositTiles DepositTilesProofs DepositTilesReal.
Import ListNotations.
Local Open Scope R_scope.

(** eight points in two tiles, eight points in one tile, four points *)
Definition ax8 : paxis R := PAxis 0 1 8 2 2 1.
Definition ax81 : paxis R := PAxis 0 1 8 1 2 1.
Definition ax4 : paxis R := PAxis 0 1 4 1 2 1.
Definition at_xy (x y : R) : rpart := {| rpx := x; rpy := y; rpz := 1; rux := 0; ruy := 0; ruz := 0; rgam := 1; rw := 1 |}.
Definition pA : rpart := at_xy (13 / 4) (13 / 4).
Definition pB : rpart := at_xy (13 / 4) (15 / 4).
Definition pC : rpart := at_xy (15 / 4) (13 / 4).
(** one particle in tile (1, 1, 1), one in (1, 2, 1); and a species that is not deposited *)
Definition two_tiles : list rspecies :=
  [RSpecies true 1 (fun q => if idx_eqb q (1, 1, 1)%Z then [pA] else if idx_eqb q (1, 2, 1)%Z then [pB] else []);
   RSpecies false 1 (fun q => if idx_eqb q (1, 1, 1)%Z then [pA] else [])].
(** one particle in tile (1, 1, 1), one in (2, 1, 1) *)
Definition along_x : list rspecies :=
  [RSpecies true 1 (fun q => if idx_eqb q (1, 1, 1)%Z then [pA] else if idx_eqb q (2, 1, 1)%Z then [pC] else [])].
Definition zero_rho (x y z : paxis R) : grid (num FRX) := Grid (first_node x y z) (last_node x y z) (fun _ => (Fin 0 : num FRX)).
Lemma zero_rho_real x y z : isg (zero_rho x y z) (first_node x y z) (last_node x y z) (fun _ => 0).
Proof. split; [reflexivity|]. split; [reflexivity|]. reflexivity. Qed.
Lemma sens8 : sensible ax8. Proof. unfold sensible. cbn. lia. Qed.
Lemma sens81 : sensible ax81. Proof. unfold sensible. cbn. lia. Qed.
Lemma sens4 : sensible ax4. Proof. unfold sensible. cbn. lia. Qed.
Definition linear : charge_routine FRX := fun np xs ws q G rho => pxr_depose_rho_n np xs ws q G 1 1 1 true false rho.
Lemma linear_for x y : p_o x = 1%Z -> p_o y = 1%Z -> routine_for (orders_of x y ax4) linear.
Proof. intros E F. replace (orders_of x y ax4) with (same_order 1) by (unfold orders_of, same_order; rewrite E, F; reflexivity). apply (any_order (N := FRX)). Qed.
Lemma slab_ok a i v l r : (1 <= i <= cut a)%Z -> left_of (RAxis (p_lo a) (p_d a) (p_n a) (p_nt a) (p_lo a) (p_lo a + IZR (p_n a - 1) * p_d a)) i = l ->
  right_of (RAxis (p_lo a) (p_d a) (p_n a) (p_nt a) (p_lo a) (p_lo a + IZR (p_n a - 1) * p_d a)) i = r -> l <= v < r -> in_slab a i v.
Proof. intros H <- <- V. unfold in_slab. apply inside_real; assumption. Qed.
Lemma slab8_1 v : 0 <= v < 7 / 2 -> in_slab ax8 1 v.
Proof. intros H. apply (slab_ok ax8 1 v 0 (7 / 2)); [cbv; split; discriminate| | |exact H]; unfold left_of, right_of; cbn; lra. Qed.
Lemma slab8_2 v : 7 / 2 <= v < 7 -> in_slab ax8 2 v.
Proof. intros H. apply (slab_ok ax8 2 v (7 / 2) 7); [cbv; split; discriminate| | |exact H]; unfold left_of, right_of, ra_hi; cbn; lra. Qed.
Lemma slab81 v : 0 <= v < 7 -> in_slab ax81 1 v.
Proof. intros H. apply (slab_ok ax81 1 v (- 1 / 2) 7); [cbv; split; discriminate| | |lra]; unfold left_of, right_of, ra_hi; cbn; lra. Qed.
Lemma slab4 v : 0 <= v < 3 -> in_slab ax4 1 v.
Proof. intros H. apply (slab_ok ax4 1 v (- 1 / 2) 3); [cbv; split; discriminate| | |lra]; unfold left_of, right_of, ra_hi; cbn; lra. Qed.
Lemma in_two : in_tiles ax8 ax8 ax4 two_tiles.
Proof.
  intros s i j k a Is Iq Ia. destruct Is as [<-|[<-|[]]]; cbn [rs_parts] in Ia.
  - destruct (idx_eqb (i, j, k) (1, 1, 1)%Z) eqn:E; [|destruct (idx_eqb (i, j, k) (1, 2, 1)%Z) eqn:E'; [|destruct Ia]].
    + apply idx_eqb_eq in E. injection E as -> -> ->. destruct Ia as [<-|[]]. cbn. split; [apply slab8_1; lra|]. split; [apply slab8_1; lra|apply slab4; lra].
    + apply idx_eqb_eq in E'. injection E' as -> -> ->. destruct Ia as [<-|[]]. cbn. split; [apply slab8_1; lra|]. split; [apply slab8_2; lra|apply slab4; lra].
  - destruct (idx_eqb (i, j, k) (1, 1, 1)%Z) eqn:E; [|destruct Ia]. apply idx_eqb_eq in E. injection E as -> -> ->. destruct Ia as [<-|[]]. cbn. split; [apply slab8_1; lra|]. split; [apply slab8_1; lra|apply slab4; lra].
Qed.
Lemma in_along : in_tiles ax8 ax81 ax4 along_x.
Proof.
  intros s i j k a Is Iq Ia. destruct Is as [<-|[]]; cbn [rs_parts] in Ia.
  destruct (idx_eqb (i, j, k) (1, 1, 1)%Z) eqn:E; [|destruct (idx_eqb (i, j, k) (2, 1, 1)%Z) eqn:E'; [|destruct Ia]].
  - apply idx_eqb_eq in E. injection E as -> -> ->. destruct Ia as [<-|[]]. cbn. split; [apply slab8_1; lra|]. split; [apply slab81; lra|apply slab4; lra].
  - apply idx_eqb_eq in E'. injection E' as -> -> ->. destruct Ia as [<-|[]]. cbn. split; [apply slab8_2; lra|]. split; [apply slab81; lra|apply slab4; lra].
Qed.
Lemma along_cut : one_cut ax8 ax81 ax4.
Proof. split; [reflexivity|]. split; [reflexivity|]. right. vm_compute. discriminate. Qed.
Lemma two_not_cut : ~ one_cut ax8 ax8 ax4. Proof. intros (E & _). discriminate E. Qed.

Lemma spline1 x i v : 0 <= v -> 1 - Rabs (x - IZR i) = v -> spline 1 x i = v.
Proof. intros H E. unfold spline. rewrite E. apply Rmax_right. exact H. Qed.
Lemma share_B : density (orders_of ax8 ax8 ax4) (cells_of ax8 ax8 ax4) 1 [pB] (4, 3, 1)%Z = 1 / 16.
Proof.
  unfold density, sumR. cbn [map fold_right]. unfold share. cbn [orders_of onx ony onz ax8 ax4 p_o].
  rewrite (spline1 _ 4 (1 / 4)), (spline1 _ 3 (1 / 4)), (spline1 _ 1 1); try lra; unfold volume, unit_x, unit_y, unit_z; cbn; try lra.
  - replace ((1 - 0) / 1 - 1) with 0 by lra. rewrite Rabs_R0. lra.
  - rewrite Rabs_right by lra. lra.
  - rewrite Rabs_left by lra. lra.
Qed.
Lemma lost_value : neighbours_charge ax8 ax8 ax4 two_tiles (1, 1, 1)%Z (4, 3, 1)%Z = 1 / 16.
Proof.
  unfold neighbours_charge.
  assert (Et : filter (fun q' => negb (idx_eqb q' (1, 1, 1)%Z)) (tiles_of ax8 ax8 ax4) = [(2, 1, 1); (1, 2, 1); (2, 2, 1)]%Z) by reflexivity. rewrite Et. cbn [map]. unfold sumR. cbn [fold_right].
  assert (B1 : beside (mesh_of (fin_axis ax8) (fin_axis ax8) (fin_axis ax4) (2, 1, 1)%Z) (4, 3, 1)%Z = false) by reflexivity.
  assert (B2 : beside (mesh_of (fin_axis ax8) (fin_axis ax8) (fin_axis ax4) (1, 2, 1)%Z) (4, 3, 1)%Z = true) by reflexivity.
  assert (B3 : beside (mesh_of (fin_axis ax8) (fin_axis ax8) (fin_axis ax4) (2, 2, 1)%Z) (4, 3, 1)%Z = false) by reflexivity.
  rewrite B1, B2, B3. unfold tile_charge, two_tiles. cbn [filter rs_depos map]. unfold sumR. cbn [fold_right rs_q rs_parts]. change (idx_eqb (1, 2, 1)%Z (1, 1, 1)%Z) with false. change (idx_eqb (1, 2, 1)%Z (1, 2, 1)%Z) with true. cbv iota. rewrite share_B. lra.
Qed.
Lemma busy_11 : busy two_tiles (1, 1, 1)%Z. Proof. eexists. split; [left; reflexivity|]. split; [reflexivity|discriminate]. Qed.
Lemma beside_11 : beside (mesh_of (fin_axis ax8) (fin_axis ax8) (fin_axis ax4) (1, 1, 1)%Z) (4, 3, 1)%Z = true. Proof. reflexivity. Qed.
Lemma in_11 : In (1, 1, 1)%Z (tiles_of ax8 ax8 ax4). Proof. left. reflexivity. Qed.
Theorem race : exists rho', tile_deposition 2 linear ax8 ax8 ax4 two_tiles (zero_rho ax8 ax8 ax4) (Ret rho') /\
  ~ isg rho' (first_node ax8 ax8 ax4) (last_node ax8 ax8 ax4) (fun p => 0 + all_density ax8 ax8 ax4 two_tiles p).
Proof.
  destruct (depose_lost ax8 ax8 ax4 sens8 sens8 sens4 ltac:(cbn; lra) ltac:(cbn; lra) ltac:(cbn; lra) linear (linear_for ax8 ax8 eq_refl eq_refl) two_tiles in_two 2 _ _ (1, 1, 1)%Z (4, 3, 1)%Z ltac:(lia) (zero_rho_real _ _ _) in_11 busy_11 beside_11) as (rho' & D & V).
  exists rho'. split; [exact D|]. intros V'. pose proof (isg_eq _ _ _ _ _ V V' (4, 3, 1)%Z eq_refl) as E. cbv beta in E. rewrite idx_eqb_refl, lost_value in E. lra.
Qed.
Theorem race_case : exists x y z f ss rho r rho',
  sensible x /\ sensible y /\ sensible z /\ 0 < p_d x /\ 0 < p_d y /\ 0 < p_d z /\
  routine_for (orders_of x y z) f /\ in_tiles x y z ss /\
  real_grid rho (first_node x y z) (last_node x y z) r /\
  tile_deposition 2 f x y z ss rho (Ret rho') /\
  ~ real_grid rho' (first_node x y z) (last_node x y z) (fun p => r p + all_density x y z ss p).
Proof.
  destruct race as (rho' & D & V). exists ax8, ax8, ax4, linear, two_tiles, (zero_rho ax8 ax8 ax4), (fun _ => 0), rho'.
  split; [exact sens8|]. split; [exact sens8|]. split; [exact sens4|]. do 3 (split; [cbn; lra|]). split; [apply linear_for; reflexivity|]. split; [exact in_two|]. split; [apply zero_rho_real|]. now split.
Qed.
