(** Examples for the main loop: a particle that goes from one process to the other, and the same problem on one process. *)
From Coq Require Import ZArith Reals List Bool Lia Lra Permutation.
From Verif Require Import Cxx CxxLemmas Num NumRX RXLemmas Fortran FortranNum Grid GridLemmas Pushers SpecPhys SpecPush Yee SpecYee SpecSolver Deposit Tiles DepositTiles CurrentTiles Gather SpecTiles SpecDeposit SpecCurrent SpecFlux SpecGather SpecDepositTiles SpecCurrentTiles DepositExamples CurrentTilesExamples.
From Verif Require Import TilesReal TilesFacts TilesDomain TilesBoth PartBC SpecPartBC PartBCProofs PartBCReal PartDefault SpecPartDefault FieldBC SpecFieldBC SpecWhole SpecWholeCurrent WholeExamples SpecParallelField ParallelFieldExamples.
From Verif Require Import PushTiles SpecPic Loop SpecLoop LoopBridge.
Import ListNotations.
Local Open Scope R_scope.

(** 16 by 8 by 8 cells on np processes with nt tiles each along x, and two along y and z; g guard cells *)
Definition eq_y : gaxis := GAxis 0 8 8 1 2.
Definition eq_plan (np nt g : Z) (ex : exchange) (bl : bool) : plan :=
  Plan (GAxis 0 16 16 np nt) eq_y eq_y (g, g, g) (1, 1, 1)%Z (eg_U 2 0) K1 false 8 0 Boris 1 1 true bl 1 ex 4.
Definition eq_two : plan := eq_plan 2 2 2 AtOnce false.
Definition eq_one : plan := eq_plan 1 3 3 Serial true.
Lemma eq_sound P : P = eq_two \/ P = eq_one -> sound_plan P.
Proof.
  intros H.
  assert (S : (exists np nt g ex bl, P = eq_plan np nt g ex bl /\ (1 <= np <= 2)%Z /\ (1 <= nt)%Z /\ (2 <= g <= 3)%Z)).
  { destruct H as [-> | ->]; do 5 eexists; (split; [reflexivity|lia]). }
  destruct S as (np & nt & g & ex & bl & E & Hnp & Hnt & Hg).
  assert (Hd : forall a, g_d (pl_axis P a) = 1) by (rewrite E; intros a; destruct a; unfold g_d; cbn; lra).
  assert (Hl : forall a c, (0 <= c < FieldBC.comp a (l_procs (lay P)) -> 8 <= l_cells (lay P) a c <= 16)%Z).
  { rewrite E. intros a c Hc. assert (Np : np = 1%Z \/ np = 2%Z) by lia. assert (Nc : c = 0%Z \/ c = 1%Z) by (destruct a; cbn in Hc; lia).
    destruct Np as [-> | ->], Nc as [-> | ->], a; cbn in Hc; try lia; vm_compute; split; discriminate. }
  split; [|split; [|split; [|split; [|split; [|split; [|split]]]]]].
  - rewrite E. unfold good_gaxis. cbn. repeat split; lra || lia.
  - split; [|split; [|split; [|split; [|split; [|split; [|split]]]]]].
    + intros a. split; [rewrite E; destruct a; cbn; lia|]. split; [rewrite E; destruct a; cbn; lia|]. intros c Hc. specialize (Hl a c Hc). assert (FieldBC.comp a (l_guards (lay P)) <= 3)%Z by (rewrite E; destruct a; cbn; lia). lia.
    + intros a. reflexivity.
    + rewrite E. split; [cbn; lra|]. split; [intros X; discriminate X|]. intros a. destruct a; cbn; lia.
    + split; [intros a; cbn [axs w_d]; rewrite Hd; lra|]. intros a c Hc. specialize (Hl a c Hc). unfold sensible. cbn [part_axis p_n p_nt p_ng p_o axs w_nt w_o]. rewrite E in Hl |- *. destruct a; cbn in Hl |- *; lia.
    + left. rewrite E. cbn. lia.
    + rewrite E. exact K1_lights.
    + unfold short_time. split; [rewrite E; cbn; lra|]. split; [rewrite E; cbn; lra|]. intros a. cbn [axs w_d]. rewrite Hd, E. cbn. lra.
    + intros a. rewrite E. destruct a; cbn; lia.
  - rewrite E. cbn. lia.
  - left. rewrite E. cbn. lia.
  - rewrite E. cbn. lia.
  - left. rewrite E. reflexivity.
  - rewrite E. cbn. lra.
  - destruct H as [-> | ->]; [|intros X; discriminate X]. intros _. split; [cbn; lia|]. intros r [<-|[<-|[]]]; unfold several_tiles; cbn; lia.
Qed.

(** tiles for particles *)
Definition stock (P : plan) (ps : idx -> list rpart) (r : idx) : grid (tile FRX) :=
  let D := rank_dom (pl_x P) (pl_y P) (pl_z P) r in let '(a, b, c) := r in
  let '(n1, n2, n3) := (ag_nt (dX D), ag_nt (dY D), ag_nt (dZ D)) in
  Grid (1, 1, 1)%Z (n1, n2, n3) (fun q => let '(i, j, k) := q in
    Tile (tile_of (rank_axis (pl_x P) a) i) (tile_of (rank_axis (pl_y P) b) j) (tile_of (rank_axis (pl_z P) c) k) ((i =? 1) || (i =? n1) || (j =? 1) || (j =? n2) || (k =? 1) || (k =? n3))%Z true
      (zlen (ps q)) (zlen (ps q)) (map Some (map part_of (ps q))) 0).
Lemma stock_tiles P ps r M : (forall q, (zlen (ps q) <= M)%Z) -> contents M (rank_dom (pl_x P) (pl_y P) (pl_z P) r) (stock P ps r) (fun q => map part_of (ps q)) /\ rank_tiles (pl_x P) (pl_y P) (pl_z P) r (stock P ps r).
Proof.
  intros H. destruct r as [[a b] c]. split.
  - split; [reflexivity|]. split; [reflexivity|]. intros [[i j] k] _. cbn [stock gat]. split; [|apply H]. split; [reflexivity|]. cbn [t_np t_max t_arr]. rewrite !zlen_map. split; [reflexivity|]. split; [reflexivity|]. exists []. now rewrite app_nil_r.
  - split; [intros i j k t _; now split|]. intros i j k _. cbn [stock gat t_bound]. rewrite !orb_true_iff, !Z.eqb_eq. tauto.
Qed.
(** a particle that moves to the right, just below the middle *)
Definition eq_a : rpart := {| rpx := 31 / 4; rpy := 1; rpz := 1; rux := 3 / 4; ruy := 0; ruz := 0; rgam := 4 / 5; rw := 1 |}.
Definition eq_ps (r q : idx) : list rpart := if idx_eqb r (0, 0, 0)%Z && idx_eqb q (2, 1, 1)%Z then [eq_a] else [].
Definition eq_state (P : plan) : state := (fun r => (stock P (eq_ps r) r, 0%Z), filled_field (lay P) pulse, filled_field (lay P) rest).
Lemma eq_everyone P : P = eq_two \/ P = eq_one -> everyone P eq_ps = [eq_a].
Proof. intros [-> | ->]; reflexivity. Qed.
Lemma eq_y_in : inside_axis (tile_of (rank_axis eq_y 0) 1) (Fin 1 : num FRX) = true /\ g_left eq_y 0 <= 1 < g_left eq_y 1.
Proof.
  assert (E0 : g_left eq_y 0 = 0) by (unfold g_left, g_d; cbn [g_lo g_hi g_n g_np eq_y]; change (SpecPartBC.cut 8 1 0) with 0%Z; lra).
  assert (E1 : g_left eq_y 1 = 8) by (unfold g_left, g_d; cbn [g_lo g_hi g_n g_np eq_y]; change (SpecPartBC.cut 8 1 1) with 8%Z; lra).
  assert (Dy : g_d eq_y = 1) by (unfold g_d; cbn; lra).
  split; [|rewrite E0, E1; lra]. apply (inside_real (rank_axis eq_y 0) 1 1); [cbn; lia|]. unfold left_of, right_of. cbn [rank_axis ra_lo ra_d ra_n ra_nt]. rewrite E0, Dy. change (SpecPartBC.cut (g_n eq_y) (g_np eq_y) (0 + 1) - SpecPartBC.cut (g_n eq_y) (g_np eq_y) 0 + 1)%Z with 9%Z. cbn. lra.
Qed.
Lemma eq_placed P : P = eq_two \/ P = eq_one -> forall r q a, In r (procs P) -> In q (all_tiles (rank_dom (pl_x P) (pl_y P) (pl_z P) r)) -> In a (eq_ps r q) ->
  outside (rank_dom (pl_x P) (pl_y P) (pl_z P) r) (part_of a) = false /\ Tiles.inside (gat (stock P (eq_ps r) r) q) (part_of a) = true.
Proof.
  intros H r q a Hr Hq Ha. unfold eq_ps in Ha. destruct (idx_eqb r (0, 0, 0)%Z && idx_eqb q (2, 1, 1)%Z)%bool eqn:E; [|destruct Ha]. apply andb_true_iff in E. destruct E as (E1 & E2). apply idx_eqb_eq in E1. apply idx_eqb_eq in E2. subst r q. destruct Ha as [<-|[]].
  destruct eq_y_in as (Y1 & Y2). 
  assert (X : exists v, g_left (pl_x P) 0 = 0 /\ g_left (pl_x P) 1 = v /\ 8 <= v /\ g_d (pl_x P) = 1).
  { destruct H as [-> | ->]; [exists 8|exists 16]; unfold g_left, g_d; cbn [pl_x eq_one eq_two eq_plan g_lo g_hi g_n g_np].
    - change (SpecPartBC.cut 16 2 0) with 0%Z. change (SpecPartBC.cut 16 2 1) with 8%Z. lra.
    - change (SpecPartBC.cut 16 1 0) with 0%Z. change (SpecPartBC.cut 16 1 1) with 16%Z. lra. }
  destruct X as (v & X0 & X1 & Hv & Xd). split.
  - apply (bridge_outside P (0, 0, 0)%Z eq_a Hr). cbn [FieldBC.comp]. change (0 + 1)%Z with 1%Z. rewrite X0, X1. cbn [rpx rpy rpz eq_a]. split; [lra|]. assert (Ey : pl_y P = eq_y /\ pl_z P = eq_y) by (destruct H as [-> | ->]; split; reflexivity). destruct Ey as (-> & ->). split; exact Y2.
  - unfold Tiles.inside. cbn [stock gat t_x t_y t_z part_of px py pz rpx rpy rpz eq_a]. assert (Ey : pl_y P = eq_y /\ pl_z P = eq_y) by (destruct H as [-> | ->]; split; reflexivity). destruct Ey as (-> & ->). rewrite Y1, !andb_true_r.
    apply (inside_real (rank_axis (pl_x P) 0) 2 (31 / 4)); [destruct H as [-> | ->]; cbn; lia|]. unfold left_of, right_of. rewrite rank_hi. change (0 + 1)%Z with 1%Z. cbn [rank_axis ra_lo ra_d ra_n ra_nt]. change (0 + 1)%Z with 1%Z. rewrite X0, X1, Xd.
    destruct H as [-> | ->]; cbn [pl_x eq_one eq_two eq_plan g_nt g_n g_np].
    + change (SpecPartBC.cut 16 2 1 - SpecPartBC.cut 16 2 0 + 1)%Z with 9%Z. cbn. lra.
    + change (SpecPartBC.cut 16 1 1 - SpecPartBC.cut 16 1 0 + 1)%Z with 17%Z. cbn. lra.
Qed.
Lemma eq_repeats P : P = eq_two \/ P = eq_one -> repeating (lay P) pulse.
Proof.
  intros H d d' p. assert (E : all_cells (lay P) DirX = 16%Z) by (destruct H as [-> | ->]; reflexivity). destruct d; [reflexivity| |reflexivity].
  cbn [SpecDeposit.comp pulse comp_y]. destruct p as [[p1 p2] p3], d'; cbn [shift FieldBC.comp dir_of]; [|reflexivity|reflexivity].
  rewrite E. replace (p1 + 16)%Z with (p1 + 2 * 8)%Z by lia. rewrite Z_mod_plus_full. reflexivity.
Qed.
Lemma eq_representing P : P = eq_two \/ P = eq_one -> representing P 100 (eq_state P) eq_ps pulse rest.
Proof.
  intros H. split; [|split; [now apply eq_repeats|split; [apply rest_repeats|split; apply filled_carrying]]]. intros r Hr. cbn [fst].
  destruct (stock_tiles P (eq_ps r) r 100) as (C & T); [intros q; unfold eq_ps; destruct (_ && _)%bool; cbn; lia|]. split; [exact C|]. split; [exact T|]. intros q a. now apply eq_placed.
Qed.
Lemma eq_same : same_problem eq_two eq_one.
Proof. split; [intros a; destruct a; repeat split|]. repeat split. Qed.
Lemma eq_grid : same_grid (axs eq_two) (pl_solver eq_two).
Proof. split; [reflexivity|]. unfold axs, g_d. cbn. lra. Qed.
