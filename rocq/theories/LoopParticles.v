(** Proofs: the particles during a time step of the main loop. *)
From Coq Require Import ZArith Reals List Bool Lia Lra Permutation FunctionalExtensionality.
From Verif Require Import Cxx CxxLemmas Num NumRX RXLemmas Fortran FortranNum FortranLemmas Grid GridLemmas Pushers SpecPhys SpecPush PusherProofs Yee SpecYee SpecSolver Deposit Tiles DepositTiles CurrentTiles Gather SpecTiles SpecDeposit SpecCurrent SpecFlux SpecGather SpecDepositTiles SpecCurrentTiles.
From Verif Require Import TilesReal TilesFacts TilesDomain TilesBoth PartBC SpecPartBC PartBCProofs PartBCReal PartDefault SpecPartDefault PartDefaultReal FieldBC SpecFieldBC SpecWhole SpecWholeCurrent SpecParallelField.
From Verif Require Import PushTilesProofs PushTiles SpecPic Loop SpecLoop LoopBridge.
Import ListNotations.
Local Open Scope R_scope.

(** ** a particle with real numbers *)
Definition val (v : num FRX) : R := match v with Fin a => a | _ => 0 end.
Definition real_of (p : part FRX) : rpart :=
  {| rpx := val (px p); rpy := val (py p); rpz := val (pz p); rux := val (pux p); ruy := val (puy p); ruz := val (puz p); rgam := val (pgi p); rw := val (hd (Fin 0 : num FRX) (ppid p)) |}.
Lemma real_part a : real_of (part_of a) = a. Proof. destruct a. reflexivity. Qed.
Lemma wrap_fin_axis g v : wrap_axis g (Fin v) = Fin (back_in g v).
Proof. unfold wrap_axis, back_in. destruct (Rlt_dec _ _); [reflexivity|]. destruct (Rle_dec _ _); reflexivity. Qed.
Lemma wrap_part P a : wrap (pl_x P) (pl_y P) (pl_z P) (part_of a) = part_of (wrapped P a).
Proof. unfold wrap, part_of, wrapped. cbn [px py pz pux puy puz pgi ppid rpx rpy rpz rux ruy ruz rgam rw]. rewrite !wrap_fin_axis. reflexivity. Qed.

(** a particle is slower than light after the push *)
Lemma speed_parts c u : 0 < c -> Rabs (inv_gamma c u * x3 u) < c /\ Rabs (inv_gamma c u * y3 u) < c /\ Rabs (inv_gamma c u * z3 u) < c.
Proof.
  intros Hc. pose proof (speed_lt c u Hc) as S. cbv zeta in S. unfold dot3, scale3 in S. cbn [x3 y3 z3] in S. set (a := inv_gamma c u * x3 u) in *. set (b := inv_gamma c u * y3 u) in *. set (d := inv_gamma c u * z3 u) in *.
  assert (K : forall v, v * v < c * c -> Rabs v < c).
  { intros v Hv. apply Rsqr_lt_abs_0 in Hv. rewrite (Rabs_right c) in Hv by lra. exact Hv. }
  split; [|split]; apply K; nra.
Qed.

Lemma mpi_same npid np D B (W1 W2 : idx -> grid (tile FRX) * Z) r : PartBCProofs.grid_size np -> In r (processes np) -> (forall s, In s (processes np) -> W1 s = W2 s) ->
  particle_bcs_mpi_blocking npid np D B W1 r = particle_bcs_mpi_blocking npid np D B W2 r.
Proof.
  intros Hs Hr H. unfold particle_bcs_mpi_blocking. rewrite (H r Hr). destruct (local_phase npid (D r) (B r) (W2 r)) as [me| | |]; cbn [bind]; try reflexivity. f_equal.
  apply functional_extensionality. intros d. apply functional_extensionality. intros s. rewrite (H (neighbour np r (opposite d)) (neighbour_in np r (opposite d) Hs)). reflexivity.
Qed.

Section Particles.
Variables (P : plan) (M : Z).
Hypothesis HP : sound_plan P.
Notation U := (pl_solver P). Notation c := (u_c U). Notation dt := (rdt (u_steps U)).
Notation D := (rank_dom (pl_x P) (pl_y P) (pl_z P)).
Notation x r := (part_x (lay P) (axs P) r). Notation y r := (part_y (lay P) (axs P) r). Notation z r := (part_z (lay P) (axs P) r).
Notation tiled ps := (fun q => map part_of (ps q)).
Lemma good_axes a : good_gaxis (pl_axis P a). Proof. destruct HP as ((G1 & G2 & G3) & _). destruct a; assumption. Qed.
Lemma light_step : 0 < c /\ 0 < dt /\ forall a, c * dt < g_d (pl_axis P a).
Proof. destruct HP as (_ & (_ & _ & _ & _ & _ & _ & (T1 & T2 & T3) & _) & _). split; [exact T2|]. split; [exact T1|]. exact T3. Qed.

(** what is known of the particles of a process after the push *)
Definition well_pushed (e b : rfield) (ps : idx -> list rpart) (r : idx) (T1 : grid (tile FRX)) (ps1 : idx -> list rpart) : Prop :=
  contents M (D r) T1 (tiled ps1) /\ rank_tiles (pl_x P) (pl_y P) (pl_z P) r T1 /\ all_one_cell (pl_x P) (pl_y P) (pl_z P) r (tiled ps1) /\
  forall q, In q (all_tiles (D r)) -> Forall2 (fun a a' => moved (pl_pusher P) c (pl_q P) (pl_m P) dt (fields_seen (gathering P) (w_cells (axs P)) e b a) a a') (ps q) (ps1 q).

Lemma move_small which q m v a a' : moved which c q m dt v a a' -> Rabs (rpx a' - rpx a) < c * dt /\ Rabs (rpy a' - rpy a) < c * dt /\ Rabs (rpz a' - rpz a) < c * dt.
Proof.
  intros (_ & G & X & _). destruct light_step as (Hc & Ht & _). destruct (speed_parts c (momentum3 a') Hc) as (S1 & S2 & S3).
  pose proof (f_equal x3 X) as X1. pose proof (f_equal y3 X) as X2. pose proof (f_equal z3 X) as X3. unfold place3, SpecPhys.add3, scale3 in X1, X2, X3. cbn [x3 y3 z3] in X1, X2, X3. rewrite G in X1, X2, X3.
  rewrite X1, X2, X3.
  assert (K : forall v0 k g w : R, Rabs (g * w) < c -> Rabs (v0 + g * dt * w - v0) < c * dt).
  { intros v0 k g w H. replace (v0 + g * dt * w - v0) with (g * w * dt) by ring. rewrite Rabs_mult, (Rabs_right dt) by lra. now apply Rmult_lt_compat_r. }
  split; [|split]; apply K; assumption.
Qed.
Lemma one_cell_moved g k i (v v' : R) : good_gaxis g -> (0 <= k < g_np g)%Z -> (1 <= i <= ntiles (ra_n (rank_axis g k)) (g_nt g))%Z -> inside_axis (tile_of (rank_axis g k) i) (Fin v : num FRX) = true ->
  g_left g k <= v < g_left g (k + 1) -> Rabs (v' - v) < g_d g -> one_cell (rank_axis g k) i (Fin v' : num FRX).
Proof.
  intros Hg Hk Hi I O A. apply (inside_real (rank_axis g k) i v) in I; [|exact Hi]. apply Rabs_def2 in A.
  exists (left_of (rank_axis g k) i), (right_of (rank_axis g k) i), v'. destruct (tile_extents (rank_axis g k) i) as (-> & R & _). split; [reflexivity|]. split; [now apply R|]. split; [reflexivity|].
  rewrite rank_hi by assumption. cbn [rank_axis ra_lo ra_d]. lra.
Qed.
Lemma push_fact r E B e b ps l T : In r (procs P) -> contents M (D r) T (tiled ps) -> rank_tiles (pl_x P) (pl_y P) (pl_z P) r T ->
  (forall q a, In q (all_tiles (D r)) -> In a (ps q) -> outside (D r) (part_of a) = false /\ Tiles.inside (gat T q) (part_of a) = true) ->
  carrying (lay P) E e -> carrying (lay P) B b -> Permutation l (tiles_of (x r) (y r) (z r)) ->
  exists T1 ps1, push_tiles (pl_consts P) (choices_of (gathering P) (pl_lvec P) (pl_algo P) (pl_pusher P)) (motion_of (pl_q P) (pl_m P) dt) (steps (x r) (y r) (z r))
      (mesh_of (fin_axis (x r)) (fin_axis (y r)) (fin_axis (z r))) (E r) (B r) l T = Ret T1 /\ well_pushed e b ps r T1 ps1.
Proof.
  intros Hr C Rt I HE HB Hl. pose proof (bridge_tiles P good_axes r Hr) as Et.
  destruct HP as (_ & (HL & Hper & HF & HW & Hn & Hk & Hs & Hro) & _ & Ex & Lv & Wh & Hm & _).
  assert (Fi : filled (x r) (y r) (z r) T ps).
  { destruct C as (C1 & C2 & C3). split; [exact C1|]. split.
    - rewrite C2. pose proof (bridge_cut P good_axes r DirX Hr) as K1. pose proof (bridge_cut P good_axes r DirY Hr) as K2. pose proof (bridge_cut P good_axes r DirZ Hr) as K3. unfold part_x, part_y, part_z. rewrite K1, K2, K3. destruct r as [[r1 r2] r3]. reflexivity.
    - intros q Iq. rewrite Et in Iq. apply (C3 q Iq). }
  assert (In0 : in_tiles (x r) (y r) (z r) [RSpecies true (pl_q P) ps]).
  { intros s i j k a [<-|[]] Iq Ia. cbn [rs_parts] in Ia. rewrite Et in Iq. apply (bridge_inside P good_axes r T i j k a M _ Hr C Rt Iq). now apply I. }
  destruct light_step as (Hc & Ht & Hd).
  destruct (whole_push (lay P) (axs P) (gathering P) (pl_pusher P) (pl_lvec P) (pl_algo P) c (pl_q P) (pl_m P) dt (pl_consts P) r HW Hr eq_refl Ex Lv Wh Hk Hc Hm E B e b ps l T HE HB In0 Fi Hl) as (T1 & ps1 & Ep & (F1 & F2 & F3) & V).
  exists T1, ps1. split; [exact Ep|]. rewrite Et in V, F3. pose proof C as (C1 & C2 & C3).
  assert (Gh : ghi T1 = ghi T) by (destruct Fi as (_ & X & _); rewrite F2, X; reflexivity).
  assert (Ct : contents M (D r) T1 (tiled ps1)).
  { split; [exact F1|]. split; [rewrite Gh; exact C2|]. intros q Iq. split; [now apply F3|]. destruct (V q Iq) as (_ & Em & _). rewrite Em. now apply C3. }
  split; [exact Ct|]. split; [|split].
  - pose proof Hr as Hr0. destruct r as [[r1 r2] r3]. destruct Rt as (L & Lb). split.
    + intros i j k t Hin. subst t. rewrite F1, Gh, C2 in Hin. destruct (V (i, j, k) Hin) as ((-> & -> & -> & _) & _). apply L. rewrite C1, C2. exact Hin.
    + intros i j k Hin. destruct (V (i, j, k) Hin) as ((_ & _ & _ & ->) & _). now apply Lb.
  - assert (G : forall i j k a', In (i, j, k) (all_tiles (D r)) -> In a' (ps1 (i, j, k)) ->
      one_cell (rank_axis (pl_x P) (FieldBC.comp DirX r)) i (Fin (rpx a') : num FRX) /\ one_cell (rank_axis (pl_y P) (FieldBC.comp DirY r)) j (Fin (rpy a') : num FRX) /\ one_cell (rank_axis (pl_z P) (FieldBC.comp DirZ r)) k (Fin (rpz a') : num FRX)).
    { intros i j k a' Iq Ia. destruct (V (i, j, k) Iq) as (_ & _ & F). clear - F Ia Iq Hr C Rt I Hd Et HP.
      assert (Ex : exists a, In a (ps (i, j, k)) /\ moved (pl_pusher P) c (pl_q P) (pl_m P) dt (fields_seen (gathering P) (w_cells (axs P)) e b a) a a').
      { clear - F Ia. induction F as [|a0 a1 l0 l1 H F IH]; [destruct Ia|]. destruct Ia as [<-|Ia]; [exists a0; split; [now left|exact H]|]. destruct (IH Ia) as (a & Ha & Ha'). exists a. split; [now right|exact Ha']. }
      destruct Ex as (a & Ia0 & Mv). apply move_small in Mv. destruct Mv as (M1 & M2 & M3). destruct (I _ _ Iq Ia0) as (O & In1).
      apply (bridge_outside P r a Hr) in O. apply (bridge_inside P good_axes r T i j k a M _ Hr C Rt Iq) in In1. destruct In1 as (I1 & I2 & I3), O as (O1 & O2 & O3).
      apply (bridge_slab P good_axes r DirX) in I1; [|exact Hr]. apply (bridge_slab P good_axes r DirY) in I2; [|exact Hr]. apply (bridge_slab P good_axes r DirZ) in I3; [|exact Hr].
      pose proof (Hd DirX). pose proof (Hd DirY). pose proof (Hd DirZ). pose proof (bridge_procs P r Hr) as Pr.
      assert (Bi : (1 <= i <= ntiles (ra_n (rank_axis (pl_x P) (FieldBC.comp DirX r))) (g_nt (pl_x P)))%Z /\ (1 <= j <= ntiles (ra_n (rank_axis (pl_y P) (FieldBC.comp DirY r))) (g_nt (pl_y P)))%Z /\ (1 <= k <= ntiles (ra_n (rank_axis (pl_z P) (FieldBC.comp DirZ r))) (g_nt (pl_z P)))%Z).
      { unfold all_tiles in Iq. apply in_box_box, in_box_iff in Iq. destruct r as [[r1 r2] r3]. cbn [rank_dom dom_of dX dY dZ axis_of ag_nt FieldBC.comp] in *. exact Iq. }
      destruct Bi as (B1 & B2 & B3).
      split; [|split]; [apply (one_cell_moved _ _ _ (rpx a))|apply (one_cell_moved _ _ _ (rpy a))|apply (one_cell_moved _ _ _ (rpz a))]; try assumption; try apply (Pr DirX); try apply (Pr DirY); try apply (Pr DirZ);
        try apply (good_axes DirX); try apply (good_axes DirY); try apply (good_axes DirZ); cbn [pl_axis] in *; lra. }
    destruct r as [[r1 r2] r3]. intros i j k p Iq Ip. apply in_map_iff in Ip. destruct Ip as (a' & <- & Ia). exact (G i j k a' Iq Ia).
  - intros q Iq. apply (V q Iq).
Qed.

(** ** the exchange *)
Lemma world_everyone (ps : idx -> idx -> list rpart) : SpecPartBC.world (g_procs (pl_x P) (pl_y P) (pl_z P)) D (fun r q => map part_of (ps r q)) = map part_of (everyone P ps).
Proof.
  unfold SpecPartBC.world, all_particles, everyone. rewrite flat_map_concat_map, (flat_map_concat_map _ (procs P)), concat_map, map_map. f_equal. apply map_ext. intros r.
  rewrite !flat_map_concat_map, concat_map, map_map. reflexivity.
Qed.
Definition exchanged_to (A : idx -> idx -> list (part FRX)) (W' : idx -> grid (tile FRX) * Z) (A' : idx -> idx -> list (part FRX)) : Prop :=
  (forall r, In r (procs P) -> contents M (D r) (fst (W' r)) (A' r) /\ rank_tiles (pl_x P) (pl_y P) (pl_z P) r (fst (W' r)) /\
    forall q p, In q (all_tiles (D r)) -> In p (A' r q) -> outside (D r) p = false /\ Tiles.inside (gat (fst (W' r)) q) p = true) /\
  Permutation (SpecPartBC.world (g_procs (pl_x P) (pl_y P) (pl_z P)) D A') (map (wrap (pl_x P) (pl_y P) (pl_z P)) (SpecPartBC.world (g_procs (pl_x P) (pl_y P) (pl_z P)) D A)).
Lemma exchange_fact (W1 : idx -> grid (tile FRX) * Z) (A : idx -> idx -> list (part FRX)) :
  (forall r q p, In r (procs P) -> In q (all_tiles (D r)) -> In p (A r q) -> zlen (ppid p) = 1%Z) ->
  room M (zlen (SpecPartBC.world (g_procs (pl_x P) (pl_y P) (pl_z P)) D A)) ->
  (forall r, In r (procs P) -> contents M (D r) (fst (W1 r)) (A r) /\ rank_tiles (pl_x P) (pl_y P) (pl_z P) r (fst (W1 r)) /\ all_one_cell (pl_x P) (pl_y P) (pl_z P) r (A r)) ->
  (exists W', all_exchanged P W1 W') /\ forall W', all_exchanged P W1 W' -> exists A', exchanged_to A W' A'.
Proof.
  intros Hpid (R1 & R2 & R3) H. pose proof HP as ((G1 & G2 & G3) & _ & _ & _ & _ & _ & _ & Ha). unfold all_exchanged. destruct (pl_exchange P).
  - destruct (periodic_serial (pl_x P) (pl_y P) (pl_z P) G1 G2 G3 1 M W1 A R2 ltac:(lia) Hpid R1 ltac:(lia) H) as (T1 & E1 & T' & A' & X & Pe). split.
    + eexists. exists T1. split; [exact E1|]. intros r Hr. exact (proj1 (X r Hr)).
    + intros W' (T2 & E2 & E3). exists A'. split; [|exact Pe]. intros r Hr.
      assert (ET : forall s, In s (procs P) -> T2 s = T1 s) by (intros s Hs; specialize (E2 s Hs); rewrite (E1 s Hs) in E2; congruence).
      destruct (X r Hr) as (Y & Z1). assert (Ew : fst (W' r) = T' r).
      { specialize (E3 r Hr). 
        assert (Eq : particle_bcs_mpi_blocking 1 (g_procs (pl_x P) (pl_y P) (pl_z P)) D (rank_bnd (pl_x P) (pl_y P) (pl_z P)) (fun s => (T2 s, snd (W1 s))) r = particle_bcs_mpi_blocking 1 (g_procs (pl_x P) (pl_y P) (pl_z P)) D (rank_bnd (pl_x P) (pl_y P) (pl_z P)) (fun s => (T1 s, snd (W1 s))) r) by (symmetry; apply mpi_same; [apply procs_size; assumption|exact Hr|intros s Hs; cbn beta; rewrite (ET s Hs); reflexivity]).
        rewrite Eq, Y in E3. injection E3 as E3. rewrite <- E3. reflexivity. }
      rewrite Ew. exact Z1.
  - destruct (periodic_omp (pl_x P) (pl_y P) (pl_z P) G1 G2 G3 1 M W1 A R2 ltac:(lia) Hpid R1 ltac:(lia) H) as (X1 & X2). split.
    + assert (Ch : exists T1, forall r, In r (procs P) -> particle_bcs_tiles_openmp (D r) (fst (W1 r)) (Ret (T1 r))).
      { apply (choice_list (fst (W1 (0, 0, 0)%Z)) (fun r T => particle_bcs_tiles_openmp (D r) (fst (W1 r)) (Ret T))). intros r Hr. destruct (X1 r Hr) as ((res & Hres) & All). destruct (All res Hres) as (T1 & ->). now exists T1. }
      destruct Ch as (T1 & E1). destruct (X2 T1 E1) as (T' & A' & X & _). eexists. exists T1. split; [exact E1|]. intros r Hr. exact (proj1 (X r Hr)).
    + intros W' (T2 & E2 & E3). destruct (X2 T2 E2) as (T' & A' & X & Pe). exists A'. split; [|exact Pe]. intros r Hr. destruct (X r Hr) as (Y & Z1).
      specialize (E3 r Hr). rewrite Y in E3. injection E3 as E3. rewrite <- E3. exact Z1.
  - destruct (Ha eq_refl) as (Hb & Hsev). destruct (default_periodic_fact (pl_x P) (pl_y P) (pl_z P) G1 G2 G3 1 (pl_block P) M W1 A R2 ltac:(lia) Hb R1 ltac:(lia) H Hsev) as (T' & A' & X & Pe). split.
    + eexists. intros r Hr. exact (proj1 (X r Hr)).
    + intros W' E3. exists A'. split; [|exact Pe]. intros r Hr. destruct (X r Hr) as (Y & Z1). specialize (E3 r Hr). rewrite Y in E3. injection E3 as E3. rewrite <- E3. exact Z1.
Qed.
End Particles.
