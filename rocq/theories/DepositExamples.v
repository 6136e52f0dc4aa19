(** Concrete cases for the theorems about the deposition of charge and current. *)
From Coq Require Import ZArith Reals List Bool Lia Lra Permutation.
From Verif Require Import Cxx Num NumRX Fortran FortranNum Grid GridLemmas Pushers Yee Deposit Esirkepov SpecYee SpecSolver SpecDeposit SpecCurrent YeeDiv YeeHist YeeExamples DepositProofs DepositMore EskReal EskProofs EskFacts PusherProofs.
Import ListNotations.
Local Open Scope R_scope.

(** cells of size 1 x 2 x 1/2, two moving particles *)
Definition gc : cells := {| ox := 0; oy := 0; oz := 0; hx := 1; hy := 2; hz := 1 / 2 |}.
Definition pa : rpart := {| rpx := 17 / 4; rpy := 9; rpz := 19 / 8; rux := 1 / 2; ruy := - (1 / 4); ruz := 1 / 8; rgam := 1; rw := 2 |}.
Definition pb : rpart := {| rpx := 3; rpy := 21 / 2; rpz := 5 / 3; rux := - (3 / 2); ruy := 1; ruz := 1 / 4; rgam := 1 / 2; rw := 3 |}.
Definition two : list rpart := [pa; pb].
Lemma gc_proper : proper gc. Proof. unfold proper. cbn. lra. Qed.
Definition zeros : grid (num FRX) := Grid (alo S2) (ahi S2) (fun _ => Fin 0 : num FRX).
Lemma zeros_grid : isg zeros (alo S2) (ahi S2) (fun _ => 0). Proof. repeat split. Qed.
Definition lo2 (d : axis) : idx := alo S2.
Definition hi2 (d : axis) : idx := ahi S2.
Lemma zeros_holds : holds (Field3 zeros zeros zeros) lo2 hi2 zero_field. Proof. intros []; apply zeros_grid. Qed.
Lemma S2_moderate : moderate (alo S2) (ahi S2). Proof. unfold moderate. cbn. lia. Qed.
Lemma fits_all n x : (0 <= n <= 3)%Z -> 1 <= x <= 7 -> fits n (-3) 11 x.
Proof.
  intros K H. assert (Q : (0 <= n ÷ 2 <= 1)%Z) by (assert (n = 0 \/ n = 1 \/ n = 2 \/ n = 3)%Z as [->|[->|[->| ->]]] by lia; cbn; lia).
  unfold fits. rewrite plus_IZR, minus_IZR. destruct Q as [Q1 Q2]. apply IZR_le in Q1, Q2. lra.
Qed.
Definition near (a : rpart) : Prop := 1 <= unit_x gc (rpx a) <= 7 /\ 1 <= unit_y gc (rpy a) <= 7 /\ 1 <= unit_z gc (rpz a) <= 7.
Lemma near_two a : In a two -> near a /\ near (before_move (1 / 4) a) /\ small_step gc (1 / 4) a.
Proof.
  intros [<-|[<-|[]]]; unfold near; (split; [|split]); try (cbn; unfold unit_x, unit_y, unit_z, back; cbn; lra);
    intros []; apply Rabs_def1; cbn; unfold unit_x, unit_y, unit_z, back; cbn; lra.
Qed.
Lemma near_fits o a : known o -> near a -> fits3 o gc (alo S2) (ahi S2) a.
Proof. intros (K1 & K2 & K3) (N1 & N2 & N3). unfold fits3, alo, ahi. cbn [S2 nxguard nyguard nzguard nx ny nz]. split; [|split]; apply fits_all; assumption. Qed.
Lemma near_inside o a : known o -> near a -> inside o gc lo2 hi2 a.
Proof. intros K N d. split; [apply S2_moderate | apply near_fits; assumption]. Qed.
Theorem charge_case o : known o -> exists rho', charge_n o true false gc (1 / 8) two zeros = Ret rho'.
Proof.
  intros K. apply (charge_inside o true false gc (1 / 8) two zeros (alo S2) (ahi S2) (fun _ => 0) gc_proper K S2_moderate zeros_grid).
  intros a I. apply near_fits; [exact K|]. apply near_two. exact I.
Qed.
Theorem current_case n : fixed_order n -> exists J', current_fixed n gc (1 / 8) (1 / 4) two (Field3 zeros zeros zeros) = Ret J'.
Proof.
  intros O. apply (fixed_inside n gc (1 / 8) (1 / 4) two _ lo2 hi2 zero_field O gc_proper ltac:(lra) zeros_holds).
  intros a I. destruct (near_two a I) as (N1 & N2 & S). pose proof (fixed_known n O) as K. split; [apply near_inside; assumption|]. split; [apply near_inside; assumption | exact S].
Qed.
Definition K1 : Consts FRX := mkConsts (Fin 1 : num FRX) (Fin 1 : num FRX) (Fin 1 : num FRX) (Fin 3 : num FRX).
Lemma K1_light : light 1 K1. Proof. reflexivity. Qed.
Lemma slow d : 0 <= 1 * (1 / 4) / width gc d <= 1000000000.
Proof. destruct d; cbn; lra. Qed.
Theorem current_n_case o : known o -> exists J', current_n K1 o true false gc (1 / 8) (1 / 4) two (Field3 zeros zeros zeros) = Ret J'.
Proof.
  intros K. apply (n_inside K1 1 o true false gc (1 / 8) (1 / 4) two _ lo2 hi2 zero_field K1_light K gc_proper ltac:(lra) zeros_holds slow).
  intros nw ol I. cbn in I. destruct I as [I|[I|[]]]; injection I as <- <-.
  - destruct (near_two pa (or_introl eq_refl)) as (N1 & N2 & _). split; [apply near_inside; assumption|]. split; [apply (near_inside o (before_move (1 / 4) pa)); assumption|].
    intros []; apply Rabs_le; cbn; unfold unit_x, unit_y, unit_z, back; cbn; lra.
  - destruct (near_two pb (or_intror (or_introl eq_refl))) as (N1 & N2 & _). split; [apply near_inside; assumption|]. split; [apply (near_inside o (before_move (1 / 4) pb)); assumption|].
    intros []; apply Rabs_le; cbn; unfold unit_x, unit_y, unit_z, back; cbn; lra.
Qed.
(** a particle at twice the speed of light and more *)
Definition pf : rpart := {| rpx := 17 / 4; rpy := 9; rpz := 19 / 8; rux := 9; ruy := 0; ruz := 0; rgam := 1; rw := 2 |}.
Lemma pf_far : 2 < Rabs (unit_on gc AX pf - unit_on gc AX (before_move (1 / 4) pf)).
Proof. cbn. unfold unit_x, back. cbn. rewrite Rabs_pos_eq; lra. Qed.
Definition order4 : orders := {| onx := 4; ony := 2; onz := 1 |}.
(** two dimensions *)
Definition plane_lo : idx := (-3, 0, -3)%Z.
Definition plane_hi : idx := (11, 0, 11)%Z.
Definition plane : grid (num FRX) := Grid plane_lo plane_hi (fun _ => Fin 0 : num FRX).
Lemma plane_grid : isg plane plane_lo plane_hi (fun _ => 0). Proof. repeat split. Qed.
Lemma gc_proper_2d : proper_2d gc. Proof. unfold proper_2d. cbn. lra. Qed.
Theorem charge_2d_case nx nz : (0 <= nx <= 3)%Z -> (0 <= nz <= 3)%Z ->
  exists rho', pxr_depose_rho_n_2dxz 2 (map pos_of two) (map weight_of two) (Fin (1 / 8) : num FRX) (geom_of gc) nx nz true false plane = Ret rho'.
Proof.
  intros K1 K3. change 2%Z with (zlen two). rewrite fold_2d.
  assert (Q : forall a, In a two -> ok2 nx nz gc a /\ all_in plane_lo plane_hi (gives2 nx nz gc (1 / 8) a)).
  { intros a I. destruct (near_two a I) as ((N1 & N2 & N3) & _).
    destruct (fits_node nx (-3) 11 (unit_x gc (rpx a)) K1 ltac:(lia) ltac:(lia) (fits_all nx _ K1 N1)) as (F1 & A1 & A2).
    destruct (fits_node nz (-3) 11 (unit_z gc (rpz a)) K3 ltac:(lia) ltac:(lia) (fits_all nz _ K3 N3)) as (F3 & B1 & B2).
    split; [unfold ok2; auto|]. intros c Ic. unfold gives2 in Ic. apply in_map_iff in Ic. destruct Ic as ([[jj kk] ll] & <- & Ib). apply in_box_box in Ib. apply in_box_iff in Ib.
    cbn [fst]. apply in_box_iff. lia. }
  destruct (all_ok _ (gives2 nx nz gc (1 / 8)) (ok2 nx nz gc) (fun a => rho2_ok nx nz gc (1 / 8) a gc_proper_2d) two plane plane_lo plane_hi _ plane_grid Q) as (g' & E & _).
  exists g'. exact E.
Qed.
(** ** a run: the particles move, their current is deposited, the fields are advanced *)
Definition moved (a : rpart) : rpart :=
  {| rpx := rpx a + rux a * rgam a * (1 / 4); rpy := rpy a + ruy a * rgam a * (1 / 4); rpz := rpz a + ruz a * rgam a * (1 / 4);
     rux := rux a; ruy := ruy a; ruz := ruz a; rgam := rgam a; rw := rw a |}.
Theorem run_case n : fixed_order n -> exists E B, run S2 q4 1 1 n gc (1 / 8) (hold S2 wave, hold S2 wave, two) (E, B, map moved two).
Proof.
  intros O.
  assert (C : exists J, current_fixed n gc (1 / 8) (rdt q4) (map moved two) (Field3 zeros zeros zeros) = Ret J).
  { apply (fixed_inside n gc (1 / 8) (1 / 4) (map moved two) _ lo2 hi2 zero_field O gc_proper ltac:(lra) zeros_holds).
    intros a I. pose proof (fixed_known n O) as K.
    assert (near a /\ near (before_move (1 / 4) a) /\ small_step gc (1 / 4) a) as (N1 & N2 & S).
    { cbn [map two] in I. destruct I as [<-|[<-|[]]]; unfold near; (split; [|split]); try (cbn; unfold unit_x, unit_y, unit_z, back; cbn; lra);
        intros []; apply Rabs_def1; cbn; unfold unit_x, unit_y, unit_z, back; cbn; lra. }
    split; [apply near_inside; assumption|]. split; [apply near_inside; assumption | exact S]. }
  destruct C as (J & C). destruct (fixed_sound n gc (1 / 8) (1 / 4) (map moved two) _ J lo2 hi2 zero_field O gc_proper ltac:(lra) zeros_holds C) as (m & _ & HJ).
  assert (FJ : is_field (tg := fun x => x) S2 J (plus_field zero_field m)) by (split; [exact (HJ AX) | split; [exact (HJ AY) | exact (HJ AZ)]]).
  destruct (push_efield_new (tg := fun x => x) 1 1 S2 q4 _ _ J wave wave _ well_S2 (hold_field _ S2 wave) (hold_field _ S2 wave) FJ) as (E1 & P2 & V2).
  destruct (push_bfield_new (tg := fun x => x) S2 q4 _ _ _ _ well_S2 V2 (hold_field _ S2 wave)) as (B2 & P3 & V3).
  exists E1, B2. eapply runs; [eapply runs; [apply run0|]|].
  - apply (run_move S2 q4 1 1 n gc (1 / 8) _ _ (Field3 zeros zeros zeros) J E1 two (map moved two)); try reflexivity; try assumption.
    split; [apply zeros_grid | split; apply zeros_grid].
  - apply run_b. exact P3.
Qed.
(** ** order four *)
Lemma ax_near n lo hi x xo : (0 <= n <= 4)%Z -> (lo <= smin n - 1)%Z -> (smax n + 1 <= hi)%Z -> 2 <= x <= 6 -> 2 <= xo <= 6 -> Rabs (x - xo) < 1 ->
  exists A, axis_shapes n lo hi (Fin x : num FRX) (Fin xo : num FRX) = Ret A /\ fin_ax A /\ (-3 <= nd A + imin A)%Z /\ (nd A + imax A <= 11)%Z.
Proof.
  intros K L H B1 B2 D.
  assert (F1 : found n x) by (apply Splines.node_ex; apply Rabs_le; lra). assert (F2 : found n xo) by (apply Splines.node_ex; apply Rabs_le; lra).
  pose proof (jump_one n x xo F1 F2 D) as Jm. unfold jump in Jm.
  assert (S : (-2 <= smin n <= 0 /\ 0 <= smax n <= 2)%Z) by (assert (n = 0 \/ n = 1 \/ n = 2 \/ n = 3 \/ n = 4)%Z as [->|[->|[->|[->| ->]]]] by lia; cbn; lia).
  assert (R1 : (1 <= nod n x <= 7)%Z).
  { pose proof (nod_is n x F1) as Q. unfold Splines.is_node in Q. destruct (_ =? _)%Z.
    - assert (C : Rabs (x - IZR (nod n x)) <= 1 / 2) by lra. apply Splines.Rabs_le_inv in C. assert (0 < nod n x < 8)%Z by (split; apply lt_IZR; lra). lia.
    - assert (0 < nod n x < 8)%Z by (split; apply lt_IZR; lra). lia. }
  assert (E : exists A, axis_shapes n lo hi (Fin x : num FRX) (Fin xo : num FRX) = Ret A /\ nd A = nod n x /\ imin A = (Z.min 0 (nod n xo - nod n x) + smin n)%Z /\ imax A = (Z.max 0 (nod n xo - nod n x) + smax n)%Z).
  { destruct F1 as (i0 & E0), F2 as (i & E1). unfold nod in *. rewrite E0, E1 in *. unfold axis_shapes. rewrite E0, E1. cbn [bind].
    match goal with |- context[if ?b then _ else UB] => replace b with true by (symmetry; rewrite !andb_true_iff, !Z.leb_le; lia) end. eexists. split; [reflexivity|]. auto. }
  destruct E as (A & E & E1 & E2 & E3). exists A. split; [exact E|]. split; [apply (ax_any n lo hi x xo); [lia | exact E] | lia].
Qed.
Lemma items_in w1 w2 w3 X Y Z' : (-3 <= nd X + imin X)%Z -> (nd X + imax X <= 11)%Z -> (-3 <= nd Y + imin Y)%Z -> (nd Y + imax Y <= 11)%Z -> (-3 <= nd Z' + imin Z')%Z -> (nd Z' + imax Z' <= 11)%Z ->
  forall d p v, In (d, p, v) (EskLoops.items3 (N := FRX) w1 w2 w3 X Y Z') -> in_box (alo S2) (ahi S2) p = true.
Proof.
  intros A1 A2 B1 B2 C1 C2 d p v. unfold EskLoops.items3. rewrite in_flat_map. intros (k & Hk & I). apply in_flat_map in I. destruct I as (j & Hj & I). apply in_flat_map in I. destruct I as (i & Hi & I).
  apply in_zrange in Hk, Hj, Hi. unfold EskLoops.items in I.
  assert (Q : in_box (alo S2) (ahi S2) (EskLoops.at3 X Y Z' k j i) = true) by (unfold EskLoops.at3, alo, ahi; cbn [S2 nx ny nz nxguard nyguard nzguard]; apply in_box_iff; lia).
  apply in_app_or in I. destruct I as [I|I]; [|apply in_app_or in I; destruct I as [I|I]].
  - destruct (i <? imax X)%Z; [|destruct I]. destruct I as [I|[]]. injection I as <- <- <-. exact Q.
  - destruct (j <? imax Y)%Z; [|destruct I]. destruct I as [I|[]]. injection I as <- <- <-. exact Q.
  - destruct (k <? imax Z')%Z; [|destruct I]. destruct I as [I|[]]. injection I as <- <- <-. exact Q.
Qed.
Lemma run_zero L J : (forall t, In t L -> snd t = (Fin 0 : num FRX)) -> (forall d p v, In (d, p, v) L -> in_box (alo S2) (ahi S2) p = true) -> forall j, holds J lo2 hi2 j ->
  exists J', EskLoops.run3 (N := FRX) L J = Ret J'.
Proof.
  intros Z I j H. assert (E : L = map fin3 (map (fun t => (fst t, 0)) L)).
  { rewrite map_map. rewrite <- (map_id L) at 1. apply map_ext_in. intros [[d p] v] It. specialize (Z _ It). cbn in *. rewrite Z. reflexivity. }
  rewrite E. destruct (run3_ok (map (fun t => (fst t, 0)) L) J lo2 hi2 j H) as (J' & R & _); [|exists J'; exact R].
  intros d p v Iv. apply in_map_iff in Iv. destruct Iv as ([[d' p'] v'] & Q & Iv). injection Q as <- <- <-. exact (I _ _ _ Iv).
Qed.
Theorem high_case : exists J', current_n K1 order4 true false gc (1 / 8) (1 / 4) [pa] (Field3 zeros zeros zeros) = Ret J'.
Proof.
  destruct (trunc_pos _ (slow AX)) as [T1 U1]. destruct (trunc_pos _ (slow AY)) as [T2 U2]. destruct (trunc_pos _ (slow AZ)) as [T3 U3]. cbn [width] in *.
  set (t1 := Int_part (1 * (1 / 4) / hx gc)) in *. set (t2 := Int_part (1 * (1 / 4) / hy gc)) in *. set (t3 := Int_part (1 * (1 / 4) / hz gc)) in *.
  assert (H1 : hx gc <> 0) by (cbn; lra). assert (H2 : hy gc <> 0) by (cbn; lra). assert (H3 : hz gc <> 0) by (cbn; lra).
  rewrite (n_fold K1 1 order4 true false gc (1 / 8) (1 / 4) [pa] _ (smin 4 - 1 - t1, smax 4 + 1 + t1)%Z (smin 2 - 1 - t2, smax 2 + 1 + t2)%Z (smin 1 - 1 - t3, smax 1 + 1 + t3)%Z)
    by (try exact K1_light; try exact gc_proper; try lra; cbn [order4 onx ony onz]; rewrite (bounds_fin K1 1) by (try exact K1_light; assumption); rewrite ?T1, ?T2, ?T3; reflexivity).
  cbn [fst snd head_weight smoves map foldM]. unfold EskCore.core.
  destruct (ax_near 4 (smin 4 - 1 - t1) (smax 4 + 1 + t1) (unit_x gc (rpx pa)) (unit_x gc (rpx (before_move (1 / 4) pa)))) as (X & EX & FX & BX1 & BX2); [lia | lia | lia | | | |].
  { cbn. unfold unit_x. cbn. lra. } { cbn. unfold unit_x, back. cbn. lra. } { apply Rabs_def1; cbn; unfold unit_x, back; cbn; lra. }
  destruct (ax_near 2 (smin 2 - 1 - t2) (smax 2 + 1 + t2) (unit_y gc (rpy pa)) (unit_y gc (rpy (before_move (1 / 4) pa)))) as (Y & EY & FY & BY1 & BY2); [lia | lia | lia | | | |].
  { cbn. unfold unit_y. cbn. lra. } { cbn. unfold unit_y, back. cbn. lra. } { apply Rabs_def1; cbn; unfold unit_y, back; cbn; lra. }
  destruct (ax_near 1 (smin 1 - 1 - t3) (smax 1 + 1 + t3) (unit_z gc (rpz pa)) (unit_z gc (rpz (before_move (1 / 4) pa)))) as (Z' & EZ & FZ & BZ1 & BZ2); [lia | lia | lia | | | |].
  { cbn. unfold unit_z. cbn. lra. } { cbn. unfold unit_z, back. cbn. lra. } { apply Rabs_def1; cbn; unfold unit_z, back; cbn; lra. }
  change (sa true false gc (rw pa) pa) with pa. change (sa true false gc (rw pa) (before_move (1 / 4) pa)) with (before_move (1 / 4) pa).
  cbn [order4 onx ony onz]. rewrite EX. cbn [bind]. rewrite EY. cbn [bind]. rewrite EZ. cbn [bind].
  match goal with |- context[esk_loops_n ?u ?v ?w X Y Z'] => destruct (loops_n_fine u v w X Y Z' (proj1 FX) (proj1 FY) (proj1 FZ) sums0) as (d & D) end.
  rewrite (D _). match goal with |- context[EskLoops.run3 ?L ?J] => destruct (run_zero L J) with (j := zero_field) as (J' & R') end.
  - intros t I. refine (items_zero _ _ _ X Y Z' t FX FY FZ _ I). left. eapply ax_high; [|exact EX]. lia.
  - intros e p v I. exact (items_in _ _ _ X Y Z' BX1 BX2 BY1 BY2 BZ1 BZ2 e p v I).
  - exact zeros_holds.
  - rewrite R'. cbn [bind]. exists J'. reflexivity.
Qed.

(** ** for the examples beside the theorems *)
Lemma over_the_edge : receives (same_order 1) gc {| rpx := 23 / 2; rpy := 9; rpz := 2; rux := 0; ruy := 0; ruz := 0; rgam := 1; rw := 1 |} (12, 4, 4)%Z /\
  in_box (alo S2) (ahi S2) (12, 4, 4)%Z = false.
Proof.
  split; [|reflexivity]. unfold receives, share. cbn [same_order onx ony onz rpx rpy rpz]. unfold spline, unit_x, unit_y, unit_z. cbn [gc ox oy oz hx hy hz].
  rewrite (Rabs_left ((23 / 2 - 0) / 1 - 12)) by lra. rewrite (Rabs_pos_eq ((9 - 0) / 2 - 4)) by lra. replace ((2 - 0) / (1 / 2) - 4) with 0 by lra. rewrite Rabs_R0.
  rewrite !Rmax_right by lra. lra.
Qed.
Lemma gc_volume : 0 < volume gc. Proof. unfold volume. cbn. lra. Qed.
Lemma eighth_pos : 0 < 1 / 8. Proof. lra. Qed.
Lemma quarter : 1 / 4 <> 0. Proof. lra. Qed.
Lemma two_heavy a : In a two -> 0 < rw a. Proof. intros [<-|[<-|[]]]; cbn; lra. Qed.
Lemma two_some : two <> []. Proof. discriminate. Qed.
Lemma three_pos : (0 <= 3)%Z. Proof. lia. Qed.
Lemma three_le : (3 <= 3)%Z. Proof. lia. Qed.
Lemma two_inside n a : fixed_order n -> In a two -> inside (same_order n) gc lo2 hi2 a /\ inside (same_order n) gc lo2 hi2 (before_move (1 / 4) a) /\ small_step gc (1 / 4) a.
Proof. intros O I. destruct (near_two a I) as (N1 & N2 & S). pose proof (fixed_known n O) as K. split; [apply near_inside; assumption|]. split; [apply near_inside; assumption | exact S]. Qed.
Lemma atomic_case n : fixed_order n -> exists updates, atomic_order n gc (1 / 8) two updates.
Proof.
  intros O.
  assert (Q : forall a, In a two -> exists ss, charge_updates n (geom_of gc) (Fin (1 / 8) : num FRX) (pos_of a) (weight_of a) = Ret ss).
  { intros a I. rewrite fixed_updates by (try assumption; exact gc_proper). destruct (near_two a I) as (N1 & _). pose proof (fixed_known n O) as K.
    destruct (fits3_place (same_order n) gc (1 / 8) (alo S2) (ahi S2) a K S2_moderate (near_fits _ a K N1)) as [(_ & (j & E1) & (k & E2) & (l & E3)) _].
    unfold one. rewrite E1, E2, E3. cbn [bind]. rewrite (proj2 (knownb_iff _) K). eauto. }
  destruct (Q pa (or_introl eq_refl)) as (s1 & E1). destruct (Q pb (or_intror (or_introl eq_refl))) as (s2 & E2).
  exists (concat [s1; s2]), [s1; s2]. split; [|reflexivity]. repeat constructor; assumption.
Qed.
Lemma run_setting : second_order S2 = true /\ rdx q4 = hx gc /\ rdy q4 = hy gc /\ rdz q4 = hz gc /\ well_set S2 q4 /\ inner_bwd S2 q4 (4, 4, 4)%Z /\ in_box (alo S2) (ahi S2) (4, 4, 4)%Z = true /\
  (forall n, fixed_order n -> exists E B, run S2 q4 1 1 n gc (1 / 8) (hold S2 wave, hold S2 wave, two) (E, B, map moved two)).
Proof. split; [reflexivity|]. split; [reflexivity|]. split; [reflexivity|]. split; [reflexivity|]. split; [exact well_S2|]. split; [exact (proj2 inner_S2)|]. split; [reflexivity | exact run_case]. Qed.
