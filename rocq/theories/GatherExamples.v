(** Concrete cases for the theorems about the gathering of the fields. *)
From Coq Require Import ZArith Reals List Bool Lia Lra.
From Verif Require Import SortingProofs.
From Verif Require Import Cxx Num NumRX Fortran FortranNum Grid GridLemmas Pushers Yee Deposit SpecPhys SpecYee SpecSolver SpecDeposit SpecCurrent YeeDiv YeeHist YeeExamples DepositProofs DepositMore DepositExamples
  Splines Gather SpecGather GatherReal GatherProofs GatherMore GatherFacts.
Import ListNotations.
Local Open Scope R_scope.

(** arrays on the cells of S2, guard cells included *)
Definition arr (f : axis -> idx -> R) : arrays := {| ar_lo := fun _ => alo S2; ar_hi := fun _ => ahi S2; ar_at := RField (f AX) (f AY) (f AZ) |}.
Definition as_grid (f : idx -> R) : grid (num FRX) := Grid (alo S2) (ahi S2) (fun p => Fin (f p) : num FRX).
Definition as_field (f : axis -> idx -> R) : field (num FRX) := Field3 (as_grid (f AX)) (as_grid (f AY)) (as_grid (f AZ)).
Lemma arr_stored f : stored (as_field f) (arr f).
Proof. intros []; (split; [reflexivity|split; [reflexivity|intros p _; reflexivity]]). Qed.
Lemma arr_sized f : sized (arr f). Proof. intros d. exact S2_moderate. Qed.
Lemma fits_half n x : (0 <= n <= 3)%Z -> 0 <= x <= 8 -> fits n (-3) 11 x.
Proof.
  intros K H. assert (Q : (0 <= n ÷ 2 <= 1)%Z) by (assert (n = 0 \/ n = 1 \/ n = 2 \/ n = 3)%Z as [->|[->|[->| ->]]] by lia; cbn; lia).
  unfold fits. rewrite plus_IZR, minus_IZR. destruct Q as [Q1 Q2]. apply IZR_le in Q1, Q2. lra.
Qed.
Lemma two_all_inside s f f' a : proper_scheme s -> In a two -> all_inside s gc (arr f) (arr f') a.
Proof.
  intros P Ha. destruct (near_two a Ha) as ((N1 & N2 & N3) & _).
  assert (H : forall q d, SpecGather.inside s q d gc (alo S2) (ahi S2) a).
  { intros q d c. assert (0 <= offset s q d c <= 1 / 2) by (unfold offset; destruct (between q d c), (sc_nodal s); lra). pose proof (degree_range s q d c P).
    destruct c; cbn [unit_on low_of alo ahi S2 nxguard nyguard nzguard nx ny nz]; apply fits_half; try assumption; lra. }
  intros d. split; apply H.
Qed.
(** third order, one order less between the nodes, Yee grid *)
Definition s3 : scheme := {| sc_order := same_order 3; sc_lower := true; sc_nodal := false |}.
Definition s21 : scheme := {| sc_order := {| onx := 2; ony := 1; onz := 2 |}; sc_lower := false; sc_nodal := false |}.
Definition s3n : scheme := {| sc_order := same_order 3; sc_lower := false; sc_nodal := true |}.
Lemma proper_s3 : proper_scheme s3. Proof. repeat split; discriminate. Qed.
Lemma proper_s21 : proper_scheme s21. Proof. repeat split; discriminate. Qed.
Lemma proper_s3n : proper_scheme s3n. Proof. repeat split; discriminate. Qed.
Lemma exact_s3 : exact_choice 0 (sc_order s3) /\ exact_choice 1 (sc_order s3). Proof. split; right; repeat split; discriminate. Qed.
Lemma exact_s21 : exact_choice 2 (sc_order s21). Proof. left. repeat split; discriminate. Qed.
Lemma exact_s3n : exact_choice 0 (sc_order s3n). Proof. right. repeat split; discriminate. Qed.
Definition wavy (d : axis) (p : idx) : R := let '(j, k, l) := p in IZR (j * j - 3 * k + match d with AX => l | AY => j * l | AZ => 5 end).
Definition had : list eb := [(mk3 1 0 0, mk3 0 0 2); none].
Definition kc (d : axis) : R := match d with AX => 3 | AY => -1 | AZ => 1 / 2 end.
Definition kl (d c : axis) : R := match d, c with AX, AY => 2 | AY, AY => 1 / 3 | AZ, AX => -4 | _, AZ => 5 | _, _ => 0 end.
Definition ramp (s : scheme) (q : quantity) (d : axis) (p : idx) : R := affine (kc d) (kl d) (where_is s q d gc p).
Lemma ramp_affine q : affine_arrays s3 q gc (arr (ramp s3 q)) kc kl.
Proof. intros d. split; [intros p _; destruct d; reflexivity|]. intros c H. exfalso. destruct q, d, c; discriminate H. Qed.
Definition flat (e : axis -> R) (d : axis) (p : idx) : R := e d.
Definition one_two (d : axis) : R := match d with AX => 1 | AY => 2 | AZ => 1 / 4 end.
Lemma flat_uniform : uniform (arr (flat one_two)) one_two /\ (forall d, 0 < one_two d).
Proof. split; [intros [] p _; reflexivity|]. intros []; cbn; lra. Qed.
Lemma flat_bounded : bounded (arr (flat one_two)) (fun _ => 0) one_two.
Proof. intros [] p _; cbn; lra. Qed.
Lemma generic_s3 : generic_choice 2 (sc_order s3) /\ cubic s3 Electric AX /\ cubic s3 Magnetic AZ.
Proof. split; [left; reflexivity|]. split; [exists AY; reflexivity | exists AZ; reflexivity]. Qed.
Lemma gather_case : gather_call s3 gc (as_field wavy) (as_field wavy) two had 64 0 = Ret (map fld_of (gathered s3 gc (arr wavy) (arr wavy) two had)).
Proof.
  apply call_ok; try (exact proper_s3 || exact gc_proper || apply arr_stored || reflexivity || lia || apply exact_s3 || apply arr_sized).
  intros a Ha. apply two_all_inside; [exact proper_s3 | exact Ha].
Qed.
(** a particle in the last cell of the array *)
Definition pe : rpart := {| rpx := 23 / 2; rpy := 9; rpz := 2; rux := 0; ruy := 0; ruz := 0; rgam := 1; rw := 1 |}.
Definition s1n : scheme := {| sc_order := same_order 1; sc_lower := false; sc_nodal := true |}.
Lemma proper_s1n : proper_scheme s1n. Proof. repeat split; discriminate. Qed.
Lemma off_end : node_weight s1n Electric AX gc pe (12, 4, 4)%Z <> 0 /\ in_box (alo S2) (ahi S2) (12, 4, 4)%Z = false.
Proof.
  split; [|reflexivity]. unfold node_weight, weight_on. cbn -[unit_x unit_y unit_z]. unfold unit_x, unit_y, unit_z. cbn [gc ox oy oz hx hy hz rpx rpy rpz pe].
  rewrite !Rminus_0_r. rewrite (Rabs_left (23 / 2 / 1 - 12)) by lra. rewrite (Rabs_pos_eq (9 / 2 - 4)) by lra. replace (2 / (1 / 2) - 4) with 0 by lra. rewrite Rabs_R0. rewrite !Rmax_right by lra. lra.
Qed.
(** a tile of 4 x 4 x 3 cells in the middle of the grid, with its guard cells *)
Definition tmin : idx := (2, 3, 3)%Z.
Definition tmax : idx := (5, 6, 5)%Z.
Definition tng : idx := (3, 3, 3)%Z.
Lemma tile_covers f : covers (arr f) tmin tmax tng. Proof. intros d. split; reflexivity. Qed.
Lemma tile_moderate : moderate (minus_idx (0, 0, 0)%Z tng) (plus_idx (minus_idx tmax tmin) tng). Proof. unfold moderate. cbn. lia. Qed.
Lemma two_in_tile s a : proper_scheme s -> In a two -> in_tile s gc tmin tmax tng a.
Proof.
  intros P Ha q d c. assert (0 <= offset s q d c <= 1 / 2) by (unfold offset; destruct (between q d c), (sc_nodal s); lra). pose proof (degree_range s q d c P) as D.
  assert (Fh : forall hi x, (5 <= hi)%Z -> -1 <= x <= 3 -> fits (degree s q d c) (-3) hi x).
  { intros hi x Hh Hx. assert (Q : (0 <= degree s q d c ÷ 2 <= 1)%Z) by (assert (degree s q d c = 0 \/ degree s q d c = 1 \/ degree s q d c = 2 \/ degree s q d c = 3)%Z as [->|[->|[->| ->]]] by lia; cbn; lia).
    unfold fits. rewrite plus_IZR, minus_IZR. destruct Q as [Q1 Q2]. apply IZR_le in Q1, Q2, Hh. lra. }
  destruct Ha as [<-|[<-|[]]]; destruct c; cbn; apply Fh; try lia; unfold unit_x, unit_y, unit_z; cbn; lra.
Qed.
(** order zero: the magnetic field is left out without an error *)
Lemma nint_near x j : 0 <= x -> IZR j <= x < IZR j + 1 / 2 -> (- 2 ^ 31 <= j < 2 ^ 31)%Z -> nint32 (F x) = Ret j.
Proof.
  intros P H B. unfold nint32, nearest_pos. change (n_lt (F x) (n_of_Z 0)) with (if Rlt_dec x 0 then true else false). destruct (Rlt_dec x 0); [lra|].
  change (f_floor (F x)) with (Some (Int_part x)). rewrite (Int_part_unique x j) by lra. cbn [bind].
  change (n_lt (n_sub (F x) (n_of_Z j)) (n_lit 5 (-1))) with (if Rlt_dec (x - IZR j) (5 / 10) then true else false). destruct (Rlt_dec _ _); [|lra].
  unfold int32. destruct (Z.leb_spec (- 2 ^ 31) j), (Z.ltb_spec j (2 ^ 31)); try lia. reflexivity.
Qed.
Lemma zero_order_case : pxr_getb3d_n 1 (map pos_of [pb]) (map fld_of [none]) (geom_of gc) 0 0 0 (as_field (flat one_two)) false false true = Ret (map fld_of [none]).
Proof.
  unfold pxr_getb3d_n, over_particles. change (do_range 1 1 ?f ?s) with (do s' <- f 1%Z s; Ret s'). unfold at_particle.
  change (get1 (map pos_of [pb]) 1) with (Ret (pos_of pb)). change (get1 (map fld_of [none]) 1) with (Ret (fld_of none)). cbn [bind].
  destruct gc_proper as (P1 & P2 & P3). rewrite gridx_fin, gridy_fin, gridz_fin by assumption. cbv beta iota delta [mirror].
  unfold axes_of, plain, stag, node, node0. cbv zeta. change (0 =? 2 * (0 ÷ 2))%Z with true. cbv iota.
  rewrite (nint_near (unit_x gc (rpx pb)) 3), (nint_near (unit_y gc (rpy pb)) 5), (nint_near (unit_z gc (rpz pb)) 3) by (try lia; unfold unit_x, unit_y, unit_z; cbn; lra). cbn [bind].
  rewrite shift_fin. change (n_lit 5 (-1) : num FRX) with (F (5 / 10)).
  change (n_sub (n_add (F (unit_x gc (rpx pb))) (F (5 / 10))) (F 0)) with (F (unit_x gc (rpx pb) + 5 / 10 - 0)). change (n_sub (n_add (F (unit_y gc (rpy pb))) (F (5 / 10))) (F 0)) with (F (unit_y gc (rpy pb) + 5 / 10 - 0)).
  change (n_sub (n_add (F (unit_z gc (rpz pb))) (F (5 / 10))) (F 0)) with (F (unit_z gc (rpz pb) + 5 / 10 - 0)).
  rewrite (floor_node' _ 3) by (try lia; unfold unit_x; cbn; lra). cbn [bind]. rewrite (floor_node' _ 5) by (try lia; unfold unit_y; cbn; lra). cbn [bind]. rewrite (floor_node' _ 3) by (try lia; unfold unit_z; cbn; lra). cbn [bind].
  assert (G : forall sg X Y V g f w e, ax_lo X = 0%Z -> ax_hi X = 0%Z -> ax_lo Y = 0%Z -> ax_hi Y = 0%Z -> ax_lo V = 0%Z -> ax_hi V = 0%Z ->
    (forall v, sg (F v) = F (v * w)) -> ax_w X 0 = Ret (F 0) -> ax_w Y 0 = Ret (F 0) -> ax_w V 0 = Ret (F 0) -> isg g (alo S2) (ahi S2) f ->
    in_box (alo S2) (ahi S2) (ax_node X + 0, ax_node Y + 0, ax_node V + 0)%Z = true -> gather (N := FRX) sg X Y V g (F e) = Ret (F e)).
  { intros sg X Y V g f w e H1 H2 H3 H4 H5 H6 Sg WX WY WV Gg Hb. unfold gather. rewrite H1, H2, H3, H4, H5, H6. change (box (0, 0, 0)%Z (0, 0, 0)%Z) with [(0, 0, 0)%Z]. cbn [each]. rewrite WX, WY, WV. cbn [bind].
    rewrite (get3_in _ _ _ _ Gg _ Hb). cbn [bind]. set (p := f _).
    change (n_mul (n_mul (n_mul (F 0) (F 0)) (F 0)) (F p)) with (F (0 * 0 * 0 * p)). rewrite Sg. change (n_add (F e) (F (0 * 0 * 0 * p * w))) with (F (e + 0 * 0 * 0 * p * w)). f_equal. apply (f_equal Fin). ring. }
  pose proof (arr_stored (flat one_two)) as St. unfold getb. cbn [pX pY pZ sX sY sZ]. cbn [fld_of none bx by_ bz ex ey ez].
  match goal with |- context [gather ?sg ?X ?Y ?V (fx ?b) (@Fin ?e)] => rewrite (G sg X Y V (fx b) _ 1 e eq_refl eq_refl eq_refl eq_refl eq_refl eq_refl (fun _ => eq_refl) eq_refl eq_refl eq_refl (St AX) eq_refl) end. cbn [bind].
  match goal with |- context [gather ?sg ?X ?Y ?V (fy ?b) (@Fin ?e)] => rewrite (G sg X Y V (fy b) _ 1 e eq_refl eq_refl eq_refl eq_refl eq_refl eq_refl (fun _ => eq_refl) eq_refl eq_refl eq_refl (St AY) eq_refl) end. cbn [bind].
  match goal with |- context [gather same ?X ?Y ?V (fz ?b) (@Fin ?e)] => rewrite (G same X Y V (fz b) _ 1 e eq_refl eq_refl eq_refl eq_refl eq_refl eq_refl (fun v => f_equal Fin (eq_sym (Rmult_1_r v))) eq_refl eq_refl eq_refl (St AZ) eq_refl) end. reflexivity.
Qed.
Lemma known_s3n : known (sc_order s3n). Proof. repeat split; discriminate. Qed.
