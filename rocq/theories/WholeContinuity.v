(** The equation of continuity for a run on several processes: proofs. *)
From Coq Require Import ZArith Reals List Bool Lia Lra Permutation.
From Verif Require Import Cxx CxxLemmas Num NumRX Fortran FortranNum Grid GridLemmas Pushers Yee Deposit Esirkepov Tiles DepositTiles CurrentTiles SpecYee YeeReal SpecDeposit SpecCurrent Splines Sums DepositProofs DepositMore EskCore SpecTiles SpecDepositTiles SpecCurrentTiles DepositTilesProofs DepositTilesReal CurrentTilesProofs SpecFlux Flux.
From Verif Require Import PartBC PartBCProofs PartBCReal FieldBC SpecFieldBC FieldBCAxis FieldBCMemory FieldBCWorld FieldBCProofs FieldBCSum FieldBCReal SpecWhole WholeProofs SpecWholeCurrent WholeCurrentProofs.
Import ListNotations.
Local Open Scope R_scope.

Lemma two_windows lo hi e (h : idx -> R) : (let '(a1, a2, a3) := lo in let '(b1, b2, b3) := hi in a1 <= b1 /\ a2 <= b2 /\ a3 <= b3)%Z ->
  (forall P, in_box lo hi P = false -> h P = 0) -> (forall P, in_box lo hi (add3 P e) = false -> h P = 0) -> sum_box lo hi (fun P => h (sub3' P e)) = sum_box lo hi h.
Proof.
  destruct lo as [[a1 a2] a3], hi as [[b1 b2] b3], e as [[e1 e2] e3]. intros (O1 & O2 & O3) H1 H2.
  transitivity (sum_box (a1 - e1, a2 - e2, a3 - e3)%Z (b1 - e1, b2 - e2, b3 - e3)%Z h).
  - pose proof (sum_box_shift (a1, a2, a3) (b1, b2, b3) (- e1, - e2, - e3)%Z h) as S. unfold add3, map3 in S. rewrite !Z.add_opp_r in S. rewrite S. apply sum_box_ext'. intros [[i j] k] _. unfold sub3', map3. now rewrite !Z.add_opp_r.
  - set (B := sum_box (Z.min a1 (a1 - e1), Z.min a2 (a2 - e2), Z.min a3 (a3 - e3))%Z (Z.max b1 (b1 - e1), Z.max b2 (b2 - e2), Z.max b3 (b3 - e3))%Z h).
    transitivity B; [symmetry|]; unfold B; apply sum_box_window; try lia; [|exact H1].
    intros [[i j] k] HP. apply H2. unfold add3, map3. apply not_true_is_false. intros E. apply Bool.diff_true_false. rewrite <- HP. symmetry. revert E. rewrite !in_box_iff. lia.
Qed.

Section Wrap.
Variables (L : layout) (W : dir -> waxis).
Hypotheses (HL : sound_layout L) (HW : sound_parts L W).
Local Notation np := (l_procs L).
Local Notation o := (w_orders W). Local Notation g := (w_cells W).
Lemma order_known a : (1 <= w_o (W a) <= 3)%Z.
Proof. destruct HW as (_ & H). destruct (HL a) as (Hp & _). destruct (H a 0%Z ltac:(lia)) as (_ & _ & _ & Ho). exact Ho. Qed.
(** coordinate of a particle in grid units *)
Definition unit_w (a : dir) (b : rpart) : R := (coord a b - w_lo (W a)) / w_d (W a).
Definition near (b : rpart) : Prop := forall a, - (3 / 2) <= unit_w a b <= IZR (all_cells L a) + 3 / 2.
Lemma share_w b P : share o g (rpx b) (rpy b) (rpz b) P =
  spline (w_o (W DirX)) (unit_w DirX b) (comp DirX P) * spline (w_o (W DirY)) (unit_w DirY b) (comp DirY P) * spline (w_o (W DirZ)) (unit_w DirZ b) (comp DirZ P).
Proof. now destruct P as [[i j] k]. Qed.
Lemma near_support b m P : (3 <= m)%Z -> near b -> in_box (whole_lo m) (whole_hi L m) P = false -> share o g (rpx b) (rpy b) (rpz b) P = 0.
Proof.
  intros Hm N HP. rewrite share_w.
  assert (A : forall a, ~ (- m <= comp a P <= all_cells L a + m)%Z -> spline (w_o (W a)) (unit_w a b) (comp a P) = 0).
  { intros a Ha. apply spline_far; [apply order_known|]. specialize (N a). destruct (Z_lt_le_dec (comp a P) (- m)) as [H|H].
    - assert (comp a P <= -4)%Z as H' by lia. apply IZR_le in H'. rewrite Rabs_right by lra. lra.
    - assert (all_cells L a + 4 <= comp a P)%Z as H' by lia. apply IZR_le in H'. rewrite plus_IZR in H'. rewrite Rabs_left by lra. lra. }
  destruct P as [[i j] k]. unfold whole_lo, whole_hi in HP.
  destruct (Z_le_dec (- m) i) as [X1|X1]; [destruct (Z_le_dec i (all_cells L DirX + m)) as [X2|X2]|]; [|rewrite (A DirX) by (cbn [comp]; lia); ring|rewrite (A DirX) by (cbn [comp]; lia); ring].
  destruct (Z_le_dec (- m) j) as [Y1|Y1]; [destruct (Z_le_dec j (all_cells L DirY + m)) as [Y2|Y2]|]; [|rewrite (A DirY) by (cbn [comp]; lia); ring|rewrite (A DirY) by (cbn [comp]; lia); ring].
  destruct (Z_le_dec (- m) k) as [Z1|Z1]; [destruct (Z_le_dec k (all_cells L DirZ + m)) as [Z2|Z2]|]; [|rewrite (A DirZ) by (cbn [comp]; lia); ring|rewrite (A DirZ) by (cbn [comp]; lia); ring].
  exfalso. apply Bool.diff_true_false. rewrite <- HP. symmetry. apply in_box_iff. lia.
Qed.
Lemma wrap_one m u b b' : (3 <= m)%Z -> near (snd b) -> near (snd b') -> same_place L W b b' ->
  folded L m (fun P => fst b * rw (snd b) / SpecDeposit.volume g * share o g (rpx (snd b)) (rpy (snd b)) (rpz (snd b)) P) u =
  folded L m (fun P => fst b' * rw (snd b') / SpecDeposit.volume g * share o g (rpx (snd b')) (rpy (snd b')) (rpz (snd b')) P) u.
Proof.
  intros Hm N N' (E1 & E2 & Pl). rewrite <- E1, <- E2, !folded_scal. f_equal. rewrite !folded_box.
  destruct (Pl DirX) as (kx & Px & Ax). destruct (Pl DirY) as (ky & Py & Ay). destruct (Pl DirZ) as (kz & Pz & Az).
  set (e := (kx * all_cells L DirX, ky * all_cells L DirY, kz * all_cells L DirZ)%Z).
  set (h := fun P => if stands_for L u P then share o g (rpx (snd b)) (rpy (snd b)) (rpz (snd b)) P else 0).
  assert (U : forall a k, coord a (snd b') = coord a (snd b) + IZR (k * all_cells L a) * w_d (W a) -> unit_w a (snd b) = unit_w a (snd b') - IZR (k * all_cells L a)).
  { intros a k Ek. unfold unit_w. rewrite Ek. pose proof (step_pos L W HW a). field. lra. }
  assert (Sh : forall P, share o g (rpx (snd b')) (rpy (snd b')) (rpz (snd b')) P = share o g (rpx (snd b)) (rpy (snd b)) (rpz (snd b)) (sub3' P e)).
  { intros P. rewrite !share_w, (U DirX kx Px), (U DirY ky Py), (U DirZ kz Pz). destruct P as [[i j] k]. unfold sub3', map3, e. cbn [comp]. rewrite !spline_shift by apply order_known. reflexivity. }
  assert (St : forall P, stands_for L u P = stands_for L u (sub3' P e)).
  { intros P. unfold stands_for, on_axes. destruct P as [[i j] k]. unfold sub3', map3, e. cbn [comp].
    assert (Q : forall a (v w k0 : Z), (l_absorbing L a = true -> k0 = 0%Z) -> (if l_absorbing L a then (v =? w)%Z else ((v - w) mod all_cells L a =? 0)%Z) =
      (if l_absorbing L a then (v - k0 * all_cells L a =? w)%Z else ((v - k0 * all_cells L a - w) mod all_cells L a =? 0)%Z)).
    { intros a v w k0 H0. pose proof (cells_pos L HL a). destruct (l_absorbing L a); [rewrite (H0 eq_refl), Z.mul_0_l, Z.sub_0_r; reflexivity|].
      replace (v - k0 * all_cells L a - w)%Z with (v - w + (- k0) * all_cells L a)%Z by lia. rewrite Z.mod_add by lia. reflexivity. }
    rewrite (Q DirX i _ kx Ax), (Q DirY j _ ky Ay), (Q DirZ k _ kz Az). reflexivity. }
  transitivity (sum_box (whole_lo m) (whole_hi L m) (fun P => h (sub3' P e))).
  2:{ apply sum_box_ext'. intros P _. unfold h. now rewrite <- (St P), (Sh P). }
  symmetry. apply two_windows.
  - unfold whole_lo, whole_hi. pose proof (cells_pos L HL DirX). pose proof (cells_pos L HL DirY). pose proof (cells_pos L HL DirZ). lia.
  - intros P HP. unfold h. rewrite (near_support _ m P Hm N HP). now destruct (stands_for L u P).
  - intros P HP. unfold h. replace P with (sub3' (add3 P e) e) at 2 by apply add_sub. rewrite <- Sh, (near_support _ m _ Hm N' HP). now destruct (stands_for L u P).
Qed.
Lemma folded_sum m u cs : folded L m (density_of o g cs) u =
  sumR (map (fun b => folded L m (fun P => fst b * rw (snd b) / SpecDeposit.volume g * share o g (rpx (snd b)) (rpy (snd b)) (rpz (snd b)) P) u) cs).
Proof. unfold folded, density_of. apply (sumR_swap (fun P b => fst b * rw (snd b) / SpecDeposit.volume g * share o g (rpx (snd b)) (rpy (snd b)) (rpz (snd b)) P)). Qed.
Theorem wrap_density m u cs cs' : (3 <= m)%Z -> (forall b, In b cs -> near (snd b)) -> (forall b, In b cs' -> near (snd b)) -> same_particles L W cs cs' ->
  folded L m (density_of o g cs) u = folded L m (density_of o g cs') u.
Proof.
  intros Hm N N' (l & P & H). transitivity (folded L m (density_of o g l) u).
  - unfold folded. apply sumR_ext. intros Q _. now apply density_perm.
  - rewrite !folded_sum. assert (Nl : forall b, In b l -> near (snd b)) by (intros b Ib; apply N; now apply (Permutation_in _ (Permutation_sym P))). clear P N.
    induction H as [|b b' l l' Hb H IH]; [reflexivity|]. unfold sumR. cbn [map fold_right]. f_equal.
    + apply wrap_one; [exact Hm|apply Nl; now left|apply N'; now left|exact Hb].
    + apply IH; [intros c Ic; apply N'; now right|intros c Ic; apply Nl; now right].
Qed.

(** where the particles are *)
Lemma part_range a c v i : (0 <= c < comp a np)%Z -> (1 <= i <= cut (part_axis L W a c))%Z -> in_slab (part_axis L W a c) i v ->
  - (1 / 2) <= (v - w_lo (W a)) / w_d (W a) <= IZR (all_cells L a) + 1 / 2.
Proof.
  intros Hc Hi Hs. destruct HW as (D & S). specialize (S a c Hc). specialize (D a). pose proof (slab_unit _ i v S D Hi Hs) as U. pose proof (axis_facts _ S i Hi) as (F1 & F2 & F3 & _).
  pose proof (before_range L HL a c Hc) as (B1 & B2). cbn [part_axis p_lo p_d p_n] in U, F3.
  set (p := part_axis L W a c) in *.
  assert (E : (v - (w_lo (W a) + IZR (cells_before (l_cells L a) c) * w_d (W a) + IZR (tmin p i) * w_d (W a))) / w_d (W a) = (v - w_lo (W a)) / w_d (W a) - IZR (cells_before (l_cells L a) c + tmin p i)) by (rewrite plus_IZR; field; lra).
  rewrite E in U. assert (G : (0 <= cells_before (l_cells L a) c + tmin p i)%Z) by lia. assert (G' : (cells_before (l_cells L a) c + tmin p i + tcells p i <= all_cells L a)%Z) by lia.
  apply IZR_le in G, G'. rewrite (plus_IZR _ (tcells p i)) in G'. lra.
Qed.
Variable ss : idx -> list rspecies.
Hypothesis Hss : well_placed L W ss.
Lemma charge_range b : In b (charges L W ss) -> forall a, - (1 / 2) <= unit_w a (snd b) <= IZR (all_cells L a) + 1 / 2.
Proof.
  intros Ib. unfold charges in Ib. apply in_flat_map in Ib. destruct Ib as (r & Hr & Ib). apply in_flat_map in Ib. destruct Ib as (s & Is & Ib). apply filter_In in Is. apply in_map_iff in Ib. destruct Ib as (e & <- & Ie). cbn [snd].
  apply in_flat_map in Ie. destruct Ie as ([[i j] k] & Iq & Ie). destruct (Hss r Hr s i j k e (proj1 Is) Iq Ie) as (A & B & C).
  apply (in_tiles_of (fin_axis (part_x L W r)) (fin_axis (part_y L W r)) (fin_axis (part_z L W r))) in Iq. destruct Iq as (I1 & I2 & I3). pose proof (proj1 (processes_comp _ _) Hr) as Hc.
  intros a. unfold unit_w. destruct a; cbn [coord]; [exact (part_range DirX _ _ i (Hc DirX) I1 A)|exact (part_range DirY _ _ j (Hc DirY) I2 B)|exact (part_range DirZ _ _ k (Hc DirZ) I3 C)].
Qed.
Lemma charge_near b : In b (charges L W ss) -> near (snd b).
Proof. intros Ib a. pose proof (charge_range b Ib a). lra. Qed.
Lemma before_near c dt b : short_time W c dt -> slow_charges c (charges L W ss) -> In b (charges_before dt (charges L W ss)) -> near (snd b).
Proof.
  intros (T & Cp & Sh) Sl Ib. unfold charges_before in Ib. apply in_map_iff in Ib. destruct Ib as (b0 & <- & Ib). cbn [snd]. intros a. pose proof (charge_range b0 Ib a) as R0. specialize (Sl b0 Ib).
  assert (E : exists v, Rabs v <= c /\ unit_w a (before_move dt (snd b0)) = unit_w a (snd b0) - dt * v / w_d (W a)).
  { pose proof (step_pos L W HW a). destruct a; [exists (speed AX (snd b0))|exists (speed AY (snd b0))|exists (speed AZ (snd b0))]; (split; [apply Sl|]); unfold unit_w; cbn [coord before_move rpx rpy rpz speed]; unfold back; field; lra. }
  destruct E as (v & Hv & ->). pose proof (step_pos L W HW a) as D. specialize (Sh a).
  assert (B : Rabs (dt * v / w_d (W a)) < 1).
  { unfold Rdiv. rewrite !Rabs_mult, (Rabs_pos_eq dt), (Rabs_pos_eq (/ w_d (W a))) by (try lra; left; now apply Rinv_0_lt_compat).
    apply Rmult_lt_reg_r with (w_d (W a)); [exact D|]. rewrite Rmult_assoc, Rinv_l by lra. apply Rle_lt_trans with (c * dt); [|lra]. rewrite Rmult_1_r, Rmult_comm. apply Rmult_le_compat_r; lra. }
  apply Rabs_def2 in B. lra.
Qed.
End Wrap.

Theorem whole_continuity : forall L W ss0 ss f n blocking K optimised c dt G0 T0 G1 T1 J T,
  sound_layout L -> sound_parts L W -> well_placed L W ss0 -> well_placed L W ss -> routine_for (w_orders W) f -> no_race L W n ->
  (blocking = true -> forall a, l_absorbing L a = false) ->
  (forall r, In r (processes (l_procs L)) -> right_types L r (T0 r) /\ right_types L r (T1 r) /\ forall d, right_types L r (T d r)) ->
  light c K -> short_time W c dt -> roomy_parts L W -> slow_charges c (charges L W ss) ->
  same_particles L W (charges L W ss0) (charges_before dt (charges L W ss)) ->
  deposited L W n f ss0 G0 -> deposited L W n f ss G1 -> currents_deposited L W K optimised n dt ss J ->
  exists rho0 rho1 j,
    (exists F, summed L blocking G0 T0 = Ret (start L F) /\ forall u, In u (nodes L) -> value F u = Fin (rho0 u)) /\
    (exists F, summed L blocking G1 T1 = Ret (start L F) /\ forall u, In u (nodes L) -> value F u = Fin (rho1 u)) /\
    (forall d, exists F, current_summed L blocking J T d = Ret (start L F) /\ forall u, In u (nodes L) -> value F u = Fin (j d u)) /\
    forall u, In u (nodes L) -> (forall d, In (node_before d u) (nodes L)) -> balanced W dt rho0 rho1 j u.
Proof.
  intros L W ss0 ss f n blocking K optimised c dt G0 T0 G1 T1 J T HL HW H0 H1 Hf Hn Hb HT Hc Ht Hg Hsl Hp D0 D1 DJ.
  assert (Em : exists m, (3 <= m)%Z /\ forall a, (comp a (l_guards L) < m)%Z).
  { destruct (l_guards L) as [[g1 g2] g3]. exists (Z.max 3 (Z.max (g1 + 1) (Z.max (g2 + 1) (g3 + 1))))%Z. split; [lia|]. intros a. destruct a; cbn [comp]; lia. }
  destruct Em as (m & M3 & Hm). assert (Hm' : forall a, (comp a (l_guards L) <= m)%Z) by (intros a; specialize (Hm a); lia).
  destruct (whole_density L W ss0 f HL HW H0 Hf n blocking G0 T0 Hn Hb (fun r Hr => proj1 (HT r Hr)) D0 m Hm') as (F0 & E0 & _ & V0).
  destruct (whole_density L W ss f HL HW H1 Hf n blocking G1 T1 Hn Hb (fun r Hr => proj1 (proj2 (HT r Hr))) D1 m Hm') as (F1 & E1 & _ & V1).
  destruct (whole_currents L W ss K optimised c dt HL HW H1 Hc Ht Hg Hsl n blocking J T Hn Hb (fun d r Hr => proj2 (proj2 (HT r Hr)) d) DJ) as (j & Hj & Bal).
  exists (folded L m (density_of (w_orders W) (w_cells W) (charges L W ss0))), (folded L m (density_of (w_orders W) (w_cells W) (charges L W ss))), j.
  split; [exists F0; split; [exact E0|exact V0]|]. split; [exists F1; split; [exact E1|exact V1]|]. split; [intros d; destruct (Hj d) as (F & E & _ & V); exists F; now split|].
  intros u Hu _. pose proof (proj1 (Bal m u Hm)) as Bu. unfold balanced in *.
  rewrite (wrap_density L W HL HW m u _ _ M3 (charge_near L W HL HW ss0 H0) (fun b => before_near L W HL HW ss H1 c dt b Ht Hsl) Hp). exact Bu.
Qed.

(** ** the decomposition cannot be seen in the currents *)
Theorem current_decomposition : forall L W L' W' ss ss' K K' optimised optimised' c c' dt n n' blocking blocking' J J' T T' d w w',
  sound_layout L -> sound_parts L W -> well_placed L W ss -> no_race L W n -> (blocking = true -> forall a, l_absorbing L a = false) ->
  (forall d r, In r (processes (l_procs L)) -> right_types L r (T d r)) ->
  light c K -> short_time W c dt -> roomy_parts L W -> slow_charges c (charges L W ss) ->
  currents_deposited L W K optimised n dt ss J -> current_summed L blocking J T d = Ret (start L w) ->
  sound_layout L' -> sound_parts L' W' -> well_placed L' W' ss' -> no_race L' W' n' -> (blocking' = true -> forall a, l_absorbing L' a = false) ->
  (forall d r, In r (processes (l_procs L')) -> right_types L' r (T' d r)) ->
  light c' K' -> short_time W' c' dt -> roomy_parts L' W' -> slow_charges c' (charges L' W' ss') ->
  currents_deposited L' W' K' optimised' n' dt ss' J' -> current_summed L' blocking' J' T' d = Ret (start L' w') ->
  same_whole L L' -> same_axes W W' -> Permutation (charges L W ss) (charges L' W' ss') ->
  forall u u', In u (nodes L) -> In u' (nodes L') -> stands_for L u (point_of L' u') = true -> value w u = value w' u'.
Proof.
  intros L W L' W' ss ss' K K' optimised optimised' c c' dt n n' blocking blocking' J J' T T' d w w' HL HW Hs Hn Hb HT Hc Ht Hg Hsl HD HS HL' HW' Hs' Hn' Hb' HT' Hc' Ht' Hg' Hsl' HD' HS' SW SA P u u' Hu Hu' E.
  destruct (whole_currents L W ss K optimised c dt HL HW Hs Hc Ht Hg Hsl n blocking J T Hn Hb HT HD) as (j & Hj & B).
  destruct (whole_currents L' W' ss' K' optimised' c' dt HL' HW' Hs' Hc' Ht' Hg' Hsl' n' blocking' J' T' Hn' Hb' HT' HD') as (j' & Hj' & B').
  destruct (Hj d) as (F1 & E1 & _ & V1). destruct (Hj' d) as (F2 & E2 & _ & V2).
  assert (Em : exists m, forall a, (comp a (l_guards L) < m /\ comp a (l_guards L') < m)%Z).
  { destruct (l_guards L) as [[g1 g2] g3], (l_guards L') as [[h1 h2] h3]. exists (Z.max g1 (Z.max g2 (Z.max g3 (Z.max h1 (Z.max h2 h3)))) + 1)%Z. intros a. destruct a; cbn [comp]; lia. }
  destruct Em as (m & Hm).
  assert (Same : forall M (A A' : idx -> pstate (num FRX)), @start (num FRX) M A = start M A' -> forall u, In u (nodes M) -> value A u = value A' u).
  { intros M A A' EAB v Hv. apply in_nodes in Hv. destruct Hv as (Hv & _). unfold start in EAB. unfold value. revert EAB Hv. induction (processes (l_procs M)) as [|q l IH]; intros EAB Hv; [destruct Hv|].
    cbn [map] in EAB. injection EAB as E0 EAB. destruct Hv as [->|Hv]; [now rewrite E0|now apply IH]. }
  assert (Ew : start L w = start L F1) by congruence. assert (Ew' : start L' w' = start L' F2) by congruence.
  rewrite (Same L w F1 Ew u Hu), (Same L' w' F2 Ew' u' Hu'), (V1 u Hu), (V2 u' Hu'). f_equal.
  rewrite (proj2 (B m u (fun a => proj1 (Hm a))) d), (proj2 (B' m u' (fun a => proj2 (Hm a))) d). unfold folded.
  assert (EW : w_orders W = w_orders W' /\ w_cells W = w_cells W').
  { unfold w_orders, w_cells. destruct (SA DirX) as (-> & -> & ->), (SA DirY) as (-> & -> & ->), (SA DirZ) as (-> & -> & ->). split; reflexivity. }
  destruct EW as (-> & ->). assert (Ea : around L m = around L' m) by (unfold around; destruct (SW DirX) as (-> & _), (SW DirY) as (-> & _), (SW DirZ) as (-> & _); reflexivity).
  rewrite Ea. rewrite (filter_ext _ _ (fun P => stands_same L L' u u' P HL SW E)). apply sumR_ext. intros Q _. now apply current_perm.
Qed.
