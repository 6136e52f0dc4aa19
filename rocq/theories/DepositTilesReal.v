(** Proofs about the deposition on tiles: exact arithmetic. *)
From Coq Require Import ZArith Reals List Bool Lia Lra Permutation.
From Verif Require Import Cxx CxxLemmas Num NumRX Fortran FortranNum Grid GridLemmas Pushers SpecYee Deposit Tiles DepositTiles SpecTiles SpecDeposit Sums DepositProofs DepositMore TilesReal
  SpecDepositTiles ThreadLemmas DepositTilesProofs.
Import ListNotations.
Local Open Scope R_scope.
Local Notation F x := (Fin x : num FRX) (only parsing).

(** *** Updates with real numbers *)
Definition fin_up (c : idx * R) : idx * num FRX := (fst c, F (snd c)).
Lemma apply_real p cs : forall v, @apply_at FRX p (map fin_up cs) (F v) = F (v + hits cs p).
Proof.
  induction cs as [|c cs IH]; intros v; [rewrite hits_nil; cbn; f_equal; lra|]. rewrite hits_cons. cbn [map apply_at fold_left fin_up fst snd].
  destruct (idx_eqb (fst c) p).
  - change (@n_add FRX (F v) (F (snd c))) with (F (v + snd c)). change (@apply_at FRX p (map fin_up cs) (F (v + snd c)) = F (v + (snd c + hits cs p))). rewrite IH. f_equal. lra.
  - change (@apply_at FRX p (map fin_up cs) (F v) = F (v + (0 + hits cs p))). rewrite IH. f_equal. lra.
Qed.
Lemma hits_flat {A} (f : A -> list (idx * R)) l p : hits (flat_map f l) p = sumR (map (fun a => hits (f a) p) l).
Proof. unfold hits. now rewrite sumR_flat. Qed.
Definition pieces (r : idx -> R) (m : idx) (b : idx * idx) : list (idx * R) := map (fun p => (p, r (sub3 p m))) (box (fst b) (snd b)).
Lemma hits_pieces r m b p : hits (pieces r m b) p = if in_box (fst b) (snd b) p then r (sub3 p m) else 0.
Proof.
  unfold hits, pieces. rewrite map_map. cbn [fst snd].
  assert (D : forall a b : idx, {a = b} + {a <> b}) by (intros; repeat decide equality).
  rewrite (sumR_single D (fun x => if idx_eqb x p then r (sub3 x m) else 0) _ p (NoDup_box _ _)).
  - rewrite idx_eqb_refl. destruct (in_dec D p (box (fst b) (snd b))) as [I|I].
    + apply in_box_box in I. now rewrite I.
    + destruct (in_box (fst b) (snd b) p) eqn:E; [|reflexivity]. exfalso. apply I. now apply in_box_box.
  - intros q _ Nq. replace (idx_eqb q p) with false; [reflexivity|]. symmetry. now apply idx_eqb_neq.
Qed.

Definition tile_pieces (ph : phase) (t : mtile FRX) (r : idx -> R) : list (idx * R) := flat_map (pieces r (m_min t)) (phase_boxes ph t).
Lemma in_box_3 a1 a2 a3 b1 b2 b3 x y z : in_box (a1, a2, a3) (b1, b2, b3) (x, y, z) = ((a1 <=? x) && (x <=? b1) && ((a2 <=? y) && (y <=? b2)) && ((a3 <=? z) && (z <=? b3)))%Z%bool.
Proof. unfold in_box. now rewrite <- !andb_assoc. Qed.
Lemma split_axis mn c g x : (0 <= c)%Z -> (0 <= g)%Z ->
  let L := ((mn - g <=? x) && (x <=? mn - 1))%Z%bool in let M := ((mn <=? x) && (x <=? mn + c))%Z%bool in let U := ((mn + c + 1 <=? x) && (x <=? mn + c + g))%Z%bool in
  let E := ((mn - g <=? x) && (x <=? mn + c + g))%Z%bool in
  (L = true /\ M = false /\ U = false /\ E = true) \/ (L = false /\ M = true /\ U = false /\ E = true) \/ (L = false /\ M = false /\ U = true /\ E = true) \/ (L = false /\ M = false /\ U = false /\ E = false).
Proof.
  intros Hc Hg. cbv zeta. repeat match goal with |- context [(?a <=? ?b)%Z] => destruct (Z.leb_spec a b) end; cbn [andb]; try lia; intuition congruence.
Qed.
(** the four phases visit every node of the array of the tile once *)
Lemma four_phases t r p : wide t ->
  hits (tile_pieces Inner t r) p + hits (tile_pieces FaceX t r) p + hits (tile_pieces FaceY t r) p + hits (tile_pieces FaceZ t r) p =
  let '(mi, mj, mk) := m_min t in let '(c1, c2, c3) := m_cells t in let '(g1, g2, g3) := m_g t in
  if in_box (mi - g1, mj - g2, mk - g3)%Z (mi + c1 + g1, mj + c2 + g2, mk + c3 + g3)%Z p then r (sub3 p (m_min t)) else 0.
Proof.
  intros W. unfold tile_pieces. rewrite !hits_flat. unfold phase_boxes, wide in *. destruct (m_min t) as [[mi mj] mk], (m_cells t) as [[c1 c2] c3], (m_g t) as [[g1 g2] g3].
  cbn [map]. rewrite !hits_pieces. unfold sumR. cbn [fold_right fst snd]. set (v := r (sub3 p (mi, mj, mk))). clearbody v. destruct p as [[x y] z]. rewrite !in_box_3.
  pose proof (split_axis mi c1 g1 x ltac:(lia) ltac:(lia)) as A. pose proof (split_axis mj c2 g2 y ltac:(lia) ltac:(lia)) as B. pose proof (split_axis mk c3 g3 z ltac:(lia) ltac:(lia)) as C. cbv zeta in A, B, C.
  destruct A as [(-> & -> & -> & ->)|[(-> & -> & -> & ->)|[(-> & -> & -> & ->)|(-> & -> & -> & ->)]]];
  destruct B as [(-> & -> & -> & ->)|[(-> & -> & -> & ->)|[(-> & -> & -> & ->)|(-> & -> & -> & ->)]]];
  destruct C as [(-> & -> & -> & ->)|[(-> & -> & -> & ->)|[(-> & -> & -> & ->)|(-> & -> & -> & ->)]]]; cbn [andb]; lra.
Qed.
Lemma tile_list_real ph t (a : grid (num FRX)) r : wide t -> isg a (glo (tile_zero t)) (ghi (tile_zero t)) r -> tile_list ph t a = map fin_up (tile_pieces ph t r).
Proof.
  intros W (L & H & V). unfold tile_list, tile_pieces. rewrite !flat_map_concat_map, concat_map, map_map. apply (f_equal (@concat _)). apply map_ext_in. intros b Ib. unfold shifted, pieces. rewrite map_map.
  apply map_ext_in. intros p Ip. unfold fin_up. cbn [fst snd]. f_equal. apply V. apply in_box_box in Ip. unfold phase_boxes, wide, tile_zero in *.
  destruct (m_min t) as [[mi mj] mk], (m_cells t) as [[c1 c2] c3], (m_g t) as [[g1 g2] g3], p as [[x y] z]. cbn [glo ghi].
  destruct ph; cbn [In] in Ib; repeat (destruct Ib as [<-|Ib]; [cbn [fst snd] in Ip; apply in_box_iff in Ip; apply in_box_iff; lia|]); destruct Ib.
Qed.

(** *** Moving the origin by whole cells *)
Lemma spline_shift n u i m : (1 <= n <= 3)%Z -> spline n (u - IZR m) (i - m) = spline n u i.
Proof.
  intros H. assert (E : u - IZR m - IZR (i - m) = u - IZR i) by (rewrite minus_IZR; lra).
  assert (n = 1 \/ n = 2 \/ n = 3)%Z as [->|[->| ->]] by lia; unfold spline; now rewrite E.
Qed.
Section Tiles.
Variables x y z : paxis R.
Hypothesis (Hx : sensible x) (Hy : sensible y) (Hz : sensible z) (Dx : 0 < p_d x) (Dy : 0 < p_d y) (Dz : 0 < p_d z).
Local Notation o := (orders_of x y z).
Local Notation g := (cells_of x y z).
Local Notation X := (fin_axis x). Local Notation Y := (fin_axis y). Local Notation Zz := (fin_axis z).
Local Notation mesh := (mesh_of X Y Zz).
Local Notation tiles := (tiles_of x y z).
Lemma fin_sensible a : sensible a -> sensible (fin_axis a). Proof. exact (fun H => H). Qed.

Definition tile_cells (q : idx) : cells :=
  let '(i, j, k) := q in {| ox := p_lo x + IZR (tmin x i) * p_d x; oy := p_lo y + IZR (tmin y j) * p_d y; oz := p_lo z + IZR (tmin z k) * p_d z; hx := p_d x; hy := p_d y; hz := p_d z |}.
Lemma density_shift q Q ps p : density o (tile_cells q) Q ps (sub3 p (m_min (mesh q))) = density o g Q ps p.
Proof.
  destruct q as [[i j] k], p as [[a b] c]. destruct (mesh_nums X Y Zz i j k) as (-> & _). unfold density. apply sumR_ext. intros e _. f_equal.
  unfold share, sub3. change (tmin X i) with (tmin x i). change (tmin Y j) with (tmin y j). change (tmin Zz k) with (tmin z k).
  assert (E1 : unit_x (tile_cells (i, j, k)) (rpx e) = unit_x g (rpx e) - IZR (tmin x i)) by (unfold unit_x; cbn; field; lra).
  assert (E2 : unit_y (tile_cells (i, j, k)) (rpy e) = unit_y g (rpy e) - IZR (tmin y j)) by (unfold unit_y; cbn; field; lra).
  assert (E3 : unit_z (tile_cells (i, j, k)) (rpz e) = unit_z g (rpz e) - IZR (tmin z k)) by (unfold unit_z; cbn; field; lra).
  rewrite E1, E2, E3, !spline_shift; [reflexivity|apply Hz|apply Hy|apply Hx].
Qed.

Lemma slab_unit (a : paxis R) i v : sensible a -> 0 < p_d a -> (1 <= i <= cut a)%Z -> in_slab a i v ->
  - (1 / 2) <= (v - (p_lo a + IZR (tmin a i) * p_d a)) / p_d a <= IZR (tcells a i) + 1 / 2.
Proof.
  intros Ha Hd Hi H. unfold in_slab in H.
  assert (Ga : good_axis (RAxis (p_lo a) (p_d a) (p_n a) (p_nt a) (p_lo a) (p_lo a + IZR (p_n a - 1) * p_d a))).
  { unfold good_axis, ra_hi; cbn [ra_lo ra_d ra_n ra_nt ra_plo ra_phi]. destruct Ha as ((? & ?) & ? & ? & ?).
    assert (0 <= IZR (p_n a - 1)) by (apply IZR_le; lia). split; [exact Hd|]. split; [lia|]. split; [lia|]. split; [apply Rle_refl|apply Rle_refl]. }
  apply inside_real in H; [|exact Hi].
  unfold left_of, right_of, ra_hi in H. cbn [ra_lo ra_d ra_n ra_nt] in H. fold (cut a) in H. fold (tmin a i) in H.
  assert (L : p_lo a + IZR (tmin a i) * p_d a - p_d a / 2 <= v).
  { destruct (i =? cut a)%Z; [lra|]. destruct (Z.eqb_spec i 1) as [->|]; [|lra]. unfold tmin. replace ((1 - 1) * (p_n a ÷ p_nt a))%Z with 0%Z by lia. lra. }
  assert (U : v <= p_lo a + IZR (tmin a i + tcells a i) * p_d a + p_d a / 2).
  { destruct (Z.eqb_spec i (cut a)) as [->|Ne].
    - replace (tmin a (cut a) + tcells a (cut a))%Z with (p_n a - 1)%Z; [lra|]. unfold tmin, tcells. rewrite Z.eqb_refl. lia.
    - replace (tmin a i + tcells a i)%Z with (i * (p_n a ÷ p_nt a) - 1)%Z; [rewrite minus_IZR; lra|]. unfold tmin, tcells. destruct (Z.eqb_spec i (cut a)); lia. }
  rewrite plus_IZR in U. split.
  - apply Rmult_le_reg_r with (p_d a); [lra|]. unfold Rdiv at 2. rewrite Rmult_assoc, Rinv_l by lra. lra.
  - apply Rmult_le_reg_r with (p_d a); [lra|]. unfold Rdiv at 1. rewrite Rmult_assoc, Rinv_l by lra. lra.
Qed.
Lemma unit_fits (a : paxis R) i n u : sensible a -> (1 <= i <= cut a)%Z -> (1 <= n <= 3)%Z -> - (1 / 2) <= u <= IZR (tcells a i) + 1 / 2 -> fits n (- tguard a i) (tcells a i + tguard a i) u.
Proof.
  intros Ha Hi Hn H. pose proof (axis_facts a Ha i Hi) as (_ & _ & _ & Hg & _). unfold fits. assert (0 <= n ÷ 2 <= 1)%Z by (assert (n = 1 \/ n = 2 \/ n = 3)%Z as [->|[->| ->]] by lia; vm_compute; split; discriminate).
  split; [apply Rle_trans with (IZR (-1)); [apply IZR_le; lia|lra]|]. apply Rlt_le_trans with (IZR (tcells a i + 1)); [rewrite plus_IZR; lra|apply IZR_le; lia].
Qed.
Definition in_tile (q : idx) (a : rpart) : Prop := let '(i, j, k) := q in in_slab x i (rpx a) /\ in_slab y j (rpy a) /\ in_slab z k (rpz a).
Lemma tile_fits q a : In q tiles -> in_tile q a -> fits3 o (tile_cells q) (glo (tile_zero (mesh q))) (ghi (tile_zero (mesh q))) a.
Proof.
  destruct q as [[i j] k]. intros I (A & B & C). apply (in_tiles_of X Y Zz) in I. destruct I as (I1 & I2 & I3). unfold tile_zero. destruct (mesh_nums X Y Zz i j k) as (_ & -> & ->). cbn [glo ghi].
  split; [|split]; apply unit_fits; auto; try (apply Hx); try (apply Hy); try (apply Hz); apply slab_unit; auto.
Qed.
Lemma tile_moderate q : In q tiles -> moderate (glo (tile_zero (mesh q))) (ghi (tile_zero (mesh q))).
Proof.
  destruct q as [[i j] k]. intros I. apply (in_tiles_of X Y Zz) in I. destruct I as (I1 & I2 & I3). unfold tile_zero. destruct (mesh_nums X Y Zz i j k) as (_ & -> & ->). cbn [glo ghi moderate].
  pose proof (axis_facts x Hx i I1). pose proof (axis_facts y Hy j I2). pose proof (axis_facts z Hz k I3). destruct Hx as (? & ? & ? & ?), Hy as (? & ? & ? & ?), Hz as (? & ? & ? & ?).
  change (tcells X i) with (tcells x i). change (tcells Y j) with (tcells y j). change (tcells Zz k) with (tcells z k).
  change (tguard X i) with (tguard x i). change (tguard Y j) with (tguard y j). change (tguard Zz k) with (tguard z k).
  pose proof (tguard_max x i). pose proof (tguard_max y j). pose proof (tguard_max z k). lia.
Qed.
Lemma known_o : known o. Proof. destruct Hx as (_ & _ & _ & ?), Hy as (_ & _ & _ & ?), Hz as (_ & _ & _ & ?). unfold known, orders_of. cbn. lia. Qed.
Lemma tile_proper q : proper (tile_cells q). Proof. destruct q as [[i j] k]. repeat split; cbn; lra. Qed.
Lemma gmin_eq (a : paxis R) i : (1 <= i <= cut a)%Z -> ma_gmin (mesh_axis (F (p_d a)) (F (p_lo a)) (p_n a) (p_nt a) (p_ng a) (p_o a) i) = F (p_lo a + IZR (tmin a i) * p_d a).
Proof.
  intros Hi. unfold mesh_axis. cbn [ma_gmin]. destruct (Z.eqb_spec i 1) as [->|]; cbn [andb negb].
  - unfold tmin. replace ((1 - 1) * (p_n a ÷ p_nt a))%Z with 0%Z by lia. destruct (1 =? ntiles (p_n a) (p_nt a))%Z; cbn [negb]; [reflexivity|f_equal; lra].
  - reflexivity.
Qed.
Lemma tile_geom q : In q tiles -> Build_Geom (ma_gmin (m_x (mesh q))) (ma_gmin (m_y (mesh q))) (ma_gmin (m_z (mesh q))) (F (p_d x)) (F (p_d y)) (F (p_d z)) = geom_of (tile_cells q).
Proof.
  destruct q as [[i j] k]. intros I. apply (in_tiles_of X Y Zz) in I. destruct I as (I1 & I2 & I3). unfold geom_of, mesh_of. cbn [m_x m_y m_z fin_axis p_d p_lo p_n p_nt p_ng p_o].
  rewrite (gmin_eq x i I1), (gmin_eq y j I2), (gmin_eq z k I3). reflexivity.
Qed.

(** *** One tile *)
Variable f : charge_routine FRX.
Hypothesis Hf : routine_for o f.
Lemma routine_ok cs Q ps (rho : grid (num FRX)) lo hi r : proper cs -> moderate lo hi -> isg rho lo hi r -> (forall a, In a ps -> fits3 o cs lo hi a) ->
  exists rho', f (zlen ps) (map pos_of ps) (map weight_of ps) (F Q) (geom_of cs) rho = Ret rho' /\ isg rho' lo hi (fun p => r p + density o cs Q ps p).
Proof.
  intros P M H A. assert (E : f (zlen ps) (map pos_of ps) (map weight_of ps) (F Q) (geom_of cs) rho = charge_n o true false cs Q ps rho).
  { destruct Hf as [|n Hn En]; [reflexivity|]. rewrite charge_fixed_n by assumption. now rewrite En. }
  rewrite E. destruct (charge_inside o true false cs Q ps rho lo hi r P known_o M H A) as (rho' & E'). exists rho'. split; [exact E'|]. exact (charge_density o true false cs Q ps rho rho' lo hi r P H E').
Qed.
Definition tile_density (cs : cells) (q : idx) (ss : list rspecies) (p : idx) : R := sumR (map (fun s => density o cs (rs_q s) (rs_parts s q) p) (filter rs_depos ss)).
Definition used (q : idx) (ss : list rspecies) : bool := existsb (fun s => rs_depos s && negb (zlen (rs_parts s q) =? 0)%Z) ss.
Lemma tile_density_cons cs q s ss p : tile_density cs q (s :: ss) p = (if rs_depos s then density o cs (rs_q s) (rs_parts s q) p else 0) + tile_density cs q ss p.
Proof. unfold tile_density. cbn [filter]. destruct (rs_depos s); [reflexivity|lra]. Qed.
Lemma zlen_map' {A B} (h : A -> B) l : zlen (map h l) = zlen l. Proof. unfold zlen. now rewrite map_length. Qed.
Lemma species_loop q ss : In q tiles -> (forall s a, In s ss -> In a (rs_parts s q) -> in_tile q a) -> forall (a : grid (num FRX)) b r,
  isg a (glo (tile_zero (mesh q))) (ghi (tile_zero (mesh q))) r ->
  exists a', for_each (species_step f (steps x y z) (mesh q) q) (map species_of ss) (a, b) = Ret (a', b || used q ss) /\
    isg a' (glo (tile_zero (mesh q))) (ghi (tile_zero (mesh q))) (fun p => r p + tile_density (tile_cells q) q ss p).
Proof.
  intros Iq. induction ss as [|s ss IH]; intros It a b r H.
  - exists a. cbn [map for_each used existsb]. rewrite orb_false_r. split; [reflexivity|]. apply (isg_ext _ _ _ _ _ H). intros p _. unfold tile_density, sumR. cbn. lra.
  - cbn [map for_each]. unfold species_step at 1. cbn [s_depos species_of s_parts s_q]. unfold used. cbn [existsb]. fold (used q ss).
    specialize (IH (fun s' e I1 I2 => It s' e (or_intror I1) I2)). pose proof (tile_density_cons (tile_cells q) q s ss) as Td. destruct (rs_depos s) eqn:Ed; cbn [negb andb].
    2:{ cbn [bind]. destruct (IH a b r H) as (a' & E & V). exists a'. split; [exact E|]. apply (isg_ext _ _ _ _ _ V). intros p _. rewrite Td. lra. }
    rewrite zlen_map'. destruct (Z.eqb_spec (zlen (rs_parts s q)) 0) as [E0|E0]; cbn [negb].
    + cbn [bind orb]. destruct (IH a b r H) as (a' & E & V). exists a'. split; [exact E|]. apply (isg_ext _ _ _ _ _ V). intros p _. rewrite Td.
      assert (rs_parts s q = []) as -> by (destruct (rs_parts s q); [reflexivity|unfold zlen in E0; cbn [length] in E0; lia]). change (density o (tile_cells q) (rs_q s) [] p) with 0. lra.
    + cbn [bind fst steps]. rewrite (tile_geom q Iq), !map_map. cbn [fst snd].
      destruct (routine_ok (tile_cells q) (rs_q s) (rs_parts s q) a _ _ r (tile_proper q) (tile_moderate q Iq) H) as (a1 & E1 & V1).
      { intros e Ie. apply tile_fits; [exact Iq|]. apply (It s); [now left|exact Ie]. }
      change (map (fun x0 : rpart => pos_of x0) (rs_parts s q)) with (map pos_of (rs_parts s q)). change (map (fun x0 : rpart => weight_of x0) (rs_parts s q)) with (map weight_of (rs_parts s q)). rewrite E1. cbn [bind fst snd]. destruct (IH a1 true _ V1) as (a' & E & V). exists a'. split; [rewrite E; now rewrite orb_true_r|].
      apply (isg_ext _ _ _ _ _ V). intros p _. rewrite Td. lra.
Qed.
Lemma tile_deposit_ok q ss : In q tiles -> (forall s a, In s ss -> In a (rs_parts s q) -> in_tile q a) ->
  exists a, tile_deposit f (steps x y z) (mesh q) q (map species_of ss) = Ret (a, used q ss) /\
    isg a (glo (tile_zero (mesh q))) (ghi (tile_zero (mesh q))) (tile_density (tile_cells q) q ss).
Proof.
  intros Iq It. destruct (species_loop q ss Iq It (tile_zero (mesh q)) false (fun _ => 0)) as (a & E & V).
  { split; [reflexivity|]. split; [reflexivity|]. intros p _. unfold tile_zero. destruct (m_cells (mesh q)) as [[? ?] ?], (m_g (mesh q)) as [[? ?] ?]. reflexivity. }
  exists a. split; [exact E|]. apply (isg_ext _ _ _ _ _ V). intros p _. lra.
Qed.
Lemma unused_zero q ss cs p : used q ss = false -> tile_density cs q ss p = 0.
Proof.
  unfold used, tile_density, sumR. induction ss as [|s ss IH]; cbn [existsb filter]; intros H; [reflexivity|]. apply orb_false_iff in H. destruct H as (H1 & H2). specialize (IH H2).
  destruct (rs_depos s); [|exact IH]. cbn [map fold_right]. rewrite IH. cbn [andb] in H1. apply negb_false_iff in H1. apply Z.eqb_eq in H1.
  assert (rs_parts s q = []) as -> by (destruct (rs_parts s q); [reflexivity|unfold zlen in H1; cbn [length] in H1; lia]). unfold density, sumR. cbn. lra.
Qed.
(** a tile's particles give nothing outside the array of the tile *)
Lemma tile_support q ss p : In q tiles -> (forall s a, In s ss -> In a (rs_parts s q) -> in_tile q a) ->
  in_box (glo (tile_zero (mesh q))) (ghi (tile_zero (mesh q))) (sub3 p (m_min (mesh q))) = false -> tile_density g q ss p = 0.
Proof.
  intros Iq It Hp. unfold tile_density. rewrite (sumR_ext _ (fun _ => 0)); [apply sumR_0|]. intros s Is. apply filter_In in Is. rewrite <- (density_shift q). unfold density.
  rewrite (sumR_ext _ (fun _ => 0)); [apply sumR_0|]. intros a Ia.
  destruct (fits3_place o (tile_cells q) (rs_q s) _ _ a known_o (tile_moderate q Iq) (tile_fits q a Iq (It s a (proj1 Is) Ia))) as (P & Al).
  destruct (Req_dec (share o (tile_cells q) (rpx a) (rpy a) (rpz a) (sub3 p (m_min (mesh q)))) 0) as [->|Ne]; [lra|].
  exfalso. assert (B := receives_in o (tile_cells q) (rs_q s) a _ _ _ P Al Ne). congruence.
Qed.

(** *** All tiles *)
Variable ss : list rspecies.
Hypothesis Hss : in_tiles x y z ss.
Lemma its_tile q s a : In q tiles -> In s ss -> In a (rs_parts s q) -> in_tile q a.
Proof. destruct q as [[i j] k]. intros Iq Is Ia. exact (Hss s i j k a Is Iq Ia). Qed.
Lemma all_density_tiles p : all_density x y z ss p = sumR (map (fun q => tile_density g q ss p) tiles).
Proof.
  unfold all_density, tile_density. rewrite (sumR_swap (fun q s => density o g (rs_q s) (rs_parts s q) p)). apply sumR_ext. intros s _. unfold density. now rewrite sumR_flat.
Qed.
Lemma arrays : exists arrs, forall q, In q tiles -> tile_deposit f (steps x y z) (mesh q) q (map species_of ss) = Ret (arrs q).
Proof.
  exists (fun q => match tile_deposit f (steps x y z) (mesh q) q (map species_of ss) with Ret r => r | _ => (tile_zero (mesh q), false) end).
  intros q Iq. destruct (tile_deposit_ok q ss Iq (fun s a => its_tile q s a Iq)) as (a & -> & _). reflexivity.
Qed.
Lemma no_error : forallb (fun q => match tile_deposit f (steps x y z) (mesh q) q (map species_of ss) with Ret _ => true | _ => false end) tiles = true.
Proof. apply forallb_forall. intros q Iq. destruct (tile_deposit_ok q ss Iq (fun s a => its_tile q s a Iq)) as (a & -> & _). reflexivity. Qed.

Section Sum.
Variable arrs : idx -> grid (num FRX) * bool.
Hypothesis Harrs : forall q, In q tiles -> tile_deposit f (steps x y z) (mesh q) q (map species_of ss) = Ret (arrs q).
Lemma arrs_ok q : In q tiles -> snd (arrs q) = used q ss /\ isg (fst (arrs q)) (glo (tile_zero (mesh q))) (ghi (tile_zero (mesh q))) (tile_density (tile_cells q) q ss).
Proof. intros Iq. destruct (tile_deposit_ok q ss Iq (fun s a => its_tile q s a Iq)) as (a & E & V). rewrite (Harrs q Iq) in E. injection E as ->. now split. Qed.
Lemma arrs_bounds q : In q (tiles_of X Y Zz) -> glo (fst (arrs q)) = glo (tile_zero (mesh q)) /\ ghi (fst (arrs q)) = ghi (tile_zero (mesh q)).
Proof. intros Iq. destruct (arrs_ok q Iq) as (_ & A & B & _). now split. Qed.
Definition body_pieces (ph : phase) (q : idx) : list (idx * R) := if used q ss then tile_pieces ph (mesh q) (tile_density (tile_cells q) q ss) else [].
Lemma body_real ph l : (forall q, In q l -> In q tiles) -> flat_map (body_list X Y Zz arrs ph) l = map fin_up (flat_map (body_pieces ph) l).
Proof.
  intros H. rewrite !flat_map_concat_map, concat_map, map_map. apply (f_equal (@concat _)). apply map_ext_in. intros q Iq. specialize (H q Iq). unfold body_list, body_pieces. destruct (arrs_ok q H) as (-> & V).
  destruct (used q ss); [|reflexivity]. apply tile_list_real; [apply mesh_wide; auto using fin_sensible|exact V].
Qed.
Lemma tile_total q p : In q tiles -> hits (body_pieces Inner q) p + hits (body_pieces FaceX q) p + hits (body_pieces FaceY q) p + hits (body_pieces FaceZ q) p = tile_density g q ss p.
Proof.
  intros Iq. unfold body_pieces. destruct (used q ss) eqn:Eu; [|rewrite (unused_zero q ss g p Eu), !hits_nil; lra].
  rewrite four_phases by (apply mesh_wide; auto using fin_sensible).
  pose proof (tile_support q ss p Iq (fun s a => its_tile q s a Iq)) as S. unfold tile_zero in S.
  assert (Ev : tile_density (tile_cells q) q ss (sub3 p (m_min (mesh q))) = tile_density g q ss p) by (unfold tile_density; apply sumR_ext; intros s _; apply density_shift). rewrite Ev.
  destruct (m_min (mesh q)) as [[mi mj] mk], (m_cells (mesh q)) as [[c1 c2] c3], (m_g (mesh q)) as [[g1 g2] g3], p as [[a b] c]. cbn [glo ghi sub3] in S.
  destruct (in_box _ _ (a, b, c)) eqn:E; [reflexivity|]. symmetry. apply S. destruct (in_box (- g1, - g2, - g3)%Z _ _) eqn:E'; [|reflexivity]. apply in_box_iff in E'. exfalso. apply Bool.diff_true_false. rewrite <- E. symmetry. apply in_box_iff. lia.
Qed.
Lemma sums_ok l1 l2 l3 l4 p : Permutation l1 tiles -> Permutation l2 tiles -> Permutation l3 tiles -> Permutation l4 tiles ->
  hits (flat_map (body_pieces Inner) l1) p + hits (flat_map (body_pieces FaceX) l2) p + hits (flat_map (body_pieces FaceY) l3) p + hits (flat_map (body_pieces FaceZ) l4) p = all_density x y z ss p.
Proof.
  intros P1 P2 P3 P4. rewrite !hits_flat. rewrite (sum_perm _ _ (Permutation_map _ P1)), (sum_perm _ _ (Permutation_map _ P2)), (sum_perm _ _ (Permutation_map _ P3)), (sum_perm _ _ (Permutation_map _ P4)).
  rewrite <- !sumR_plus, all_density_tiles. apply sumR_ext. intros q Iq. now apply tile_total.
Qed.
Theorem reduce_real n (rho : grid (num FRX)) r out : isg rho (first_node x y z) (last_node x y z) r -> (n <= 1)%Z \/ one_cut x y z ->
  reduce_outcome n mesh arrs tiles rho out ->
  exists rho', out = Ret rho' /\ isg rho' (first_node x y z) (last_node x y z) (fun p => r p + all_density x y z ss p).
Proof.
  intros (L & H & V) O R. apply (reduce_all X Y Zz Hx Hy Hz arrs arrs_bounds) in R; [|exact L|exact H|exact O].
  destruct R as (G' & l1 & l2 & l3 & l4 & -> & A & B & P1 & P2 & P3 & P4 & W). exists G'. split; [reflexivity|]. split; [rewrite <- L; exact A|]. split; [rewrite <- H; exact B|].
  intros p Hp. refine (eq_trans (W p) _). assert (Vp : @gat (num FRX) rho p = F (r p)) by exact (V p Hp). rewrite Vp. rewrite (body_real FaceZ l4), (body_real FaceY l3), (body_real FaceX l2), (body_real Inner l1) by (intros q; now apply Permutation_in). rewrite !apply_real. rewrite <- (sums_ok l1 l2 l3 l4 p P1 P2 P3 P4). f_equal. lra.
Qed.
(** *** A lost update *)
Lemma pieces_points r m b : map fst (pieces r m b) = box (fst b) (snd b).
Proof. unfold pieces. rewrite map_map. apply map_id. Qed.
Lemma nodup_app {A} (l m : list A) : NoDup l -> NoDup m -> (forall a, In a l -> In a m -> False) -> NoDup (l ++ m).
Proof.
  induction l as [|a l IH]; intros H1 H2 D; [exact H2|]. inversion H1; subst. cbn. constructor.
  - intros I. apply in_app_or in I. destruct I as [I|I]; [contradiction|]. apply (D a); [now left|exact I].
  - apply IH; auto. intros b B1 B2. apply (D b); [now right|exact B2].
Qed.
Lemma face_nodup t r : wide t -> NoDup (map fst (tile_pieces FaceX t r)).
Proof.
  intros W. unfold tile_pieces, phase_boxes, wide in *. destruct (m_min t) as [[mi mj] mk], (m_cells t) as [[c1 c2] c3], (m_g t) as [[g1 g2] g3].
  cbn [flat_map]. rewrite app_nil_r, map_app, !pieces_points. cbn [fst snd]. apply nodup_app; try apply NoDup_box.
  intros [[a b] c] A B. apply in_box_box in A, B. apply in_box_iff in A, B. lia.
Qed.
Lemma loop_one n ph (rho : grid (num FRX)) r : (1 <= n)%Z -> isg rho (first_node x y z) (last_node x y z) r ->
  exists rho', loop_outcome n (tile_body mesh arrs ph) tiles rho (Ret rho') /\ isg rho' (first_node x y z) (last_node x y z) (fun p => r p + hits (flat_map (body_pieces ph) tiles) p).
Proof.
  intros Hn (L & H & V).
  destruct (loop_exists 1 (tile_body mesh arrs ph) (body_list X Y Zz arrs ph) tiles rho ltac:(lia) (body_ok X Y Zz Hx Hy Hz arrs arrs_bounds ph) (fun q Iq => body_inb X Y Zz Hx Hy Hz arrs ph q rho L H Iq)) as (G' & R).
  exists G'. split; [destruct R as (th & sc & P & Ln & E); exists th, sc; split; [exact P|]; split; [lia|exact E]|].
  apply (loop_all 1 _ (body_list X Y Zz arrs ph)) in R;
    [|exact (body_ok X Y Zz Hx Hy Hz arrs arrs_bounds ph)|apply NoDup_box|exact (fun q Iq => body_inb X Y Zz Hx Hy Hz arrs ph q rho L H Iq)|left; lia].
  destruct R as (G'' & l & E & P & A & B & W). injection E as <-. split; [rewrite <- L; exact A|]. split; [rewrite <- H; exact B|]. intros p Hp.
  refine (eq_trans (W p) _). assert (Vp : @gat (num FRX) rho p = F (r p)) by exact (V p Hp). rewrite Vp. rewrite (body_real ph l) by (intros q; now apply Permutation_in). rewrite apply_real. do 2 f_equal.
  rewrite !hits_flat. apply sum_perm, Permutation_map, P.
Qed.
Lemma loop_lost n (rho : grid (num FRX)) r qa p : (2 <= n)%Z -> isg rho (first_node x y z) (last_node x y z) r -> In qa tiles -> used qa ss = true -> in_phase FaceX (mesh qa) p ->
  exists rho', loop_outcome n (tile_body mesh arrs FaceX) tiles rho (Ret rho') /\ isg rho' (first_node x y z) (last_node x y z) (fun p' =>
    r p' + (if idx_eqb p p' then hits (body_pieces FaceX qa) p else hits (flat_map (body_pieces FaceX) tiles) p')).
Proof.
  intros Hn (L & H & V) Ia Ua Ip.
  pose proof (body_ok X Y Zz Hx Hy Hz arrs arrs_bounds FaceX) as Bok. pose proof (fun q Iq => body_inb X Y Zz Hx Hy Hz arrs FaceX q rho L H Iq) as Binb.
  assert (W : wide (mesh qa)) by (apply mesh_wide; auto using fin_sensible).
  assert (Ic : exists w, In (p, w) (body_pieces FaceX qa)).
  { destruct Ip as (b & Ib & Hb). exists (tile_density (tile_cells qa) qa ss (sub3 p (m_min (mesh qa)))). unfold body_pieces. rewrite Ua. apply in_flat_map. exists b. split; [exact Ib|].
    apply in_map_iff. exists p. split; [reflexivity|]. now apply in_box_box. }
  destruct Ic as (w & Ic). destruct (in_split _ _ Ic) as (c1 & c2 & Ec).
  assert (Nd : NoDup (map fst (body_pieces FaceX qa))) by (unfold body_pieces; rewrite Ua; apply face_nodup; exact W).
  assert (Np : forall c, In c (c1 ++ c2) -> fst c <> p).
  { intros c Icc E. rewrite Ec, map_app in Nd. cbn [map fst] in Nd. apply NoDup_remove_2 in Nd. apply Nd. rewrite <- map_app, <- E. now apply in_map. }
  assert (Np0 : hits (c1 ++ c2) p = 0).
  { unfold hits. rewrite (sumR_ext _ (fun _ => 0)); [apply sumR_0|]. intros c Icc. replace (idx_eqb (fst c) p) with false; [reflexivity|]. symmetry. apply idx_eqb_neq. now apply Np. }
  destruct (in_split _ _ Ia) as (t1 & t2 & Et).
  assert (Pm : Permutation (qa :: t1 ++ t2) tiles) by (rewrite Et; apply Permutation_middle).
  assert (It : forall q, In q (t1 ++ t2) -> In q tiles) by (intros q Iq; apply (Permutation_in q Pm); now right).
  assert (Eb : body_list X Y Zz arrs FaceX qa = map fin_up c1 ++ (p, F w) :: map fin_up c2).
  { pose proof (body_real FaceX [qa]) as Br. cbn [flat_map] in Br. rewrite !app_nil_r in Br. rewrite Br by (intros q [<-|[]]; exact Ia). rewrite Ec, map_app. reflexivity. }
  pose proof (body_real FaceX (t1 ++ t2) It) as Eo.
  destruct (lost_update (map fin_up c1) p (F w) (map fin_up c2) (map fin_up (flat_map (body_pieces FaceX) (t1 ++ t2))) rho) as (sched & G' & ts' & Er & Fi & A & B & Vq).
  { rewrite <- Eb. exact (Binb qa Ia). }
  { rewrite <- Eo. intros u Iu. apply in_flat_map in Iu. destruct Iu as (q & Iq & Iu). exact (Binb q (It q Iq) u Iu). }
  { intros u Iu. rewrite <- map_app in Iu. apply in_map_iff in Iu. destruct Iu as (c & <- & Icc). cbn [fin_up fst]. now apply Np. }
  exists G'. split.
  - exists [[qa]; t1 ++ t2], sched. split; [cbn; rewrite app_nil_r; exact Pm|]. split; [cbn; lia|].
    rewrite (mapM_ret _ (flat_map (body_list X Y Zz arrs FaceX))).
    + cbn [map flat_map]. rewrite app_nil_r, Eb, Eo, Er. now split.
    + intros th Ith. rewrite (mapM_ret _ (body_list X Y Zz arrs FaceX)); [cbn [bind]; now rewrite flat_map_concat_map|]. intros q Iq. apply Bok. destruct Ith as [<-|[<-|[]]]; [destruct Iq as [<-|[]]; exact Ia|now apply It].
  - split; [rewrite <- L; exact A|]. split; [rewrite <- H; exact B|]. intros p' Hp'. refine (eq_trans (Vq p') _).
    assert (Vp : @gat (num FRX) rho p' = F (r p')) by exact (V p' Hp'). destruct (idx_eqb p p') eqn:Ep.
    + apply idx_eqb_eq in Ep. subst p'. rewrite Vp. change (F (r p + w) = F (r p + hits (body_pieces FaceX qa) p)). rewrite Ec. rewrite hits_app in Np0 |- *. rewrite hits_cons. cbn [fst snd]. rewrite idx_eqb_refl. f_equal. lra.
    + rewrite Vp, <- !map_app, apply_real. do 2 f_equal. rewrite !hits_app.
      assert (Eh : hits (flat_map (body_pieces FaceX) tiles) p' = hits (flat_map (body_pieces FaceX) (qa :: t1 ++ t2)) p') by (rewrite !hits_flat; apply sum_perm, Permutation_map, Permutation_sym, Pm).
      rewrite Eh. cbn [flat_map]. rewrite hits_app, Ec, hits_app, hits_cons. cbn [fst snd]. rewrite Ep. lra.
Qed.
(** what tile qa does not get to see is lost *)
Definition others (qa p : idx) : R := hits (flat_map (body_pieces FaceX) tiles) p - hits (body_pieces FaceX qa) p.
Lemma reduce_lost n (rho : grid (num FRX)) r qa p : (2 <= n)%Z -> isg rho (first_node x y z) (last_node x y z) r -> In qa tiles -> used qa ss = true -> in_phase FaceX (mesh qa) p ->
  exists rho', reduce_outcome n mesh arrs tiles rho (Ret rho') /\ isg rho' (first_node x y z) (last_node x y z) (fun p' =>
    r p' + all_density x y z ss p' - (if idx_eqb p p' then others qa p else 0)).
Proof.
  intros Hn H Ia Ua Ip. destruct (loop_one n Inner rho r ltac:(lia) H) as (G1 & R1 & V1). destruct (loop_lost n G1 _ qa p Hn V1 Ia Ua Ip) as (G2 & R2 & V2).
  destruct (loop_one n FaceY G2 _ ltac:(lia) V2) as (G3 & R3 & V3). destruct (loop_one n FaceZ G3 _ ltac:(lia) V3) as (G4 & R4 & V4).
  exists G4. split; [exists (Ret G1), (Ret G2), (Ret G3); tauto|]. apply (isg_ext _ _ _ _ _ V4). intros p' _.
  rewrite <- (sums_ok tiles tiles tiles tiles p') by reflexivity. unfold others. destruct (idx_eqb p p') eqn:E; [apply idx_eqb_eq in E; subst p'|]; lra.
Qed.
End Sum.

Theorem depose_real n (rho : grid (num FRX)) r out : isg rho (first_node x y z) (last_node x y z) r -> (n <= 1)%Z \/ one_cut x y z ->
  tile_deposition n f x y z ss rho out ->
  exists rho', out = Ret rho' /\ isg rho' (first_node x y z) (last_node x y z) (fun p => r p + all_density x y z ss p).
Proof.
  intros H O D. unfold depose_outcome in D. rewrite no_error in D. destruct D as (arrs & Ea & R). now apply (reduce_real arrs Ea n rho r out).
Qed.
Theorem depose_exists n (rho : grid (num FRX)) r : (1 <= n)%Z -> isg rho (first_node x y z) (last_node x y z) r -> exists rho', tile_deposition n f x y z ss rho (Ret rho').
Proof.
  intros Hn (L & H & _). destruct arrays as (arrs & Ea). destruct (reduce_exists X Y Zz Hx Hy Hz arrs (arrs_bounds arrs Ea) n rho Hn L H) as (G' & R).
  exists G'. unfold depose_outcome. rewrite no_error. exists arrs. now split.
Qed.
Lemma beside_phase q p : beside (mesh q) p = true -> in_phase FaceX (mesh q) p.
Proof.
  unfold beside, in_phase, phase_boxes. destruct (m_min (mesh q)) as [[mi mj] mk], (m_cells (mesh q)) as [[c1 c2] c3], (m_g (mesh q)) as [[g1 g2] g3], p as [[a b] c].
  rewrite !andb_true_iff, orb_true_iff, !andb_true_iff, !Z.leb_le, !Z.ltb_lt. intros ((Ha & Hb) & Hc).
  destruct Ha as [Ha|Ha]; eexists; (split; [left; reflexivity|cbn [fst snd]; apply in_box_iff; lia]) || (split; [right; left; reflexivity|cbn [fst snd]; apply in_box_iff; lia]).
Qed.
Lemma face_hits q p : In q tiles -> hits (body_pieces FaceX q) p = if beside (mesh q) p then tile_charge x y z ss q p else 0.
Proof.
  intros Iq. unfold body_pieces. change (tile_charge x y z ss q p) with (tile_density g q ss p).
  destruct (used q ss) eqn:Eu; [|rewrite (unused_zero q ss g p Eu), hits_nil; now destruct (beside _ _)]. unfold tile_pieces. rewrite hits_flat.
  assert (Ev : tile_density (tile_cells q) q ss (sub3 p (m_min (mesh q))) = tile_density g q ss p) by (unfold tile_density; apply sumR_ext; intros s _; apply density_shift).
  pose proof (mesh_wide X Y Zz Hx Hy Hz q Iq) as W. unfold wide in W. unfold phase_boxes, beside.
  destruct (m_min (mesh q)) as [[mi mj] mk], (m_cells (mesh q)) as [[c1 c2] c3], (m_g (mesh q)) as [[g1 g2] g3], p as [[a b] c].
  cbn [map]. rewrite !hits_pieces, Ev. set (v := tile_density g q ss (a, b, c)). unfold sumR. cbn [fold_right fst snd]. rewrite !in_box_3.
  destruct ((mj - g2 <=? b) && (b <=? mj + c2 + g2))%Z%bool; [|rewrite !andb_false_r; cbn [andb]; lra].
  destruct ((mk - g3 <=? c) && (c <=? mk + c3 + g3))%Z%bool; [|rewrite !andb_false_r; cbn [andb]; lra]. rewrite !andb_true_r.
  repeat match goal with |- context [(?u <=? ?w)%Z] => destruct (Z.leb_spec u w) | |- context [(?u <? ?w)%Z] => destruct (Z.ltb_spec u w) end; cbn [andb orb]; try lia; lra.
Qed.
Lemma sum_without (h : idx -> R) l a : NoDup l -> In a l -> sumR (map h l) = h a + sumR (map h (filter (fun b => negb (idx_eqb b a)) l)).
Proof.
  unfold sumR. induction l as [|b l IH]; intros ND I; [destruct I|]. inversion ND as [|? ? Nb ND']; subst. cbn [map fold_right filter]. destruct I as [->|I].
  - rewrite idx_eqb_refl. cbn [negb]. f_equal. f_equal. f_equal. symmetry. clear - Nb. induction l as [|c l IH]; [reflexivity|]. cbn [filter]. replace (idx_eqb c a) with false; [cbn [negb]; f_equal; apply IH; intros I; apply Nb; now right|].
    symmetry. apply idx_eqb_neq. intros ->. apply Nb. now left.
  - replace (idx_eqb b a) with false; [|symmetry; apply idx_eqb_neq; intros ->; contradiction]. cbn [negb map fold_right]. rewrite (IH ND' I). lra.
Qed.
Lemma others_eq qa p : In qa tiles -> others qa p = neighbours_charge x y z ss qa p.
Proof.
  intros Ia. unfold others, neighbours_charge. rewrite hits_flat, (sum_without _ tiles qa (NoDup_box _ _) Ia). rewrite (sumR_ext _ (fun q => if beside (mesh q) p then tile_charge x y z ss q p else 0)); [lra|].
  intros q Iq. apply filter_In in Iq. now apply face_hits.
Qed.
Theorem depose_lost n (rho : grid (num FRX)) r qa p : (2 <= n)%Z -> isg rho (first_node x y z) (last_node x y z) r -> In qa tiles -> busy ss qa -> beside (mesh qa) p = true ->
  exists rho', tile_deposition n f x y z ss rho (Ret rho') /\ isg rho' (first_node x y z) (last_node x y z) (fun p' =>
    r p' + all_density x y z ss p' - (if idx_eqb p p' then neighbours_charge x y z ss qa p else 0)).
Proof.
  intros Hn H Ia (s & Is & Ds & Ps) Fa.
  assert (Ua : used qa ss = true).
  { apply existsb_exists. exists s. split; [exact Is|]. rewrite Ds. cbn [andb]. apply negb_true_iff, Z.eqb_neq. destruct (rs_parts s qa); [contradiction|]. unfold zlen. cbn [length]. lia. }
  destruct arrays as (arrs & Ea). destruct (reduce_lost arrs Ea n rho r qa p Hn H Ia Ua (beside_phase qa p Fa)) as (rho' & R & V).
  exists rho'. split; [unfold depose_outcome; rewrite no_error; exists arrs; now split|]. rewrite <- (others_eq qa p Ia). exact V.
Qed.
(** *** Total charge *)
Lemma axis_global (a : paxis R) i v : sensible a -> 0 < p_d a -> (1 <= i <= cut a)%Z -> in_slab a i v -> fits (p_o a) (- p_ng a) (p_n a - 1 + p_ng a) ((v - p_lo a) / p_d a).
Proof.
  intros Ha Hd Hi H. pose proof (slab_unit a i v Ha Hd Hi H) as S. pose proof (axis_facts a Ha i Hi) as (F1 & F2 & F3 & _). destruct Ha as (Hn & Hnt & Hg & Ho).
  assert (E : (v - (p_lo a + IZR (tmin a i) * p_d a)) / p_d a = (v - p_lo a) / p_d a - IZR (tmin a i)) by (field; lra). rewrite E in S.
  assert (0 <= p_o a ÷ 2 <= 1)%Z by (assert (p_o a = 1 \/ p_o a = 2 \/ p_o a = 3)%Z as [->|[->| ->]] by lia; vm_compute; split; discriminate).
  apply IZR_le in F1, F3. rewrite plus_IZR in F3. split.
  - apply Rle_trans with (IZR (-1)); [apply IZR_le; lia|lra].
  - apply Rlt_le_trans with (IZR (p_n a - 1) + 1); [lra|]. rewrite <- (plus_IZR _ 1). apply IZR_le. lia.
Qed.
Lemma proper_g : proper g. Proof. repeat split; cbn; lra. Qed.
Lemma tile_sum s : In s ss -> sum_box (first_node x y z) (last_node x y z) (density o g (rs_q s) (flat_map (rs_parts s) tiles)) =
  rs_q s * sumR (map rw (flat_map (rs_parts s) tiles)) / volume g.
Proof.
  intros Is. pose proof (density_total o g (rs_q s) (flat_map (rs_parts s) tiles) (first_node x y z) (last_node x y z) (fun _ => 1) (fun _ => 1)) as D.
  rewrite (sum_box_ext _ _ _ (fun p => 1 * density o g (rs_q s) (flat_map (rs_parts s) tiles) p)) by (intros; lra). rewrite D.
  - rewrite (sumR_ext _ (fun a => rs_q s / volume g * rw a)) by (intros; unfold Rdiv; ring). rewrite sumR_scal. unfold Rdiv. ring.
  - intros a Ia. apply in_flat_map in Ia. destruct Ia as ([[i j] k] & Iq & Ia). destruct (Hss s i j k a Is Iq Ia) as (A & B & C).
    rewrite (sum_box_ext _ _ _ (share o g (rpx a) (rpy a) (rpz a))) by (intros; lra). apply (in_tiles_of X Y Zz) in Iq. destruct Iq as (I1 & I2 & I3).
    destruct (fits3_place o g 1 (first_node x y z) (last_node x y z) a known_o) as (P & Al).
    + unfold moderate, first_node, last_node. destruct Hx as (? & ? & ? & ?), Hy as (? & ? & ? & ?), Hz as (? & ? & ? & ?). lia.
    + split; [|split]; [exact (axis_global x i _ Hx Dx I1 A)|exact (axis_global y j _ Hy Dy I2 B)|exact (axis_global z k _ Hz Dz I3 C)].
    + exact (share_total o g 1 a _ _ P Al).
Qed.
Lemma sum_box_sum (lo hi : idx) (h : rspecies -> idx -> R) l : sum_box lo hi (fun p => sumR (map (fun s => h s p) l)) = sumR (map (fun s => sum_box lo hi (h s)) l).
Proof. unfold sum_box. apply (sumR_swap (fun p s => h s p)). Qed.
Theorem total_charge r : volume g * sum_box (first_node x y z) (last_node x y z) (fun p => r p + all_density x y z ss p) =
  volume g * sum_box (first_node x y z) (last_node x y z) r + sumR (map (fun s => rs_q s * sumR (map rw (flat_map (rs_parts s) tiles))) (filter rs_depos ss)).
Proof.
  rewrite sum_box_plus, Rmult_plus_distr_l. f_equal. unfold all_density. rewrite sum_box_sum, <- sumR_scal. apply sumR_ext. intros s Is. apply filter_In in Is. rewrite tile_sum by tauto.
  field. destruct proper_g as (? & ? & ?). unfold volume. repeat apply Rmult_integral_contrapositive_currified; assumption.
Qed.
End Tiles.
Theorem deposited_total : forall x y z f ss n rho r out rho' r',
  sensible x -> sensible y -> sensible z -> 0 < p_d x -> 0 < p_d y -> 0 < p_d z ->
  routine_for (orders_of x y z) f -> in_tiles x y z ss ->
  real_grid rho (first_node x y z) (last_node x y z) r ->
  (n <= 1)%Z \/ one_cut x y z ->
  tile_deposition n f x y z ss rho out -> out = Ret rho' -> real_grid rho' (first_node x y z) (last_node x y z) r' ->
  let v := p_d x * p_d y * p_d z in
  v * sum_box (first_node x y z) (last_node x y z) r' =
  v * sum_box (first_node x y z) (last_node x y z) r +
  sumR (map (fun s => rs_q s * sumR (map rw (flat_map (rs_parts s) (tiles_of x y z)))) (filter rs_depos ss)).
Proof.
  intros x y z f ss n rho r out rho' r' Hx Hy Hz Dx Dy Dz Hf Hs Hr Hn D E V v.
  destruct (depose_real x y z Hx Hy Hz Dx Dy Dz f Hf ss Hs n rho r out Hr Hn D) as (rho2 & E2 & V2). rewrite E in E2. injection E2 as <-.
  rewrite (sum_box_ext _ _ r' _ (isg_eq _ _ _ _ _ V V2)). exact (total_charge x y z Hx Hy Hz Dx Dy Dz ss Hs r).
Qed.
