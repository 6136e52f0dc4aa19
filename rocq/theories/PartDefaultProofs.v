(** Proofs about part 1 of PartDefault.v: the loop over the tiles. *)
From Coq Require Import ZArith List Bool Permutation Lia.
From Verif Require Import Cxx CxxLemmas Num Fortran FortranLemmas Grid GridLemmas Deposit Tiles Exchange TilesProofs TilesExchange SpecTiles TilesFacts TilesDomain PartBC SpecPartBC PartBCProofs PartBCTile PartBCGlobal PartDefault SpecPartDefault.
Import ListNotations.
Local Open Scope Z_scope.
Local Opaque directions.

Lemma updz_same {A} (f : Z -> A) i a : updz f i a i = a.
Proof. unfold updz. now rewrite Z.eqb_refl. Qed.
Lemma updz_other {A} (f : Z -> A) i j a : i <> j -> updz f i a j = f j.
Proof. intros H. unfold updz. now rewrite (proj2 (Z.eqb_neq i j) H). Qed.

Lemma slot_range d : in_box (-1, -1, -1) (1, 1, 1) d = true -> 1 <= slot d <= 27.
Proof. destruct d as [[x y] z]. intros H. apply in_box_iff in H. unfold slot. lia. Qed.
Lemma slot_inj d e : in_box (-1, -1, -1) (1, 1, 1) d = true -> in_box (-1, -1, -1) (1, 1, 1) e = true -> slot d = slot e -> d = e.
Proof.
  destruct d as [[x y] z], e as [[x' y'] z']. intros H H'. apply in_box_iff in H. apply in_box_iff in H'. unfold slot. intros E.
  assert (z = z') by lia. assert (y = y') by lia. assert (x = x') by lia. congruence.
Qed.

(** *** The buffers of a tile *)
Section Buffer.
Context {N : FNum}.
Definition bholds (b : tbuf N) (L : Z -> list (part N)) : Prop := exists n, tb_size b = Some n /\
  forall j, 1 <= j <= 27 -> tb_np b j = zlen (L j) /\ zlen (L j) < n /\ zlen (tb_col b j) = n /\ exists junk, tb_col b j = map Some (L j) ++ junk.

Lemma mapM_rets {A B} (f : A -> out B) (g : A -> B) l : (forall a, In a l -> f a = Ret (g a)) -> mapM f l = Ret (map g l).
Proof.
  induction l as [|a l IH]; intros H; [reflexivity|]. cbn [mapM map]. rewrite (H a) by now left. cbn [bind].
  rewrite IH by (intros b Hb; apply H; now right). reflexivity.
Qed.

Lemma put_ok b L ib p : bholds b L -> 1 <= ib <= 27 ->
  exists b', put_in_tbuf ib p b = Ret b' /\ bholds b' (updz L ib (L ib ++ [p])).
Proof.
  intros (n & En & H) Hib. unfold put_in_tbuf. rewrite En.
  rewrite (proj2 (Z.leb_le 1 ib)), (proj2 (Z.leb_le ib 27)) by lia. cbn [andb].
  destruct (H ib Hib) as (Hnp & Hlt & Hlen & junk & Ecol). rewrite Hnp.
  pose proof (zlen_nonneg (L ib)).
  rewrite set1_ok by lia. cbn [bind].
  assert (Hj : zlen junk = n - zlen (L ib)) by (rewrite Ecol, zlen_app, zlen_map in Hlen; lia).
  destruct junk as [|o junk]; [change (zlen []) with 0 in Hj; lia|]. rewrite zlen_cons in Hj.
  assert (Eset : lset (tb_col b ib) (Z.to_nat (zlen (L ib) + 1 - 1)) (Some p) = map Some (L ib ++ [p]) ++ junk).
  { rewrite Ecol. replace (Z.to_nat (zlen (L ib) + 1 - 1)) with (length (map (@Some (part N)) (L ib))) by (rewrite map_length; unfold zlen; lia).
    rewrite lset_app_here, map_app, <- app_assoc. reflexivity. }
  rewrite Eset. set (cols := updz (tb_col b) ib (map Some (L ib ++ [p]) ++ junk)).
  assert (K : forall j, 1 <= j <= 27 -> updz (tb_np b) ib (zlen (L ib) + 1) j = zlen (updz L ib (L ib ++ [p]) j) /\ zlen (updz L ib (L ib ++ [p]) j) <= n /\
            (zlen (L ib) + 1 < n -> zlen (updz L ib (L ib ++ [p]) j) < n) /\ zlen (cols j) = n /\ exists junk', cols j = map Some (updz L ib (L ib ++ [p]) j) ++ junk').
  { intros j Hj'. unfold cols. destruct (Z.eq_dec ib j) as [<-|Dn].
    - rewrite !updz_same. rewrite !zlen_app, zlen_map, zlen_app. change (zlen [p]) with 1. split; [lia|]. split; [lia|]. split; [lia|]. split; [lia|]. now exists junk.
    - rewrite !updz_other by exact Dn. destruct (H j Hj') as (X1 & X2 & X3 & X4). split; [exact X1|]. split; [lia|]. split; [lia|]. split; [exact X3|exact X4]. }
  destruct (Z.eqb_spec (zlen (L ib) + 1) n) as [E|E].
  - set (g := fun j => cols j ++ repeat None (Z.to_nat n)).
    rewrite (mapM_rets _ g).
    2:{ intros j Hj'. apply in_zrange in Hj'. destruct (K j Hj') as (_ & _ & _ & K4 & _). unfold resize_array. rewrite Z.min_l by lia. rewrite K4, Z.leb_refl. unfold g. f_equal. f_equal.
        - apply firstn_all2. unfold zlen in K4. lia.
        - f_equal. lia. }
    cbn [bind]. eexists. split; [reflexivity|]. exists (n * 2). split; [reflexivity|]. intros j Hj'. cbn [tb_np tb_col].
    assert (Enth : nth (Z.to_nat (j - 1)) (map g (zrange 1 27)) [] = g j).
    { apply nth_error_nth. unfold zrange. rewrite map_map, nth_error_map, zseq_nth by lia. cbn [option_map]. now replace (1 + Z.of_nat (Z.to_nat (j - 1))) with j by lia. }
    rewrite Enth. destruct (K j Hj') as (K1 & K2 & _ & K4 & junk' & K5). split; [exact K1|]. split; [lia|]. unfold g. split; [rewrite zlen_app, zlen_repeat; lia|].
    rewrite K5, <- app_assoc. now eexists.
  - eexists. split; [reflexivity|]. exists n. split; [reflexivity|]. intros j Hj'. cbn [tb_np tb_col]. destruct (K j Hj') as (K1 & K2 & K3 & K4 & K5).
    split; [exact K1|]. split; [apply K3; lia|]. split; [exact K4|exact K5].
Qed.

Lemma new_tbuf_ok bs t : 1 <= bs -> t_bound t = true -> bholds (@new_tbuf N bs t) (fun _ => []).
Proof.
  intros Hb Ht. exists bs. unfold new_tbuf. rewrite Ht. split; [reflexivity|]. intros j _. cbn. split; [reflexivity|]. split; [lia|]. split; [rewrite zlen_repeat; lia|]. now eexists.
Qed.
End Buffer.

(** *** One iteration of the loop over the particles *)
Section Part1.
Context {N : FNum} (M : Z) (HM : sizes_exact N M) (D : dom N) (B : bnd N) (n0 : idx) (T0 : grid (tile N)).
Notation tiles := (all_tiles D).
Hypothesis T0lo : glo T0 = (1, 1, 1).
Hypothesis T0hi : ghi T0 = (ag_nt (dX D), ag_nt (dY D), ag_nt (dZ D)).
Hypothesis HAg : agree D B.
Notation state := (idx -> list (part N)).
Notation buffers := (idx -> Z -> list (part N)).

(** how many particles of a tile are still to be looked at; None: the tile has not been started *)
Definition todo (fr : idx -> option nat) (A : state) (q : idx) : nat := match fr q with None => length (A q) | Some i => i end.
Definition tl (q : idx) (p : part N) : list (idx * part N) := match lot_of D B n0 T0 q p with InTile r p' => [(r, p')] | _ => [] end.
Definition lv (q : idx) (j : Z) (p : part N) : list (part N) := match lot_of D B n0 T0 q p with Sent d p' => if slot d =? j then [p'] else [] | _ => [] end.
Definition share (fr : idx -> option nat) (A : state) (q : idx) : list (idx * part N) :=
  flat_map (tl q) (firstn (todo fr A q) (A q)) ++ map (pair q) (skipn (todo fr A q) (A q)).
Definition shares fr A : list (idx * part N) := flat_map (share fr A) tiles.
Definition out_of fr (A : state) (L : buffers) (q : idx) (j : Z) : list (part N) := L q j ++ flat_map (lv q j) (firstn (todo fr A q) (A q)).

Definition can_place (q : idx) (p : part N) : Prop := inside (gat T0 q) p = false ->
    (outside D p = false -> exists r, default_target D n0 p = Ret r /\ In r tiles) /\
    (outside D p = true -> t_bound (gat T0 q) = true).
Definition brep (F : grid (tbuf N)) (fr : idx -> option nat) (L : buffers) : Prop :=
  glo F = (1, 1, 1) /\ ghi F = (ag_nt (dX D), ag_nt (dY D), ag_nt (dZ D)) /\
  forall q, In q tiles -> match fr q with
    | None => forall j, L q j = []
    | Some _ => if t_bound (gat T0 q) then bholds (gat F q) (L q) else forall j, L q j = [] /\ tb_np (gat F q) j = 0
    end.
Definition inv (K : Z) (fr : idx -> option nat) (A : state) : Prop :=
  (forall q i, In q tiles -> fr q = Some i -> (i <= length (A q))%nat) /\
  (forall q p, In q tiles -> In p (firstn (todo fr A q) (A q)) -> can_place q p) /\ zlen (items tiles A) <= K.

Lemma tiles_nodup : NoDup tiles. Proof. apply NoDup_box. Qed.

(** a particle is added to tile r, where it belongs *)
Lemma share_add fr A r p : In r tiles -> (forall i, fr r = Some i -> (i <= length (A r))%nat) -> tl r p = [(r, p)] ->
  Permutation (shares fr (upd A r (A r ++ [p]))) ((r, p) :: shares fr A).
Proof.
  intros Hr Hi Ht. destruct (split_at (fun _ _ => true) tiles tiles_nodup (share fr A) r Hr) as (R & HR & KR). unfold shares. rewrite HR.
  rewrite (KR (share fr (upd A r (A r ++ [p])))).
  2:{ intros s Hs. unfold share, todo. now rewrite upd_other by congruence. }
  rewrite app_comm_cons. apply Permutation_app_tail. unfold share, todo. rewrite upd_same. destruct (fr r) as [i|].
  - specialize (Hi i eq_refl). rewrite firstn_app, skipn_app. replace (i - length (A r))%nat with O by lia. rewrite firstn_O, app_nil_r. cbn [skipn]. rewrite map_app. cbn [map].
    rewrite app_assoc. symmetry. apply Permutation_cons_append.
  - rewrite !firstn_all, !skipn_all. cbn [map]. rewrite !app_nil_r, flat_map_app. cbn [flat_map]. rewrite Ht. cbn [app]. symmetry. apply Permutation_cons_append.
Qed.
Lemma share_here fr A q l1 p l2 : A q = l1 ++ p :: l2 -> fr q = Some (S (length l1)) ->
  share fr A q = flat_map (tl q) l1 ++ tl q p ++ map (pair q) l2 /\
  (forall l, share (upd fr q (Some (length l1))) (upd A q (l1 ++ l)) q = flat_map (tl q) l1 ++ map (pair q) l).
Proof.
  intros E Ef. unfold share, todo. rewrite Ef, E.
  replace (l1 ++ p :: l2) with ((l1 ++ [p]) ++ l2) by (rewrite <- app_assoc; reflexivity).
  replace (S (length l1)) with (length (l1 ++ [p])) by (rewrite app_length; cbn; lia). split.
  - rewrite firstn_app, Nat.sub_diag, firstn_all, firstn_O, app_nil_r, skipn_app, skipn_all, Nat.sub_diag. cbn [skipn app].
    rewrite flat_map_app. cbn [flat_map]. now rewrite app_nil_r, app_assoc.
  - intros l. rewrite !upd_same. rewrite firstn_app, Nat.sub_diag, firstn_all, firstn_O, app_nil_r, skipn_app, skipn_all, Nat.sub_diag. reflexivity.
Qed.
(** the particle p of tile q is replaced *)
Lemma share_done fr A q l1 p l2 l new : In q tiles -> A q = l1 ++ p :: l2 -> fr q = Some (S (length l1)) -> Permutation l (new ++ l2) ->
  Permutation (map (pair q) new ++ shares fr A) (tl q p ++ shares (upd fr q (Some (length l1))) (upd A q (l1 ++ l))).
Proof.
  intros Hq E Ef Hl. destruct (share_here fr A q l1 p l2 E Ef) as (S1 & S2).
  destruct (split_at (fun _ _ => true) tiles tiles_nodup (share fr A) q Hq) as (R & HR & KR). unfold shares. rewrite HR.
  rewrite (KR (share (upd fr q (Some (length l1))) (upd A q (l1 ++ l)))).
  2:{ intros s Hs. unfold share, todo. now rewrite !upd_other by congruence. }
  rewrite S1, S2, Hl, map_app. rewrite <- !app_assoc.
  assert (X : forall a b c d : list (idx * part N), Permutation (a ++ b ++ c ++ d) (c ++ b ++ a ++ d)).
  { intros a b c d. rewrite (Permutation_app_swap_app a b). rewrite (Permutation_app_swap_app a c). apply Permutation_app_swap_app. }
  rewrite X. reflexivity.
Qed.

Lemma items_le (A A' : state) q : In q tiles -> (forall s, In s tiles -> s <> q -> A' s = A s) -> (length (A' q) <= length (A q))%nat -> zlen (items tiles A') <= zlen (items tiles A).
Proof.
  intros Hq Ho Hl. unfold items. apply flat_map_le. intros s Hs. destruct (idx_dec s q) as [->|Dn]; [unfold zlen; lia|rewrite Ho by assumption; lia].
Qed.
Lemma items_add (A : state) r p : In r tiles -> zlen (items tiles (upd A r (A r ++ [p]))) = zlen (items tiles A) + 1.
Proof.
  intros Hr. pose proof tiles_nodup as ND. unfold items. destruct (in_split _ _ Hr) as (l1 & l2 & E). rewrite E in *. apply NoDup_remove_2 in ND.
  assert (X : forall l, ~ In r l -> flat_map (upd A r (A r ++ [p])) l = flat_map A l).
  { intros l Hn. apply flat_map_ext_in. intros s Hs. apply upd_other. congruence. }
  rewrite !flat_map_app. cbn [flat_map]. rewrite !X by (intros H; apply ND, in_app_iff; tauto). rewrite upd_same, !zlen_app. change (zlen [p]) with 1. lia.
Qed.

(** what has been found out about a particle is true for it in its new tile *)
Lemma tl_target q p r : inside (gat T0 q) p = false -> outside D p = false -> default_target D n0 p = Ret r -> tl q p = [(r, p)] /\ tl r p = [(r, p)].
Proof.
  intros Hi Ho Ht. unfold tl, lot_of. rewrite Hi, Ho, Ht. split; [reflexivity|]. destruct (inside (gat T0 r) p); reflexivity.
Qed.
Lemma lv_target q p j : outside D p = false -> lv q j p = [].
Proof.
  intros Ho. unfold lv, lot_of. rewrite Ho. destruct (inside _ _); [reflexivity|]. now destruct (default_target D n0 p).
Qed.

(** the direction of a particle that leaves *)
Lemma axis_goes t a p p' b : default_axis t B a p = Goes p' b -> -1 <= b <= 1 /\ (forall c, c <> a -> pos c p' = pos c p) /\
  (((pos a p <? b_plo (b_axis B a)) || (b_phi (b_axis B a) <=? pos a p))%N = true -> b <> 0).
Proof.
  unfold default_axis. intros E.
  assert (X : forall v c, c <> a -> pos c (set_pos a v p) = pos c p) by (intros v c Hc; destruct a, c; congruence || reflexivity).
  destruct (pos a p <? b_plo (b_axis B a))%N; [destruct (b_atlo _); [destruct (b_klo _) as [|[[?|?|]|?|]|?]|]|
    destruct (b_phi (b_axis B a) <=? pos a p)%N; [destruct (b_athi _); [destruct (b_khi _) as [|[[?|?|]|?|]|?]|]|]];
  try discriminate; injection E as <- <-; (split; [lia|split; [(apply X)||reflexivity|lia||discriminate]]).
Qed.
Lemma fate_direction t p p' d : outside D p = true -> default_fate t B p = Leave p' d -> In d directions.
Proof.
  intros Ho. unfold default_fate. destruct (default_axis t B DirX p) as [p1 bx| |] eqn:E1; try discriminate.
  destruct (default_axis t B DirY p1) as [p2 by_| |] eqn:E2; try discriminate.
  destruct (default_axis t B DirZ p2) as [p3 bz| |] eqn:E3; try discriminate. intros E. injection E as <- <-.
  apply axis_goes in E1. apply axis_goes in E2. apply axis_goes in E3. destruct E1 as (R1 & P1 & Z1), E2 as (R2 & P2 & Z2), E3 as (R3 & P3 & Z3).
  rewrite (P1 DirY) in Z2 by discriminate. rewrite (P2 DirZ), (P1 DirZ) in Z3 by discriminate. cbn [pos b_axis] in *.
  apply in_directions. split; [now apply in_box_iff|].
  unfold outside, outside_axis in Ho. destruct HAg as ((G1 & G2) & (G3 & G4) & G5 & G6). rewrite G1, G2, G3, G4, G5, G6 in Ho.
  apply orb_true_iff in Ho. destruct Ho as [Ho|Ho]; [apply orb_true_iff in Ho; destruct Ho as [Ho|Ho]|];
   [specialize (Z1 Ho)|specialize (Z2 Ho)|specialize (Z3 Ho)]; intros E; congruence.
Qed.

(** one iteration *)
Lemma default_step K T F A L fr q i : 2 * K + 1 <= M -> rep M D T0 T A -> brep F fr L -> inv K fr A -> In q tiles -> fr q = Some (S i) ->
  exists T' F' A' L', let fr' := upd fr q (Some i) in
    default_particle D B n0 q (Z.of_nat (S i)) (T, F) = Ret (T', F') /\ rep M D T0 T' A' /\ brep F' fr' L' /\ inv K fr' A' /\
    Permutation (shares fr' A') (shares fr A) /\ forall s j, In s tiles -> 1 <= j <= 27 -> Permutation (out_of fr' A' L' s j) (out_of fr A L s j).
Proof.
  intros HK HT HF (I1 & I2 & I3) Hq Ef. unfold default_particle. rewrite (rep_get M D T0 T0lo T0hi T A q HT Hq). cbn [bind].
  pose proof (I1 q _ Hq Ef) as Hi.
  destruct (nth_error (A q) i) as [p|] eqn:E. 2:{ apply nth_error_None in E. lia. }
  replace (Z.of_nat (S i)) with (Z.of_nat i + 1) by lia. rewrite (nth_live M D T0 T A q i p HT Hq E). cbn [bind].
  pose proof HT as (_ & _ & HT'). destruct (HT' q Hq) as (Hh & Hpl). rewrite (inside_same _ _ p Hpl).
  destruct (nth_error_split _ _ E) as (l1 & l2 & El & Ll). subst i.
  set (fr' := upd fr q (Some (length l1))).
  assert (Hcan : can_place q p).
  { apply I2; [exact Hq|]. unfold todo. rewrite Ef, El. replace (S (length l1)) with (length l1 + 1)%nat by lia. rewrite firstn_app_2. apply in_app_iff. right. now left. }
  (* facts about a new list for tile q *)
  assert (Kinv : forall l, (length l <= S (length l2))%nat -> inv K fr' (upd A q (l1 ++ l))).
  { intros l Hl. split; [|split].
    - intros s m Hs. unfold fr'. destruct (idx_dec q s) as [<-|Dn].
      + rewrite !upd_same. intros [= <-]. rewrite app_length. lia.
      + rewrite !upd_other by exact Dn. now apply I1.
    - intros s x Hs. unfold todo, fr'. destruct (idx_dec q s) as [<-|Dn].
      + rewrite !upd_same. rewrite firstn_app, Nat.sub_diag, firstn_all, firstn_O, app_nil_r. intros Hx. apply I2; [exact Hq|]. unfold todo. rewrite Ef, El.
        replace (S (length l1)) with (length l1 + 1)%nat by lia. rewrite firstn_app_2. apply in_app_iff. now left.
      + rewrite !upd_other by exact Dn. apply I2. exact Hs.
    - etransitivity; [|exact I3]. apply (items_le _ _ q Hq).
      + intros s _ Hs. now rewrite upd_other by congruence.
      + rewrite upd_same, El, !app_length. cbn [length]. lia. }
  assert (Kout : forall l L' s j, In s tiles -> (forall s, s <> q -> L' s = L s) -> Permutation (L' q j) (L q j ++ lv q j p) ->
     Permutation (out_of fr' (upd A q (l1 ++ l)) L' s j) (out_of fr A L s j)).
  { intros l L' s j Hs Ho Hp. unfold out_of, todo, fr'. destruct (idx_dec q s) as [<-|Dn].
    - rewrite !upd_same, Ef, El. replace (S (length l1)) with (length l1 + 1)%nat by lia. rewrite firstn_app_2. cbn [firstn].
      rewrite firstn_app, Nat.sub_diag, firstn_all, firstn_O, app_nil_r, flat_map_app. cbn [flat_map]. rewrite app_nil_r, Hp, <- app_assoc. apply Permutation_app_head, Permutation_app_comm.
    - rewrite !upd_other by exact Dn. rewrite Ho by congruence. reflexivity. }
  assert (Kbrep : brep F fr' L).
  { destruct HF as (F1 & F2 & F3). split; [exact F1|]. split; [exact F2|]. intros s Hs. specialize (F3 s Hs). unfold fr'. destruct (idx_dec q s) as [<-|Dn]; [rewrite upd_same; rewrite Ef in F3; exact F3|rewrite upd_other by exact Dn; exact F3]. }
  (* removal from the tile *)
  assert (Krm : exists T', rm_particle_at_tile q (Z.of_nat (length l1) + 1) T = Ret T' /\ rep M D T0 T' (upd A q (l1 ++ rot l2))).
  { unfold rm_particle_at_tile. rewrite (rep_get M D T0 T0lo T0hi T A q HT Hq). cbn [bind]. rewrite El in Hh.
    destruct (rm_holds M HM _ _ _ _ Hh) as (t1 & E1 & H1 & P1). unfold zlen in E1. rewrite E1. cbn [bind].
    destruct (rep_set M D T0 T0lo T0hi T A q t1 _ HT Hq H1 P1) as (T1 & ET1 & HT1 & _). exists T1. now split. }
  assert (Hrot : (length (rot l2) <= S (length l2))%nat) by (rewrite rot_length; lia).
  destruct (inside (gat T0 q) p) eqn:Ein.
  { (* case 1 *)
    exists T, F, A, L. cbv zeta. split; [reflexivity|]. split; [exact HT|]. split; [exact Kbrep|].
    assert (Etl : tl q p = [(q, p)]) by (unfold tl, lot_of; now rewrite Ein).
    assert (EA : forall s, upd A q (l1 ++ p :: l2) s = A s).
    { intros s. destruct (idx_dec q s) as [<-|Dn]; [now rewrite upd_same|now rewrite upd_other]. }
    split; [|split].
    - destruct (Kinv (p :: l2) ltac:(cbn; lia)) as (J1 & J2 & J3). split; [|split].
      + intros s m Hs Es. rewrite <- EA. now apply J1.
      + intros s x Hs Hx. apply J2; [exact Hs|]. unfold todo in *. now rewrite EA.
      + exact I3.
    - pose proof (share_done fr A q l1 p l2 (p :: l2) [p] Hq El Ef (Permutation_refl _)) as X. rewrite Etl in X. cbn [map app] in X. apply Permutation_cons_inv in X.
      rewrite X. unfold shares. apply flat_map_perm_in. intros s _. unfold share, todo. rewrite EA. reflexivity.
    - intros s j Hs Hj. rewrite <- (Kout (p :: l2) L s j Hs); [|reflexivity|].
      + unfold out_of, todo. rewrite EA. reflexivity.
      + unfold lv, lot_of. rewrite Ein, app_nil_r. reflexivity. }
  destruct (Hcan Ein) as (Hc1 & Hc2).
  destruct (outside D p) eqn:Eout.
  - (* case 2 *)
    assert (Esame : default_fate (gat T q) B p = default_fate (gat T0 q) B p).
    { destruct Hpl as (X1 & X2 & X3 & _). unfold default_fate, default_axis, reinject. rewrite X1, X2, X3. reflexivity. }
    rewrite Esame. destruct (default_fate (gat T0 q) B p) as [|p'|p' d] eqn:Efate.
    + destruct Krm as (T' & -> & HT1). cbn [bind]. exists T', F, (upd A q (l1 ++ rot l2)), L. cbv zeta.
      split; [reflexivity|]. split; [exact HT1|]. split; [exact Kbrep|]. split; [now apply Kinv|]. split.
      * pose proof (share_done fr A q l1 p l2 (rot l2) [] Hq El Ef (rot_perm l2)) as X. assert (Y : tl q p = []) by (unfold tl, lot_of; now rewrite Ein, Eout, Efate). rewrite Y in X. symmetry. exact X.
      * intros s j Hs Hj. apply Kout; [exact Hs|reflexivity|]. unfold lv, lot_of. rewrite Ein, Eout, Efate, app_nil_r. reflexivity.
    + rewrite El in Hh. pose proof Hh as (Ha & (junk & Ej) & En & Em & Hm).
      assert (Hlen : zlen l1 + 1 <= zlen (t_arr (gat T q))) by (rewrite Ej, zlen_app, zlen_map, zlen_app, zlen_cons; pose proof (zlen_nonneg l2); pose proof (zlen_nonneg junk); lia).
      rewrite set1_ok by (unfold zlen in *; lia). cbn [bind].
      assert (Es : lset (t_arr (gat T q)) (Z.to_nat (Z.of_nat (length l1) + 1 - 1)) (Some p') = map Some (l1 ++ p' :: l2) ++ junk).
      { rewrite Ej, !map_app, <- !app_assoc. cbn [map app]. replace (Z.to_nat _) with (length (map (@Some (part N)) l1)) by (rewrite map_length; lia). now rewrite lset_app_here. }
      rewrite Es.
      destruct (rep_set M D T0 T0lo T0hi T A q (set_arrays (gat T q) (t_np (gat T q)) (t_max (gat T q)) (map Some (l1 ++ p' :: l2) ++ junk) (t_moved (gat T q))) (l1 ++ p' :: l2) HT Hq) as (T1 & ET1 & HT1 & _).
      { unfold holds, set_arrays. cbn. split; [reflexivity|]. split; [now exists junk|]. rewrite En, !zlen_app, !zlen_map, !zlen_app, !zlen_cons. split; [reflexivity|].
        rewrite Em, Ej, zlen_app, zlen_map, zlen_app, zlen_cons. rewrite Em, Ej, zlen_app, zlen_map, zlen_app, zlen_cons in Hm. split; [reflexivity|lia]. }
      { now repeat split. }
      rewrite ET1. cbn [bind]. exists T1, F, (upd A q (l1 ++ p' :: l2)), L. cbv zeta.
      split; [reflexivity|]. split; [exact HT1|]. split; [exact Kbrep|]. split; [apply Kinv; cbn; lia|]. split.
      * pose proof (share_done fr A q l1 p l2 (p' :: l2) [p'] Hq El Ef (Permutation_refl _)) as X. assert (Y : tl q p = [(q, p')]) by (unfold tl, lot_of; now rewrite Ein, Eout, Efate). rewrite Y in X. cbn [map app] in X. apply Permutation_cons_inv in X. symmetry. exact X.
      * intros s j Hs Hj. apply Kout; [exact Hs|reflexivity|]. unfold lv, lot_of. rewrite Ein, Eout, Efate, app_nil_r. reflexivity.
    + pose proof (fate_direction _ _ _ _ Eout Efate) as Hd. apply in_directions in Hd. destruct Hd as (Hd & _). pose proof (slot_range d Hd) as Hsl.
      pose proof (Hc2 eq_refl) as Hb. destruct Kbrep as (F1 & F2 & F3).
      assert (Hbh : bholds (gat F q) (L q)). { specialize (F3 q Hq). unfold fr' in F3. rewrite upd_same, Hb in F3. exact F3. }
      assert (Hqb : in_box (1, 1, 1) (ag_nt (dX D), ag_nt (dY D), ag_nt (dZ D)) q = true) by (apply in_box_box; exact Hq).
      unfold get3 at 1. rewrite F1, F2, Hqb. cbn [bind]. destruct (put_ok _ _ (slot d) p' Hbh Hsl) as (b' & -> & Hb'). cbn [bind].
      unfold set3 at 1. rewrite F1, F2, Hqb. cbn [bind]. destruct Krm as (T' & -> & HT1). cbn [bind].
      set (Lq := updz (L q) (slot d) (L q (slot d) ++ [p'])) in *.
      eexists T', _, (upd A q (l1 ++ rot l2)), (upd L q Lq). cbv zeta. split; [reflexivity|]. split; [exact HT1|]. split; [|split; [now apply Kinv|split]].
      * split; [reflexivity|]. split; [reflexivity|]. intros s Hs. cbn [gat]. specialize (F3 s Hs). unfold fr' in *. destruct (idx_dec q s) as [<-|Dn].
        -- rewrite !upd_same, idx_eqb_refl in *. now rewrite Hb.
        -- rewrite !upd_other, (proj2 (idx_eqb_neq q s) Dn) in * by exact Dn. exact F3.
      * pose proof (share_done fr A q l1 p l2 (rot l2) [] Hq El Ef (rot_perm l2)) as X. assert (Y : tl q p = []) by (unfold tl, lot_of; now rewrite Ein, Eout, Efate). rewrite Y in X. symmetry. exact X.
      * intros s j Hs Hj. apply Kout; [exact Hs|intros x Hx; now rewrite upd_other by congruence|]. rewrite upd_same. unfold Lq, lv, lot_of. rewrite Ein, Eout, Efate.
        destruct (Z.eqb_spec (slot d) j) as [<-|Dn]; [now rewrite updz_same|rewrite updz_other, app_nil_r by exact Dn; reflexivity].
  - (* case 3 *)
    destruct (Hc1 eq_refl) as (r & Et & Hr). rewrite Et. cbn [bind]. destruct Krm as (T1 & -> & HT1). cbn [bind].
    destruct (tl_target q p r Ein Eout Et) as (Etq & Etr).
    set (A1 := upd A q (l1 ++ rot l2)) in *. unfold add_particle_at_tile. rewrite (rep_get M D T0 T0lo T0hi T1 A1 r HT1 Hr). cbn [bind].
    pose proof HT1 as (_ & _ & HT1'). destruct (HT1' r Hr) as (Hh1 & _).
    destruct (Kinv (rot l2) Hrot) as (J1 & J2 & J3). fold A1 in J1, J2, J3.
    assert (Hit : zlen (items tiles A1) + 1 <= zlen (items tiles A)).
    { pose proof (items_add (upd A q (l1 ++ rot l2)) q p Hq) as X. unfold A1. rewrite <- X. apply (items_le _ _ q Hq).
      - intros s _ Hs. now rewrite !upd_other by congruence.
      - rewrite !upd_same, El, !app_length, rot_length. cbn [length]. lia. }
    destruct (add_holds M HM _ _ p Hh1) as (t2 & E2 & H2 & P2).
    { pose proof (cell_le tiles tiles_nodup A1 r Hr). unfold zlen in *. lia. }
    rewrite E2. cbn [bind]. destruct (rep_set M D T0 T0lo T0hi T1 A1 r t2 _ HT1 Hr H2 P2) as (T2 & ET2 & HT2 & _). rewrite ET2. cbn [bind].
    exists T2, F, (upd A1 r (A1 r ++ [p])), L. cbv zeta. split; [reflexivity|]. split; [exact HT2|]. split; [exact Kbrep|]. split; [|split].
    + split; [|split].
      * intros s m Hs Es. specialize (J1 s m Hs Es). destruct (idx_dec r s) as [<-|Dn]; [rewrite upd_same, app_length; lia|rewrite upd_other by exact Dn; exact J1].
      * intros s x Hs Hx. destruct (idx_dec r s) as [<-|Dn].
        -- assert (Hx' : In x (firstn (todo fr' A1 r) (A1 r)) \/ x = p).
           { unfold todo in *. rewrite upd_same in Hx. destruct (fr' r) as [m|] eqn:Em.
             - rewrite firstn_app in Hx. specialize (J1 r m Hs Em). replace (m - length (A1 r))%nat with O in Hx by lia. rewrite firstn_O, app_nil_r in Hx. now left.
             - rewrite firstn_all in Hx. apply in_app_iff in Hx. rewrite firstn_all. destruct Hx as [Hx|[<-|[]]]; [now left|now right]. }
           destruct Hx' as [Hx'| ->]; [now apply J2|]. intros _. split; [intros _; exists r; now split|congruence].
        -- apply J2; [exact Hs|]. unfold todo in *. now rewrite upd_other in Hx by exact Dn.
      * rewrite items_add by exact Hr. lia.
    + rewrite share_add; [|exact Hr|intros m Em; now apply J1|exact Etr].
      pose proof (share_done fr A q l1 p l2 (rot l2) [] Hq El Ef (rot_perm l2)) as X. rewrite Etq in X. symmetry. exact X.
    + intros s j Hs Hj. rewrite <- (Kout (rot l2) L s j Hs); [|reflexivity|rewrite (lv_target q p j Eout), app_nil_r; reflexivity]. fold A1.
      unfold out_of. apply Permutation_app_head. destruct (idx_dec r s) as [<-|Dn].
      * unfold todo. rewrite upd_same. destruct (fr' r) as [m|] eqn:Em.
        -- rewrite firstn_app. specialize (J1 r m Hr Em). replace (m - length (A1 r))%nat with O by lia. now rewrite firstn_O, app_nil_r.
        -- rewrite !firstn_all, flat_map_app. cbn [flat_map]. rewrite (lv_target r p j Eout). now rewrite !app_nil_r.
      * unfold todo. now rewrite upd_other by exact Dn.
Qed.
(** *** The loop over the particles of a tile *)
Definition stage (K : Z) (A0 : state) (s : grid (tile N) * grid (tbuf N)) (fr : idx -> option nat) (A : state) (L : buffers) : Prop :=
  rep M D T0 (fst s) A /\ brep (snd s) fr L /\ inv K fr A /\ Permutation (shares fr A) (shares (fun _ => None) A0) /\
  forall q j, In q tiles -> 1 <= j <= 27 -> Permutation (out_of fr A L q j) (flat_map (lv q j) (A0 q)).

Lemma stage_step K A0 s fr A L q i : 2 * K + 1 <= M -> stage K A0 s fr A L -> In q tiles -> fr q = Some (S i) ->
  exists s' A' L', default_particle D B n0 q (Z.of_nat (S i)) s = Ret s' /\ stage K A0 s' (upd fr q (Some i)) A' L'.
Proof.
  destruct s as [T F]. intros HK (S1 & S2 & S3 & S4 & S5) Hq Ef.
  destruct (default_step K T F A L fr q i HK S1 S2 S3 Hq Ef) as (T' & F' & A' & L' & E & X1 & X2 & X3 & X4 & X5).
  exists (T', F'), A', L'. split; [exact E|]. split; [exact X1|]. split; [exact X2|]. split; [exact X3|]. split; [now rewrite X4|].
  intros s j Hs Hj. rewrite X5 by assumption. now apply S5.
Qed.
Lemma stage_ext K A0 s fr fr' A L : (forall q, fr q = fr' q) -> stage K A0 s fr A L -> stage K A0 s fr' A L.
Proof.
  intros E (S1 & (F1 & F2 & F3) & (I1 & I2 & I3) & S4 & S5).
  assert (Et : forall q, todo fr' A q = todo fr A q) by (intros q; unfold todo; now rewrite E).
  split; [exact S1|]. split; [|split; [|split]].
  - split; [exact F1|]. split; [exact F2|]. intros q Hq. rewrite <- E. now apply F3.
  - split; [|split; [|exact I3]]; intros q x Hq; [rewrite <- E; now apply I1|rewrite Et; now apply I2].
  - rewrite <- S4. apply flat_map_perm_in. intros q _. unfold share. now rewrite Et.
  - intros q j Hq Hj. rewrite <- (S5 q j Hq Hj). unfold out_of. now rewrite Et.
Qed.
Lemma stage_down K A0 q : 2 * K + 1 <= M -> In q tiles -> forall i s fr A L, stage K A0 s fr A L -> fr q = Some i ->
  exists s' A' L', do_down i (Z.of_nat i) (default_particle D B n0 q) s = Ret s' /\ stage K A0 s' (upd fr q (Some O)) A' L'.
Proof.
  intros HK Hq. induction i as [|i IH]; intros s fr A L HS Ef.
  - exists s, A, L. split; [reflexivity|]. apply (stage_ext _ _ _ fr); [|exact HS]. intros s'. destruct (idx_dec q s') as [<-|Dn]; [now rewrite upd_same|now rewrite upd_other].
  - destruct (stage_step K A0 s fr A L q i HK HS Hq Ef) as (s1 & A1 & L1 & E1 & H1). cbn [do_down]. rewrite E1. cbn [bind].
    replace (Z.of_nat (S i) - 1) with (Z.of_nat i) by lia.
    destruct (IH s1 (upd fr q (Some i)) A1 L1 H1 (upd_same _ _ _)) as (s2 & A2 & L2 & E2 & H2). exists s2, A2, L2. split; [exact E2|].
    apply (stage_ext _ _ _ (upd (upd fr q (Some i)) q (Some O))); [|exact H2].
    intros s'. destruct (idx_dec q s') as [<-|Dn]; [now rewrite !upd_same|now rewrite !upd_other].
Qed.
Lemma stage_start K A0 bs T F fr A L q : 1 <= bs -> stage K A0 (T, F) fr A L -> In q tiles -> fr q = None ->
  exists s', default_start bs q (T, F) = Ret s' /\ stage K A0 s' (upd fr q (Some (length (A q)))) A L.
Proof.
  intros Hbs (S1 & (F1 & F2 & F3) & (I1 & I2 & I3) & S4 & S5) Hq Ef. cbn [fst snd] in *. unfold default_start.
  rewrite (rep_get M D T0 T0lo T0hi T A q S1 Hq). cbn [bind].
  assert (Hqb : in_box (1, 1, 1) (ag_nt (dX D), ag_nt (dY D), ag_nt (dZ D)) q = true) by (apply in_box_box; exact Hq).
  unfold set3. rewrite F1, F2, Hqb. cbn [bind]. eexists. split; [reflexivity|].
  assert (Et : forall r, todo (upd fr q (Some (length (A q)))) A r = todo fr A r).
  { intros r. unfold todo. destruct (idx_dec q r) as [<-|Dn]; [now rewrite upd_same, Ef|now rewrite upd_other by exact Dn]. }
  split; [exact S1|]. cbn [fst snd]. split; [|split; [|split]].
  - split; [reflexivity|]. split; [reflexivity|]. intros r Hr. cbn [gat]. specialize (F3 r Hr). destruct (idx_dec q r) as [<-|Dn].
    + rewrite upd_same, idx_eqb_refl. rewrite Ef in F3. pose proof S1 as (_ & _ & S1'). destruct (S1' q Hq) as (_ & Hpl).
      assert (Eb : t_bound (gat T q) = t_bound (gat T0 q)) by (destruct Hpl as (_ & _ & _ & X); congruence).
      destruct (t_bound (gat T0 q)) eqn:Eb0.
      * destruct (new_tbuf_ok bs (gat T q) Hbs Eb) as (n & En & X). exists n. split; [exact En|]. intros j Hj. rewrite F3. exact (X j Hj).
      * intros j. split; [apply F3|reflexivity].
    + rewrite upd_other, (proj2 (idx_eqb_neq q r) Dn) by exact Dn. exact F3.
  - split; [|split; [|exact I3]].
    + intros r i Hr. destruct (idx_dec q r) as [<-|Dn]; [rewrite upd_same; intros [= <-]; lia|rewrite upd_other by exact Dn; now apply I1].
    + intros r x Hr. rewrite Et. now apply I2.
  - rewrite <- S4. apply flat_map_perm_in. intros r _. unfold share. now rewrite Et.
  - intros r j Hr Hj. rewrite <- (S5 r j Hr Hj). unfold out_of. now rewrite Et.
Qed.

(** one tile *)
Definition leaving (A0 : state) (q : idx) (j : Z) : list (part N) := flat_map (lv q j) (A0 q).
Lemma stage_tile K A0 bs T F c fr A L q : 2 * K + 1 <= M -> 1 <= bs -> stage K A0 (T, F) fr A L -> In q tiles -> fr q = None ->
  exists T' F' c' A' L', default_tile bs D B n0 q (T, F, c) = Ret (T', F', c') /\ stage K A0 (T', F') (upd fr q (Some O)) A' L' /\
    forall j, 1 <= j <= 27 -> c' j = c j + zlen (leaving A0 q j).
Proof.
  intros HK Hbs HS Hq Ef. unfold default_tile. pose proof HS as (S1 & _). cbn [fst] in S1. rewrite (rep_get M D T0 T0lo T0hi T A q S1 Hq). cbn [bind].
  pose proof S1 as (_ & _ & S1'). destruct (S1' q Hq) as ((_ & _ & En & _) & _). rewrite En.
  destruct (stage_start K A0 bs T F fr A L q Hbs HS Hq Ef) as (s1 & E1 & H1). rewrite E1. cbn [bind].
  destruct (stage_down K A0 q HK Hq (length (A q)) s1 _ A L H1 (upd_same _ _ _)) as ([T2 F2] & A2 & L2 & E2 & H2).
  unfold do_range_down. replace (Z.to_nat (zlen (A q) - 1 + 1)) with (length (A q)) by (unfold zlen; lia). change (zlen (A q)) with (Z.of_nat (length (A q))). rewrite E2. cbn [bind].
  pose proof H2 as (R2 & (B1 & B2 & B3) & _ & _ & O2). cbn [fst snd] in *. rewrite (rep_get M D T0 T0lo T0hi T2 A2 q R2 Hq). cbn [bind].
  assert (Hqb : in_box (1, 1, 1) (ag_nt (dX D), ag_nt (dY D), ag_nt (dZ D)) q = true) by (apply in_box_box; exact Hq).
  unfold get3. rewrite B1, B2, Hqb. cbn [bind]. eexists _, _, _, A2, L2. split; [reflexivity|]. split.
  - apply (stage_ext _ _ _ (upd (upd fr q (Some (length (A q)))) q (Some O))); [|exact H2].
    intros s'. destruct (idx_dec q s') as [<-|Dn]; [now rewrite !upd_same|now rewrite !upd_other].
  - intros j Hj. specialize (O2 q j Hq Hj). unfold out_of, todo in O2. rewrite upd_same in O2. cbn [firstn flat_map] in O2. rewrite app_nil_r in O2.
    pose proof R2 as (_ & _ & R2'). destruct (R2' q Hq) as (_ & Hpl).
    assert (Eb : t_bound (gat T2 q) = t_bound (gat T0 q)) by (destruct Hpl as (_ & _ & _ & X); congruence). rewrite Eb.
    specialize (B3 q Hq). rewrite upd_same in B3. unfold leaving. rewrite <- (zlen_perm _ _ O2).
    destruct (t_bound (gat T0 q)).
    + unfold add_counts. destruct B3 as (n & _ & B3). now rewrite (proj1 (B3 j Hj)).
    + destruct (B3 j) as (-> & _). change (zlen []) with 0. lia.
Qed.

(** all tiles *)
Lemma stage_tiles K A0 bs : 2 * K + 1 <= M -> 1 <= bs -> forall qs T F c fr A L, NoDup qs -> (forall q, In q qs -> In q tiles /\ fr q = None) -> stage K A0 (T, F) fr A L ->
  exists T' F' c' A' L' fr', for_each (default_tile bs D B n0) qs (T, F, c) = Ret (T', F', c') /\ stage K A0 (T', F') fr' A' L' /\
    (forall q, In q qs -> fr' q = Some O) /\ (forall q, ~ In q qs -> fr' q = fr q) /\ forall j, 1 <= j <= 27 -> c' j = c j + zlen (flat_map (fun q => leaving A0 q j) qs).
Proof.
  intros HK Hbs. induction qs as [|q qs IH]; intros T F c fr A L ND Hqs HS.
  - exists T, F, c, A, L, fr. split; [reflexivity|]. split; [exact HS|]. split; [intros q []|]. split; [reflexivity|]. intros j _. change (zlen (flat_map _ [])) with 0. lia.
  - inversion ND as [|? ? Hn ND']; subst. destruct (Hqs q (or_introl eq_refl)) as (Hq & Ef).
    destruct (stage_tile K A0 bs T F c fr A L q HK Hbs HS Hq Ef) as (T1 & F1 & c1 & A1 & L1 & E1 & H1 & C1).
    destruct (IH T1 F1 c1 (upd fr q (Some O)) A1 L1 ND') as (T2 & F2 & c2 & A2 & L2 & fr2 & E2 & H2 & G2 & G3 & C2).
    { intros r Hr. split; [apply Hqs; now right|]. rewrite upd_other by congruence. apply Hqs. now right. }
    { exact H1. }
    exists T2, F2, c2, A2, L2, fr2. cbn [for_each]. rewrite E1. cbn [bind]. split; [exact E2|]. split; [exact H2|]. split; [|split].
    + intros r [<-|Hr]; [|now apply G2]. rewrite G3 by exact Hn. apply upd_same.
    + intros r Hr. rewrite G3 by (intros X; apply Hr; now right). apply upd_other. intros ->. apply Hr. now left.
    + intros j Hj. cbn [flat_map]. rewrite C2, C1, zlen_app by exact Hj. lia.
Qed.
End Part1.
