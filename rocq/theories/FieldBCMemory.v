(** The memory of the arrays and the messages. *)
From Coq Require Import ZArith List Bool Lia.
From Verif Require Import Cxx CxxLemmas Num Grid GridLemmas PartBC FieldBC SpecFieldBC.
Import ListNotations.
Local Open Scope Z_scope.

Lemma triple_eq (a b c x y z : Z) : a = x -> b = y -> c = z -> (a, b, c) = (x, y, z).
Proof. congruence. Qed.
Lemma idx_split (p : idx) : p = (comp DirX p, comp DirY p, comp DirZ p).
Proof. destruct p as [[x y] z]. reflexivity. Qed.
Lemma comp_set a v p : comp a (set_comp a v p) = v.
Proof. destruct p as [[x y] z], a; reflexivity. Qed.
Lemma comp_set_other a b v p : a <> b -> comp b (set_comp a v p) = comp b p.
Proof. destruct p as [[x y] z], a, b; try reflexivity; congruence. Qed.
Lemma set_set a v w p : set_comp a v (set_comp a w p) = set_comp a v p.
Proof. destruct p as [[x y] z], a; reflexivity. Qed.
Lemma set_same a p : set_comp a (comp a p) p = p.
Proof. destruct p as [[x y] z], a; reflexivity. Qed.
Lemma idx_ext p q : (forall a, comp a p = comp a q) -> p = q.
Proof. intros H. rewrite (idx_split p), (idx_split q). now rewrite !H. Qed.
Lemma comp_map3 f a p q : comp a (map3 f p q) = f (comp a p) (comp a q).
Proof. destruct p as [[x y] z], q as [[u v] w], a; reflexivity. Qed.
Lemma comp_opposite a p : comp a (opposite p) = - comp a p.
Proof. destruct p as [[x y] z], a; reflexivity. Qed.
Lemma dir_dec (a b : dir) : {a = b} + {a <> b}.
Proof. decide equality. Defined.

Lemma in_box_comp lo hi p : in_box lo hi p = true <-> forall a, comp a lo <= comp a p <= comp a hi.
Proof.
  destruct lo as [[x y] z], hi as [[u v] w], p as [[i j] k]. rewrite in_box_iff. split.
  - intros H a. destruct a; cbn; lia.
  - intros H. pose proof (H DirX). pose proof (H DirY). pose proof (H DirZ). cbn in *. lia.
Qed.

Lemma zrange_shift d lo hi : zrange (lo + d) (hi + d) = map (fun i => i + d) (zrange lo hi).
Proof.
  unfold zrange. rewrite map_map. replace (hi + d - (lo + d) + 1) with (hi - lo + 1) by lia. apply map_ext. intros. lia.
Qed.
Lemma flat_map_map {A B C} (f : B -> list C) (g : A -> B) l : flat_map f (map g l) = flat_map (fun x => f (g x)) l.
Proof. induction l; cbn; [reflexivity|now rewrite IHl]. Qed.
Lemma map_flat_map {A B C} (f : B -> C) (g : A -> list B) l : map f (flat_map g l) = flat_map (fun x => map f (g x)) l.
Proof. induction l; cbn; [reflexivity|now rewrite map_app, IHl]. Qed.
Lemma box_shift d lo hi : box (map3 Z.add lo d) (map3 Z.add hi d) = map (fun p => map3 Z.add p d) (box lo hi).
Proof.
  destruct d as [[d1 d2] d3], lo as [[x y] z], hi as [[u v] w]. cbn [map3 box]. rewrite !zrange_shift, flat_map_map, map_flat_map. apply flat_map_ext. intros l.
  rewrite flat_map_map, map_flat_map. apply flat_map_ext. intros k. rewrite !map_map. apply map_ext. intros j. reflexivity.
Qed.
Lemma section_shift p m : section p m = map (fun e => map3 Z.add e p) (box (0, 0, 0) (map3 Z.sub m (1, 1, 1))).
Proof.
  unfold section. rewrite <- box_shift. f_equal; destruct p as [[x y] z], m as [[u v] w]; cbn [map3]; apply triple_eq; lia.
Qed.
(** two sections with the same extents *)
Lemma section_section p q m : section q m = map (fun e => map3 Z.add e (map3 Z.sub q p)) (section p m).
Proof.
  rewrite !section_shift, map_map. apply map_ext. intros [[i j] k]. destruct p as [[x y] z], q as [[u v] w]. cbn [map3]; apply triple_eq; lia.
Qed.
Lemma in_section p m q : In q (section p m) <-> forall a, comp a p <= comp a q <= comp a p + comp a m - 1.
Proof.
  unfold section. rewrite in_box_box, in_box_comp. split; intros H a; specialize (H a); rewrite !comp_map3 in *; destruct a; cbn in *; lia.
Qed.
Lemma nodup_section p m : NoDup (section p m).
Proof. apply NoDup_box. Qed.
Lemma len_map {A B} (f : A -> B) l : zlen (map f l) = zlen l.
Proof. unfold zlen. now rewrite map_length. Qed.
Lemma zlen_app {A} (l m : list A) : zlen (l ++ m) = zlen l + zlen m.
Proof. unfold zlen. rewrite app_length. lia. Qed.
Lemma flat_map_len {A B} (f : A -> list B) l k : (forall x, zlen (f x) = k) -> zlen (flat_map f l) = k * zlen l.
Proof. intros H. induction l as [|x l IH]; [cbn; unfold zlen; cbn; lia|]. cbn [flat_map]. rewrite zlen_app, IH, H. unfold zlen. cbn [length]. nia. Qed.
Lemma range_len lo hi : lo <= hi + 1 -> zlen (zrange lo hi) = hi - lo + 1.
Proof. intros. unfold zrange, zlen. rewrite map_length. unfold zseq. rewrite map_length, seq_length. lia. Qed.
Lemma section_len p m : (forall a, 0 <= comp a m) -> zlen (section p m) = volume m.
Proof.
  intros H. rewrite section_shift, len_map. destruct m as [[u v] w]. pose proof (H DirX) as H1. pose proof (H DirY) as H2. pose proof (H DirZ) as H3. cbn in H1, H2, H3.
  cbn [map3 box volume]. rewrite (flat_map_len _ _ (u * v)); [rewrite range_len by lia; ring_simplify; lia|]. intros l.
  rewrite (flat_map_len _ _ u); [rewrite range_len by lia; ring_simplify; lia|]. intros k. rewrite len_map, range_len by lia. lia.
Qed.

Section Mem.
Context {A : Type}.

Lemma element_address (G : grid A) p : in_box (glo G) (ghi G) p = true -> element G (address G p) = Ret p.
Proof.
  intros H. rewrite in_box_comp in H. unfold element, address, extent. destruct G as [[[l1 l2] l3] [[h1 h2] h3] v]. destruct p as [[x y] z]. cbn [glo ghi map3] in *.
  pose proof (H DirX) as H1. pose proof (H DirY) as H2. pose proof (H DirZ) as H3. cbn in H1, H2, H3.
  remember (h1 - l1 + 1) as s1. remember (h2 - l2 + 1) as s2. remember (h3 - l3 + 1) as s3.
  remember (x - l1) as i. remember (y - l2) as j. remember (z - l3) as k. assert (Hi : 0 <= i < s1) by lia. assert (Hj : 0 <= j < s2) by lia. assert (Hk : 0 <= k < s3) by lia.
  assert (R : 0 <= i + s1 * (j + s2 * k) < s1 * s2 * s3).
  { clear - Hi Hj Hk. assert (X : s2 * k <= s2 * (s3 - 1)) by (apply Z.mul_le_mono_nonneg_l; lia). assert (Y : 0 <= s2 * k) by (apply Z.mul_nonneg_nonneg; lia).
    assert (X' : s1 * (j + s2 * k) <= s1 * (s2 * s3 - 1)) by (apply Z.mul_le_mono_nonneg_l; lia). assert (Y' : 0 <= s1 * (j + s2 * k)) by (apply Z.mul_nonneg_nonneg; lia). lia. }
  destruct R as (R1 & R2). apply Z.leb_le in R1. apply Z.ltb_lt in R2. rewrite R1, R2. cbn [andb].
  assert (E1 : (i + s1 * (j + s2 * k)) mod s1 = i) by (rewrite Z.mul_comm, Z.mod_add by lia; apply Z.mod_small; lia).
  assert (E2 : (i + s1 * (j + s2 * k)) / s1 = j + s2 * k) by (rewrite Z.mul_comm, Z.div_add by lia; rewrite Z.div_small by lia; lia).
  assert (E3 : (i + s1 * (j + s2 * k)) / (s1 * s2) = k) by (rewrite <- Z.div_div by lia; rewrite E2, Z.mul_comm, Z.div_add by lia; rewrite Z.div_small by lia; lia).
  rewrite E1, E2, E3. rewrite (Z.mul_comm s2), Z.mod_add by lia. rewrite Z.mod_small by lia. f_equal. apply triple_eq; lia.
Qed.
Lemma mapM_ret {X Y} (f : X -> out Y) (h : X -> Y) l : (forall x, In x l -> f x = Ret (h x)) -> mapM f l = Ret (map h l).
Proof.
  induction l as [|x l IH]; intros H; [reflexivity|]. cbn [mapM map]. rewrite (H x (or_introl eq_refl)). cbn [bind]. rewrite IH by (intros; apply H; now right). reflexivity.
Qed.
Lemma mapM_map {X Y Z} (f : Y -> out Z) (h : X -> Y) l : mapM f (map h l) = mapM (fun x => f (h x)) l.
Proof. induction l; [reflexivity|]. cbn. now rewrite IHl. Qed.

(** a type that was made for the bounds of the array *)
Definition fits (G : grid A) (t : dtype) : Prop := snd t = extent G.
Lemma elements_ok (G : grid A) (m p : idx) {Y} (f : idx -> out Y) : (forall q, In q (section p m) -> in_box (glo G) (ghi G) q = true) ->
  in_box (glo G) (ghi G) p = true ->
  mapM (fun o => do q <- element G (address G p + o); f q) (displacements (m, extent G)) = mapM f (section p m).
Proof.
  intros H Hp. rewrite section_shift. unfold displacements. destruct (extent G) as [[t1 t2] t3] eqn:Et. rewrite !mapM_map.
  assert (forall l, (forall e, In e l -> in_box (glo G) (ghi G) (map3 Z.add e p) = true) ->
    mapM (fun x => do q <- element G (address G p + (let '(x0, y, z) := x in x0 + t1 * (y + t2 * z))); f q) l = mapM (fun x => f (map3 Z.add x p)) l) as X.
  { induction l as [|e l IH]; intros Hl; [reflexivity|]. cbn [mapM]. rewrite IH by (intros; apply Hl; now right).
    replace (element G _) with (@Ret idx (map3 Z.add e p)); [reflexivity|]. symmetry. rewrite <- (element_address G (map3 Z.add e p)) by (apply Hl; now left). f_equal.
    unfold address. rewrite Et. destruct e as [[x y] z], p as [[u v] w], (glo G) as [[l1 l2] l3]. cbn. ring. }
  apply X. intros e He. apply H. rewrite section_shift. apply in_map_iff. now exists e.
Qed.
Lemma pack_ok (G : grid A) m p : (forall q, In q (section p m) -> in_box (glo G) (ghi G) q = true) -> in_box (glo G) (ghi G) p = true ->
  pack (m, extent G) G p = Ret (map (gat G) (section p m)).
Proof.
  intros H Hp. unfold pack. rewrite elements_ok by assumption. apply mapM_ret. intros q Hq. unfold get3. now rewrite H.
Qed.

Definition written (G G' : grid A) (ps : list idx) (f : idx -> A) : Prop :=
  glo G' = glo G /\ ghi G' = ghi G /\ (forall q, In q ps -> gat G' q = f q) /\ (forall q, ~ In q ps -> gat G' q = gat G q).
Lemma copy_ok (f : idx -> A) ps : forall G, NoDup ps -> (forall q, In q ps -> in_box (glo G) (ghi G) q = true) ->
  exists G', copy_temp ps (map Some (map f ps)) G = Ret G' /\ written G G' ps f.
Proof.
  induction ps as [|p ps IH]; intros G Hn H; [exists G; split; [reflexivity|repeat split; intros q []]|].
  inversion Hn as [|? ? Hp Hn']; subst. cbn [map copy_temp]. unfold set3. rewrite (H p (or_introl eq_refl)). cbn [bind].
  destruct (IH (Grid (glo G) (ghi G) (fun q => if idx_eqb p q then f p else gat G q)) Hn') as (G' & E & B1 & B2 & C1 & C2); [intros q Hq; cbn; apply H; now right|].
  exists G'. split; [exact E|]. cbn [glo ghi gat] in *. split; [exact B1|]. split; [exact B2|]. split.
  - intros q [<-|Hq]; [|now apply C1]. rewrite C2 by exact Hp. now rewrite idx_eqb_refl.
  - intros q Hq. rewrite C2 by (intros X; apply Hq; now right). destruct (idx_eqb p q) eqn:Ei; [|reflexivity]. apply idx_eqb_eq in Ei. subst. exfalso. apply Hq. now left.
Qed.
Lemma store_ok (f : idx -> A) ps : forall G, NoDup ps -> (forall q, In q ps -> in_box (glo G) (ghi G) q = true) ->
  exists G', store ps (map f ps) G = Ret G' /\ written G G' ps f.
Proof.
  induction ps as [|p ps IH]; intros G Hn H; [exists G; split; [reflexivity|repeat split; intros q []]|].
  inversion Hn as [|? ? Hp Hn']; subst. cbn [map store]. unfold set3. rewrite (H p (or_introl eq_refl)). cbn [bind].
  destruct (IH (Grid (glo G) (ghi G) (fun q => if idx_eqb p q then f p else gat G q)) Hn') as (G' & E & B1 & B2 & C1 & C2); [intros q Hq; cbn; apply H; now right|].
  exists G'. split; [exact E|]. cbn [glo ghi gat] in *. split; [exact B1|]. split; [exact B2|]. split.
  - intros q [<-|Hq]; [|now apply C1]. rewrite C2 by exact Hp. now rewrite idx_eqb_refl.
  - intros q Hq. rewrite C2 by (intros X; apply Hq; now right). destruct (idx_eqb p q) eqn:Ei; [|reflexivity]. apply idx_eqb_eq in Ei. subst. exfalso. apply Hq. now left.
Qed.
Lemma unpack_ok (f : idx -> A) (G : grid A) m p : (forall q, In q (section p m) -> in_box (glo G) (ghi G) q = true) -> in_box (glo G) (ghi G) p = true ->
  exists G', unpack (m, extent G) G p (map f (section p m)) = Ret G' /\ written G G' (section p m) f.
Proof.
  intros H Hp. unfold unpack. pose proof (elements_ok G m p (fun q => Ret q) H Hp) as E.
  assert (E1 : mapM (fun o => element G (address G p + o)) (displacements (m, extent G)) = Ret (section p m)).
  { transitivity (mapM (fun o => do q <- element G (address G p + o); Ret q) (displacements (m, extent G))).
    - generalize (displacements (m, extent G)). induction l as [|o l IH]; [reflexivity|]. cbn [mapM]. rewrite IH. now destruct (element G (address G p + o)).
    - rewrite E. rewrite (mapM_ret _ (fun q => q)) by reflexivity. now rewrite map_id. }
  rewrite E1. cbn [bind]. apply store_ok; [apply nodup_section|exact H].
Qed.
Lemma into_temp_full (l : list A) sz old : zlen l = sz -> into_temp sz old l = Ret (map Some l).
Proof. intros <-. unfold into_temp. rewrite Z.ltb_irrefl, Z.sub_diag. cbn. now rewrite app_nil_r. Qed.
Lemma into_temp_none sz (v : A) : 0 <= sz -> into_temp sz (Some v) [] = Ret (repeat (Some v) (Z.to_nat sz)).
Proof. intros H. unfold into_temp. change (zlen []) with 0. replace (sz <? 0) with false by lia. cbn. now rewrite Z.sub_0_r. Qed.
End Mem.

Lemma add_ok {N : NumOps} (f : idx -> num N) ps : forall G, NoDup ps -> (forall q, In q ps -> in_box (glo G) (ghi G) q = true) ->
  exists G', add_temp ps (map Some (map f ps)) G = Ret G' /\ written G G' ps (fun q => n_add (gat G q) (f q)).
Proof.
  induction ps as [|p ps IH]; intros G Hn H; [exists G; split; [reflexivity|repeat split; intros q []]|].
  inversion Hn as [|? ? Hp Hn']; subst. cbn [map add_temp]. unfold set3, get3. rewrite (H p (or_introl eq_refl)). cbn [bind].
  destruct (IH (Grid (glo G) (ghi G) (fun q => if idx_eqb p q then n_add (gat G p) (f p) else gat G q)) Hn') as (G' & E & B1 & B2 & C1 & C2); [intros q Hq; cbn; apply H; now right|].
  exists G'. split; [exact E|]. cbn [glo ghi gat] in *. split; [exact B1|]. split; [exact B2|]. split.
  - intros q [<-|Hq]; [rewrite C2 by exact Hp; now rewrite idx_eqb_refl|]. rewrite C1 by exact Hq. destruct (idx_eqb p q) eqn:Ei; [|reflexivity]. apply idx_eqb_eq in Ei. subst. contradiction.
  - intros q Hq. rewrite C2 by (intros X; apply Hq; now right). destruct (idx_eqb p q) eqn:Ei; [|reflexivity]. apply idx_eqb_eq in Ei. subst. exfalso. apply Hq. now left.
Qed.
