(** Proofs about the picsar_vector model. *)
From Coq Require Import List Bool Arith Lia.
From Verif Require Import Cxx PicsarVector SpecVector CxxLemmas OmpProofs.
Import ListNotations.

Section V.
Context {A : Type}.
Notation state := (state A). Notation op := (op A).

(** ** the ownership invariant *)
Definition good (h : heap (A := A)) (e : list (list (cell A))) (v : pvec) : Prop :=
  match v_data v with
  | PNull => v_size v = 0
  | PHeap k => v_own v = true /\ exists l, nth_error h k = Some (Some l) /\ length l = v_size v
  | PExt b => v_own v = false /\ exists l, nth_error e b = Some l /\ v_size v <= length l
  end.

Definition inv (s : state) : Prop :=
  (forall x v, nth_error (st_objs s) x = Some (Some v) -> good (st_heap s) (st_ext s) v) /\
  (forall x y v w k, nth_error (st_objs s) x = Some (Some v) -> nth_error (st_objs s) y = Some (Some w) ->
     v_data v = PHeap k -> v_data w = PHeap k -> x = y).

Lemma nth_app_cases {B} (l : list B) b x c : nth_error (l ++ [b]) x = Some c -> nth_error l x = Some c \/ x = length l /\ c = b.
Proof.
  intros H. destruct (Nat.lt_ge_cases x (length l)) as [Hl|Hl]; [rewrite nth_error_app1 in H by exact Hl; now left|].
  right. rewrite nth_error_app2 in H by exact Hl. destruct (x - length l) as [|m] eqn:E; cbn in H; [|destruct m; discriminate].
  split; [lia|congruence].
Qed.

Lemma nth_lset_cases {B} (l : list B) i b x c : nth_error (lset l i b) x = Some c -> x = i /\ c = b \/ x <> i /\ nth_error l x = Some c.
Proof.
  intros H. destruct (Nat.eq_dec x i) as [->|Hne].
  - assert (i < length l). { rewrite <- (lset_length l i b). apply nth_error_Some. congruence. }
    rewrite lset_same in H by assumption. left. split; congruence.
  - rewrite lset_other in H by auto. now right.
Qed.

Lemma nth_lset {B} (l : list B) i b : i < length l -> nth_error (lset l i b) i = Some b.
Proof. intros H. now apply lset_same. Qed.

Lemma good_app h e v b : good h e v -> good (h ++ [b]) e v.
Proof.
  unfold good. destruct (v_data v); auto. intros (H1 & l & H2 & H3). split; [exact H1|]. exists l. split; [|exact H3].
  rewrite nth_error_app1; [exact H2|]. apply nth_error_Some. congruence.
Qed.

(** changing a block nobody else refers to *)
Lemma good_lset h e v k b : v_data v <> PHeap k -> good h e v -> good (lset h k b) e v.
Proof.
  unfold good. destruct (v_data v) as [|k'|]; auto. intros Hne (H1 & l & H2 & H3). split; [exact H1|]. exists l. split; [|exact H3].
  rewrite lset_other; [exact H2|]. congruence.
Qed.

Lemma load_good h e v n : good h e v -> n <= v_size v -> exists l, load h e (v_data v) n = Ret l /\ length l = n.
Proof.
  intros Hg Hn. unfold load. destruct n as [|n]; [exists []; auto|]. unfold good in Hg. unfold block.
  destruct (v_data v) as [|k|b].
  - lia.
  - destruct Hg as (_ & l & -> & Hl). replace (S n <=? length l) with true by (symmetry; apply Nat.leb_le; lia).
    exists (firstn (S n) l). split; [reflexivity|]. rewrite firstn_length. lia.
  - destruct Hg as (_ & l & -> & Hl). replace (S n <=? length l) with true by (symmetry; apply Nat.leb_le; lia).
    exists (firstn (S n) l). split; [reflexivity|]. rewrite firstn_length. lia.
Qed.

Lemma obj_eq (s : state) x v : nth_error (st_objs s) x = Some (Some v) -> obj s x = Ret v.
Proof. unfold obj. now intros ->. Qed.

Lemma inv_add s (h : heap) v : inv s ->
  (forall x w, nth_error (st_objs s) x = Some (Some w) -> good h (st_ext s) w) -> good h (st_ext s) v ->
  (forall k, v_data v = PHeap k -> forall x w, nth_error (st_objs s) x = Some (Some w) -> v_data w <> PHeap k) ->
  inv (add_obj s h v).
Proof.
  intros (H1 & H2) Hg Hv Hd. split; cbn.
  - intros x w Hx. apply nth_app_cases in Hx as [Hx|(-> & Hx)]; [now apply (Hg x)|]. injection Hx as ->. exact Hv.
  - intros x y v1 v2 k Hx Hy E1 E2. apply nth_app_cases in Hx as [Hx|(-> & Hx)]; apply nth_app_cases in Hy as [Hy|(-> & Hy)].
    + now apply (H2 x y v1 v2 k).
    + injection Hy as ->. exfalso. exact (Hd k E2 x v1 Hx E1).
    + injection Hx as ->. exfalso. exact (Hd k E1 y v2 Hy E2).
    + reflexivity.
Qed.

(** a fresh block is not referred to *)
Lemma fresh s x v : inv s -> nth_error (st_objs s) x = Some (Some v) -> v_data v <> PHeap (length (st_heap s)).
Proof.
  intros (H1 & _) Hx E. specialize (H1 x v Hx). unfold good in H1. rewrite E in H1. destruct H1 as (_ & l & Hl & _).
  assert (length (st_heap s) < length (st_heap s)) by (apply nth_error_Some; congruence). lia.
Qed.

Lemma nth_alloc (h : heap (A := A)) b : nth_error (h ++ [b]) (length h) = Some b.
Proof. rewrite nth_error_app2, Nat.sub_diag by lia. reflexivity. Qed.

Lemma inv_alloc s l : inv s -> inv (add_obj s (st_heap s ++ [Some l]) (mk_pvec (PHeap (length (st_heap s))) (length l) true)).
Proof.
  intros Hi. apply inv_add; auto.
  - intros x w Hx. apply good_app. now apply (proj1 Hi x).
  - unfold good. cbn. split; [reflexivity|]. exists l. split; [apply nth_alloc|reflexivity].
  - cbn. intros k E x w Hx. injection E as <-. now apply (fresh s x).
Qed.

(** replacing one object *)
Lemma inv_set s (h : heap) x ov : inv s ->
  (forall y w, y <> x -> nth_error (st_objs s) y = Some (Some w) -> good h (st_ext s) w) ->
  (forall v, ov = Some v -> good h (st_ext s) v /\
     forall k, v_data v = PHeap k -> forall y w, y <> x -> nth_error (st_objs s) y = Some (Some w) -> v_data w <> PHeap k) ->
  inv (mk_state h (st_ext s) (lset (st_objs s) x ov)).
Proof.
  intros (H1 & H2) Hg Hv. split; cbn.
  - intros y w Hy. apply nth_lset_cases in Hy as [(-> & E)|(Hne & Hy)]; [|now apply (Hg y)]. symmetry in E. now apply (Hv w E).
  - intros y z v1 v2 k Hy Hz E1 E2. apply nth_lset_cases in Hy as [(-> & Ey)|(Hy' & Hy)]; apply nth_lset_cases in Hz as [(-> & Ez)|(Hz' & Hz)].
    + reflexivity.
    + symmetry in Ey. destruct (Hv v1 Ey) as (_ & Hd). exfalso. exact (Hd k E1 z v2 Hz' Hz E2).
    + symmetry in Ez. destruct (Hv v2 Ez) as (_ & Hd). exfalso. exact (Hd k E2 y v1 Hy' Hy E1).
    + now apply (H2 y z v1 v2 k).
Qed.

Lemma good_moved h e : good h e moved_from.
Proof. reflexivity. Qed.

Lemma block_good s v i : good (st_heap s) (st_ext s) v -> i < v_size v ->
  exists l, block (st_heap s) (st_ext s) (v_data v) = Some l /\ i < length l.
Proof.
  unfold good, block. destruct (v_data v); intros H Hi.
  - lia.
  - destruct H as (_ & l & -> & Hl). exists l. split; [reflexivity|lia].
  - destruct H as (_ & l & -> & Hl). exists l. split; [reflexivity|lia].
Qed.

Lemma fetch_good s v i : good (st_heap s) (st_ext s) v -> i < v_size v -> exists c, fetch s (v_data v) i = Ret c.
Proof.
  intros Hg Hi. destruct (block_good s v i Hg Hi) as (l & Hb & Hl). unfold fetch. rewrite Hb.
  destruct (nth_error l i) eqn:E; [eauto|]. apply nth_error_None in E. lia.
Qed.

Lemma free_own s x v : inv s -> nth_error (st_objs s) x = Some (Some v) -> v_own v = true ->
  exists h, free (st_heap s) (v_data v) = Ret h /\
    (forall y w, y <> x -> nth_error (st_objs s) y = Some (Some w) -> good h (st_ext s) w) /\ length h = length (st_heap s).
Proof.
  intros (H1 & H2) Hx Hown. pose proof (H1 x v Hx) as Hg. unfold free. unfold good in Hg. destruct (v_data v) as [|k|] eqn:E.
  - exists (st_heap s). split; [reflexivity|]. split; [|reflexivity]. intros y w _ Hy. now apply (H1 y).
  - destruct Hg as (_ & l & Hl & _). rewrite Hl. exists (lset (st_heap s) k None). split; [reflexivity|]. split; [|apply lset_length].
    intros y w Hne Hy. apply good_lset; [|now apply (H1 y)]. intros E2. apply Hne. now apply (H2 y x w v k).
  - destruct Hg as (Hf & _). congruence.
Qed.

Lemma good_free_other (h : heap (A:=A)) e k h' v : good h e v -> v_data v <> PHeap k -> free h (PHeap k) = Ret h' -> good h' e v.
Proof.
  intros Hg Hne Hf. unfold free in Hf. destruct (nth_error h k) as [[l|]|]; try discriminate. injection Hf as <-. now apply good_lset.
Qed.

(** *** one step: a legal operation never misbehaves and keeps the invariant *)
Lemma step_ok s o : inv s -> legal s o -> exists s' b, step o s = Ret (s', b) /\ inv s' /\ length (st_ext s') = length (st_ext s) .
Proof.
  intros Hi Hl. pose proof Hi as (H1 & H2). destruct o; cbn [legal step] in *; try contradiction.
  - (* ONew *) cbn. do 2 eexists. split; [reflexivity|]. split; [|reflexivity].
    pose proof (inv_alloc s (repeat None n) Hi) as H. now rewrite repeat_length in H.
  - (* OFromList *) cbn. do 2 eexists. split; [reflexivity|]. split; [|reflexivity].
    pose proof (inv_alloc s (map Some l) Hi) as H. now rewrite map_length in H.
  - (* OEmpty *) do 2 eexists. split; [reflexivity|]. split; [|reflexivity]. apply inv_add; auto; [reflexivity|discriminate].
  - (* ORaw *) do 2 eexists. split; [reflexivity|]. split; [|reflexivity]. apply inv_add; auto; [|discriminate].
    unfold good. cbn. split; [reflexivity|]. destruct Hl as (l & Hl1 & Hl2). eauto.
  - (* OCopy *) destruct Hl as (v & Hv). rewrite (obj_eq s x v Hv). cbn [bind].
    destruct (load_good _ _ v (v_size v) (H1 x v Hv) ltac:(lia)) as (l & -> & Hll). cbn.
    do 2 eexists. split; [reflexivity|]. split; [|reflexivity]. rewrite <- Hll. now apply inv_alloc.
  - (* OMove *) destruct Hl as (v & Hv). rewrite (obj_eq s x v Hv). cbn [bind].
    do 2 eexists. split; [reflexivity|]. split; [|reflexivity].
    assert (Hset : inv (set_obj s x (Some moved_from))).
    { apply inv_set; auto; [intros; now apply (H1 y)|]. intros w Hw. injection Hw as <-. split; [apply good_moved|discriminate]. }
    apply (inv_add (set_obj s x (Some moved_from))); auto.
    + intros y w Hy. now apply (proj1 Hset y).
    + now apply (H1 x).
    + intros k Ek y w Hy. cbn in Hy. apply nth_lset_cases in Hy as [(-> & E)|(Hne & Hy)]; [injection E as ->; discriminate|].
      intros E2. apply Hne. symmetry. now apply (H2 x y v w k).
  - (* OAssign *) destruct Hl as ((v & Hv) & (w & Hw)). rewrite (obj_eq s x v Hv), (obj_eq s y w Hw). unfold alloc. cbn [bind]. cbv beta iota zeta.
    set (n := v_size w). set (h := st_heap s ++ [Some (repeat None n)]).
    set (nv := mk_pvec (PHeap (length (st_heap s))) n true).
    assert (Hxl : x < length (st_objs s)) by (apply nth_error_Some; congruence).
    assert (Hnv : good h (st_ext s) nv).
    { unfold good, nv. cbn. split; [reflexivity|]. exists (repeat None n). split; [apply nth_alloc|apply repeat_length]. }
    assert (Hw1 : exists w1, nth_error (lset (st_objs s) x (Some nv)) y = Some (Some w1) /\ good h (st_ext s) w1 /\ v_size w1 = n).
    { destruct (Nat.eq_dec y x) as [->|Hne].
      - exists nv. split; [now apply nth_lset|]. split; [exact Hnv|reflexivity].
      - exists w. rewrite lset_other by auto. split; [exact Hw|]. split; [|reflexivity]. apply good_app. now apply (H1 y). }
    destruct Hw1 as (w1 & Hw1 & Hg1 & Hs1). unfold obj. cbn [st_objs]. rewrite Hw1. cbn [bind].
    match goal with |- context [load ?hh _ _ _] => change hh with h end.
    destruct (load_good _ _ w1 n Hg1 ltac:(lia)) as (l & -> & Hll). cbn [bind].
    do 2 eexists. split; [reflexivity|]. split; [|reflexivity]. cbn [st_objs].
    apply inv_set; auto.
    + intros z w' Hne Hz. apply good_lset; [now apply (fresh s z)|]. apply good_app. now apply (H1 z).
    + intros v' E. injection E as <-. split.
      * unfold good, nv. cbn. split; [reflexivity|]. exists l. split; [|exact Hll]. apply nth_lset. unfold h. rewrite app_length. cbn. lia.
      * unfold nv. cbn. intros k E z w' Hne Hz. injection E as <-. now apply (fresh s z).
  - (* OMoveAssign *) destruct Hl as ((v & Hv) & (w & Hw)). rewrite (obj_eq s x v Hv), (obj_eq s y w Hw). cbn [bind].
    do 2 eexists. split; [reflexivity|]. split; [|reflexivity]. split; cbn.
    + intros z u Hz. apply nth_lset_cases in Hz as [(-> & E)|(Hne & Hz)]; [injection E as ->; apply good_moved|].
      apply nth_lset_cases in Hz as [(-> & E)|(Hne2 & Hz)]; [injection E as ->; now apply (H1 y)|now apply (H1 z)].
    + intros z1 z2 u1 u2 k Hz1 Hz2 E1 E2.
      apply nth_lset_cases in Hz1 as [(-> & F1)|(Hn1 & Hz1)]; [injection F1 as ->; discriminate|].
      apply nth_lset_cases in Hz2 as [(-> & F2)|(Hn2 & Hz2)]; [injection F2 as ->; discriminate|].
      apply nth_lset_cases in Hz1 as [(-> & F1)|(Hn1' & Hz1)]; apply nth_lset_cases in Hz2 as [(-> & F2)|(Hn2' & Hz2)].
      * reflexivity.
      * injection F1 as ->. exfalso. apply Hn2. now apply (H2 z2 y u2 w k).
      * injection F2 as ->. exfalso. apply Hn1. now apply (H2 z1 y u1 w k).
      * now apply (H2 z1 z2 u1 u2 k).
  - (* ODestroy *) destruct Hl as (v & Hv). rewrite (obj_eq s x v Hv). cbn [bind]. destruct (v_own v) eqn:Ho.
    + destruct (free_own s x v Hi Hv Ho) as (h & -> & Hg & _). cbn [bind]. do 2 eexists. split; [reflexivity|]. split; [|reflexivity].
      apply inv_set; auto. discriminate.
    + cbn [bind]. do 2 eexists. split; [reflexivity|]. split; [|reflexivity]. apply inv_set; auto; [|discriminate].
      intros y w _ Hy. now apply (H1 y).
  - (* OResize *) destruct Hl as (v & Hv). rewrite (obj_eq s x v Hv). cbn [bind]. destruct (v_own v) eqn:Ho; cbn [negb].
    2: { do 2 eexists. split; [reflexivity|]. split; [exact Hi|reflexivity]. }
    set (hm := if n <? v_size v then n else v_size v).
    assert (Hhm : hm <= v_size v /\ hm <= n) by (unfold hm; destruct (Nat.ltb_spec n (v_size v)); lia).
    destruct (load_good _ _ v hm (H1 x v Hv) ltac:(lia)) as (l & -> & Hll). unfold alloc. cbn [bind]. cbv beta iota zeta.
    set (nl := l ++ repeat None (n - hm)).
    assert (Hnl : length nl = n) by (unfold nl; rewrite app_length, repeat_length; lia).
    pose proof (inv_alloc s nl Hi) as Hi2. set (s2 := add_obj _ _ _) in Hi2.
    assert (Hv2 : nth_error (st_objs s2) x = Some (Some v)).
    { unfold s2. cbn. rewrite nth_error_app1; [exact Hv|]. apply nth_error_Some. congruence. }
    destruct (free_own s2 x v Hi2 Hv2 Ho) as (h & Hf & Hg & _). unfold s2 in Hf. cbn in Hf. rewrite Hf. cbn [bind].
    do 2 eexists. split; [reflexivity|]. split; [|reflexivity].
    apply inv_set; auto.
    + intros y w Hne Hy. apply (Hg y w Hne). unfold s2. cbn. rewrite nth_error_app1; [exact Hy|]. apply nth_error_Some. congruence.
    + intros v' E. injection E as <-. split.
      * assert (Hy : nth_error (st_objs s2) (length (st_objs s)) = Some (Some (mk_pvec (PHeap (length (st_heap s))) (length nl) true))).
        { unfold s2. cbn. rewrite nth_error_app2, Nat.sub_diag by lia. reflexivity. }
        assert (Hne : length (st_objs s) <> x) by (assert (x < length (st_objs s)) by (apply nth_error_Some; congruence); lia).
        pose proof (Hg _ _ Hne Hy) as H. rewrite Hnl in H. exact H.
      * cbn. intros k E y w Hne Hy. injection E as <-. now apply (fresh s y).
  - (* OWrite *) destruct Hl as (v & Hv & Hlt). rewrite (obj_eq s x v Hv). cbn [bind]. pose proof (H1 x v Hv) as Hg.
    destruct (block_good s v i Hg Hlt) as (l & Hb & Hbl). unfold store. rewrite Hb.
    replace (i <? length l) with true by (symmetry; apply Nat.ltb_lt; exact Hbl).
    unfold good in Hg. unfold block in Hb. destruct (v_data v) as [|k|b] eqn:E; [discriminate| |]; cbn [bind].
    + do 2 eexists. split; [reflexivity|]. split; [|reflexivity]. destruct Hg as (Ho & l' & Hl' & Hs). rewrite Hl' in Hb. injection Hb as ->.
      split; cbn; [|exact H2]. intros y w Hy. destruct (Nat.eq_dec y x) as [->|Hne].
      * assert (w = v) by congruence. subst w. unfold good. rewrite E. split; [exact Ho|]. exists (lset l i (Some a)).
        rewrite lset_length. split; [|exact Hs]. apply nth_lset. apply nth_error_Some. congruence.
      * apply good_lset; [|now apply (H1 y)]. intros E2. apply Hne. now apply (H2 y x w v k).
    + do 2 eexists. split; [reflexivity|]. split; [|cbn; apply lset_length]. split; cbn; [|exact H2].
      intros y w Hy. pose proof (H1 y w Hy) as Hgw. unfold good in *. destruct (v_data w) as [|k|b'] eqn:Ew; auto.
      destruct Hgw as (Ho' & l' & Hl' & Hs'). split; [exact Ho'|]. destruct (Nat.eq_dec b' b) as [->|Hne].
      * exists (lset l i (Some a)). split; [apply nth_lset, nth_error_Some; congruence|]. rewrite lset_length.
        assert (l' = l) by congruence. subst l'. exact Hs'.
      * exists l'. rewrite lset_other by auto. auto.
  - (* ORead *) destruct Hl as (v & Hv & Hlt). rewrite (obj_eq s x v Hv). cbn [bind].
    destruct (fetch_good s v i (H1 x v Hv) Hlt) as (c & ->). cbn [bind]. do 2 eexists. split; [reflexivity|]. split; [exact Hi|reflexivity].
  - destruct Hl as (v & Hv & Hlt). rewrite (obj_eq s x v Hv). cbn [bind].
    destruct (fetch_good s v 0 (H1 x v Hv) Hlt) as (c & ->). cbn [bind]. do 2 eexists. split; [reflexivity|]. split; [exact Hi|reflexivity].
  - destruct Hl as (v & Hv & Hlt). rewrite (obj_eq s x v Hv). cbn [bind]. destruct (v_size v) as [|k] eqn:Ek; [lia|].
    destruct (fetch_good s v k (H1 x v Hv) ltac:(lia)) as (c & ->). cbn [bind]. do 2 eexists. split; [reflexivity|]. split; [exact Hi|reflexivity].
  - destruct Hl as (v & Hv & Hlt). rewrite (obj_eq s x v Hv). cbn [bind].
    destruct (fetch_good s v 0 (H1 x v Hv) Hlt) as (c & ->). cbn [bind]. do 2 eexists. split; [reflexivity|]. split; [exact Hi|reflexivity].
  - destruct Hl as (v & Hv & Hlt). rewrite (obj_eq s x v Hv). cbn [bind].
    destruct (fetch_good s v 0 (H1 x v Hv) Hlt) as (c & ->). cbn [bind]. do 2 eexists. split; [reflexivity|]. split; [exact Hi|reflexivity].
  - destruct Hl as (v & Hv). rewrite (obj_eq s x v Hv). cbn [bind]. do 2 eexists. split; [reflexivity|]. split; [exact Hi|reflexivity].
Qed.

Lemma inv_start (e : list (list (cell A))) : inv (start e).
Proof. split; intros x; cbn; [intros v|intros y v w k]; destruct x; discriminate. Qed.

Lemma run_ok prog : forall s, inv s -> legal_run prog s -> exists s' bs, run prog s = Ret (s', bs) /\ inv s'.
Proof.
  induction prog as [|o prog IH]; intros s Hi Hl; [exists s, []; auto|]. destruct Hl as (Hl & Hn).
  destruct (step_ok s o Hi Hl) as (s1 & b & E & Hi1 & _). destruct (IH s1 Hi1 (Hn s1 b E)) as (s2 & bs & E2 & Hi2).
  exists s2, (b :: bs). split; [|exact Hi2]. cbn [run]. rewrite E. cbn [bind]. rewrite E2. reflexivity.
Qed.

Lemma memory_safe prog (e : list (list (cell A))) : legal_run prog (start e) -> exists s' bs, run prog (start e) = Ret (s', bs).
Proof. intros H. destruct (run_ok prog (start e) (inv_start e) H) as (s' & bs & E & _). eauto. Qed.

(** ** refinement of plain lists *)
Definition agrees (h : heap (A := A)) (l : list (cell A)) (f : bool) (v : pvec) : Prop :=
  v_own v = f /\ v_size v = length l /\
  match v_data v with PNull => l = [] | PHeap k => nth_error h k = Some (Some l) | PExt _ => False end.

Definition rel (vs : values (A := A)) (s : state) : Prop :=
  length vs = length (st_objs s) /\
  (forall x v, nth_error (st_objs s) x = Some (Some v) -> exists l f, nth_error vs x = Some (Some (l, f)) /\ agrees (st_heap s) l f v) /\
  (forall x, nth_error (st_objs s) x = Some None -> nth_error vs x = Some None).

Lemma rel_val vs s x l f : rel vs s -> val vs x = Some (l, f) ->
  exists v, nth_error (st_objs s) x = Some (Some v) /\ agrees (st_heap s) l f v /\ nth_error vs x = Some (Some (l, f)).
Proof.
  intros (H0 & H1 & H2) Hv. unfold val in Hv. destruct (nth_error vs x) as [[u|]|] eqn:E; try discriminate. injection Hv as ->.
  assert (Hx : x < length (st_objs s)) by (rewrite <- H0; apply nth_error_Some; congruence).
  destruct (nth_error (st_objs s) x) as [[v|]|] eqn:Ev.
  - destruct (H1 x v Ev) as (l' & f' & E' & Ha). rewrite E' in E. injection E as -> ->. eauto.
  - rewrite (H2 x Ev) in E. discriminate.
  - apply nth_error_None in Ev. lia.
Qed.

Lemma agrees_app h l f v b : agrees h l f v -> agrees (h ++ [b]) l f v.
Proof.
  intros (Ho & Hs & Hd). split; [exact Ho|]. split; [exact Hs|]. destruct (v_data v); auto.
  rewrite nth_error_app1; [exact Hd|]. apply nth_error_Some. congruence.
Qed.

Lemma agrees_lset h l f v k b : v_data v <> PHeap k -> agrees h l f v -> agrees (lset h k b) l f v.
Proof.
  intros Hne (Ho & Hs & Hd). split; [exact Ho|]. split; [exact Hs|]. destruct (v_data v); auto.
  rewrite lset_other; [exact Hd|]. congruence.
Qed.

Lemma rel_add vs s (h : heap) l f v : rel vs s ->
  (forall x w l' f', nth_error (st_objs s) x = Some (Some w) -> agrees (st_heap s) l' f' w -> agrees h l' f' w) ->
  agrees h l f v -> rel (vs ++ [Some (l, f)]) (add_obj s h v).
Proof.
  intros (H0 & H1 & H2) Hh Hv. split; [cbn; rewrite !app_length; cbn; lia|]. split; cbn.
  - intros x w Hx. apply nth_app_cases in Hx as [Hx|(-> & Hx)].
    + destruct (H1 x w Hx) as (l' & f' & E & Ha). exists l', f'. split; [|now apply (Hh x)]. rewrite nth_error_app1; [exact E|].
      apply nth_error_Some. congruence.
    + injection Hx as ->. exists l, f. split; [|exact Hv]. rewrite <- H0, nth_error_app2, Nat.sub_diag by lia. reflexivity.
  - intros x Hx. apply nth_app_cases in Hx as [Hx|(-> & Hx)]; [|discriminate]. rewrite nth_error_app1; [now apply H2|].
    rewrite H0. apply nth_error_Some. congruence.
Qed.

Definition entry (h : heap (A := A)) (sv : option value) (ov : option pvec) : Prop :=
  match sv, ov with Some (l, f), Some v => agrees h l f v | None, None => True | _, _ => False end.

Lemma rel_set vs s (h : heap) e x sv ov : rel vs s ->
  (forall y w l' f', y <> x -> nth_error (st_objs s) y = Some (Some w) -> agrees (st_heap s) l' f' w -> agrees h l' f' w) ->
  entry h sv ov -> rel (lset vs x sv) (mk_state h e (lset (st_objs s) x ov)).
Proof.
  intros (H0 & H1 & H2) Hh Hv. split; [cbn; now rewrite !lset_length|]. split; cbn.
  - intros y w Hy. pose proof Hy as Hlt. apply nth_lset_cases in Hy as [(-> & E)|(Hne & Hy)].
    + subst ov. destruct sv as [(l, f)|]; [|contradiction]. exists l, f. split; [|exact Hv]. apply nth_lset.
      rewrite H0, <- (lset_length (st_objs s) x (Some w)). apply nth_error_Some. congruence.
    + destruct (H1 y w Hy) as (l' & f' & E & Ha). exists l', f'. split; [rewrite lset_other by auto; exact E|]. now apply (Hh y).
  - intros y Hy. pose proof Hy as Hlt. apply nth_lset_cases in Hy as [(-> & E)|(Hne & Hy)].
    + subst ov. destruct sv as [(l, f)|]; [contradiction|]. apply nth_lset.
      rewrite H0, <- (lset_length (st_objs s) x None). apply nth_error_Some. congruence.
    + rewrite lset_other by auto. now apply H2.
Qed.

Lemma agrees_moved h : agrees h [] false moved_from.
Proof. repeat split. Qed.

Lemma agrees_load h e l f v n : agrees h l f v -> n <= length l -> load h e (v_data v) n = Ret (firstn n l).
Proof.
  intros (Ho & Hs & Hd) Hn. unfold load. destruct n as [|n]; [reflexivity|]. unfold block. destruct (v_data v) as [|k|].
  - subst l. cbn in Hn. lia.
  - rewrite Hd. replace (S n <=? length l) with true by (symmetry; apply Nat.leb_le; lia). reflexivity.
  - contradiction.
Qed.

Lemma agrees_fetch (s : state) l f v i c : agrees (st_heap s) l f v -> nth_error l i = Some c -> fetch s (v_data v) i = Ret c.
Proof.
  intros (Ho & Hs & Hd) Hi. unfold fetch, block. destruct (v_data v) as [|k|].
  - subst l. destruct i; discriminate.
  - rewrite Hd. now rewrite Hi.
  - contradiction.
Qed.

Lemma agrees_fresh (h : heap (A := A)) l : agrees (h ++ [Some l]) l true (mk_pvec (PHeap (length h)) (length l) true).
Proof. repeat split. cbn. apply nth_alloc. Qed.

(** the freed block belonged to x alone *)
Lemma rel_free s x v h : inv s -> nth_error (st_objs s) x = Some (Some v) -> free (st_heap s) (v_data v) = Ret h ->
  forall y w l f, y <> x -> nth_error (st_objs s) y = Some (Some w) -> agrees (st_heap s) l f w -> agrees h l f w.
Proof.
  intros (H1 & H2) Hx Hf y w l f Hne Hy Ha. unfold free in Hf. destruct (v_data v) as [|k|] eqn:E; [injection Hf as <-; exact Ha| |discriminate].
  destruct (nth_error (st_heap s) k) as [[l0|]|]; try discriminate. injection Hf as <-. apply agrees_lset; [|exact Ha].
  intros E2. apply Hne. now apply (H2 y x w v k).
Qed.

Lemma nth_rev_last {B} (l : list B) c r : rev l = c :: r -> nth_error l (pred (length l)) = Some c.
Proof.
  intros H. assert (E : l = rev r ++ [c]). { rewrite <- (rev_involutive l), H. reflexivity. }
  rewrite E, app_length, nth_error_app2 by (cbn; lia). cbn. replace (pred (length (rev r) + 1) - length (rev r)) with 0 by lia. reflexivity.
Qed.

Lemma step_refines s vs o vs' b : inv s -> rel vs s -> spec_step o vs = Some (vs', b) ->
  exists s', step o s = Ret (s', b) /\ inv s' /\ rel vs' s'.
Proof.
  intros Hi Hr Hs.
  assert (Hal : forall x l f, val vs x = Some (l, f) -> alive s x).
  { intros x l f Hv. destruct (rel_val vs s x l f Hr Hv) as (v & Hx & _). now exists v. }
  assert (Hin : forall x l f i, val vs x = Some (l, f) -> i < length l -> in_size s x i).
  { intros x l f i Hv Hl. destruct (rel_val vs s x l f Hr Hv) as (v & Hx & (_ & Hsz & _) & _). exists v. split; [exact Hx|lia]. }
  assert (Hleg : legal s o).
  { destruct o; cbn [spec_step legal] in *; auto; try discriminate.
    - destruct (val vs x) as [(l, f)|] eqn:E; [|discriminate]. now apply (Hal x l f).
    - destruct (val vs x) as [(l, f)|] eqn:E; [|discriminate]. now apply (Hal x l f).
    - destruct (val vs x) as [(l, f)|] eqn:E; [|discriminate]. destruct (val vs y) as [(l2, f2)|] eqn:E2; [|discriminate].
      split; [now apply (Hal x l f)|now apply (Hal y l2 f2)].
    - destruct (val vs x) as [(l, f)|] eqn:E; [|discriminate]. destruct (val vs y) as [(l2, f2)|] eqn:E2; [|discriminate].
      split; [now apply (Hal x l f)|now apply (Hal y l2 f2)].
    - destruct (val vs x) as [(l, f)|] eqn:E; [|discriminate]. now apply (Hal x l f).
    - destruct (val vs x) as [(l, f)|] eqn:E; [|discriminate]. now apply (Hal x l f).
    - destruct (val vs x) as [(l, f)|] eqn:E; [|discriminate]. destruct (Nat.ltb_spec i (length l)); [|discriminate]. now apply (Hin x l f).
    - destruct (val vs x) as [(l, f)|] eqn:E; [|discriminate]. destruct (nth_error l i) eqn:Ei; [|discriminate]. apply (Hin x l f i E).
      apply nth_error_Some. congruence.
    - destruct (val vs x) as [(l, f)|] eqn:E; [|discriminate]. destruct (rev l) eqn:Er; [discriminate|]. apply (Hin x l f 0 E).
      rewrite <- rev_length, Er. cbn. lia.
    - destruct (val vs x) as [([|c l], f)|] eqn:E; try discriminate. apply (Hin x _ f 0 E). cbn. lia.
    - destruct (val vs x) as [([|c l], f)|] eqn:E; try discriminate. apply (Hin x _ f 0 E). cbn. lia.
    - destruct (val vs x) as [(l, f)|] eqn:E; [|discriminate]. now apply (Hal x l f). }
  destruct (step_ok s o Hi Hleg) as (s' & b' & Est & Hi' & _).
  enough (Hg : exists s2, step o s = Ret (s2, b) /\ rel vs' s2).
  { destruct Hg as (s2 & E2 & Hr2). rewrite E2 in Est. injection Est as -> ->. eauto. }
  clear Hal Hin. destruct o; cbn [spec_step step legal] in *; try discriminate.
  - (* ONew *) injection Hs as <- <-. cbn. eexists. split; [reflexivity|]. apply rel_add; auto; [intros; now apply agrees_app|].
    pose proof (agrees_fresh (st_heap s) (repeat None n)) as H. now rewrite repeat_length in H.
  - injection Hs as <- <-. cbn. eexists. split; [reflexivity|]. apply rel_add; auto; [intros; now apply agrees_app|].
    pose proof (agrees_fresh (st_heap s) (map Some l)) as H. now rewrite map_length in H.
  - injection Hs as <- <-. eexists. split; [reflexivity|]. apply rel_add; auto. repeat split.
  - (* OCopy *) destruct (val vs x) as [(l, f)|] eqn:E; [|discriminate]. injection Hs as <- <-.
    destruct (rel_val vs s x l f Hr E) as (v & Hx & Ha & _). rewrite (obj_eq s x v Hx). cbn [bind].
    pose proof Ha as (_ & Hsz & _). rewrite Hsz, (agrees_load _ (st_ext s) l f v (length l) Ha (le_n _)), firstn_all. cbn.
    eexists. split; [reflexivity|]. apply rel_add; auto; [intros; now apply agrees_app|]. apply agrees_fresh.
  - (* OMove *) destruct (val vs x) as [(l, f)|] eqn:E; [|discriminate]. injection Hs as <- <-.
    destruct (rel_val vs s x l f Hr E) as (v & Hx & Ha & _). rewrite (obj_eq s x v Hx). cbn [bind].
    eexists. split; [reflexivity|].
    apply (rel_add (lset vs x (Some ([], false))) (set_obj s x (Some moved_from))); auto.
    apply rel_set; auto. apply agrees_moved.
  - (* OAssign *) destruct (val vs x) as [(lx, fx)|] eqn:E; [|discriminate]. destruct (val vs y) as [(l, f)|] eqn:E2; [|discriminate].
    destruct (Nat.eqb_spec x y) as [|Hxy]; [discriminate|]. injection Hs as <- <-.
    destruct (rel_val vs s x lx fx Hr E) as (v & Hx & _). destruct (rel_val vs s y l f Hr E2) as (w & Hy & Ha & _).
    rewrite (obj_eq s x v Hx), (obj_eq s y w Hy). unfold alloc. cbn [bind]. cbv beta iota zeta.
    unfold obj. cbn [st_objs]. rewrite lset_other by auto. rewrite Hy. cbn [bind].
    pose proof Ha as (_ & Hsz & _). rewrite Hsz.
    rewrite (agrees_load _ (st_ext s) l f w (length l) (agrees_app _ _ _ _ _ Ha) (le_n _)), firstn_all. cbn [bind].
    eexists. split; [reflexivity|]. apply rel_set; auto.
    + intros z u l' f' Hne Hz Hz2. apply agrees_lset; [now apply (fresh s z)|now apply agrees_app].
    + repeat split. cbn. apply nth_lset. rewrite app_length. cbn. lia.
  - (* OMoveAssign *) destruct (val vs x) as [(lx, fx)|] eqn:E; [|discriminate]. destruct (val vs y) as [(l, f)|] eqn:E2; [|discriminate].
    destruct (Nat.eqb_spec x y) as [|Hxy]; [discriminate|]. injection Hs as <- <-.
    destruct (rel_val vs s x lx fx Hr E) as (v & Hx & _). destruct (rel_val vs s y l f Hr E2) as (w & Hy & Ha & _).
    rewrite (obj_eq s x v Hx), (obj_eq s y w Hy). cbn [bind].
    eexists. split; [reflexivity|]. apply (rel_set (lset vs x (Some (l, f))) (set_obj s x (Some w))); auto; [|apply agrees_moved].
    apply rel_set; auto.
  - (* ODestroy *) destruct (val vs x) as [(l, f)|] eqn:E; [|discriminate]. injection Hs as <- <-.
    destruct (rel_val vs s x l f Hr E) as (v & Hx & Ha & _). rewrite (obj_eq s x v Hx) in *. cbn [bind] in *.
    destruct (v_own v) eqn:Ho.
    + destruct (free_own s x v Hi Hx Ho) as (h & Hf & _). rewrite Hf. cbn [bind]. eexists. split; [reflexivity|].
      apply rel_set; auto; [|exact I]. now apply (rel_free s x v).
    + cbn [bind]. eexists. split; [reflexivity|]. apply rel_set; auto. exact I.
  - (* OResize *) destruct (val vs x) as [(l, f)|] eqn:E; [|discriminate].
    destruct (rel_val vs s x l f Hr E) as (v & Hx & Ha & _). rewrite (obj_eq s x v Hx) in *. cbn [bind] in *.
    pose proof Ha as (Ho & Hsz & _). rewrite Ho. destruct f; cbn [negb].
    2: { injection Hs as <- <-. eauto. }
    injection Hs as <- <-. clear Est. rewrite Hsz.
    set (hm := if n <? length l then n else length l).
    assert (Hhm : hm <= length l /\ hm <= n /\ n - hm = n - length l /\ firstn hm l = firstn n l).
    { unfold hm. destruct (Nat.ltb_spec n (length l)); repeat split; try lia. rewrite firstn_all. symmetry. now apply firstn_all2. }
    destruct Hhm as (Hh1 & Hh2 & Hh3 & Hh4).
    rewrite (agrees_load _ (st_ext s) l true v hm Ha Hh1). unfold alloc. cbn [bind]. cbv beta iota zeta.
    rewrite Hh4, Hh3. set (nl := firstn n l ++ repeat None (n - length l)).
    assert (Hnl : length nl = n). { unfold nl. rewrite app_length, repeat_length, firstn_length. lia. }
    pose proof (inv_alloc s nl Hi) as Hi2. set (s2 := add_obj _ _ _) in Hi2.
    assert (Hv2 : nth_error (st_objs s2) x = Some (Some v)).
    { unfold s2. cbn. rewrite nth_error_app1; [exact Hx|]. apply nth_error_Some. congruence. }
    destruct (free_own s2 x v Hi2 Hv2 Ho) as (h & Hf & _). pose proof Hf as Hf2. unfold s2 in Hf. cbn in Hf. rewrite Hf. cbn [bind].
    eexists. split; [reflexivity|]. apply rel_set; auto.
    + intros y w l' f' Hne Hy Hay. apply (rel_free s2 x v h Hi2 Hv2 Hf2 y w l' f' Hne).
      * unfold s2. cbn. rewrite nth_error_app1; [exact Hy|]. apply nth_error_Some. congruence.
      * cbn. now apply agrees_app.
    + assert (Hne : length (st_objs s) <> x) by (assert (x < length (st_objs s)) by (apply nth_error_Some; congruence); lia).
      pose proof (rel_free s2 x v h Hi2 Hv2 Hf2 (length (st_objs s)) (mk_pvec (PHeap (length (st_heap s))) (length nl) true) nl true Hne) as H.
      rewrite Hnl in H. apply H.
      * unfold s2. cbn. rewrite Hnl, nth_error_app2, Nat.sub_diag by lia. reflexivity.
      * cbn. pose proof (agrees_fresh (st_heap s) nl) as Hf3. rewrite Hnl in Hf3. exact Hf3.
  - (* OWrite *) destruct (val vs x) as [(l, f)|] eqn:E; [|discriminate]. destruct (Nat.ltb_spec i (length l)) as [Hlt|]; [|discriminate]. injection Hs as <- <-.
    destruct (rel_val vs s x l f Hr E) as (v & Hx & Ha & Hvx). rewrite (obj_eq s x v Hx) in *. cbn [bind] in *. clear Est.
    pose proof Ha as (Ho & Hsz & Hd). unfold store, block. destruct (v_data v) as [|k|b] eqn:Ed; [subst l; cbn in Hlt; lia| |contradiction].
    rewrite Hd. replace (i <? length l) with true by (symmetry; apply Nat.ltb_lt; exact Hlt). cbn [bind].
    eexists. split; [reflexivity|].
    assert (Hsame : lset (st_objs s) x (Some v) = st_objs s).
    { apply nth_error_ext. intros y. destruct (Nat.eq_dec y x) as [->|Hne]; [|now rewrite lset_other by auto].
      rewrite nth_lset; [now symmetry|]. apply nth_error_Some. congruence. }
    rewrite <- Hsame. apply rel_set; auto.
    + intros y w l' f' Hne Hy Hay. apply agrees_lset; [|exact Hay]. intros E2. apply Hne. now apply (proj2 Hi y x w v k).
    + cbn. unfold agrees. rewrite Ed, lset_length. repeat split; auto. apply nth_lset. apply nth_error_Some. congruence.
  - (* ORead *) destruct (val vs x) as [(l, f)|] eqn:E; [|discriminate]. destruct (nth_error l i) as [c|] eqn:Ei; [|discriminate]. injection Hs as <- <-.
    destruct (rel_val vs s x l f Hr E) as (v & Hx & Ha & _). rewrite (obj_eq s x v Hx). cbn [bind].
    rewrite (agrees_fetch s l f v i c Ha Ei). cbn [bind]. eauto.
  - (* OBackConst *) destruct (val vs x) as [(l, f)|] eqn:E; [|discriminate]. destruct (rev l) as [|c r] eqn:Er; [discriminate|]. injection Hs as <- <-.
    destruct (rel_val vs s x l f Hr E) as (v & Hx & Ha & _). rewrite (obj_eq s x v Hx). cbn [bind].
    pose proof Ha as (_ & Hsz & _). pose proof (nth_rev_last l c r Er) as Hn. rewrite Hsz.
    destruct (length l) as [|m] eqn:El; [apply length_zero_iff_nil in El; subst l; discriminate|]. cbn [pred] in Hn.
    rewrite (agrees_fetch s l f v m c Ha Hn). cbn [bind]. eauto.
  - destruct (val vs x) as [([|c l], f)|] eqn:E; try discriminate. injection Hs as <- <-.
    destruct (rel_val vs s x _ f Hr E) as (v & Hx & Ha & _). rewrite (obj_eq s x v Hx). cbn [bind].
    rewrite (agrees_fetch s _ f v 0 c Ha eq_refl). cbn [bind]. eauto.
  - destruct (val vs x) as [([|c l], f)|] eqn:E; try discriminate. injection Hs as <- <-.
    destruct (rel_val vs s x _ f Hr E) as (v & Hx & Ha & _). rewrite (obj_eq s x v Hx). cbn [bind].
    rewrite (agrees_fetch s _ f v 0 c Ha eq_refl). cbn [bind]. eauto.
  - destruct (val vs x) as [(l, f)|] eqn:E; [|discriminate]. injection Hs as <- <-.
    destruct (rel_val vs s x _ f Hr E) as (v & Hx & Ha & _). rewrite (obj_eq s x v Hx). cbn [bind].
    destruct Ha as (_ & -> & _). eauto.
Qed.

Lemma run_refines prog : forall s vs vs' bs, inv s -> rel vs s -> spec_run prog vs = Some (vs', bs) ->
  exists s', run prog s = Ret (s', bs) /\ inv s' /\ rel vs' s'.
Proof.
  induction prog as [|o prog IH]; intros s vs vs' bs Hi Hr Hs.
  - injection Hs as <- <-. exists s. repeat split; auto; apply Hr || apply Hi.
  - cbn [spec_run] in Hs. destruct (spec_step o vs) as [(vs1, b)|] eqn:E; [|discriminate].
    destruct (spec_run prog vs1) as [(vs2, bs1)|] eqn:E2; [|discriminate]. injection Hs as <- <-.
    destruct (step_refines s vs o vs1 b Hi Hr E) as (s1 & Es & Hi1 & Hr1).
    destruct (IH s1 vs1 vs2 bs1 Hi1 Hr1 E2) as (s2 & Es2 & Hi2 & Hr2).
    exists s2. split; [|auto]. cbn [run]. rewrite Es. cbn [bind]. rewrite Es2. reflexivity.
Qed.

Lemma rel_start (e : list (list (cell A))) : rel [] (start e).
Proof. split; [reflexivity|]. split; intros x; [intros v|]; destruct x; discriminate. Qed.

Lemma refines prog (e : list (list (cell A))) vs bs : spec_run prog [] = Some (vs, bs) ->
  exists s', run prog (start e) = Ret (s', bs).
Proof. intros H. destruct (run_refines prog (start e) [] vs bs (inv_start e) (rel_start e) H) as (s' & E & _). eauto. Qed.

(** ** exact accounting of storage *)
Lemma filter_app_len {B} (f : B -> bool) l b : length (filter f (l ++ [b])) = length (filter f l) + (if f b then 1 else 0).
Proof. rewrite filter_app, app_length. cbn. destruct (f b); reflexivity. Qed.

Lemma filter_lset_len {B} (f : B -> bool) (l : list B) : forall i b c, nth_error l i = Some b ->
  length (filter f (lset l i c)) + (if f b then 1 else 0) = length (filter f l) + (if f c then 1 else 0).
Proof.
  induction l as [|a l IH]; intros [|i] b c H; try discriminate.
  - injection H as ->. cbn. destruct (f b), (f c); cbn; lia.
  - cbn in H. specialize (IH i b c H). cbn. destruct (f a); cbn; lia.
Qed.

Definition bcount (h : heap (A := A)) : nat := live_blocks h.

Lemma blocks_app (h : heap (A := A)) l : live_blocks (h ++ [Some l]) = S (live_blocks h).
Proof. unfold live_blocks. rewrite filter_app_len. lia. Qed.

Lemma blocks_write (h : heap (A := A)) k l l' : nth_error h k = Some (Some l) -> live_blocks (lset h k (Some l')) = live_blocks h.
Proof.
  intros H. pose proof (filter_lset_len (fun b => match b with Some _ => true | None => false end) h k _ (Some l') H).
  unfold live_blocks. cbn in H0. lia.
Qed.

Lemma blocks_free (h : heap (A := A)) p h' : free h p = Ret h' ->
  live_blocks h' + match p with PNull => 0 | _ => 1 end = live_blocks h.
Proof.
  unfold free. destruct p as [|k|]; [intros H; injection H as <-; lia| |discriminate].
  destruct (nth_error h k) as [[l|]|] eqn:E; try discriminate. intros H. injection H as <-.
  pose proof (filter_lset_len (fun b => match b with Some _ => true | None => false end) h k _ None E) as H.
  unfold live_blocks. cbn in H. lia.
Qed.

Lemma holders_app objs v : holders (objs ++ [Some v]) = holders objs + (if holds v then 1 else 0).
Proof. unfold holders. now rewrite filter_app_len. Qed.

Definition hold1 (o : option pvec) : nat := match o with Some v => if holds v then 1 else 0 | None => 0 end.

Lemma holders_set objs x o o' : nth_error objs x = Some o -> holders (lset objs x o') + hold1 o = holders objs + hold1 o'.
Proof.
  intros H. pose proof (filter_lset_len (fun b => match b with Some v => holds v | None => false end) objs x o o' H) as E.
  unfold holders, hold1. destruct o as [v|], o' as [v'|]; exact E.
Qed.

Lemma step_storage s o s' b : inv s -> step o s = Ret (s', b) -> (forall x n, o <> OView x n) ->
  live_blocks (st_heap s') + holders (st_objs s) = live_blocks (st_heap s) + holders (st_objs s') + overwrites s o.
Proof.
  intros Hi Hs Hv. pose proof Hi as (H1 & H2).
  assert (Hobj : forall x v, obj s x = Ret v -> nth_error (st_objs s) x = Some (Some v)).
  { unfold obj. intros x v. destruct (nth_error (st_objs s) x) as [[u|]|]; try discriminate. intros E. injection E as ->. reflexivity. }
  destruct o; cbn [step overwrites] in *.
  - cbn in Hs. injection Hs as <- <-. cbn [st_heap st_objs add_obj]. rewrite blocks_app, holders_app. cbn. lia.
  - cbn in Hs. injection Hs as <- <-. cbn [st_heap st_objs add_obj]. rewrite blocks_app, holders_app. cbn. lia.
  - injection Hs as <- <-. cbn [st_heap st_objs add_obj]. rewrite holders_app. cbn. lia.
  - injection Hs as <- <-. cbn [st_heap st_objs add_obj]. rewrite holders_app. cbn. lia.
  - now destruct (Hv x n).
  - destruct (obj s x) as [v| | |] eqn:E; try discriminate. cbn [bind] in Hs.
    destruct (load _ _ _ _) as [l| | |]; try discriminate. cbn in Hs. injection Hs as <- <-. cbn [st_heap st_objs add_obj].
    rewrite blocks_app, holders_app. cbn. lia.
  - destruct (obj s x) as [v| | |] eqn:E; try discriminate. cbn [bind] in Hs. injection Hs as <- <-. cbn [st_heap st_objs add_obj set_obj].
    rewrite holders_app. pose proof (holders_set (st_objs s) x _ (Some moved_from) (Hobj x v E)). cbn [hold1] in *.
    change (holds moved_from) with false in *. cbn iota in *. lia.
  - destruct (obj s x) as [v| | |] eqn:E; try discriminate. destruct (obj s y) as [w| | |] eqn:E2; try discriminate.
    unfold alloc in Hs. cbn [bind] in Hs. cbv beta iota zeta in Hs.
    match type of Hs with (do _ <- ?m; _) = _ => destruct m as [w1| | |]; try discriminate end. cbn [bind] in Hs.
    destruct (load _ _ _ _) as [l| | |]; try discriminate. cbn [bind] in Hs. injection Hs as <- <-. cbn [st_heap st_objs].
    rewrite (blocks_write _ _ (repeat None (v_size w)) l) by apply nth_alloc. rewrite blocks_app, (Hobj x v E).
    match goal with |- context [lset (st_objs s) x ?n] => pose proof (holders_set (st_objs s) x _ n (Hobj x v E)) as Hh end.
    cbn [hold1] in Hh. cbn [holds v_own v_data andb] in Hh. lia.
  - destruct (obj s x) as [v| | |] eqn:E; try discriminate. destruct (obj s y) as [w| | |] eqn:E2; try discriminate.
    cbn [bind] in Hs. injection Hs as <- <-. cbn [st_heap st_objs set_obj]. rewrite (Hobj x v E).
    pose proof (holders_set (st_objs s) x _ (Some w) (Hobj x v E)) as Hh. cbn [hold1] in Hh.
    assert (Hy : nth_error (lset (st_objs s) x (Some w)) y = Some (Some w)).
    { destruct (Nat.eq_dec y x) as [->|Hne]; [apply nth_lset; apply nth_error_Some; rewrite (Hobj x v E); discriminate|].
      rewrite lset_other by auto. now apply Hobj. }
    pose proof (holders_set _ y _ (Some moved_from) Hy) as Hh2. cbn [hold1] in Hh2. change (holds moved_from) with false in Hh2. cbn iota in Hh2. lia.
  - destruct (obj s x) as [v| | |] eqn:E; try discriminate. cbn [bind] in Hs.
    pose proof (holders_set (st_objs s) x _ None (Hobj x v E)) as Hh. cbn [hold1] in Hh.
    destruct (v_own v) eqn:Ho.
    + destruct (free _ _) as [h| | |] eqn:Ef; try discriminate. cbn [bind] in Hs. injection Hs as <- <-. cbn [st_heap st_objs set_obj].
      apply blocks_free in Ef. unfold holds in Hh. rewrite Ho in Hh. destruct (v_data v); cbn in Hh, Ef; lia.
    + cbn [bind] in Hs. injection Hs as <- <-. cbn [st_heap st_objs set_obj]. unfold holds in Hh. rewrite Ho in Hh. cbn in Hh. lia.
  - destruct (obj s x) as [v| | |] eqn:E; try discriminate. cbn [bind] in Hs. destruct (v_own v) eqn:Ho; cbn [negb] in Hs.
    2: { injection Hs as <- <-. lia. }
    destruct (load _ _ _ _) as [l| | |]; try discriminate. unfold alloc in Hs. cbn [bind] in Hs. cbv beta iota zeta in Hs.
    destruct (free _ _) as [h| | |] eqn:Ef; try discriminate. cbn [bind] in Hs. injection Hs as <- <-. cbn [st_heap st_objs].
    apply blocks_free in Ef. rewrite blocks_app in Ef.
    match goal with |- context [lset (st_objs s) x ?n] => pose proof (holders_set (st_objs s) x _ n (Hobj x v E)) as Hh end.
    cbn [hold1] in Hh. unfold holds in Hh. rewrite Ho in Hh. cbn [v_own v_data andb] in Hh. destruct (v_data v); cbn in Hh, Ef; lia.
  - destruct (obj s x) as [v| | |] eqn:E; try discriminate. cbn [bind] in Hs. unfold store, block in Hs.
    destruct (v_data v) as [|k|b']; [discriminate| |].
    + destruct (nth_error (st_heap s) k) as [[l|]|] eqn:Ek; try discriminate. destruct (i <? length l); [|discriminate].
      cbn [bind] in Hs. injection Hs as <- <-. cbn [st_heap st_objs]. rewrite (blocks_write _ k l _ Ek). lia.
    + destruct (nth_error (st_ext s) b') as [l|]; [|discriminate]. destruct (i <? length l); [|discriminate].
      cbn [bind] in Hs. injection Hs as <- <-. cbn [st_heap st_objs]. lia.
  - destruct (obj s x) as [v| | |] eqn:E; try discriminate. cbn [bind] in Hs. destruct (fetch _ _ _); try discriminate. cbn [bind] in Hs. injection Hs as <- <-. lia.
  - destruct (obj s x) as [v| | |] eqn:E; try discriminate. cbn [bind] in Hs. destruct (fetch _ _ _); try discriminate. cbn [bind] in Hs. injection Hs as <- <-. lia.
  - destruct (obj s x) as [v| | |] eqn:E; try discriminate. cbn [bind] in Hs. destruct (v_size v); [discriminate|].
    destruct (fetch _ _ _); try discriminate. cbn [bind] in Hs. injection Hs as <- <-. lia.
  - destruct (obj s x) as [v| | |] eqn:E; try discriminate. cbn [bind] in Hs. destruct (fetch _ _ _); try discriminate. cbn [bind] in Hs. injection Hs as <- <-. lia.
  - destruct (obj s x) as [v| | |] eqn:E; try discriminate. cbn [bind] in Hs. destruct (fetch _ _ _); try discriminate. cbn [bind] in Hs. injection Hs as <- <-. lia.
  - destruct (obj s x) as [v| | |] eqn:E; try discriminate. cbn [bind] in Hs. injection Hs as <- <-. lia.
Qed.

Lemma run_storage prog : forall s, inv s -> legal_run prog s -> forall s' bs, run prog s = Ret (s', bs) ->
  live_blocks (st_heap s') + holders (st_objs s) = live_blocks (st_heap s) + holders (st_objs s') + overwritten prog s.
Proof.
  induction prog as [|o prog IH]; intros s Hi Hl s' bs Hr.
  - injection Hr as <- <-. cbn. lia.
  - destruct Hl as (Hl & Hn). destruct (step_ok s o Hi Hl) as (s1 & b & E & Hi1 & _). cbn [run overwritten] in *. rewrite E in *. cbn [bind] in Hr.
    destruct (run prog s1) as [(s2, bs2)| | |] eqn:E2; try discriminate. cbn [bind] in Hr. injection Hr as <- <-.
    pose proof (IH s1 Hi1 (Hn s1 b eq_refl) s2 bs2 E2) as H.
    assert (Hnv : forall x n, o <> OView x n) by (intros x n ->; exact Hl).
    pose proof (step_storage s o s1 b Hi E Hnv). lia.
Qed.

Lemma storage prog (e : list (list (cell A))) s' bs : legal_run prog (start e) -> run prog (start e) = Ret (s', bs) ->
  live_blocks (st_heap s') = holders (st_objs s') + overwritten prog (start e).
Proof.
  intros Hl Hr. pose proof (run_storage prog (start e) (inv_start e) Hl s' bs Hr) as H.
  unfold holders at 1, live_blocks at 2 in H. cbn in H. lia.
Qed.

Lemma holders_none objs : (forall x v, nth_error objs x = Some (Some v) -> v_own v = false) -> holders objs = 0.
Proof.
  unfold holders. induction objs as [|o objs IH]; intros H; [reflexivity|]. cbn.
  assert (IH' := IH (fun x v E => H (S x) v E)). destruct o as [v|]; [|exact IH'].
  unfold holds at 1. rewrite (H 0 v eq_refl). exact IH'.
Qed.

Lemma no_leak prog (e : list (list (cell A))) s' bs : legal_run prog (start e) -> run prog (start e) = Ret (s', bs) ->
  overwritten prog (start e) = 0 -> (forall x v, nth_error (st_objs s') x = Some (Some v) -> v_own v = false) ->
  forall k, nth_error (st_heap s') k <> Some (Some []) /\ forall l, nth_error (st_heap s') k <> Some (Some l).
Proof.
  intros Hl Hr Ho Hd. pose proof (storage prog e s' bs Hl Hr) as H. rewrite (holders_none _ Hd), Ho in H.
  assert (Hk : forall k l, nth_error (st_heap s') k <> Some (Some l)).
  { intros k l Hk. unfold live_blocks in H. apply nth_error_In in Hk.
    assert (Hin : In (Some l) (filter (fun b => match b with Some _ => true | None => false end) (st_heap s'))) by (apply filter_In; auto).
    destruct (filter _ (st_heap s')); [destruct Hin|discriminate]. }
  intros k. split; [apply Hk|]. intros l. apply Hk.
Qed.

(** ** self-assignment *)
Lemma self_assign (s : state) x v : nth_error (st_objs s) x = Some (Some v) ->
  exists s' v', step (OAssign x x) s = Ret (s', Done) /\ nth_error (st_objs s') x = Some (Some v') /\
    v_size v' = v_size v /\ forall i, i < v_size v -> step (ORead x i) s' = Ret (s', Value None).
Proof.
  intros Hx. cbn [step]. rewrite (obj_eq s x v Hx). unfold alloc. cbn [bind]. cbv beta iota zeta.
  assert (Hxl : x < length (st_objs s)) by (apply nth_error_Some; congruence).
  unfold obj at 1. cbn [st_objs]. rewrite nth_lset by exact Hxl. cbn [bind v_data]. set (n := v_size v).
  assert (Hload : forall m, m <= n -> load (st_heap s ++ [Some (repeat None n)]) (st_ext s) (PHeap (length (st_heap s))) m = Ret (repeat (@None A) m)).
  { intros m Hm. unfold load. destruct m as [|m]; [reflexivity|]. unfold block. rewrite nth_alloc. rewrite repeat_length.
    replace (S m <=? n) with true by (symmetry; apply Nat.leb_le; lia). f_equal.
    replace n with (S m + (n - S m)) by lia. rewrite repeat_app, firstn_app, repeat_length, Nat.sub_diag, firstn_O, app_nil_r.
    now rewrite firstn_all2 by (rewrite repeat_length; lia). }
  match goal with |- context [load ?hh ?e ?p n] => change (load hh e p n) with (load (st_heap s ++ [Some (repeat None n)]) (st_ext s) (PHeap (length (st_heap s))) n) end.
  rewrite (Hload n (le_n n)). cbn [bind]. do 2 eexists. split; [reflexivity|]. cbn [st_objs]. split; [now apply nth_lset|].
  split; [reflexivity|]. intros i Hlt. unfold obj. cbn [st_objs]. rewrite nth_lset by exact Hxl. cbn [bind v_data].
  unfold fetch, block. cbn [st_heap]. rewrite nth_lset by (rewrite app_length; cbn; lia).
  rewrite nth_error_repeat by exact Hlt. reflexivity.
Qed.

Lemma self_move (s : state) x v : nth_error (st_objs s) x = Some (Some v) ->
  exists s', step (OMoveAssign x x) s = Ret (s', Done) /\ step (OSize x) s' = Ret (s', SizeIs 0) /\ st_heap s' = st_heap s /\
    nth_error (st_objs s') x = Some (Some moved_from).
Proof.
  intros Hx. cbn [step]. rewrite (obj_eq s x v Hx). cbn [bind]. eexists. split; [reflexivity|].
  assert (Hxl : x < length (st_objs s)) by (apply nth_error_Some; congruence).
  unfold obj. cbn. rewrite nth_lset by (rewrite lset_length; exact Hxl). auto.
Qed.

(** ** consequences at reachable states *)
Lemma reached_inv prog (s : state) : reached prog s -> inv s.
Proof.
  intros (e & bs & Hl & Hr). destruct (run_ok prog (start e) (inv_start e) Hl) as (s' & bs' & E & Hi).
  rewrite E in Hr. injection Hr as -> _. exact Hi.
Qed.

Lemma content s x v : inv s -> nth_error (st_objs s) x = Some (Some v) -> v_own v = true -> exists l, agrees (st_heap s) l true v.
Proof.
  intros (H1 & _) Hx Ho. specialize (H1 x v Hx). unfold good in H1. unfold agrees. destruct (v_data v).
  - exists []. rewrite H1. auto.
  - destruct H1 as (_ & l & Hl & Hs). exists l. rewrite Hs. auto.
  - destruct H1. congruence.
Qed.

Lemma read_agrees (s : state) x v l f i : nth_error (st_objs s) x = Some (Some v) -> agrees (st_heap s) l f v -> i < length l ->
  step (ORead x i) s = Ret (s, Value (nth i l None)).
Proof.
  intros Hx Ha Hi. cbn [step]. rewrite (obj_eq s x v Hx). cbn [bind].
  rewrite (agrees_fetch s l f v i (nth i l None) Ha); [reflexivity|]. now apply nth_error_nth'.
Qed.

Lemma resize_owning prog (s : state) x v n : reached prog s -> nth_error (st_objs s) x = Some (Some v) -> v_own v = true ->
  exists s', step (OResize x n) s = Ret (s', Done) /\ step (OSize x) s' = Ret (s', SizeIs n) /\
    (forall i, i < v_size v -> i < n -> exists c, step (ORead x i) s = Ret (s, Value c) /\ step (ORead x i) s' = Ret (s', Value c)) /\
    (forall i, v_size v <= i -> i < n -> step (ORead x i) s' = Ret (s', Value None)) /\
    (forall y w i, y <> x -> nth_error (st_objs s) y = Some (Some w) -> i < v_size w ->
       exists c, step (ORead y i) s = Ret (s, Value c) /\ step (ORead y i) s' = Ret (s', Value c)).
Proof.
  intros Hr Hx Ho. pose proof (reached_inv prog s Hr) as Hi. destruct (content s x v Hi Hx Ho) as (l & Ha).
  pose proof Ha as (_ & Hsz & _).
  assert (Hst : exists s', step (OResize x n) s = Ret (s', Done)).
  { destruct (step_ok s (OResize x n) Hi ltac:(now exists v)) as (s' & b & Hs & _). exists s'. rewrite Hs. do 2 f_equal.
    cbn [step] in Hs. rewrite (obj_eq s x v Hx) in Hs. cbn [bind] in Hs. rewrite Ho in Hs. cbn [negb] in Hs.
    destruct (load _ _ _ _); try discriminate. unfold alloc in Hs. cbn [bind] in Hs. cbv beta iota zeta in Hs.
    destruct (free _ _); try discriminate. cbn [bind] in Hs. now injection Hs. }
  destruct Hst as (s' & Hst). exists s'. split; [exact Hst|].
  cbn [step] in Hst. rewrite (obj_eq s x v Hx) in Hst. cbn [bind] in Hst. rewrite Ho in Hst. cbn [negb] in Hst. rewrite Hsz in Hst |- *.
  set (hm := if n <? length l then n else length l) in Hst.
  assert (Hhm : hm <= length l /\ hm <= n /\ n - hm = n - length l /\ firstn hm l = firstn n l).
  { unfold hm. destruct (Nat.ltb_spec n (length l)); repeat split; try lia. rewrite firstn_all. symmetry. now apply firstn_all2. }
  destruct Hhm as (Hh1 & Hh2 & Hh3 & Hh4).
  rewrite (agrees_load _ (st_ext s) l true v hm Ha Hh1) in Hst. unfold alloc in Hst. cbn [bind] in Hst. cbv beta iota zeta in Hst.
  rewrite Hh4, Hh3 in Hst. set (nl := firstn n l ++ repeat None (n - length l)) in Hst.
  assert (Hnl : length nl = n). { unfold nl. rewrite app_length, repeat_length, firstn_length. lia. }
  pose proof (inv_alloc s nl Hi) as Hi2. set (s2 := add_obj _ _ _) in Hi2.
  assert (Hxl : x < length (st_objs s)) by (apply nth_error_Some; congruence).
  assert (Hv2 : nth_error (st_objs s2) x = Some (Some v)) by (unfold s2; cbn; rewrite nth_error_app1; [exact Hx|exact Hxl]).
  destruct (free_own s2 x v Hi2 Hv2 Ho) as (h & Hf & _). pose proof Hf as Hf2. unfold s2 in Hf. cbn in Hf. rewrite Hf in Hst. cbn [bind] in Hst. injection Hst as Hst. symmetry in Hst.
  set (nv := mk_pvec (PHeap (length (st_heap s))) n true).
  assert (Hnew : agrees h nl true nv).
  { assert (Hne : length (st_objs s) <> x) by lia.
    pose proof (rel_free s2 x v h Hi2 Hv2 Hf2 (length (st_objs s)) (mk_pvec (PHeap (length (st_heap s))) (length nl) true) nl true Hne) as H.
    rewrite Hnl in H. apply H.
    - unfold s2. cbn. rewrite Hnl, nth_error_app2, Nat.sub_diag by lia. reflexivity.
    - cbn. pose proof (agrees_fresh (st_heap s) nl) as Hf3. rewrite Hnl in Hf3. exact Hf3. }
  fold nv in Hst.
  assert (Hx' : nth_error (st_objs s') x = Some (Some nv)) by (subst s'; now apply nth_lset).
  assert (Hread' : forall i, i < n -> step (ORead x i) s' = Ret (s', Value (nth i nl None))).
  { intros i Hin. apply (read_agrees s' x nv nl true i Hx'); [rewrite Hst; exact Hnew|lia]. }
  split; [cbn [step]; rewrite (obj_eq s' x nv Hx'); reflexivity|]. split; [|split].
  - intros i Hi1 Hi2'. exists (nth i l None). split; [apply (read_agrees s x v l true i Hx Ha); lia|].
    etransitivity; [apply (Hread' i Hi2')|]. do 3 f_equal. unfold nl. rewrite app_nth1 by (rewrite firstn_length; lia).
    rewrite <- (firstn_skipn n l) at 2. rewrite app_nth1 by (rewrite firstn_length; lia). reflexivity.
  - intros i Hi1 Hi2'. etransitivity; [apply (Hread' i Hi2')|]. unfold nl. rewrite app_nth2 by (rewrite firstn_length; lia).
    rewrite nth_repeat. reflexivity.
  - intros y w i Hne Hy Hlt. destruct (v_own w) eqn:How.
    + destruct (content s y w Hi Hy How) as (lw & Haw). exists (nth i lw None). pose proof Haw as (_ & Hsw & _).
      split; [apply (read_agrees s y w lw true i Hy Haw); lia|].
      apply (read_agrees s' y w lw true); [rewrite Hst; cbn; rewrite lset_other by auto; exact Hy| |lia].
      rewrite Hst. apply (rel_free s2 x v h Hi2 Hv2 Hf2 y w lw true Hne); [unfold s2; cbn; rewrite nth_error_app1; [exact Hy|apply nth_error_Some; congruence]|].
      cbn. now apply agrees_app.
    + pose proof (proj1 Hi y w Hy) as Hg. destruct (fetch_good s w i Hg Hlt) as (c & Hc). exists c.
      assert (Hy' : nth_error (st_objs s') y = Some (Some w)) by (rewrite Hst; cbn; rewrite lset_other by auto; exact Hy).
      cbn [step]. rewrite (obj_eq s y w Hy). 
      rewrite (obj_eq s' y w Hy'). cbn [bind]. rewrite Hc. split; [reflexivity|].
      unfold good in Hg. unfold fetch, block in *. destruct (v_data w) as [|k|b]; [lia|destruct Hg; congruence|].
      rewrite Hst. cbn [st_ext]. rewrite Hc. reflexivity.
Qed.

Lemma resize_refused (s : state) x v n : nth_error (st_objs s) x = Some (Some v) -> v_own v = false ->
  step (OResize x n) s = Ret (s, Exception).
Proof. intros Hx Ho. cbn [step]. rewrite (obj_eq s x v Hx). cbn [bind]. rewrite Ho. reflexivity. Qed.

Lemma ends (s : state) x v : nth_error (st_objs s) x = Some (Some v) -> 0 < v_size v ->
  step (OFront x) s = step (ORead x 0) s /\ step (OFrontConst x) s = step (ORead x 0) s /\
  step (OBackConst x) s = step (ORead x (v_size v - 1)) s.
Proof.
  intros Hx Hs. cbn [step]. rewrite (obj_eq s x v Hx). cbn [bind]. split; [reflexivity|]. split; [reflexivity|].
  destruct (v_size v) as [|k]; [lia|]. cbn. now rewrite Nat.sub_0_r.
Qed.

Lemma back_is_front (s : state) x : step (OBack x) s = step (OFront x) s.
Proof. reflexivity. Qed.

Lemma legal_run_app p1 : forall (s s1 : state) bs p2, legal_run p1 s -> run p1 s = Ret (s1, bs) -> legal_run p2 s1 -> legal_run (p1 ++ p2) s.
Proof.
  induction p1 as [|o p1 IH]; intros s s1 bs p2 Hl Hr H2; [injection Hr as <- <-; exact H2|].
  destruct Hl as (Hl & Hn). cbn [run] in Hr. destruct (step o s) as [(sm, b)| | |] eqn:E; try discriminate. cbn [bind] in Hr.
  destruct (run p1 sm) as [(s2, bs2)| | |] eqn:E2; try discriminate. injection Hr as -> <-.
  split; [exact Hl|]. cbn. intros s' b' E'. rewrite E in E'. injection E' as <- <-. apply (IH sm s1 bs2 p2); auto. now apply (Hn sm b).
Qed.

Lemma run_app p1 : forall (s s1 : state) bs p2, run p1 s = Ret (s1, bs) ->
  run (p1 ++ p2) s = (do r <- run p2 s1; Ret (fst r, bs ++ snd r)).
Proof.
  induction p1 as [|o p1 IH]; intros s s1 bs p2 Hr.
  - injection Hr as -> <-. cbn. destruct (run p2 s1) as [(s2, b2)| | |]; reflexivity.
  - cbn [run app] in *. destruct (step o s) as [(sm, b)| | |] eqn:E; try discriminate. cbn [bind] in *.
    destruct (run p1 sm) as [(s2, bs2)| | |] eqn:E2; try discriminate. injection Hr as -> <-.
    rewrite (IH sm s1 bs2 p2 E2). destruct (run p2 s1) as [(s3, b3)| | |]; reflexivity.
Qed.

Lemma next_safe prog (s : state) o : reached prog s -> legal s o ->
  exists s' b, step o s = Ret (s', b) /\ reached (prog ++ [o]) s'.
Proof.
  intros Hr Hl. pose proof (reached_inv prog s Hr) as Hi. destruct (step_ok s o Hi Hl) as (s' & b & E & _).
  exists s', b. split; [exact E|]. destruct Hr as (e & bs & Hlr & Hr). exists e, (bs ++ [b]). split.
  - apply (legal_run_app prog (start e) s bs [o] Hlr Hr). split; [exact Hl|]. intros; exact I.
  - rewrite (run_app prog (start e) s bs [o] Hr). cbn [run]. rewrite E. reflexivity.
Qed.

Lemma no_leak_all_destroyed prog (e : list (list (cell A))) s' bs : legal_run prog (start e) -> run prog (start e) = Ret (s', bs) ->
  overwritten prog (start e) = 0 -> (forall x, ~ alive s' x) -> forall k l, nth_error (st_heap s') k <> Some (Some l).
Proof.
  intros Hl Hr Ho Hd k l. apply (no_leak prog e s' bs Hl Hr Ho). intros x v Hx. exfalso. apply (Hd x). now exists v.
Qed.

Lemma owning_after (s s' : state) o b : step o s = Ret (s', b) ->
  match o with
  | ONew _ | OFromList _ | OEmpty | OCopy _ =>
      exists v, nth_error (st_objs s') (length (st_objs s)) = Some (Some v) /\ v_own v = true
  | ORaw _ _ => exists v, nth_error (st_objs s') (length (st_objs s)) = Some (Some v) /\ v_own v = false
  | OAssign x _ => exists v, nth_error (st_objs s') x = Some (Some v) /\ v_own v = true
  | OMove x => exists v, nth_error (st_objs s') x = Some (Some v) /\ v_own v = false
  | OMoveAssign _ y => exists v, nth_error (st_objs s') y = Some (Some v) /\ v_own v = false
  | _ => True
  end.
Proof.
  assert (Hadd : forall h v, nth_error (st_objs (add_obj s h v)) (length (st_objs s)) = Some (Some v)).
  { intros h v. cbn. rewrite nth_error_app2, Nat.sub_diag by lia. reflexivity. }
  assert (Hobj : forall x v, obj s x = Ret v -> x < length (st_objs s)).
  { unfold obj. intros x v E. apply nth_error_Some. destruct (nth_error (st_objs s) x); discriminate. }
  destruct o; intros Hs; auto; cbn [step] in Hs.
  - cbn in Hs. injection Hs as <- <-. eexists. split; [apply Hadd|reflexivity].
  - cbn in Hs. injection Hs as <- <-. eexists. split; [apply Hadd|reflexivity].
  - cbn in Hs. injection Hs as <- <-. eexists. split; [apply Hadd|reflexivity].
  - cbn in Hs. injection Hs as <- <-. eexists. split; [apply Hadd|reflexivity].
  - destruct (obj s x) as [v| | |] eqn:E; try discriminate. cbn [bind] in Hs. destruct (load _ _ _ _) as [l| | |]; try discriminate.
    cbn in Hs. injection Hs as <- <-. eexists. split; [apply Hadd|reflexivity].
  - destruct (obj s x) as [v| | |] eqn:E; try discriminate. cbn [bind] in Hs. injection Hs as <- <-. exists moved_from. split; [|reflexivity].
    cbn. pose proof (Hobj x v E). rewrite nth_error_app1 by (rewrite lset_length; exact H). now apply nth_lset.
  - destruct (obj s x) as [v| | |] eqn:E; try discriminate. destruct (obj s y) as [w| | |] eqn:E2; try discriminate.
    unfold alloc in Hs. cbn [bind] in Hs. cbv beta iota zeta in Hs.
    match type of Hs with (do _ <- ?m; _) = _ => destruct m as [w1| | |]; try discriminate end. cbn [bind] in Hs.
    destruct (load _ _ _ _) as [l| | |]; try discriminate. cbn [bind] in Hs. injection Hs as <- <-.
    cbn [st_objs]. eexists. split; [apply nth_lset; exact (Hobj x v E)|reflexivity].
  - destruct (obj s x) as [v| | |] eqn:E; try discriminate. destruct (obj s y) as [w| | |] eqn:E2; try discriminate.
    cbn [bind] in Hs. injection Hs as <- <-. exists moved_from. split; [|reflexivity]. cbn. apply nth_lset. rewrite lset_length. exact (Hobj y w E2).
Qed.

End V.

Lemma view_dangles :
  run [OFromList [1; 2]; OView 0 2; ORead 1 1; ODestroy 0] (start []) <> UB /\
  run [OFromList [1; 2]; OView 0 2; ORead 1 1; ODestroy 0; ORead 1 1] (start []) = UB.
Proof. split; [discriminate|reflexivity]. Qed.

Lemma leak_example :
  exists s, run [OFromList [1]; OFromList [2]; OAssign 0 1; ODestroy 0; ODestroy 1] (start []) = Ret (s, [Done; Done; Done; Done; Done]) /\
    (forall x, ~ alive s x) /\ live_blocks (st_heap s) = 1.
Proof.
  eexists. split; [reflexivity|]. split; [|reflexivity]. intros x (v & H). destruct x as [|[|[|x]]]; discriminate.
Qed.
