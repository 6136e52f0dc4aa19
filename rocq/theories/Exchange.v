(** Abstract exchange of items between the cells of a finite set: every cell holds a list,
    items that do not stay in their cell are removed (the last item takes the free place) and
    appended to the list of their target.  Used by the proofs about Tiles.v. *)
From Coq Require Import ZArith List Bool Permutation Lia.
From Verif Require Import Cxx Grid GridLemmas Tiles.
Import ListNotations.

Section Rot.
Context {P : Type}.
(** last element first *)
Definition rot (l : list P) : list P := match l with [] => [] | x :: l' => last l' x :: removelast l end.
Lemma rot_snoc l x : rot (l ++ [x]) = x :: l.
Proof.
  destruct l as [|y l]; [reflexivity|]. cbn [app rot]. rewrite last_last. f_equal.
  change (y :: l ++ [x]) with ((y :: l) ++ [x]). apply removelast_last.
Qed.
Lemma rot_perm l : Permutation (rot l) l.
Proof. destruct l as [|y l] using rev_ind; [constructor|]. rewrite rot_snoc. apply Permutation_cons_append. Qed.
Lemma rot_length l : length (rot l) = length l.
Proof. apply Permutation_length, rot_perm. Qed.

Definition swap_remove (l : list P) (k : nat) : list P :=
  match skipn k l with [] => l | _ :: l2 => firstn k l ++ rot l2 end.

Lemma nth_split_skip (l : list P) k p : nth_error l k = Some p -> skipn k l = p :: skipn (S k) l.
Proof.
  revert k. induction l as [|a l IH]; intros [|k] H; try discriminate.
  - cbn in H. now injection H as ->.
  - cbn in H. cbn [skipn]. now apply IH.
Qed.
Lemma swap_remove_eq l k p : nth_error l k = Some p -> swap_remove l k = firstn k l ++ rot (skipn (S k) l).
Proof. intros H. unfold swap_remove. now rewrite (nth_split_skip l k p H). Qed.
Lemma swap_remove_app l1 p l2 : swap_remove (l1 ++ p :: l2) (length l1) = l1 ++ rot l2.
Proof.
  rewrite (swap_remove_eq _ _ p).
  2:{ rewrite nth_error_app2 by lia. now rewrite Nat.sub_diag. }
  rewrite firstn_app, Nat.sub_diag, firstn_all, firstn_O, app_nil_r. f_equal. f_equal.
  rewrite skipn_app. rewrite skipn_all2 by lia. now replace (S (length l1) - length l1)%nat with 1%nat by lia.
Qed.
Lemma swap_remove_perm l k p : nth_error l k = Some p -> Permutation l (p :: swap_remove l k).
Proof.
  intros H. destruct (nth_error_split _ _ H) as (l1 & l2 & -> & <-). rewrite swap_remove_app.
  rewrite <- Permutation_middle. constructor. apply Permutation_app_head, Permutation_sym, rot_perm.
Qed.
End Rot.

Section Upd.
Lemma upd_same {A} (f : idx -> A) q a : upd f q a q = a.
Proof. unfold upd. now rewrite idx_eqb_refl. Qed.
Lemma upd_other {A} (f : idx -> A) q r a : q <> r -> upd f q a r = f r.
Proof. intros H. unfold upd. now rewrite (proj2 (idx_eqb_neq q r) H). Qed.
End Upd.

Section Exchange.
Context {P : Type} (stays : idx -> P -> bool) (tgt : P -> idx) (B : list idx).
Hypothesis HB : NoDup B.

Definition goes (q : idx) (p : P) : idx := if stays q p then q else tgt p.
Lemma goes_tgt p : goes (tgt p) p = tgt p.
Proof. unfold goes. now destruct (stays _ _). Qed.
Lemma goes_goes q p : goes (goes q p) p = goes q p.
Proof. unfold goes at 2 3. destruct (stays q p) eqn:E; [unfold goes; now rewrite E|]. apply goes_tgt. Qed.

Notation state := (idx -> list P).
Definition move (q r : idx) (k : nat) (p : P) (A : state) : state :=
  let A1 := upd A q (swap_remove (A q) k) in upd A1 r (A1 r ++ [p]).
(** item number i (from 1) of cell q *)
Definition astep (q : idx) (i : nat) (A : state) : state :=
  match nth_error (A q) (i - 1) with
  | Some p => if stays q p then A else move q (tgt p) (i - 1) p A
  | None => A
  end.
Fixpoint adown (n : nat) (q : idx) (A : state) : state :=
  match n with O => A | S m => adown m q (astep q n A) end.

Definition everything (A : state) : list (idx * P) := flat_map (fun q => map (fun p => (goes q p, p)) (A q)) B.
Definition items (A : state) : list P := flat_map A B.

Lemma split_at (F : idx -> list (idx * P)) q : In q B -> exists L, Permutation (flat_map F B) (F q ++ L) /\
  forall G : idx -> list (idx * P), (forall r, r <> q -> G r = F r) -> Permutation (flat_map G B) (G q ++ L).
Proof.
  intros Hq. destruct (in_split _ _ Hq) as (l1 & l2 & E).
  exists (flat_map F l1 ++ flat_map F l2). assert (N : ~ In q (l1 ++ l2)).
  { rewrite E in HB. now apply NoDup_remove_2 in HB. }
  assert (K : forall G : idx -> list (idx * P), (forall r, r <> q -> G r = F r) ->
    Permutation (flat_map G B) (G q ++ flat_map F l1 ++ flat_map F l2)).
  { intros G HG. rewrite E, flat_map_app. cbn [flat_map].
    assert (X : forall l, ~ In q l -> flat_map G l = flat_map F l).
    { induction l as [|a l IH]; intros Hn; [reflexivity|]. cbn [flat_map].
      rewrite IH by (intros H; apply Hn; now right). rewrite HG; [reflexivity|]. intros ->. apply Hn. now left. }
    rewrite !X by (intros H; apply N; apply in_or_app; tauto).
    rewrite app_assoc, (Permutation_app_comm (flat_map F l1)), <- app_assoc. reflexivity. }
  split; [now apply K|exact K].
Qed.

Lemma everything_move q r k p A : In q B -> In r B -> nth_error (A q) k = Some p -> goes q p = r -> goes r p = r ->
  Permutation (everything A) (everything (move q r k p A)).
Proof.
  intros Hq Hr Hn Hg Hs. unfold everything, move. set (A1 := upd A q (swap_remove (A q) k)).
  set (f := fun (A : state) q => map (fun p => (goes q p, p)) (A q)).
  change (Permutation (flat_map (f A) B) (flat_map (f (upd A1 r (A1 r ++ [p]))) B)).
  assert (S1 : Permutation (flat_map (f A) B) ((r, p) :: flat_map (f A1) B)).
  { destruct (split_at (f A) q Hq) as (L & HL & K). rewrite HL.
    rewrite (K (f A1)). 2:{ intros s Hs'. unfold f, A1. now rewrite upd_other by congruence. }
    unfold f at 1 2. unfold A1. rewrite upd_same, app_comm_cons. apply Permutation_app_tail.
    rewrite (Permutation_map _ (swap_remove_perm _ _ _ Hn)). cbn [map]. now rewrite Hg. }
  rewrite S1. destruct (split_at (f A1) r Hr) as (L & HL & K). rewrite HL.
  rewrite (K (f (upd A1 r (A1 r ++ [p])))). 2:{ intros s Hs'. unfold f. now rewrite upd_other by congruence. }
  unfold f at 1 2. rewrite upd_same, map_app. cbn [map]. rewrite Hs, <- app_assoc. cbn [app].
  apply Permutation_middle.
Qed.

(** items that leave have a target among the cells *)
Definition lands (A : state) : Prop := forall q p, In q B -> In p (A q) -> stays q p = false -> In (tgt p) B.

Lemma everything_step q i A : In q B -> lands A -> Permutation (everything A) (everything (astep q i A)).
Proof.
  intros Hq HA. unfold astep. destruct (nth_error (A q) (i - 1)) as [p|] eqn:E; [|reflexivity].
  destruct (stays q p) eqn:S; [reflexivity|]. apply everything_move; try assumption.
  - apply (HA q p Hq); [|exact S]. now apply nth_error_In in E.
  - unfold goes. now rewrite S.
  - apply goes_tgt.
Qed.

Lemma move_In q r k p A s x : nth_error (A q) k = Some p -> In x (move q r k p A s) -> In x (A s) \/ (s = r /\ x = p).
Proof.
  intros Hn. unfold move. set (A1 := upd A q (swap_remove (A q) k)).
  assert (X : forall s x, In x (A1 s) -> In x (A s)).
  { intros s' x'. unfold A1. destruct (idx_dec q s') as [->|D].
    - rewrite upd_same. intros H. apply (Permutation_in _ (Permutation_sym (swap_remove_perm _ _ _ Hn))). now right.
    - now rewrite upd_other. }
  destruct (idx_dec r s) as [->|D].
  - rewrite upd_same. intros H. apply in_app_or in H. destruct H as [H|[<-|[]]]; [left; now apply X|now right].
  - rewrite upd_other by exact D. intros H. left. now apply X.
Qed.

Lemma lands_step q i A : In q B -> lands A -> lands (astep q i A).
Proof.
  intros Hq HA. unfold astep. destruct (nth_error (A q) (i - 1)) as [p|] eqn:E; [|exact HA].
  destruct (stays q p) eqn:S; [exact HA|]. intros s x Hs Hx Hst.
  destruct (move_In _ _ _ _ _ _ _ E Hx) as [H|[-> ->]]; [now apply (HA s x)|exact Hs].
Qed.

(** all items of cell q are where they go *)
Definition settled (q : idx) (l : list P) : Prop := forall p, In p l -> goes q p = q.

Lemma skipn_app_le {X} (k : nat) (l l' : list X) : (k <= length l)%nat -> skipn k (l ++ l') = skipn k l ++ l'.
Proof. intros H. rewrite skipn_app. now replace (k - length l)%nat with O by lia. Qed.

Lemma settled_other q i A s j : (j <= length (A s))%nat -> settled s (skipn j (A s)) -> q <> s ->
  (j <= length (astep q i A s))%nat /\ settled s (skipn j (astep q i A s)).
Proof.
  intros Hj Hs Hne. unfold astep. destruct (nth_error (A q) (i - 1)) as [p|] eqn:E; [|now split].
  destruct (stays q p) eqn:S; [now split|]. unfold move.
  destruct (idx_dec (tgt p) s) as [Er|D].
  - rewrite <- Er at 2 3. rewrite Er at 2 3. rewrite Er. rewrite upd_same, upd_other by exact Hne. rewrite app_length. split; [cbn; lia|].
    rewrite skipn_app_le by exact Hj. intros x Hx. apply in_app_or in Hx. destruct Hx as [Hx|[<-|[]]]; [now apply Hs|].
    rewrite <- Er. apply goes_tgt.
  - rewrite upd_other by exact D. rewrite upd_other by exact Hne. now split.
Qed.

(** one step at position i = m+1 of cell q *)
Lemma step_here q m A : (S m <= length (A q))%nat -> settled q (skipn (S m) (A q)) ->
  (m <= length (astep q (S m) A q))%nat /\ settled q (skipn m (astep q (S m) A q)) /\
  firstn m (astep q (S m) A q) = firstn m (A q).
Proof.
  intros Hm Hs. unfold astep. replace (S m - 1)%nat with m by lia.
  destruct (nth_error (A q) m) as [p|] eqn:E.
  2:{ apply nth_error_None in E. lia. }
  destruct (stays q p) eqn:S.
  - split; [lia|]. split; [|reflexivity]. rewrite (nth_split_skip _ _ _ E). intros x [<-|Hx]; [unfold goes; now rewrite S|now apply Hs].
  - unfold move. assert (E1 : upd A q (swap_remove (A q) m) q = firstn m (A q) ++ rot (skipn (Datatypes.S m) (A q))).
    { rewrite upd_same. now apply swap_remove_eq with p. }
    assert (Lm : length (firstn m (A q)) = m) by (rewrite firstn_length; lia).
    assert (R : settled q (rot (skipn (Datatypes.S m) (A q)))).
    { intros x Hx. apply Hs. apply (Permutation_in _ (rot_perm _)). exact Hx. }
    destruct (idx_dec (tgt p) q) as [Er|D].
    + rewrite Er, upd_same, E1. rewrite !app_length, Lm. split; [lia|]. rewrite <- app_assoc.
      split.
      * rewrite <- Lm at 1. rewrite skipn_app, Nat.sub_diag, skipn_all, skipn_O. cbn [app].
        intros x Hx. apply in_app_or in Hx. destruct Hx as [Hx|[<-|[]]]; [now apply R|]. rewrite <- Er at 1. rewrite goes_tgt. exact Er.
      * rewrite firstn_app, Lm, Nat.sub_diag, firstn_O, app_nil_r. apply firstn_all2. lia.
    + rewrite upd_other by exact D. rewrite E1, app_length, Lm. split; [lia|]. split.
      * rewrite <- Lm at 1. rewrite skipn_app, Nat.sub_diag, skipn_all, skipn_O. cbn [app]. exact R.
      * rewrite firstn_app, Lm, Nat.sub_diag, firstn_O, app_nil_r. apply firstn_all2. lia.
Qed.

Lemma items_everything A : items A = map snd (everything A).
Proof.
  unfold items, everything. induction B as [|q L IH]; [reflexivity|]. cbn [flat_map]. inversion HB; subst.
  rewrite map_app, map_map, <- IH by assumption. f_equal. cbn [snd]. now rewrite map_id.
Qed.
Lemma items_perm A A' : Permutation (everything A) (everything A') -> Permutation (items A) (items A').
Proof. intros H. rewrite !items_everything. now apply Permutation_map. Qed.
Lemma cell_le A q : In q B -> (length (A q) <= length (items A))%nat.
Proof.
  intros Hq. unfold items. destruct (in_split _ _ Hq) as (l1 & l2 & ->). rewrite flat_map_app. cbn [flat_map].
  rewrite !app_length. lia.
Qed.

(** what a cell holds at the end *)
Definition arrivals (A : state) (r : idx) : list P :=
  flat_map (fun q => filter (fun p => idx_eqb (goes q p) r) (A q)) B.

Lemma arrivals_everything A r : arrivals A r = map snd (filter (fun x => idx_eqb (fst x) r) (everything A)).
Proof.
  unfold arrivals, everything. clear HB. induction B as [|q L IH]; [reflexivity|]. cbn [flat_map].
  rewrite filter_app, map_app, <- IH. f_equal. clear. induction (A q) as [|p l IH]; [reflexivity|].
  cbn [filter map fst]. destruct (idx_eqb _ _); cbn [map snd]; now rewrite IH.
Qed.
Lemma perm_filter {X} (f : X -> bool) (l l' : list X) : Permutation l l' -> Permutation (filter f l) (filter f l').
Proof.
  induction 1; cbn [filter]; try reflexivity.
  - destruct (f x); [now constructor|assumption].
  - destruct (f x), (f y); try reflexivity. constructor.
  - now transitivity (filter f l').
Qed.
Theorem final A A' r : In r B -> Permutation (everything A) (everything A') -> (forall q, In q B -> settled q (A' q)) ->
  Permutation (A' r) (arrivals A r).
Proof.
  intros Hr HP HS. transitivity (arrivals A' r).
  - unfold arrivals. destruct (in_split _ _ Hr) as (l1 & l2 & E). rewrite E, flat_map_app. cbn [flat_map].
    assert (N : ~ In r (l1 ++ l2)) by (rewrite E in HB; now apply NoDup_remove_2 in HB).
    assert (X : forall l, (forall q, In q l -> In q B) -> ~ In r l -> flat_map (fun q => filter (fun p => idx_eqb (goes q p) r) (A' q)) l = []).
    { induction l as [|q l IH]; intros H1 H2; [reflexivity|]. cbn [flat_map]. rewrite IH.
      - rewrite app_nil_r. assert (D : q <> r) by (intros ->; apply H2; now left).
        assert (S : settled q (A' q)) by (apply HS, H1; now left). revert S. clear -D. induction (A' q) as [|p l IH]; intros S; [reflexivity|].
        cbn [filter]. rewrite (S p) by now left. rewrite (proj2 (idx_eqb_neq q r) D). apply IH. intros x Hx. apply S. now right.
      - intros q' H. apply H1. now right.
      - intros H. apply H2. now right. }
    rewrite !X.
    + cbn [app]. rewrite app_nil_r. assert (S : settled r (A' r)) by now apply HS. clear -S. induction (A' r) as [|p l IH]; [reflexivity|].
      cbn [filter]. rewrite (S p) by now left. rewrite idx_eqb_refl. constructor. apply IH. intros x Hx. apply S. now right.
    + intros q H. rewrite E. apply in_or_app. right. now right.
    + intros H. apply N. apply in_or_app. now right.
    + intros q H. rewrite E. apply in_or_app. now left.
    + intros H. apply N. apply in_or_app. now left.
  - rewrite !arrivals_everything. apply Permutation_map, perm_filter. now apply Permutation_sym.
Qed.

(** ** Locality: a step only looks at and changes cell q and the target of the item *)
Variable nbr : idx -> idx -> Prop.
Hypothesis nbr_refl : forall q, nbr q q.
Definition near (A : state) : Prop := forall q p, In q B -> In p (A q) -> stays q p = false -> nbr q (tgt p).

Lemma near_step q i A : In q B -> near A -> near (astep q i A).
Proof.
  intros Hq HA. unfold astep. destruct (nth_error (A q) (i - 1)) as [p|] eqn:E; [|exact HA].
  destruct (stays q p) eqn:S; [exact HA|]. intros s x Hs Hx Hst.
  destruct (move_In _ _ _ _ _ _ _ E Hx) as [H|[-> ->]]; [now apply (HA s x)|apply nbr_refl].
Qed.

Lemma astep_outside q i A s : In q B -> near A -> ~ nbr q s -> astep q i A s = A s.
Proof.
  intros Hq HA Hn. unfold astep. destruct (nth_error (A q) (i - 1)) as [p|] eqn:E; [|reflexivity].
  destruct (stays q p) eqn:S; [reflexivity|]. unfold move.
  assert (H1 : tgt p <> s). { intros <-. apply Hn. apply (HA q p Hq); [now apply nth_error_In in E|exact S]. }
  assert (H2 : q <> s) by (intros <-; apply Hn, nbr_refl).
  now rewrite !upd_other by assumption.
Qed.

Lemma astep_local q i A A' : (forall s, nbr q s -> A s = A' s) -> forall s, nbr q s -> astep q i A s = astep q i A' s.
Proof.
  intros H s Hs. unfold astep. rewrite <- (H q (nbr_refl q)). destruct (nth_error (A q) (i - 1)) as [p|] eqn:E; [|now apply H].
  destruct (stays q p); [now apply H|]. unfold move.
  assert (X : forall s, nbr q s -> upd A q (swap_remove (A q) (i - 1)) s = upd A' q (swap_remove (A' q) (i - 1)) s).
  { intros s' Hs'. destruct (idx_dec q s') as [<-|D]; [rewrite !upd_same; now rewrite (H q (nbr_refl q))|].
    rewrite !upd_other by exact D. now apply H. }
  destruct (idx_dec (tgt p) s) as [<-|D].
  - rewrite !upd_same. f_equal. now apply X.
  - rewrite !upd_other with (q := tgt p) by exact D. now apply X.
Qed.
End Exchange.
