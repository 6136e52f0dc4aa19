(** The exchange of the guard cells. *)
From Coq Require Import ZArith List Bool Lia Permutation.
From Verif Require Import Cxx CxxLemmas Num Grid GridLemmas PartBC PartBCProofs PartBCReal FieldBC SpecFieldBC FieldBCAxis FieldBCMemory FieldBCWorld.
Import ListNotations.
Local Open Scope Z_scope.

Section Nodes.
Variable L : layout.
Hypothesis HL : sound_layout L.
Notation np := (l_procs L).
Notation g := (l_guards L).
Notation n := (local_cells L).

Definition is_node (x : node) : Prop := In (fst x) (processes np) /\ inside L (fst x) (snd x).
Lemma in_nodes x : In x (nodes L) <-> is_node x.
Proof.
  unfold nodes, is_node. rewrite in_flat_map. split.
  - intros (r & Hr & H). apply in_map_iff in H. destruct H as (p & <- & Hp). cbn. split; [exact Hr|now apply inside_local].
  - intros (Hr & Hp). exists (fst x). split; [exact Hr|]. apply in_map_iff. exists (snd x). split; [now destruct x|now apply inside_local].
Qed.
Definition at_axis (a : dir) (x : node) (c i : Z) : node := (set_comp a c (fst x), set_comp a i (snd x)).
Notation range a := (range1 (comp a np) (l_cells L a) (comp a g)).
Notation place_at a x := (place1 (comp a np) (l_cells L a) (l_absorbing L a) (comp a (fst x)) (comp a (snd x))).
Notation held_at a x := (held1 (comp a np) (l_cells L a) (l_absorbing L a) (comp a (fst x)) (comp a (snd x))).

Lemma on_axes_iff f : on_axes f = true <-> forall a, f a = true.
Proof.
  unfold on_axes. rewrite !andb_true_iff. split; [intros ((? & ?) & ?) a; destruct a; assumption|intros H; now rewrite !H].
Qed.
Lemma same_iff x y : same_node L x y = true <-> forall a, place_at a x = place_at a y.
Proof. unfold same_node. rewrite on_axes_iff. split; intros H a; specialize (H a); [now apply Z.eqb_eq in H|now apply Z.eqb_eq]. Qed.
Lemma responsible_iff x : responsible L x = true <-> forall a, held_at a x = true.
Proof. unfold responsible. rewrite on_axes_iff. reflexivity. Qed.
Lemma node_range a x : is_node x -> range a (comp a (fst x)) (comp a (snd x)).
Proof. intros (Hr & Hp). split; [now apply processes_comp|]. rewrite <- comp_n. apply Hp. Qed.
Lemma node_iff x : is_node x <-> forall a, range a (comp a (fst x)) (comp a (snd x)).
Proof.
  split; [intros H a; now apply node_range|]. intros H. split; [apply processes_comp; intros a; apply (H a)|]. intros a. rewrite comp_n. apply (H a).
Qed.
Lemma at_axis_here a x c i : comp a (fst (at_axis a x c i)) = c /\ comp a (snd (at_axis a x c i)) = i.
Proof. unfold at_axis. cbn. now rewrite !comp_set. Qed.
Lemma at_axis_other a b x c i : a <> b -> comp b (fst (at_axis a x c i)) = comp b (fst x) /\ comp b (snd (at_axis a x c i)) = comp b (snd x).
Proof. intros H. unfold at_axis. cbn. now rewrite !comp_set_other. Qed.
Lemma at_axis_node a x c i : is_node x -> range a c i -> is_node (at_axis a x c i).
Proof.
  rewrite !node_iff. intros H Hc b. destruct (dir_dec a b) as [<-|Hn]; [destruct (at_axis_here a x c i) as (-> & ->); exact Hc|destruct (at_axis_other a b x c i Hn) as (-> & ->); apply H].
Qed.
Lemma Hax a : 1 <= comp a np /\ 0 <= comp a g /\ forall c, 0 <= c < comp a np -> comp a g < l_cells L a c.
Proof. apply HL. Qed.

Lemma owner_spec a x : is_node x ->
  is_node (owner L a x) /\ held_at a (owner L a x) = true /\ place_at a (owner L a x) = place_at a x /\
  forall b, b <> a -> comp b (fst (owner L a x)) = comp b (fst x) /\ comp b (snd (owner L a x)) = comp b (snd x).
Proof.
  intros H. destruct (Hax a) as (H1 & H2 & H3). unfold owner. pose proof (own_ok (comp a np) (l_cells L a) (comp a g) (l_absorbing L a) H1 H2 H3 _ _ (node_range a x H)) as O.
  destruct (own1 _ _ _ _ _) as [c i]. destruct O as (O1 & O2 & O3). change (set_comp a c (fst x), set_comp a i (snd x)) with (at_axis a x c i). destruct (at_axis_here a x c i) as (E1 & E2).
  split; [now apply at_axis_node|]. split; [rewrite E1, E2; exact O2|]. split; [rewrite E1, E2; exact O3|]. intros b Hb. apply at_axis_other. congruence.
Qed.
Definition own3 (x : node) : node := owner L DirX (owner L DirY (owner L DirZ x)).
Lemma own3_spec x : is_node x -> is_node (own3 x) /\ responsible L (own3 x) = true /\ same_node L x (own3 x) = true.
Proof.
  intros H. destruct (owner_spec DirZ x H) as (N1 & H1 & P1 & O1). destruct (owner_spec DirY _ N1) as (N2 & H2 & P2 & O2). destruct (owner_spec DirX _ N2) as (N3 & H3 & P3 & O3).
  fold (own3 x) in *. split; [exact N3|].
  assert (Y : comp DirY (fst (own3 x)) = comp DirY (fst (owner L DirY (owner L DirZ x))) /\ comp DirY (snd (own3 x)) = comp DirY (snd (owner L DirY (owner L DirZ x)))) by (apply O3; discriminate).
  assert (Y' : comp DirY (fst (owner L DirZ x)) = comp DirY (fst x) /\ comp DirY (snd (owner L DirZ x)) = comp DirY (snd x)) by (apply O1; discriminate).
  assert (Z3 : comp DirZ (fst (own3 x)) = comp DirZ (fst (owner L DirY (owner L DirZ x))) /\ comp DirZ (snd (own3 x)) = comp DirZ (snd (owner L DirY (owner L DirZ x)))) by (apply O3; discriminate).
  assert (Z2 : comp DirZ (fst (owner L DirY (owner L DirZ x))) = comp DirZ (fst (owner L DirZ x)) /\ comp DirZ (snd (owner L DirY (owner L DirZ x))) = comp DirZ (snd (owner L DirZ x))) by (apply O2; discriminate).
  assert (X2 : comp DirX (fst (owner L DirY (owner L DirZ x))) = comp DirX (fst (owner L DirZ x)) /\ comp DirX (snd (owner L DirY (owner L DirZ x))) = comp DirX (snd (owner L DirZ x))) by (apply O2; discriminate).
  assert (X1 : comp DirX (fst (owner L DirZ x)) = comp DirX (fst x) /\ comp DirX (snd (owner L DirZ x)) = comp DirX (snd x)) by (apply O1; discriminate).
  destruct Y as (Y1 & Y2), Y' as (Y3 & Y4), Z3 as (Z31 & Z32), Z2 as (Z21 & Z22), X2 as (X21 & X22), X1 as (X11 & X12).
  split.
  - apply responsible_iff. intros a. destruct a; [exact H3|rewrite Y1, Y2; exact H2|rewrite Z31, Z32, Z21, Z22; exact H1].
  - apply same_iff. intros a. symmetry. destruct a.
    + rewrite P3, X21, X22, X11, X12. reflexivity.
    + rewrite Y1, Y2, P2, Y3, Y4. reflexivity.
    + rewrite Z31, Z32, Z21, Z22, P1. reflexivity.
Qed.
Lemma responsible_unique x y : is_node x -> is_node y -> responsible L x = true -> responsible L y = true -> same_node L x y = true -> x = y.
Proof.
  intros Hx Hy. rewrite !responsible_iff, same_iff. intros R1 R2 S.
  assert (E : forall a, comp a (fst x) = comp a (fst y) /\ comp a (snd x) = comp a (snd y)).
  { intros a. destruct (Hax a) as (H1 & H2 & H3). apply (held_unique (comp a np) (l_cells L a) (comp a g) (l_absorbing L a) H1 H2 H3); try apply node_range; auto. }
  destruct x as [r p], y as [s q]. cbn [fst snd] in E. f_equal; apply idx_ext; intros a; apply E.
Qed.
Lemma same_sym x y : same_node L x y = same_node L y x.
Proof. apply eq_true_iff_eq. rewrite !same_iff. split; intros H a; symmetry; apply H. Qed.
Lemma same_trans x y z : same_node L x y = true -> same_node L y z = true -> same_node L x z = true.
Proof. rewrite !same_iff. intros H1 H2 a. now rewrite H1. Qed.
Lemma own3_unique x y : is_node x -> is_node y -> responsible L y = true -> same_node L x y = true -> own3 x = y.
Proof.
  intros Hx Hy Ry S. destruct (own3_spec x Hx) as (N & R & S'). apply responsible_unique; try assumption. rewrite same_sym in S'. exact (same_trans _ _ _ S' S).
Qed.

Section Exchange.
Context {A : Type}.
Lemma start_inv (F : idx -> pstate A) : right_start L F -> Inv L F /\ good_types L F.
Proof. intros H. split; intros r Hr; now apply (H r Hr). Qed.
Lemma field_bc_ok blocking (F : idx -> pstate A) : Inv L F -> good_types L F ->
  exists F', field_bc np n g blocking (l_absorbing L) (start L F) = Ret (start L F') /\ Inv L F' /\ good_types L F' /\
    forall x, is_node x -> value F' x = value F (own3 x).
Proof.
  intros HI HT.
  assert (X : forall nb k1 k2 k3, type_entry k1 = Some DirX -> type_entry k2 = Some DirY -> type_entry k3 = Some DirZ ->
    exists F', (if nb : bool then do w <- exchange_axis_nb np n g (l_absorbing L) k1 DirX (start L F); do w <- exchange_axis_nb np n g (l_absorbing L) k2 DirY w; exchange_axis_nb np n g (l_absorbing L) k3 DirZ w
      else do w <- exchange_axis np n g (l_absorbing L) k1 DirX (start L F); do w <- exchange_axis np n g (l_absorbing L) k2 DirY w; exchange_axis np n g (l_absorbing L) k3 DirZ w) = Ret (start L F') /\ Inv L F' /\ good_types L F' /\
    forall x, is_node x -> value F' x = value F (own3 x)).
  { intros nb k1 k2 k3 K1 K2 K3. destruct (exchange_axis_ok L HL nb k1 DirX F K1 HI HT) as (F1 & E1 & I1 & T1 & V1).
    destruct (exchange_axis_ok L HL nb k2 DirY F1 K2 I1 T1) as (F2 & E2 & I2 & T2 & V2).
    destruct (exchange_axis_ok L HL nb k3 DirZ F2 K3 I2 T2) as (F3 & E3 & I3 & T3 & V3).
    exists F3. split; [destruct nb; rewrite E1; cbn [bind]; rewrite E2; cbn [bind]; exact E3|]. split; [exact I3|]. split; [exact T3|].
    intros [r p] Hx. destruct (owner_spec DirZ _ Hx) as (N1 & _). destruct (owner_spec DirY _ N1) as (N2 & _). rewrite V3 by apply Hx.
    unfold own3. destruct (owner L DirZ (r, p)) as [r1 p1]. rewrite V2 by apply N1. destruct (owner L DirY (r1, p1)) as [r2 p2]. apply V1; apply N2. }
  unfold field_bc. destruct blocking.
  - exact (X false 1 2 3 eq_refl eq_refl eq_refl).
  - exact (X true 4 5 6 eq_refl eq_refl eq_refl).
Qed.
End Exchange.
End Nodes.

(** C111 *)
Lemma guard_exchange {A} (L : layout) (blocking : bool) (F : idx -> pstate A) : sound_layout L -> right_start L F ->
  exists F', field_bc (l_procs L) (local_cells L) (l_guards L) blocking (l_absorbing L) (start L F) = Ret (start L F') /\ right_start L F' /\
    forall x, In x (nodes L) ->
      (exists y, In y (nodes L) /\ responsible L y = true /\ same_node L x y = true) /\
      forall y, In y (nodes L) -> responsible L y = true -> same_node L x y = true -> value F' x = value F y.
Proof.
  intros HL H. destruct (start_inv L F H) as (HI & HT). destruct (field_bc_ok L HL blocking F HI HT) as (F' & E & I & T & V). exists F'. split; [exact E|].
  split; [intros r Hr; split; [now apply I|now apply T]|]. intros x Hx. apply in_nodes in Hx. split.
  - exists (own3 L x). destruct (own3_spec L HL x Hx) as (N & R & S). split; [now apply in_nodes|]. now split.
  - intros y Hy Ry S. apply in_nodes in Hy. rewrite V by exact Hx. f_equal. now apply own3_unique.
Qed.
