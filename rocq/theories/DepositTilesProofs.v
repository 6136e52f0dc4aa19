(** Proofs about the deposition on tiles, for any arithmetic. *)
From Coq Require Import ZArith List Bool Lia Permutation.
From Verif Require Import Cxx CxxLemmas Num Fortran Grid GridLemmas Pushers Deposit Tiles DepositTiles SpecTiles SpecDeposit SpecDepositTiles ThreadLemmas.
Import ListNotations.
Local Open Scope Z_scope.

(** *** Loops *)
Section Loops.
Context {N : FNum}.
Local Notation update := (idx * num N)%type.
Local Notation arr := (grid (num N)).

Definition separate (b : idx -> list update) (tiles : list idx) : Prop :=
  forall q q' u u', In q tiles -> In q' tiles -> In u (b q) -> In u' (b q') -> fst u = fst u' -> q = q'.

Lemma mapM_ret {A B} (f : A -> out B) (g : A -> B) l : (forall a, In a l -> f a = Ret (g a)) -> mapM f l = Ret (map g l).
Proof.
  induction l as [|a l IH]; intros H; [reflexivity|]. cbn. rewrite H by now left. cbn [bind]. rewrite IH by (intros; apply H; now right). reflexivity.
Qed.

Fixpoint find_thread (p : idx) (l : list (list update)) : nat :=
  match l with [] => 0%nat | us :: l' => if existsb (fun u => idx_eqb (fst u) p) us then 0%nat else S (find_thread p l') end.
Lemma find_thread_ok p l : forall j us u, nth_error l j = Some us -> In u us -> fst u = p ->
  exists us' u', nth_error l (find_thread p l) = Some us' /\ In u' us' /\ fst u' = p.
Proof.
  induction l as [|vs l IH]; intros j us u H I E; [destruct j; discriminate|]. cbn [find_thread].
  destruct (existsb (fun u => idx_eqb (fst u) p) vs) eqn:Ex.
  - apply existsb_exists in Ex. destruct Ex as (u' & I' & E'). apply idx_eqb_eq in E'. exists vs, u'. now split.
  - destruct j as [|j].
    + cbn in H. injection H as ->. exfalso. assert (X : existsb (fun u => idx_eqb (fst u) p) us = true) by (apply existsb_exists; exists u; split; [exact I|now apply idx_eqb_eq]). congruence.
    + cbn in H |- *. now apply (IH j us u).
Qed.
Lemma nodup_concat {A} (l : list (list A)) : forall i j a b q, NoDup (concat l) -> nth_error l i = Some a -> nth_error l j = Some b -> In q a -> In q b -> i = j.
Proof.
  induction l as [|x l IH]; intros i j a b q ND Hi Hj Ia Ib; [destruct i; discriminate|]. cbn in ND.
  assert (X : forall k c, nth_error l k = Some c -> In q c -> In q x -> False).
  { intros k c Hk Hc Hx.
    clear - ND Hk Hc Hx. apply nth_error_In in Hk. assert (In q (concat l)) by (apply in_concat; eauto).
    induction x as [|y x IHx]; [destruct Hx|]. cbn in ND. inversion ND as [|? ? N1 N2]; subst. destruct Hx as [->|Hx]; [apply N1; apply in_or_app; now right|auto]. }
  destruct i as [|i], j as [|j]; cbn in Hi, Hj; [reflexivity| | |].
  - injection Hi as ->. exfalso. eauto.
  - injection Hj as ->. exfalso. eauto.
  - f_equal. apply (IH i j a b q); auto. clear - ND. induction x as [|y x IHx]; [exact ND|]. cbn in ND. inversion ND; auto.
Qed.
Lemma apply_concat p (l : list (list update)) : forall i us (v : num N), nth_error l i = Some us ->
  (forall j vs u, nth_error l j = Some vs -> In u vs -> fst u = p -> j = i) -> apply_at p (concat l) v = apply_at p us v.
Proof.
  induction l as [|x l IH]; intros i us v H O; [destruct i; discriminate|]. cbn [concat]. rewrite apply_app. destruct i as [|i].
  - cbn in H. injection H as ->. apply apply_none. intros u Hu E. apply in_concat in Hu. destruct Hu as (vs & Iv & Iu). apply In_nth_error in Iv. destruct Iv as (k & Ek). specialize (O (S k) vs u Ek Iu E). discriminate.
  - cbn in H. rewrite (apply_none p x). 2:{ intros u Hu E. specialize (O 0%nat x u eq_refl Hu E). discriminate. }
    apply (IH i us v H). intros j vs u Hj Iu E. specialize (O (S j) vs u Hj Iu E). now injection O.
Qed.
Lemma apply_untouched p (l : list (list update)) (v : num N) : (forall us u, In us l -> In u us -> fst u <> p) -> apply_at p (concat l) v = v.
Proof. intros H. apply apply_none. intros u Hu. apply in_concat in Hu. destruct Hu as (us & I1 & I2). eauto. Qed.

Lemma concat_map_concat {A B} (b : A -> list B) (l : list (list A)) : concat (map (flat_map b) l) = flat_map b (concat l).
Proof. induction l as [|x l IH]; [reflexivity|]. cbn. now rewrite IH, flat_map_app. Qed.

Lemma loop_all n body (b : idx -> list update) tiles (G : arr) r : (forall q, In q tiles -> body q = Ret (b q)) -> NoDup tiles ->
  (forall q, In q tiles -> inb G (b q)) -> (n <= 1 \/ separate b tiles) -> loop_outcome n body tiles G r ->
  exists G' l, r = Ret G' /\ Permutation l tiles /\ glo G' = glo G /\ ghi G' = ghi G /\ forall p, gat G' p = apply_at p (flat_map b l) (gat G p).
Proof.
  intros Eb ND B S (threads & sched & P & Ln & H).
  assert (It : forall th q, In th threads -> In q th -> In q tiles) by (intros th q I1 I2; apply (Permutation_in q P), in_concat; eauto).
  rewrite (mapM_ret _ (flat_map b)) in H.
  2:{ intros th Ith. rewrite (mapM_ret body b) by (intros q Iq; apply Eb; eauto). cbn [bind]. now rewrite flat_map_concat_map. }
  set (todos := map (flat_map b) threads) in H.
  assert (Et : forall i us, nth_error todos i = Some us -> exists th, nth_error threads i = Some th /\ us = flat_map b th).
  { intros i us E. unfold todos in E. rewrite nth_error_map in E. destruct (nth_error threads i) as [th|] eqn:Ei; [|discriminate]. cbn in E. injection E as <-. eauto. }
  assert (Own : forall i us u, nth_error todos i = Some us -> In u us -> find_thread (fst u) todos = i).
  { intros i us u E Iu. destruct (find_thread_ok (fst u) todos i us u E Iu eq_refl) as (us' & u' & E' & Iu' & Eu).
    destruct (Et _ _ E) as (th & F & ->). destruct (Et _ _ E') as (th' & F' & ->). apply in_flat_map in Iu, Iu'. destruct Iu as (q & Iq & Iu), Iu' as (q' & Iq' & Iu').
    destruct S as [S|S].
    - assert (LT : (length threads <= 1)%nat) by (unfold zlen in Ln; lia).
      assert ((i < length threads)%nat) by (apply nth_error_Some; congruence). assert ((find_thread (fst u) todos < length threads)%nat) by (apply nth_error_Some; congruence). lia.
    - assert (q = q') as <- by (apply (S q q' u u'); try assumption; [exact (It th q (nth_error_In _ _ F) Iq)|exact (It th' q' (nth_error_In _ _ F') Iq')|now symmetry]).
      symmetry. refine (nodup_concat threads _ _ th th' q _ F F' Iq Iq'). eapply Permutation_NoDup; [apply Permutation_sym; exact P|exact ND]. }
  pose (F := fun p => apply_at p (concat todos) (gat G p)).
  assert (I0 : tinv (glo G) (ghi G) (fun p => find_thread p todos) F G (map (fun l => Thread l None) todos)).
  { split; [reflexivity|]. split; [reflexivity|]. split.
    - intros i t E. rewrite nth_error_map in E. destruct (nth_error todos i) as [us|] eqn:Ei; [|discriminate]. cbn in E. injection E as <-. cbn [todo reg]. split; [|discriminate].
      intros u Iu. split; [now apply (Own i us)|]. destruct (Et _ _ Ei) as (th & Fi & ->). apply in_flat_map in Iu. destruct Iu as (q & Iq & Iu). apply (B q); [|exact Iu]. eapply It; eauto using nth_error_In.
    - intros p. rewrite nth_error_map. unfold F. destruct (nth_error todos (find_thread p todos)) as [us|] eqn:Ei; cbn [option_map todo].
      + symmetry. apply (apply_concat p todos (find_thread p todos) us _ Ei). intros j vs u Ej Iu <-. symmetry. now apply (Own j vs).
      + symmetry. apply apply_untouched. intros us u Ius Iu E. apply In_nth_error in Ius. destruct Ius as (k & Ek). destruct (find_thread_ok p todos k us u Ek Iu E) as (us' & _ & E' & _). congruence. }
  destruct (tinv_run _ _ _ _ sched _ _ I0) as (G' & ts' & E & I'). rewrite E in H. destruct H as (Fi & ->).
  exists G', (concat threads). split; [reflexivity|]. split; [exact P|]. pose proof I' as (L1 & L2 & _). split; [exact L1|]. split; [exact L2|].
  intros p. rewrite (tinv_end _ _ _ _ G' ts' I' Fi p). unfold F, todos. now rewrite concat_map_concat.
Qed.

Lemma loop_exists n body (b : idx -> list update) tiles (G : arr) : 1 <= n -> (forall q, In q tiles -> body q = Ret (b q)) ->
  (forall q, In q tiles -> inb G (b q)) -> exists G', loop_outcome n body tiles G (Ret G').
Proof.
  intros Hn Eb B. destruct (run_prefix 0 (flat_map b tiles) [] G [Thread (flat_map b tiles) None]) as (G' & E & _).
  - cbn. now rewrite app_nil_r.
  - intros u Hu. apply in_flat_map in Hu. destruct Hu as (q & Iq & Iu). now apply (B q).
  - exists G', [tiles], (repeat 0%nat (2 * length (flat_map b tiles))). split; [cbn; now rewrite app_nil_r|]. split; [cbn; lia|].
    cbn [mapM bind]. rewrite (mapM_ret body b) by exact Eb. cbn [bind map]. rewrite <- flat_map_concat_map, E. split; [|reflexivity]. intros t [<-|[]]. now split.
Qed.

(** with no element in two tiles the order of the tiles does not matter *)
Lemma apply_perm p (b : idx -> list update) l l' : Permutation l l' -> separate b l -> forall v : num N, apply_at p (flat_map b l) v = apply_at p (flat_map b l') v.
Proof.
  induction 1 as [|q l l' P IH|q q' l|l l' l'' P1 IH1 P2 IH2]; intros S v; [reflexivity| | |].
  - cbn [flat_map]. rewrite !apply_app. apply IH. intros a a' u u' Ia Ia'. apply S; now right.
  - cbn [flat_map]. rewrite !apply_app. f_equal. destruct (idx_eqb q q') eqn:Eq; [apply idx_eqb_eq in Eq; now subst|]. apply idx_eqb_neq in Eq.
    destruct (existsb (fun u => idx_eqb (fst u) p) (b q)) eqn:Ex.
    + apply existsb_exists in Ex. destruct Ex as (u & Iu & Eu). apply idx_eqb_eq in Eu.
      assert (Z : forall w, apply_at p (b q') w = w). { intros w. apply apply_none. intros u' Iu' Eu'. apply Eq. apply (S q q' u u'); auto; [now right; left|now left|congruence]. }
      now rewrite !Z.
    + assert (Z : forall w, apply_at p (b q) w = w). { intros w. apply apply_none. intros u Iu Eu. assert (existsb (fun u => idx_eqb (fst u) p) (b q) = true) by (apply existsb_exists; exists u; split; [exact Iu|now apply idx_eqb_eq]). congruence. }
      now rewrite !Z.
  - rewrite IH1 by exact S. apply IH2. intros a a' u u' Ia Ia'. apply S; apply (Permutation_in _ (Permutation_sym P1)); assumption.
Qed.
End Loops.

(** *** The updates of a tile *)
Definition sub3 (p m : idx) : idx := let '(a, b, c) := p in let '(i, j, k) := m in (a - i, b - j, c - k).
Lemma zrange_shift a b m : zrange (a - m) (b - m) = map (fun i => i - m) (zrange a b).
Proof.
  unfold zrange, zseq. replace (b - m - (a - m) + 1) with (b - a + 1) by lia. rewrite !map_map. apply map_ext. intros k. lia.
Qed.
Lemma box_shift lo hi m : box (sub3 lo m) (sub3 hi m) = map (fun p => sub3 p m) (box lo hi).
Proof.
  destruct lo as [[a1 a2] a3], hi as [[b1 b2] b3], m as [[m1 m2] m3]. unfold box, sub3. rewrite !zrange_shift.
  rewrite !flat_map_concat_map, concat_map, !map_map. apply (f_equal (@concat _)). apply map_ext. intros c. rewrite !flat_map_concat_map, concat_map, !map_map. apply (f_equal (@concat _)). apply map_ext. intros b. rewrite !map_map. reflexivity.
Qed.

Section Updates.
Context {N : FNum}.
Local Notation update := (idx * num N)%type.
Definition shifted (a : grid (num N)) (m : idx) (b : idx * idx) : list update := map (fun p => (p, gat a (sub3 p m))) (box (fst b) (snd b)).
Lemma section_ok lo hi alo ahi (a : grid (num N)) m : alo = sub3 lo m -> ahi = sub3 hi m ->
  (forall p, in_box lo hi p = true -> in_box (glo a) (ghi a) (sub3 p m) = true) -> section_add lo hi a alo ahi = Ret (shifted a m (lo, hi)).
Proof.
  intros -> -> H. unfold section_add. replace (idx_eqb (shape3 lo hi) (shape3 (sub3 lo m) (sub3 hi m))) with true.
  2:{ symmetry. apply idx_eqb_eq. destruct lo as [[? ?] ?], hi as [[? ?] ?], m as [[? ?] ?]. cbn. f_equal; [f_equal|]; lia. }
  cbn [negb]. rewrite box_shift.
  assert (Ec : forall l : list idx, combine l (map (fun p => sub3 p m) l) = map (fun p => (p, sub3 p m)) l) by (induction l as [|x l IH]; [reflexivity|cbn; now rewrite IH]).
  rewrite Ec. rewrite (mapM_ret _ (fun pq => (fst pq, gat a (snd pq)))).
  - unfold shifted. now rewrite map_map.
  - intros pq I. apply in_map_iff in I. destruct I as (p & <- & Ip). cbn [fst snd]. unfold get3. rewrite H by (now apply in_box_box). reflexivity.
Qed.

Definition phase_boxes (ph : phase) (t : mtile N) : list (idx * idx) :=
  let '(jmin, kmin, lmin) := m_min t in let '(nxc, nyc, nzc) := m_cells t in let '(nxjg, nyjg, nzjg) := m_g t in
  let jmax := jmin + nxc in let kmax := kmin + nyc in let lmax := lmin + nzc in
  let jminc := jmin - nxjg in let jmaxc := jmax + nxjg in let kminc := kmin - nyjg in let kmaxc := kmax + nyjg in let lminc := lmin - nzjg in let lmaxc := lmax + nzjg in
  match ph with
  | Inner => [((jmin, kmin, lmin), (jmax, kmax, lmax))]
  | FaceX => [((jminc, kminc, lminc), (jmin - 1, kmaxc, lmaxc)); ((jmax + 1, kminc, lminc), (jmaxc, kmaxc, lmaxc))]
  | FaceY => [((jmin, kminc, lminc), (jmax, kmin - 1, lmaxc)); ((jmin, kmax + 1, lminc), (jmax, kmaxc, lmaxc))]
  | FaceZ => [((jmin, kmin, lminc), (jmax, kmax, lmin - 1)); ((jmin, kmin, lmax + 1), (jmax, kmax, lmaxc))]
  end.
Definition tile_list (ph : phase) (t : mtile N) (a : grid (num N)) : list update := flat_map (shifted a (m_min t)) (phase_boxes ph t).
Definition wide (t : mtile N) : Prop :=
  let '(nxc, nyc, nzc) := m_cells t in let '(nxjg, nyjg, nzjg) := m_g t in 0 <= nxc /\ 0 <= nyc /\ 0 <= nzc /\ 0 <= nxjg /\ 0 <= nyjg /\ 0 <= nzjg.
Lemma tile_updates_ok ph t (a : grid (num N)) : wide t -> glo a = glo (tile_zero t) -> ghi a = ghi (tile_zero t) -> tile_updates ph t a = Ret (tile_list ph t a).
Proof.
  intros W L H. unfold tile_updates, tile_list, phase_boxes, wide, tile_zero in *. destruct (m_min t) as [[mi mj] mk], (m_cells t) as [[c1 c2] c3], (m_g t) as [[g1 g2] g3].
  cbn [glo ghi] in L, H.
  assert (K : forall lo hi : idx, (forall p, in_box lo hi p = true -> in_box (mi - g1, mj - g2, mk - g3) (mi + c1 + g1, mj + c2 + g2, mk + c3 + g3) p = true) ->
    forall p, in_box lo hi p = true -> in_box (glo a) (ghi a) (sub3 p (mi, mj, mk)) = true).
  { intros lo hi K p Hp. specialize (K p Hp). rewrite L, H. destruct p as [[x y] z]. apply in_box_iff in K. apply in_box_iff. lia. }
  destruct ph; cbn [flat_map]; rewrite ?app_nil_r.
  all: repeat (match goal with |- context [section_add ?lo ?hi ?aa ?al ?ah] =>
    rewrite (section_ok lo hi al ah aa (mi, mj, mk)) by (first [apply K; intros [[x y] z] Hp; apply in_box_iff in Hp; apply in_box_iff; lia | cbn; f_equal; [f_equal|]; lia]) end; cbn [bind]); reflexivity.
Qed.
(** where a tile makes its updates *)
Definition in_phase (ph : phase) (t : mtile N) (p : idx) : Prop := exists b, In b (phase_boxes ph t) /\ in_box (fst b) (snd b) p = true.
Lemma tile_list_at ph t a u : In u (tile_list ph t a) -> in_phase ph t (fst u).
Proof.
  intros H. apply in_flat_map in H. destruct H as (b & Ib & Iu). unfold shifted in Iu. apply in_map_iff in Iu. destruct Iu as (p & <- & Ip). exists b. split; [exact Ib|]. now apply in_box_box.
Qed.
End Updates.

(** *** The tiles of a grid *)
Section Axis.
Context {A : Type}.
Variable a : paxis A.
Hypothesis Ha : sensible a.
Definition tmin (i : Z) := (i - 1) * (p_n a ÷ p_nt a).
Definition tcells (i : Z) := (if i =? cut a then p_n a ÷ p_nt a + (p_n a - (p_n a ÷ p_nt a) * cut a) else p_n a ÷ p_nt a) - 1.
Definition tguard (i : Z) := if (1 <? i) && (i <? cut a) then Z.max (p_o a + 1) 2 else p_ng a.
Lemma cut_cases : cut a = 1 \/ (2 <= cut a /\ 4 <= p_n a ÷ p_nt a /\ cut a * (p_n a ÷ p_nt a) <= p_n a).
Proof.
  destruct Ha as (Hn & Hnt & Hg & Ho). unfold cut, ntiles. destruct (Z.ltb_spec (p_n a ÷ p_nt a) 4); [now left|]. destruct (Z.eq_dec (p_nt a) 1) as [->|]; [now left|]. right.
  split; [lia|]. split; [lia|]. rewrite Z.quot_div_nonneg by lia. apply Z.mul_div_le. lia.
Qed.
Lemma axis_facts i : 1 <= i <= cut a -> 0 <= tmin i /\ 0 <= tcells i /\ tmin i + tcells i <= p_n a - 1 /\ 2 <= tguard i /\
  - p_ng a <= tmin i - tguard i /\ tmin i + tcells i + tguard i <= p_n a - 1 + p_ng a.
Proof.
  intros Hi. pose proof Ha as (Hn & Hnt & Hg & Ho). unfold tmin, tcells, tguard. destruct cut_cases as [E|(E1 & E2 & E3)].
  - assert (i = 1) as -> by lia. rewrite E. cbn. lia.
  - set (n0 := p_n a ÷ p_nt a) in *. assert ((cut a - 1) * n0 = cut a * n0 - n0) by lia.
    destruct (Z.eqb_spec i (cut a)) as [->|Ni]; [rewrite Z.ltb_irrefl, andb_false_r; repeat split; try lia; nia|].
    assert ((i - 1) * n0 <= (cut a - 2) * n0) by nia. assert ((i - 1) * n0 = i * n0 - n0) by lia.
    destruct (Z.ltb_spec 1 i); destruct (Z.ltb_spec i (cut a)); try lia; cbn [andb]; [assert (n0 <= (i - 1) * n0) by nia|assert (0 <= (i - 1) * n0) by nia]; repeat split; lia.
Qed.
Lemma axis_order i j : 1 <= i -> i < j -> j <= cut a -> tmin i + tcells i + 1 <= tmin j /\ (i + 2 <= j -> tmin i + tcells i + 1 + p_n a ÷ p_nt a <= tmin j).
Proof.
  intros Hi Hij Hj. destruct cut_cases as [E|(E1 & E2 & E3)]; [lia|]. unfold tmin, tcells. set (n0 := p_n a ÷ p_nt a) in *. destruct (Z.eqb_spec i (cut a)); [lia|].
  split; [assert (i * n0 <= (j - 1) * n0) by nia; lia|]. intros H. assert ((i + 1) * n0 <= (j - 1) * n0) by nia. lia.
Qed.
Lemma tguard_max i : tguard i <= Z.max (p_ng a) (Z.max (p_o a + 1) 2).
Proof. unfold tguard. destruct (_ && _); lia. Qed.
End Axis.

Section Mesh.
Context {N : FNum}.
Variables x y z : paxis (num N).
Hypothesis (Hx : sensible x) (Hy : sensible y) (Hz : sensible z).
Lemma mesh_nums i j k : m_min (mesh_of x y z (i, j, k)) = (tmin x i, tmin y j, tmin z k) /\ m_cells (mesh_of x y z (i, j, k)) = (tcells x i, tcells y j, tcells z k) /\
  m_g (mesh_of x y z (i, j, k)) = (tguard x i, tguard y j, tguard z k).
Proof. now split; [|split]. Qed.
Lemma in_tiles_of i j k : In (i, j, k) (tiles_of x y z) <-> 1 <= i <= cut x /\ 1 <= j <= cut y /\ 1 <= k <= cut z.
Proof. unfold tiles_of. rewrite in_box_box, in_box_iff. lia. Qed.
Lemma nodup_tiles : NoDup (tiles_of x y z). Proof. apply NoDup_box. Qed.
Lemma mesh_wide q : In q (tiles_of x y z) -> wide (mesh_of x y z q).
Proof.
  destruct q as [[i j] k]. intros H. apply in_tiles_of in H. destruct H as (H1 & H2 & H3). unfold wide. destruct (mesh_nums i j k) as (_ & -> & ->).
  pose proof (axis_facts x Hx i H1). pose proof (axis_facts y Hy j H2). pose proof (axis_facts z Hz k H3). lia.
Qed.
Definition in_ext (q p : idx) : Prop :=
  let '(i, j, k) := q in let '(a, b, c) := p in
  tmin x i - tguard x i <= a <= tmin x i + tcells x i + tguard x i /\ tmin y j - tguard y j <= b <= tmin y j + tcells y j + tguard y j /\
  tmin z k - tguard z k <= c <= tmin z k + tcells z k + tguard z k.
Lemma phase_ext ph q p : In q (tiles_of x y z) -> in_phase ph (mesh_of x y z q) p -> in_ext q p.
Proof.
  destruct q as [[i j] k], p as [[a b] c]. intros H (bx & Ib & Hb). apply in_tiles_of in H. destruct H as (H1 & H2 & H3).
  pose proof (axis_facts x Hx i H1). pose proof (axis_facts y Hy j H2). pose proof (axis_facts z Hz k H3).
  unfold phase_boxes in Ib. destruct (mesh_nums i j k) as (E1 & E2 & E3). rewrite E1, E2, E3 in Ib. unfold in_ext.
  destruct ph; cbn [In] in Ib; repeat (destruct Ib as [<-|Ib]; [cbn [fst snd] in Hb; apply in_box_iff in Hb; lia|]); destruct Ib.
Qed.
Lemma ext_in q p : In q (tiles_of x y z) -> in_ext q p -> in_box (first_node x y z) (last_node x y z) p = true.
Proof.
  destruct q as [[i j] k], p as [[a b] c]. intros H E. apply in_tiles_of in H. destruct H as (H1 & H2 & H3).
  pose proof (axis_facts x Hx i H1). pose proof (axis_facts y Hy j H2). pose proof (axis_facts z Hz k H3). unfold in_ext in E. apply in_box_iff. lia.
Qed.
Lemma phase_x ph i j k a b c : In (i, j, k) (tiles_of x y z) -> in_phase ph (mesh_of x y z (i, j, k)) (a, b, c) ->
  match ph with
  | Inner => tmin x i <= a <= tmin x i + tcells x i /\ tmin y j <= b <= tmin y j + tcells y j /\ tmin z k <= c <= tmin z k + tcells z k
  | FaceX => tmin x i - tguard x i <= a < tmin x i \/ tmin x i + tcells x i < a <= tmin x i + tcells x i + tguard x i
  | _ => tmin x i <= a <= tmin x i + tcells x i
  end.
Proof.
  intros H (bx & Ib & Hb). apply in_tiles_of in H. destruct H as (H1 & H2 & H3). unfold phase_boxes in Ib. destruct (mesh_nums i j k) as (E1 & E2 & E3). rewrite E1, E2, E3 in Ib.
  destruct ph; cbn [In] in Ib; repeat (destruct Ib as [<-|Ib]; [cbn [fst snd] in Hb; apply in_box_iff in Hb; lia|]); destruct Ib.
Qed.

Lemma one_by_one (P : Z -> Z -> Prop) m i j : 1 <= i <= m -> 1 <= j <= m -> (forall i j, 1 <= i -> i < j -> j <= m -> P i j -> False) -> (forall i j, P i j -> P j i) -> P i j -> i = j.
Proof. intros Hi Hj H S Hp. destruct (Z.lt_trichotomy i j) as [L|[E|L]]; [exfalso; apply (H i j); auto; lia|exact E|exfalso; apply (H j i); auto; lia]. Qed.
Lemma phase_separate ph q q' p : one_cut x y z \/ ph = Inner -> In q (tiles_of x y z) -> In q' (tiles_of x y z) ->
  in_phase ph (mesh_of x y z q) p -> in_phase ph (mesh_of x y z q') p -> q = q'.
Proof.
  destruct q as [[i j] k], q' as [[i' j'] k'], p as [[a b] c]. intros O H H' P P'. apply phase_x in P; [|exact H]. apply phase_x in P'; [|exact H'].
  apply in_tiles_of in H, H'. destruct H as (H1 & H2 & H3), H' as (H1' & H2' & H3').
  assert (Inn : forall (w : paxis (num N)) u v m, sensible w -> 1 <= u <= cut w -> 1 <= v <= cut w -> tmin w u <= m <= tmin w u + tcells w u -> tmin w v <= m <= tmin w v + tcells w v -> u = v).
  { intros w u v m Hw Hu Hv A B. apply (one_by_one (fun u v => tmin w u <= m <= tmin w u + tcells w u /\ tmin w v <= m <= tmin w v + tcells w v) (cut w)); auto; [|tauto].
    intros u0 v0 L1 L2 L3 (C & D). pose proof (axis_order w Hw u0 v0 L1 L2 L3). lia. }
  destruct O as [(C1 & C2 & C3) | Ei]; [| subst ph].
  - assert (j = j') as <- by lia. assert (k = k') as <- by lia. f_equal; f_equal. destruct ph; try (apply (Inn x i i' a); tauto).
    destruct C3 as [C3|C3]; [lia|].
    refine (one_by_one (fun u v => (tmin x u - tguard x u <= a < tmin x u \/ tmin x u + tcells x u < a <= tmin x u + tcells x u + tguard x u) /\
      (tmin x v - tguard x v <= a < tmin x v \/ tmin x v + tcells x v < a <= tmin x v + tcells x v + tguard x v)) (cut x) i i' H1 H1' _ _ (conj P P')); [|tauto].
    intros u v L1 L2 L3 (D & D'). pose proof (axis_order x Hx u v L1 L2 L3) as (F1 & F2). pose proof (axis_facts x Hx u ltac:(lia)). pose proof (axis_facts x Hx v ltac:(lia)).
    pose proof (tguard_max x u). pose proof (tguard_max x v). destruct (Z.eq_dec (u + 1) v) as [Ev|Ev]; [|specialize (F2 ltac:(lia)); lia].
    assert (tmin x v = tmin x u + tcells x u + 1 /\ p_n x ÷ p_nt x <= tcells x u + 1 /\ p_n x ÷ p_nt x <= tcells x v + 1); [|lia].
    destruct (cut_cases x Hx) as [Ec|(Ec1 & Ec2 & Ec3)]; [lia|]. subst v. unfold tmin, tcells. destruct (Z.eqb_spec u (cut x)); [lia|]. destruct (Z.eqb_spec (u + 1) (cut x)); lia.
  - destruct P as (P1 & P2 & P3), P' as (P1' & P2' & P3'). f_equal; [f_equal|]; [exact (Inn x i i' a Hx H1 H1' P1 P1')|exact (Inn y j j' b Hy H2 H2' P2 P2')|exact (Inn z k k' c Hz H3 H3' P3 P3')].
Qed.

(** *** The four loops *)
Variable arrs : idx -> grid (num N) * bool.
Hypothesis Harr : forall q, In q (tiles_of x y z) -> glo (fst (arrs q)) = glo (tile_zero (mesh_of x y z q)) /\ ghi (fst (arrs q)) = ghi (tile_zero (mesh_of x y z q)).
Definition body_list (ph : phase) (q : idx) : list (idx * num N) := if snd (arrs q) then tile_list ph (mesh_of x y z q) (fst (arrs q)) else [].
Lemma body_ok ph q : In q (tiles_of x y z) -> tile_body (mesh_of x y z) arrs ph q = Ret (body_list ph q).
Proof. intros H. unfold tile_body, body_list. destruct (snd (arrs q)); [|reflexivity]. destruct (Harr q H). apply tile_updates_ok; auto using mesh_wide. Qed.
Lemma body_at ph q u : In u (body_list ph q) -> in_phase ph (mesh_of x y z q) (fst u).
Proof. unfold body_list. destruct (snd (arrs q)); [apply tile_list_at|intros []]. Qed.
Lemma body_inb ph q (G : grid (num N)) : glo G = first_node x y z -> ghi G = last_node x y z -> In q (tiles_of x y z) -> inb G (body_list ph q).
Proof. intros L H I u Hu. rewrite L, H. apply (ext_in q); [exact I|]. apply (phase_ext ph); [exact I|]. now apply body_at. Qed.
Lemma body_separate ph : one_cut x y z \/ ph = Inner -> separate (body_list ph) (tiles_of x y z).
Proof. intros O q q' u u' I I' Hu Hu' E. apply body_at in Hu, Hu'. rewrite E in Hu. now apply (phase_separate ph q q' (fst u')). Qed.

Lemma reduce_all n (G : grid (num N)) r : glo G = first_node x y z -> ghi G = last_node x y z -> n <= 1 \/ one_cut x y z ->
  reduce_outcome n (mesh_of x y z) arrs (tiles_of x y z) G r ->
  exists G' l1 l2 l3 l4, r = Ret G' /\ glo G' = glo G /\ ghi G' = ghi G /\
    Permutation l1 (tiles_of x y z) /\ Permutation l2 (tiles_of x y z) /\ Permutation l3 (tiles_of x y z) /\ Permutation l4 (tiles_of x y z) /\
    forall p, gat G' p = apply_at p (flat_map (body_list FaceZ) l4) (apply_at p (flat_map (body_list FaceY) l3) (apply_at p (flat_map (body_list FaceX) l2) (apply_at p (flat_map (body_list Inner) l1) (gat G p)))).
Proof.
  intros L H O (r1 & r2 & r3 & R1 & R).
  assert (O' : forall ph, n <= 1 \/ separate (body_list ph) (tiles_of x y z)) by (intros ph; destruct O as [O|O]; [now left|right; apply body_separate; now left]).
  apply (loop_all n _ (body_list Inner)) in R1; auto using nodup_tiles, body_ok, body_inb. destruct R1 as (G1 & l1 & -> & P1 & A1 & B1 & V1). destruct R as (R2 & R).
  apply (loop_all n _ (body_list FaceX)) in R2; auto using nodup_tiles, body_ok; [|intros q Iq; apply body_inb; congruence]. destruct R2 as (G2 & l2 & -> & P2 & A2 & B2 & V2). destruct R as (R3 & R).
  apply (loop_all n _ (body_list FaceY)) in R3; auto using nodup_tiles, body_ok; [|intros q Iq; apply body_inb; congruence]. destruct R3 as (G3 & l3 & -> & P3 & A3 & B3 & V3).
  apply (loop_all n _ (body_list FaceZ)) in R; auto using nodup_tiles, body_ok; [|intros q Iq; apply body_inb; congruence]. destruct R as (G4 & l4 & -> & P4 & A4 & B4 & V4).
  exists G4, l1, l2, l3, l4. split; [reflexivity|]. split; [congruence|]. split; [congruence|]. repeat (split; [assumption|]). intros p. now rewrite V4, V3, V2, V1.
Qed.
Lemma reduce_exists n (G : grid (num N)) : 1 <= n -> glo G = first_node x y z -> ghi G = last_node x y z -> exists G', reduce_outcome n (mesh_of x y z) arrs (tiles_of x y z) G (Ret G').
Proof.
  intros Hn L H.
  assert (Step : forall ph (G : grid (num N)), glo G = first_node x y z -> ghi G = last_node x y z -> exists G', loop_outcome n (tile_body (mesh_of x y z) arrs ph) (tiles_of x y z) G (Ret G') /\ loop_outcome 1 (tile_body (mesh_of x y z) arrs ph) (tiles_of x y z) G (Ret G') /\ glo G' = first_node x y z /\ ghi G' = last_node x y z).
  { intros ph F A B. destruct (loop_exists 1 (tile_body (mesh_of x y z) arrs ph) (body_list ph) (tiles_of x y z) F ltac:(lia) (body_ok ph) (fun q Iq => body_inb ph q F A B Iq)) as (F' & HF).
    exists F'. assert (LE : loop_outcome n (tile_body (mesh_of x y z) arrs ph) (tiles_of x y z) F (Ret F')) by (destruct HF as (th & sc & P & Ln & E); exists th, sc; split; [exact P|]; split; [lia|exact E]).
    split; [exact LE|]. split; [exact HF|]. apply (loop_all 1 _ (body_list ph)) in HF; auto using nodup_tiles, body_ok, body_inb; [|left; lia]. destruct HF as (F'' & l & E & _ & C & D & _). injection E as <-. split; congruence. }
  destruct (Step Inner G L H) as (G1 & R1 & _ & L1 & H1). destruct (Step FaceX G1 L1 H1) as (G2 & R2 & _ & L2 & H2). destruct (Step FaceY G2 L2 H2) as (G3 & R3 & _ & L3 & H3). destruct (Step FaceZ G3 L3 H3) as (G4 & R4 & _).
  exists G4, (Ret G1), (Ret G2), (Ret G3). tauto.
Qed.
End Mesh.

(** *** Cut along x only: one possible result *)
Section Unique.
Context {N : FNum}.
Variables x y z : paxis (num N).
Hypothesis (Hx : sensible x) (Hy : sensible y) (Hz : sensible z).
Local Notation T := (tiles_of x y z).
Lemma reduce_unique arrs arrs' n n' (G : grid (num N)) r r' :
  (forall q, In q T -> glo (fst (arrs q)) = glo (tile_zero (mesh_of x y z q)) /\ ghi (fst (arrs q)) = ghi (tile_zero (mesh_of x y z q))) ->
  (forall q, In q T -> arrs' q = arrs q) -> glo G = first_node x y z -> ghi G = last_node x y z -> one_cut x y z ->
  reduce_outcome n (mesh_of x y z) arrs T G r -> reduce_outcome n' (mesh_of x y z) arrs' T G r' ->
  exists G' G'', r = Ret G' /\ r' = Ret G'' /\ same_grid G' G''.
Proof.
  intros Ha Ea L H O R R'.
  assert (Ha' : forall q, In q T -> glo (fst (arrs' q)) = glo (tile_zero (mesh_of x y z q)) /\ ghi (fst (arrs' q)) = ghi (tile_zero (mesh_of x y z q))) by (intros q Iq; rewrite (Ea q Iq); now apply Ha).
  apply (reduce_all x y z Hx Hy Hz arrs Ha) in R; auto. apply (reduce_all x y z Hx Hy Hz arrs' Ha') in R'; auto.
  destruct R as (G1 & l1 & l2 & l3 & l4 & -> & A & B & P1 & P2 & P3 & P4 & V). destruct R' as (G2 & k1 & k2 & k3 & k4 & -> & A' & B' & Q1 & Q2 & Q3 & Q4 & V').
  exists G1, G2. split; [reflexivity|]. split; [reflexivity|]. split; [congruence|]. split; [congruence|]. intros p _. rewrite V, V'.
  assert (Sp : forall ph k, Permutation k T -> forall v, apply_at p (flat_map (body_list x y z arrs ph) k) v = apply_at p (flat_map (body_list x y z arrs ph) T) v).
  { intros ph k P v. apply apply_perm; [exact P|]. intros q q' u u' I I'. apply (body_separate x y z Hx Hy Hz arrs ph (or_introl O)); apply (Permutation_in _ P); assumption. }
  assert (Sq : forall ph k, Permutation k T -> flat_map (body_list x y z arrs' ph) k = flat_map (body_list x y z arrs ph) k).
  { intros ph k P. rewrite !flat_map_concat_map. f_equal. apply map_ext_in. intros q Iq. unfold body_list. now rewrite (Ea q (Permutation_in q P Iq)). }
  rewrite (Sq Inner _ Q1), (Sq FaceX _ Q2), (Sq FaceY _ Q3), (Sq FaceZ _ Q4).
  rewrite (Sp Inner _ P1), (Sp FaceX _ P2), (Sp FaceY _ P3), (Sp FaceZ _ P4), (Sp Inner _ Q1), (Sp FaceX _ Q2), (Sp FaceY _ Q3), (Sp FaceZ _ Q4). reflexivity.
Qed.

(** the routines do not change the bounds of the array *)
Lemma exec_bounds ss : forall (a b : grid (num N)), exec ss a = Ret b -> glo b = glo a /\ ghi b = ghi a.
Proof.
  induction ss as [|s ss IH]; intros a b E; [injection E as ->; now split|]. cbn [exec] in E. unfold exec1 in E. destruct (get3 a (fst s)) as [v| | |]; try discriminate. cbn [bind] in E.
  destruct (snd s v) as [w| | |]; try discriminate. cbn [bind] in E. unfold set3 in E. destruct (in_box (glo a) (ghi a) (fst s)); [|discriminate]. cbn [bind] in E. apply IH in E. exact E.
Qed.
Lemma depose_bounds np h xs ws (a b : grid (num N)) : depose np h xs ws a = Ret b -> glo b = glo a /\ ghi b = ghi a.
Proof.
  unfold depose, do_range. generalize (Z.to_nat (np - 1 + 1)) at 1. intros m. generalize 1 at 1. revert a. induction m as [|m IH]; intros a i E; [cbn in E; inversion E; now split|]. cbn [do_loop] in E.
  destruct (get1 xs i) as [p| | |]; try discriminate. cbn [bind] in E. destruct (get1 ws i) as [w| | |]; try discriminate. cbn [bind] in E. destruct (h p w) as [ss| | |]; try discriminate. cbn [bind] in E.
  destruct (exec ss a) as [c| | |] eqn:Ec; try discriminate. cbn [bind] in E. apply exec_bounds in Ec. apply IH in E. destruct Ec as (<- & <-). exact E.
Qed.
Lemma routine_bounds o (f : charge_routine N) : routine_for o f -> forall np xs ws q g (a b : grid (num N)), f np xs ws q g a = Ret b -> glo b = glo a /\ ghi b = ghi a.
Proof. intros [|n Hn _] np xs ws q g a b E; [exact (depose_bounds _ _ _ _ _ _ E)|]. destruct Hn; exact (depose_bounds _ _ _ _ _ _ E). Qed.
Lemma tile_bounds o (f : charge_routine N) d t q ss : routine_for o f -> forall st a, for_each (species_step f d t q) ss st = Ret a -> glo (fst a) = glo (fst st) /\ ghi (fst a) = ghi (fst st).
Proof.
  intros Hf. induction ss as [|s ss IH]; intros st a E; [injection E as ->; now split|]. cbn [for_each] in E. destruct (species_step f d t q s st) as [st'| | |] eqn:Es; try discriminate. cbn [bind] in E.
  apply IH in E. unfold species_step in Es. destruct (negb (s_depos s)); [injection Es as <-; exact E|]. destruct (zlen (s_parts s q) =? 0); [injection Es as <-; exact E|]. destruct d as [[dx dy] dz].
  destruct (f _ _ _ _ _ _) as [b| | |] eqn:Ef in Es; try discriminate. cbn [bind] in Es. injection Es as <-. apply (routine_bounds o f Hf) in Ef. cbn [fst] in E. destruct Ef as (<- & <-). exact E.
Qed.
Theorem depose_unique o (f : charge_routine N) d ss n n' (G : grid (num N)) r r' : routine_for o f -> glo G = first_node x y z -> ghi G = last_node x y z -> one_cut x y z ->
  depose_outcome n f d (mesh_of x y z) T ss G r -> depose_outcome n' f d (mesh_of x y z) T ss G r' ->
  (r = UB /\ r' = UB) \/ exists G' G'', r = Ret G' /\ r' = Ret G'' /\ same_grid G' G''.
Proof.
  intros Hf L H O D D'. unfold depose_outcome in D, D'. destruct (forallb _ _); [right|now left]. destruct D as (arrs & Ea & R), D' as (arrs' & Ea' & R').
  apply (reduce_unique arrs arrs' n n' G r r'); auto.
  - intros q Iq. specialize (Ea q Iq). unfold tile_deposit in Ea. apply (tile_bounds o f d _ q ss Hf) in Ea. exact Ea.
  - intros q Iq. specialize (Ea q Iq). specialize (Ea' q Iq). rewrite Ea in Ea'. now injection Ea'.
Qed.
End Unique.
