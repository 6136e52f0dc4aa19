(** Proofs about PartBC.v, for any arithmetic. *)
From Coq Require Import ZArith List Bool Permutation Lia.
From Verif Require Import Cxx CxxLemmas Num Fortran FortranLemmas Grid GridLemmas Deposit Tiles Exchange TilesProofs TilesExchange SpecTiles TilesFacts TilesDomain PartBC SpecPartBC.
Import ListNotations.
Local Open Scope Z_scope.

(** *** Lists *)
Lemma set1_here {A} (l1 : list A) x l2 a i : i = zlen l1 + 1 -> set1 (l1 ++ x :: l2) i a = Ret (l1 ++ a :: l2).
Proof.
  intros ->. rewrite set1_ok by (rewrite zlen_app, zlen_cons; pose proof (zlen_nonneg l1); pose proof (zlen_nonneg l2); lia).
  replace (Z.to_nat (zlen l1 + 1 - 1)) with (length l1) by (unfold zlen; lia). now rewrite lset_app_here.
Qed.
Lemma get1_here {A} (l1 : list A) x l2 i : i = zlen l1 + 1 -> get1 (l1 ++ x :: l2) i = Ret x.
Proof.
  intros ->. unfold get1. apply zget_ok; [unfold zlen; lia|]. replace (Z.to_nat (zlen l1 + 1 - 1)) with (length l1) by (unfold zlen; lia).
  rewrite nth_error_app2 by lia. now rewrite Nat.sub_diag.
Qed.
Lemma flat_map_swap {X Y Z} (f : X -> Y -> list Z) (l : list X) (k : list Y) :
  Permutation (flat_map (fun x => flat_map (f x) k) l) (flat_map (fun y => flat_map (fun x => f x y) l) k).
Proof.
  induction l as [|x l IH]; cbn [flat_map].
  - induction k as [|y k IH]; cbn; auto.
  - rewrite IH. clear IH. induction k as [|y k IH]; cbn [flat_map]; [constructor|]. rewrite <- IH.
    rewrite <- !app_assoc. apply Permutation_app_head. rewrite !app_assoc. apply Permutation_app_tail. apply Permutation_app_comm.
Qed.
Lemma flat_map_ext_in {X Y} (f g : X -> list Y) l : (forall x, In x l -> f x = g x) -> flat_map f l = flat_map g l.
Proof. induction l as [|x l IH]; intros H; [reflexivity|]. cbn. rewrite H by now left. rewrite IH; [reflexivity|]. intros y Hy. apply H. now right. Qed.
Lemma flat_map_perm_in {X Y} (f g : X -> list Y) l : (forall x, In x l -> Permutation (f x) (g x)) -> Permutation (flat_map f l) (flat_map g l).
Proof. induction l as [|x l IH]; intros H; [constructor|]. cbn. apply Permutation_app; [apply H; now left|]. apply IH. intros y Hy. apply H. now right. Qed.
Lemma flat_map_perm {X Y} (f : X -> list Y) l l' : Permutation l l' -> Permutation (flat_map f l) (flat_map f l').
Proof.
  induction 1; cbn; auto.
  - now apply Permutation_app_head.
  - rewrite !app_assoc. apply Permutation_app_tail, Permutation_app_comm.
  - etransitivity; eauto.
Qed.
Lemma flat_map_two {X Y} (f g : X -> list Y) l : Permutation (flat_map (fun x => f x ++ g x) l) (flat_map f l ++ flat_map g l).
Proof.
  induction l as [|x l IH]; cbn; [constructor|]. rewrite IH, <- !app_assoc. apply Permutation_app_head. rewrite !app_assoc. apply Permutation_app_tail, Permutation_app_comm.
Qed.
Lemma flat_map_piece {X Y} (f : X -> list Y) l x : In x l -> zlen (f x) <= zlen (flat_map f l).
Proof.
  intros H. destruct (in_split _ _ H) as (l1 & l2 & ->). rewrite flat_map_app. cbn [flat_map]. rewrite !zlen_app.
  pose proof (zlen_nonneg (flat_map f l1)). pose proof (zlen_nonneg (flat_map f l2)). lia.
Qed.
Lemma flat_map_le {X Y Z} (f : X -> list Y) (g : X -> list Z) l : (forall x, In x l -> zlen (f x) <= zlen (g x)) -> zlen (flat_map f l) <= zlen (flat_map g l).
Proof.
  induction l as [|x l IH]; intros H; [reflexivity|]. cbn [flat_map]. rewrite !zlen_app.
  pose proof (H x (or_introl eq_refl)). assert (zlen (flat_map f l) <= zlen (flat_map g l)) by (apply IH; intros; apply H; now right). lia.
Qed.
Lemma zlen_perm {X} (l l' : list X) : Permutation l l' -> zlen l = zlen l'.
Proof. intros H. unfold zlen. now rewrite (Permutation_length H). Qed.

(** *** The torus of processes *)
Definition grid_size (np : idx) : Prop := let '(a, b, c) := np in 1 <= a /\ 1 <= b /\ 1 <= c.
Lemma in_processes np a b c : In (a, b, c) (processes np) <-> let '(n1, n2, n3) := np in 0 <= a < n1 /\ 0 <= b < n2 /\ 0 <= c < n3.
Proof.
  destruct np as [[n1 n2] n3]. unfold processes. rewrite in_box_box, in_box_iff. lia.
Qed.
Lemma opposite_opposite d : opposite (opposite d) = d.
Proof. destruct d as [[x y] z]. cbn. f_equal; [f_equal|]; lia. Qed.
Lemma neighbour_in np r d : grid_size np -> In (neighbour np r d) (processes np).
Proof.
  destruct np as [[n1 n2] n3], r as [[a b] c], d as [[x y] z]. intros (H1 & H2 & H3). cbn [neighbour]. apply in_processes.
  repeat split; try apply Z.mod_pos_bound; lia.
Qed.
Lemma neighbour_back np r d : grid_size np -> In r (processes np) -> neighbour np (neighbour np r (opposite d)) d = r.
Proof.
  destruct np as [[n1 n2] n3], r as [[a b] c], d as [[x y] z]. intros (H1 & H2 & H3) Hr. apply in_processes in Hr. cbn.
  f_equal; [f_equal|]; rewrite Zplus_mod_idemp_l; match goal with |- ?e mod _ = _ => ring_simplify e end; apply Z.mod_small; lia.
Qed.
Lemma neighbour_forth np r d : grid_size np -> In r (processes np) -> neighbour np (neighbour np r d) (opposite d) = r.
Proof. intros H1 H2. rewrite <- (opposite_opposite d) at 1. now apply neighbour_back. Qed.

Lemma index_nth l d : In d l -> nth_error l (index_of d l) = Some d.
Proof.
  induction l as [|a l IH]; [easy|]. intros H. cbn [index_of]. destruct (idx_eqb a d) eqn:E; [apply idx_eqb_eq in E; now subst|].
  cbn [nth_error]. apply IH. destruct H as [->|H]; [now rewrite idx_eqb_refl in E|exact H].
Qed.
(** every receive gets the message that was sent in its direction, also where a process is its own neighbour or is the
    neighbour in several directions *)
Lemma matched_ok np r d : grid_size np -> In r (processes np) -> In d directions -> matched np r d = Some d.
Proof.
  intros Hn Hr Hd. unfold matched. set (s := neighbour np r (opposite d)).
  assert (E : sent np s r = received np r s).
  { unfold sent, received. apply filter_ext. intros e.
    assert (Hs : In s (processes np)) by now apply neighbour_in.
    destruct (idx_eqb (neighbour np s e) r) eqn:E1, (idx_eqb (neighbour np r (opposite e)) s) eqn:E2; try reflexivity.
    - apply idx_eqb_eq in E1. apply idx_eqb_neq in E2. elim E2. rewrite <- E1. now apply neighbour_forth.
    - apply idx_eqb_eq in E2. apply idx_eqb_neq in E1. elim E1. rewrite <- E2. now apply neighbour_back. }
  rewrite E. apply index_nth. unfold received. apply filter_In. split; [exact Hd|]. unfold s. apply idx_eqb_refl.
Qed.
Lemma sources np d : grid_size np -> Permutation (map (fun r => neighbour np r (opposite d)) (processes np)) (processes np).
Proof.
  intros Hn. assert (Nd : NoDup (processes np)) by (destruct np as [[? ?] ?]; apply NoDup_box). apply NoDup_Permutation; [|exact Nd|].
  - assert (X : forall l, NoDup l -> (forall r, In r l -> In r (processes np)) -> NoDup (map (fun r => neighbour np r (opposite d)) l)).
    { induction l as [|r l IH]; intros H Hi; [constructor|]. inversion H as [|? ? H1 H2]; subst. cbn [map]. constructor.
      - rewrite in_map_iff. intros (r' & E & Hr'). apply H1.
        assert (r' = r) by (rewrite <- (neighbour_back np r' d Hn), E by (apply Hi; now right); apply neighbour_back; [exact Hn|apply Hi; now left]). subst r'. exact Hr'.
      - apply IH; [exact H2|]. intros x Hx. apply Hi. now right. }
    apply X; [exact Nd|auto].
  - intros s. rewrite in_map_iff. split.
    + intros (r & <- & _). now apply neighbour_in.
    + intros Hs. exists (neighbour np s d). split; [now apply neighbour_forth|now apply neighbour_in].
Qed.

(** *** The buffers *)
Section Buffers.
Context {N : FNum} (npid : Z).
Hypothesis Hpid : 0 <= npid.
Definition pack (p : part N) : list (num N) := [px p; py p; pz p; pux p; puy p; puz p; pgi p] ++ ppid p.
Definition good_pid (p : part N) : Prop := zlen (ppid p) = npid.
Lemma pack_len p : good_pid p -> zlen (pack p) = npid + 7.
Proof. unfold good_pid. intros H. unfold pack. rewrite zlen_app, H. change (zlen [_; _; _; _; _; _; _]) with 7. lia. Qed.
Lemma packs_len ps : Forall good_pid ps -> zlen (flat_map pack ps) = zlen ps * (npid + 7).
Proof.
  induction 1 as [|p ps Hp _ IH]; [reflexivity|]. cbn [flat_map]. rewrite zlen_app, zlen_cons, IH, pack_len by exact Hp. lia.
Qed.

(** the buffer contains the particles ps *)
Definition buf_ok (b : sbuf N) (ps : list (part N)) : Prop :=
  Forall good_pid ps /\ sb_np b = zlen ps /\ sb_i b = zlen ps * (npid + 7) + 1 /\ sb_n b = zlen (sb_arr b) /\
  exists junk, sb_arr b = map Some (flat_map pack ps) ++ junk.

(** a run of assignments *)
Lemma store_run (vs : list (num N)) : forall (l1 l2 : list (option (num N))) i k, i = zlen l1 + 1 -> zlen vs <= zlen l2 -> k = length vs ->
  forall f, (forall j a, 0 <= j < zlen vs -> f (1 + j) a = set1 a (i + j) (Some (nth (Z.to_nat j) vs (n_lit 0 0)%N))) ->
  exists l3, do_loop k 1 f (l1 ++ l2) = Ret (l1 ++ map Some vs ++ l3) /\ zlen l2 = zlen vs + zlen l3.
Proof.
  intros l1 l2 i k -> Hl -> f Hf.
  assert (X : forall todo done_ l2, vs = done_ ++ todo -> zlen todo <= zlen l2 ->
    exists l3, do_loop (length todo) (1 + zlen done_) f (l1 ++ map Some done_ ++ l2) = Ret (l1 ++ map Some vs ++ l3) /\ zlen l2 = zlen todo + zlen l3).
  { induction todo as [|v todo IH]; intros dn m Ev Hm.
    - rewrite app_nil_r in Ev. subst dn. exists m. split; [reflexivity|]. change (zlen []) with 0. lia.
    - destruct m as [|x m]; [rewrite zlen_cons in Hm; pose proof (zlen_nonneg todo); change (zlen (@nil (option (num N)))) with 0 in Hm; lia|].
      rewrite !zlen_cons in Hm. cbn [length do_loop]. rewrite Hf by (rewrite Ev, zlen_app, zlen_cons; pose proof (zlen_nonneg dn); pose proof (zlen_nonneg todo); lia).
      replace (nth (Z.to_nat (zlen dn)) vs (n_lit 0 0)%N) with v.
      2:{ rewrite Ev. unfold zlen. rewrite Nat2Z.id, app_nth2 by lia. now rewrite Nat.sub_diag. }
      rewrite app_assoc. rewrite set1_here by (rewrite zlen_app, zlen_map; lia). cbn [bind].
      destruct (IH (dn ++ [v]) m) as (l3 & E & H3); [now rewrite <- app_assoc|lia|]. exists l3. rewrite !zlen_cons. split; [|lia].
      rewrite <- E. f_equal; [rewrite zlen_app; change (zlen [v]) with 1; lia|]. rewrite map_app, <- !app_assoc. reflexivity. }
  destruct (X vs [] l2 eq_refl Hl) as (l3 & E & H3). exists l3. split; [exact E|exact H3].
Qed.

Lemma nth_zget {A} (l : list A) j d : 1 <= j <= zlen l -> get1 l j = Ret (nth (Z.to_nat (j - 1)) l d).
Proof. apply get1_ok. Qed.

Lemma room7 (l : list (option (num N))) k : 7 + k <= zlen l -> 0 <= k ->
  exists a b c d e f g l', l = a :: b :: c :: d :: e :: f :: g :: l' /\ k <= zlen l'.
Proof.
  intros H Hk. destruct l as [|a [|b [|c [|d [|e [|f [|g l]]]]]]]; try (unfold zlen in H; cbn [length] in H; lia).
  exists a, b, c, d, e, f, g, l. split; [reflexivity|]. rewrite !zlen_cons in H. lia.
Qed.
Lemma put_ok p b ps : buf_ok b ps -> good_pid p -> (zlen ps + 1) * (npid + 7) + 1 < 2 ^ 31 ->
  exists b', put_in_buffer npid p b = Ret b' /\ buf_ok b' (ps ++ [p]).
Proof.
  intros (Hg & Enp & Ei & En & junk & Ea) Hp Hlt. pose proof (zlen_nonneg ps) as L0. pose proof (packs_len ps Hg) as LP.
  unfold put_in_buffer. rewrite Ei.
  unfold int32. replace (_ && _)%bool with true by (symmetry; apply andb_true_intro; split; [apply Z.leb_le|apply Z.ltb_lt]; nia). cbn [bind].
  match goal with |- context [bind ?m _] => assert (G : exists b1, m = Ret b1 /\ sb_np b1 = zlen ps /\ sb_n b1 = zlen (sb_arr b1) /\ sb_i b1 = sb_i b /\
     exists j, sb_arr b1 = map Some (flat_map pack ps) ++ j /\ npid + 7 <= zlen j) end.
  { destruct (sb_n b <? _) eqn:Eg.
    - unfold resize_array. apply Z.ltb_lt in Eg.
      assert (Ln : sb_n b = zlen ps * (npid + 7) + zlen junk) by (rewrite En, Ea, zlen_app, zlen_map, LP; lia).
      pose proof (zlen_nonneg junk). assert (0 <= zlen ps * (npid + 7)) by nia.
      rewrite Z.min_l by lia. rewrite <- En, Z.leb_refl. cbn [bind]. eexists. split; [reflexivity|]. cbn [sb_np sb_n sb_arr sb_i].
      split; [exact Enp|]. split; [rewrite zlen_app, zlen_firstn, zlen_repeat, <- En; lia|]. split; [now rewrite Ei|].
      exists (junk ++ repeat None (Z.to_nat (2 * (sb_n b + (npid + 7) + 1)) - Z.to_nat (sb_n b))). split.
      + rewrite app_assoc, <- Ea. f_equal. apply firstn_all2. unfold zlen in En. lia.
      + rewrite zlen_app, zlen_repeat. lia.
    - apply Z.ltb_ge in Eg. exists b. split; [reflexivity|]. split; [exact Enp|]. split; [exact En|]. split; [reflexivity|]. exists junk. split; [exact Ea|].
      rewrite En, Ea, zlen_app, zlen_map, LP in Eg. lia. }
  destruct G as (b1 & -> & E1 & E2 & _ & j & E3 & Hj). cbn [bind]. rewrite E3.
  destruct (room7 j npid) as (j1 & j2 & j3 & j4 & j5 & j6 & j7 & j' & -> & Hj'); [lia|exact Hpid|].
  set (l0 := map Some (flat_map pack ps)) in *. assert (Ll : zlen l0 = zlen ps * (npid + 7)) by (unfold l0; now rewrite zlen_map).
  rewrite set1_here by lia. cbn [bind].
  do 6 (match goal with |- context [set1 (?l ++ ?a :: ?b :: ?c) _ _] => change (l ++ a :: b :: c) with (l ++ ([a] ++ (b :: c))); rewrite (app_assoc l [a]) end;
        rewrite set1_here by (rewrite !zlen_app; repeat change (zlen [_]) with 1; lia); cbn [bind]).
  match goal with |- context [(?l ++ ?v :: j')] => change (l ++ v :: j') with (l ++ ([v] ++ j')); rewrite (app_assoc l [v]) end.
  unfold do_range. replace (Z.to_nat (npid - 1 + 1)) with (length (ppid p)) by (unfold good_pid, zlen in Hp; lia).
  destruct (store_run (ppid p) ((((((((l0 ++ [Some (px p)]) ++ [Some (py p)]) ++ [Some (pz p)]) ++ [Some (pux p)]) ++ [Some (puy p)]) ++ [Some (puz p)]) ++ [Some (pgi p)])) j'
     (zlen ps * (npid + 7) + 1 + 6 + 1) (length (ppid p))) with (f := fun j a => do v <- get1 (ppid p) j; set1 a (zlen ps * (npid + 7) + 1 + 6 + j) (Some v)) as (l3 & Es & Hl3).
  - rewrite !zlen_app. repeat change (zlen [_]) with 1. lia.
  - unfold good_pid in Hp. lia.
  - reflexivity.
  - intros j a Hjj. rewrite (get1_ok (ppid p) (1 + j) (n_lit 0 0)%N) by lia. cbn [bind]. f_equal; [lia|]. f_equal. f_equal. lia.
  - rewrite Es. cbn [bind]. eexists. split; [reflexivity|]. unfold buf_ok. cbn [sb_np sb_n sb_arr sb_i].
    split; [apply Forall_app; split; [exact Hg|now constructor]|]. rewrite !zlen_app. change (zlen [p]) with 1.
    split; [lia|]. split; [rewrite E1; lia|]. split.
    + rewrite E2, E3. rewrite !zlen_app, !zlen_cons. repeat change (zlen [_]) with 1. rewrite zlen_map. change (zlen (@nil (option (num N)))) with 0. lia.
    + exists l3. rewrite flat_map_app, map_app. unfold l0. cbn [flat_map]. rewrite app_nil_r. unfold pack at 3. rewrite map_app. cbn [map]. rewrite <- !app_assoc. reflexivity.
Qed.

Lemma message_ok b ps : buf_ok b ps -> message npid b = Ret (map Some (flat_map pack ps)).
Proof.
  intros (Hg & Enp & Ei & En & junk & Ea). unfold message. rewrite Enp, Ea. pose proof (packs_len ps Hg) as LP.
  rewrite zlen_app, zlen_map, LP. pose proof (zlen_nonneg junk).
  replace (_ <=? _) with true by (symmetry; apply Z.leb_le; lia). f_equal.
  replace (Z.to_nat (zlen ps * (npid + 7))) with (length (map (@Some (num N)) (flat_map pack ps))) by (rewrite map_length, <- LP; unfold zlen; lia).
  rewrite firstn_app, Nat.sub_diag, firstn_all. cbn. apply app_nil_r.
Qed.

Lemma value_ok (l1 : list (num N)) v l2 i : i = zlen l1 + 1 -> @value N (map Some (l1 ++ v :: l2)) i = Ret v.
Proof. intros ->. unfold value. rewrite map_app. cbn [map]. rewrite get1_here by now rewrite zlen_map. reflexivity. Qed.
Lemma values_ok (vs l2 : list (num N)) : forall (l1 : list (num N)) i, i = zlen l1 ->
  mapM (fun j => @value N (map Some (l1 ++ vs ++ l2)) (i + j)) (zrange 1 (zlen vs)) = Ret vs.
Proof.
  intros l1 i ->.
  rewrite (mapM_Ret _ (fun j => nth (Z.to_nat (j - 1)) vs (n_lit 0 0)%N)).
  - f_equal. unfold zrange. rewrite map_map. apply nth_ext with (d := (n_lit 0 0)%N) (d' := (n_lit 0 0)%N).
    + rewrite map_length, zseq_length. unfold zlen. lia.
    + rewrite map_length, zseq_length. intros n Hn. 
      erewrite nth_indep by (rewrite map_length, zseq_length; exact Hn).
      rewrite (map_nth (fun x => nth (Z.to_nat (1 + x - 1)) vs (n_lit 0 0)%N) _ 0). 
      rewrite (nth_error_nth_eq _ n (Z.of_nat n) 0) by now apply zseq_nth. f_equal. lia.
  - intros j Hj. apply in_zrange in Hj. destruct (nth_split (n := Z.to_nat (j - 1)) vs (n_lit 0 0)%N) as (a & c & E & La); [unfold zlen in Hj; lia|].
    rewrite E at 1. rewrite <- app_assoc. cbn [app]. rewrite app_assoc. apply value_ok. rewrite zlen_app. unfold zlen in *. lia.
Qed.

(** a message is read as the particles it was made from *)
Lemma receive_ok D ps s : Forall good_pid ps -> receive npid D (map Some (flat_map pack ps)) s = py_add_particles_to_species D ps s.
Proof.
  intros Hg. unfold receive, py_add_particles_to_species, do_range. rewrite zlen_map, (packs_len ps Hg).
  replace ((zlen ps * (npid + 7) - 1 + (npid + 7)) ÷ (npid + 7)) with (zlen ps).
  2:{ pose proof (zlen_nonneg ps). rewrite Z.quot_div_nonneg by nia. apply Z.div_unique with (npid + 6); nia. }
  apply do_loop_ext. intros i s' Hi. 
  assert (Hi' : 1 <= i <= zlen ps) by (unfold zlen in *; lia). clear Hi.
  destruct (nth_error ps (Z.to_nat (i - 1))) as [p|] eqn:E; [|apply nth_error_None in E; unfold zlen in Hi'; lia].
  destruct (nth_error_split _ _ E) as (p1 & p2 & -> & L1).
  rewrite (get1_here p1 p p2) by (unfold zlen in *; lia). cbn [bind].
  apply Forall_app in Hg. destruct Hg as (Hg1 & Hg2). inversion Hg2 as [|? ? Hp Hg3]; subst.
  rewrite flat_map_app. cbn [flat_map]. pose proof (packs_len p1 Hg1) as LP.
  set (u := flat_map pack p1) in *. set (w := flat_map pack p2). 
  assert (Ei : 1 + (i - 1) * (npid + 7) = zlen u + 1) by (rewrite LP; replace (i - 1) with (zlen p1) by (unfold zlen; lia); lia). rewrite Ei.
  unfold pack.
  assert (V : forall l1 v l2 k, pack p = l1 ++ v :: l2 -> k = zlen l1 -> @value N (map Some (u ++ pack p ++ w)) (zlen u + 1 + k) = Ret v).
  { intros l1 v l2 k E1 ->. rewrite E1, <- app_assoc. cbn [app]. rewrite app_assoc. apply value_ok. rewrite zlen_app. lia. }
  fold (pack p).
  rewrite <- (Z.add_0_r (zlen u + 1)) at 1.
  rewrite (V [] (px p) _ 0 eq_refl eq_refl). cbn [bind].
  rewrite (V [px p] (py p) _ 1 eq_refl eq_refl). cbn [bind].
  rewrite (V [px p; py p] (pz p) _ 2 eq_refl eq_refl). cbn [bind].
  rewrite (V [px p; py p; pz p] (pux p) _ 3 eq_refl eq_refl). cbn [bind].
  rewrite (V [px p; py p; pz p; pux p] (puy p) _ 4 eq_refl eq_refl). cbn [bind].
  rewrite (V [px p; py p; pz p; pux p; puy p] (puz p) _ 5 eq_refl eq_refl). cbn [bind].
  rewrite (V [px p; py p; pz p; pux p; puy p; puz p] (pgi p) _ 6 eq_refl eq_refl). cbn [bind].
  pose proof (values_ok (ppid p) w (u ++ [px p; py p; pz p; pux p; puy p; puz p; pgi p]) (zlen u + 1 + 6)) as Vs.
  rewrite <- app_assoc, (app_assoc _ (ppid p) w) in Vs. fold (pack p) in Vs. rewrite Hp in Vs.
  rewrite Vs by (rewrite zlen_app; change (zlen [px p; py p; pz p; pux p; puy p; puz p; pgi p]) with 7; lia). cbn [bind]. now destruct p.
Qed.
End Buffers.
