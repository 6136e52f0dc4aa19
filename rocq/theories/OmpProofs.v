(** Parallel filling of the cumulative tables. *)
From Coq Require Import ZArith List Bool Lia.
From Verif Require Import Cxx Num Utilities LookupTables VecFun Units Oracles OmpFor BreitWheeler QuantumSync.
From Verif Require Import CxxLemmas UtilitiesProofs.
Import ListNotations.

Lemma nth_error_ext {A} (l k : list A) : (forall i, nth_error l i = nth_error k i) -> l = k.
Proof.
  revert k; induction l as [|a l IH]; intros [|b k] H; [reflexivity| | |].
  - specialize (H 0%nat). discriminate.
  - specialize (H 0%nat). discriminate.
  - f_equal; [specialize (H 0%nat); cbn in H; congruence|]. apply IH. intros i. exact (H (S i)).
Qed.

Lemma skipn_skipn {A} : forall x y (l : list A), skipn x (skipn y l) = skipn (x + y) l.
Proof.
  intros x y; revert x. induction y as [|y IH]; intros x l; [now rewrite Nat.add_0_r|].
  rewrite <- plus_n_Sm. destruct l as [|a l]; [cbn; now rewrite !skipn_nil|]. cbn [skipn]. apply IH.
Qed.

(** ** interleavings of disjoint writers *)
Section Inter.
Context {A : Type}.

Definition target (w : write_op A) : Z := to_int32 (fst w).
Definition in_range (n : Z) (w : write_op A) : bool := (0 <=? target w)%Z && (target w <? n)%Z.

(** iterations never write to the same element *)
Definition disjoint (its : list (list (write_op A))) : Prop :=
  forall i j w v, i <> j -> In w (nth i its []) -> In v (nth j its []) -> target w <> target v.

Lemma apply_in_range (ws : list (write_op A)) : forall arr, forallb (in_range (zlen arr)) ws = true ->
  exists arr', apply_writes arr ws = Ret arr' /\ length arr' = length arr.
Proof.
  induction ws as [|[i a] ws IH]; intros arr H; cbn in *; [eauto|].
  apply andb_true_iff in H as [H1 H2]. unfold in_range, target in H1. cbn [fst] in H1.
  apply andb_true_iff in H1 as [H1 H3]. apply Z.leb_le in H1. apply Z.ltb_lt in H3.
  unfold vset. rewrite zset_ok by lia. cbn [bind].
  destruct (IH (lset arr (Z.to_nat (to_int32 i)) a)) as (arr' & E & L).
  - unfold zlen in *. now rewrite lset_length.
  - exists arr'. split; [exact E|]. now rewrite lset_length in L.
Qed.

Lemma apply_out_of_range (ws : list (write_op A)) : forall arr, forallb (in_range (zlen arr)) ws = false ->
  apply_writes arr ws = UB.
Proof.
  induction ws as [|[i a] ws IH]; intros arr H; cbn in *; [discriminate|].
  unfold in_range at 1, target in H. cbn [fst] in H. unfold vset.
  destruct (Z_lt_dec (to_int32 i) 0); [rewrite zset_ub by lia; reflexivity|].
  destruct (Z_le_dec (zlen arr) (to_int32 i)); [rewrite zset_ub by lia; reflexivity|].
  rewrite zset_ok by lia. cbn [bind]. apply IH. unfold zlen in *. rewrite lset_length.
  apply andb_false_iff in H as [H|H]; [|exact H].
  apply andb_false_iff in H as [H|H]; [apply Z.leb_gt in H|apply Z.ltb_ge in H]; lia.
Qed.

(** the content after the writes depends, at each position, on the writes to
    that position only *)
Definition at_pos (k : nat) (w : write_op A) : bool := (target w =? Z.of_nat k)%Z.

Lemma apply_filter (ws : list (write_op A)) k : forall arr arr', apply_writes arr ws = Ret arr' ->
  nth_error arr' k = match rev (filter (at_pos k) ws) with [] => nth_error arr k | w :: _ => Some (snd w) end.
Proof.
  induction ws as [|[i a] ws IH]; intros arr arr' H; cbn in H.
  - now injection H as <-.
  - destruct (vset arr i a) as [arr1| | |] eqn:E; try discriminate. cbn [bind] in H.
    unfold vset in E. apply zset_inv in E as [Hr E]. subst arr1. rewrite (IH _ _ H).
    cbn [filter]. unfold at_pos at 2. unfold target. cbn [fst].
    destruct (Z.eqb_spec (to_int32 i) (Z.of_nat k)) as [E2|E2].
    + cbn [rev]. destruct (rev (filter (at_pos k) ws)) as [|w r] eqn:F; cbn.
      * rewrite E2, Nat2Z.id. apply lset_same. unfold zlen in Hr. lia.
      * reflexivity.
    + destruct (rev (filter (at_pos k) ws)); [|reflexivity]. apply lset_other. lia.
Qed.

Lemma apply_writes_ext arr (ws vs : list (write_op A)) :
  (forall k, filter (at_pos k) ws = filter (at_pos k) vs) ->
  (forall w, In w ws <-> In w vs) ->
  apply_writes arr ws = apply_writes arr vs.
Proof.
  intros Hf Hin.
  assert (Hb : forallb (in_range (zlen arr)) ws = forallb (in_range (zlen arr)) vs).
  { destruct (forallb _ ws) eqn:E1; destruct (forallb _ vs) eqn:E2; try reflexivity; exfalso.
    - rewrite forallb_forall in E1. assert (forallb (in_range (zlen arr)) vs = true); [|congruence].
      apply forallb_forall. intros x Hx. apply E1. now apply Hin.
    - rewrite forallb_forall in E2. assert (forallb (in_range (zlen arr)) ws = true); [|congruence].
      apply forallb_forall. intros x Hx. apply E2. now apply Hin. }
  destruct (forallb (in_range (zlen arr)) ws) eqn:E.
  - destruct (apply_in_range ws arr E) as (a1 & E1 & L1).
    destruct (apply_in_range vs arr ltac:(congruence)) as (a2 & E2 & L2).
    rewrite E1, E2. f_equal. apply nth_error_ext. intros k.
    rewrite (apply_filter _ k _ _ E1), (apply_filter _ k _ _ E2). now rewrite Hf.
  - rewrite !apply_out_of_range by congruence. reflexivity.
Qed.

Lemma nth_app_mid (pre : list (list (write_op A))) l post i :
  nth i (pre ++ l :: post) [] = if Nat.eq_dec i (length pre) then l else nth i (pre ++ [] :: post) [].
Proof.
  destruct (Nat.eq_dec i (length pre)) as [->|Hn].
  - now rewrite nth_middle.
  - destruct (Nat.lt_ge_cases i (length pre)).
    + now rewrite !app_nth1 by assumption.
    + rewrite !app_nth2 by lia. destruct (i - length pre) eqn:E; [lia|reflexivity].
Qed.

Lemma disjoint_tail pre w ws post : disjoint (pre ++ (w :: ws) :: post) -> disjoint (pre ++ ws :: post).
Proof.
  intros H i j x y Hij Hx Hy. apply (H i j x y Hij); rewrite nth_app_mid in *.
  - destruct (Nat.eq_dec i (length pre)); [now right|exact Hx].
  - destruct (Nat.eq_dec j (length pre)); [now right|exact Hy].
Qed.

Lemma filter_none {X} (f : X -> bool) l : (forall x, In x l -> f x = false) -> filter f l = [].
Proof. induction l; intros H; cbn; [reflexivity|]. rewrite (H a) by now left. apply IHl. intros. apply H. now right. Qed.

Lemma interleaving_filter its sched k : interleaving its sched -> disjoint its ->
  filter (at_pos k) sched = filter (at_pos k) (concat its).
Proof.
  induction 1 as [its Hn|pre w ws post sched Hi IH]; intros Hd.
  - rewrite (filter_none (at_pos k) (concat its)); [reflexivity|]. intros x Hx. apply in_concat in Hx as (l & Hl & Hx).
    rewrite Forall_forall in Hn. rewrite (Hn l Hl) in Hx. destruct Hx.
  - cbn [filter]. rewrite (IH (disjoint_tail _ _ _ _ Hd)). rewrite !concat_app, !filter_app. cbn [concat].
    cbn [app filter]. destruct (at_pos k w) eqn:E; [|reflexivity].
    rewrite (filter_none (at_pos k) (concat pre)); [reflexivity|].
    intros x Hx. apply in_concat in Hx as (l & Hl & Hx).
    destruct (In_nth _ _ [] Hl) as (i & Hi2 & <-).
    assert (Hne : target x <> target w).
    { apply (Hd i (length pre)); [lia| |].
      - rewrite app_nth1 by assumption. exact Hx.
      - rewrite nth_middle. now left. }
    unfold at_pos in *. apply Z.eqb_eq in E. apply Z.eqb_neq. congruence.
Qed.

Lemma interleaving_In (its : list (list (write_op A))) sched : interleaving its sched -> forall w, In w sched <-> In w (concat its).
Proof.
  induction 1 as [its Hn|pre w ws post sched Hi IH]; intros x.
  - split; [intros []|]. intros Hx. apply in_concat in Hx as (l & Hl & Hx).
    rewrite Forall_forall in Hn. rewrite (Hn l Hl) in Hx. destruct Hx.
  - cbn [In]. rewrite IH. rewrite !concat_app, !in_app_iff. cbn [concat app In]. rewrite !in_app_iff. tauto.
Qed.

Theorem interleaving_deterministic arr its sched : interleaving its sched -> disjoint its ->
  apply_writes arr sched = apply_writes arr (concat its).
Proof.
  intros H Hd. apply apply_writes_ext.
  - intros k. now apply interleaving_filter.
  - now apply interleaving_In.
Qed.

(** filling a whole array *)
Lemma apply_seq (f : nat -> A) : forall m s arr, (s + m <= length arr)%nat -> (Z.of_nat (length arr) < 2 ^ 31)%Z ->
  apply_writes arr (map (fun k => (Z.of_nat k, f k)) (seq s m))
  = Ret (firstn s arr ++ map f (seq s m) ++ skipn (s + m) arr).
Proof.
  induction m as [|m IH]; intros s arr Hm Hl.
  - cbn. rewrite Nat.add_0_r. now rewrite firstn_skipn.
  - cbn [seq map apply_writes]. unfold vset. rewrite to_int32_small by lia. rewrite zset_ok by (unfold zlen; lia).
    cbn [bind]. rewrite Nat2Z.id. rewrite IH by (rewrite lset_length; lia). f_equal.
    assert (E : forall (l : list A) n a, (n < length l)%nat -> lset l n a = firstn n l ++ a :: skipn (S n) l).
    { clear. induction l; intros [|n] x H; cbn in *; try lia; [reflexivity|]. f_equal. apply IHl. lia. }
    rewrite (E arr s (f s)) by lia.
    assert (L1 : length (firstn s arr) = s) by (rewrite firstn_length; lia).
    replace (S s) with (length (firstn s arr) + 1)%nat at 1 by lia. rewrite firstn_app_2. cbn [firstn].
    rewrite <- !app_assoc. cbn [app]. f_equal. f_equal. f_equal.
    replace (S s + m)%nat with (length (firstn s arr) + S m)%nat by lia.
    rewrite skipn_app. rewrite skipn_all2 by lia. replace (length (firstn s arr) + S m - length (firstn s arr))%nat with (S m) by lia.
    cbn [app skipn]. replace (s + S m)%nat with (m + S s)%nat by lia.
    rewrite <- skipn_skipn. reflexivity.
Qed.
End Inter.

(** ** rows of the tables *)
Section Rows.
Context {N : NumOps} (Orc : Oracles N).

(** the sequential order is one of the schedules *)
Lemma concat_interleaving {A} (its : list (list (write_op A))) : interleaving its (concat its).
Proof.
  induction its as [|l its IH]; cbn; [constructor; constructor|].
  assert (Hcons : forall (its : list (list (write_op A))) s, interleaving its s -> interleaving ([] :: its) s).
  { intros its0 s H. induction H; [constructor; constructor; auto|].
    exact (il_step ([] :: pre) w ws post sched IHinterleaving). }
  induction l as [|w l IHl]; cbn; [now apply Hcons|]. exact (il_step [] w l its _ IHl).
Qed.

Definition row_at {A} (nf i : nat) (f : nat -> A) : list (write_op A) :=
  map (fun j => (Z.of_nat (i * nf + j), f j)) (seq 0 nf).

(** the value meant for entry (i, j) of the pair table *)
Definition bw_entry (chi : num N) (frac : list (num N)) (j : nat) : num N :=
  if (j =? 0)%nat then n_zero else if (S j =? length frac)%nat then (n_one / n_two)%N
  else bw_cumulative_pair Orc chi (chi * nth j frac n_zero)%N.

Lemma bw_row_inner_eq chi frac : forall n jj cc, (jj + n <= length frac)%nat -> (Z.of_nat (length frac) < 2 ^ 31)%Z ->
  (0 <= cc)%Z -> (cc + Z.of_nat n < 2 ^ 31)%Z ->
  bw_row_inner Orc n chi frac (Z.of_nat jj) cc =
  Ret (map (fun j => ((cc + Z.of_nat (j - jj))%Z, bw_cumulative_pair Orc chi (chi * nth j frac n_zero)%N)) (seq jj n),
       (cc + Z.of_nat n)%Z).
Proof.
  induction n as [|n IH]; intros jj cc Hj Hl Hc Hcc.
  - cbn. now rewrite Z.add_0_r.
  - cbn [bw_row_inner]. unfold vget. rewrite to_int32_small by lia.
    rewrite (zget_nth frac (Z.of_nat jj) n_zero) by (unfold zlen; lia). cbn [bind]. rewrite Nat2Z.id.
    replace (Z.of_nat jj + 1)%Z with (Z.of_nat (S jj)) by lia.
    rewrite wrap64_small by lia.
    rewrite IH by lia. cbn [bind seq map]. f_equal. f_equal; [|lia]. f_equal.
    + f_equal. lia.
    + apply map_ext_in. intros j Hjj. apply in_seq in Hjj. f_equal. lia.
Qed.

Lemma seq_ends n : (2 <= n)%nat -> seq 0 n = 0%nat :: seq 1 (n - 2) ++ [(n - 1)%nat].
Proof.
  intros H. destruct n as [|[|n]]; try lia. cbn [seq]. f_equal.
  replace (S (S n) - 2)%nat with n by lia. replace (S (S n) - 1)%nat with (S n) by lia.
  change (1%nat :: seq 2 n) with (seq 1 (S n)). rewrite seq_S. reflexivity.
Qed.

Lemma bw_row_eq chis frac len i chi : (2 <= length frac)%nat -> nth_error chis i = Some chi ->
  (Z.of_nat (length chis * length frac) <= len)%Z -> (len < 2 ^ 31)%Z ->
  bw_row_writes Orc chis frac len (Z.of_nat i) = Ret (row_at (length frac) i (bw_entry chi frac)).
Proof.
  intros Hf Hi Hlen Hl.
  assert (Hin : (i < length chis)%nat) by (apply nth_error_Some; congruence).
  assert (Hprod : (S i * length frac <= length chis * length frac)%nat) by (apply Nat.mul_le_mono_r; lia).
  cbn [Nat.mul] in Hprod.
  assert (Hc : (i <= i * length frac)%nat) by nia.
  assert (Hn : (length chis <= length chis * length frac)%nat) by nia.
  unfold bw_row_writes. unfold vget at 1. rewrite to_int32_small by nia.
  rewrite (zget_ok chis (Z.of_nat i) chi) by (rewrite ?Nat2Z.id; auto; lia). cbn [bind]. cbn zeta.
  replace (Z.of_nat i * zlen frac)%Z with (Z.of_nat (i * length frac)) by (unfold zlen; lia).
  rewrite (wrap64_small (Z.of_nat (i * length frac))) by lia.
  rewrite to_int32_small by lia.
  replace (0 <=? Z.of_nat (i * length frac))%Z with true by (symmetry; apply Z.leb_le; lia).
  replace (Z.of_nat (i * length frac) <? len)%Z with true by (symmetry; apply Z.ltb_lt; lia). cbn [andb negb].
  rewrite wrap64_small by (unfold zlen; lia). rewrite wrap64_small by lia.
  replace (Z.to_nat (zlen frac - 1 - 1)) with (length frac - 2)%nat by (unfold zlen; lia).
  rewrite (bw_row_inner_eq chi frac (length frac - 2) 1) by lia. cbn [bind].
  unfold row_at. rewrite seq_ends by assumption. cbn [map]. rewrite map_app. cbn [map].
  f_equal. f_equal.
  - f_equal. lia.
  - f_equal.
    + apply map_ext_in. intros j Hj. apply in_seq in Hj. f_equal; [lia|].
      unfold bw_entry. destruct (Nat.eqb_spec j 0); [lia|]. destruct (Nat.eqb_spec (S j) (length frac)); [lia|reflexivity].
    + f_equal. f_equal; [lia|]. unfold bw_entry. destruct (Nat.eqb_spec (length frac - 1) 0); [lia|].
      destruct (Nat.eqb_spec (S (length frac - 1)) (length frac)); [reflexivity|lia].
Qed.

Lemma rows_disjoint {A} nf (f : nat -> nat -> A) n : (Z.of_nat (n * nf) < 2 ^ 31)%Z ->
  disjoint (map (fun i => row_at nf i (f i)) (seq 0 n)).
Proof.
  intros Hl i j w v Hij Hw Hv.
  assert (Hrow : forall i w, In w (nth i (map (fun i => row_at nf i (f i)) (seq 0 n)) []) ->
     exists a, (a < nf)%nat /\ (i < n)%nat /\ target w = Z.of_nat (i * nf + a)).
  { clear i j w v Hij Hw Hv. intros i w Hw. destruct (Nat.lt_ge_cases i n) as [Hi|Hi].
    - rewrite (nth_indep _ [] (row_at nf 0 (f 0%nat))) in Hw by (rewrite map_length, seq_length; lia).
      change (row_at nf 0 (f 0%nat)) with ((fun i => row_at nf i (f i)) 0%nat) in Hw.
      rewrite map_nth, seq_nth in Hw by lia. cbn [Nat.add] in Hw.
      apply in_map_iff in Hw as (a & <- & Ha). apply in_seq in Ha. exists a. split; [lia|]. split; [lia|].
      unfold target. cbn [fst]. apply to_int32_small.
      assert (S i * nf <= n * nf)%nat by (apply Nat.mul_le_mono_r; lia). cbn in *. lia.
    - rewrite nth_overflow in Hw by (rewrite map_length, seq_length; lia). destruct Hw. }
  destruct (Hrow _ _ Hw) as (a & Ha & Hi & ->). destruct (Hrow _ _ Hv) as (b & Hb & Hj & ->).
  intros E. apply Nat2Z.inj in E. apply Hij.
  destruct (Nat.lt_trichotomy i j) as [L|[L|L]]; [|assumption|].
  - assert (S i * nf <= j * nf)%nat by (apply Nat.mul_le_mono_r; lia). cbn in *. lia.
  - assert (S j * nf <= i * nf)%nat by (apply Nat.mul_le_mono_r; lia). cbn in *. lia.
Qed.

Lemma concat_rows_eq {A} nf (f : nat -> nat -> A) n : (0 < nf)%nat ->
  concat (map (fun i => row_at nf i (f i)) (seq 0 n))
  = map (fun k => (Z.of_nat k, f (k / nf)%nat (k mod nf)%nat)) (seq 0 (n * nf)).
Proof.
  intros Hnf. induction n as [|n IH]; [reflexivity|].
  rewrite seq_S, map_app, concat_app, IH. cbn [map concat]. rewrite app_nil_r. cbn [Nat.add].
  replace (S n * nf)%nat with (n * nf + nf)%nat by (cbn; lia). rewrite seq_app, map_app. f_equal.
  unfold row_at. cbn [Nat.add]. clear IH.
  assert (E : forall m s, (s + m <= nf)%nat ->
     map (fun j => (Z.of_nat (n * nf + j), f n j)) (seq s m)
     = map (fun k => (Z.of_nat k, f (k / nf)%nat (k mod nf)%nat)) (seq (n * nf + s) m)).
  { induction m as [|m IH]; intros s Hs; [reflexivity|]. cbn [seq map]. f_equal.
    - replace (n * nf + s)%nat with (s + n * nf)%nat by lia.
      rewrite Nat.div_add, Nat.mod_add by lia. rewrite Nat.div_small, Nat.mod_small by lia. reflexivity.
    - rewrite IH by lia. now rewrite <- plus_n_Sm. }
  specialize (E nf 0%nat ltac:(lia)). now rewrite Nat.add_0_r in E.
Qed.
End Rows.

(** ** whole tables *)
Lemma apply_writes_app {A} (ws vs : list (write_op A)) : forall arr,
  apply_writes arr (ws ++ vs) = do a <- apply_writes arr ws; apply_writes a vs.
Proof.
  induction ws as [|[i a] ws IH]; intros arr; cbn; [reflexivity|].
  destruct (vset arr i a); cbn [bind]; auto.
Qed.

Lemma fill_rows_concat {N : NumOps} (rows : Z -> out (list (write_op (num N)))) order : forall its arr,
  mapM rows order = Ret its -> fill_rows rows order arr = apply_writes arr (concat its).
Proof.
  induction order as [|ii order IH]; intros its arr H; cbn in *.
  - injection H as <-. reflexivity.
  - destruct (rows ii) as [ws| | |]; try discriminate. cbn [bind] in *.
    destruct (mapM rows order) as [its'| | |]; try discriminate. cbn [bind] in H. injection H as <-.
    cbn [concat]. rewrite apply_writes_app. destruct (apply_writes arr ws); cbn [bind]; auto.
Qed.

Section Generic.
Context {N : NumOps}.
(** a loop whose iteration i writes [f i j] to element i * nf + j *)
Lemma rows_any_schedule (rows : Z -> out (list (write_op (num N)))) (f : nat -> nat -> num N) n nf vals its sched :
  (0 < nf)%nat -> length vals = (n * nf)%nat -> (Z.of_nat (n * nf) < 2 ^ 31)%Z ->
  (forall i, (i < n)%nat -> rows (Z.of_nat i) = Ret (row_at nf i (f i))) ->
  mapM rows (zseq n) = Ret its -> interleaving its sched ->
  exists arr, apply_writes vals sched = Ret arr /\ fill_rows rows (zseq n) vals = Ret arr /\
    length arr = (n * nf)%nat /\
    (forall i j, (i < n)%nat -> (j < nf)%nat -> nth_error arr (i * nf + j) = Some (f i j)) /\ disjoint its.
Proof.
  intros Hnf Hv Hl Hrow Hits Hil.
  assert (Eits : its = map (fun i => row_at nf i (f i)) (seq 0 n)).
  { unfold zseq in Hits.
    assert (H : mapM rows (map Z.of_nat (seq 0 n)) = Ret (map (fun i => row_at nf i (f i)) (seq 0 n))).
    { clear - Hrow. assert (Hs : forall i, In i (seq 0 n) -> (i < n)%nat) by (intros i Hi; apply in_seq in Hi; lia).
      induction (seq 0 n) as [|i l IH]; cbn; [reflexivity|].
      rewrite Hrow by (apply Hs; now left). cbn [bind]. rewrite IH by (intros; apply Hs; now right). reflexivity. }
    congruence. }
  assert (Hd : disjoint its) by (rewrite Eits; now apply rows_disjoint).
  rewrite (interleaving_deterministic vals its sched Hil Hd), (fill_rows_concat rows (zseq n) its vals Hits).
  rewrite Eits, concat_rows_eq by assumption.
  rewrite (apply_seq (fun k => f (k / nf)%nat (k mod nf)%nat)) by (rewrite ?Hv; lia). cbn [firstn app Nat.add].
  rewrite skipn_all2 by lia. rewrite app_nil_r.
  eexists. split; [reflexivity|]. split; [reflexivity|]. split; [now rewrite map_length, seq_length|].
  split; [|rewrite <- Eits; exact Hd]. intros i j Hi Hj.
  assert (i * nf + j < n * nf)%nat.
  { assert (S i * nf <= n * nf)%nat by (apply Nat.mul_le_mono_r; lia). cbn in *. lia. }
  rewrite nth_error_map, (nth_error_nth' _ 0%nat) by (rewrite seq_length; lia). rewrite seq_nth by lia. cbn [Nat.add option_map].
  replace (i * nf + j)%nat with (j + i * nf)%nat by lia.
  rewrite Nat.div_add, Nat.mod_add by lia. now rewrite Nat.div_small, Nat.mod_small by lia.
Qed.

Lemma rows_exist {A} (rows : Z -> out A) n (g : nat -> A) :
  (forall i, (i < n)%nat -> rows (Z.of_nat i) = Ret (g i)) -> exists its, mapM rows (zseq n) = Ret its.
Proof.
  intros H. exists (map g (seq 0 n)). unfold zseq.
  assert (Hs : forall i, In i (seq 0 n) -> (i < n)%nat) by (intros i Hi; apply in_seq in Hi; lia).
  induction (seq 0 n) as [|i l IH]; cbn; [reflexivity|].
  rewrite H by (apply Hs; now left). cbn [bind]. rewrite IH by (intros; apply Hs; now right). reflexivity.
Qed.
End Generic.

Section Tables.
Context {N : NumOps} (Orc : Oracles N).

Lemma bw_table_schedules (c : bw_ctrl N) garbage :
  let chis := generate_log_spaced_vec (bc_tpair_min c) (bc_tpair_max c) (bc_tpair_how_many c) in
  let frac := generate_lin_spaced_vec n_zero (n_one / n_two)%N (bc_frac_how_many c) in
  let n := length chis in let nf := length frac in
  let vals := repeat garbage (n * nf) in
  (2 <= nf)%nat -> (Z.of_nat (n * nf) < 2 ^ 31)%Z ->
  exists its, mapM (bw_row_writes Orc chis frac (zlen vals)) (zseq n) = Ret its /\ disjoint its /\
  forall sched, interleaving its sched ->
  exists arr, apply_writes vals sched = Ret arr /\
    bw_cumulative_table Orc c garbage = Ret (lookup_2d_make (map n_log chis) frac (map n_log arr)) /\
    length arr = (n * nf)%nat /\
    forall i j chi, nth_error chis i = Some chi -> (j < nf)%nat ->
      nth_error arr (i * nf + j) = Some
        (if (j =? 0)%nat then n_lit 0 0 else if (S j =? nf)%nat then (n_lit 1 0 / n_lit 2 0)%N
         else bw_cumulative_pair Orc chi (chi * nth j frac (n_lit 0 0))%N).
Proof.
  cbn zeta. unfold bw_cumulative_table. cbn zeta.
  set (chis := generate_log_spaced_vec _ _ _). set (frac := generate_lin_spaced_vec _ _ _).
  set (n := length chis). set (nf := length frac). intros Hnf Hl.
  assert (Hnn : (n * nf <= n * nf)%nat) by lia.
  replace (Z.to_nat (wrap64 (zlen chis * zlen frac))) with (n * nf)%nat.
  2: { unfold zlen. fold n nf. rewrite wrap64_small by lia. lia. }
  set (vals := repeat garbage (n * nf)).
  assert (Hv : length vals = (n * nf)%nat) by apply repeat_length.
  assert (Hrow : forall i, (i < n)%nat -> bw_row_writes Orc chis frac (zlen vals) (Z.of_nat i)
                 = Ret (row_at nf i (bw_entry Orc (nth i chis n_zero) frac))).
  { intros i Hi. apply bw_row_eq; auto.
    - now apply nth_error_nth'.
    - unfold zlen. rewrite Hv. fold n nf. lia.
    - unfold zlen. rewrite Hv. lia. }
  destruct (rows_exist _ n _ Hrow) as (its & Hits). exists its. split; [exact Hits|].
  assert (Hd : disjoint its).
  { destruct (rows_any_schedule _ (fun i => bw_entry Orc (nth i chis n_zero) frac) n nf vals its (concat its) ltac:(lia) Hv Hl Hrow Hits) as (arr & _ & _ & _ & _ & Hd); [|exact Hd].
    clear. induction its as [|l its IH]; cbn; [constructor; constructor|].
    assert (Hcons : forall (its : list (list (write_op (num N)))) s, interleaving its s -> interleaving ([] :: its) s).
    { intros its0 s H. induction H; [constructor; constructor; auto|].
      exact (il_step ([] :: pre) w ws post sched IHinterleaving). }
    induction l as [|w l IHl]; cbn; [now apply Hcons|]. exact (il_step [] w l its _ IHl). }
  split; [exact Hd|]. intros sched Hs.
  destruct (rows_any_schedule _ (fun i => bw_entry Orc (nth i chis n_zero) frac) n nf vals its sched ltac:(lia) Hv Hl Hrow Hits Hs) as (arr & E1 & E2 & L & Hc & _).
  exists arr. split; [exact E1|]. rewrite E2. cbn [bind]. split; [reflexivity|]. split; [exact L|].
  intros i j chi Hi Hj. assert ((i < n)%nat) by (apply nth_error_Some; fold chis; congruence).
  rewrite Hc by assumption. f_equal. unfold bw_entry, n_zero, n_one, n_two.
  rewrite (nth_error_nth_eq chis i chi _ Hi). reflexivity.
Qed.

(** *** photon table *)
Definition qs_prob (probs : list (num N)) (j : nat) : num N :=
  if (S j =? length probs)%nat then (n_one - (n_one - nth (length probs - 2) probs n_zero) / n_ten)%N
  else if (j =? 0)%nat then (nth 1 probs n_zero / n_ten)%N else nth j probs n_zero.

(** the roots of a row, each search starting from the previous root *)
Fixpoint qs_roots (n : nat) (chi : num N) (probs : list (num N)) (j : nat) (guess previous : num N) (first_one : bool) : list (num N) :=
  match n with
  | O => []
  | S m => let r := o_root Orc (qs_root_fun Orc chi (qs_prob probs j) previous first_one) guess true in
           r :: qs_roots m chi probs (S j) r r false
  end.

Lemma qs_roots_length n chi probs : forall j g p f, length (qs_roots n chi probs j g p f) = n.
Proof. induction n; intros; cbn; auto. Qed.

Lemma qs_row_inner_eq chi probs : (2 <= length probs)%nat -> (Z.of_nat (length probs) < 2 ^ 31)%Z ->
  forall n j cc g p f, (j + n <= length probs)%nat -> (0 <= cc)%Z -> (cc + Z.of_nat n < 2 ^ 32)%Z ->
  qs_row_inner Orc n chi probs (Z.of_nat j) cc g p f =
  Ret (map (fun k => ((cc + Z.of_nat k)%Z, n_exp (nth k (qs_roots n chi probs j g p f) n_zero))) (seq 0 n)).
Proof.
  intros H2 Hl. induction n as [|n IH]; intros j cc g p f Hj Hc Hcc; [reflexivity|].
  cbn [qs_row_inner qs_roots]. unfold vget at 1. rewrite to_int32_small by lia.
  rewrite (zget_nth probs (Z.of_nat j) n_zero) by (unfold zlen; lia). cbn [bind]. rewrite Nat2Z.id.
  match goal with |- bind ?m _ = _ => replace m with (Ret (if (j =? 0)%nat then (nth 1 probs n_zero / n_ten)%N else nth j probs n_zero)) end.
  2: { destruct (Nat.eqb_spec j 0) as [->|Hne].
       - cbn [Z.of_nat Z.eqb]. unfold vget. rewrite to_int32_small by lia. rewrite (zget_nth probs 1 n_zero) by (unfold zlen; lia). reflexivity.
       - destruct (Z.eqb_spec (Z.of_nat j) 0); [lia|reflexivity]. }
  cbn [bind].
  match goal with |- bind ?m _ = _ => replace m with (Ret (qs_prob probs j)) end.
  2: { unfold qs_prob. rewrite wrap64_small by (unfold zlen; lia).
       destruct (Nat.eqb_spec (S j) (length probs)) as [E|E].
       - replace (Z.of_nat j =? zlen probs - 1)%Z with true by (symmetry; apply Z.eqb_eq; unfold zlen; lia).
         rewrite wrap64_small by (unfold zlen; lia). unfold vget. rewrite to_int32_small by (unfold zlen; lia).
         rewrite (zget_nth probs (zlen probs - 2) n_zero) by (unfold zlen; lia). cbn [bind].
         replace (Z.to_nat (zlen probs - 2)) with (length probs - 2)%nat by (unfold zlen; lia). reflexivity.
       - replace (Z.of_nat j =? zlen probs - 1)%Z with false by (symmetry; apply Z.eqb_neq; unfold zlen; lia). reflexivity. }
  cbn [bind]. cbn zeta. rewrite wrap64_small by lia.
  replace (Z.of_nat j + 1)%Z with (Z.of_nat (S j)) by lia.
  rewrite IH by lia. cbn [bind seq map nth]. f_equal. f_equal; [f_equal; lia|].
  rewrite <- seq_shift, map_map. apply map_ext. intros k. f_equal. lia.
Qed.

Lemma qs_row_eq chis probs i chi : (2 <= length probs)%nat -> nth_error chis i = Some chi ->
  (Z.of_nat (length chis * length probs) < 2 ^ 31)%Z ->
  qs_row_writes Orc chis probs (Z.of_nat i) =
  Ret (row_at (length probs) i (fun j => n_exp (nth j (qs_roots (length probs) chi probs 0 (- n_ten)%N n_zero true) n_zero))).
Proof.
  intros H2 Hi Hl.
  assert (Hin : (i < length chis)%nat) by (apply nth_error_Some; congruence).
  assert (Hprod : (S i * length probs <= length chis * length probs)%nat) by (apply Nat.mul_le_mono_r; lia).
  cbn [Nat.mul] in Hprod.
  assert (Hn : (length chis <= length chis * length probs)%nat) by nia.
  unfold qs_row_writes. unfold vget at 1. rewrite to_int32_small by lia.
  rewrite (zget_ok chis (Z.of_nat i) chi) by (rewrite ?Nat2Z.id; auto; lia). cbn [bind]. cbn zeta.
  replace (Z.of_nat i * zlen probs)%Z with (Z.of_nat (i * length probs)) by (unfold zlen; lia).
  rewrite wrap64_small by lia.
  rewrite (qs_row_inner_eq chi probs H2 ltac:(lia) (length probs) 0) by lia.
  unfold row_at. f_equal. apply map_ext. intros k. f_equal. lia.
Qed.

Lemma qs_table_schedules (c : qs_ctrl N) garbage :
  let chis := generate_log_spaced_vec (qc_tem_min c) (qc_tem_max c) (qc_tem_how_many c) in
  let probs := generate_lin_spaced_vec n_zero n_one (qc_prob_how_many c) in
  let n := length chis in let np := length probs in
  let vals := repeat garbage (n * np) in
  (2 <= np)%nat -> (Z.of_nat (n * np) < 2 ^ 31)%Z ->
  exists its, mapM (qs_row_writes Orc chis probs) (zseq n) = Ret its /\ disjoint its /\
  forall sched, interleaving its sched ->
  exists arr, apply_writes vals sched = Ret arr /\
    qs_cumulative_table Orc c garbage = Ret (lookup_2d_make (map n_log chis) probs (map n_log arr)) /\
    length arr = (n * np)%nat /\
    forall i j chi, nth_error chis i = Some chi -> (j < np)%nat ->
      nth_error arr (i * np + j) = Some (n_exp (nth j (qs_roots np chi probs 0 (- n_lit 10 0)%N (n_lit 0 0) true) (n_lit 0 0))).
Proof.
  cbn zeta. unfold qs_cumulative_table. cbn zeta.
  set (chis := generate_log_spaced_vec _ _ _). set (probs := generate_lin_spaced_vec _ _ _).
  set (n := length chis). set (np := length probs). intros Hnf Hl.
  replace (Z.to_nat (wrap64 (zlen chis * zlen probs))) with (n * np)%nat.
  2: { unfold zlen. fold n np. rewrite wrap64_small by lia. lia. }
  set (vals := repeat garbage (n * np)).
  assert (Hv : length vals = (n * np)%nat) by apply repeat_length.
  set (f := fun i j => n_exp (nth j (qs_roots np (nth i chis n_zero) probs 0 (- n_ten)%N n_zero true) n_zero)).
  assert (Hrow : forall i, (i < n)%nat -> qs_row_writes Orc chis probs (Z.of_nat i) = Ret (row_at np i (f i))).
  { intros i Hi. apply qs_row_eq; auto. now apply nth_error_nth'. }
  destruct (rows_exist _ n _ Hrow) as (its & Hits). exists its. split; [exact Hits|].
  assert (Hd : disjoint its).
  { destruct (rows_any_schedule _ f n np vals its (concat its) ltac:(lia) Hv Hl Hrow Hits) as (arr & _ & _ & _ & _ & Hd); [|exact Hd].
    clear. induction its as [|l its IH]; cbn; [constructor; constructor|].
    assert (Hcons : forall (its : list (list (write_op (num N)))) s, interleaving its s -> interleaving ([] :: its) s).
    { intros its0 s H. induction H; [constructor; constructor; auto|].
      exact (il_step ([] :: pre) w ws post sched IHinterleaving). }
    induction l as [|w l IHl]; cbn; [now apply Hcons|]. exact (il_step [] w l its _ IHl). }
  split; [exact Hd|]. intros sched Hs.
  destruct (rows_any_schedule _ f n np vals its sched ltac:(lia) Hv Hl Hrow Hits Hs) as (arr & E1 & E2 & L & Hc & _).
  exists arr. split; [exact E1|]. rewrite E2. cbn [bind]. split; [reflexivity|]. split; [exact L|].
  intros i j chi Hi Hj. assert ((i < n)%nat) by (apply nth_error_Some; fold chis; congruence).
  rewrite Hc by assumption. unfold f. rewrite (nth_error_nth_eq chis i chi _ Hi). reflexivity.
Qed.

(** *** fewer than two columns *)
Lemma bw_table_too_few (c : bw_ctrl N) garbage :
  (bc_frac_how_many c < 2)%Z -> (2 <= bc_tpair_how_many c)%Z ->
  n_le (bc_tpair_max c) (bc_tpair_min c) = false ->
  n_lt (bc_tpair_min c) (n_lit 0 0) = false -> n_lt (bc_tpair_max c) (n_lit 0 0) = false ->
  bw_cumulative_table Orc c garbage = UB.
Proof.
  intros Hf Hn H1 H2 H3. unfold bw_cumulative_table. cbn zeta.
  destruct (log_spaced_shape (bc_tpair_min c) (bc_tpair_max c) _ Hn H1 H2 H3) as (Hlen & H0 & _).
  set (chis := generate_log_spaced_vec _ _ _) in *.
  replace (generate_lin_spaced_vec n_zero (n_one / n_two)%N (bc_frac_how_many c)) with (@nil (num N)).
  2: { unfold generate_lin_spaced_vec. replace (bc_frac_how_many c <? 2)%Z with true by (symmetry; now apply Z.ltb_lt).
       now rewrite orb_true_r. }
  change (zlen (@nil (num N))) with 0%Z. rewrite Z.mul_0_r. change (Z.to_nat (wrap64 0)) with 0%nat. cbn [repeat].
  destruct chis as [|chi chis]; [discriminate|]. cbn [length zseq]. unfold zseq. cbn [seq map fill_rows].
  unfold bw_row_writes at 1. unfold vget. cbn [Z.of_nat]. rewrite to_int32_small by lia.
  rewrite (zget_ok (chi :: chis) 0 chi) by (cbn; auto; lia). cbn [bind]. reflexivity.
Qed.

Lemma qs_table_too_few (c : qs_ctrl N) garbage :
  (qc_prob_how_many c < 2)%Z -> (Z.of_nat (length (generate_log_spaced_vec (qc_tem_min c) (qc_tem_max c) (qc_tem_how_many c))) < 2 ^ 31)%Z ->
  exists t, qs_cumulative_table Orc c garbage = Ret t /\ t2_y t = [] /\ t2_init t = true /\
    forall chi_part tab_chi gamma_part me_c n_part u,
      qs_one_photon chi_part tab_chi gamma_part me_c n_part t u = UB.
Proof.
  intros Hp Hl. unfold qs_cumulative_table. cbn zeta. set (chis := generate_log_spaced_vec _ _ _) in *.
  replace (generate_lin_spaced_vec n_zero n_one (qc_prob_how_many c)) with (@nil (num N)).
  2: { unfold generate_lin_spaced_vec. replace (qc_prob_how_many c <? 2)%Z with true by (symmetry; now apply Z.ltb_lt).
       now rewrite orb_true_r. }
  change (zlen (@nil (num N))) with 0%Z. rewrite Z.mul_0_r. change (Z.to_nat (wrap64 0)) with 0%nat. cbn [repeat].
  assert (E : forall order, (forall i, In i order -> (0 <= i < zlen chis)%Z) ->
     fill_rows (qs_row_writes Orc chis []) order [] = Ret []).
  { induction order as [|i order IH]; intros H; cbn [fill_rows]; [reflexivity|].
    unfold qs_row_writes at 1. unfold vget. pose proof (H i ltac:(now left)) as Hi. unfold zlen in Hi.
    rewrite to_int32_small by lia.
    rewrite (zget_nth chis i n_zero) by (unfold zlen; lia). cbn [bind]. cbn zeta. cbn [length qs_row_inner bind apply_writes].
    apply IH. intros k Hk. apply H. now right. }
  rewrite E. 2: { intros i Hi. now apply zseq_In in Hi. }
  cbn [bind]. eexists. split; [reflexivity|]. split; [reflexivity|]. split; [reflexivity|].
  intros. unfold qs_one_photon. cbn zeta. cbn [t2_y lookup_2d_make].
  unfold floor_size. destruct (n_floor_size _) as [z|]; [|reflexivity]. cbn [bind].
  unfold vget at 1. rewrite zget_ub; [reflexivity|]. cbn. lia.
Qed.
End Tables.

(** the same statement with the roots of a row given by their recurrence *)
Lemma qs_roots_next {N : NumOps} (Orc : Oracles N) chi probs : forall n j g p f k, (S k < n)%nat ->
  nth (S k) (qs_roots Orc n chi probs j g p f) n_zero =
  o_root Orc (qs_root_fun Orc chi (qs_prob probs (j + S k)) (nth k (qs_roots Orc n chi probs j g p f) n_zero) false)
    (nth k (qs_roots Orc n chi probs j g p f) n_zero) true.
Proof.
  induction n as [|n IH]; intros j g p f k Hk; [lia|]. cbn [qs_roots]. cbn zeta.
  destruct k as [|k].
  - destruct n as [|n]; [lia|]. cbn [nth qs_roots]. cbn zeta. replace (j + 1)%nat with (S j) by lia. reflexivity.
  - cbn [nth]. rewrite IH by lia. replace (S j + S k)%nat with (j + S (S k))%nat by lia. reflexivity.
Qed.

Lemma qs_table_recurrence {N : NumOps} (Orc : Oracles N) (c : qs_ctrl N) garbage :
  let chis := generate_log_spaced_vec (qc_tem_min c) (qc_tem_max c) (qc_tem_how_many c) in
  let probs := generate_lin_spaced_vec (n_lit 0 0) (n_lit 1 0) (qc_prob_how_many c) in
  let n := length chis in let np := length probs in
  let vals := repeat garbage (n * np) in
  let p j := nth j probs (n_lit 0 0) in
  let prob j := if (S j =? np)%nat then (n_lit 1 0 - (n_lit 1 0 - p (np - 2)%nat) / n_lit 10 0)%N
                else if (j =? 0)%nat then (p 1%nat / n_lit 10 0)%N else p j in
  (2 <= np)%nat -> (Z.of_nat (n * np) < 2 ^ 31)%Z ->
  exists its, mapM (qs_row_writes Orc chis probs) (zseq n) = Ret its /\ disjoint its /\
  forall sched, interleaving its sched ->
  exists arr, apply_writes vals sched = Ret arr /\
    qs_cumulative_table Orc c garbage = Ret (lookup_2d_make (map n_log chis) probs (map n_log arr)) /\
    length arr = (n * np)%nat /\
    forall i chi, nth_error chis i = Some chi -> exists root : nat -> num N,
      root 0%nat = o_root Orc (qs_root_fun Orc chi (prob 0%nat) (n_lit 0 0) true) (- n_lit 10 0)%N true /\
      (forall j, (S j < np)%nat -> root (S j) = o_root Orc (qs_root_fun Orc chi (prob (S j)) (root j) false) (root j) true) /\
      (forall j, (j < np)%nat -> nth_error arr (i * np + j) = Some (n_exp (root j))).
Proof.
  cbn zeta. intros H2 Hl. destruct (qs_table_schedules Orc c garbage H2 Hl) as (its & Hits & Hd & H).
  exists its. split; [exact Hits|]. split; [exact Hd|]. intros sched Hs. destruct (H sched Hs) as (arr & E1 & E2 & L & Hc).
  exists arr. split; [exact E1|]. split; [exact E2|]. split; [exact L|]. intros i chi Hi.
  set (probs := generate_lin_spaced_vec (n_lit 0 0) (n_lit 1 0) (qc_prob_how_many c)) in *.
  exists (fun j => nth j (qs_roots Orc (length probs) chi probs 0 (- n_lit 10 0)%N (n_lit 0 0) true) (n_lit 0 0)).
  split; [|split].
  - destruct (length probs) eqn:E; [lia|]. cbn [qs_roots nth]. cbn zeta. unfold qs_prob. rewrite E. reflexivity.
  - intros j Hj. exact (qs_roots_next Orc chi probs (length probs) 0 _ _ _ j Hj).
  - intros j Hj. now apply Hc.
Qed.
