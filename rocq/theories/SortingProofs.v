(** Proofs about Sorting.v. *)
From Coq Require Import ZArith Reals List Bool Lia Lra Permutation Sorted.
From Verif Require Import Cxx Num NumRX Fortran FortranNum CxxLemmas RXLemmas FortranLemmas Sorting SpecSorting.
Import ListNotations.
Local Open Scope Z_scope.

(** *** Combinatorics of the counting sort *)
Definition cnt (l : list Z) (k : Z) : nat := length (filter (fun b => b =? k) l).
Fixpoint start (l : list Z) (k : nat) : nat := (* particles in bins 1..k *)
  match k with O => O | S k' => (start l k' + cnt l (Z.of_nat k))%nat end.
Definition idx (bins : list Z) (k : Z) : list nat :=
  filter (fun i => nth i bins 0 =? k) (seq 0 (length bins)).
Definition order (bins : list Z) (nb : nat) : list nat :=
  flat_map (fun k => idx bins (Z.of_nat k)) (seq 1 nb).

Lemma cnt_app a b k : cnt (a ++ b) k = (cnt a k + cnt b k)%nat.
Proof. unfold cnt. now rewrite filter_app, app_length. Qed.

Lemma filter_prefix bins k n : (n <= length bins)%nat ->
  length (filter (fun i => nth i bins 0 =? k) (seq 0 n)) = cnt (firstn n bins) k.
Proof.
  induction n as [|n IH]; intros H; [reflexivity|].
  rewrite seq_S, filter_app, app_length, IH by lia.
  assert (E : firstn (S n) bins = firstn n bins ++ [nth n bins 0]).
  { clear -H. revert n H. induction bins as [|b bins IHb]; intros [|n] H; cbn [length] in *; try lia; [reflexivity|].
    cbn [firstn nth app]. f_equal. rewrite <- IHb by lia. reflexivity. }
  rewrite E, cnt_app. f_equal. unfold cnt. cbn. destruct (nth n bins 0 =? k); reflexivity.
Qed.

Lemma idx_length bins k : length (idx bins k) = cnt bins k.
Proof. unfold idx. rewrite filter_prefix by lia. now rewrite firstn_all. Qed.

Lemma idx_nth bins i : (i < length bins)%nat ->
  nth_error (idx bins (nth i bins 0)) (cnt (firstn i bins) (nth i bins 0)) = Some i.
Proof.
  intros H. unfold idx. set (k := nth i bins 0).
  replace (length bins) with (i + S (length bins - i - 1))%nat by lia.
  rewrite seq_app, filter_app, nth_error_app2; rewrite filter_prefix by lia; [|lia].
  rewrite Nat.sub_diag. cbn [seq plus]. cbn [filter]. fold k. rewrite Z.eqb_refl. reflexivity.
Qed.

Lemma order_prefix bins nb : length (order bins nb) = start bins nb.
Proof.
  induction nb as [|nb IH]; [reflexivity|].
  unfold order in *. rewrite seq_S, flat_map_app, app_length, IH. cbn [flat_map].
  rewrite app_nil_r, idx_length. cbn [start]. reflexivity.
Qed.

Lemma order_split bins nb k : (1 <= k <= nb)%nat ->
  exists rest, order bins nb = order bins (k - 1) ++ idx bins (Z.of_nat k) ++ rest.
Proof.
  intros H. unfold order. replace nb with ((k - 1) + S (nb - k))%nat by lia.
  rewrite seq_app, flat_map_app. cbn [seq flat_map]. replace (1 + (k - 1))%nat with k by lia.
  eexists. reflexivity.
Qed.

(** position of particle i *)
Definition pos (bins : list Z) (i : nat) : nat :=
  (start bins (Z.to_nat (nth i bins 0%Z) - 1) + cnt (firstn i bins) (nth i bins 0%Z))%nat.

Definition good_bins (bins : list Z) (nb : nat) : Prop := forall b, In b bins -> 1 <= b <= Z.of_nat nb.

Lemma pos_nth bins nb i : good_bins bins nb -> (i < length bins)%nat -> nth_error (order bins nb) (pos bins i) = Some i.
Proof.
  intros Hb Hi. specialize (Hb (nth i bins 0%Z) (nth_In _ _ Hi)).
  destruct (order_split bins nb (Z.to_nat (nth i bins 0%Z))) as (rest & E); [lia|].
  rewrite E. unfold pos. rewrite nth_error_app2; rewrite order_prefix; [|lia].
  replace (start bins (Z.to_nat (nth i bins 0%Z) - 1) + cnt (firstn i bins) (nth i bins 0%Z) - start bins (Z.to_nat (nth i bins 0%Z) - 1))%nat
    with (cnt (firstn i bins) (nth i bins 0%Z)) by lia.
  rewrite Z2Nat.id by lia. rewrite nth_error_app1.
  - now apply idx_nth.
  - assert (Hs := idx_nth bins i Hi). apply nth_error_Some. congruence.
Qed.

Definition lexlt (bins : list Z) (i j : nat) : Prop :=
  nth i bins 0 < nth j bins 0 \/ (nth i bins 0 = nth j bins 0 /\ (i < j)%nat).

Lemma ss_app {A} (R : A -> A -> Prop) a b : StronglySorted R a -> StronglySorted R b ->
  (forall x y, In x a -> In y b -> R x y) -> StronglySorted R (a ++ b).
Proof.
  induction 1 as [|x a Ha IH Hx]; intros Hb Hab; [exact Hb|]. cbn. constructor.
  - apply IH; [exact Hb|]. intros; apply Hab; [now right|assumption].
  - apply Forall_app. split; [exact Hx|]. apply Forall_forall. intros y Hy. apply Hab; [now left|assumption].
Qed.

Lemma seq_ss n : forall s, StronglySorted lt (seq s n).
Proof.
  induction n; intros s; cbn; constructor; [apply IHn|]. apply Forall_forall. intros y Hy. apply in_seq in Hy. lia.
Qed.

Lemma filter_ss {A} (R : A -> A -> Prop) f l : StronglySorted R l -> StronglySorted R (filter f l).
Proof.
  induction 1 as [|x l Hl IH Hx]; cbn; [constructor|]. destruct (f x); [|exact IH]. constructor; [exact IH|].
  apply Forall_forall. intros y Hy. apply filter_In in Hy. rewrite Forall_forall in Hx. now apply Hx.
Qed.

Lemma in_idx bins k i : In i (idx bins k) <-> (i < length bins)%nat /\ nth i bins 0 = k.
Proof. unfold idx. rewrite filter_In, in_seq, Z.eqb_eq. split; intros [? ?]; split; lia. Qed.

Lemma in_order bins nb i : In i (order bins nb) <-> (i < length bins)%nat /\ 1 <= nth i bins 0 <= Z.of_nat nb.
Proof.
  unfold order. rewrite in_flat_map. split.
  - intros (k & Hk & Hi). apply in_seq in Hk. apply in_idx in Hi. lia.
  - intros [Hi Hk]. exists (Z.to_nat (nth i bins 0)). rewrite in_seq, in_idx. lia.
Qed.

Lemma order_sorted bins nb : StronglySorted (lexlt bins) (order bins nb).
Proof.
  induction nb as [|nb IH]; [constructor|].
  unfold order. rewrite seq_S, flat_map_app. apply ss_app; [exact IH| |].
  - cbn [flat_map]. rewrite app_nil_r.
    assert (H : StronglySorted lt (idx bins (Z.of_nat (1 + nb)))) by (apply filter_ss, seq_ss).
    assert (Hin : forall i, In i (idx bins (Z.of_nat (1 + nb))) -> nth i bins 0 = Z.of_nat (1 + nb)).
    { intros i Hi. now apply in_idx in Hi. }
    revert Hin. induction H as [|x l Hl IHl Hx]; intros Hin; constructor.
    + apply IHl. intros; apply Hin; now right.
    + rewrite Forall_forall in *. intros y Hy. right. rewrite (Hin x), (Hin y) by (cbn; auto). split; [reflexivity|now apply Hx].
  - intros x y Hx Hy. cbn [flat_map] in Hy. rewrite app_nil_r in Hy. apply in_idx in Hy.
    change (In x (order bins nb)) in Hx. apply in_order in Hx. left. lia.
Qed.

Lemma lexlt_NoDup bins l : StronglySorted (lexlt bins) l -> NoDup l.
Proof.
  induction 1 as [|x l Hl IH Hx]; constructor; [|exact IH].
  intros Hin. rewrite Forall_forall in Hx. destruct (Hx x Hin) as [?|[_ ?]]; lia.
Qed.

Lemma order_perm bins nb : good_bins bins nb -> Permutation (order bins nb) (seq 0 (length bins)).
Proof.
  intros Hb. apply NoDup_Permutation; [apply (lexlt_NoDup bins), order_sorted|apply seq_NoDup|].
  intros i. rewrite in_order, in_seq. split; [lia|]. intros H. split; [lia|]. apply Hb, nth_In. lia.
Qed.

Lemma order_length bins nb : good_bins bins nb -> length (order bins nb) = length bins.
Proof. intros H. rewrite (Permutation_length (order_perm bins nb H)). now rewrite seq_length. Qed.

Lemma pos_lt bins nb i : good_bins bins nb -> (i < length bins)%nat -> (pos bins i < length bins)%nat.
Proof.
  intros Hb Hi. rewrite <- (order_length bins nb Hb). apply nth_error_Some. rewrite (pos_nth bins nb) by assumption. congruence.
Qed.

Lemma pos_inj bins nb i j : good_bins bins nb -> (i < length bins)%nat -> (j < length bins)%nat ->
  pos bins i = pos bins j -> i = j.
Proof.
  intros Hb Hi Hj E. pose proof (pos_nth bins nb i Hb Hi) as A. rewrite E, (pos_nth bins nb j Hb Hj) in A. congruence.
Qed.

Lemma pos_surj bins nb p : good_bins bins nb -> (p < length bins)%nat ->
  exists i, nth_error (order bins nb) p = Some i /\ (i < length bins)%nat /\ pos bins i = p.
Proof.
  intros Hb Hp. rewrite <- (order_length bins nb Hb) in Hp. apply nth_error_Some in Hp.
  destruct (nth_error (order bins nb) p) as [i|] eqn:E; [|congruence]. exists i. split; [reflexivity|].
  assert (Hi : (i < length bins)%nat) by (apply nth_error_In, in_order in E; tauto).
  split; [exact Hi|]. pose proof (pos_nth bins nb i Hb Hi) as A.
  assert (HN : NoDup (order bins nb)) by (apply (lexlt_NoDup bins), order_sorted).
  rewrite NoDup_nth_error in HN. apply HN; [|congruence].
  apply nth_error_Some. congruence.
Qed.

(** *** The program *)
Lemma cnt_firstn_S bins i k : (i < length bins)%nat ->
  cnt (firstn (S i) bins) k = (cnt (firstn i bins) k + (if (nth i bins 0%Z =? k)%Z then 1 else 0))%nat.
Proof.
  intros H.
  assert (E : firstn (S i) bins = firstn i bins ++ [nth i bins 0]).
  { revert i H. induction bins as [|b bins IHb]; intros [|n] H; cbn [length] in *; try lia; [reflexivity|].
    cbn [firstn nth app]. f_equal. rewrite <- IHb by lia. reflexivity. }
  rewrite E, cnt_app. f_equal. unfold cnt. cbn. destruct (nth i bins 0 =? k); reflexivity.
Qed.

Section Prog.
Variables (bins : list Z) (nb : nat).
Hypothesis Hb : good_bins bins nb.
Let n := length bins.

Lemma bin_get i : (i < n)%nat -> get1 bins (Z.of_nat i + 1) = Ret (nth i bins 0).
Proof.
  intros H. rewrite (get1_ok bins _ 0) by (unfold zlen, n in *; lia). do 2 f_equal. lia.
Qed.

Lemma bin_range i : (i < n)%nat -> 1 <= nth i bins 0 <= Z.of_nat nb.
Proof. intros. apply Hb, nth_In. assumption. Qed.

Lemma count_phase :
  exists c, do_range 1 (Z.of_nat n) (fun ip t => do k <- get1 bins ip; count_one k t) (repeat 0 nb) = Ret c /\
    length c = nb /\ forall k, (k < nb)%nat -> nth k c 0 = Z.of_nat (cnt bins (Z.of_nat k + 1)).
Proof.
  edestruct (do_range_inv (fun ip c => length c = nb /\ 1 <= ip /\
      forall k, (k < nb)%nat -> nth k c 0 = Z.of_nat (cnt (firstn (Z.to_nat (ip - 1)) bins) (Z.of_nat k + 1))))
    as (c & E & H1 & H2 & H3); [| | |].
  4:{ exists c. split; [exact E|]. split; [exact H1|]. intros k Hk. rewrite H3 by exact Hk.
      replace (Z.to_nat (Z.of_nat n + 1 - 1)) with (length bins) by (unfold n; lia). now rewrite firstn_all. }
  { lia. }
  { rewrite repeat_length. split; [reflexivity|]. split; [lia|]. intros k Hk. cbn. apply nth_repeat. }
  intros ip c Hip (L & _ & HC). cbv beta.
  set (i := Z.to_nat (ip - 1)) in *. replace ip with (Z.of_nat i + 1) in * by (unfold i; lia).
  rewrite bin_get by (unfold i; lia). cbn [bind].
  pose proof (bin_range i ltac:(unfold i; lia)) as Hr. set (k := nth i bins 0) in *.
  unfold count_one. rewrite (get1_ok c k 0) by (unfold zlen; lia). cbn [bind].
  rewrite set1_ok by (unfold zlen; lia). eexists. split; [reflexivity|].
  rewrite lset_length. split; [exact L|]. split; [lia|]. intros q Hq.
  replace (Z.to_nat (Z.of_nat i + 1 + 1 - 1)) with (S i) by lia. rewrite cnt_firstn_S by (fold n; unfold i; lia). fold k.
  destruct (Nat.eq_dec (Z.to_nat (k - 1)) q) as [<-|Ne].
  - rewrite nth_lset_same by lia. rewrite HC by lia. replace (Z.of_nat (Z.to_nat (k - 1)) + 1) with k by lia.
    rewrite Z.eqb_refl. lia.
  - rewrite nth_lset_other by exact Ne. rewrite HC by lia.
    replace (k =? Z.of_nat q + 1) with false by (symmetry; apply Z.eqb_neq; lia). lia.
Qed.

Lemma starts_phase c : length c = nb -> (forall k, (k < nb)%nat -> nth k c 0 = Z.of_nat (cnt bins (Z.of_nat k + 1))) ->
  exists p, bin_starts (Z.of_nat nb) c (repeat 0 nb) = Ret p /\ length p = nb /\
    forall k, (k < nb)%nat -> nth k p 0 = Z.of_nat (start bins k).
Proof.
  intros L HC. unfold bin_starts.
  edestruct (do_range_inv (fun ic s => length (fst s) = nb /\ 1 <= ic /\ snd s = Z.of_nat (start bins (Z.to_nat (ic - 1))) /\
      forall k, (k < Z.to_nat (ic - 1))%nat -> nth k (fst s) 0 = Z.of_nat (start bins k)))
    as (s & E & H1 & H2 & H3 & H4); [| | |].
  4:{ rewrite E. cbn [bind]. exists (fst s). split; [reflexivity|]. split; [exact H1|]. intros k Hk. apply H4. lia. }
  { lia. }
  { cbn [fst snd]. rewrite repeat_length. split; [reflexivity|]. split; [lia|]. split; [reflexivity|]. cbn. lia. }
  intros ic [p k] Hic (H1 & _ & H3 & H4). cbn [fst snd] in *.
  rewrite set1_ok by (unfold zlen; lia). cbn [bind]. rewrite (get1_ok c ic 0) by (unfold zlen; lia). cbn [bind].
  eexists. split; [reflexivity|]. cbn [fst snd]. rewrite lset_length. split; [exact H1|]. split; [lia|]. split.
  - rewrite HC by lia. replace (Z.to_nat (ic + 1 - 1)) with (S (Z.to_nat (ic - 1))) by lia. cbn [start].
    replace (Z.of_nat (S (Z.to_nat (ic - 1)))) with (Z.of_nat (Z.to_nat (ic - 1)) + 1) by lia. lia.
  - intros q Hq. destruct (Nat.eq_dec (Z.to_nat (ic - 1)) q) as [<-|Ne].
    + rewrite nth_lset_same by lia. exact H3.
    + rewrite nth_lset_other by exact Ne. apply H4. lia.
Qed.

(** particles 0..m-1 have been moved *)
Definition moved {A} (m : nat) (a : list A) (d : list (option A)) : Prop :=
  length d = n /\ forall j, (j < m)%nat -> nth_error d (pos bins j) = Some (nth_error a j).

Lemma mapM_moved {A} m : (m < n)%nat -> forall src dst : list _,
  Forall2 (@moved A m) src dst -> Forall (fun a => length a = n) src ->
  exists dst', mapM (fun sd : list A * list (option A) =>
       do v <- get1 (fst sd) (Z.of_nat m + 1); set1 (snd sd) (Z.of_nat (pos bins m) + 1) (Some v)) (combine src dst) = Ret dst' /\
    Forall2 (moved (S m)) src dst'.
Proof.
  intros Hm. induction 1 as [|a d src dst (Ld & Hd) HF IH]; intros HL.
  - exists []. split; [reflexivity|constructor].
  - inversion_clear HL as [|? ? La HL']. destruct (IH HL') as (dst' & E & H').
    assert (Hp : (pos bins m < n)%nat) by (apply (pos_lt bins nb); assumption).
    destruct (nth_error a m) as [v|] eqn:Ev.
    2:{ apply nth_error_None in Ev. lia. }
    cbn [combine mapM fst snd]. rewrite (get1_ok a _ v) by (unfold zlen; lia).
    replace (Z.to_nat (Z.of_nat m + 1 - 1)) with m by lia. rewrite (nth_error_nth_eq _ _ _ v Ev). cbn [bind].
    rewrite set1_ok by (unfold zlen; lia). cbn [bind].
    replace (Z.to_nat (Z.of_nat (pos bins m) + 1 - 1)) with (pos bins m) by lia.
    rewrite E. cbn [bind]. eexists. split; [reflexivity|]. constructor; [|exact H'].
    split; [now rewrite lset_length|]. intros j Hj. destruct (Nat.eq_dec j m) as [->|Ne].
    + rewrite lset_same by lia. now rewrite Ev.
    + rewrite lset_other; [apply Hd; lia|]. intros Ep. apply Ne. symmetry. apply (pos_inj bins nb); unfold n in *; try assumption; lia.
Qed.

Lemma scatter_phase {A} (src : list (list A)) p : Forall (fun a => length a = n) src -> length p = nb ->
  (forall k, (k < nb)%nat -> nth k p 0 = Z.of_nat (start bins k)) ->
  exists r, do_range 1 (Z.of_nat n) (scatter_one src bins) (p, map (map (fun _ => None)) src) = Ret r /\
    Forall2 (moved n) src (snd r).
Proof.
  intros HL Lp HP.
  edestruct (do_range_inv (fun ip s => 1 <= ip /\ length (fst s) = nb /\
      (forall k, (k < nb)%nat -> nth k (fst s) 0 = Z.of_nat (start bins k + cnt (firstn (Z.to_nat (ip - 1)) bins) (Z.of_nat k + 1))) /\
      Forall2 (@moved A (Z.to_nat (ip - 1))) src (snd s)) (scatter_one src bins))
    as (s & E & H1 & H2 & H3 & H4); [| | |].
  4:{ exists s. split; [exact E|]. now replace n with (Z.to_nat (Z.of_nat n + 1 - 1)) at 1 by lia. }
  { lia. }
  { cbn [fst snd]. split; [lia|]. split; [exact Lp|]. split.
    - intros k Hk. rewrite HP by exact Hk. cbn. lia.
    - clear -HL. induction HL as [|a l Ha HL IH]; cbn [map]; constructor; [|exact IH].
      split; [now rewrite map_length|]. cbn. lia. }
  intros ip [piihc dst] Hip (_ & L & HC & HM). cbn [fst snd] in *.
  set (i := Z.to_nat (ip - 1)) in *. replace ip with (Z.of_nat i + 1) in * by (unfold i; lia).
  unfold scatter_one. rewrite bin_get by (unfold i; lia). cbn [bind].
  pose proof (bin_range i ltac:(unfold i; lia)) as Hr. set (k := nth i bins 0) in *.
  rewrite (get1_ok piihc k 0) by (unfold zlen; lia). cbn [bind].
  rewrite set1_ok by (unfold zlen; lia). cbn [bind].
  assert (Ep : nth (Z.to_nat (k - 1)) piihc 0 = Z.of_nat (pos bins i)).
  { rewrite HC by lia. unfold pos. fold k. replace (Z.of_nat (Z.to_nat (k - 1)) + 1) with k by lia.
    replace (Z.to_nat k - 1)%nat with (Z.to_nat (k - 1)) by lia. reflexivity. }
  rewrite Ep. destruct (mapM_moved i ltac:(unfold i; lia) src dst HM HL) as (dst' & E & HM').
  rewrite E. cbn [bind]. eexists. split; [reflexivity|]. cbn [fst snd]. split; [lia|]. split; [now rewrite lset_length|].
  replace (Z.to_nat (Z.of_nat i + 1 + 1 - 1)) with (S i) by lia. split; [|exact HM'].
  intros q Hq. rewrite cnt_firstn_S by (fold n; unfold i; lia). fold k.
  destruct (Nat.eq_dec (Z.to_nat (k - 1)) q) as [Eq|Ne].
  - subst q. rewrite nth_lset_same by lia. rewrite <- Ep, HC by lia.
    replace (Z.of_nat (Z.to_nat (k - 1)) + 1) with k by lia. rewrite Z.eqb_refl. lia.
  - rewrite nth_lset_other by exact Ne. rewrite HC by lia.
    replace (k =? Z.of_nat q + 1) with false by (symmetry; apply Z.eqb_neq; lia). rewrite Nat.add_0_r. reflexivity.
Qed.

Lemma moved_all {A} (a : list A) d : length a = n -> moved n a d -> d = map (nth_error a) (order bins nb).
Proof.
  intros La [Ld Hd].
  apply nth_ext with (d := None) (d' := nth_error a 0).
  - rewrite map_length, order_length by exact Hb. exact Ld.
  - intros p Hp. rewrite map_nth. destruct (pos_surj bins nb p Hb ltac:(fold n; lia)) as (i & E & Hi & Epos).
    rewrite (nth_error_nth_eq _ _ _ O E). specialize (Hd i Hi). rewrite Epos in Hd.
    now rewrite (nth_error_nth_eq _ _ _ None Hd).
Qed.

Lemma copy_one {A} (a : list A) perm : Forall (fun i => (i < length a)%nat) perm ->
  exists r, mapM (fun o => match o with Some v => Ret v | None => UB end) (map (nth_error a) perm) = Ret r /\ rearranged perm a r.
Proof.
  induction 1 as [|i perm Hi HF (r & E & Hr)].
  - exists []. split; reflexivity.
  - cbn [map mapM]. destruct (nth_error a i) as [v|] eqn:Ev; [|apply nth_error_None in Ev; lia].
    cbn [bind]. rewrite E. cbn [bind]. exists (v :: r). split; [reflexivity|]. unfold rearranged in *. cbn. now rewrite Hr, Ev.
Qed.

Theorem counting_sort_ok {A} (src : list (list A)) : Forall (fun a => length a = n) src ->
  exists r, counting_sort (Z.of_nat n) (Z.of_nat nb) bins src = Ret r /\
    Forall2 (rearranged (order bins nb)) src r.
Proof.
  intros HL. unfold counting_sort. rewrite Nat2Z.id. cbv zeta.
  destruct count_phase as (c & E1 & L1 & H1). rewrite E1. cbn [bind].
  destruct (starts_phase c L1 H1) as (p & E2 & L2 & H2). rewrite E2. cbn [bind].
  destruct (scatter_phase src p HL L2 H2) as ([q dst] & E3 & H3). rewrite E3. cbn [bind snd] in *.
  unfold copy_back. clear E3. induction H3 as [|a d src dst Hm HF IH].
  - exists []. split; [reflexivity|constructor].
  - inversion_clear HL as [|? ? La HL']. destruct (IH HL') as (r & E & Hr).
    rewrite (moved_all a d La Hm). cbn [mapM].
    destruct (copy_one a (order bins nb)) as (ra & Ea & Ha).
    { apply Forall_forall. intros i Hi. apply in_order in Hi. unfold n in La. lia. }
    rewrite Ea. cbn [bind]. rewrite E. cbn [bind]. exists (ra :: r). split; [reflexivity|]. constructor; assumption.
Qed.
End Prog.

Theorem counting_sort_spec {A} bins nb (src : list (list A)) : good_bins bins nb -> Forall (fun a => length a = length bins) src ->
  exists perm r, counting_sort (Z.of_nat (length bins)) (Z.of_nat nb) bins src = Ret r /\
    is_permutation (length bins) perm /\ stably_sorted (fun i => nth i bins 0) perm /\
    Forall2 (rearranged perm) src r.
Proof.
  intros Hb HL. destruct (counting_sort_ok bins nb Hb src HL) as (r & E & Hr).
  exists (order bins nb), r. split; [exact E|]. split; [now apply order_perm|]. split; [apply order_sorted|exact Hr].
Qed.

(** *** Bins in exact arithmetic *)
Lemma floor32_fin x : (- 2 ^ 31 <= Int_part x < 2 ^ 31) -> @floor32 FRX (Fin x) = Ret (Int_part x).
Proof.
  intros H. unfold floor32. cbn [f_floor FRX x_floor].
  replace (- 2 ^ 31 <=? Int_part x) with true by (symmetry; apply Z.leb_le; lia).
  replace (Int_part x <? 2 ^ 31) with true by (symmetry; apply Z.ltb_lt; lia). reflexivity.
Qed.

Lemma in_cell_Int_part lo d x : (0 < d)%R -> in_cell lo d x (Int_part ((x - lo) / d)).
Proof.
  intros Hd. unfold in_cell. destruct (Int_part_bounds ((x - lo) / d)) as [H1 H2].
  apply (Rmult_le_compat_r d) in H1; [|lra]. apply (Rmult_lt_compat_r d) in H2; [|lra].
  unfold Rdiv in *. rewrite Rmult_assoc, Rinv_l, Rmult_1_r in H1 by lra. rewrite Rmult_assoc, Rinv_l, Rmult_1_r in H2 by lra. lra.
Qed.

Lemma in_cell_unique lo d x c c' : (0 < d)%R -> in_cell lo d x c -> in_cell lo d x c' -> c = c'.
Proof.
  unfold in_cell. intros Hd [A1 A2] [B1 B2].
  assert (H1 : (IZR c < IZR c' + 1)%R) by (apply (Rmult_lt_reg_r d); lra).
  assert (H2 : (IZR c' < IZR c + 1)%R) by (apply (Rmult_lt_reg_r d); lra).
  rewrite <- plus_IZR in H1, H2. apply lt_IZR in H1, H2. lia.
Qed.

(** number of cells *)
Lemma ceiling_cells lo hi d : (0 < d)%R -> (0 < hi - lo <= IZR (2 ^ 31 - 1) * d)%R ->
  exists n, @ceiling32 FRX (@n_mul FRX (@n_sub FRX (Fin hi) (Fin lo)) (@n_div FRX (n_of_Z 1) (Fin d))) = Ret n /\ 1 <= n < 2 ^ 31 /\
    forall x, (lo <= x < hi)%R -> 0 <= Int_part ((x - lo) / d) < n.
Proof.
  intros Hd [H0 H1].
  set (t := ((hi - lo) * (1 / d))%R).
  assert (Et : (@n_mul FRX (@n_sub FRX (Fin hi) (Fin lo)) (@n_div FRX (n_of_Z 1) (Fin d))) = Fin t).
  { change (@n_of_Z FRX 1) with (Fin 1). change (@n_div FRX) with x_div. rewrite x_div_fin by lra. reflexivity. }
  rewrite Et. unfold ceiling32. change (@n_opp FRX (Fin t)) with (Fin (- t)).
  assert (Etd : (t * d)%R = (hi - lo)%R) by (unfold t; field; lra).
  assert (Ht : (0 < t <= IZR (2 ^ 31 - 1))%R).
  { split; [apply (Rmult_lt_reg_r d); lra|apply (Rmult_le_reg_r d); lra]. }
  destruct (Int_part_bounds (- t)) as [B1 B2].
  assert (C1 : Int_part (- t) < 0).
  { apply lt_IZR. lra. }
  assert (C2 : - 2 ^ 31 < Int_part (- t)).
  { assert (IZR (- (2 ^ 31 - 1)) < IZR (Int_part (- t) + 1))%R by (rewrite plus_IZR, opp_IZR; lra). apply lt_IZR in H. lia. }
  rewrite floor32_fin by lia. cbn [bind]. exists (- Int_part (- t)). split; [reflexivity|]. split; [lia|].
  intros x Hx. destruct (Int_part_bounds ((x - lo) / d)) as [D1 D2].
  assert (E : ((x - lo) / d * d)%R = (x - lo)%R) by (field; lra).
  assert (0 <= (x - lo) / d < t)%R.
  { split; [apply (Rmult_le_reg_r d)|apply (Rmult_lt_reg_r d)]; lra. }
  split.
  - assert (IZR (-1) < IZR (Int_part ((x - lo) / d)))%R by lra. apply lt_IZR in H2. lia.
  - apply lt_IZR. rewrite opp_IZR. lra.
Qed.

Lemma bin_floor lo d x n : (0 < d)%R -> n < 2 ^ 31 -> 0 <= Int_part ((x - lo) / d) < n ->
  @floor32 FRX (@n_mul FRX (@n_sub FRX (Fin x) (Fin lo)) (@n_div FRX (n_of_Z 1) (Fin d))) = Ret (Int_part ((x - lo) / d)).
Proof.
  intros Hd Hn H.
  change (@n_of_Z FRX 1) with (Fin 1). change (@n_div FRX) with x_div. rewrite x_div_fin by lra.
  change (@n_mul FRX (@n_sub FRX (Fin x) (Fin lo)) (Fin (1 / d))) with (Fin ((x - lo) * (1 / d))).
  replace ((x - lo) * (1 / d))%R with ((x - lo) / d)%R by (field; lra).
  apply floor32_fin. lia.
Qed.

Lemma ss_impl {A} (R R' : A -> A -> Prop) l :
  (forall x y, In x l -> In y l -> R x y -> R' x y) -> StronglySorted R l -> StronglySorted R' l.
Proof.
  intros H. induction 1 as [|x l Hl IH Hx]; constructor.
  - apply IH. intros; apply H; cbn; auto.
  - rewrite Forall_forall in *. intros y Hy. apply H; cbn; auto.
Qed.

Lemma digit2 a b a' b' n : 0 <= a < n -> 0 <= a' < n -> a + n * b < a' + n * b' -> b < b' \/ (b = b' /\ a < a').
Proof. intros. destruct (Z.lt_trichotomy b b') as [L|[L|L]]; [now left|right; subst; lia|]. exfalso. nia. Qed.
Lemma digit2_eq a b a' b' n : 0 <= a < n -> 0 <= a' < n -> a + n * b = a' + n * b' -> b = b' /\ a = a'.
Proof. intros. destruct (Z.lt_trichotomy b b') as [L|[L|L]]; [exfalso; nia|subst; lia|exfalso; nia]. Qed.

(** what a caller may rely on for finite positions *)
Definition cells_fit (lo hi d : R) : Prop := (0 < d /\ 0 < hi - lo <= IZR (2 ^ 31 - 1) * d)%R.

Lemma get1_map_fin (l : list R) ip : (1 <= ip <= zlen l) ->
  @get1 (num FRX) (map Fin l) ip = Ret (Fin (nth (Z.to_nat (ip - 1)) l 0%R)).
Proof.
  intros H. rewrite (get1_ok _ ip (Fin 0 : num FRX)) by (unfold zlen in *; rewrite map_length; lia).
  f_equal. exact (map_nth Fin l 0%R _).
Qed.

Theorem bin_sorting_3d_exact (xs ys zs : list R) (rest : list (list rx)) xmin ymin zmin xmax ymax zmax dx dy dz ux uy uz gam pid :
  rest = [ux; uy; uz; gam; pid] ->
  let n := length xs in
  length ys = n -> length zs = n -> Forall (fun a => length a = n) rest ->
  cells_fit xmin xmax dx -> cells_fit ymin ymax dy -> cells_fit zmin zmax dz ->
  (forall x, In x xs -> (xmin <= x < xmax)%R) -> (forall y, In y ys -> (ymin <= y < ymax)%R) ->
  (forall z, In z zs -> (zmin <= z < zmax)%R) ->
  exists perm r, pxr_particle_bin_sorting (N := FRX) (Z.of_nat n) (map Fin xs) (map Fin ys) (map Fin zs) ux uy uz gam pid
      (Fin xmin) (Fin ymin) (Fin zmin) (Fin xmax) (Fin ymax) (Fin zmax) (Fin dx) (Fin dy) (Fin dz) = Ret r /\
    is_permutation n perm /\
    Forall2 (rearranged perm) (map Fin xs :: map Fin ys :: map Fin zs :: rest) r /\
    forall cx cy cz : nat -> Z,
      (forall i, (i < n)%nat -> in_cell xmin dx (nth i xs 0%R) (cx i) /\ in_cell ymin dy (nth i ys 0%R) (cy i) /\ in_cell zmin dz (nth i zs 0%R) (cz i)) ->
      StronglySorted (cell_order cx cy cz) perm.
Proof.
  intros -> n Ly Lz HR [Hdx Fx] [Hdy Fy] [Hdz Fz] Hxs Hys Hzs.
  unfold pxr_particle_bin_sorting. cbv zeta.
  destruct (ceiling_cells xmin xmax dx Hdx Fx) as (nx & Ex & Hnx & Cx). rewrite Ex. cbn [bind].
  destruct (ceiling_cells ymin ymax dy Hdy Fy) as (ny & Ey & Hny & Cy). rewrite Ey. cbn [bind].
  destruct (ceiling_cells zmin zmax dz Hdz Fz) as (nz & Ez & Hnz & Cz). rewrite Ez. cbn [bind].
  set (kx i := Int_part ((nth i xs 0%R - xmin) / dx)%R). set (ky i := Int_part ((nth i ys 0%R - ymin) / dy)%R).
  set (kz i := Int_part ((nth i zs 0%R - zmin) / dz)).
  assert (Kx : forall i, (i < n)%nat -> 0 <= kx i < nx) by (intros; apply Cx, Hxs, nth_In; assumption).
  assert (Ky : forall i, (i < n)%nat -> 0 <= ky i < ny) by (intros; apply Cy, Hys, nth_In; lia).
  assert (Kz : forall i, (i < n)%nat -> 0 <= kz i < nz) by (intros; apply Cz, Hzs, nth_In; lia).
  set (key i := kx i + nx * (ky i + ny * kz i)).
  rewrite (mapM_Ret _ (fun ip => key (Z.to_nat (ip - 1)) + 1)).
  2:{ intros ip Hip. apply in_map_iff in Hip as (j & <- & Hj). apply zseq_In in Hj.
      assert (Hi : (Z.to_nat (1 + j - 1) < n)%nat) by lia.
      rewrite !get1_map_fin by (unfold zlen; lia). cbn [bind]. unfold bin_3d.
      rewrite (bin_floor xmin dx _ nx) by (try lra; try lia; apply Kx; lia). cbn [bind].
      rewrite (bin_floor ymin dy _ ny) by (try lra; try lia; apply Ky; lia). cbn [bind].
      rewrite (bin_floor zmin dz _ nz) by (try lra; try lia; apply Kz; lia). cbn [bind].
      f_equal. unfold key, kx, ky, kz. ring. }
  cbn [bind]. rewrite Nat2Z.id. set (bins := map _ _).
  assert (Lb : length bins = n) by (unfold bins; rewrite !map_length; apply zseq_length).
  assert (Nb : forall i, (i < n)%nat -> nth i bins 0 = key i + 1).
  { intros i Hi. unfold bins. rewrite map_map.
    rewrite nth_indep with (d' := (fun x => key (Z.to_nat (1 + x - 1)) + 1) 0) by (rewrite map_length, zseq_length; lia).
    rewrite (map_nth (fun x => key (Z.to_nat (1 + x - 1)) + 1)). rewrite (nth_error_nth_eq _ _ _ 0 (zseq_nth n i Hi)). do 2 f_equal. lia. }
  set (nb := Z.to_nat (nx * ny * nz)).
  assert (Hnb : Z.of_nat nb = nx * ny * nz) by (unfold nb; rewrite Z2Nat.id; [reflexivity|]; repeat apply Z.mul_nonneg_nonneg; lia).
  assert (GB : good_bins bins nb).
  { intros b Hb. apply (In_nth _ _ 0) in Hb as (i & Hi & <-). rewrite Lb in Hi. rewrite Nb by exact Hi. rewrite Hnb.
    specialize (Kx i Hi). specialize (Ky i Hi). specialize (Kz i Hi). unfold key.
    assert (0 <= ny * kz i) by (apply Z.mul_nonneg_nonneg; lia).
    assert (0 <= nx * (ky i + ny * kz i)) by (apply Z.mul_nonneg_nonneg; lia).
    assert (ny * kz i <= ny * (nz - 1)) by (apply Z.mul_le_mono_nonneg_l; lia).
    assert (nx * (ky i + ny * kz i) <= nx * (ny * nz - 1)) by (apply Z.mul_le_mono_nonneg_l; lia). lia. }
  destruct (counting_sort_spec (A := num FRX) bins nb (map Fin xs :: map Fin ys :: map Fin zs :: [ux; uy; uz; gam; pid]) GB)
    as (perm & r & E & HP & HS & HF).
  { rewrite Lb. repeat (constructor; [rewrite map_length; auto|]). exact HR. }
  rewrite Lb, Hnb in E. exists perm, r. split; [exact E|]. rewrite Lb in HP. split; [exact HP|]. split; [exact HF|].
  intros cx cy cz HC. unfold stably_sorted in HS.
  assert (Hin : forall i, In i perm -> (i < n)%nat).
  { intros i Hi. apply (Permutation_in _ HP) in Hi. apply in_seq in Hi. lia. }
  assert (Heq : forall i, (i < n)%nat -> cx i = kx i /\ cy i = ky i /\ cz i = kz i).
  { intros i Hi. destruct (HC i Hi) as (A & B & C). 
    split; [|split]; [apply (in_cell_unique xmin dx (nth i xs 0%R))|apply (in_cell_unique ymin dy (nth i ys 0%R))|apply (in_cell_unique zmin dz (nth i zs 0%R))];
      try assumption; apply in_cell_Int_part; assumption. }
  revert HS. apply ss_impl. intros i j Hi Hj HR'. apply Hin in Hi, Hj. rewrite !Nb in HR' by assumption.
  unfold cell_order. destruct (Heq i Hi) as (-> & -> & ->), (Heq j Hj) as (-> & -> & ->). unfold key in HR'.
  pose proof (Kx i Hi). pose proof (Ky i Hi). pose proof (Kx j Hj). pose proof (Ky j Hj).
  destruct HR' as [HR'|[HR' Hij]].
  - destruct (digit2 (kx i) (ky i + ny * kz i) (kx j) (ky j + ny * kz j) nx) as [D|[D D']]; [lia..| |].
    + destruct (digit2 (ky i) (kz i) (ky j) (kz j) ny) as [D2|[D2 D3]]; [lia..| |]; tauto.
    + destruct (digit2_eq (ky i) (kz i) (ky j) (kz j) ny) as [D2 D3]; [lia..|]; tauto.
  - destruct (digit2_eq (kx i) (ky i + ny * kz i) (kx j) (ky j + ny * kz j) nx) as [D D']; [lia..|].
    destruct (digit2_eq (ky i) (kz i) (ky j) (kz j) ny) as [D2 D3]; [lia..|]; tauto.
Qed.

Theorem bin_sorting_2d_exact (xs zs : list R) (rest : list (list rx)) xmin zmin xmax zmax dx dz ux uy uz gam pid :
  rest = [ux; uy; uz; gam; pid] ->
  let n := length xs in
  length zs = n -> Forall (fun a => length a = n) rest ->
  cells_fit xmin xmax dx -> cells_fit zmin zmax dz ->
  (forall x, In x xs -> (xmin <= x < xmax)%R) -> (forall z, In z zs -> (zmin <= z < zmax)%R) ->
  exists perm r, pxr_particle_bin_sorting_2d (N := FRX) (Z.of_nat n) (map Fin xs) (map Fin zs) ux uy uz gam pid
      (Fin xmin) (Fin zmin) (Fin xmax) (Fin zmax) (Fin dx) (Fin dz) = Ret r /\
    is_permutation n perm /\
    Forall2 (rearranged perm) (map Fin xs :: map Fin zs :: rest) r /\
    forall cx cz : nat -> Z,
      (forall i, (i < n)%nat -> in_cell xmin dx (nth i xs 0%R) (cx i) /\ in_cell zmin dz (nth i zs 0%R) (cz i)) ->
      StronglySorted (cell_order cx (fun _ => 0) cz) perm.
Proof.
  intros -> n Lz HR [Hdx Fx] [Hdz Fz] Hxs Hzs.
  unfold pxr_particle_bin_sorting_2d. cbv zeta.
  destruct (ceiling_cells xmin xmax dx Hdx Fx) as (nx & Ex & Hnx & Cx). rewrite Ex. cbn [bind].
  destruct (ceiling_cells zmin zmax dz Hdz Fz) as (nz & Ez & Hnz & Cz). rewrite Ez. cbn [bind].
  set (kx i := Int_part ((nth i xs 0 - xmin) / dx)%R). set (kz i := Int_part ((nth i zs 0 - zmin) / dz)%R).
  assert (Kx : forall i, (i < n)%nat -> 0 <= kx i < nx) by (intros; apply Cx, Hxs, nth_In; assumption).
  assert (Kz : forall i, (i < n)%nat -> 0 <= kz i < nz) by (intros; apply Cz, Hzs, nth_In; lia).
  set (key i := kx i + nx * kz i).
  rewrite (mapM_Ret _ (fun ip => key (Z.to_nat (ip - 1)) + 1)).
  2:{ intros ip Hip. apply in_map_iff in Hip as (j & <- & Hj). apply zseq_In in Hj.
      assert (Hi : (Z.to_nat (1 + j - 1) < n)%nat) by lia.
      rewrite !get1_map_fin by (unfold zlen; lia). cbn [bind]. unfold bin_2d.
      rewrite (bin_floor xmin dx _ nx) by (try lra; try lia; apply Kx; lia). cbn [bind].
      rewrite (bin_floor zmin dz _ nz) by (try lra; try lia; apply Kz; lia). cbn [bind].
      f_equal. unfold key, kx, kz. ring. }
  cbn [bind]. rewrite Nat2Z.id. set (bins := map _ _).
  assert (Lb : length bins = n) by (unfold bins; rewrite !map_length; apply zseq_length).
  assert (Nb : forall i, (i < n)%nat -> nth i bins 0 = key i + 1).
  { intros i Hi. unfold bins. rewrite map_map.
    rewrite nth_indep with (d' := (fun x => key (Z.to_nat (1 + x - 1)) + 1) 0) by (rewrite map_length, zseq_length; lia).
    rewrite (map_nth (fun x => key (Z.to_nat (1 + x - 1)) + 1)). rewrite (nth_error_nth_eq _ _ _ 0 (zseq_nth n i Hi)). do 2 f_equal. lia. }
  set (nb := Z.to_nat (nx * nz)).
  assert (Hnb : Z.of_nat nb = nx * nz) by (unfold nb; rewrite Z2Nat.id; [reflexivity|]; repeat apply Z.mul_nonneg_nonneg; lia).
  assert (GB : good_bins bins nb).
  { intros b Hb. apply (In_nth _ _ 0) in Hb as (i & Hi & <-). rewrite Lb in Hi. rewrite Nb by exact Hi. rewrite Hnb.
    specialize (Kx i Hi). specialize (Kz i Hi). unfold key.
    assert (0 <= nx * kz i) by (apply Z.mul_nonneg_nonneg; lia).
    assert (nx * kz i <= nx * (nz - 1)) by (apply Z.mul_le_mono_nonneg_l; lia). lia. }
  destruct (counting_sort_spec (A := num FRX) bins nb (map Fin xs :: map Fin zs :: [ux; uy; uz; gam; pid]) GB)
    as (perm & r & E & HP & HS & HF).
  { rewrite Lb. repeat (constructor; [rewrite map_length; auto|]). exact HR. }
  rewrite Lb, Hnb in E. exists perm, r. split; [exact E|]. rewrite Lb in HP. split; [exact HP|]. split; [exact HF|].
  intros cx cz HC. unfold stably_sorted in HS.
  assert (Hin : forall i, In i perm -> (i < n)%nat).
  { intros i Hi. apply (Permutation_in _ HP) in Hi. apply in_seq in Hi. lia. }
  assert (Heq : forall i, (i < n)%nat -> cx i = kx i /\ cz i = kz i).
  { intros i Hi. destruct (HC i Hi) as (A & C).
    split; [apply (in_cell_unique xmin dx (nth i xs 0%R))|apply (in_cell_unique zmin dz (nth i zs 0%R))];
      try assumption; apply in_cell_Int_part; assumption. }
  revert HS. apply ss_impl. intros i j Hi Hj HR'. apply Hin in Hi, Hj. rewrite !Nb in HR' by assumption.
  unfold cell_order. destruct (Heq i Hi) as (-> & ->), (Heq j Hj) as (-> & ->). unfold key in HR'.
  pose proof (Kx i Hi). pose proof (Kx j Hj).
  destruct HR' as [HR'|[HR' Hij]].
  - destruct (digit2 (kx i) (kz i) (kx j) (kz j) nx) as [D|[D D']]; [lia..| |]; tauto.
  - destruct (digit2_eq (kx i) (kz i) (kx j) (kz j) nx) as [D D']; [lia..|]; tauto.
Qed.
