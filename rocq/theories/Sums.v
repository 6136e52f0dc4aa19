(** Finite sums over ranges and boxes; sums of splines. *)
From Coq Require Import ZArith Reals List Bool Lia Lra Psatz.
From Verif Require Import Cxx Num NumRX Fortran FortranNum Grid GridLemmas Pushers Deposit SpecYee YeeReal SpecDeposit Splines.
Import ListNotations.
Local Open Scope R_scope.

Lemma sumR_app l m : sumR (l ++ m) = sumR l + sumR m.
Proof. unfold sumR. induction l as [|a l IH]; cbn; [lra|]. cbn in IH. rewrite IH. lra. Qed.
Lemma sumR_ext {A} (f g : A -> R) l : (forall a, In a l -> f a = g a) -> sumR (map f l) = sumR (map g l).
Proof. intros H. f_equal. apply map_ext_in. exact H. Qed.
Lemma sumR_plus {A} (f g : A -> R) l : sumR (map (fun a => f a + g a) l) = sumR (map f l) + sumR (map g l).
Proof. unfold sumR. induction l as [|a l IH]; cbn; [lra|]. rewrite IH. lra. Qed.
Lemma sumR_scal {A} c (f : A -> R) l : sumR (map (fun a => c * f a) l) = c * sumR (map f l).
Proof. unfold sumR. induction l as [|a l IH]; cbn; [lra|]. rewrite IH. lra. Qed.
Lemma sumR_minus {A} (f g : A -> R) l : sumR (map (fun a => f a - g a) l) = sumR (map f l) - sumR (map g l).
Proof. unfold sumR. induction l as [|a l IH]; cbn; [lra|]. rewrite IH. lra. Qed.
Lemma sumR_0 {A} (l : list A) : sumR (map (fun _ => 0) l) = 0.
Proof. unfold sumR. induction l as [|a l IH]; cbn; [lra|]. rewrite IH. lra. Qed.
Lemma sumR_nonneg {A} (f : A -> R) l : (forall a, In a l -> 0 <= f a) -> 0 <= sumR (map f l).
Proof.
  unfold sumR. induction l as [|a l IH]; intros H; cbn; [lra|].
  pose proof (H a (or_introl eq_refl)). assert (0 <= fold_right Rplus 0 (map f l)) by (apply IH; intros b Hb; apply H; right; exact Hb). lra.
Qed.
Lemma sumR_swap {A B} (f : A -> B -> R) l m :
  sumR (map (fun a => sumR (map (f a) m)) l) = sumR (map (fun b => sumR (map (fun a => f a b) l)) m).
Proof.
  induction l as [|a l IH].
  - cbn. symmetry. apply sumR_0.
  - cbn [map]. change (sumR (map (f a) m) + sumR (map (fun a0 => sumR (map (f a0) m)) l) = sumR (map (fun b => f a b + sumR (map (fun a0 => f a0 b) l)) m)).
    rewrite IH, sumR_plus. reflexivity.
Qed.
(** a sum with at most one non-zero term *)
Lemma sumR_single {A} (dec : forall a b : A, {a = b} + {a <> b}) (f : A -> R) l a :
  NoDup l -> (forall b, In b l -> b <> a -> f b = 0) -> sumR (map f l) = if in_dec dec a l then f a else 0.
Proof.
  induction l as [|b l IH]; intros ND H; [reflexivity|].
  inversion ND as [|x y Hn ND']; subst. change (sumR (map f (b :: l))) with (f b + sumR (map f l)).
  rewrite IH by (try assumption; intros c Hc; apply H; right; exact Hc).
  destruct (dec b a) as [->|N].
  - destruct (in_dec dec a l); [contradiction|]. destruct (in_dec dec a (a :: l)) as [_|N]; [lra | exfalso; apply N; left; reflexivity].
  - rewrite (H b) by (try (left; reflexivity); exact N).
    destruct (in_dec dec a l) as [I|I], (in_dec dec a (b :: l)) as [I'|I']; try lra.
    + exfalso; apply I'; right; exact I.
    + exfalso; destruct I' as [E|E]; [congruence | contradiction].
Qed.

Lemma rsum_sumR l f : rsum l f = sumR (map f l).
Proof. reflexivity. Qed.

Lemma sumR_flat {A B} (f : B -> R) (g : A -> list B) l : sumR (map f (flat_map g l)) = sumR (map (fun a => sumR (map f (g a))) l).
Proof.
  induction l as [|a l IH]; [reflexivity|].
  change (flat_map g (a :: l)) with (g a ++ flat_map g l). rewrite map_app, sumR_app, IH. reflexivity.
Qed.

Lemma sum_box_iter a1 a2 a3 b1 b2 b3 f :
  sum_box (a1, a2, a3) (b1, b2, b3) f =
  rsum (zrange a3 b3) (fun l => rsum (zrange a2 b2) (fun k => rsum (zrange a1 b1) (fun j => f (j, k, l)))).
Proof.
  unfold sum_box, box. rewrite sumR_flat, <- rsum_sumR. apply rsum_ext. intros l _.
  rewrite sumR_flat, <- rsum_sumR. apply rsum_ext. intros k _. rewrite map_map. reflexivity.
Qed.
Lemma sum_box_prod lo hi a b c : let '(a1, a2, a3) := lo in let '(b1, b2, b3) := hi in
  sum_box lo hi (fun p => let '(j, k, l) := p in a j * b k * c l) =
  rsum (zrange a1 b1) a * rsum (zrange a2 b2) b * rsum (zrange a3 b3) c.
Proof.
  destruct lo as [[a1 a2] a3], hi as [[b1 b2] b3]. rewrite sum_box_iter.
  transitivity (rsum (zrange a3 b3) (fun l => (rsum (zrange a1 b1) a * rsum (zrange a2 b2) b) * c l)).
  - apply rsum_ext. intros l _. transitivity (rsum (zrange a2 b2) (fun k => (rsum (zrange a1 b1) a * c l) * b k)).
    + apply rsum_ext. intros k _. transitivity (rsum (zrange a1 b1) (fun j => (b k * c l) * a j)); [apply rsum_ext; intros; ring|].
      rewrite rsum_scal. ring.
    + rewrite rsum_scal. ring.
  - rewrite rsum_scal. ring.
Qed.

(** ** windows *)
Lemma zrange_split lo m hi : (lo <= m + 1)%Z -> (m <= hi)%Z -> zrange lo hi = zrange lo m ++ zrange (m + 1) hi.
Proof.
  intros H1 H2. remember (Z.to_nat (hi - m)) as n eqn:E. revert hi H2 E. induction n as [|n IH]; intros hi H2 E.
  - assert (hi = m) by lia. subst hi. rewrite (zrange_nil (m + 1)) by lia. symmetry; apply app_nil_r.
  - replace hi with (hi - 1 + 1)%Z by lia. rewrite !zrange_snoc by lia. rewrite IH by lia. rewrite app_assoc. reflexivity.
Qed.
Lemma rsum_zero l f : (forall i, In i l -> f i = 0) -> rsum l f = 0.
Proof. intros H. rewrite (rsum_ext l f (fun _ => 0)) by exact H. apply rsum_0. Qed.
Lemma rsum_window lo hi a b f : (lo <= a)%Z -> (a <= b + 1)%Z -> (b <= hi)%Z ->
  (forall i, ~ (a <= i <= b)%Z -> f i = 0) -> rsum (zrange lo hi) f = rsum (zrange a b) f.
Proof.
  intros H1 H2 H3 H. rewrite (zrange_split lo b hi) by lia. rewrite (zrange_split lo (a - 1) b) by lia.
  rewrite !rsum_app. replace (a - 1 + 1)%Z with a by lia.
  rewrite (rsum_zero (zrange lo (a - 1))) by (intros i Hi; apply in_zrange in Hi; apply H; lia).
  rewrite (rsum_zero (zrange (b + 1) hi)) by (intros i Hi; apply in_zrange in Hi; apply H; lia). lra.
Qed.
Lemma rsum_shift lo hi d f : rsum (zrange (lo + d) (hi + d)) f = rsum (zrange lo hi) (fun i => f (i + d)%Z).
Proof.
  unfold rsum, zrange. replace (hi + d - (lo + d) + 1)%Z with (hi - lo + 1)%Z by lia. rewrite !map_map. f_equal.
  apply map_ext. intros i. f_equal. lia.
Qed.

Lemma spline_rsum n x j : (0 <= n <= 3)%Z -> is_node n x j ->
  rsum (zrange (j + smin n) (j + smax n)) (spline n x) = 1.
Proof.
  intros K H. replace (j + smin n)%Z with (smin n + j)%Z by lia. replace (j + smax n)%Z with (smax n + j)%Z by lia. rewrite rsum_shift.
  rewrite (rsum_ext _ _ (rshape n (x - IZR j))).
  2:{ intros m Hm. apply in_zrange in Hm. rewrite Z.add_comm. apply spline_on; assumption. }
  clear H. set (t := x - IZR j). pattern n. revert n K. apply four; unfold rsum;
  [change (zrange (smin 0) (smax 0)) with [0%Z] | change (zrange (smin 1) (smax 1)) with [0%Z; 1%Z] | change (zrange (smin 2) (smax 2)) with [(-1)%Z; 0%Z; 1%Z] | change (zrange (smin 3) (smax 3)) with [(-1)%Z; 0%Z; 1%Z; 2%Z]];
  cbn [map fold_right rshape Z.eqb Pos.eqb]; field.
Qed.
Lemma spline_moment n x j : (1 <= n <= 3)%Z -> is_node n x j ->
  rsum (zrange (j + smin n) (j + smax n)) (fun i => IZR i * spline n x i) = x.
Proof.
  intros K H. replace (j + smin n)%Z with (smin n + j)%Z by lia. replace (j + smax n)%Z with (smax n + j)%Z by lia. rewrite rsum_shift.
  rewrite (rsum_ext _ _ (fun m => IZR (m + j) * rshape n (x - IZR j) m)).
  2:{ intros m Hm. apply in_zrange in Hm. f_equal. rewrite Z.add_comm. apply spline_on; try assumption. lia. }
  clear H. assert (E : x = (x - IZR j) + IZR j) by ring. revert E. generalize (x - IZR j). intros t ->.
  assert (K3 : (0 <= n <= 3)%Z) by lia. revert K. pattern n. revert n K3. apply four; intros K; try lia; unfold rsum;
  [change (zrange (smin 1) (smax 1)) with [0%Z; 1%Z] | change (zrange (smin 2) (smax 2)) with [(-1)%Z; 0%Z; 1%Z] | change (zrange (smin 3) (smax 3)) with [(-1)%Z; 0%Z; 1%Z; 2%Z]];
  cbn [map fold_right rshape Z.eqb Pos.eqb]; rewrite !plus_IZR; field.
Qed.

Lemma is_node_ex n x : exists j, is_node n x j.
Proof.
  unfold is_node. destruct (n =? 2 * (n ÷ 2))%Z.
  - destruct (Rle_or_lt 0 x) as [P|P].
    + destruct (nearest_fin x) as (z & _ & B). exists z. apply abs_half; assumption.
    + destruct (nearest_fin (- x)) as (z & _ & B). exists (- z)%Z.
      destruct (abs_half (- x) z ltac:(lra) B) as [A|[A A']]; rewrite opp_IZR; rewrite Rabs_Ropp in *.
      * left. replace (x - - IZR z) with (- (- x - IZR z)) by ring. rewrite Rabs_Ropp. exact A.
      * right. replace (x - - IZR z) with (- (- x - IZR z)) by ring. rewrite !Rabs_Ropp. auto.
  - exists (Int_part x). apply Int_part_floor.
Qed.
Lemma smin_smax n : (0 <= n)%Z -> (smin n <= 0 <= smax n)%Z.
Proof. intros H. unfold smin, smax. pose proof (Z.quot_pos n 2 H ltac:(lia)). pose proof (Z.quot_pos (n + 1) 2 ltac:(lia) ltac:(lia)). lia. Qed.

(** the sum over any range that contains all nodes given something *)
Lemma spline_total n x lo hi : (0 <= n <= 3)%Z -> (forall i, spline n x i <> 0 -> (lo <= i <= hi)%Z) ->
  rsum (zrange lo hi) (spline n x) = 1.
Proof.
  intros K H. destruct (is_node_ex n x) as (j & Hj). rewrite <- (spline_rsum n x j K Hj).
  pose proof (smin_smax n ltac:(lia)) as S.
  set (lo' := Z.min lo (j + smin n)). set (hi' := Z.max hi (j + smax n)).
  transitivity (rsum (zrange lo' hi') (spline n x)).
  - destruct (Z_le_gt_dec lo hi) as [L|L].
    + symmetry. apply rsum_window; try (unfold lo', hi'; lia). intros i Hi. destruct (Req_dec (spline n x i) 0) as [E|E]; [exact E|]. specialize (H i E). lia.
    + rewrite (zrange_nil lo hi) by lia. symmetry. apply rsum_zero. intros i _. destruct (Req_dec (spline n x i) 0) as [E|E]; [exact E|]. specialize (H i E). lia.
  - apply rsum_window; try (unfold lo', hi'; lia). intros i Hi. apply (spline_off n x j); assumption.
Qed.
