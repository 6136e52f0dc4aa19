(** Basic facts about the language layer (proofs only). *)
From Coq Require Import ZArith List Bool Lia.
From Verif Require Import Cxx LookupTables.
Import ListNotations.
Local Open Scope Z_scope.

Lemma zlen_nonneg {A} (l : list A) : 0 <= zlen l.
Proof. unfold zlen; lia. Qed.

Lemma zlen_app {A} (l k : list A) : zlen (l ++ k) = zlen l + zlen k.
Proof. unfold zlen; rewrite app_length; lia. Qed.

Lemma zlen_map {A B} (f : A -> B) l : zlen (map f l) = zlen l.
Proof. unfold zlen; now rewrite map_length. Qed.

Lemma zget_ok {A} (l : list A) i a :
  0 <= i -> nth_error l (Z.to_nat i) = Some a -> zget l i = Ret a.
Proof.
  intros Hi H. unfold zget, zlen.
  assert (Hlt : (Z.to_nat i < length l)%nat) by (apply nth_error_Some; congruence).
  replace (0 <=? i) with true by (symmetry; apply Z.leb_le; lia).
  replace (i <? Z.of_nat (length l)) with true by (symmetry; apply Z.ltb_lt; lia).
  cbn. now rewrite H.
Qed.

Lemma zget_nth {A} (l : list A) i d :
  0 <= i < zlen l -> zget l i = Ret (nth (Z.to_nat i) l d).
Proof.
  intros [H0 H1]. apply zget_ok; [exact H0|].
  apply nth_error_nth'. unfold zlen in H1. lia.
Qed.

Lemma zget_inv {A} (l : list A) i a :
  zget l i = Ret a -> 0 <= i < zlen l /\ nth_error l (Z.to_nat i) = Some a.
Proof.
  unfold zget. destruct (0 <=? i) eqn:E0; cbn; [|discriminate].
  destruct (i <? zlen l) eqn:E1; cbn; [|discriminate].
  destruct (nth_error l (Z.to_nat i)) eqn:E; [|discriminate].
  intros [= ->]. apply Z.leb_le in E0. apply Z.ltb_lt in E1. auto.
Qed.

Lemma zget_ub {A} (l : list A) i : ~ (0 <= i < zlen l) -> zget l i = UB.
Proof.
  intros H. unfold zget.
  destruct (0 <=? i) eqn:E0; cbn; [|reflexivity].
  destruct (i <? zlen l) eqn:E1; cbn; [|reflexivity].
  apply Z.leb_le in E0. apply Z.ltb_lt in E1. lia.
Qed.

(** [zget] is either in range or undefined. *)
Lemma zget_cases {A} (l : list A) i :
  (exists a, 0 <= i < zlen l /\ nth_error l (Z.to_nat i) = Some a /\ zget l i = Ret a)
  \/ (~ (0 <= i < zlen l) /\ zget l i = UB).
Proof.
  destruct (Z_le_dec 0 i) as [H0|H0];
  [destruct (Z_lt_dec i (zlen l)) as [H1|H1]|].
  - left. destruct (nth_error l (Z.to_nat i)) eqn:E.
    + exists a. auto using zget_ok.
    + apply nth_error_None in E. unfold zlen in H1. lia.
  - right. split; [lia|]. apply zget_ub. lia.
  - right. split; [lia|]. apply zget_ub. lia.
Qed.

Lemma wrap64_small z : 0 <= z < 2 ^ 64 -> wrap64 z = z.
Proof. intros; unfold wrap64; now apply Z.mod_small. Qed.

Lemma wrap64_range z : 0 <= wrap64 z < 2 ^ 64.
Proof. unfold wrap64. apply Z.mod_pos_bound. lia. Qed.

Lemma to_int32_small z : 0 <= z < 2 ^ 31 -> to_int32 z = z.
Proof.
  intros H. unfold to_int32.
  rewrite Z.mod_small by lia.
  destruct (z <? 2 ^ 31) eqn:E; [reflexivity|apply Z.ltb_ge in E; lia].
Qed.

Lemma to_int32_range z : - 2 ^ 31 <= to_int32 z < 2 ^ 31.
Proof.
  unfold to_int32. pose proof (Z.mod_pos_bound z (2 ^ 32) ltac:(lia)).
  destruct (z mod 2 ^ 32 <? 2 ^ 31) eqn:E;
  [apply Z.ltb_lt in E|apply Z.ltb_ge in E]; lia.
Qed.

Lemma lset_length {A} (l : list A) n a : length (lset l n a) = length l.
Proof. revert n; induction l; intros [|n]; cbn; auto. Qed.

Lemma lset_same {A} (l : list A) n a :
  (n < length l)%nat -> nth_error (lset l n a) n = Some a.
Proof. revert n; induction l; intros [|n] H; cbn in *; try lia; auto. apply IHl; lia. Qed.

Lemma lset_other {A} (l : list A) n m a :
  n <> m -> nth_error (lset l n a) m = nth_error l m.
Proof. revert n m; induction l; intros [|n] [|m] H; cbn; auto; try lia. Qed.

Lemma lset_oob {A} (l : list A) n a : (length l <= n)%nat -> lset l n a = l.
Proof. revert n; induction l; intros [|n] H; cbn in *; auto; try lia. f_equal. apply IHl. lia. Qed.

Lemma lset_comm {A} (l : list A) n m a b :
  n <> m -> lset (lset l n a) m b = lset (lset l m b) n a.
Proof.
  revert n m; induction l; intros [|n] [|m] H; cbn; auto; try lia.
  f_equal. apply IHl. lia.
Qed.

Lemma zset_ok {A} (l : list A) i a :
  0 <= i < zlen l -> zset l i a = Ret (lset l (Z.to_nat i) a).
Proof.
  intros [H0 H1]. unfold zset.
  replace (0 <=? i) with true by (symmetry; apply Z.leb_le; lia).
  now replace (i <? zlen l) with true by (symmetry; apply Z.ltb_lt; lia).
Qed.

Lemma zset_ub {A} (l : list A) i a : ~ (0 <= i < zlen l) -> zset l i a = UB.
Proof.
  intros H. unfold zset.
  destruct (0 <=? i) eqn:E0; cbn; [|reflexivity].
  destruct (i <? zlen l) eqn:E1; cbn; [|reflexivity].
  apply Z.leb_le in E0. apply Z.ltb_lt in E1. lia.
Qed.

Lemma zset_inv {A} (l l' : list A) i a :
  zset l i a = Ret l' -> 0 <= i < zlen l /\ l' = lset l (Z.to_nat i) a.
Proof.
  unfold zset. destruct (0 <=? i) eqn:E0; cbn; [|discriminate].
  destruct (i <? zlen l) eqn:E1; cbn; [|discriminate].
  intros [= <-]. apply Z.leb_le in E0. apply Z.ltb_lt in E1. auto.
Qed.

Lemma zseq_length n : length (zseq n) = n.
Proof. unfold zseq. now rewrite map_length, seq_length. Qed.

Lemma zseq_nth n i : (i < n)%nat -> nth_error (zseq n) i = Some (Z.of_nat i).
Proof.
  intros H. unfold zseq. rewrite nth_error_map.
  rewrite (nth_error_nth' _ 0%nat) by (rewrite seq_length; lia).
  now rewrite seq_nth by lia.
Qed.

Lemma zseq_In n z : In z (zseq n) <-> 0 <= z < Z.of_nat n.
Proof.
  unfold zseq. rewrite in_map_iff. split.
  - intros (k & <- & Hk). apply in_seq in Hk. lia.
  - intros H. exists (Z.to_nat z). split; [lia|]. apply in_seq. lia.
Qed.

Lemma nth_error_nth_eq {A} (l : list A) i a d : nth_error l i = Some a -> nth i l d = a.
Proof. revert i; induction l; intros [|i] H; cbn in *; try discriminate; auto; congruence. Qed.

Lemma mapM_Ret {A B} (f : A -> out B) (g : A -> B) l :
  (forall a, In a l -> f a = Ret (g a)) -> mapM f l = Ret (map g l).
Proof.
  induction l as [|a l IH]; intros H; cbn; [reflexivity|].
  rewrite (H a) by now left. cbn. rewrite IH; [reflexivity|].
  intros b Hb. apply H. now right.
Qed.

Lemma mapM_Forall2 {A B} (f : A -> out B) l r :
  mapM f l = Ret r -> Forall2 (fun a b => f a = Ret b) l r.
Proof.
  revert r; induction l as [|a l IH]; intros r H; cbn in H.
  - injection H as <-. constructor.
  - destruct (f a) eqn:E; try discriminate. cbn in H.
    destruct (mapM f l) eqn:E2; try discriminate. cbn in H.
    injection H as <-. constructor; auto.
Qed.
