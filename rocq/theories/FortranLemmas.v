(** Basic facts about the Fortran layer (proofs only). *)
From Coq Require Import ZArith Reals List Bool Lia Lra.
From Verif Require Import Cxx Num NumRX Fortran FortranNum CxxLemmas RXLemmas.
Import ListNotations.
Local Open Scope Z_scope.

Lemma do_loop_inv {S} (P : Z -> S -> Prop) (f : Z -> S -> out S) n : forall i s,
  P i s ->
  (forall j s, i <= j < i + Z.of_nat n -> P j s -> exists s', f j s = Ret s' /\ P (j + 1) s') ->
  exists s', do_loop n i f s = Ret s' /\ P (i + Z.of_nat n) s'.
Proof.
  induction n as [|n IH]; intros i s H0 Hs.
  - exists s. split; [reflexivity|]. now replace (i + Z.of_nat 0) with i by lia.
  - cbn [do_loop]. destruct (Hs i s) as (s1 & E & H1); [lia|exact H0|]. rewrite E. cbn [bind].
    destruct (IH (i + 1) s1 H1) as (s2 & E2 & H2).
    { intros j t Hj. apply Hs. lia. }
    exists s2. split; [exact E2|]. now replace (i + Z.of_nat (Datatypes.S n)) with (i + 1 + Z.of_nat n) by lia.
Qed.

Lemma do_range_inv {S} (P : Z -> S -> Prop) (f : Z -> S -> out S) lo hi s :
  lo <= hi + 1 -> P lo s ->
  (forall j s, lo <= j <= hi -> P j s -> exists s', f j s = Ret s' /\ P (j + 1) s') ->
  exists s', do_range lo hi f s = Ret s' /\ P (hi + 1) s'.
Proof.
  intros Hl H0 Hs. unfold do_range.
  destruct (do_loop_inv P f (Z.to_nat (hi - lo + 1)) lo s H0) as (s' & E & H').
  { intros j t Hj. apply Hs. lia. }
  exists s'. split; [exact E|]. now replace (hi + 1) with (lo + Z.of_nat (Z.to_nat (hi - lo + 1))) by lia.
Qed.

Lemma do_range_empty {S} (f : Z -> S -> out S) lo hi s : hi < lo -> do_range lo hi f s = Ret s.
Proof. intros H. unfold do_range. now replace (Z.to_nat (hi - lo + 1)) with O by lia. Qed.

Lemma do_loop_ext {S} (f g : Z -> S -> out S) n : forall i s,
  (forall j t, i <= j < i + Z.of_nat n -> f j t = g j t) -> do_loop n i f s = do_loop n i g s.
Proof.
  induction n as [|n IH]; intros i s H; [reflexivity|]. cbn [do_loop]. rewrite (H i s) by lia.
  destruct (g i s); cbn [bind]; try reflexivity. apply IH. intros; apply H; lia.
Qed.

Lemma do_loop_app {S} (f : Z -> S -> out S) n m : forall i s,
  do_loop (n + m) i f s = (do s' <- do_loop n i f s; do_loop m (i + Z.of_nat n) f s').
Proof.
  induction n as [|n IH]; intros i s.
  - cbn [do_loop bind plus]. now replace (i + Z.of_nat 0) with i by lia.
  - cbn [do_loop plus]. destruct (f i s); cbn [bind]; try reflexivity. rewrite IH.
    now replace (i + 1 + Z.of_nat n) with (i + Z.of_nat (Datatypes.S n)) by lia.
Qed.

Lemma get1_ok {A} (l : list A) i d : 1 <= i <= zlen l -> get1 l i = Ret (nth (Z.to_nat (i - 1)) l d).
Proof. intros H. unfold get1. apply zget_nth. lia. Qed.

Lemma get1_ub {A} (l : list A) i : ~ (1 <= i <= zlen l) -> get1 l i = UB.
Proof. intros H. apply zget_ub. lia. Qed.

Lemma set1_ok {A} (l : list A) i a : 1 <= i <= zlen l -> set1 l i a = Ret (lset l (Z.to_nat (i - 1)) a).
Proof. intros H. unfold set1. apply zset_ok. lia. Qed.

Lemma set1_ub {A} (l : list A) i a : ~ (1 <= i <= zlen l) -> set1 l i a = UB.
Proof. intros H. apply zset_ub. lia. Qed.

Lemma zlen_lset {A} (l : list A) n a : zlen (lset l n a) = zlen l.
Proof. unfold zlen. now rewrite lset_length. Qed.

Lemma nth_lset_same {A} (l : list A) n a d : (n < length l)%nat -> nth n (lset l n a) d = a.
Proof. intros H. apply nth_error_nth_eq. apply lset_same. exact H. Qed.

Lemma nth_lset_other {A} (l : list A) n m a d : n <> m -> nth m (lset l n a) d = nth m l d.
Proof. intros H. pose proof (lset_other l n m a H) as E. revert E. generalize (lset l n a).
  intros k E. destruct (nth_error k m) eqn:E1.
  - rewrite (nth_error_nth_eq _ _ _ d E1). symmetry. apply nth_error_nth_eq. congruence.
  - symmetry in E. apply nth_error_None in E1, E. now rewrite !nth_overflow.
Qed.
