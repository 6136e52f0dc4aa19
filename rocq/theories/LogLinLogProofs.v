(** Proofs about [generate_log_lin_log_spaced_vec]. *)
From Coq Require Import ZArith Reals List Bool Lia Lra.
From Verif Require Import Cxx Num NumRX Utilities CxxLemmas RXLemmas Spec UtilitiesProofs.
Import ListNotations.
Local Open Scope R_scope.

Definition lll_val (a b : R) (k i : nat) : R :=
  let f := b * (1 / 10) in let s := b * (9 / 10) in
  if (i <? k)%nat then a * exp (INR i * ln (f / a) / INR k)
  else if (i <? 2 * k)%nat then f + (s - f) * INR (i - k) / INR k
  else b * exp (IZR (wrap64 (wrap64 (Z.of_nat k - 1) - (Z.of_nat i - 2 * Z.of_nat k)))
                * ln (s / b) / INR (k - 1)).

Definition lll_el (a b : R) (n i : nat) : R :=
  if (i =? n - 1)%nat then b else lll_val a b (n / 3) i.

Definition lll_grid (a b : R) (n : nat) : list R := map (lll_el a b n) (seq 0 n).

Lemma lll_grid_length a b n : length (lll_grid a b n) = n.
Proof. unfold lll_grid. now rewrite map_length, seq_length. Qed.

Lemma lll_grid_el a b n i : (i < n)%nat -> el (lll_grid a b n) i = lll_el a b n i.
Proof.
  intros H. unfold el, lll_grid.
  rewrite nth_indep with (d' := lll_el a b n 0) by (rewrite map_length, seq_length; lia).
  rewrite (map_nth (lll_el a b n)). now rewrite seq_nth by lia.
Qed.

Lemma seq_shift_k k m : seq k m = map (fun i => (k + i)%nat) (seq 0 m).
Proof.
  revert k; induction m as [|m IH]; intros k; [reflexivity|].
  cbn [seq map]. f_equal; [lia|]. rewrite (IH (S k)), <- seq_shift, map_map.
  apply map_ext. intros; lia.
Qed.

Lemma lset_last {A} (l : list A) x y : lset (l ++ [x]) (length l) y = l ++ [y].
Proof. induction l as [|h t IH]; cbn; [reflexivity|]. now rewrite IH. Qed.

Lemma lset_same_val {A} (l : list A) i x : nth_error l i = Some x -> lset l i x = l.
Proof.
  revert i; induction l as [|h t IH]; intros [|i] H; cbn in *; try congruence.
  now rewrite IH.
Qed.

Lemma seq_three k n : (2 * k <= n)%nat -> seq 0 n = seq 0 k ++ seq k k ++ seq (2 * k) (n - 2 * k).
Proof.
  intros H. remember (n - 2 * k)%nat as m eqn:E. assert (n = (k + (k + m))%nat) as -> by lia.
  rewrite !seq_app. now replace (0 + k + k)%nat with (2 * k)%nat by lia.
Qed.

Lemma lll_eq tg a b n : 0 < a -> 0 < b -> (6 <= n)%nat -> (Z.of_nat n < 2 ^ 64)%Z ->
  @generate_log_lin_log_spaced_vec (RX tg) (Fin a) (Fin b) (Z.of_nat n)
  = Ret (map Fin (lll_grid a b n)).
Proof.
  intros Ha Hb Hn Hbig.
  set (k := (n / 3)%nat).
  assert (Hk : (2 <= k)%nat) by (apply Nat.div_le_lower_bound; lia).
  assert (Hk3 : (3 * k <= n)%nat) by (apply Nat.mul_div_le; lia).
  assert (EK : (Z.of_nat n / 3 = Z.of_nat k)%Z) by (unfold k; now rewrite Nat2Z.inj_div).
  assert (Hkp : 0 < INR k) by (apply lt_0_INR; lia).
  assert (Hk1 : 0 < INR (k - 1)) by (apply lt_0_INR; lia).
  assert (Hw : wrap64 (Z.of_nat k - 1) = Z.of_nat (k - 1)) by (rewrite wrap64_small; lia).
  unfold generate_log_lin_log_spaced_vec. rewrite EK. cbn zeta.
  match goal with |- context [zset (?p1 ++ ?p2 ++ ?p3) _ _] =>
    set (P1 := p1); set (P2 := p2); set (P3 := p3) end.
  assert (E1 : P1 = map (fun i => Fin (lll_val a b k i)) (seq 0 k)).
  { unfold P1. rewrite zseq_map_R, Nat2Z.id. apply map_ext_in. intros i Hi. apply in_seq in Hi.
    cbn [n_mul n_exp n_of_Z n_log n_div n_lit RX x_lit].
    rewrite (x_div_fin 1 10) by lra. cbn [x_mul]. rewrite x_div_fin by lra.
    rewrite x_log_fin by (apply Rdiv_lt_0_compat; lra). cbn [x_mul].
    rewrite <- !INR_IZR_INZ, x_div_fin by lra. cbn [x_exp x_mul]. unfold lll_val.
    rewrite (proj2 (Nat.ltb_lt i k)) by lia. reflexivity. }
  assert (E2 : P2 = map (fun i => Fin (lll_val a b k i)) (seq k k)).
  { unfold P2. rewrite zseq_map_R, Nat2Z.id, (seq_shift_k k k), map_map. apply map_ext_in. intros i Hi. apply in_seq in Hi.
    cbn [n_mul n_sub n_add n_of_Z n_log n_div n_lit RX x_lit].
    rewrite (x_div_fin 1 10), (x_div_fin 9 10) by lra. cbn [x_mul x_sub].
    rewrite <- !INR_IZR_INZ, x_div_fin by lra. cbn [x_add]. unfold lll_val.
    rewrite (proj2 (Nat.ltb_ge (k + i) k)) by lia.
    rewrite (proj2 (Nat.ltb_lt (k + i) (2 * k))) by lia.
    now replace (k + i - k)%nat with i by lia. }
  assert (E3 : P3 = map (fun i => Fin (lll_val a b k i)) (seq (2 * k) (n - 2 * k))).
  { unfold P3. rewrite zseq_map_R, (seq_shift_k (2 * k)), map_map.
    replace (Z.to_nat (Z.of_nat n - Z.of_nat k - Z.of_nat k)) with (n - 2 * k)%nat by lia.
    apply map_ext_in. intros i Hi. apply in_seq in Hi.
    cbn [n_mul n_exp n_of_Z n_log n_div n_lit RX x_lit].
    rewrite (x_div_fin 9 10) by lra. cbn [x_mul]. rewrite x_div_fin by lra.
    rewrite x_log_fin by (apply Rdiv_lt_0_compat; lra). cbn [x_mul].
    rewrite Hw at 2. rewrite <- (INR_IZR_INZ (k - 1)), x_div_fin by lra. cbn [x_exp x_mul]. unfold lll_val.
    rewrite (proj2 (Nat.ltb_ge (2 * k + i) k)) by lia.
    rewrite (proj2 (Nat.ltb_ge (2 * k + i) (2 * k))) by lia.
    now replace (Z.of_nat (2 * k + i) - 2 * Z.of_nat k)%Z with (Z.of_nat i) by lia. }
  assert (EV : P1 ++ P2 ++ P3 = map (fun i => Fin (lll_val a b k i)) (seq 0 n)).
  { rewrite E1, E2, E3, <- !map_app. f_equal.
    symmetry. apply seq_three; lia. }
  rewrite EV. rewrite zset_ok by (rewrite zlen_map; unfold zlen; rewrite seq_length; lia).
  cbn [bind Z.to_nat].
  rewrite lset_same_val.
  2:{ rewrite nth_error_map, (nth_error_nth' (seq 0 n) 0%nat) by (rewrite seq_length; lia).
      rewrite seq_nth by lia. cbn [option_map]. f_equal. f_equal.
      unfold lll_val. rewrite (proj2 (Nat.ltb_lt (0 + 0) k)) by lia. cbn [INR Nat.add].
      unfold Rdiv at 1. rewrite !Rmult_0_l, exp_0. now rewrite Rmult_1_r. }
  match goal with |- context [@zlen ?A ?l] => assert (Hz : @zlen A l = Z.of_nat n)
    by (unfold zlen; now rewrite map_length, seq_length) end.
  rewrite Hz. rewrite wrap64_small by lia. rewrite zset_ok by lia.
  f_equal. replace (Z.to_nat (Z.of_nat n - 1)) with (n - 1)%nat by lia.
  unfold lll_grid. rewrite (seq_split_last n) by lia. rewrite !map_app. cbn [map].
  replace (n - 1)%nat with (length (map (fun i => Fin (lll_val a b k i)) (seq 0 (n - 1)))) at 3
    by now rewrite map_length, seq_length.
  rewrite lset_last. f_equal.
  - rewrite map_map. apply map_ext_in. intros i Hi. apply in_seq in Hi. unfold lll_el.
    rewrite (proj2 (Nat.eqb_neq i (n - 1))) by lia. reflexivity.
  - unfold lll_el. now rewrite Nat.eqb_refl.
Qed.

(** sizes that are a multiple of three *)
Lemma div3 k : (3 * k / 3 = k)%nat.
Proof. rewrite Nat.mul_comm. apply Nat.div_mul. lia. Qed.

Lemma lll_third a b k i : 0 < b -> (2 <= k)%nat -> (2 * k <= i < 3 * k)%nat -> (Z.of_nat k < 2^62)%Z ->
  lll_el a b (3 * k) i = b * Rpower (9 / 10) (INR (3 * k - 1 - i) / INR (k - 1)).
Proof.
  intros Hb Hk Hi Hbig. unfold lll_el. rewrite div3.
  destruct (Nat.eqb_spec i (3 * k - 1)) as [->|Hne].
  - rewrite Nat.sub_diag. cbn [INR]. unfold Rdiv at 2. rewrite Rmult_0_l, Rpower_O by lra. lra.
  - unfold lll_val. rewrite (proj2 (Nat.ltb_ge i k)), (proj2 (Nat.ltb_ge i (2 * k))) by lia.
    rewrite (wrap64_small (Z.of_nat k - 1)), wrap64_small by lia.
    unfold Rpower. do 2 f_equal.
    replace (IZR (Z.of_nat k - 1 - (Z.of_nat i - 2 * Z.of_nat k))) with (INR (3 * k - 1 - i))
      by (rewrite INR_IZR_INZ; f_equal; lia).
    replace (b * (9 / 10) / b) with (9 / 10) by (field; lra).
    unfold Rdiv. ring.
Qed.

Lemma lll_second a b k i : (2 <= k)%nat -> (k <= i < 2 * k)%nat ->
  lll_el a b (3 * k) i = b / 10 + INR (i - k) * (8 * b / 10 / INR k).
Proof.
  intros Hk Hi. unfold lll_el. rewrite div3.
  rewrite (proj2 (Nat.eqb_neq i (3 * k - 1))) by lia.
  unfold lll_val. rewrite (proj2 (Nat.ltb_ge i k)), (proj2 (Nat.ltb_lt i (2 * k))) by lia.
  assert (0 < INR k) by (apply lt_0_INR; lia). field. lra.
Qed.

Lemma lll_first a b k i : 0 < a -> 0 < b -> (2 <= k)%nat -> (i < k)%nat ->
  lll_el a b (3 * k) i = a * Rpower (b / 10 / a) (INR i / INR k).
Proof.
  intros Ha Hb Hk Hi. unfold lll_el. rewrite div3.
  rewrite (proj2 (Nat.eqb_neq i (3 * k - 1))) by lia.
  unfold lll_val. rewrite (proj2 (Nat.ltb_lt i k)) by lia.
  unfold Rpower. do 2 f_equal. replace (b * (1 / 10) / a) with (b / 10 / a) by (field; lra).
  unfold Rdiv. ring.
Qed.

Lemma succ_increasing xs : (forall i, (S i < length xs)%nat -> el xs i < el xs (S i)) ->
  strictly_increasing xs.
Proof.
  intros H i j [Hij Hj]. induction j as [|j IH]; [lia|].
  destruct (Nat.eq_dec i j) as [->|Hne]; [apply H, Hj|].
  apply Rlt_trans with (el xs j); [apply IH; lia|apply H, Hj].
Qed.

Lemma lll_increasing a b k : 0 < a < b / 10 -> (2 <= k)%nat -> (Z.of_nat k < 2^62)%Z ->
  strictly_increasing (lll_grid a b (3 * k)).
Proof.
  intros Hab Hk Hbig. apply succ_increasing. rewrite lll_grid_length. intros i Hi.
  rewrite !lll_grid_el by lia.
  assert (Hkp : 0 < INR k) by (apply lt_0_INR; lia).
  assert (Hk1 : 0 < INR (k - 1)) by (apply lt_0_INR; lia).
  assert (Hr : 1 < b / 10 / a) by (apply ratio_gt_1; lra).
  destruct (le_lt_dec k i) as [H1|H1].
  - destruct (le_lt_dec (2 * k) i) as [H2|H2].
    + rewrite !lll_third by (lia || lra). apply Rmult_lt_compat_l; [lra|].
      unfold Rpower. apply exp_increasing.
      assert (Hln : ln (9 / 10) < 0) by (rewrite <- ln_1; apply ln_increasing; lra).
      replace (3 * k - 1 - i)%nat with (S (3 * k - 1 - S i)) by lia. rewrite S_INR.
      assert (0 < / INR (k - 1)) by now apply Rinv_0_lt_compat.
      unfold Rdiv. nra.
    + destruct (Nat.eq_dec (S i) (2 * k)) as [Hs|Hs].
      * rewrite (lll_third _ _ _ (S i)), lll_second by (lia || lra).
        replace (3 * k - 1 - S i)%nat with (k - 1)%nat by lia.
        replace (INR (k - 1) / INR (k - 1)) with 1 by (field; lra). rewrite Rpower_1 by lra.
        replace (INR (i - k)) with (INR k - 1) by (replace (i - k)%nat with (k - 1)%nat by lia; rewrite minus_INR by lia; reflexivity).
        replace ((INR k - 1) * (8 * b / 10 / INR k)) with (8 * b / 10 - 8 * b / 10 / INR k) by (field; lra).
        assert (0 < 8 * b / 10 / INR k) by (apply Rdiv_lt_0_compat; lra). lra.
      * rewrite !lll_second by lia. replace (S i - k)%nat with (S (i - k)) by lia. rewrite S_INR.
        assert (0 < 8 * b / 10 / INR k) by (apply Rdiv_lt_0_compat; lra). lra.
  - destruct (Nat.eq_dec (S i) k) as [Hs|Hs].
    + rewrite lll_first, lll_second by (lia || lra). rewrite Hs, Nat.sub_diag. cbn [INR]. rewrite Rmult_0_l, Rplus_0_r.
      apply Rlt_le_trans with (a * Rpower (b / 10 / a) 1).
      * apply Rmult_lt_compat_l; [lra|]. apply Rpower_lt; [exact Hr|].
        assert (INR i < INR k) by (apply lt_INR; lia).
        apply Rmult_lt_reg_r with (INR k); [lra|]. unfold Rdiv. rewrite Rmult_assoc, Rinv_l by lra. lra.
      * rewrite Rpower_1 by lra. apply Req_le. field. lra.
    + rewrite !lll_first by (lia || lra). apply Rmult_lt_compat_l; [lra|]. apply Rpower_lt; [exact Hr|].
      rewrite S_INR. assert (0 < / INR k) by now apply Rinv_0_lt_compat. unfold Rdiv. nra.
Qed.

Lemma lll_spec tg a b k : 0 < a < b / 10 -> (2 <= k)%nat -> (Z.of_nat k < 2^62)%Z ->
  exists xs, @generate_log_lin_log_spaced_vec (RX tg) (Fin a) (Fin b) (Z.of_nat (3 * k)) = Ret (map Fin xs) /\
    length xs = (3 * k)%nat /\ strictly_increasing xs /\
    el xs 0 = a /\ el xs k = b / 10 /\ el xs (2 * k) = 9 * b / 10 /\ el xs (3 * k - 1) = b /\
    (forall i, (S i < k)%nat -> el xs (S i) = el xs i * Rpower (b / 10 / a) (1 / INR k)) /\
    (forall i, (k <= i)%nat -> (S i < 2 * k)%nat -> el xs (S i) - el xs i = 8 * b / 10 / INR k) /\
    (forall i, (2 * k <= i)%nat -> (S i < 3 * k)%nat ->
       el xs i = el xs (S i) * Rpower (9 / 10) (1 / INR (k - 1))).
Proof.
  intros Hab Hk Hbig. exists (lll_grid a b (3 * k)).
  assert (Hkp : 0 < INR k) by (apply lt_0_INR; lia).
  assert (Hk1 : 0 < INR (k - 1)) by (apply lt_0_INR; lia).
  repeat split.
  - apply lll_eq; (lra || lia).
  - apply lll_grid_length.
  - now apply lll_increasing.
  - rewrite lll_grid_el, lll_first by (lia || lra). cbn [INR]. unfold Rdiv at 3. rewrite Rmult_0_l, Rpower_O; [lra|].
    apply Rdiv_lt_0_compat; lra.
  - rewrite lll_grid_el, lll_second by lia. rewrite Nat.sub_diag. cbn [INR]. lra.
  - rewrite lll_grid_el, lll_third by (lia || lra). replace (3 * k - 1 - 2 * k)%nat with (k - 1)%nat by lia.
    replace (INR (k - 1) / INR (k - 1)) with 1 by (field; lra). rewrite Rpower_1 by lra. lra.
  - rewrite lll_grid_el by lia. unfold lll_el. now rewrite Nat.eqb_refl.
  - intros i Hi. rewrite !lll_grid_el, !lll_first by (lia || lra). rewrite Rmult_assoc, <- Rpower_plus.
    do 2 f_equal. rewrite S_INR. field. lra.
  - intros i Hi Hi2. rewrite !lll_grid_el, !lll_second by lia. replace (S i - k)%nat with (S (i - k)) by lia.
    rewrite S_INR. lra.
  - intros i Hi Hi2. rewrite !lll_grid_el, !lll_third by (lia || lra). rewrite Rmult_assoc, <- Rpower_plus.
    do 2 f_equal. replace (3 * k - 1 - i)%nat with (S (3 * k - 1 - S i)) by lia. rewrite S_INR. field. lra.
Qed.

(** other sizes: the points are not increasing *)
Lemma lll_bad_size tg a b k r : 0 < a < b / 10 -> (2 <= k)%nat -> (Z.of_nat k < 2^62)%Z -> (r = 1 \/ r = 2)%nat ->
  exists xs, @generate_log_lin_log_spaced_vec (RX tg) (Fin a) (Fin b) (Z.of_nat (3 * k + r)) = Ret (map Fin xs) /\
    length xs = (3 * k + r)%nat /\ ~ strictly_increasing xs /\
    (r = 2%nat -> el xs (3 * k) < el xs (3 * k - 1)).
Proof.
  intros Hab Hk Hbig Hr. exists (lll_grid a b (3 * k + r)).
  assert (Hk1 : 0 < INR (k - 1)) by (apply lt_0_INR; lia).
  assert (D : ((3 * k + r) / 3 = k)%nat).
  { rewrite Nat.mul_comm, Nat.div_add_l by lia. rewrite (Nat.div_small r) by lia. lia. }
  assert (E : el (lll_grid a b (3 * k + r)) (3 * k - 1) = b).
  { rewrite lll_grid_el by lia. unfold lll_el. rewrite D.
    rewrite (proj2 (Nat.eqb_neq (3 * k - 1) (3 * k + r - 1))) by lia.
    unfold lll_val. rewrite (proj2 (Nat.ltb_ge (3 * k - 1) k)), (proj2 (Nat.ltb_ge (3 * k - 1) (2 * k))) by lia.
    rewrite (wrap64_small (Z.of_nat k - 1)), wrap64_small by lia.
    replace (Z.of_nat k - 1 - (Z.of_nat (3 * k - 1) - 2 * Z.of_nat k))%Z with 0%Z by lia.
    unfold Rdiv at 1. rewrite !Rmult_0_l, exp_0. lra. }
  assert (F : r = 2%nat -> el (lll_grid a b (3 * k + r)) (3 * k) < b).
  { intros ->. rewrite lll_grid_el by lia. unfold lll_el. rewrite D.
    rewrite (proj2 (Nat.eqb_neq (3 * k) (3 * k + 2 - 1))) by lia.
    unfold lll_val. rewrite (proj2 (Nat.ltb_ge (3 * k) k)), (proj2 (Nat.ltb_ge (3 * k) (2 * k))) by lia.
    rewrite (wrap64_small (Z.of_nat k - 1)) by lia.
    replace (Z.of_nat k - 1 - (Z.of_nat (3 * k) - 2 * Z.of_nat k))%Z with (-1)%Z by lia.
    change (wrap64 (-1)) with 18446744073709551615%Z.
    replace (b * (9 / 10) / b) with (9 / 10) by (field; lra).
    rewrite <- (Rmult_1_r b) at 2. apply Rmult_lt_compat_l; [lra|]. rewrite <- exp_0.
    apply exp_increasing.
    assert (Hln : ln (9 / 10) < 0) by (rewrite <- ln_1; apply ln_increasing; lra).
    assert (0 < / INR (k - 1)) by now apply Rinv_0_lt_compat.
    unfold Rdiv. nra. }
  repeat split.
  - apply lll_eq; (lra || lia).
  - apply lll_grid_length.
  - intros Hinc. specialize (Hinc (3 * k - 1)%nat (3 * k)%nat). rewrite lll_grid_length in Hinc.
    specialize (Hinc ltac:(lia)). rewrite E in Hinc. destruct Hr as [->| ->].
    + rewrite lll_grid_el in Hinc by lia. unfold lll_el in Hinc.
      rewrite (proj2 (Nat.eqb_eq (3 * k) (3 * k + 1 - 1))) in Hinc by lia. lra.
    + specialize (F eq_refl). lra.
  - intros H2. rewrite E. now apply F.
Qed.
