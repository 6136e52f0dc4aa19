(** Proofs about Utilities.v. *)
From Coq Require Import ZArith Reals List Bool Lia Lra.
From Verif Require Import Cxx Num NumRX Utilities LookupTables CxxLemmas RXLemmas Spec.
Import ListNotations.

(** ** upper bound *)
Section UB.
Local Open Scope Z_scope.
Context {N : NumOps}.

Lemma ub_loop_spec (v : list (num N)) (val : num N) : forall fuel first count,
  0 <= first -> 0 <= count -> first + count <= zlen v -> count < Z.of_nat fuel ->
  (0 < first -> exists x, nth_error v (Z.to_nat (first - 1)) = Some x /\ n_lt val x = false) ->
  (first + count < zlen v -> exists x, nth_error v (Z.to_nat (first + count)) = Some x /\ n_lt val x = true) ->
  exists r, ub_loop v val fuel first count = Ret r /\ 0 <= r <= zlen v /\
    (0 < r -> exists x, nth_error v (Z.to_nat (r - 1)) = Some x /\ n_lt val x = false) /\
    (r < zlen v -> exists x, nth_error v (Z.to_nat r) = Some x /\ n_lt val x = true).
Proof.
  induction fuel as [|f IH]; intros first count Hf Hc Hle Hfuel Hlo Hhi; [lia|].
  cbn [ub_loop]. destruct (0 <? count) eqn:E; cbn.
  - apply Z.ltb_lt in E.
    assert (Hs : 0 <= count / 2 < count) by (split; [apply Z.div_pos; lia|apply Z.div_lt; lia]).
    destruct (zget_cases v (first + count / 2)) as [(x & Hr & Hn & ->)|[Hn _]]; [|lia].
    cbn. destruct (n_lt val x) eqn:Ex; cbn.
    + apply IH; try lia; auto. intros _. exists x; auto.
    + apply IH; try lia.
      * intros _. exists x. replace (first + count / 2 + 1 - 1) with (first + count / 2) by lia. auto.
      * replace (first + count / 2 + 1 + (count - (count / 2 + 1))) with (first + count) by lia. auto.
  - apply Z.ltb_ge in E. assert (count = 0) by lia. subst count.
    exists first. rewrite Z.add_0_r in *. repeat split; auto; lia.
Qed.

Lemma upper_bound_any (v : list (num N)) (val : num N) :
  exists r, picsar_upper_bound v val = Ret r /\ 0 <= r <= zlen v /\
    (forall x, 0 < r -> nth_error v (Z.to_nat (r - 1)) = Some x -> n_lt val x = false) /\
    (forall x, nth_error v (Z.to_nat r) = Some x -> n_lt val x = true).
Proof.
  destruct (ub_loop_spec v val (S (length v)) 0 (zlen v)) as (r & H1 & H2 & H3 & H4);
    try (unfold zlen in *; lia).
  exists r. split; [exact H1|]. split; [exact H2|]. split.
  - intros x Hr Hx. destruct (H3 Hr) as (y & Hy & Hyl). congruence.
  - intros x Hx. assert (Hlt : r < zlen v).
    { assert (Z.to_nat r < length v)%nat by (apply nth_error_Some; congruence). unfold zlen. lia. }
    destruct (H4 Hlt) as (y & Hy & Hyl). congruence.
Qed.

(** If the comparison splits the range at [k], the result is [k]. *)
Lemma upper_bound_partitioned (v : list (num N)) (val : num N) k :
  (k <= length v)%nat ->
  (forall i x, (i < k)%nat -> nth_error v i = Some x -> n_lt val x = false) ->
  (forall i x, (k <= i)%nat -> nth_error v i = Some x -> n_lt val x = true) ->
  picsar_upper_bound v val = Ret (Z.of_nat k).
Proof.
  intros Hk Hlo Hhi.
  destruct (upper_bound_any v val) as (r & H1 & H2 & H3 & H4).
  rewrite H1. f_equal. unfold zlen in H2.
  destruct (Z.lt_trichotomy r (Z.of_nat k)) as [Hr|[Hr|Hr]]; [|exact Hr|].
  - exfalso. destruct (nth_error v (Z.to_nat r)) eqn:E.
    + specialize (Hlo (Z.to_nat r) n ltac:(lia) E).
      rewrite (H4 _ eq_refl) in Hlo. discriminate.
    + apply nth_error_None in E. lia.
  - exfalso. destruct (nth_error v (Z.to_nat (r - 1))) eqn:E.
    + specialize (H3 _ ltac:(lia) eq_refl). specialize (Hhi (Z.to_nat (r-1)) n ltac:(lia) E). congruence.
    + apply nth_error_None in E. lia.
Qed.
End UB.

Local Open Scope R_scope.

Lemma nth_error_map_Fin xs i :
  (i < length xs)%nat -> nth_error (map Fin xs) i = Some (Fin (el xs i)).
Proof.
  intros H. rewrite nth_error_map. unfold el. now rewrite (nth_error_nth' xs 0) by exact H.
Qed.

Lemma nth_error_map_Fin_inv xs i x :
  nth_error (map Fin xs) i = Some x -> (i < length xs)%nat /\ x = Fin (el xs i).
Proof.
  intros H. assert (Hi : (i < length xs)%nat).
  { rewrite <- (map_length Fin). apply nth_error_Some. congruence. }
  split; [exact Hi|]. rewrite nth_error_map_Fin in H by exact Hi. congruence.
Qed.

(** Any non-decreasing real range: position of the first element greater than w. *)
Lemma upper_bound_sorted tg (xs : list R) (w : R) :
  nondecreasing xs ->
  exists k, (k <= length xs)%nat /\
    @picsar_upper_bound (RX tg) (map Fin xs) (Fin w) = Ret (Z.of_nat k) /\
    (forall i, (i < k)%nat -> el xs i <= w) /\
    (forall i, (k <= i < length xs)%nat -> w < el xs i).
Proof.
  intros Hs.
  destruct (@upper_bound_any (RX tg) (map Fin xs) (Fin w)) as (r & H1 & H2 & H3 & H4).
  rewrite zlen_map in H2. unfold zlen in H2.
  exists (Z.to_nat r). rewrite Z2Nat.id by lia. split; [lia|]. split; [exact H1|]. split.
  - intros i Hi.
    assert (Hr1 : (Z.to_nat (r - 1) < length xs)%nat) by lia.
    specialize (H3 (Fin (el xs (Z.to_nat (r - 1)))) ltac:(lia) (nth_error_map_Fin xs _ Hr1)).
    cbn in H3. destruct (Rltb_spec w (el xs (Z.to_nat (r - 1)))) as [|Hge]; [discriminate|].
    destruct (Nat.eq_dec i (Z.to_nat (r - 1))) as [->|Hne]; [lra|].
    specialize (Hs i (Z.to_nat (r - 1)) ltac:(lia)). lra.
  - intros i Hi.
    assert (Hr1 : (Z.to_nat r < length xs)%nat) by lia.
    specialize (H4 (Fin (el xs (Z.to_nat r))) (nth_error_map_Fin xs _ Hr1)).
    cbn in H4. destruct (Rltb_spec w (el xs (Z.to_nat r))) as [Hlt|]; [|discriminate].
    destruct (Nat.eq_dec i (Z.to_nat r)) as [->|Hne]; [lra|].
    specialize (Hs (Z.to_nat r) i ltac:(lia)). lra.
Qed.

Lemma strictly_increasing_nondecreasing xs : strictly_increasing xs -> nondecreasing xs.
Proof. intros H i j Hij. apply Rlt_le, H, Hij. Qed.

(** ** grids *)

Lemma zseq_map_R {B} (f : Z -> B) n : map f (zseq n) = map (fun i => f (Z.of_nat i)) (seq 0 n).
Proof. unfold zseq. now rewrite map_map. Qed.

Definition lin_grid (a b : R) (n : nat) : list R :=
  map (fun i => a + INR i * ((b - a) / INR (n - 1))) (seq 0 n).

Lemma lin_grid_length a b n : length (lin_grid a b n) = n.
Proof. unfold lin_grid. now rewrite map_length, seq_length. Qed.

Lemma lin_grid_el a b n i : (i < n)%nat -> el (lin_grid a b n) i = a + INR i * ((b - a) / INR (n - 1)).
Proof.
  intros H. unfold el, lin_grid.
  rewrite nth_indep with (d' := (fun i => a + INR i * ((b - a) / INR (n - 1))) 0%nat)
    by (rewrite map_length, seq_length; lia).
  rewrite (map_nth (fun i => a + INR i * ((b - a) / INR (n - 1)))).
  now rewrite seq_nth by lia.
Qed.

Lemma seq_split_last n : (1 <= n)%nat -> seq 0 n = seq 0 (n - 1) ++ [(n - 1)%nat].
Proof. intros. replace n with (S (n - 1)) at 1 by lia. now rewrite seq_S. Qed.

Lemma INR_pos_n n : (2 <= n)%nat -> 0 < INR (n - 1).
Proof. intros. apply lt_0_INR. lia. Qed.

Lemma lin_spaced_eq tg a b n : a < b -> (2 <= n)%nat ->
  @generate_lin_spaced_vec (RX tg) (Fin a) (Fin b) (Z.of_nat n) = map Fin (lin_grid a b n).
Proof.
  intros Hab Hn. unfold generate_lin_spaced_vec. cbn [n_le RX x_le].
  rewrite Rleb_false by lra. replace (Z.of_nat n <? 2)%Z with false by (symmetry; apply Z.ltb_ge; lia).
  cbn [orb]. unfold lin_grid. rewrite (seq_split_last n) by lia.
  rewrite map_app, map_app. replace (Z.to_nat (Z.of_nat n - 1)) with (n - 1)%nat by lia.
  assert (Hpos := INR_pos_n n Hn).
  f_equal.
  - rewrite zseq_map_R, map_map. apply map_ext_in. intros i Hi. cbn.
    replace (IZR (Z.of_nat n) - 1) with (INR (n - 1))
      by (rewrite <- INR_IZR_INZ, minus_INR by lia; cbn; lra).
    destruct (Req_EM_T (INR (n - 1)) 0); [lra|]. cbn. f_equal. rewrite <- INR_IZR_INZ. field. lra.
  - cbn. f_equal. f_equal. field. lra.
Qed.

Lemma lin_grid_step a b n i : (2 <= n)%nat -> (S i < n)%nat ->
  el (lin_grid a b n) (S i) - el (lin_grid a b n) i = (b - a) / INR (n - 1).
Proof. intros. rewrite !lin_grid_el by lia. rewrite S_INR. lra. Qed.

Lemma lin_grid_increasing a b n : (2 <= n)%nat -> a < b -> strictly_increasing (lin_grid a b n).
Proof.
  intros Hn Hab i j Hij. rewrite lin_grid_length in Hij. rewrite !lin_grid_el by lia.
  assert (0 < (b - a) / INR (n - 1)) by (apply Rdiv_lt_0_compat; [lra|apply INR_pos_n; lia]).
  assert (INR i < INR j) by (apply lt_INR; lia). nra.
Qed.

Lemma lin_grid_equispaced a b n : (2 <= n)%nat -> a < b -> equispaced (lin_grid a b n).
Proof.
  intros Hn Hab. exists ((b - a) / INR (n - 1)). split.
  - apply Rdiv_lt_0_compat; [lra|apply INR_pos_n; lia].
  - intros i Hi. rewrite lin_grid_length in Hi. rewrite !lin_grid_el by lia. cbn. lra.
Qed.

Lemma lin_grid_first a b n : (2 <= n)%nat -> el (lin_grid a b n) 0 = a.
Proof. intros. rewrite lin_grid_el by lia. cbn. lra. Qed.

Lemma lin_grid_last a b n : (2 <= n)%nat -> el (lin_grid a b n) (n - 1) = b.
Proof. intros Hn. rewrite lin_grid_el by lia. pose proof (INR_pos_n n Hn). field. lra. Qed.

(** logarithmic grids *)
Definition log_grid (a b : R) (n : nat) : list R :=
  map (fun i => a * Rpower (b / a) (INR i / INR (n - 1))) (seq 0 n).

Lemma log_grid_length a b n : length (log_grid a b n) = n.
Proof. unfold log_grid. now rewrite map_length, seq_length. Qed.

Lemma log_grid_el a b n i : (i < n)%nat ->
  el (log_grid a b n) i = a * Rpower (b / a) (INR i / INR (n - 1)).
Proof.
  intros H. unfold el, log_grid.
  rewrite nth_indep with (d' := (fun i => a * Rpower (b / a) (INR i / INR (n - 1))) 0%nat)
    by (rewrite map_length, seq_length; lia).
  rewrite (map_nth (fun i => a * Rpower (b / a) (INR i / INR (n - 1)))).
  now rewrite seq_nth by lia.
Qed.

Lemma log_fill_eq tg m : forall v mul,
  @log_fill (RX tg) m (Fin v) (Fin mul) = map (fun i => Fin (v * mul ^ i)) (seq 0 m).
Proof.
  induction m as [|m IH]; intros v mul; [reflexivity|].
  cbn [log_fill seq map]. change (@n_mul (RX tg) (Fin v) (Fin mul)) with (Fin (v * mul)).
  rewrite IH. f_equal; [cbn; f_equal; lra|].
  rewrite <- seq_shift, map_map. apply map_ext. intros i. cbn. f_equal. lra.
Qed.

Lemma Rpower_div_pos a b : 0 < a -> 0 < b -> 0 < b / a.
Proof. intros. apply Rdiv_lt_0_compat; lra. Qed.

Lemma log_spaced_eq tg a b n : 0 < a < b -> (2 <= n)%nat ->
  @generate_log_spaced_vec (RX tg) (Fin a) (Fin b) (Z.of_nat n) = map Fin (log_grid a b n).
Proof.
  intros Hab Hn. unfold generate_log_spaced_vec. cbn [n_le n_lt n_lit RX x_le x_lt x_lit].
  rewrite Rleb_false by lra. rewrite !Rltb_false by lra.
  replace (Z.of_nat n <? 2)%Z with false by (symmetry; apply Z.ltb_ge; lia).
  cbn [orb]. unfold log_grid. rewrite (seq_split_last n) by lia.
  rewrite map_app, map_app. replace (Z.to_nat (Z.of_nat n - 1)) with (n - 1)%nat by lia.
  assert (Hpos := INR_pos_n n Hn).
  assert (Hba : 0 < b / a) by (apply Rpower_div_pos; lra).
  assert (Emul : @n_pow (RX tg) (@n_div (RX tg) (Fin b) (Fin a))
     (@n_div (RX tg) (Fin 1) (n_of_Z (Z.of_nat n - 1)))
     = Fin (Rpower (b / a) (1 / INR (n - 1)))).
  { cbn [n_pow n_div n_of_Z RX].
    rewrite x_div_fin by lra.
    replace (IZR (Z.of_nat n - 1)) with (INR (n - 1))
      by (rewrite minus_INR, INR_IZR_INZ, minus_IZR by lia; reflexivity).
    rewrite x_div_fin by lra. now rewrite x_pow_fin by exact Hba. }
  rewrite Emul. f_equal.
  - rewrite log_fill_eq, map_map. apply map_ext. intros i. do 2 f_equal.
    rewrite <- Rpower_pow by apply exp_pos. rewrite Rpower_mult. f_equal. field. lra.
  - cbn. f_equal. f_equal.
    replace (INR (n - 1) / INR (n - 1)) with 1 by (field; lra).
    rewrite Rpower_1 by exact Hba. field. lra.
Qed.

Lemma log_grid_pos a b n i : 0 < a -> (i < n)%nat -> 0 < el (log_grid a b n) i.
Proof. intros Ha Hi. rewrite log_grid_el by exact Hi. apply Rmult_lt_0_compat; [lra|apply exp_pos]. Qed.

Lemma log_grid_ratio a b n i : 0 < a < b -> (2 <= n)%nat -> (S i < n)%nat ->
  el (log_grid a b n) (S i) = el (log_grid a b n) i * Rpower (b / a) (1 / INR (n - 1)).
Proof.
  intros Hab Hn Hi. rewrite !log_grid_el by lia. rewrite S_INR.
  assert (Hpos := INR_pos_n n Hn).
  rewrite Rmult_assoc, <- Rpower_plus. do 2 f_equal. field. lra.
Qed.

Lemma log_grid_first a b n : (2 <= n)%nat -> 0 < a < b -> el (log_grid a b n) 0 = a.
Proof.
  intros Hn Hab. rewrite log_grid_el by lia. cbn [INR].
  unfold Rdiv at 2. rewrite Rmult_0_l, Rpower_O by (apply Rpower_div_pos; lra). lra.
Qed.

Lemma log_grid_last a b n : (2 <= n)%nat -> 0 < a < b -> el (log_grid a b n) (n - 1) = b.
Proof.
  intros Hn Hab. rewrite log_grid_el by lia. pose proof (INR_pos_n n Hn).
  replace (INR (n - 1) / INR (n - 1)) with 1 by (field; lra).
  rewrite Rpower_1 by (apply Rpower_div_pos; lra). field. lra.
Qed.

Lemma ratio_gt_1 a b : 0 < a < b -> 1 < b / a.
Proof. intros. apply Rmult_lt_reg_r with a; [lra|]. unfold Rdiv. rewrite Rmult_assoc, Rinv_l by lra. lra. Qed.

Lemma log_grid_increasing a b n : (2 <= n)%nat -> 0 < a < b -> strictly_increasing (log_grid a b n).
Proof.
  intros Hn Hab i j Hij. rewrite log_grid_length in Hij. rewrite !log_grid_el by lia.
  apply Rmult_lt_compat_l; [lra|]. apply Rpower_lt; [apply ratio_gt_1; lra|].
  assert (Hpos := INR_pos_n n Hn). assert (INR i < INR j) by (apply lt_INR; lia).
  unfold Rdiv. apply Rmult_lt_compat_r; [now apply Rinv_0_lt_compat|lra].
Qed.

(** the logarithms of a logarithmic grid are a linear grid *)
Lemma log_grid_ln a b n i : 0 < a < b -> (2 <= n)%nat -> (i < n)%nat ->
  ln (el (log_grid a b n) i) = ln a + INR i * ((ln b - ln a) / INR (n - 1)).
Proof.
  intros Hab Hn Hi. rewrite log_grid_el by exact Hi.
  rewrite ln_mult by (try apply exp_pos; lra).
  unfold Rpower. rewrite ln_exp. unfold Rdiv at 2. rewrite ln_mult, ln_Rinv by (try apply Rinv_0_lt_compat; lra).
  pose proof (INR_pos_n n Hn). field. lra.
Qed.

Lemma log_grid_ln_map a b n : 0 < a < b -> (2 <= n)%nat ->
  map ln (log_grid a b n) = lin_grid (ln a) (ln b) n.
Proof.
  intros Hab Hn. apply nth_ext with (d := ln 0) (d' := 0).
  - now rewrite map_length, log_grid_length, lin_grid_length.
  - intros i Hi. rewrite map_length, log_grid_length in Hi.
    rewrite map_nth. fold (el (log_grid a b n) i). rewrite log_grid_ln by auto.
    fold (el (lin_grid (ln a) (ln b) n) i). now rewrite lin_grid_el by exact Hi.
Qed.

Lemma map_log_Fin tg xs : (forall i, (i < length xs)%nat -> 0 < el xs i) ->
  map (@n_log (RX tg)) (map Fin xs) = map Fin (map ln xs).
Proof.
  intros H. rewrite !map_map. apply map_ext_in. intros x Hx.
  destruct (In_nth xs x 0 Hx) as (i & Hi & <-). apply x_log_fin. apply (H i Hi).
Qed.

Lemma log_coords_eq tg a b n : 0 < a < b -> (2 <= n)%nat ->
  map (@n_log (RX tg)) (@generate_log_spaced_vec (RX tg) (Fin a) (Fin b) (Z.of_nat n))
  = map Fin (lin_grid (ln a) (ln b) n).
Proof.
  intros Hab Hn. rewrite log_spaced_eq by auto.
  rewrite map_log_Fin.
  - now rewrite log_grid_ln_map by auto.
  - intros i Hi. rewrite log_grid_length in Hi. apply log_grid_pos; [lra|exact Hi].
Qed.

(** every arithmetic: size, first and last element of a grid *)
Lemma log_fill_length {N} m (v mul : num N) : length (log_fill m v mul) = m.
Proof. revert v; induction m; intros; cbn; auto. Qed.

Lemma log_spaced_shape {N : NumOps} (a b : num N) n : (2 <= n)%Z ->
  n_le b a = false -> n_lt a (n_lit 0 0) = false -> n_lt b (n_lit 0 0) = false ->
  let v := generate_log_spaced_vec a b n in
  zlen v = n /\ nth_error v 0 = Some a /\ nth_error v (Z.to_nat (n - 1)) = Some b.
Proof.
  intros Hn H1 H2 H3. unfold generate_log_spaced_vec. rewrite H1, H2, H3.
  replace (n <? 2)%Z with false by (symmetry; apply Z.ltb_ge; lia). cbn [orb]. cbn zeta.
  split; [|split].
  - rewrite zlen_app. unfold zlen. rewrite log_fill_length. cbn. lia.
  - destruct (Z.to_nat (n - 1)) eqn:E; [lia|]. reflexivity.
  - rewrite nth_error_app2; rewrite log_fill_length; [|lia].
    now rewrite Nat.sub_diag.
Qed.

Lemma lin_spaced_shape {N : NumOps} (a b : num N) n : (2 <= n)%Z -> n_le b a = false ->
  let v := generate_lin_spaced_vec a b n in
  zlen v = n /\ nth_error v (Z.to_nat (n - 1)) = Some b.
Proof.
  intros Hn H1. unfold generate_lin_spaced_vec. rewrite H1.
  replace (n <? 2)%Z with false by (symmetry; apply Z.ltb_ge; lia). cbn [orb]. cbn zeta.
  split.
  - rewrite zlen_app, zlen_map. unfold zlen. rewrite zseq_length. cbn. lia.
  - rewrite nth_error_app2; rewrite map_length, zseq_length; [|lia].
    now rewrite Nat.sub_diag.
Qed.

(** ** Poisson *)
Lemma exp_series l : Un_cv (fun n => sum_f_R0 (fun i => l ^ i / INR (fact i)) n) (exp l).
Proof.
  unfold exp. destruct (exist_exp l) as [e He]. cbn.
  unfold exp_in, infinite_sum in He. intros eps Heps.
  destruct (He eps Heps) as [n0 H0]. exists n0. intros n Hn.
  rewrite (sum_eq _ (fun i => / INR (fact i) * l ^ i)); [exact (H0 n Hn)|].
  intros i _. unfold Rdiv. apply Rmult_comm.
Qed.

Lemma poisson_cdf_scal l k : poisson_cdf l k = exp (- l) * sum_f_R0 (fun i => l ^ i / INR (fact i)) k.
Proof.
  unfold poisson_cdf. rewrite scal_sum. apply sum_eq. intros. apply Rmult_comm.
Qed.

Lemma poisson_cdf_cv l : Un_cv (poisson_cdf l) 1.
Proof.
  assert (H : Un_cv (fun n => exp (- l) * sum_f_R0 (fun i => l ^ i / INR (fact i)) n) (exp (- l) * exp l)).
  { apply CV_mult; [|apply exp_series]. intros eps Heps. exists 0%nat. intros n _.
    unfold R_dist. rewrite Rminus_diag_eq, Rabs_R0 by reflexivity. exact Heps. }
  rewrite <- exp_plus, Rplus_opp_l, exp_0 in H.
  intros eps Heps. destruct (H eps Heps) as [n0 H0]. exists n0. intros n Hn.
  rewrite poisson_cdf_scal. apply (H0 n Hn).
Qed.

Definition poisson_term (l : R) (k : nat) : R := exp (- l) * (l ^ k / INR (fact k)).

Lemma poisson_term_S l k : poisson_term l (S k) = poisson_term l k * l / INR (S k).
Proof.
  unfold poisson_term. cbn [fact pow]. rewrite <- (Nat.mul_comm (fact k)) at 1.
  change (fact k + k * fact k)%nat with (S k * fact k)%nat. rewrite mult_INR.
  field. split; [apply INR_fact_neq_0|apply not_0_INR; lia].
Qed.

Lemma poisson_term_pos l k : 0 < l -> 0 < poisson_term l k.
Proof.
  intros. unfold poisson_term. apply Rmult_lt_0_compat; [apply exp_pos|].
  apply Rdiv_lt_0_compat; [now apply pow_lt|apply INR_fact_lt_0].
Qed.

Lemma poisson_term_nonneg l k : 0 <= l -> 0 <= poisson_term l k.
Proof.
  intros. unfold poisson_term. apply Rmult_le_pos; [apply Rlt_le, exp_pos|].
  apply Rmult_le_pos; [now apply pow_le|apply Rlt_le, Rinv_0_lt_compat, INR_fact_lt_0].
Qed.

Lemma poisson_cdf_mono l i j : 0 <= l -> (i <= j)%nat -> poisson_cdf l i <= poisson_cdf l j.
Proof.
  intros Hl. induction 1; [lra|]. unfold poisson_cdf in *. cbn [sum_f_R0].
  pose proof (poisson_term_nonneg l (S m) Hl). unfold poisson_term in *. lra.
Qed.

(** the loop, started at step j with enough fuel, finds the quantile *)
Lemma poisson_loop_spec tg l u : 0 < l -> forall m j fuel,
  (forall i, (i < j)%nat -> poisson_cdf l i < u) ->
  u <= poisson_cdf l (j + m) -> (m < fuel)%nat ->
  exists k, @poisson_loop (RX tg) fuel (Fin l) (Fin u) (Z.of_nat j)
               (Fin (poisson_term l j)) (Fin (poisson_cdf l j)) = Ret (Z.of_nat k) /\
    u <= poisson_cdf l k /\ (forall i, (i < k)%nat -> poisson_cdf l i < u).
Proof.
  intros Hl. induction m as [|m IH]; intros j fuel Hlo Hhi Hf.
  - rewrite Nat.add_0_r in Hhi. destruct fuel; [lia|]. cbn [poisson_loop].
    change (n_lt (Fin (poisson_cdf l j) : num (RX tg)) (Fin u)) with (Rltb (poisson_cdf l j) u).
    rewrite Rltb_false by lra. exists j. auto.
  - destruct fuel as [|fuel]; [lia|]. cbn [poisson_loop].
    change (n_lt (Fin (poisson_cdf l j) : num (RX tg)) (Fin u)) with (Rltb (poisson_cdf l j) u).
    destruct (Rltb_spec (poisson_cdf l j) u) as [Hu|Hu].
    + cbn zeta.
      assert (Ep : @n_div (RX tg) (@n_mul (RX tg) (Fin (poisson_term l j)) (Fin l)) (n_of_Z (Z.of_nat j + 1))
                   = Fin (poisson_term l (S j))).
      { cbn [n_div n_mul n_of_Z RX x_mul].
        replace (IZR (Z.of_nat j + 1)) with (INR (S j)) by (rewrite plus_IZR, <- INR_IZR_INZ, S_INR; lra).
        rewrite x_div_fin by (apply not_0_INR; lia). now rewrite poisson_term_S. }
      rewrite Ep.
      assert (Es : @n_add (RX tg) (Fin (poisson_cdf l j)) (Fin (poisson_term l (S j)))
                   = Fin (poisson_cdf l (S j))) by reflexivity.
      rewrite Es.
      assert (Hlt : poisson_cdf l j < poisson_cdf l (S j)).
      { unfold poisson_cdf; cbn [sum_f_R0]. pose proof (poisson_term_pos l (S j) Hl).
        unfold poisson_term in *. lra. }
      change (n_le (Fin (poisson_cdf l (S j)) : num (RX tg)) (Fin (poisson_cdf l j)))
        with (Rleb (poisson_cdf l (S j)) (poisson_cdf l j)).
      rewrite Rleb_false by lra.
      replace (Z.of_nat j + 1)%Z with (Z.of_nat (S j)) by lia.
      apply IH; [|replace (S j + m)%nat with (j + S m)%nat by lia; exact Hhi|lia].
      intros i Hi. destruct (Nat.eq_dec i j) as [->|]; [exact Hu|apply Hlo; lia].
    + exists j. split; [reflexivity|]. split; [lra|exact Hlo].
Qed.

Lemma poisson_spec tg l u : 0 <= l -> 0 <= u < 1 ->
  exists k fuel0, (forall fuel, (fuel0 <= fuel)%nat ->
      @poisson_distrib (RX tg) fuel (Fin l) (Fin u) = Ret (Z.of_nat k)) /\
    u <= poisson_cdf l k /\ (forall i, (i < k)%nat -> poisson_cdf l i < u).
Proof.
  intros Hl Hu.
  assert (E0 : forall f, @poisson_distrib (RX tg) f (Fin l) (Fin u)
     = @poisson_loop (RX tg) f (Fin l) (Fin u) 0 (Fin (poisson_term l 0)) (Fin (poisson_cdf l 0))).
  { intros f. unfold poisson_distrib, poisson_term, poisson_cdf. cbn.
    replace (exp (- l) * (1 / 1)) with (exp (- l)) by field. reflexivity. }
  destruct Hl as [Hl|<-].
  - destruct (poisson_cdf_cv l (1 - u) ltac:(lra)) as [n0 Hn0].
    specialize (Hn0 n0 (le_n _)). unfold R_dist in Hn0. apply Rabs_def2 in Hn0.
    destruct (poisson_loop_spec tg l u Hl n0 0 (S n0)) as (k & Hk & H1 & H2);
      [intros; lia|rewrite Nat.add_0_l; lra|lia|].
    exists k, (S n0). split; [|auto]. intros fuel Hf. rewrite E0.
    destruct (poisson_loop_spec tg l u Hl n0 0 fuel) as (k' & Hk' & H1' & H2');
      [intros; lia|rewrite Nat.add_0_l; lra|lia|].
    cbn [Z.of_nat] in *. rewrite Hk'. do 2 f_equal.
    destruct (Nat.lt_trichotomy k k') as [H|[H|H]]; auto.
    + specialize (H2' k H). lra.
    + specialize (H2 k' H). lra.
  - exists 0%nat, 1%nat. split; [|split].
    + intros [|fuel] Hf; [lia|]. rewrite E0. cbn [poisson_loop].
      change (n_lt (Fin (poisson_cdf 0 0) : num (RX tg)) (Fin u)) with (Rltb (poisson_cdf 0 0) u).
      rewrite Rltb_false; [reflexivity|]. unfold poisson_cdf. cbn. rewrite Ropp_0, exp_0. lra.
    + unfold poisson_cdf. cbn. rewrite Ropp_0, exp_0. lra.
    + intros; lia.
Qed.

Lemma poisson_monotone tg l u1 u2 k1 k2 f1 f2 : 0 <= l -> 0 <= u1 <= u2 -> u2 < 1 ->
  @poisson_distrib (RX tg) f1 (Fin l) (Fin u1) = Ret k1 ->
  @poisson_distrib (RX tg) f2 (Fin l) (Fin u2) = Ret k2 -> (k1 <= k2)%Z.
Proof.
  intros Hl Hu Hu2 E1 E2.
  assert (Hf : forall f u k f', @poisson_distrib (RX tg) f (Fin l) (Fin u) = Ret k -> (f <= f')%nat ->
             @poisson_distrib (RX tg) f' (Fin l) (Fin u) = Ret k).
  { assert (HL : forall f la u kk p s r f', @poisson_loop (RX tg) f la u kk p s = Ret r -> (f <= f')%nat ->
              @poisson_loop (RX tg) f' la u kk p s = Ret r).
    { induction f as [|f IH]; intros la u kk p s r f' H Hle; [discriminate|].
      destruct f' as [|f']; [lia|]. cbn [poisson_loop] in *. destruct (n_lt s u); [|exact H].
      cbn zeta in *. destruct (n_le _ s); [exact H|]. apply (IH _ _ _ _ _ _ f' H). lia. }
    intros f u k f' H Hle. unfold poisson_distrib in *. apply (HL _ _ _ _ _ _ _ f' H Hle). }
  destruct (poisson_spec tg l u1 Hl ltac:(lra)) as (j1 & F1 & P1 & A1 & B1).
  destruct (poisson_spec tg l u2 Hl ltac:(lra)) as (j2 & F2 & P2 & A2 & B2).
  assert (k1 = Z.of_nat j1).
  { pose proof (Hf f1 u1 k1 (Nat.max f1 F1) E1 ltac:(lia)) as X. rewrite P1 in X by lia. congruence. }
  assert (k2 = Z.of_nat j2).
  { pose proof (Hf f2 u2 k2 (Nat.max f2 F2) E2 ltac:(lia)) as X. rewrite P2 in X by lia. congruence. }
  destruct (le_lt_dec j1 j2); [lia|]. specialize (B1 j2 l0). lra.
Qed.

Lemma lin_spaced_full tg a b n : a < b -> (2 <= n)%nat ->
  exists xs, @generate_lin_spaced_vec (RX tg) (Fin a) (Fin b) (Z.of_nat n) = map Fin xs /\
    length xs = n /\ el xs 0 = a /\ el xs (n - 1) = b /\ strictly_increasing xs /\
    (forall i, (S i < n)%nat -> el xs (S i) - el xs i = (b - a) / INR (n - 1)).
Proof.
  intros Hab Hn. exists (lin_grid a b n). split; [now apply lin_spaced_eq|].
  split; [apply lin_grid_length|]. split; [now apply lin_grid_first|]. split; [now apply lin_grid_last|].
  split; [now apply lin_grid_increasing|]. intros. now apply lin_grid_step.
Qed.

Lemma log_spaced_full tg a b n : 0 < a < b -> (2 <= n)%nat ->
  exists xs, @generate_log_spaced_vec (RX tg) (Fin a) (Fin b) (Z.of_nat n) = map Fin xs /\
    length xs = n /\ el xs 0 = a /\ el xs (n - 1) = b /\ strictly_increasing xs /\
    (forall i, (S i < n)%nat -> el xs (S i) = el xs i * Rpower (b / a) (1 / INR (n - 1))).
Proof.
  intros Hab Hn. exists (log_grid a b n). split; [now apply log_spaced_eq|].
  split; [apply log_grid_length|]. split; [now apply log_grid_first|]. split; [now apply log_grid_last|].
  split; [now apply log_grid_increasing|]. intros. now apply log_grid_ratio.
Qed.

Lemma lin_spaced_invalid {N : NumOps} (a b : num N) n : (n_le b a = true \/ n < 2)%Z ->
  generate_lin_spaced_vec a b n = [].
Proof.
  intros [H|H]; unfold generate_lin_spaced_vec; [now rewrite H|].
  replace (n <? 2)%Z with true by (symmetry; apply Z.ltb_lt; lia). now rewrite orb_true_r.
Qed.

Lemma log_spaced_invalid {N : NumOps} (a b : num N) n :
  (n_le b a = true \/ n_lt a (n_lit 0 0) = true \/ n_lt b (n_lit 0 0) = true \/ n < 2)%Z ->
  generate_log_spaced_vec a b n = [].
Proof.
  intros [H|[H|[H|H]]]; unfold generate_log_spaced_vec;
    [now rewrite H|now rewrite H, orb_true_r|now rewrite H, orb_true_r|].
  replace (n <? 2)%Z with true by (symmetry; apply Z.ltb_lt; lia). now rewrite orb_true_r.
Qed.

(** minimum zero is not refused, and the second point is not a number *)
Lemma log_spaced_zero tg b n : 0 < b -> (3 <= n)%nat ->
  nth_error (@generate_log_spaced_vec (RX tg) (Fin 0) (Fin b) (Z.of_nat n)) 1 = Some NaN.
Proof.
  intros Hb Hn. unfold generate_log_spaced_vec. cbn [n_le n_lt n_lit RX x_le x_lt x_lit].
  rewrite Rleb_false by lra. rewrite !Rltb_false by lra.
  replace (Z.of_nat n <? 2)%Z with false by (symmetry; apply Z.ltb_ge; lia). cbn [orb].
  replace (Z.to_nat (Z.of_nat n - 1)) with (S (S (n - 3))) by lia.
  cbn [log_fill app nth_error]. f_equal. cbn [n_mul n_pow n_div n_of_Z RX].
  assert (0 < IZR (Z.of_nat n - 1)) by (apply IZR_lt; lia).
  rewrite (x_div_fin 1) by lra. cbn [x_div]. destruct (Req_EM_T 0 0); [|lra].
  unfold sgn_inf at 1. destruct (Rlt_dec 0 b); [|lra]. cbn [x_pow].
  destruct (Rlt_dec 0 (1 / IZR (Z.of_nat n - 1))) as [|H1];
    [|exfalso; apply H1; apply Rdiv_lt_0_compat; lra].
  cbn. unfold sgn_inf. destruct (Rlt_dec 0 0); [lra|]. destruct (Rlt_dec 0 0); [lra|]. reflexivity.
Qed.

(** the true quantile of a large mean is far from 1 *)
Lemma poisson_cdf_1000 : poisson_cdf 1000 1 < 1 / 2.
Proof.
  unfold poisson_cdf. cbn [sum_f_R0 fact pow]. cbn [Nat.add Nat.mul INR]. rewrite exp_Ropp.
  assert (H : 2002 < exp 1000).
  { replace 1000 with (500 + 500) by lra. rewrite exp_plus.
    assert (501 < exp 500) by (pose proof (exp_ineq1 500 ltac:(lra)); lra). nra. }
  assert (/ exp 1000 < / 2002).
  { apply Rinv_lt_contravar; [|lra]. nra. }
  assert (0 < / exp 1000) by (apply Rinv_0_lt_compat; lra).
  lra.
Qed.
