(** Pair generation of the Breit-Wheeler engine. *)
From Coq Require Import ZArith Reals List Bool Lia Lra.
From Verif Require Import Cxx Num NumRX Utilities LookupTables VecFun Units ChiFun Oracles OmpFor BreitWheeler QuantumSync.
From Verif Require Import CxxLemmas RXLemmas Spec SpecPhys SpecQED UtilitiesProofs TableProofs ChiProofs OmpProofs.
Import ListNotations.
Local Open Scope R_scope.

(** ** the search, for every arithmetic *)
Lemma bw_search_spec {N : NumOps} (t : lookup_2d N) lw prob (f : nat -> bool) n :
  (forall j, (j < n)%nat -> exists v, interp2_linear_first_equispaced t lw (Z.of_nat j) = Ret v /\ n_lt prob (n_exp v) = f j) ->
  forall fuel first count, (count < fuel)%nat -> (first + count <= n)%nat ->
  (first = 0%nat \/ f (first - 1)%nat = false) -> (first + count = n \/ f (first + count)%nat = true)%nat ->
  exists k, bw_search t lw prob fuel (Z.of_nat first) (Z.of_nat count) = Ret (Z.of_nat k) /\ (k <= n)%nat /\
    (k = 0%nat \/ f (k - 1)%nat = false) /\ (k = n \/ f k = true).
Proof.
  intros Hcol. induction fuel as [|fuel IH]; intros first count Hf Hn H1 H2; [lia|]. cbn [bw_search].
  destruct (Z.ltb_spec 0 (Z.of_nat count)) as [Hc|Hc].
  - cbn zeta. replace (Z.of_nat count / 2)%Z with (Z.of_nat (count / 2)) by (now rewrite Nat2Z.inj_div).
    assert (Hd : (count / 2 < count)%nat) by (apply Nat.div_lt; lia).
    set (step := (count / 2)%nat) in *. rewrite <- Nat2Z.inj_add.
    destruct (Hcol (first + step)%nat ltac:(lia)) as (v & Ev & Efv). rewrite Ev. cbn [bind]. rewrite Efv.
    destruct (f (first + step)%nat) eqn:E; cbn [negb].
    + apply IH; auto; lia.
    + replace (Z.of_nat (first + step) + 1)%Z with (Z.of_nat (first + step + 1)) by lia.
      replace (Z.of_nat count - (Z.of_nat step + 1))%Z with (Z.of_nat (count - (step + 1))) by lia.
      apply IH; try lia.
      * right. replace (first + step + 1 - 1)%nat with (first + step)%nat by lia. exact E.
      * replace (first + step + 1 + (count - (step + 1)))%nat with (first + count)%nat by lia. exact H2.
  - assert (count = 0)%nat by lia. subst count. rewrite Nat.add_0_r in *. exists first. repeat split; auto.
Qed.

Section P.
Variable tg : R -> R.
Notation N := (RX tg).

(** ** interpolation of tables with extended real entries *)
Definition has_data (t : lookup_2d N) (xs ys : list R) (z : nat -> nat -> rx) : Prop :=
  t2_x t = map Fin xs /\ t2_y t = map Fin ys /\
  forall i j, (i < length xs)%nat -> (j < length ys)%nat -> data_at_coords t (Z.of_nat i) (Z.of_nat j) = Ret (z i j : num N).

Lemma first_eq_rx t xs ys z w : has_data t xs ys z -> equispaced xs -> (2 <= length xs)%nat -> fits xs ->
  (w <= el xs 0 -> forall j, (j < length ys)%nat -> interp2_linear_first_equispaced t (Fin w) (Z.of_nat j) = Ret (z 0%nat j)) /\
  (el xs (length xs - 1) <= w -> forall j, (j < length ys)%nat ->
     interp2_linear_first_equispaced t (Fin w) (Z.of_nat j) = Ret (z (length xs - 1)%nat j)) /\
  (el xs 0 < w < el xs (length xs - 1) -> exists i, (S i < length xs)%nat /\ el xs i <= w < el xs (S i) /\
     forall j, (j < length ys)%nat -> interp2_linear_first_equispaced t (Fin w) (Z.of_nat j) =
       Ret (@first_formula N (Fin (el xs i)) (Fin (el xs (S i))) (z i j) (z (S i) j) (Fin w))).
Proof.
  intros (Hx & Hy & Hz) He Hn Fx. pose proof (equispaced_increasing xs He 0%nat (length xs - 1)%nat ltac:(lia)) as Hinc.
  unfold interp2_linear_first_equispaced. rewrite Hx. cbn zeta. rewrite vfront_el by lia. cbn [bind]. cbn [n_le RX x_le].
  split; [|split].
  - intros Hw j Hj. rewrite Rleb_true by lra. exact (Hz 0%nat j ltac:(lia) Hj).
  - intros Hw j Hj. rewrite Rleb_false by lra. rewrite vback_el by (auto || lia). cbn [bind x_le]. rewrite Rleb_true by lra.
    assert (EZ : wrap64 (@zlen (num N) (map Fin xs) - 1) = Z.of_nat (length xs - 1)).
    { unfold fits in Fx. rewrite zlen_map. unfold zlen. rewrite wrap64_small by lia. lia. }
    rewrite EZ. apply Hz; [lia|exact Hj].
  - intros Hw. destruct (floor_cell tg xs w He Hn Fx ltac:(lra)) as (i & Hi & Hc & E).
    exists i. split; [exact Hi|]. split; [exact Hc|]. intros j Hj. rewrite Rleb_false by lra.
    rewrite vback_el by (auto || lia). cbn [bind x_le]. rewrite Rleb_false by lra.
    rewrite E. cbn [bind]. rewrite (wrap64_small (Z.of_nat i + 1)) by (unfold fits in Fx; lia).
    replace (Z.of_nat i + 1)%Z with (Z.of_nat (S i)) by lia.
    unfold fits in Fx. rewrite (vget_el xs _ i), (vget_el xs _ (S i)) by (reflexivity || lia). cbn [bind].
    rewrite !Hz by (auto || lia). reflexivity.
Qed.

(** ** the columns of a pair table at one chi *)
Definition pair_shape (n nf : nat) (z : nat -> nat -> rx) : Prop :=
  forall i, (i < n)%nat -> z i 0%nat = NInf /\ z i (nf - 1)%nat = Fin (ln (1 / 2)) /\
    forall j, (0 < j < nf - 1)%nat -> exists r, z i j = Fin r.

(** [cols t w nf P]: column j of [t] gives the probability [P j] at log chi = w *)
Definition cols (t : lookup_2d N) (w : R) (nf : nat) (P : nat -> rx) : Prop :=
  forall j, (j < nf)%nat -> exists v, interp2_linear_first_equispaced t (Fin w) (Z.of_nat j) = Ret v /\ @n_exp N v = P j.

Lemma first_formula_ninf xl xr w : xl < w < xr -> @first_formula N (Fin xl) (Fin xr) NInf NInf (Fin w) = NInf.
Proof.
  intros H. unfold first_formula. cbn [n_sub n_mul n_add n_div RX x_sub x_mul]. cbn zeta.
  unfold sgn_inf. destruct (Rlt_dec 0 (xr - w)); [|lra]. destruct (Rlt_dec 0 (w - xl)); [|lra]. cbn [x_opp x_add x_div].
  destruct (Rlt_dec (xr - xl) 0); [lra|reflexivity].
Qed.
Lemma first_formula_ninf_node xl xr : xl < xr -> @first_formula N (Fin xl) (Fin xr) NInf NInf (Fin xl) = NaN.
Proof.
  intros H. unfold first_formula. cbn [n_sub n_mul n_add n_div RX x_sub x_mul]. cbn zeta.
  unfold sgn_inf. destruct (Rlt_dec 0 (xr - xl)); [|lra]. destruct (Rlt_dec 0 (xl - xl)); [lra|].
  destruct (Rlt_dec (xl - xl) 0); [lra|]. reflexivity.
Qed.

Lemma pair_columns t xs ys z w : has_data t xs ys z -> equispaced xs -> (2 <= length xs)%nat -> fits xs ->
  (2 <= length ys)%nat -> pair_shape (length xs) (length ys) z ->
  exists P, cols t w (length ys) P /\ P (length ys - 1)%nat = Fin (1 / 2) /\
    (forall j, (0 < j < length ys - 1)%nat -> exists p, 0 < p /\ P j = Fin p) /\
    ((exists i, (0 < i)%nat /\ (S i < length xs)%nat /\ w = el xs i) -> P 0%nat = NaN) /\
    (~ (exists i, (0 < i)%nat /\ (S i < length xs)%nat /\ w = el xs i) -> P 0%nat = Fin 0) /\
    (el xs 0 <= w <= el xs (length xs - 1) -> exists i, (S i < length xs)%nat /\ el xs i <= w <= el xs (S i) /\
       forall j, (0 < j < length ys - 1)%nat -> exists r1 r2, z i j = Fin r1 /\ z (S i) j = Fin r2 /\
         P j = Fin (exp (line (el xs i) r1 (el xs (S i)) r2 w))).
Proof.
  intros Hd He Hn Fx Hny Hsh. pose proof (equispaced_increasing xs He) as Hinc.
  destruct (first_eq_rx t xs ys z w Hd He Hn Fx) as (A1 & A2 & A3).
  assert (Hhalf : exp (ln (1 / 2)) = 1 / 2) by (apply exp_ln; lra).
  assert (Hord : forall a, (a < length xs)%nat -> el xs 0 <= el xs a <= el xs (length xs - 1)).
  { intros a Ha. split.
    - destruct (Nat.eq_dec a 0) as [->|]; [lra|]. apply Rlt_le, Hinc. lia.
    - destruct (Nat.eq_dec a (length xs - 1)) as [->|]; [lra|]. apply Rlt_le, Hinc. lia. }
  assert (edge : forall i, (i = 0%nat /\ w <= el xs 0 \/ i = (length xs - 1)%nat /\ el xs (length xs - 1) <= w) ->
     (forall j, (j < length ys)%nat -> interp2_linear_first_equispaced t (Fin w) (Z.of_nat j) = Ret (z i j)) ->
     exists P, cols t w (length ys) P /\ P (length ys - 1)%nat = Fin (1 / 2) /\
    (forall j, (0 < j < length ys - 1)%nat -> exists p, 0 < p /\ P j = Fin p) /\
    ((exists i, (0 < i)%nat /\ (S i < length xs)%nat /\ w = el xs i) -> P 0%nat = NaN) /\
    (~ (exists i, (0 < i)%nat /\ (S i < length xs)%nat /\ w = el xs i) -> P 0%nat = Fin 0) /\
    (el xs 0 <= w <= el xs (length xs - 1) -> exists i, (S i < length xs)%nat /\ el xs i <= w <= el xs (S i) /\
       forall j, (0 < j < length ys - 1)%nat -> exists r1 r2, z i j = Fin r1 /\ z (S i) j = Fin r2 /\
         P j = Fin (exp (line (el xs i) r1 (el xs (S i)) r2 w)))).
  { intros i Hw Hall. assert (Hi : (i < length xs)%nat) by lia. destruct (Hsh i Hi) as (Z0 & Zl & Zj). exists (fun j => x_exp (z i j)). repeat split.
    - intros j Hj. exists (z i j). split; [now apply Hall|reflexivity].
    - rewrite Zl. cbn. now rewrite Hhalf.
    - intros j Hj. destruct (Zj j Hj) as (r & ->). exists (exp r). split; [apply exp_pos|reflexivity].
    - intros (k & Hk1 & Hk2 & Hk3). exfalso.
      pose proof (Hinc 0%nat k ltac:(lia)). pose proof (Hinc k (length xs - 1)%nat ltac:(lia)). lra.
    - intros _. now rewrite Z0.
    - intros Hww. destruct Hw as [[-> Hw]|[-> Hw]].
      + exists 0%nat. split; [lia|]. assert (w = el xs 0) by lra. subst w. pose proof (Hinc 0%nat 1%nat ltac:(lia)). split; [lra|].
        intros j Hj. destruct (Zj j Hj) as (r & Er). destruct (Hsh 1%nat ltac:(lia)) as (_ & _ & Y). destruct (Y j Hj) as (r2 & Er2).
        exists r, r2. split; [exact Er|]. split; [exact Er2|]. rewrite Er. cbn [x_exp]. do 2 f_equal. unfold line. field. lra.
      + assert (w = el xs (length xs - 1)) by lra. subst w. exists (length xs - 2)%nat. replace (S (length xs - 2)) with (length xs - 1)%nat by lia.
        pose proof (Hinc (length xs - 2)%nat (length xs - 1)%nat ltac:(lia)). split; [lia|]. split; [lra|].
        intros j Hj. destruct (Zj j Hj) as (r & Er). destruct (Hsh (length xs - 2)%nat ltac:(lia)) as (_ & _ & Y). destruct (Y j Hj) as (r2 & Er2).
        exists r2, r. split; [exact Er2|]. split; [exact Er|]. rewrite Er. cbn [x_exp]. do 2 f_equal. unfold line. field. lra. }
  destruct (Rle_lt_dec w (el xs 0)) as [H0|H0]; [exact (edge 0%nat (or_introl (conj eq_refl H0)) (A1 H0))|].
  destruct (Rle_lt_dec (el xs (length xs - 1)) w) as [H1|H1]; [exact (edge (length xs - 1)%nat (or_intror (conj eq_refl H1)) (A2 H1))|].
  destruct (A3 (conj H0 H1)) as (i & Hi & Hc & Hall).
  destruct (Hsh i ltac:(lia)) as (Z0 & Zl & Zj). destruct (Hsh (S i) ltac:(lia)) as (Y0 & Yl & Yj).
  assert (Hlt : el xs i < el xs (S i)) by (apply Hinc; lia).
  exists (fun j => x_exp (@first_formula N (Fin (el xs i)) (Fin (el xs (S i))) (z i j) (z (S i) j) (Fin w))). repeat split.
  - intros j Hj. eexists. split; [now apply Hall|reflexivity].
  - rewrite Zl, Yl. rewrite first_formula_line by lra. cbn [x_exp]. f_equal.
    replace (line _ _ _ _ _) with (ln (1 / 2)); [exact Hhalf|]. unfold line. field. lra.
  - intros j Hj. destruct (Zj j Hj) as (r & ->). destruct (Yj j Hj) as (r2 & ->).
    rewrite first_formula_line by lra. eexists. split; [apply exp_pos|reflexivity].
  - intros (k & Hk1 & Hk2 & Hk3).
    assert (k = i).
    { destruct (Nat.lt_trichotomy k i) as [L|[L|L]]; [|exact L|].
      - pose proof (Hinc k i ltac:(lia)). lra.
      - destruct (Nat.eq_dec k (S i)) as [->|]; [lra|]. pose proof (Hinc (S i) k ltac:(lia)). lra. }
    subst k. rewrite Z0, Y0, Hk3, first_formula_ninf_node by assumption. reflexivity.
  - intros Hno. rewrite Z0, Y0. rewrite first_formula_ninf; [reflexivity|].
    split; [|lra]. destruct Hc as [[Hc|Hc] _]; [exact Hc|]. exfalso. apply Hno. exists i.
    split; [|split; [exact Hi|congruence]]. destruct i; [|lia]. lra.
  - intros _. exists i. split; [exact Hi|]. split; [lra|]. intros j Hj. destruct (Zj j Hj) as (r & Er). destruct (Yj j Hj) as (r2 & Er2).
    exists r, r2. split; [exact Er|]. split; [exact Er2|]. rewrite Er, Er2, first_formula_line by lra. reflexivity.
Qed.

(** the ends of the columns whatever the interior holds *)
Lemma pair_columns_ends t xs ys z w : has_data t xs ys z -> equispaced xs -> (2 <= length xs)%nat -> fits xs ->
  (2 <= length ys)%nat -> (forall i, (i < length xs)%nat -> z i 0%nat = NInf /\ z i (length ys - 1)%nat = Fin (ln (1 / 2))) ->
  exists P, cols t w (length ys) P /\ P (length ys - 1)%nat = Fin (1 / 2) /\ (P 0%nat = Fin 0 \/ P 0%nat = NaN).
Proof.
  intros Hd He Hn Fx Hny Hsh. pose proof (equispaced_increasing xs He) as Hinc.
  destruct (first_eq_rx t xs ys z w Hd He Hn Fx) as (A1 & A2 & A3).
  assert (Hhalf : exp (ln (1 / 2)) = 1 / 2) by (apply exp_ln; lra).
  assert (edge : forall i, (i < length xs)%nat ->
     (forall j, (j < length ys)%nat -> interp2_linear_first_equispaced t (Fin w) (Z.of_nat j) = Ret (z i j)) ->
     exists P, cols t w (length ys) P /\ P (length ys - 1)%nat = Fin (1 / 2) /\ (P 0%nat = Fin 0 \/ P 0%nat = NaN)).
  { intros i Hi Hall. destruct (Hsh i Hi) as (Z0 & Zl). exists (fun j => x_exp (z i j)). repeat split.
    - intros j Hj. exists (z i j). split; [now apply Hall|reflexivity].
    - rewrite Zl. cbn. now rewrite Hhalf.
    - left. now rewrite Z0. }
  destruct (Rle_lt_dec w (el xs 0)) as [H0|H0]; [exact (edge 0%nat ltac:(lia) (A1 H0))|].
  destruct (Rle_lt_dec (el xs (length xs - 1)) w) as [H1|H1]; [exact (edge (length xs - 1)%nat ltac:(lia) (A2 H1))|].
  destruct (A3 (conj H0 H1)) as (i & Hi & Hc & Hall).
  destruct (Hsh i ltac:(lia)) as (Z0 & Zl). destruct (Hsh (S i) ltac:(lia)) as (Y0 & Yl).
  assert (Hlt : el xs i < el xs (S i)) by (apply Hinc; lia).
  exists (fun j => x_exp (@first_formula N (Fin (el xs i)) (Fin (el xs (S i))) (z i j) (z (S i) j) (Fin w))). repeat split.
  - intros j Hj. eexists. split; [now apply Hall|reflexivity].
  - rewrite Zl, Yl. rewrite first_formula_line by lra. cbn [x_exp]. f_equal.
    replace (line _ _ _ _ _) with (ln (1 / 2)); [exact Hhalf|]. unfold line. field. lra.
  - rewrite Z0, Y0. destruct (Req_dec (el xs i) w) as [<-|Hne].
    + right. now rewrite first_formula_ninf_node.
    + left. now rewrite first_formula_ninf by lra.
Qed.

(** ** one pair *)
Lemma vget_ys (t : lookup_2d N) ys j : t2_y t = map Fin ys -> (j < length ys)%nat -> fits ys ->
  vget (t2_y t) (Z.of_nat j) = Ret (Fin (el ys j) : num N).
Proof. intros -> Hj Hf. unfold fits in Hf. now apply vget_el; [|lia|lia]. Qed.

(** momentum (in units of m c) of a particle of Lorentz factor g *)
Definition p_of_gamma (g : R) : R := sqrt (g * g - 1).

Lemma search_bounds (t : lookup_2d N) (ys : list R) w P prob : cols t w (length ys) P -> (2 <= length ys)%nat ->
  P (length ys - 1)%nat = Fin (1 / 2) -> (P 0%nat = Fin 0 \/ P 0%nat = NaN) -> 0 <= prob < 1 / 2 ->
  exists k, bw_search t (Fin w) (Fin prob) (S (length ys)) 0 (Z.of_nat (length ys)) = Ret (Z.of_nat (S k)) /\
    (S k < length ys)%nat /\ x_lt (Fin prob) (P k) = false /\ x_lt (Fin prob) (P (S k)) = true.
Proof.
  intros Hc Hn Hl H0 Hp.
  destruct (bw_search_spec t (Fin w : num N) (Fin prob : num N) (fun j => x_lt (Fin prob) (P j)) (length ys)) with (fuel := S (length ys)) (first := 0%nat) (count := length ys) as (k & E & Hk & B1 & B2).
  - intros j Hj. destruct (Hc j Hj) as (v & Ev & Ee). exists v. split; [exact Ev|]. rewrite Ee. reflexivity.
  - lia.
  - lia.
  - now left.
  - now left.
  - assert (k <> 0)%nat.
    { intros ->. destruct B2 as [B2|B2]; [lia|]. destruct H0 as [H0|H0]; rewrite H0 in B2; cbn in B2; [|discriminate].
      unfold Rltb in B2. destruct (Rlt_dec prob 0); [lra|discriminate]. }
    assert (k <> length ys).
    { intros ->. destruct B1 as [B1|B1]; [lia|]. rewrite Hl in B1. cbn in B1. rewrite Rltb_true in B1 by lra. discriminate. }
    exists (k - 1)%nat. replace (S (k - 1)) with k by lia. split; [exact E|]. split; [lia|].
    split; [destruct B1; [lia|assumption]|destruct B2; [lia|assumption]].
Qed.

(** memory safety for every chi, every number: also when column 0 is NaN *)
Lemma one_pair_safe t ys w P chi g mec nw nv u : cols t w (length ys) P -> t2_y t = map Fin ys -> fits ys -> (2 <= length ys)%nat ->
  P (length ys - 1)%nat = Fin (1 / 2) -> (P 0%nat = Fin 0 \/ P 0%nat = NaN) -> 0 <= u < 1 ->
  exists r, @bw_one_pair N chi (Fin (exp w)) g mec nw nv t (Fin u) = Ret r.
Proof.
  intros Hc Hy Hf Hn Hl H0 Hu. unfold bw_one_pair. cbn zeta. unfold n_one, n_two. rewrite !flit, (fdiv tg 1 2) by lra.
  cbn [n_le n_sub n_log RX x_le x_sub]. rewrite x_log_fin by apply exp_pos. rewrite ln_exp.
  replace (zlen (t2_y t)) with (Z.of_nat (length ys)) by (rewrite Hy; unfold zlen; now rewrite map_length).
  replace (length (t2_y t)) with (length ys) by (rewrite Hy; now rewrite map_length).
  assert (Hpr : exists prob, (if Rleb (1 / 2) u then Fin (u - 1 / 2) else Fin u) = Fin prob /\ 0 <= prob < 1 / 2).
  { destruct (Rleb_spec (1 / 2) u); eexists; split; try reflexivity; lra. }
  destruct Hpr as (prob & Ep & Hp). change (num N) with rx. rewrite Ep.
  destruct (search_bounds t ys w P prob Hc Hn Hl H0 Hp) as (k & E & Hk & _). rewrite E. cbn [bind].
  unfold fits in Hf. rewrite (wrap64_small (Z.of_nat (S k) - 1)) by lia. replace (Z.of_nat (S k) - 1)%Z with (Z.of_nat k) by lia.
  change rx with (num N).
  rewrite (vget_ys t ys (S k) Hy Hk Hf), (vget_ys t ys k Hy ltac:(lia) Hf). cbn [bind].
  destruct (Hc (S k) Hk) as (v1 & E1 & _). destruct (Hc k ltac:(lia)) as (v2 & E2 & _). rewrite E1, E2. cbn [bind]. eauto.
Qed.

Lemma one_pair_spec t ys w P chi g mec nw n3 u : cols t w (length ys) P -> t2_y t = map Fin ys -> fits ys -> (2 <= length ys)%nat ->
  strictly_increasing ys -> el ys 0 = 0 -> el ys (length ys - 1) = 1 / 2 ->
  P (length ys - 1)%nat = Fin (1 / 2) -> P 0%nat = Fin 0 -> (forall j, (0 < j < length ys - 1)%nat -> exists p, 0 < p /\ P j = Fin p) ->
  0 <= u < 1 -> 0 < chi -> 2 <= g -> 0 < mec ->
  let prob := if Rlt_dec u (1 / 2) then u else u - 1 / 2 in
  exists k pl pr s, (S k < length ys)%nat /\ P k = Fin pl /\ P (S k) = Fin pr /\ pl <= prob < pr /\
    s = line pl (el ys k) pr (el ys (S k)) prob /\ 0 <= s <= 1 / 2 /\
    let se := if Rlt_dec u (1 / 2) then s else 1 - s in
    @bw_one_pair N (Fin chi) (Fin (exp w)) (Fin g) (Fin mec) nw (F3 tg n3) t (Fin u)
    = Ret ((F3 tg (scale3 (p_of_gamma (1 + se * (g - 2)) * mec) n3), nw),
           (F3 tg (scale3 (p_of_gamma (1 + (1 - se) * (g - 2)) * mec) n3), nw)).
Proof.
  intros Hc Hy Hf Hn Hinc Hy0 Hyl Hl H0 Hj Hu Hchi Hg Hm prob.
  assert (Hp : 0 <= prob < 1 / 2) by (unfold prob; destruct (Rlt_dec u (1 / 2)); lra).
  assert (Ep : (if Rleb (1 / 2) u then Fin (u - 1 / 2) else Fin u) = Fin prob).
  { unfold prob. destruct (Rlt_dec u (1 / 2)); [now rewrite Rleb_false by lra|now rewrite Rleb_true by lra]. }
  destruct (search_bounds t ys w P prob Hc Hn Hl (or_introl H0) Hp) as (k & E & Hk & B1 & B2).
  assert (Hfin : forall j, (j < length ys)%nat -> exists p, P j = Fin p).
  { intros j Hjj. destruct (Nat.eq_dec j 0) as [->|]; [eauto|]. destruct (Nat.eq_dec j (length ys - 1)) as [->|]; [eauto|].
    destruct (Hj j ltac:(lia)) as (p & _ & Hpp). eauto. }
  destruct (Hfin k ltac:(lia)) as (pl & Epl). destruct (Hfin (S k) Hk) as (pr & Epr).
  rewrite Epl in B1. rewrite Epr in B2. cbn [x_lt] in B1, B2.
  assert (Hpl : pl <= prob). { destruct (Rltb_spec prob pl); [discriminate|lra]. }
  assert (Hpr : prob < pr). { destruct (Rltb_spec prob pr); [lra|discriminate]. }
  set (s := line pl (el ys k) pr (el ys (S k)) prob).
  assert (Hlt : el ys k < el ys (S k)) by (apply Hinc; lia).
  assert (Hs : 0 <= s <= 1 / 2).
  { pose proof (line_between pl (el ys k) pr (el ys (S k)) prob ltac:(lra) ltac:(lra)) as [L1 L2]. fold s in L1, L2.
    rewrite Rmin_left in L1 by lra. rewrite Rmax_right in L2 by lra. split.
    - assert (0 <= el ys k); [|lra]. rewrite <- Hy0. destruct (Nat.eq_dec k 0) as [->|]; [lra|]. apply Rlt_le, Hinc. lia.
    - assert (el ys (S k) <= 1 / 2); [|lra]. rewrite <- Hyl. destruct (Nat.eq_dec (S k) (length ys - 1)) as [->|]; [lra|]. apply Rlt_le, Hinc. lia. }
  exists k, pl, pr, s. split; [exact Hk|]. split; [exact Epl|]. split; [exact Epr|]. split; [lra|]. split; [reflexivity|].
  split; [exact Hs|]. cbn zeta.
  unfold bw_one_pair. cbn zeta. unfold n_one, n_two. rewrite !flit, (fdiv tg 1 2) by lra.
  cbn [n_le n_log RX x_le]. rewrite x_log_fin by apply exp_pos. rewrite ln_exp.
  rewrite (fsub tg u).
  replace (zlen (t2_y t)) with (Z.of_nat (length ys)) by (rewrite Hy; unfold zlen; now rewrite map_length).
  replace (length (t2_y t)) with (length ys) by (rewrite Hy; now rewrite map_length).
  change (num N) with rx. rewrite Ep. rewrite E. cbn [bind].
  unfold fits in Hf. rewrite (wrap64_small (Z.of_nat (S k) - 1)) by lia. replace (Z.of_nat (S k) - 1)%Z with (Z.of_nat k) by lia.
  change rx with (num N).
  rewrite (vget_ys t ys (S k) Hy Hk Hf), (vget_ys t ys k Hy ltac:(lia) Hf). cbn [bind].
  destruct (Hc (S k) Hk) as (v1 & E1 & X1). destruct (Hc k ltac:(lia)) as (v2 & E2 & X2). rewrite E1, E2. cbn [bind].
  rewrite X1, X2, Epl, Epr. rewrite !fsub, !fmul, (fdiv tg _ (pr - pl)) by lra. rewrite !fadd, !fmul, !fsub.
  rewrite (fdiv tg (g - 2) chi) by lra.
  replace (el ys k + (prob - pl) * (el ys (S k) - el ys k) / (pr - pl)) with s by (unfold s, line; field; lra).
  assert (Hsq : forall q, 0 <= q -> @n_sqrt N (Fin ((1 + q * (g - 2)) * (1 + q * (g - 2)) - 1)) = Fin (p_of_gamma (1 + q * (g - 2)))).
  { intros q Hq. rewrite fsqrt; [reflexivity|]. assert (0 <= q * (g - 2)) by (apply Rmult_le_pos; lra). nra. }
  assert (H1 : forall q, q * chi * ((g - 2) / chi) = q * (g - 2)) by (intros; field; lra).
  assert (H2 : (chi - s * chi) * ((g - 2) / chi) = (1 - s) * (g - 2)) by (field; lra).
  assert (H3 : forall q, (1 - (1 - q)) = q) by (intros; ring).
  destruct (Rlt_dec u (1 / 2)) as [Hu2|Hu2].
  - rewrite Rleb_false by lra. rewrite !fmul, !fadd, !fmul, !fsub, H1, H2. rewrite !Hsq by lra.
    rewrite !fmul, !F3_scale_l. reflexivity.
  - rewrite Rleb_true by lra. rewrite !fmul, !fadd, !fmul, !fsub, H1, H2. rewrite !Hsq by lra.
    rewrite !fmul, !F3_scale_l. rewrite H3. reflexivity.
Qed.

(** exchanging the particles: any table, any chi *)
Definition swap_out {A} (o : out (A * A)) : out (A * A) := do x <- o; Ret (swap_pair x).

Lemma one_pair_swap chi tab g mec nw nv t u : 0 <= u < 1 / 2 ->
  @bw_one_pair N chi tab g mec nw nv t (Fin (u + 1 / 2)) = swap_out (@bw_one_pair N chi tab g mec nw nv t (Fin u)).
Proof.
  intros Hu. unfold bw_one_pair. cbn zeta. unfold n_one, n_two. rewrite !flit, (fdiv tg 1 2) by lra.
  rewrite !fsub. cbn [n_le RX x_le]. rewrite Rleb_true by lra. rewrite Rleb_false by lra.
  replace (u + 1 / 2 - 1 / 2) with u by lra. unfold swap_out. change (num N) with rx.
  repeat (match goal with |- (do _ <- ?m; _) = _ => destruct m end; try reflexivity; cbn [bind]).
Qed.

Lemma mapM_swap {A B} (f g : A -> out (B * B)) l : (forall a, In a l -> g a = swap_out (f a)) ->
  mapM g l = (do r <- mapM f l; Ret (map swap_pair r)).
Proof.
  induction l as [|a l IH]; intros H; [reflexivity|]. cbn [mapM]. rewrite (H a) by now left.
  rewrite IH by (intros; apply H; now right). unfold swap_out. destruct (f a); try reflexivity. cbn [bind].
  now destruct (mapM f l).
Qed.

Lemma internal_swap si p e b weight lam t c us vs :
  length us = length vs -> (forall i, (i < length us)%nat -> 0 <= el us i < 1 / 2 /\ el vs i = el us i + 1 / 2) ->
  bw_internal_generate (units si) p e b weight (Z.of_nat (length us)) lam t c (map Fin vs : list (num N))
  = (do r <- bw_internal_generate (units si) p e b weight (Z.of_nat (length us)) lam t c (map Fin us : list (num N));
     Ret (map swap_pair r)).
Proof.
  intros Hl H. unfold bw_internal_generate. cbn zeta. apply mapM_swap. intros z Hz.
  rewrite Nat2Z.id in Hz. apply zseq_In in Hz. destruct (H (Z.to_nat z) ltac:(lia)) as (H1 & H2).
  rewrite (@zget_ok (num N) (map Fin vs) z (Fin (el vs (Z.to_nat z)))).
  2: { lia. }
  2: { rewrite nth_error_map. unfold el. rewrite (nth_error_nth' vs 0) by lia. reflexivity. }
  rewrite (@zget_ok (num N) (map Fin us) z (Fin (el us (Z.to_nat z)))).
  2: { lia. }
  2: { rewrite nth_error_map. unfold el. rewrite (nth_error_nth' us 0) by lia. reflexivity. }
  cbn [bind]. rewrite H2. now apply one_pair_swap.
Qed.

(** ** generated tables *)
Lemma generated_pair_table (Orc : Oracles N) (c : bw_ctrl N) garbage a b n nf :
  bc_tpair_min c = Fin a -> bc_tpair_max c = Fin b -> bc_tpair_how_many c = Z.of_nat n -> bc_frac_how_many c = Z.of_nat nf ->
  0 < a < b -> (2 <= n)%nat -> (2 <= nf)%nat -> (Z.of_nat (n * nf) < 2 ^ 31)%Z ->
  exists t, bw_cumulative_table Orc c garbage = Ret t /\ t2_init t = true /\
  exists z, has_data t (lin_grid (ln a) (ln b) n) (lin_grid 0 (1 / 2) nf) z /\
    (forall i j, (i < n)%nat -> (j < nf)%nat -> z i j =
       if (j =? 0)%nat then NInf else if (S j =? nf)%nat then Fin (ln (1 / 2))
       else x_log (bw_cumulative_pair Orc (Fin (el (log_grid a b n) i)) (Fin (el (log_grid a b n) i * el (lin_grid 0 (1 / 2) nf) j)))).
Proof.
  intros Ea Eb En Enf Hab Hn Hnf Hfit.
  assert (Hchis : generate_log_spaced_vec (bc_tpair_min c) (bc_tpair_max c) (bc_tpair_how_many c) = map Fin (log_grid a b n)).
  { rewrite Ea, Eb, En. now apply log_spaced_eq. }
  assert (Hfr : @generate_lin_spaced_vec N n_zero (n_one / n_two)%N (bc_frac_how_many c) = map Fin (lin_grid 0 (1 / 2) nf)).
  { rewrite Enf. unfold n_zero, n_one, n_two. rewrite !flit, fdiv by lra. apply lin_spaced_eq; [lra|exact Hnf]. }
  destruct (bw_table_schedules Orc c garbage) as (its & Hits & Hd & H).
  - rewrite Hfr. now rewrite map_length, lin_grid_length.
  - rewrite Hfr, Hchis. now rewrite !map_length, lin_grid_length, log_grid_length.
  - destruct (H (concat its)) as (arr & E1 & E2 & L & Hc).
    { apply concat_interleaving. }
    eexists. split; [exact E2|]. split; [reflexivity|].
    rewrite Hchis, Hfr in *. rewrite !map_length, lin_grid_length, log_grid_length in *.
    exists (fun i j => x_log (nth (i * nf + j) arr NaN)). split; [|].
    + unfold has_data. rewrite !lin_grid_length. cbn [lookup_2d_make t2_x t2_y]. split; [|split].
      * rewrite map_log_Fin; [now rewrite log_grid_ln_map|]. intros i Hi.
        rewrite log_grid_length in Hi. apply log_grid_pos; lra || exact Hi.
      * reflexivity.
      * intros i j Hi Hj. unfold data_at_coords, row_major. cbn [t2_data t2_y lookup_2d_make].
        rewrite zlen_map. unfold zlen. rewrite lin_grid_length. pose proof (entry_index _ _ i j Hi Hj).
        rewrite wrap64_small by nia. unfold vget. rewrite to_int32_small by nia.
        apply zget_ok; [nia|]. replace (Z.to_nat (Z.of_nat i * Z.of_nat nf + Z.of_nat j)) with (i * nf + j)%nat by nia.
        rewrite nth_error_map. erewrite nth_error_nth' with (d := NaN : num N) by (change (num N) with rx in *; lia). reflexivity.
    + intros i j Hi Hj.
      assert (Hg : nth_error (map Fin (log_grid a b n)) i = Some (Fin (el (log_grid a b n) i))).
      { rewrite nth_error_map. unfold el. rewrite (nth_error_nth' _ 0) by (rewrite log_grid_length; lia). reflexivity. }
      specialize (Hc i j _ Hg Hj). erewrite nth_error_nth_eq by exact Hc.
      destruct (j =? 0)%nat eqn:E0; [rewrite flit; now rewrite x_log_zero|].
      destruct (S j =? nf)%nat eqn:Es.
      * rewrite !flit, fdiv by lra. now rewrite x_log_fin by lra.
      * do 2 f_equal. rewrite flit. rewrite (map_nth Fin). reflexivity.
Qed.

Lemma generated_shape (Orc : Oracles N) a b n nf z : good_cumulative (tg := tg) Orc a b -> 0 < a < b -> (2 <= n)%nat -> (2 <= nf)%nat ->
    (forall i j, (i < n)%nat -> (j < nf)%nat -> z i j =
       if (j =? 0)%nat then NInf else if (S j =? nf)%nat then Fin (ln (1 / 2))
       else x_log (bw_cumulative_pair Orc (Fin (el (log_grid a b n) i)) (Fin (el (log_grid a b n) i * el (lin_grid 0 (1 / 2) nf) j)))) ->
  pair_shape n nf z.
Proof.
  intros HO Hab Hn Hnf Hz i Hi. split; [|split].
  - now rewrite Hz by lia.
  - rewrite Hz by lia. replace (nf - 1 =? 0)%nat with false by (symmetry; apply Nat.eqb_neq; lia).
    replace (S (nf - 1) =? nf)%nat with true by (symmetry; apply Nat.eqb_eq; lia). reflexivity.
  - intros j Hj. rewrite Hz by lia. replace (j =? 0)%nat with false by (symmetry; apply Nat.eqb_neq; lia).
    replace (S j =? nf)%nat with false by (symmetry; apply Nat.eqb_neq; lia).
    destruct (HO (el (log_grid a b n) i) (el (lin_grid 0 (1 / 2) nf) j)) as (v & Hv & ->).
    + pose proof (log_grid_increasing a b n Hn Hab) as Hinc. rewrite <- (log_grid_first a b n Hn Hab) at 1.
      rewrite <- (log_grid_last a b n Hn Hab) at 4. unfold strictly_increasing in Hinc. rewrite log_grid_length in Hinc. split.
      * destruct (Nat.eq_dec i 0) as [->|]; [lra|]. apply Rlt_le, Hinc. lia.
      * destruct (Nat.eq_dec i (n - 1)) as [->|]; [lra|]. apply Rlt_le, Hinc. lia.
    + pose proof (lin_grid_increasing 0 (1 / 2) nf Hnf ltac:(lra)) as Hinc. unfold strictly_increasing in Hinc.
      rewrite lin_grid_length in Hinc. pose proof (lin_grid_first 0 (1 / 2) nf Hnf). pose proof (lin_grid_last 0 (1 / 2) nf Hnf).
      pose proof (Hinc 0%nat j ltac:(lia)). pose proof (Hinc j (nf - 1)%nat ltac:(lia)). lra.
    + rewrite x_log_fin by exact Hv. eauto.
Qed.

(** ** the generator *)
Lemma lorentz_of_gamma m c g n3 : 0 < m * c -> 1 <= g -> dot3 n3 n3 = 1 -> lorentz m c (scale3 (p_of_gamma g * (m * c)) n3) = g.
Proof.
  intros Hm Hg Hn. unfold lorentz, p0_lepton. rewrite dot3_scale2, Hn.
  assert (Hs : p_of_gamma g * p_of_gamma g = g * g - 1) by (apply sqrt_sqrt; nra).
  replace (p_of_gamma g * (m * c) * (p_of_gamma g * (m * c)) * 1 + m * c * (m * c)) with ((g * (m * c)) * (g * (m * c))).
  2: { transitivity (p_of_gamma g * p_of_gamma g * (m * c) * (m * c) + m * c * (m * c)); [rewrite Hs|]; ring. }
  rewrite sqrt_square by (apply Rmult_le_pos; lra). unfold Rdiv. rewrite Rmult_assoc, Rinv_r by lra. ring.
Qed.

Lemma mapM_exists {A B} (f : A -> out B) (Q : A -> B -> Prop) l : (forall a, In a l -> exists r, f a = Ret r /\ Q a r) ->
  exists rs, mapM f l = Ret rs /\ Forall2 Q l rs.
Proof.
  induction l as [|a l IH]; intros H; [exists []; split; [reflexivity|constructor]|].
  destruct (H a ltac:(now left)) as (r & Er & Hr). destruct IH as (rs & Es & Hs); [intros; apply H; now right|].
  exists (r :: rs). cbn [mapM]. rewrite Er. cbn [bind]. rewrite Es. split; [reflexivity|now constructor].
Qed.

Lemma mapM_zget_exists {A B} (f : A -> out B) (Q : A -> B -> Prop) us : (forall a, In a us -> exists r, f a = Ret r /\ Q a r) ->
  exists rs, mapM (fun s => do u <- zget us s; f u) (zseq (length us)) = Ret rs /\ Forall2 Q us rs.
Proof.
  intros H.
  assert (G : forall pre post, us = pre ++ post -> exists rs,
    mapM (fun s => do u <- zget us s; f u) (map Z.of_nat (seq (length pre) (length post))) = Ret rs /\ Forall2 Q post rs).
  { intros pre post. revert pre. induction post as [|a post IH]; intros pre E; [exists []; split; [reflexivity|constructor]|].
    destruct (IH (pre ++ [a])) as (rs & Es & Hs). { now rewrite <- app_assoc. }
    destruct (H a) as (r & Er & Hr). { rewrite E. apply in_or_app. right. now left. }
    exists (r :: rs). split; [|now constructor]. cbn [length seq map mapM].
    rewrite (zget_ok us _ a); [|lia|]. 2: { rewrite Nat2Z.id, E, nth_error_app2, Nat.sub_diag by lia. reflexivity. }
    cbn [bind]. rewrite Er. cbn [bind]. rewrite app_length, Nat.add_1_r in Es. now rewrite Es. }
  exact (G [] us eq_refl).
Qed.

Lemma clamp_val a b chi : a < b -> @clamp_chi N (Fin a) (Fin b) (Fin chi) = Fin (Rmax a (Rmin b chi)).
Proof.
  intros Hab. unfold clamp_chi. cbn [n_lt RX x_lt]. destruct (Rltb_spec chi a).
  - rewrite Rmin_right, Rmax_left by lra. reflexivity.
  - destruct (Rltb_spec b chi); [rewrite Rmin_left, Rmax_right by lra; reflexivity|].
    rewrite Rmin_right, Rmax_right by lra. reflexivity.
Qed.

Lemma internal_pairs si p E B (lam weight : num N) t (c : bw_ctrl N) us a b chi n (ys : list R) z :
  bc_tpair_min c = Fin a -> bc_tpair_max c = Fin b -> 0 < a < b -> (2 <= n)%nat -> (Z.of_nat n < 2 ^ 31)%Z ->
  has_data t (lin_grid (ln a) (ln b) n) ys z -> pair_shape n (length ys) z ->
  fits ys -> (2 <= length ys)%nat -> strictly_increasing ys -> el ys 0 = 0 -> el ys (length ys - 1) = 1 / 2 ->
  chi_photon (units si) (F3 tg p) (F3 tg E) (F3 tg B) lam = Fin chi -> 0 < chi -> 2 * (nu_m si * nu_c si) <= norm3 p ->
  (forall i, (0 < i < n - 1)%nat -> ln chi <> ln a + INR i * ((ln b - ln a) / INR (n - 1))) ->
  unit_draws (tg := tg) us ->
  exists prs, bw_internal_generate (units si) (F3 tg p) (F3 tg E) (F3 tg B) weight (Z.of_nat (length us)) lam t c us = Ret prs /\
    exists P : nat -> R,
      P 0%nat = 0 /\ P (length ys - 1)%nat = 1 / 2 /\
      (forall j, (0 < j < length ys - 1)%nat -> 0 < P j) /\
      (a <= chi <= b -> exists i, (S i < n)%nat /\
         let x i := ln a + INR i * ((ln b - ln a) / INR (n - 1)) in x i <= ln chi <= x (S i) /\
         forall j, (0 < j < length ys - 1)%nat -> exists r1 r2, z i j = Fin r1 /\ z (S i) j = Fin r2 /\
           P j = exp (line (x i) r1 (x (S i)) r2 (ln chi))) /\
      Forall2 (fun u q => exists r pe pq s k, u = Fin r /\ q = ((F3 tg pe, (weight / n_of_Z (Z.of_nat (length us)))%N), (F3 tg pq, (weight / n_of_Z (Z.of_nat (length us)))%N)) /\
        pair_spec (nu_m si) (nu_c si) p pe pq /\
        (let v := if Rlt_dec r (1 / 2) then r else r - 1 / 2 in
         (S k < length ys)%nat /\ P k <= v < P (S k) /\ s = line (P k) (el ys k) (P (S k)) (el ys (S k)) v /\ 0 <= s <= 1 / 2 /\
         lorentz (nu_m si) (nu_c si) (if Rlt_dec r (1 / 2) then pe else pq) = 1 + s * (norm3 p / (nu_m si * nu_c si) - 2))) us prs.
Proof.
  intros Ea Eb Hab Hn Hn31 Hd Hsh Fy Hny Hincy Hy0 Hyl Echi Hchi Hg Hnode Hus.
  set (m := nu_m si) in *. set (cc := nu_c si) in *.
  assert (Hmc : 0 < m * cc) by (pose proof (nu_m_pos si); pose proof (nu_c_pos si); unfold m, cc; nra).
  assert (Hnp : 0 < norm3 p) by lra.
  pose proof (lin_grid_length (ln a) (ln b) n) as Ln.
  assert (Hlnab : ln a < ln b) by (apply ln_increasing; lra).
  pose proof (lin_grid_equispaced (ln a) (ln b) n Hn Hlnab) as Heq.
  set (tc := Rmax a (Rmin b chi)).
  assert (Htc : 0 < tc) by (unfold tc; pose proof (Rmax_l a (Rmin b chi)); lra).
  destruct (pair_columns t (lin_grid (ln a) (ln b) n) ys z (ln tc) Hd Heq) as (P & Hc & Hl & Hj & _ & H0 & Hcell); try (rewrite ?Ln; assumption).
  { unfold fits. now rewrite Ln. }
  rewrite Ln in *.
  assert (P0 : P 0%nat = Fin 0).
  { apply H0. intros (i & Hi1 & Hi2 & Hi3). rewrite lin_grid_el in Hi3 by lia.
    assert (Hi4 : INR i * ((ln b - ln a) / INR (n - 1)) > 0 /\ INR i * ((ln b - ln a) / INR (n - 1)) < ln b - ln a).
    { pose proof (lin_grid_increasing (ln a) (ln b) n Hn Hlnab) as Hinc. unfold strictly_increasing in Hinc. rewrite Ln in Hinc.
      pose proof (Hinc 0%nat i ltac:(lia)) as X1. pose proof (Hinc i (n - 1)%nat ltac:(lia)) as X2.
      rewrite lin_grid_first in X1 by exact Hn. rewrite lin_grid_last in X2 by exact Hn. rewrite lin_grid_el in X1, X2 by lia. lra. }
    assert (Hb1 : a < tc) by (apply ln_lt_inv; lra). assert (Hb2 : tc < b) by (apply ln_lt_inv; lra).
    assert (tc = chi).
    { unfold tc in *. destruct (Rle_dec chi a).
      - rewrite Rmin_right in Hb1 by lra. rewrite Rmax_left in Hb1 by lra. lra.
      - destruct (Rle_dec b chi); [rewrite Rmin_left in Hb2 by lra; rewrite Rmax_right in Hb2 by lra; lra|].
        rewrite Rmin_right, Rmax_right by lra. reflexivity. }
    apply (Hnode i ltac:(lia)). congruence. }
  set (val := fun x => match x with Fin r => r | _ => 0 end).
  unfold bw_internal_generate. cbn zeta. rewrite Echi, Ea, Eb, F3_norm, u_m_val, u_c_val, fmul.
  fold m cc. rewrite F3_div by lra. rewrite (fdiv tg (norm3 p)) by lra. rewrite clamp_val by lra. fold tc.
  replace (scale3 (/ norm3 p) p) with (unit3 p) by reflexivity.
  assert (Hun : dot3 (unit3 p) (unit3 p) = 1).
  { unfold unit3. rewrite dot3_scale2, <- norm3_sq. field. lra. }
  replace tc with (exp (ln tc)) by (now apply exp_ln).
  assert (Hgam : 2 <= norm3 p / (m * cc)).
  { apply Rmult_le_reg_r with (m * cc); [assumption|]. replace (norm3 p / (m * cc) * (m * cc)) with (norm3 p) by (unfold Rdiv; rewrite Rmult_assoc, Rinv_l by lra; ring). lra. }
  set (g := norm3 p / (m * cc)) in *.
  rewrite Nat2Z.id.
  destruct (mapM_zget_exists (fun u => @bw_one_pair N (Fin chi) (Fin (exp (ln tc))) (Fin g) (Fin (m * cc)) (weight / n_of_Z (Z.of_nat (length us)))%N (F3 tg (unit3 p)) t u)
     (fun u q => exists r pe pq s k, u = Fin r /\ q = ((F3 tg pe, (weight / n_of_Z (Z.of_nat (length us)))%N), (F3 tg pq, (weight / n_of_Z (Z.of_nat (length us)))%N)) /\
        pair_spec m cc p pe pq /\
        (let v := if Rlt_dec r (1 / 2) then r else r - 1 / 2 in
         (S k < length ys)%nat /\ val (P k) <= v < val (P (S k)) /\ s = line (val (P k)) (el ys k) (val (P (S k))) (el ys (S k)) v /\ 0 <= s <= 1 / 2 /\
         lorentz m cc (if Rlt_dec r (1 / 2) then pe else pq) = 1 + s * (norm3 p / (m * cc) - 2))) us) as (prs & Ep & HF).
  - intros u Hu. unfold unit_draws in Hus. rewrite Forall_forall in Hus. destruct (Hus u Hu) as (r & -> & Hr).
    destruct (one_pair_spec t ys (ln tc) P chi g (m * cc) (weight / n_of_Z (Z.of_nat (length us)))%N (unit3 p) r
               Hc ltac:(apply Hd) Fy Hny Hincy Hy0 Hyl Hl P0 Hj Hr Hchi Hgam Hmc) as (k & pl & pr & s & Hk & Epl & Epr & Hb & Es & Hs & Eo).
    cbn zeta in Eo. eexists. split; [exact Eo|]. exists r.
    set (se := if Rlt_dec r (1 / 2) then s else 1 - s) in *.
    assert (Hse : 0 <= se <= 1) by (unfold se; destruct (Rlt_dec r (1 / 2)); lra).
    assert (Hge : 1 <= 1 + se * (g - 2)) by nra. assert (Hgq : 1 <= 1 + (1 - se) * (g - 2)) by nra.
    eexists _, _, s, k. split; [reflexivity|]. split; [reflexivity|]. split.
    + split; [|split].
      * rewrite !lorentz_of_gamma by assumption. fold g. ring.
      * exists (p_of_gamma (1 + se * (g - 2)) * (m * cc) * / norm3 p). split.
        { apply Rmult_le_pos; [apply Rmult_le_pos; [apply sqrt_pos|lra]|left; now apply Rinv_0_lt_compat]. }
        { unfold unit3, scale3; cbn. f_equal; ring. }
      * exists (p_of_gamma (1 + (1 - se) * (g - 2)) * (m * cc) * / norm3 p). split.
        { apply Rmult_le_pos; [apply Rmult_le_pos; [apply sqrt_pos|lra]|left; now apply Rinv_0_lt_compat]. }
        { unfold unit3, scale3; cbn. f_equal; ring. }
    + cbn zeta. rewrite Epl, Epr. cbn [val]. split; [exact Hk|]. split; [exact Hb|]. split; [exact Es|]. split; [exact Hs|].
      unfold se in *. destruct (Rlt_dec r (1 / 2)).
      * now rewrite lorentz_of_gamma by assumption.
      * rewrite lorentz_of_gamma by assumption. fold g. ring.
  - exists prs. split; [exact Ep|]. exists (fun j => val (P j)). split; [now rewrite P0|]. split; [now rewrite Hl|]. split; [|split].
    + intros j Hjj. destruct (Hj j Hjj) as (q & Hq & ->). exact Hq.
    + intros Hin. assert (tc = chi) by (unfold tc; rewrite Rmin_right, Rmax_right by lra; reflexivity).
      assert (Hw : el (lin_grid (ln a) (ln b) n) 0 <= ln tc <= el (lin_grid (ln a) (ln b) n) (n - 1)).
      { rewrite lin_grid_first, lin_grid_last by exact Hn. rewrite H. split.
        - destruct (Req_dec a chi) as [->|]; [lra|]. apply Rlt_le, ln_increasing; lra.
        - destruct (Req_dec chi b) as [->|]; [lra|]. apply Rlt_le, ln_increasing; lra. }
      destruct (Hcell Hw) as (i & Hi & Hwi & Hz). exists i. split; [exact Hi|]. cbn zeta.
      rewrite !lin_grid_el in * by lia. rewrite H in *. split; [exact Hwi|]. intros j Hjj.
      destruct (Hz j Hjj) as (r1 & r2 & E1 & E2 & E3). exists r1, r2. split; [exact E1|]. split; [exact E2|].
      rewrite E3. reflexivity.
    + exact HF.
Qed.

Lemma internal_pairs_safe si p E B lam (weight : num N) t (c : bw_ctrl N) us a b n (ys : list R) z :
  bc_tpair_min c = Fin a -> bc_tpair_max c = Fin b -> 0 < a < b -> (2 <= n)%nat -> (Z.of_nat n < 2 ^ 31)%Z ->
  has_data t (lin_grid (ln a) (ln b) n) ys z -> (forall i, (i < n)%nat -> z i 0%nat = NInf /\ z i (length ys - 1)%nat = Fin (ln (1 / 2))) ->
  fits ys -> (2 <= length ys)%nat -> 0 < lam -> unit_draws (tg := tg) us ->
  exists prs, bw_internal_generate (units si) (F3 tg p) (F3 tg E) (F3 tg B) weight (Z.of_nat (length us)) (Fin lam) t c us = Ret prs.
Proof.
  intros Ea Eb Hab Hn Hn31 Hd Hsh Fy Hny Hlam Hus.
  destruct (chi_photon_nonneg tg si p E B lam Hlam) as (chi & Echi & Hchi).
  pose proof (lin_grid_length (ln a) (ln b) n) as Ln.
  assert (Hlnab : ln a < ln b) by (apply ln_increasing; lra).
  pose proof (lin_grid_equispaced (ln a) (ln b) n Hn Hlnab) as Heq.
  set (tc := Rmax a (Rmin b chi)).
  assert (Htc : 0 < tc) by (unfold tc; pose proof (Rmax_l a (Rmin b chi)); lra).
  destruct (pair_columns_ends t (lin_grid (ln a) (ln b) n) ys z (ln tc) Hd Heq) as (P & Hc & Hl & P0); try (rewrite ?Ln; assumption).
  { unfold fits. now rewrite Ln. }
  unfold bw_internal_generate. cbn zeta. rewrite Echi, Ea, Eb. rewrite clamp_val by lra. fold tc.
  replace tc with (exp (ln tc)) by (now apply exp_ln). rewrite Nat2Z.id.
  edestruct (mapM_zget_exists (fun u => @bw_one_pair N (Fin chi) (Fin (exp (ln tc))) (norm (F3 tg p) / (u_emass (units si) * u_c (units si)))%N
     (u_emass (units si) * u_c (units si))%N (weight / n_of_Z (Z.of_nat (length us)))%N (vdiv (F3 tg p) (norm (F3 tg p))) t u) (fun _ _ => True) us) as (prs & Ep & _).
  - intros u Hu. unfold unit_draws in Hus. rewrite Forall_forall in Hus. destruct (Hus u Hu) as (r & -> & Hr).
    destruct (one_pair_safe t ys (ln tc) P (Fin chi) (norm (F3 tg p) / (u_emass (units si) * u_c (units si)))%N
     (u_emass (units si) * u_c (units si))%N (weight / n_of_Z (Z.of_nat (length us)))%N (vdiv (F3 tg p) (norm (F3 tg p))) r Hc ltac:(apply Hd) Fy Hny Hl P0 Hr) as (q & Eq).
    exists q. split; [exact Eq|exact I].
  - exists prs. exact Ep.
Qed.

(** at an interior node of the table *)
Lemma nan_scale n3 : @vscale_l N NaN (F3 tg n3) = @V3 N NaN NaN NaN.
Proof. reflexivity. Qed.

Lemma one_pair_nan t ys w P chi g mec nw n3 u : cols t w (length ys) P -> t2_y t = map Fin ys -> fits ys -> (2 <= length ys)%nat ->
  P (length ys - 1)%nat = Fin (1 / 2) -> P 0%nat = NaN -> 0 <= u < 1 ->
  (let v := if Rlt_dec u (1 / 2) then u else u - 1 / 2 in forall j, (0 < j < length ys)%nat -> exists q, P j = Fin q /\ v < q) ->
  0 < chi ->
  @bw_one_pair N (Fin chi) (Fin (exp w)) (Fin g) (Fin mec) nw (F3 tg n3) t (Fin u)
  = Ret ((@V3 N NaN NaN NaN, nw), (@V3 N NaN NaN NaN, nw)).
Proof.
  intros Hc Hy Hf Hn Hl H0 Hu Hj Hchi. cbn zeta in Hj. set (prob := if Rlt_dec u (1 / 2) then u else u - 1 / 2) in *.
  assert (Hp : 0 <= prob < 1 / 2) by (unfold prob; destruct (Rlt_dec u (1 / 2)); lra).
  assert (Ep : (if Rleb (1 / 2) u then Fin (u - 1 / 2) else Fin u) = Fin prob).
  { unfold prob. destruct (Rlt_dec u (1 / 2)); [now rewrite Rleb_false by lra|now rewrite Rleb_true by lra]. }
  destruct (search_bounds t ys w P prob Hc Hn Hl (or_intror H0) Hp) as (k & E & Hk & B1 & B2).
  assert (k = 0%nat).
  { destruct k; [reflexivity|]. destruct (Hj (S k) ltac:(lia)) as (q & Eq & Hq). rewrite Eq in B1. cbn in B1.
    rewrite Rltb_true in B1 by assumption. discriminate. }
  subst k. destruct (Hj 1%nat ltac:(lia)) as (q & Eq & Hq).
  unfold bw_one_pair. cbn zeta. unfold n_one, n_two. rewrite !flit, (fdiv tg 1 2) by lra.
  cbn [n_le n_log RX x_le]. rewrite x_log_fin by apply exp_pos. rewrite ln_exp.
  rewrite (fsub tg u).
  replace (zlen (t2_y t)) with (Z.of_nat (length ys)) by (rewrite Hy; unfold zlen; now rewrite map_length).
  replace (length (t2_y t)) with (length ys) by (rewrite Hy; now rewrite map_length).
  change (num N) with rx. rewrite Ep. rewrite E. cbn [bind].
  change (wrap64 (Z.of_nat 1 - 1)) with (Z.of_nat 0).
  change rx with (num N).
  rewrite (vget_ys t ys 1 Hy Hk Hf), (vget_ys t ys 0 Hy ltac:(lia) Hf). cbn [bind].
  destruct (Hc 1%nat Hk) as (v1 & E1 & X1). destruct (Hc 0%nat ltac:(lia)) as (v2 & E2 & X2). rewrite E1, E2. cbn [bind].
  rewrite X1, X2, H0, Eq. rewrite !fsub, (fdiv tg (g - 2) chi) by exact Hchi.
  destruct (Rleb (1 / 2) u); cbn; reflexivity.
Qed.

(** ** counting draws, for every arithmetic *)
End P.

Lemma draw_unf_length {N} (G : Rng N) n : forall s, length (fst (draw_unf G n s)) = n.
Proof.
  induction n as [|n IH]; intros s; [reflexivity|]. cbn [draw_unf]. destruct (rng_unf G s n_zero n_one) as (u, s1).
  specialize (IH s1). destruct (draw_unf G n s1) as (us, s2). cbn in *. now rewrite IH.
Qed.

Lemma draw_unf_state {N} (G : Rng N) n : forall s, snd (draw_unf G n s) = nth_state G n s.
Proof.
  induction n as [|n IH]; intros s; [reflexivity|]. cbn [draw_unf nth_state]. destruct (rng_unf G s n_zero n_one) as (u, s1).
  specialize (IH s1). destruct (draw_unf G n s1) as (us, s2). exact IH.
Qed.

Lemma draw_unf_unit {tg} (G : Rng (RX tg)) n : unit_rng G -> forall s, unit_draws (fst (draw_unf G n s)).
Proof.
  intros HG. induction n as [|n IH]; intros s; [constructor|]. cbn [draw_unf]. destruct (HG s) as (r & s' & -> & Hr).
  specialize (IH s'). destruct (draw_unf G n s') as (us, s2). constructor; [eauto|exact IH].
Qed.

Lemma Forall2_length {A B} (Q : A -> B -> Prop) l r : Forall2 Q l r -> length l = length r.
Proof. induction 1; cbn; congruence. Qed.

Lemma bw_generate_count {N} U (G : Rng N) (x x' : bw_engine G) p e b weight sampling els poss : (0 <= sampling)%Z ->
  bw_generate U G x p e b weight sampling = Ret (els, poss, x') ->
  zlen els = sampling /\ zlen poss = sampling /\
  (forall q, In q els \/ In q poss -> snd q = (weight / n_of_Z sampling)%N) /\
  be_rng x' = nth_state G (Z.to_nat sampling) (be_rng x) /\
  be_lambda x' = be_lambda x /\ be_ctrl x' = be_ctrl x /\ be_TT x' = be_TT x /\ be_cum x' = be_cum x.
Proof.
  intros Hs. unfold bw_generate. pose proof (draw_unf_length G (Z.to_nat sampling) (be_rng x)) as Hl.
  pose proof (draw_unf_state G (Z.to_nat sampling) (be_rng x)) as Hst.
  destruct (draw_unf G (Z.to_nat sampling) (be_rng x)) as (us, r). cbn in Hl, Hst.
  destruct (bw_internal_generate _ _ _ _ _ _ _ _ _ us) as [prs| | |] eqn:E; cbn; try discriminate.
  intros H. injection H as <- <- <-. cbn. unfold bw_internal_generate in E. apply mapM_Forall2 in E.
  pose proof (Forall2_length _ _ _ E) as HL. rewrite zseq_length in HL.
  assert (Hw : forall q, In q prs -> snd (fst q) = (weight / n_of_Z sampling)%N /\ snd (snd q) = (weight / n_of_Z sampling)%N).
  { intros q Hq. clear HL. induction E as [|s q' l r' Hsq HF IH]; [contradiction|].
    destruct Hq as [->|Hq]; [|now apply IH].
    destruct (zget us s); try discriminate. cbn [bind] in Hsq. unfold bw_one_pair in Hsq. cbn zeta in Hsq.
    repeat (match type of Hsq with (do _ <- ?m; _) = _ => destruct m; cbn [bind] in Hsq; try discriminate end).
    injection Hsq as <-. split; reflexivity. }
  split; [unfold zlen; rewrite map_length; lia|]. split; [unfold zlen; rewrite map_length; lia|]. split.
  - intros q [Hq|Hq]; apply in_map_iff in Hq as (q' & <- & Hq'); now apply Hw.
  - repeat split; auto.
Qed.

Lemma sum_const l w : Forall (eq (Fin w)) l -> sum_weights l = Fin (INR (length l) * w).
Proof.
  induction 1 as [|a l <- Hl IH]; [cbn; f_equal; ring|]. cbn [sum_weights length]. rewrite IH, S_INR. cbn. f_equal. ring.
Qed.

Lemma bw_generate_weight_sum tg U (G : Rng (RX tg)) (x x' : bw_engine G) p e b w sampling els poss : (0 < sampling)%Z ->
  bw_generate U G x p e b (Fin w) sampling = Ret (els, poss, x') ->
  sum_weights (map snd els) = Fin w /\ sum_weights (map snd poss) = Fin w.
Proof.
  intros Hs E. destruct (bw_generate_count U G x x' p e b _ sampling els poss ltac:(lia) E) as (L1 & L2 & Hw & _).
  assert (Hn : n_of_Z sampling = (Fin (IZR sampling) : num (RX tg))) by reflexivity.
  assert (Hz : IZR sampling <> 0) by (apply IZR_neq; lia).
  rewrite Hn, fdiv in Hw by (apply IZR_lt; lia).
  assert (D : forall (l : list (particle (RX tg))), zlen l = sampling -> (forall q, In q l -> snd q = (Fin (w / IZR sampling) : num (RX tg))) ->
     sum_weights (map snd l) = Fin w).
  { intros l Ll Hl. rewrite (sum_const _ (w / IZR sampling)).
    - match goal with |- Fin (?k * _) = _ => assert (Hk : k = IZR sampling) end.
      { rewrite map_length, INR_IZR_INZ. f_equal. exact Ll. }
      rewrite Hk. f_equal. field. exact Hz.
    - apply Forall_forall. intros v Hv. apply in_map_iff in Hv as (q & <- & Hq). symmetry. now apply Hl. }
  split; apply D; auto.
Qed.

(** ** the whole generator with a generated table *)
Lemma bw_generate_pairs tg si (Orc : Oracles (RX tg)) (G : Rng (RX tg)) (x : bw_engine G) garbage a b n nf p E B lam chi weight sampling :
  pair_ctrl (be_ctrl x) a b n nf -> good_cumulative Orc a b -> bw_cumulative_table Orc (be_ctrl x) garbage = Ret (be_cum x) ->
  unit_rng G -> be_lambda x = Fin lam -> (0 <= sampling)%Z ->
  chi_photon (units si) (F3 tg p) (F3 tg E) (F3 tg B) (Fin lam) = Fin chi -> 0 < chi -> 2 * (nu_m si * nu_c si) <= norm3 p ->
  (forall i, (0 < i < n - 1)%nat -> ln chi <> chi_node a b n i) ->
  exists els poss x', bw_generate (units si) G x (F3 tg p) (F3 tg E) (F3 tg B) weight sampling = Ret (els, poss, x') /\
    exists P : nat -> R, cumulative_at Orc a b n nf chi P /\
    Forall2 (fun u q => exists r pe pq s k, u = Fin r /\ fst (fst q) = F3 tg pe /\ fst (snd q) = F3 tg pq /\
        pair_spec (nu_m si) (nu_c si) p pe pq /\ share_of nf P (if Rlt_dec r (1 / 2) then r else r - 1 / 2) k s /\
        lorentz (nu_m si) (nu_c si) (if Rlt_dec r (1 / 2) then pe else pq) = 1 + s * (norm3 p / (nu_m si * nu_c si) - 2))
      (fst (draw_unf G (Z.to_nat sampling) (be_rng x))) (combine els poss).
Proof.
  intros (Ea & Eb & En & Enf & Hab & Hn & Hnf & Hfit) HO Et HG El Hs Echi Hchi Hg Hnode.
  destruct (generated_pair_table tg Orc (be_ctrl x) garbage a b n nf Ea Eb En Enf Hab Hn Hnf Hfit) as (t & Et' & _ & z & Hd & Hz).
  rewrite Et in Et'. injection Et' as <-. pose proof (generated_shape tg Orc a b n nf z HO Hab Hn Hnf Hz) as Hsh.
  pose proof (lin_grid_length 0 (1 / 2) nf) as Ly. pose proof (lin_grid_increasing 0 (1 / 2) nf Hnf ltac:(lra)) as Hincy.
  pose proof (lin_grid_first 0 (1 / 2) nf Hnf) as Y0. pose proof (lin_grid_last 0 (1 / 2) nf Hnf) as Yl.
  pose proof (draw_unf_length G (Z.to_nat sampling) (be_rng x)) as Hl. pose proof (draw_unf_unit G (Z.to_nat sampling) HG (be_rng x)) as Hu.
  unfold bw_generate. destruct (draw_unf G (Z.to_nat sampling) (be_rng x)) as (us, r). cbn [fst] in *.
  destruct (internal_pairs tg si p E B (be_lambda x) weight (be_cum x) (be_ctrl x) us a b chi n (lin_grid 0 (1 / 2) nf) z)
    as (prs & Ep & P & P0 & Pl & Pj & Pc & HF); try (rewrite ?Ly; assumption).
  { nia. }
  { unfold fits. rewrite Ly. nia. }
  { now rewrite El. }
  replace (Z.of_nat (length us)) with sampling in * by lia. rewrite Ep. cbn [bind]. rewrite Ly in *.
  eexists _, _, _. split; [reflexivity|]. exists P. split.
  - split; [exact P0|]. split; [exact Pl|]. split; [exact Pj|]. intros Hin. destruct (Pc Hin) as (i & Hi & Hw & Hc). exists i. split; [exact Hi|].
    split; [exact Hw|]. intros j Hj. destruct (Hc j Hj) as (r1 & r2 & E1 & E2 & E3).
    rewrite Hz in E1, E2 by lia. replace (j =? 0)%nat with false in E1, E2 by (symmetry; apply Nat.eqb_neq; lia).
    replace (S j =? nf)%nat with false in E1, E2 by (symmetry; apply Nat.eqb_neq; lia).
    assert (D : forall i, (i < n)%nat -> exists v, 0 < v /\ bw_cumulative_pair Orc (Fin (exp (chi_node a b n i))) (Fin (exp (chi_node a b n i) * (INR j * (1 / 2 / INR (nf - 1))))) = Fin v /\
       x_log (bw_cumulative_pair Orc (Fin (el (log_grid a b n) i)) (Fin (el (log_grid a b n) i * el (lin_grid 0 (1 / 2) nf) j))) = Fin (ln v)).
    { intros k Hk.
      assert (Ek : el (log_grid a b n) k = exp (chi_node a b n k)).
      { unfold chi_node. rewrite <- log_grid_ln by assumption. symmetry. apply exp_ln. now apply log_grid_pos. }
      assert (Ej : el (lin_grid 0 (1 / 2) nf) j = INR j * (1 / 2 / INR (nf - 1))).
      { rewrite lin_grid_el by lia. unfold Rdiv. ring. }
      rewrite Ek, Ej. destruct (HO (exp (chi_node a b n k)) (INR j * (1 / 2 / INR (nf - 1)))) as (v & Hv & Ev).
      - rewrite <- Ek. pose proof (log_grid_increasing a b n Hn Hab) as Hinc. rewrite <- (log_grid_first a b n Hn Hab) at 1.
        rewrite <- (log_grid_last a b n Hn Hab) at 4. unfold strictly_increasing in Hinc. rewrite log_grid_length in Hinc. split.
        + destruct (Nat.eq_dec k 0) as [->|]; [lra|]. apply Rlt_le, Hinc. lia.
        + destruct (Nat.eq_dec k (n - 1)) as [->|]; [lra|]. apply Rlt_le, Hinc. lia.
      - rewrite <- Ej. unfold strictly_increasing in Hincy. rewrite Ly in Hincy.
        pose proof (Hincy 0%nat j ltac:(lia)). pose proof (Hincy j (nf - 1)%nat ltac:(lia)). lra.
      - exists v. split; [exact Hv|]. split; [exact Ev|]. rewrite Ev. now apply x_log_fin. }
    destruct (D i ltac:(lia)) as (v1 & V1 & F1 & L1). destruct (D (S i) ltac:(lia)) as (v2 & V2 & F2 & L2).
    exists v1, v2. split; [exact V1|]. split; [exact V2|]. split; [exact F1|]. split; [exact F2|].
    rewrite L1 in E1. rewrite L2 in E2. injection E1 as <-. injection E2 as <-. exact E3.
  - clear - HF Ly Hnf. replace (combine (map fst prs) (map snd prs)) with prs.
    2: { clear. induction prs as [|(a, b) l IH]; cbn; [reflexivity|now rewrite <- IH]. }
    induction HF as [|u q us prs (rr & pe & pq & s & k & Eu & Eq & Hps & Hk & Hb & Es & Hs & Hlor) HF IH]; constructor; [|exact IH].
    exists rr, pe, pq, s, k. rewrite Eq. split; [exact Eu|]. split; [reflexivity|]. split; [reflexivity|]. split; [exact Hps|].
    split; [|exact Hlor]. split; [exact Hk|]. split; [exact Hb|]. split; [|exact Hs]. rewrite Es, !lin_grid_el by lia.
    unfold line. f_equal; [unfold Rdiv; ring|]. f_equal. f_equal. unfold Rdiv. ring.
Qed.

Lemma bw_generate_safe tg si (Orc : Oracles (RX tg)) (G : Rng (RX tg)) (x : bw_engine G) garbage a b n nf p E B lam weight sampling :
  pair_ctrl (be_ctrl x) a b n nf -> bw_cumulative_table Orc (be_ctrl x) garbage = Ret (be_cum x) ->
  unit_rng G -> be_lambda x = Fin lam -> 0 < lam -> (0 <= sampling)%Z ->
  exists els poss x', bw_generate (units si) G x (F3 tg p) (F3 tg E) (F3 tg B) weight sampling = Ret (els, poss, x').
Proof.
  intros (Ea & Eb & En & Enf & Hab & Hn & Hnf & Hfit) Et HG El Hlam Hs.
  destruct (generated_pair_table tg Orc (be_ctrl x) garbage a b n nf Ea Eb En Enf Hab Hn Hnf Hfit) as (t & Et' & _ & z & Hd & Hz).
  rewrite Et in Et'. injection Et' as <-. 
  pose proof (lin_grid_length 0 (1 / 2) nf) as Ly.
  pose proof (draw_unf_length G (Z.to_nat sampling) (be_rng x)) as Hl. pose proof (draw_unf_unit G (Z.to_nat sampling) HG (be_rng x)) as Hu.
  unfold bw_generate. destruct (draw_unf G (Z.to_nat sampling) (be_rng x)) as (us, r). cbn [fst] in *.
  destruct (internal_pairs_safe tg si p E B lam weight (be_cum x) (be_ctrl x) us a b n (lin_grid 0 (1 / 2) nf) z)
    as (prs & Ep); try (rewrite ?Ly; assumption).
  { nia. }
  { rewrite Ly. intros i Hi. rewrite !Hz by lia. split; [reflexivity|]. replace (nf - 1 =? 0)%nat with false by (symmetry; apply Nat.eqb_neq; lia).
    replace (S (nf - 1) =? nf)%nat with true by (symmetry; apply Nat.eqb_eq; lia). reflexivity. }
  { unfold fits. rewrite Ly. nia. }
  rewrite El. replace (Z.of_nat (length us)) with sampling in * by lia. rewrite Ep. cbn [bind]. eauto.
Qed.

Lemma bw_generate_nan tg si (Orc : Oracles (RX tg)) (c : bw_ctrl (RX tg)) garbage t a b n nf p E B lam i weight u :
  pair_ctrl c a b n nf -> good_cumulative Orc a b -> bw_cumulative_table Orc c garbage = Ret t ->
  0 <= u < 1 -> (0 < i < n - 1)%nat ->
  chi_photon (units si) (F3 tg p) (F3 tg E) (F3 tg B) lam = Fin (exp (chi_node a b n i)) -> p <> zero3 ->
  (forall j v, (0 < j < nf - 1)%nat ->
     bw_cumulative_pair Orc (Fin (exp (chi_node a b n i))) (Fin (exp (chi_node a b n i) * (INR j * (1 / 2 / INR (nf - 1))))) = Fin v ->
     (if Rlt_dec u (1 / 2) then u else u - 1 / 2) < v) ->
  exists w, bw_internal_generate (units si) (F3 tg p) (F3 tg E) (F3 tg B) weight 1 lam t c [Fin u : num (RX tg)]
  = Ret [((@V3 (RX tg) NaN NaN NaN, w), (@V3 (RX tg) NaN NaN NaN, w))].
Proof.
  intros (Ea & Eb & En & Enf & Hab & Hn & Hnf & Hfit) HO Et Hu Hi Echi Hp Hlow.
  destruct (generated_pair_table tg Orc c garbage a b n nf Ea Eb En Enf Hab Hn Hnf Hfit) as (t' & Et' & _ & z & Hd & Hz).
  rewrite Et in Et'. injection Et' as <-. pose proof (generated_shape tg Orc a b n nf z HO Hab Hn Hnf Hz) as Hsh.
  pose proof (lin_grid_length 0 (1 / 2) nf) as Ly.
  pose proof (lin_grid_length (ln a) (ln b) n) as Ln.
  assert (Hlnab : ln a < ln b) by (apply ln_increasing; lra).
  pose proof (lin_grid_equispaced (ln a) (ln b) n Hn Hlnab) as Heq.
  set (w := chi_node a b n i) in *.
  assert (Ew : w = el (lin_grid (ln a) (ln b) n) i) by (now rewrite lin_grid_el by lia).
  destruct (pair_columns tg t (lin_grid (ln a) (ln b) n) (lin_grid 0 (1 / 2) nf) z w Hd Heq) as (P & Hc & Hl & Hj & H1 & _ & Hcell); try (rewrite ?Ln, ?Ly; assumption).
  { unfold fits. rewrite Ln. nia. }
  rewrite Ln, Ly in *.
  pose proof (lin_grid_increasing (ln a) (ln b) n Hn Hlnab) as Hinc. unfold strictly_increasing in Hinc. rewrite Ln in Hinc.
  assert (P0 : P 0%nat = NaN) by (apply H1; exists i; repeat split; [lia|lia|exact Ew]).
  assert (Hclamp : Rmax a (Rmin b (exp w)) = exp w).
  { assert (a < exp w < b).
    { pose proof (Hinc 0%nat i ltac:(lia)) as X1. pose proof (Hinc i (n - 1)%nat ltac:(lia)) as X2.
      rewrite lin_grid_first in X1 by exact Hn. rewrite lin_grid_last in X2 by exact Hn. rewrite <- Ew in X1, X2.
      split; apply ln_lt_inv; rewrite ?ln_exp; try apply exp_pos; lra. }
    rewrite Rmin_right, Rmax_right by lra. reflexivity. }
  unfold bw_internal_generate. cbn zeta. rewrite Echi, Ea, Eb, F3_norm, u_m_val, u_c_val, fmul.
  pose proof (norm3_pos p Hp) as Hnp. assert (Hmc : 0 < nu_m si * nu_c si) by (pose proof (nu_m_pos si); pose proof (nu_c_pos si); nra).
  rewrite F3_div by lra. rewrite (fdiv tg (norm3 p)) by assumption. rewrite clamp_val by lra. rewrite Hclamp.
  eexists. change (zseq (Z.to_nat 1)) with [0%Z]. cbn [mapM]. rewrite (@zget_ok (num (RX tg)) _ 0%Z (Fin u)) by (reflexivity || lia). cbn [bind].
  rewrite (one_pair_nan tg t (lin_grid 0 (1 / 2) nf) w P (exp w)); try (rewrite ?Ly; assumption).
  - reflexivity.
  - apply Hd.
  - unfold fits. rewrite Ly. nia.
  - cbn zeta. rewrite Ly. intros j Hjj. destruct (Nat.eq_dec j (nf - 1)) as [->|].
    { exists (1 / 2). split; [exact Hl|]. destruct (Rlt_dec u (1 / 2)); lra. }
    destruct Hcell as (k & Hk & Hwk & Hzz).
    { rewrite Ew. split; apply Rlt_le, Hinc; lia. }
    destruct (Hzz j ltac:(lia)) as (r1 & r2 & E1 & E2 & E3).
    assert (Hki : k = i \/ S k = i).
    { destruct (Nat.lt_trichotomy k i) as [L|[L|L]]; [|auto|].
      - destruct (Nat.eq_dec (S k) i); [auto|]. pose proof (Hinc (S k) i ltac:(lia)). lra.
      - pose proof (Hinc i k ltac:(lia)). lra. }
    assert (Ezij : exists v, 0 < v /\ z i j = Fin (ln v) /\ (if Rlt_dec u (1 / 2) then u else u - 1 / 2) < v).
    { assert (Ei : el (log_grid a b n) i = exp w).
      { unfold w, chi_node. rewrite <- log_grid_ln by (assumption || lia). symmetry. apply exp_ln. apply log_grid_pos; lra || lia. }
      assert (Ej : el (lin_grid 0 (1 / 2) nf) j = INR j * (1 / 2 / INR (nf - 1))).
      { rewrite lin_grid_el by lia. unfold Rdiv. ring. }
      rewrite Hz by lia. replace (j =? 0)%nat with false by (symmetry; apply Nat.eqb_neq; lia).
      replace (S j =? nf)%nat with false by (symmetry; apply Nat.eqb_neq; lia). rewrite Ei, Ej.
      destruct (HO (exp w) (INR j * (1 / 2 / INR (nf - 1)))) as (v & Hv & Ev).
      - rewrite <- Hclamp at 1 2. split; [apply Rmax_l|]. rewrite Hclamp.
        rewrite <- Hclamp. apply Rmax_lub; [lra|apply Rmin_l].
      - rewrite <- Ej. pose proof (lin_grid_increasing 0 (1 / 2) nf Hnf ltac:(lra)) as Hincy. unfold strictly_increasing in Hincy. rewrite Ly in Hincy.
        pose proof (lin_grid_first 0 (1 / 2) nf Hnf) as Y0. pose proof (lin_grid_last 0 (1 / 2) nf Hnf) as Yl.
        pose proof (Hincy 0%nat j ltac:(lia)). pose proof (Hincy j (nf - 1)%nat ltac:(lia)). lra.
      - exists v. split; [exact Hv|]. rewrite Ev. split; [now apply x_log_fin|]. apply (Hlow j v); [lia|exact Ev]. }
    destruct Ezij as (v & Hv & Ezv & Huv). exists v. split; [|exact Huv]. rewrite E3. f_equal.
    pose proof (Hinc k (S k) ltac:(lia)) as Hkk.
    destruct Hki as [->|Hki].
    + rewrite Ezv in E1. injection E1 as <-. rewrite Ew. replace (line _ _ _ _ _) with (ln v); [now apply exp_ln|]. unfold line. field. lra.
    + rewrite Hki in *. rewrite Ezv in E2. injection E2 as <-. rewrite Ew. replace (line _ _ _ _ _) with (ln v); [now apply exp_ln|]. unfold line. field. lra.
  - apply exp_pos.
Qed.

Lemma bw_search_from_start {N : NumOps} (t : lookup_2d N) lw prob (f : nat -> bool) n :
  (forall j, (j < n)%nat -> exists v, interp2_linear_first_equispaced t lw (Z.of_nat j) = Ret v /\ n_lt prob (n_exp v) = f j) ->
  exists k, bw_search t lw prob (S n) 0 (Z.of_nat n) = Ret (Z.of_nat k) /\ (k <= n)%nat /\
    (k = 0%nat \/ f (k - 1)%nat = false) /\ (k = n \/ f k = true).
Proof. intros H. apply (bw_search_spec t lw prob f n H (S n) 0 n); auto; lia. Qed.

Lemma bw_generate_finite tg si (Orc : Oracles (RX tg)) (G : Rng (RX tg)) (x : bw_engine G) garbage a b n nf p E B lam chi weight sampling :
  pair_ctrl (be_ctrl x) a b n nf -> good_cumulative Orc a b -> bw_cumulative_table Orc (be_ctrl x) garbage = Ret (be_cum x) ->
  unit_rng G -> be_lambda x = Fin lam -> (0 <= sampling)%Z ->
  chi_photon (units si) (F3 tg p) (F3 tg E) (F3 tg B) (Fin lam) = Fin chi -> 0 < chi -> 2 * (nu_m si * nu_c si) <= norm3 p ->
  (forall i, (0 < i < n - 1)%nat -> ln chi <> chi_node a b n i) ->
  exists els poss x', bw_generate (units si) G x (F3 tg p) (F3 tg E) (F3 tg B) weight sampling = Ret (els, poss, x') /\
    forall q, In q els \/ In q poss -> exists pr, fst q = F3 tg pr.
Proof.
  intros H1 H2 H3 H4 H5 H6 H7 H8 H9 H10.
  destruct (bw_generate_pairs tg si Orc G x garbage a b n nf p E B lam chi weight sampling H1 H2 H3 H4 H5 H6 H7 H8 H9 H10)
    as (els & poss & x' & Eg & P & _ & HF).
  exists els, poss, x'. split; [exact Eg|].
  destruct (bw_generate_count _ G x x' _ _ _ _ _ _ _ H6 Eg) as (L1 & L2 & _). unfold zlen in L1, L2.
  assert (HL : length els = length poss) by lia. clear - HF HL.
  remember (fst (draw_unf G (Z.to_nat sampling) (be_rng x))) as us. clear Hequs.
  revert us poss HL HF. induction els as [|q els IH]; intros us [|r poss] HL HF; cbn in HL; try lia.
  - intros q [[]|[]].
  - cbn [combine] in HF. inversion HF as [|u y us' ys' (rr & pe & pq & s & k & _ & E1 & E2 & _) HF' E3 E4]; subst.
    intros v [[<-|Hv]|[<-|Hv]]; eauto.
Qed.

Lemma tables_generated {N : NumOps} (Orc : Oracles N) (c : bw_ctrl N) (d : qs_ctrl N) garbage :
  (2 <= length (generate_lin_spaced_vec (N := N) n_zero (n_one / n_two)%N (bc_frac_how_many c)))%nat ->
  (Z.of_nat (length (generate_log_spaced_vec (bc_tpair_min c) (bc_tpair_max c) (bc_tpair_how_many c)) *
             length (generate_lin_spaced_vec (N := N) n_zero (n_one / n_two)%N (bc_frac_how_many c))) < 2 ^ 31)%Z ->
  (2 <= length (generate_lin_spaced_vec (N := N) (n_lit 0 0) (n_lit 1 0) (qc_prob_how_many d)))%nat ->
  (Z.of_nat (length (generate_log_spaced_vec (qc_tem_min d) (qc_tem_max d) (qc_tem_how_many d)) *
             length (generate_lin_spaced_vec (N := N) (n_lit 0 0) (n_lit 1 0) (qc_prob_how_many d))) < 2 ^ 31)%Z ->
  (exists t, bw_cumulative_table Orc c garbage = Ret t) /\ (exists t, QuantumSync.qs_cumulative_table Orc d garbage = Ret t).
Proof.
  intros A1 A2 A3 A4. split.
  - destruct (bw_table_schedules Orc c garbage A1 A2) as (its & _ & _ & H).
    destruct (H (concat its) (concat_interleaving its)) as (arr & _ & E & _). eauto.
  - destruct (qs_table_schedules Orc d garbage A3 A4) as (its & _ & _ & H).
    destruct (H (concat its) (concat_interleaving its)) as (arr & _ & E & _). eauto.
Qed.
