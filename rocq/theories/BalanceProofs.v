(** Proofs about balance_in_dir (LoadBalance.v). *)
From Coq Require Import ZArith Reals List Bool Lia Lra.
From Verif Require Import Cxx Num NumRX Fortran FortranNum CxxLemmas RXLemmas FortranLemmas LoadBalance SpecDecomp.
Import ListNotations.
Local Open Scope Z_scope.

Lemma zel_lset_same l i v : 0 <= i < zlen l -> zel (lset l (Z.to_nat i) v) i = v.
Proof. intros H. unfold zel. apply nth_lset_same. unfold zlen in H. lia. Qed.

Lemma zel_lset_other l i j v : 0 <= i -> 0 <= j -> i <> j -> zel (lset l (Z.to_nat i) v) j = zel l j.
Proof. intros. unfold zel. apply nth_lset_other. lia. Qed.

Section Gen.
Context {N : FNum}.

Lemma balance_while_spec load ncell (target : num N) fuel : forall icell cur,
  zlen load = ncell -> 0 <= icell -> 0 < Z.of_nat fuel -> ncell - icell < Z.of_nat fuel ->
  exists ic c, balance_while fuel load ncell target icell cur = Ret (ic, c) /\
    icell <= ic <= Z.max icell (ncell - 1).
Proof.
  induction fuel as [|fuel IH]; intros icell cur HL H0 HF0 HF; [lia|].
  cbn [balance_while]. destruct (Z.ltb_spec icell (ncell - 1)).
  - rewrite (zget_nth load icell (n_of_Z 0)) by lia. cbn [bind].
    destruct (_ >=? target)%N.
    + eexists _, _. split; [reflexivity|lia].
    + edestruct (IH (icell + 1)) as (ic & c & E & ?); [exact HL|lia..|].
      exists ic, c. split; [exact E|lia].
  - eexists _, _. split; [reflexivity|lia].
Qed.

Definition bal_inv (ncell nproc i : Z) (s : bal_state N) : Prop :=
  zlen (bs_min s) = nproc /\ zlen (bs_max s) = nproc /\ zlen (bs_per_proc s) = nproc /\
  (i = 0 -> bs_icell s = 0) /\ 0 <= bs_icell s /\
  (0 < i -> zel (bs_min s) 0 = 0) /\
  (forall p, 0 <= p < i -> zel (bs_min s) p <= zel (bs_max s) p /\
                           zel (bs_max s) p <= Z.max (zel (bs_min s) p) (ncell - 1)) /\
  (forall p, 0 <= p -> p + 1 < i -> zel (bs_min s) (p + 1) = zel (bs_max s) p + 1) /\
  (0 < i < nproc -> bs_icell s = zel (bs_max s) (i - 1) + 1) /\
  (i = nproc -> ncell - 2 <= zel (bs_max s) (nproc - 1)).

Lemma balance_body_inv load ncell nproc balanced i s :
  zlen load = ncell -> 0 <= i < nproc -> bal_inv ncell nproc i s ->
  exists s', balance_body load ncell nproc balanced i s = Ret s' /\ bal_inv ncell nproc (i + 1) s'.
Proof.
  intros HL Hi (L1 & L2 & L3 & Z0 & P0 & M0 & HM & HC & HI & HE).
  unfold balance_body. rewrite zset_ok by lia. cbn [bind].
  destruct (balance_while_spec load ncell (bs_target s) (S (Z.to_nat ncell)) (bs_icell s) (n_of_Z 0) HL)
    as (ic & c & E & Hic); [lia..|].
  unfold zlen in HL. rewrite E. cbn [bind]. rewrite zset_ok by lia. cbn [bind]. rewrite zset_ok by lia. cbn [bind].
  assert (HM0 : i <> 0 -> zel (bs_min s) 0 = 0) by (intros; apply M0; lia).
  assert (common : forall s' v, bs_min s' = lset (bs_min s) (Z.to_nat i) (bs_icell s) ->
            bs_max s' = lset (bs_max s) (Z.to_nat i) v -> zlen (bs_per_proc s') = nproc ->
            bs_icell s' = ic + 1 -> bs_icell s <= v <= Z.max (bs_icell s) (ncell - 1) ->
            (i + 1 < nproc -> v = ic) -> (i + 1 = nproc -> ncell - 2 <= v) ->
            bal_inv ncell nproc (i + 1) s').
  { intros s' v E1 E2 E3 E4 Hv Hv1 Hv2. unfold bal_inv. rewrite E1, E2, E4, !zlen_lset.
    repeat split; try lia.
    - intros _. destruct (Z.eq_dec i 0) as [->|].
      + rewrite zel_lset_same by lia. auto.
      + rewrite zel_lset_other by lia. auto.
    - destruct (Z.eq_dec p i) as [->|].
      + rewrite !zel_lset_same by lia. lia.
      + rewrite !zel_lset_other by lia. apply HM. lia.
    - destruct (Z.eq_dec p i) as [->|].
      + rewrite !zel_lset_same by lia. lia.
      + rewrite !zel_lset_other by lia. apply HM. lia.
    - intros p Hp Hp1. destruct (Z.eq_dec (p + 1) i) as [<-|].
      + rewrite zel_lset_same, zel_lset_other by lia. rewrite HI by lia. f_equal. f_equal. lia.
      + rewrite !zel_lset_other by lia. apply HC; lia.
    - intros ?. replace (i + 1 - 1) with i by lia. rewrite zel_lset_same by lia. rewrite Hv1; lia.
    - intros ?. replace (nproc - 1) with i by lia. rewrite zel_lset_same by lia. auto. }
  destruct ((i =? nproc - 1) && (ic + 1 <? ncell - 1)) eqn:Eb.
  - apply andb_true_iff in Eb as [B1 B2]. apply Z.eqb_eq in B1. apply Z.ltb_lt in B2.
    rewrite zset_ok by (rewrite zlen_lset; lia). cbn [bind]. eexists. split; [reflexivity|].
    apply (common _ (ncell - 1)); cbn [bs_min bs_max bs_per_proc bs_icell]; try reflexivity; try lia; [|rewrite zlen_lset; exact L3].
    clear. revert i. intros i. generalize (Z.to_nat i). induction (bs_max s); intros [|n]; cbn; auto. now rewrite IHl.
  - apply andb_false_iff in Eb. rewrite Z.eqb_neq, Z.ltb_ge in Eb.
    cbn [bind]. eexists. split; [reflexivity|].
    apply (common _ ic); cbn [bs_min bs_max bs_per_proc bs_icell]; try reflexivity; try lia. rewrite zlen_lset; exact L3.
Qed.

(** any arithmetic *)
Theorem balance_in_dir_cover load ncell nproc mins0 maxs0 :
  zlen load = ncell -> 1 <= nproc -> zlen mins0 = nproc -> zlen maxs0 = nproc ->
  exists mins maxs, balance_in_dir (N := N) load ncell nproc mins0 maxs0 = Ret (mins, maxs) /\
    zlen mins = nproc /\ zlen maxs = nproc /\ zel mins 0 = 0 /\
    (forall p, 0 <= p < nproc -> zel mins p <= zel maxs p) /\
    (forall p, 0 <= p -> p + 1 < nproc -> zel mins (p + 1) = zel maxs p + 1) /\
    ncell - 2 <= zel maxs (nproc - 1) /\
    (forall p, 0 <= p < nproc -> zel maxs p <= Z.max (zel mins p) (ncell - 1)).
Proof.
  intros HL Hn L1 L2. unfold balance_in_dir.
  edestruct (do_range_inv (bal_inv ncell nproc) (balance_body load ncell nproc (sum_array load / n_of_Z nproc)%N) 0 (nproc - 1))
    as (s & E & H); [lia| | |].
  2:{ intros j s Hj. apply balance_body_inv; [exact HL|lia]. }
  2:{ cbv zeta. rewrite E. cbn [bind]. exists (bs_min s), (bs_max s). split; [reflexivity|].
      replace (nproc - 1 + 1) with nproc in H by lia.
      destruct H as (A1 & A2 & A3 & Z0 & P0 & M0 & HM & HC & HI & HE).
      repeat split; auto; try (intros; apply HM; lia). apply M0; lia. }
  unfold bal_inv. cbn [bs_min bs_max bs_per_proc bs_icell]. repeat split; try lia.
  unfold zlen. rewrite repeat_length. lia.
Qed.
End Gen.

(** exact arithmetic *)
Definition lb (rs : list R) (k : Z) : R := load_before rs (Z.to_nat k).

Lemma lb_succ rs k : 0 <= k -> lb rs (k + 1) = (lb rs k + nth (Z.to_nat k) rs 0)%R.
Proof. intros. unfold lb. replace (Z.to_nat (k + 1)) with (S (Z.to_nat k)) by lia. reflexivity. Qed.

Lemma balance_while_exact rs ncell t l0 fuel : forall k,
  zlen rs = ncell -> 0 <= k -> 0 < Z.of_nat fuel -> ncell - k < Z.of_nat fuel ->
  exists ic c, balance_while (N := FRX) fuel (map Fin rs) ncell (Fin t) k (Fin (lb rs k - l0)) = Ret (ic, Fin c) /\
    k <= ic <= Z.max k (ncell - 1) /\
    (forall j, k <= j < ic -> (lb rs (j + 1) - l0 < t)%R) /\
    (ic < ncell - 1 -> (lb rs (ic + 1) - l0 >= t)%R /\ c = (lb rs (ic + 1) - l0)%R).
Proof.
  induction fuel as [|fuel IH]; intros k HL H0 HF0 HF; [lia|].
  cbn [balance_while]. destruct (Z.ltb_spec k (ncell - 1)).
  - rewrite (zget_nth (A := num FRX) (map Fin rs) k (Fin 0)) by (unfold zlen in *; rewrite map_length; lia).
    change (nth (Z.to_nat k) (map Fin rs) (Fin 0 : num FRX)) with (nth (Z.to_nat k) (map Fin rs) (Fin 0)).
    rewrite (map_nth Fin). cbn [bind].
    replace (@n_add FRX (Fin (lb rs k - l0)) (Fin (nth (Z.to_nat k) rs 0%R))) with (Fin (lb rs (k + 1) - l0))
      by (cbn; f_equal; rewrite lb_succ by lia; lra).
    destruct (@n_le FRX (Fin t) (Fin (lb rs (k + 1) - l0))) eqn:E.
    + exists k, (lb rs (k + 1) - l0)%R. split; [reflexivity|]. split; [lia|]. split; [lia|].
      intros _. split; [|reflexivity]. cbn in E. destruct (Rleb_spec t (lb rs (k + 1) - l0)); [lra|discriminate].
    + destruct (IH (k + 1) HL) as (ic & c & E' & Hic & Hl & Hg); [lia..|].
      exists ic, c. split; [exact E'|]. split; [lia|]. split; [|exact Hg].
      intros j Hj. destruct (Z.eq_dec j k) as [->|]; [|apply Hl; lia].
      cbn in E. destruct (Rleb_spec t (lb rs (k + 1) - l0)); [discriminate|lra].
  - exists k, (lb rs k - l0)%R. split; [reflexivity|]. split; [lia|]. split; [lia|lia].
Qed.

Fixpoint rsum (l : list R) : R := match l with [] => 0%R | x :: t => (x + rsum t)%R end.

Lemma fold_add_fin l : forall a, fold_left (@n_add FRX) (map Fin l) (Fin a) = Fin (a + rsum l).
Proof.
  induction l as [|x l IH]; intros a; cbn [fold_left map rsum].
  - f_equal. lra.
  - replace (@n_add FRX (Fin a) (Fin x)) with (Fin (a + x)) by reflexivity. rewrite IH. f_equal. lra.
Qed.

Lemma rsum_app a b : rsum (a ++ b) = (rsum a + rsum b)%R.
Proof. induction a; cbn; [lra|rewrite IHa; lra]. Qed.
Lemma rsum_zeros n : rsum (repeat 0%R n) = 0%R.
Proof. induction n; cbn; [lra|rewrite IHn; lra]. Qed.

Lemma load_before_app a b k : (k <= length a)%nat -> load_before (a ++ b) k = load_before a k.
Proof.
  induction k; intros H; [reflexivity|]. cbn [load_before]. rewrite IHk by lia. now rewrite app_nth1 by lia.
Qed.

Lemma total_rsum l : total_load l = rsum l.
Proof.
  unfold total_load. induction l as [|x l IH] using rev_ind; [reflexivity|].
  rewrite app_length. cbn [length]. replace (length l + 1)%nat with (S (length l)) by lia.
  cbn [load_before]. rewrite load_before_app by lia. rewrite IH, rsum_app, app_nth2, Nat.sub_diag by lia. cbn. lra.
Qed.

Lemma sum_array_fin l : @sum_array FRX (map Fin l) = Fin (total_load l).
Proof. unfold sum_array. change (@n_of_Z FRX 0) with (Fin (IZR 0)). rewrite fold_add_fin, total_rsum. f_equal. lra. Qed.

Lemma lset_mid {A} (a b : list A) x y : lset (a ++ x :: b) (length a) y = a ++ y :: b.
Proof. induction a; cbn; [reflexivity|now rewrite IHa]. Qed.

Section Exact.
Variable rs : list R.
Variables (ncell nproc : Z) (B : R).
Hypothesis HL : zlen rs = ncell.
Hypothesis HB : (B * IZR nproc)%R = total_load rs.
Hypothesis Hnc : 1 <= ncell.
Hypothesis Hpos : forall j, (0 <= nth j rs 0)%R.
Hypothesis Hlast : (0 < nth (Z.to_nat (ncell - 1)) rs 0)%R.

Lemma lb_mono a b : a <= b -> (lb rs a <= lb rs b)%R.
Proof.
  intros H. unfold lb. assert (Hn : (Z.to_nat a <= Z.to_nat b)%nat) by lia.
  revert Hn. generalize (Z.to_nat a) (Z.to_nat b). induction 1; [lra|]. cbn [load_before]. specialize (Hpos m). lra.
Qed.

Lemma lb_total : lb rs ncell = total_load rs.
Proof. unfold lb, total_load. f_equal. unfold zlen in HL. lia. Qed.

Lemma lb_before_last j : j <= ncell - 1 -> (lb rs j < total_load rs)%R.
Proof.
  intros. rewrite <- lb_total. replace ncell with (ncell - 1 + 1) by lia. rewrite lb_succ by lia.
  pose proof (lb_mono j (ncell - 1) ltac:(lia)). lra.
Qed.

Definition bal_exact (i : Z) (s : bal_state FRX) : Prop :=
  bal_inv (N := FRX) ncell nproc i s /\
  (bs_icell s <= ncell - 1 ->
     (exists pr, bs_per_proc s = map Fin (pr ++ repeat 0%R (Z.to_nat (nproc - i))) /\ zlen pr = i /\ rsum pr = lb rs (bs_icell s)) /\
     bs_target s = Fin ((IZR i + 1) * B - lb rs (bs_icell s))) /\
  (forall p, 0 <= p < i ->
     (forall c, zel (bs_min s) p <= c < zel (bs_max s) p -> (lb rs (c + 1) < (IZR p + 1) * B)%R) /\
     (zel (bs_max s) p < ncell - 1 -> (lb rs (zel (bs_max s) p + 1) >= (IZR p + 1) * B)%R)) /\
  (i = nproc -> ncell - 1 <= zel (bs_max s) (nproc - 1)).

Lemma balance_body_exact i s : 0 <= i < nproc -> bal_exact i s ->
  exists s', balance_body (N := FRX) (map Fin rs) ncell nproc (Fin B) i s = Ret s' /\ bal_exact (i + 1) s'.
Proof.
  intros Hi (HG & HP & HQ & HE0).
  assert (HLm : zlen (map Fin rs) = ncell) by (unfold zlen in *; now rewrite map_length).
  destruct (balance_body_inv (N := FRX) (map Fin rs) ncell nproc (Fin B) i s HLm Hi HG) as (s' & E & HG').
  exists s'. split; [exact E|]. split; [exact HG'|].
  destruct HG as (L1 & L2 & L3 & Z0 & P0 & M0 & HM & HC & HI & HE).
  unfold balance_body in E. rewrite zset_ok in E by lia. cbn [bind] in E.
  (* the while loop *)
  assert (HW : exists ic c, balance_while (N := FRX) (S (Z.to_nat ncell)) (map Fin rs) ncell (bs_target s) (bs_icell s) (n_of_Z 0) = Ret (ic, c) /\
     bs_icell s <= ic <= Z.max (bs_icell s) (ncell - 1) /\
     (forall j, bs_icell s <= j < ic -> (lb rs (j + 1) < (IZR i + 1) * B)%R) /\
     (ic < ncell - 1 -> (lb rs (ic + 1) >= (IZR i + 1) * B)%R /\ c = Fin (lb rs (ic + 1) - lb rs (bs_icell s)))).
  { destruct (Z.le_gt_cases (bs_icell s) (ncell - 1)) as [Hle|Hgt].
    - destruct (HP Hle) as ((pr & E1 & E2 & E3) & Et). rewrite Et.
      change (@n_of_Z FRX 0) with (Fin (IZR 0)). replace (IZR 0) with (lb rs (bs_icell s) - lb rs (bs_icell s))%R by (cbn; lra).
      destruct (balance_while_exact rs ncell ((IZR i + 1) * B - lb rs (bs_icell s)) (lb rs (bs_icell s)) (S (Z.to_nat ncell)) (bs_icell s) HL)
        as (ic & c & Ew & H1 & H2 & H3); [lia..|].
      exists ic, (Fin c). split; [exact Ew|]. split; [exact H1|]. split.
      + intros j Hj. specialize (H2 j Hj). lra.
      + intros Hic. destruct (H3 Hic) as [? ->]. split; [lra|reflexivity].
    - destruct (balance_while_spec (N := FRX) (map Fin rs) ncell (bs_target s) (S (Z.to_nat ncell)) (bs_icell s) (n_of_Z 0) HLm)
        as (ic & c & Ew & H1); [lia..|].
      exists ic, c. split; [exact Ew|]. split; [exact H1|]. split; [lia|lia]. }
  destruct HW as (ic & c & Ew & H1 & H2 & H3). rewrite Ew in E. cbn [bind] in E.
  rewrite zset_ok in E by lia. cbn [bind] in E. rewrite zset_ok in E by lia. cbn [bind] in E.
  assert (Hlst : i = nproc - 1 -> ncell - 1 <= ic).
  { intros Ei. destruct (Z.le_gt_cases (ncell - 1) ic) as [|Hc]; [assumption|]. exfalso.
    destruct (H3 Hc) as [H4 _]. pose proof (lb_before_last (ic + 1) ltac:(lia)).
    subst i. rewrite minus_IZR in H4. rewrite <- HB in H. lra. }
  replace ((i =? nproc - 1) && (ic + 1 <? ncell - 1)) with false in E.
  2:{ symmetry. destruct (Z.eqb_spec i (nproc - 1)); [|reflexivity]. cbn. apply Z.ltb_ge. specialize (Hlst ltac:(lia)). lia. }
  cbn [bind] in E. injection E as <-. cbn [bs_min bs_max bs_icell bs_per_proc bs_target].
  split; [|split].
  - intros Hc. destruct (H3 ltac:(lia)) as [H4 ->].
    destruct (HP ltac:(lia)) as ((pr & E1 & E2 & E3) & Et).
    assert (Ep : @lset (num FRX) (bs_per_proc s) (Z.to_nat i) (Fin (lb rs (ic + 1) - lb rs (bs_icell s)))
                 = map Fin ((pr ++ [lb rs (ic + 1) - lb rs (bs_icell s)]%R) ++ repeat 0%R (Z.to_nat (nproc - (i + 1))))).
    { rewrite E1. replace (Z.to_nat (nproc - i)) with (S (Z.to_nat (nproc - (i + 1)))) by lia. cbn [repeat].
      rewrite !map_app. cbn [map]. replace (Z.to_nat i) with (length (map Fin pr)).
      2:{ rewrite map_length. unfold zlen in E2. lia. }
      rewrite <- app_assoc. apply (lset_mid (map Fin pr)). }
    split.
    + exists (pr ++ [lb rs (ic + 1) - lb rs (bs_icell s)]%R). split; [exact Ep|]. split.
      * unfold zlen in *. rewrite app_length. cbn. lia.
      * rewrite rsum_app. cbn [rsum]. rewrite E3. lra.
    + match goal with |- context [sum_array ?l] => replace l with (@map R (num FRX) Fin ((pr ++ [lb rs (ic + 1) - lb rs (bs_icell s)]%R) ++ repeat 0%R (Z.to_nat (nproc - (i + 1))))) by (symmetry; exact Ep) end.
      rewrite sum_array_fin, total_rsum, !rsum_app, rsum_zeros. cbn [rsum].
      rewrite E3. cbn. f_equal. rewrite plus_IZR. lra.
  - intros p Hp. destruct (Z.eq_dec p i) as [->|].
    + rewrite !zel_lset_same by lia. split; [exact H2|]. intros Hc. apply (H3 Hc).
    + rewrite !zel_lset_other by lia. apply HQ. lia.
  - intros Ei. replace (nproc - 1) with i by lia. rewrite zel_lset_same by lia. apply Hlst. lia.
Qed.

Theorem balance_exact mins0 maxs0 : 1 <= nproc -> zlen mins0 = nproc -> zlen maxs0 = nproc ->
  exists mins maxs, balance_in_dir (N := FRX) (map Fin rs) ncell nproc mins0 maxs0 = Ret (mins, maxs) /\
    (forall p, 0 <= p < nproc ->
       (forall c, zel mins p <= c < zel maxs p -> (lb rs (c + 1) < (IZR p + 1) * B)%R) /\
       (zel maxs p < ncell - 1 -> (lb rs (zel maxs p + 1) >= (IZR p + 1) * B)%R)) /\
    ncell - 1 <= zel maxs (nproc - 1).
Proof.
  intros Hn L1 L2. unfold balance_in_dir. cbv zeta.
  assert (EB : (@sum_array FRX (map Fin rs) / n_of_Z nproc)%N = Fin B).
  { rewrite sum_array_fin. change (@n_of_Z FRX nproc) with (Fin (IZR nproc)).
    change (@n_div FRX) with x_div. rewrite x_div_fin by (apply not_0_IZR; lia). f_equal.
    rewrite <- HB. field. apply not_0_IZR. lia. }
  rewrite EB.
  edestruct (do_range_inv bal_exact (balance_body (N := FRX) (map Fin rs) ncell nproc (Fin B)) 0 (nproc - 1))
    as (s & E & H); [lia| | |].
  2:{ intros j s Hj. apply balance_body_exact. lia. }
  2:{ rewrite E. cbn [bind]. exists (bs_min s), (bs_max s). split; [reflexivity|].
      replace (nproc - 1 + 1) with nproc in H by lia.
      destruct H as (HG & HP & HQ & HE). split; [exact HQ|auto]. }
  split; [|split; [|split]].
  - unfold bal_inv. cbn [bs_min bs_max bs_per_proc bs_icell]. repeat split; try lia.
    unfold zlen. rewrite repeat_length. lia.
  - intros _. cbn [bs_icell bs_per_proc bs_target]. split.
    + exists []. cbn [app]. replace (nproc - 0) with nproc by lia. split; [|split; reflexivity].
      induction (Z.to_nat nproc); cbn; [reflexivity|]. f_equal. exact IHn.
    + f_equal. change (lb rs 0) with 0%R. lra.
  - lia.
  - lia.
Qed.
End Exact.

(** If no cell carries more than the mean load: exact cover, and the load of every
    process differs from the mean by less than the load of one cell. *)
Theorem balance_quality rs nproc w mins0 maxs0 :
  1 <= nproc -> zlen mins0 = nproc -> zlen maxs0 = nproc -> rs <> [] ->
  (forall x, In x rs -> (0 <= x <= w)%R) -> (0 < last rs 0)%R -> (w * IZR nproc <= total_load rs)%R ->
  exists mins maxs, balance_in_dir (N := FRX) (map Fin rs) (zlen rs) nproc mins0 maxs0 = Ret (mins, maxs) /\
    zlen mins = nproc /\ zlen maxs = nproc /\
    zel mins 0 = 0 /\ zel maxs (nproc - 1) = zlen rs - 1 /\
    (forall p, 0 <= p < nproc -> zel mins p <= zel maxs p) /\
    (forall p, 0 <= p -> p + 1 < nproc -> zel mins (p + 1) = zel maxs p + 1) /\
    (forall p, 0 <= p < nproc ->
       (Rabs (load_before rs (Z.to_nat (zel maxs p + 1)) - load_before rs (Z.to_nat (zel mins p)) - total_load rs / IZR nproc) < w)%R).
Proof.
  intros Hn L1 L2 Hne Hx Hlast Hw.
  set (B := (total_load rs / IZR nproc)%R). set (ncell := zlen rs).
  assert (Hnp : (0 < IZR nproc)%R) by (apply IZR_lt; lia).
  assert (HB : (B * IZR nproc)%R = total_load rs) by (unfold B; field; lra).
  assert (HwB : (w <= B)%R).
  { apply (Rmult_le_reg_r (IZR nproc)); [exact Hnp|]. lra. }
  assert (Hnc : 1 <= ncell) by (unfold ncell, zlen; destruct rs; [congruence|cbn [length]; lia]).
  assert (Hpos : forall j, (0 <= nth j rs 0 <= w)%R).
  { intros j. destruct (Nat.lt_ge_cases j (length rs)).
    - apply Hx. now apply nth_In.
    - rewrite nth_overflow by lia. split; [lra|]. destruct rs as [|x ?]; [congruence|]. specialize (Hx x (or_introl eq_refl)). lra. }
  assert (Hl' : (0 < nth (Z.to_nat (ncell - 1)) rs 0)%R).
  { replace (nth (Z.to_nat (ncell - 1)) rs 0%R) with (last rs 0%R); [exact Hlast|].
    unfold ncell, zlen. clear. induction rs as [|x l IH] using rev_ind; [reflexivity|].
    rewrite last_last, app_length, app_nth2 by (cbn; lia). cbn [length].
    replace (Z.to_nat (Z.of_nat (length l + 1) - 1) - length l)%nat with O by lia. reflexivity. }
  assert (HLm : zlen (map Fin rs) = ncell) by (unfold ncell, zlen; now rewrite map_length).
  destruct (balance_in_dir_cover (N := FRX) (map Fin rs) ncell nproc mins0 maxs0 HLm Hn L1 L2)
    as (mins & maxs & E & M1 & M2 & M3 & M4 & M5 & M6 & M7).
  destruct (balance_exact rs ncell nproc B eq_refl HB Hnc (fun j => proj1 (Hpos j)) Hl' mins0 maxs0 Hn L1 L2)
    as (mins' & maxs' & E' & Q & QE).
  rewrite E in E'. injection E' as <- <-.
  exists mins, maxs. split; [exact E|]. split; [exact M1|]. split; [exact M2|]. split; [exact M3|].
  pose proof (lb_mono rs (fun j => proj1 (Hpos j))) as Hmono.
  pose proof (lb_total rs ncell eq_refl Hnc) as Htot.
  assert (Hstep : forall k, 0 <= k -> (lb rs (k + 1) <= lb rs k + w)%R).
  { intros k Hk. rewrite lb_succ by lia. specialize (Hpos (Z.to_nat k)). lra. }
  assert (Htl : (total_load rs - w <= lb rs (ncell - 1))%R).
  { rewrite <- Htot. specialize (Hstep (ncell - 1) ltac:(lia)). replace (ncell - 1 + 1) with ncell in Hstep by lia. lra. }
  assert (Hw0 : (0 < w)%R) by (specialize (Hpos (Z.to_nat (ncell - 1))); lra).
  (* start of every process *)
  assert (Inv : forall n, Z.of_nat n < nproc ->
     0 <= zel mins (Z.of_nat n) <= ncell - 1 /\
     (IZR (Z.of_nat n) * B <= lb rs (zel mins (Z.of_nat n)) < IZR (Z.of_nat n) * B + w)%R).
  { induction n as [|n IH]; intros Hp.
    - change (Z.of_nat 0) with 0. rewrite M3. change (lb rs 0) with 0%R. split; [lia|lra].
    - destruct (IH ltac:(lia)) as (I1 & I2).
      set (p := Z.of_nat n) in *. replace (Z.of_nat (S n)) with (p + 1) in * by lia.
      assert (Hp0 : 0 <= p) by lia.
      rewrite M5 by lia. pose proof (M4 p ltac:(lia)) as A1. pose proof (M7 p ltac:(lia)) as A2.
      destruct (Q p ltac:(lia)) as [Q1 Q2].
      assert (Hpn : (IZR p + 1 <= IZR nproc - 1)%R).
      { rewrite <- minus_IZR, <- plus_IZR. apply IZR_le. lia. }
      assert (Hpr : ((IZR p + 1) * B <= total_load rs - B)%R).
      { rewrite <- HB. apply (Rmult_le_compat_r B) in Hpn; lra. }
      assert (Hmx : zel maxs p < ncell - 1).
      { destruct (Z.lt_ge_cases (zel maxs p) (ncell - 1)) as [|Hge]; [assumption|exfalso].
        assert (Em : zel maxs p = ncell - 1) by lia.
        destruct (Z.le_gt_cases (zel mins p) (ncell - 2)) as [Hle|Hgt].
        - specialize (Q1 (ncell - 2) ltac:(lia)). replace (ncell - 2 + 1) with (ncell - 1) in Q1 by lia. lra.
        - assert (Emn : zel mins p = ncell - 1) by lia. rewrite Emn in I2. lra. }
      split; [lia|]. specialize (Q2 Hmx). rewrite plus_IZR. split; [lra|].
      destruct (Z.eq_dec (zel mins p) (zel maxs p)) as [Eq|Ne].
      + rewrite <- Eq. specialize (Hstep (zel mins p) ltac:(lia)). lra.
      + specialize (Q1 (zel maxs p - 1) ltac:(lia)). replace (zel maxs p - 1 + 1) with (zel maxs p) in Q1 by lia.
        specialize (Hstep (zel maxs p) ltac:(lia)). lra. }
  assert (Hlastmax : zel maxs (nproc - 1) = ncell - 1).
  { pose proof (M7 (nproc - 1) ltac:(lia)). destruct (Inv (Z.to_nat (nproc - 1)) ltac:(lia)) as (I1 & _).
    replace (Z.of_nat (Z.to_nat (nproc - 1))) with (nproc - 1) in I1 by lia. lia. }
  split; [exact Hlastmax|]. split; [exact M4|]. split; [exact M5|].
  intros p Hp. fold (lb rs (zel maxs p + 1)) (lb rs (zel mins p)). fold B.
  destruct (Inv (Z.to_nat p) ltac:(lia)) as (I1 & I2). rewrite Z2Nat.id in I1, I2 by lia.
  destruct (Z.eq_dec p (nproc - 1)) as [Ep|Ne].
  - rewrite Ep at 1. rewrite Hlastmax. replace (ncell - 1 + 1) with ncell by lia. rewrite Htot, <- HB.
    assert (Ei : IZR p = (IZR nproc - 1)%R) by (rewrite Ep, minus_IZR; reflexivity). rewrite Ei in I2.
    apply Rabs_def1; lra.
  - destruct (Inv (Z.to_nat (p + 1)) ltac:(lia)) as (J1 & J2). rewrite Z2Nat.id in J1, J2 by lia.
    rewrite (M5 p) in J2 by lia. rewrite plus_IZR in J2. apply Rabs_def1; lra.
Qed.
