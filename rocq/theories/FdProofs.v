(** Proofs about FD_weights in exact arithmetic. *)
From Coq Require Import ZArith Reals List Bool Lia Lra Permutation.
From Verif Require Import Cxx Num NumRX Fortran Grid SpecYee FdWeights SpecFd CxxLemmas RXLemmas FortranLemmas GridLemmas CkcProofs.
Import ListNotations.
Local Open Scope R_scope.

(** products over the nodes s, s + 1, ..., s + n - 1 *)
Fixpoint num_ (s : Z) (n : nat) (x : R) : R := match n with O => 1 | S k => num_ s k x * (x - IZR (s + Z.of_nat k)) end.
Fixpoint dnum (s : Z) (n : nat) (x : R) : R := match n with O => 0 | S k => dnum s k x * (x - IZR (s + Z.of_nat k)) + num_ s k x end.
Lemma num_der s n x : derivable_pt_lim (num_ s n) x (dnum s n x).
Proof.
  induction n as [|n IH]; cbn [dnum].
  - apply (derivable_pt_lim_const 1).
  - replace (dnum s n x * (x - IZR (s + Z.of_nat n)) + num_ s n x) with (dnum s n x * (x - IZR (s + Z.of_nat n)) + num_ s n x * (1 - 0)) by ring.
    apply (derivable_pt_lim_mult (num_ s n) (fun x => x - IZR (s + Z.of_nat n))); [exact IH|].
    apply (derivable_pt_lim_minus id (fct_cte (IZR (s + Z.of_nat n)))); [apply derivable_pt_lim_id | apply derivable_pt_lim_const].
Qed.
(** num_ at the node s + n: no factor vanishes *)
Definition den (s : Z) (n : nat) : R := num_ s n (IZR (s + Z.of_nat n)).
Lemma num_nz s n : forall m, (s + Z.of_nat n <= m)%Z -> num_ s n (IZR m) <> 0.
Proof.
  induction n as [|n IH]; intros m H; cbn [num_]; [lra|]. apply Rmult_integral_contrapositive_currified.
  - apply IH. lia.
  - rewrite <- minus_IZR. apply not_0_IZR. lia.
Qed.
Lemma den_nz s n : den s n <> 0. Proof. apply num_nz. lia. Qed.

(** the lagrange polynomial of the node s + n among s, ..., s + n + 1 *)
Lemma fold_app (l l' : list R) : fold_right Rmult 1 (l ++ l') = fold_right Rmult 1 l * fold_right Rmult 1 l'.
Proof. induction l as [|a l IH]; cbn; [ring|]. rewrite IH. ring. Qed.
Lemma lagrange_num s n x : lagrange s (s + Z.of_nat n + 1) (s + Z.of_nat n) x =
  num_ s n x * (x - IZR (s + Z.of_nat n + 1)) / (den s n * (IZR (s + Z.of_nat n) - IZR (s + Z.of_nat n + 1))).
Proof.
  unfold lagrange, den. rewrite zrange_snoc by lia.
  assert (Q : forall k m, (s + Z.of_nat k <= m)%Z -> fold_right Rmult 1 (map (fun j => (x - IZR j) / (IZR m - IZR j)) (filter (fun j => negb (j =? m)%Z) (zrange s (s + Z.of_nat k - 1)))) = num_ s k x / num_ s k (IZR m)).
  { induction k as [|k IH]; intros m H.
    - rewrite zrange_nil by lia. cbn. field.
    - replace (s + Z.of_nat (S k) - 1)%Z with ((s + Z.of_nat k - 1) + 1)%Z by lia. rewrite zrange_snoc by lia.
      rewrite filter_app, map_app, fold_app, IH by lia. replace (s + Z.of_nat k - 1 + 1)%Z with (s + Z.of_nat k)%Z by lia.
      cbn [filter]. replace (s + Z.of_nat k =? m)%Z with false by (symmetry; apply Z.eqb_neq; lia). cbn [negb map fold_right num_].
      pose proof (num_nz s k m ltac:(lia)). assert (IZR m - IZR (s + Z.of_nat k) <> 0) by (rewrite <- minus_IZR; apply not_0_IZR; lia). field. split; assumption. }
  replace (zrange s (s + Z.of_nat n)) with (zrange s (s + Z.of_nat n - 1) ++ [(s + Z.of_nat n)%Z]).
  2: { pose proof (zrange_snoc s (s + Z.of_nat n - 1) ltac:(lia)) as Z. replace (s + Z.of_nat n - 1 + 1)%Z with (s + Z.of_nat n)%Z in Z by lia. symmetry. exact Z. }
  rewrite !filter_app, !map_app, !fold_app, Q by lia. cbn [filter]. rewrite Z.eqb_refl.
  replace (s + Z.of_nat n + 1 =? s + Z.of_nat n)%Z with false by (symmetry; apply Z.eqb_neq; lia). cbn [negb map fold_right].
  pose proof (den_nz s n) as Dz. unfold den in Dz. assert (IZR (s + Z.of_nat n) - IZR (s + Z.of_nat n + 1) <> 0) by (rewrite <- minus_IZR; apply not_0_IZR; lia). field. split; assumption.
Qed.
Definition fdw (s : Z) (n : nat) (z : R) : R :=
  (dnum s n z * (z - IZR (s + Z.of_nat n + 1)) + num_ s n z) / (den s n * (IZR (s + Z.of_nat n) - IZR (s + Z.of_nat n + 1))).
Lemma lagrange_der s n z : derivable_pt_lim (lagrange s (s + Z.of_nat n + 1) (s + Z.of_nat n)) z (fdw s n z).
Proof.
  set (K := den s n * (IZR (s + Z.of_nat n) - IZR (s + Z.of_nat n + 1))).
  assert (D : derivable_pt_lim (fun x => num_ s n x * (x - IZR (s + Z.of_nat n + 1)) * / K) z (fdw s n z)).
  { replace (fdw s n z) with ((dnum s n z * (z - IZR (s + Z.of_nat n + 1)) + num_ s n z * (1 - 0)) * / K + num_ s n z * (z - IZR (s + Z.of_nat n + 1)) * 0)
      by (unfold fdw, Rdiv; fold K; ring).
    apply (derivable_pt_lim_mult (fun x => num_ s n x * (x - IZR (s + Z.of_nat n + 1))) (fct_cte (/ K))); [|apply derivable_pt_lim_const].
    apply (derivable_pt_lim_mult (num_ s n) (fun x => x - IZR (s + Z.of_nat n + 1))); [apply num_der|].
    apply (derivable_pt_lim_minus id (fct_cte (IZR (s + Z.of_nat n + 1)))); [apply derivable_pt_lim_id | apply derivable_pt_lim_const]. }
  intros eps He. destruct (D eps He) as [dl Hd]. exists dl. intros h H1 H2. rewrite !lagrange_num. fold K. unfold Rdiv at 2 3. apply Hd; assumption.
Qed.

Section X.
Context {tg : R -> R}.
Notation N := (RX tg).
Notation fin r := (Fin r : num N).

Lemma fin_eq (a b : R) : a = b -> fin a = fin b.
Proof. intros ->. reflexivity. Qed.
Lemma pair_fin (a b c d : R) : a = c -> b = d -> (fin a, fin b) = (fin c, fin d).
Proof. intros -> ->. reflexivity. Qed.

Section Order.
Variables (h : nat) (z : R).
Hypothesis Hh : (1 <= h)%nat.
Let s : Z := (1 - Z.of_nat h)%Z.
Let n : Z := (2 * Z.of_nat h + 1)%Z.
Lemma fd_x_fin i : @fd_x N n i = fin (IZR (s + i)).
Proof.
  unfold fd_x. replace (i - n ÷ 2 + 1)%Z with (s + i)%Z.
  - change (fin (IZR (s + i) * 1) = fin (IZR (s + i))). rewrite Rmult_1_r. reflexivity.
  - unfold n, s. rewrite Z.quot_div_nonneg by lia. replace (2 * Z.of_nat h + 1)%Z with (1 + Z.of_nat h * 2)%Z by lia. rewrite Z.div_add by lia. change (1 / 2)%Z with 0%Z. lia.
Qed.
Definition pairf (a b : R) : num N * num N := (fin a, fin b).
Definition fresh (q : nat) := pairf (num_ s q z / den s q) (dnum s q z / den s q).
Definition final (q : nat) := pairf (num_ s q z * (z - IZR (s + Z.of_nat q + 1)) / (den s q * (IZR (s + Z.of_nat q) - IZR (s + Z.of_nat q + 1)))) (fdw s q z).

(** the loop over j *)
Lemma inner_ok (i : nat) c (c1 : R) : (1 <= i)%nat -> (Z.of_nat i < zlen c)%Z ->
  nth_error c (i - 1) = Some (fresh (i - 1)) -> c1 = den s (i - 1) ->
  do_range 0 (Z.of_nat i - 1) (fd_inner n (Z.of_nat i) (fin c1) (fin (IZR (s + Z.of_nat i) - z)) (fin (IZR (s + Z.of_nat i - 1) - z))) (c, @n_one N) =
    Ret (lset (lset c i (fresh i)) (i - 1) (final (i - 1)), fin (den s i)).
Proof.
  intros Hi Hl Hc ->.
  destruct (do_range_inv (fun j (st : list (num N * num N) * num N) =>
      snd st = fin (num_ s (Z.to_nat j) (IZR (s + Z.of_nat i))) /\
      fst st = if (j =? Z.of_nat i)%Z then lset (lset c i (fresh i)) (i - 1) (final (i - 1)) else c)
      (fd_inner n (Z.of_nat i) (fin (den s (i - 1))) (fin (IZR (s + Z.of_nat i) - z)) (fin (IZR (s + Z.of_nat i - 1) - z))) 0 (Z.of_nat i - 1) (c, @n_one N)) as (st & E & E2 & E1).
  - lia.
  - cbn [fst snd]. split; [reflexivity|]. replace (0 =? Z.of_nat i)%Z with false by (symmetry; apply Z.eqb_neq; lia). reflexivity.
  - intros j [c' c2] Hj [P2 P1]. cbn [fst snd] in P1, P2. unfold fd_inner. rewrite !fd_x_fin.
    replace (j =? Z.of_nat i)%Z with false in P1 by (symmetry; apply Z.eqb_neq; lia). subst c' c2. cbv zeta. rewrite sub_fin, !mul_fin.
    assert (N1 : num_ s (Z.to_nat j) (IZR (s + Z.of_nat i)) * (IZR (s + Z.of_nat i) - IZR (s + j)) = num_ s (Z.to_nat (j + 1)) (IZR (s + Z.of_nat i))).
    { replace (Z.to_nat (j + 1)) with (S (Z.to_nat j)) by lia. cbn [num_]. rewrite Z2Nat.id by lia. reflexivity. }
    rewrite N1. destruct (Z.eqb_spec j (Z.of_nat i - 1)) as [->|Nj].
    + assert (I1 : (Z.of_nat i - 1)%Z = Z.of_nat (i - 1)) by lia.
      assert (G1 : zget c (Z.of_nat i - 1) = Ret (fresh (i - 1))).
      { rewrite I1. unfold zget. replace (0 <=? Z.of_nat (i - 1))%Z with true by (symmetry; apply Z.leb_le; lia).
        replace (Z.of_nat (i - 1) <? zlen c)%Z with true by (symmetry; apply Z.ltb_lt; lia). cbn [andb]. rewrite Nat2Z.id, Hc. reflexivity. }
      rewrite G1. cbn [bind]. rewrite zset_ok by lia. rewrite Nat2Z.id. cbn [bind].
      set (w := (_, _)).
      assert (G2 : zget (lset c i w) (Z.of_nat i - 1) = Ret (fresh (i - 1))).
      { rewrite I1. unfold zget. rewrite zlen_lset. replace (0 <=? Z.of_nat (i - 1))%Z with true by (symmetry; apply Z.leb_le; lia).
        replace (Z.of_nat (i - 1) <? zlen c)%Z with true by (symmetry; apply Z.ltb_lt; lia). cbn [andb]. rewrite Nat2Z.id, lset_other by lia. rewrite Hc. reflexivity. }
      rewrite G2. cbn [bind]. rewrite zset_ok by (rewrite zlen_lset; lia). cbn [bind].
      eexists. split; [reflexivity|]. cbn [fst snd].
      replace (Z.of_nat i - 1 + 1)%Z with (Z.of_nat i) by lia. rewrite Z.eqb_refl. split; [reflexivity|].
      assert (I2 : Z.to_nat (Z.of_nat i - 1) = (i - 1)%nat) by lia. rewrite I2.
      assert (Dp : den s (i - 1) <> 0) by apply den_nz. assert (Di : den s i <> 0) by apply den_nz.
      assert (X0 : IZR (s + Z.of_nat (i - 1)) = IZR (s + Z.of_nat i - 1)) by (f_equal; lia).
      assert (X1 : IZR (s + Z.of_nat (i - 1) + 1) = IZR (s + Z.of_nat i)) by (f_equal; lia).
      assert (X2 : IZR (s + Z.of_nat i) - IZR (s + (Z.of_nat i - 1)) = 1) by (rewrite <- minus_IZR; f_equal; lia).
      assert (X3 : IZR (s + Z.of_nat i) = IZR (s + Z.of_nat i - 1) + 1) by (rewrite minus_IZR; ring).
      f_equal; [f_equal|].
      * subst w. replace (Z.to_nat (Z.of_nat i - 1 + 1)) with i by lia. unfold fresh, pairf. cbn [fst snd].
        change (num_ s i (IZR (s + Z.of_nat i))) with (den s i).
        change (@n_of_Z N 1) with (fin 1). rewrite !mul_fin, !sub_fin, !mul_fin, !div_fin by exact Di.
        change (@n_opp N (fin ?a)) with (fin (- a)).
        assert (Nm : num_ s i z = num_ s (i - 1) z * (z - IZR (s + Z.of_nat i - 1))) by (replace i with (S (i - 1)) at 1 by lia; cbn [num_]; rewrite X0; reflexivity).
        assert (Dm : dnum s i z = dnum s (i - 1) z * (z - IZR (s + Z.of_nat i - 1)) + num_ s (i - 1) z) by (replace i with (S (i - 1)) at 1 by lia; cbn [dnum]; rewrite X0; reflexivity).
        rewrite Nm, Dm. set (W := IZR (s + Z.of_nat i - 1)) in *. clearbody W.
        apply pair_fin; field; split; assumption.
      * unfold fresh, final, pairf. cbn [fst snd]. rewrite X2. change (@n_of_Z N 1) with (fin 1). rewrite !mul_fin, !sub_fin, !div_fin by lra.
        unfold fdw. rewrite X0, X1, X3. set (W := IZR (s + Z.of_nat i - 1)) in *. clearbody W.
        replace (W - (W + 1)) with (-1) by ring.
        apply pair_fin; field; assumption.
    + eexists. split; [reflexivity|]. cbn [fst snd]. split; [reflexivity|]. replace (j + 1 =? Z.of_nat i)%Z with false by (symmetry; apply Z.eqb_neq; lia). reflexivity.
  - rewrite E. destruct st as [c' c2]. cbn [fst snd] in E1, E2. replace (Z.of_nat i - 1 + 1)%Z with (Z.of_nat i) in * by lia. rewrite Z.eqb_refl in E1. rewrite Nat2Z.id in E2. subst. reflexivity.
Qed.

(** the loop over i *)
Lemma outer_ok c0 : zlen c0 = n -> nth_error c0 0 = Some (fresh 0) ->
  exists c c1 c4, do_range 1 (n - 1) (fd_outer n (fin z)) (c0, @n_one N, fin (IZR s - z)) = Ret (c, c1, c4) /\ zlen c = n /\
    (forall q, (Z.of_nat q < n - 1)%Z -> nth_error c q = Some (final q)).
Proof.
  intros Hl H0.
  destruct (do_range_inv (fun j (st : list (num N * num N) * num N * num N) =>
      let '(c, c1, c4) := st in zlen c = n /\ c1 = fin (den s (Z.to_nat (j - 1))) /\ c4 = fin (IZR (s + j - 1) - z) /\
        nth_error c (Z.to_nat (j - 1)) = Some (fresh (Z.to_nat (j - 1))) /\ (forall q, (Z.of_nat q < j - 1)%Z -> nth_error c q = Some (final q)))
      (fd_outer n (fin z)) 1 (n - 1) (c0, @n_one N, fin (IZR s - z))) as ([[c c1] c4] & E & P).
  - unfold n. lia.
  - change (Z.to_nat (1 - 1)) with 0%nat. split; [exact Hl|]. split; [reflexivity|]. split; [apply fin_eq; f_equal; f_equal; lia|]. split; [exact H0|]. intros q Hq. lia.
  - intros j [[c c1] c4] Hj (L & -> & -> & F & G). unfold fd_outer. rewrite fd_x_fin, sub_fin.
    set (i := Z.to_nat j). assert (Ej : j = Z.of_nat i) by (unfold i; lia). assert (Em : Z.to_nat (j - 1) = (i - 1)%nat) by (unfold i; lia). rewrite Em in *.
    rewrite Ej. rewrite (inner_ok i c (den s (i - 1))) by (try reflexivity; try exact F; unfold i; lia). cbn [bind].
    eexists. split; [reflexivity|]. cbv beta iota. rewrite !zlen_lset. split; [exact L|].
    replace (Z.to_nat (Z.of_nat i + 1 - 1)) with i by lia. split; [reflexivity|]. split; [apply fin_eq; f_equal; f_equal; lia|].
    assert (Hi : (1 <= i)%nat) by (unfold i; lia). assert (Hb : (i < length c)%nat) by (unfold zlen in L; lia). split.
    + rewrite lset_other by lia. apply lset_same. exact Hb.
    + intros q Hq. destruct (Nat.eq_dec q (i - 1)) as [->|Nq].
      * apply lset_same. rewrite lset_length. lia.
      * rewrite !lset_other by lia. apply G. lia.
  - exists c, c1, c4. split; [exact E|]. destruct P as (L & _ & _ & _ & G). split; [exact L|]. intros q Hq. apply G. lia.
Qed.
End Order.

Definition at_node (nodal : bool) : R := if nodal then 0 else 1 / 2.
Definition coeffs (h : nat) (z : R) : list R := map (fun i => fdw (1 - Z.of_nat h) (h + Z.to_nat i - 1) z) (zrange 1 (Z.of_nat h)).
Lemma weights_ok (h : nat) nodal : (1 <= h)%nat ->
  @fd_weights N (2 * Z.of_nat h) nodal = Ret (map (fun r => fin r) (coeffs h (at_node nodal))).
Proof.
  intros Hh. unfold fd_weights.
  assert (Ez : (if nodal then @n_zero N else @n_lit N 5 (-1)) = fin (at_node nodal)).
  { destruct nodal; [reflexivity|]. apply fin_eq. cbn. lra. }
  rewrite Ez. set (z := at_node nodal). rewrite fd_x_fin, sub_fin, Z.add_0_r.
  set (c0 := _ :: _).
  destruct (outer_ok h z Hh c0) as (c & c1 & c4 & E & L & G).
  - unfold c0, zlen. cbn [length]. rewrite repeat_length. lia.
  - unfold c0. cbn [nth_error]. unfold fresh, pairf. f_equal. apply pair_fin; unfold den; cbn; field.
  - rewrite E. cbn [bind]. replace (2 * Z.of_nat h ÷ 2)%Z with (Z.of_nat h) by (rewrite Z.mul_comm, Z.quot_mul; lia).
    unfold coeffs. rewrite map_map. apply mapM_Ret. intros i Hi. apply in_zrange in Hi.
    assert (I : (Z.of_nat h + i - 1)%Z = Z.of_nat (h + Z.to_nat i - 1)) by lia.
    rewrite I. unfold zget. rewrite L. replace (0 <=? _)%Z with true by (symmetry; apply Z.leb_le; lia). replace (_ <? _)%Z with true by (symmetry; apply Z.ltb_lt; lia).
    cbn [andb]. rewrite Nat2Z.id, G by lia. reflexivity.
  - exact Hh.
Qed.

Lemma nth_map_zrange (f : Z -> R) lo hi i : (lo <= i <= hi)%Z -> nth (Z.to_nat (i - lo)) (map f (zrange lo hi)) 0 = f i.
Proof.
  intros H. unfold zrange, zseq. rewrite !map_map. rewrite (nth_indep _ 0 ((fun k => f (lo + Z.of_nat k)%Z) 0%nat)) by (rewrite map_length, seq_length; lia).
  rewrite (map_nth (fun k => f (lo + Z.of_nat k)%Z)). rewrite seq_nth by lia. f_equal. lia.
Qed.
Lemma weights_spec (h : Z) nodal : (1 <= h)%Z -> exists cs, @fd_weights N (2 * h) nodal = Ret (map (fun r => fin r) cs) /\ zlen cs = h /\
  forall i, (1 <= i <= h)%Z -> derivable_pt_lim (lagrange (1 - h) (i + 1) i) (if nodal then 0 else 1 / 2) (weight cs i).
Proof.
  intros Hh. exists (coeffs (Z.to_nat h) (at_node nodal)). pose proof (weights_ok (Z.to_nat h) nodal ltac:(lia)) as W. rewrite Z2Nat.id in W by lia. split; [exact W|]. split.
  - unfold coeffs, zlen. rewrite map_length. rewrite Z2Nat.id by lia. unfold zrange, zseq. rewrite !map_length, seq_length. lia.
  - intros i Hi. unfold weight, coeffs. rewrite !Z2Nat.id by lia. rewrite (nth_map_zrange (fun i => fdw (1 - h) (Z.to_nat h + Z.to_nat i - 1) (at_node nodal)) 1 h i) by lia.
    pose proof (lagrange_der (1 - h) (Z.to_nat h + Z.to_nat i - 1) (at_node nodal)) as D.
    replace (1 - h + Z.of_nat (Z.to_nat h + Z.to_nat i - 1))%Z with i in D by lia. exact D.
Qed.

(** the coefficients of the low orders *)
Lemma cons_eq (a b : R) l l' : a = b -> l = l' -> a :: l = b :: l'.
Proof. intros -> ->. reflexivity. Qed.
Ltac values := cbv -[IZR Rplus Rmult Rminus Rdiv Ropp Rinv]; repeat (apply cons_eq; [field|]); reflexivity.
Lemma s2 : @fd_weights N 2 false = Ret (map (fun r => fin r) [1]).
Proof. change 2%Z with (2 * Z.of_nat 1)%Z. rewrite weights_ok by lia. replace (coeffs 1 (at_node false)) with [1]; [reflexivity|]. values. Qed.
Lemma s4 : @fd_weights N 4 false = Ret (map (fun r => fin r) [9 / 8; -1 / 24]).
Proof. change 4%Z with (2 * Z.of_nat 2)%Z. rewrite weights_ok by lia. replace (coeffs 2 (at_node false)) with [9 / 8; -1 / 24]; [reflexivity|]. values. Qed.
Lemma s6 : @fd_weights N 6 false = Ret (map (fun r => fin r) [9 / 8; -25 / 384; 3 / 640]).
Proof. change 6%Z with (2 * Z.of_nat 3)%Z. rewrite weights_ok by lia. replace (coeffs 3 (at_node false)) with [9 / 8; -25 / 384; 3 / 640]; [reflexivity|]. values. Qed.
Lemma n2 : @fd_weights N 2 true = Ret (map (fun r => fin r) [2]).
Proof. change 2%Z with (2 * Z.of_nat 1)%Z. rewrite weights_ok by lia. replace (coeffs 1 (at_node true)) with [2]; [reflexivity|]. values. Qed.
Lemma n4 : @fd_weights N 4 true = Ret (map (fun r => fin r) [1; -1 / 2]).
Proof. change 4%Z with (2 * Z.of_nat 2)%Z. rewrite weights_ok by lia. replace (coeffs 2 (at_node true)) with [1; -1 / 2]; [reflexivity|]. values. Qed.
End X.

(** exactness on polynomials *)
Fixpoint dpoly (a : list R) (x : R) : R := match a with [] => 0 | _ :: r => poly r x + x * dpoly r x end.
Lemma poly_der a x : derivable_pt_lim (poly a) x (dpoly a x).
Proof.
  induction a as [|c a IH]; cbn [dpoly].
  - apply (derivable_pt_lim_const 0).
  - replace (poly a x + x * dpoly a x) with (0 + (1 * poly a x + x * dpoly a x)) by ring.
    apply (derivable_pt_lim_plus (fct_cte c) (fun x => x * poly a x)); [apply derivable_pt_lim_const|].
    apply (derivable_pt_lim_mult id (poly a)); [apply derivable_pt_lim_id | exact IH].
Qed.
Lemma exact_by n D : (forall a x, (length a <= S n)%nat -> D (poly a) x = dpoly a x) -> exact_to n D.
Proof. intros H a x L. rewrite H by exact L. apply poly_der. Qed.
Lemma exact2 h : h <> 0 -> exact_to 2 (staggered [1] h).
Proof.
  intros Hh. apply exact_by. intros a x L. cbv -[IZR Rplus Rmult Rminus Rdiv Ropp Rinv poly dpoly].
  destruct a as [|a0 [|a1 [|a2 [|a3 r]]]]; cbn [length] in L; try lia; cbn [dpoly poly fold_right].
  all: field; exact Hh.
Qed.
Lemma exact4 h : h <> 0 -> exact_to 4 (staggered [9 / 8; -1 / 24] h).
Proof.
  intros Hh. apply exact_by. intros a x L. cbv -[IZR Rplus Rmult Rminus Rdiv Ropp Rinv poly dpoly].
  destruct a as [|a0 [|a1 [|a2 [|a3 [|a4 [|a5 r]]]]]]; cbn [length] in L; try lia; cbn [dpoly poly fold_right]; field; exact Hh.
Qed.
Lemma slope6 h x : h <> 0 -> staggered [9 / 8; -25 / 384; 3 / 640] h (fun y => y) x = 61 / 64.
Proof. intros Hh. cbv -[IZR Rplus Rmult Rminus Rdiv Ropp Rinv]. field. exact Hh. Qed.
Lemma slope_n2 h x : h <> 0 -> nodal [2] h (fun y => y) x = 4.
Proof. intros Hh. cbv -[IZR Rplus Rmult Rminus Rdiv Ropp Rinv]. field. exact Hh. Qed.
Lemma slope_n4 h x : h <> 0 -> nodal [1; -1 / 2] h (fun y => y) x = 0.
Proof. intros Hh. cbv -[IZR Rplus Rmult Rminus Rdiv Ropp Rinv]. field. exact Hh. Qed.

Section Ths.
Context {tg : R -> R}.
Notation N := (RX tg).
Lemma order2_ok : exists cs, @fd_weights N 2 false = Ret (map (@Fin) cs) /\ forall h, h <> 0 -> exact_to 2 (staggered cs h).
Proof. exists [1]. split; [apply s2 | apply exact2]. Qed.
Lemma order4_ok : exists cs, @fd_weights N 4 false = Ret (map (@Fin) cs) /\ forall h, h <> 0 -> exact_to 4 (staggered cs h).
Proof. exists [9 / 8; -1 / 24]. split; [apply s4 | apply exact4]. Qed.
Lemma order6_bad : exists cs, @fd_weights N 6 false = Ret (map (@Fin) cs) /\ forall h x, h <> 0 -> staggered cs h (fun y => y) x = 61 / 64.
Proof. exists [9 / 8; -25 / 384; 3 / 640]. split; [apply s6 | apply slope6]. Qed.
Lemma nodal2_bad : exists cs, @fd_weights N 2 true = Ret (map (@Fin) cs) /\ forall h x, h <> 0 -> nodal cs h (fun y => y) x = 4.
Proof. exists [2]. split; [apply n2 | apply slope_n2]. Qed.
Lemma nodal4_bad : exists cs, @fd_weights N 4 true = Ret (map (@Fin) cs) /\ forall h x, h <> 0 -> nodal cs h (fun y => y) x = 0.
Proof. exists [1; -1 / 2]. split; [apply n4 | apply slope_n4]. Qed.
Lemma axes_spec hx hy hz nod : (1 <= hx)%Z -> (1 <= hy)%Z -> (1 <= hz)%Z ->
  exists cx cy cz, @init_stencil_coefficients N (2 * hx) (2 * hy) (2 * hz) nod = Ret (map (@Fin) cx, map (@Fin) cy, map (@Fin) cz) /\
  Forall (fun hc => zlen (snd hc) = fst hc /\ forall i, (1 <= i <= fst hc)%Z ->
    derivable_pt_lim (lagrange (1 - fst hc) (i + 1) i) (if nod then 0 else 1 / 2) (weight (snd hc) i)) [(hx, cx); (hy, cy); (hz, cz)].
Proof.
  intros Hx Hy Hz. destruct (weights_spec (tg := tg) hx nod Hx) as (cx & Ex & Px), (weights_spec (tg := tg) hy nod Hy) as (cy & Ey & Py), (weights_spec (tg := tg) hz nod Hz) as (cz & Ez & Pz).
  exists cx, cy, cz. unfold init_stencil_coefficients. rewrite Ex. cbn [bind]. rewrite Ey. cbn [bind]. rewrite Ez. cbn [bind]. split; [reflexivity|]. repeat (constructor; [assumption|]). constructor.
Qed.
End Ths.
