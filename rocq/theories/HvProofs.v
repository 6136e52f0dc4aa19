(** FD_weights_hvincenti computes the weights of the derivative. *)
From Coq Require Import ZArith Reals List Bool Lia Lra Factorial.
From Verif Require Import Cxx Num NumRX Fortran Grid SpecYee FdWeights SpecFd Hvincenti CxxLemmas RXLemmas GridLemmas CkcProofs FdProofs.
Import ListNotations.
Local Open Scope R_scope.

Definition F (n : nat) : R := INR (fact n).
Lemma F_pos n : 0 < F n. Proof. apply INR_fact_lt_0. Qed.
Lemma F_S n : F (S n) = INR (S n) * F n.
Proof. unfold F. rewrite fact_simpl, mult_INR. reflexivity. Qed.

(** ** products of nodes *)
Lemma num_split s m n x : num_ s (m + n) x = num_ s m x * num_ (s + Z.of_nat m) n x.
Proof.
  induction n as [|n IH]; [rewrite Nat.add_0_r; cbn; ring|]. rewrite Nat.add_succ_r. cbn [num_]. rewrite IH.
  replace (s + Z.of_nat m + Z.of_nat n)%Z with (s + Z.of_nat (m + n))%Z by lia. ring.
Qed.
Lemma num_below s n : num_ s n (IZR (s + Z.of_nat n)) = F n.
Proof.
  assert (Q : forall k, (k <= n)%nat -> num_ s k (IZR (s + Z.of_nat n)) * F (n - k) = F n).
  { induction k as [|k IH]; intros H; cbn [num_]; [rewrite Nat.sub_0_r; ring|].
    rewrite <- IH by lia. replace (n - k)%nat with (S (n - S k)) by lia. rewrite F_S.
    rewrite <- minus_IZR. replace (s + Z.of_nat n - (s + Z.of_nat k))%Z with (Z.of_nat (S (n - S k))) by lia. rewrite <- INR_IZR_INZ. ring. }
  rewrite <- (Q n (le_n n)), Nat.sub_diag. unfold F at 1. cbn [fact INR]. ring.
Qed.
Lemma num_above m a n : num_ (m + Z.of_nat a + 1) n (IZR m) * F a = (-1) ^ n * F (a + n).
Proof.
  induction n as [|n IH]; cbn [num_ pow]; [rewrite Nat.add_0_r; ring|]. rewrite Nat.add_succ_r, F_S.
  replace (num_ (m + Z.of_nat a + 1) n (IZR m) * (IZR m - IZR (m + Z.of_nat a + 1 + Z.of_nat n)) * F a) with ((num_ (m + Z.of_nat a + 1) n (IZR m) * F a) * (IZR m - IZR (m + Z.of_nat a + 1 + Z.of_nat n))) by ring.
  rewrite IH, <- minus_IZR. replace (m - (m + Z.of_nat a + 1 + Z.of_nat n))%Z with (- Z.of_nat (S (a + n)))%Z by lia. rewrite opp_IZR, <- INR_IZR_INZ. ring.
Qed.
Lemma num_above0 m n : num_ (m + 1) n (IZR m) = (-1) ^ n * F n.
Proof. pose proof (num_above m 0 n) as Q. replace (m + Z.of_nat 0 + 1)%Z with (m + 1)%Z in Q by lia. unfold F in Q at 1. cbn [fact INR] in Q. rewrite Rmult_1_r in Q. exact Q. Qed.

(** ** the interpolation polynomial *)
Lemma side m x s k : num_ s k (IZR m) <> 0 -> (m < s \/ s + Z.of_nat k <= m)%Z ->
  fold_right Rmult 1 (map (fun j => (x - IZR j) / (IZR m - IZR j)) (filter (fun j => negb (j =? m)%Z) (zrange s (s + Z.of_nat k - 1)))) = num_ s k x / num_ s k (IZR m).
Proof.
  induction k as [|k IH]; intros Nz H.
  - rewrite zrange_nil by lia. cbn. field.
  - replace (s + Z.of_nat (S k) - 1)%Z with ((s + Z.of_nat k - 1) + 1)%Z by lia. rewrite zrange_snoc by lia. cbn [num_] in Nz.
    assert (N1 : num_ s k (IZR m) <> 0) by (intros E; apply Nz; rewrite E; ring).
    assert (N2 : IZR m - IZR (s + Z.of_nat k) <> 0) by (intros E; apply Nz; rewrite E; ring).
    rewrite filter_app, map_app, fold_app, IH by (try assumption; lia). replace (s + Z.of_nat k - 1 + 1)%Z with (s + Z.of_nat k)%Z by lia.
    cbn [filter]. replace (s + Z.of_nat k =? m)%Z with false by (symmetry; apply Z.eqb_neq; lia). cbn [negb map fold_right num_]. field. split; assumption.
Qed.
Lemma pm1_nz n : (-1) ^ n <> 0. Proof. apply pow_nonzero. lra. Qed.
Lemma pm1_sq n : (-1) ^ n * (-1) ^ n = 1. Proof. rewrite <- Rpow_mult_distr. replace (-1 * -1) with 1 by ring. apply pow1. Qed.
(** m points below l and b above *)
Lemma lagrange_two (l : Z) (m b : nat) x : lagrange (l - Z.of_nat m) (l + Z.of_nat b) l x = num_ (l - Z.of_nat m) m x * num_ (l + 1) b x * ((-1) ^ b / (F m * F b)).
Proof.
  unfold lagrange.
  assert (E : zrange (l - Z.of_nat m) (l + Z.of_nat b) = zrange (l - Z.of_nat m) (l - Z.of_nat m + Z.of_nat m - 1) ++ [l] ++ zrange (l + 1) (l + 1 + Z.of_nat b - 1)).
  { replace (l - Z.of_nat m + Z.of_nat m - 1)%Z with (l - 1)%Z by lia. replace (l + 1 + Z.of_nat b - 1)%Z with (l + Z.of_nat b)%Z by lia.
    assert (A : forall k, zrange (l - Z.of_nat m) (l + Z.of_nat k) = zrange (l - Z.of_nat m) (l - 1) ++ [l] ++ zrange (l + 1) (l + Z.of_nat k)).
    { induction k as [|k IH].
      - rewrite (zrange_nil (l + 1)) by lia. replace (l + Z.of_nat 0)%Z with ((l - 1) + 1)%Z by lia. rewrite zrange_snoc by lia. replace (l - 1 + 1)%Z with l by lia. reflexivity.
      - replace (l + Z.of_nat (S k))%Z with (l + Z.of_nat k + 1)%Z by lia. rewrite !zrange_snoc by lia. rewrite IH, <- !app_assoc. reflexivity. }
    apply A. }
  pose proof (num_below (l - Z.of_nat m) m) as Q1. replace (l - Z.of_nat m + Z.of_nat m)%Z with l in Q1 by lia.
  pose proof (num_above0 l b) as Q2. pose proof (F_pos m). pose proof (F_pos b). pose proof (pm1_nz b). pose proof (pm1_sq b) as Sq.
  rewrite E, !filter_app, !map_app, !fold_app. rewrite side by (try lia; rewrite Q1; lra). rewrite side by (try lia; rewrite Q2; apply Rmult_integral_contrapositive_currified; lra).
  cbn [filter]. rewrite Z.eqb_refl. cbn [negb map fold_right]. rewrite Q1, Q2.
  replace (/ 1) with 1 by field. transitivity (num_ (l - Z.of_nat m) m x * num_ (l + 1) b x * (((-1) ^ b * (-1) ^ b) / ((-1) ^ b * (F m * F b)))).
  - rewrite Sq. field. repeat split; lra.
  - field. repeat split; lra.
Qed.
Lemma der_two l m b z d : derivable_pt_lim (fun x => num_ (l - Z.of_nat m) m x * num_ (l + 1) b x) z d ->
  derivable_pt_lim (lagrange (l - Z.of_nat m) (l + Z.of_nat b) l) z (d * ((-1) ^ b / (F m * F b))).
Proof.
  intros D. set (K := (-1) ^ b / (F m * F b)).
  assert (D' : derivable_pt_lim (fun x => num_ (l - Z.of_nat m) m x * num_ (l + 1) b x * K) z (d * K + num_ (l - Z.of_nat m) m z * num_ (l + 1) b z * 0))
    by (apply (derivable_pt_lim_mult (fun x => num_ (l - Z.of_nat m) m x * num_ (l + 1) b x) (fct_cte K)); [exact D | apply derivable_pt_lim_const]).
  rewrite Rmult_0_r, Rplus_0_r in D'. intros eps He. destruct (D' eps He) as [dl Hd]. exists dl. intros h H1 H2. rewrite !lagrange_two. apply Hd; assumption.
Qed.

(** nodal: l = a + 1, h = a + 1 + b *)
Lemma nodal_der (a b : nat) : let l := Z.of_nat (S a) in
  derivable_pt_lim (lagrange (- Z.of_nat (S a + b)) (Z.of_nat (S a + b)) l) 0
    ((-1) ^ a * (F (S a + b) * F (S a + b) / (F (S a + b + S a) * F b * INR (S a)))).
Proof.
  intros l. set (h := (S a + b)%nat). set (m := (h + S a)%nat).
  assert (D : derivable_pt_lim (fun x => num_ (l - Z.of_nat m) m x * num_ (l + 1) b x) 0 (num_ (- Z.of_nat h) h 0 * num_ 1 a 0 * num_ (l + 1) b 0)).
  { set (g := fun x => num_ (- Z.of_nat h) h x * num_ 1 a x * num_ (l + 1) b x).
    assert (Dg : exists g', derivable_pt_lim g 0 g').
    { eexists. unfold g. apply (derivable_pt_lim_mult (fun x => num_ (- Z.of_nat h) h x * num_ 1 a x) (num_ (l + 1) b)); [|apply num_der].
      apply (derivable_pt_lim_mult (num_ (- Z.of_nat h) h) (num_ 1 a)); apply num_der. }
    destruct Dg as [g' Dg].
    assert (E : forall x, num_ (l - Z.of_nat m) m x * num_ (l + 1) b x = x * g x).
    { intros x. unfold m, g. replace (l - Z.of_nat (h + S a))%Z with (- Z.of_nat h)%Z by (unfold l; lia). rewrite num_split.
      change (S a) with (1 + a)%nat. rewrite num_split. cbn [num_]. replace (- Z.of_nat h + Z.of_nat h)%Z with 0%Z by lia. change (0 + Z.of_nat 0)%Z with 0%Z. change (0 + Z.of_nat 1)%Z with 1%Z. ring. }
    assert (D' : derivable_pt_lim (fun x => x * g x) 0 (1 * g 0 + 0 * g')) by (apply (derivable_pt_lim_mult id g); [apply derivable_pt_lim_id | exact Dg]).
    replace (1 * g 0 + 0 * g') with (g 0) in D' by ring. fold (g 0). intros eps He. destruct (D' eps He) as [dl Hd]. exists dl. intros k H1 H2. rewrite !E. apply Hd; assumption. }
  apply der_two in D. replace (l - Z.of_nat m)%Z with (- Z.of_nat h)%Z in D by (unfold l, m; lia). replace (l + Z.of_nat b)%Z with (Z.of_nat h) in D by (unfold l, h; lia).
  pose proof (num_below (- Z.of_nat h) h) as Q1. replace (- Z.of_nat h + Z.of_nat h)%Z with 0%Z in Q1 by lia. rewrite Q1 in D.
  pose proof (num_above0 0 a) as Q2. cbn [Z.add] in Q2. rewrite Q2 in D.
  pose proof (num_above 0 (S a) b) as Q3. replace (0 + Z.of_nat (S a) + 1)%Z with (l + 1)%Z in Q3 by (unfold l; lia). fold h in Q3.
  pose proof (F_pos (S a)). pose proof (F_pos a). pose proof (F_pos b). pose proof (F_pos m). pose proof (pm1_sq b) as Sq. pose proof (lt_0_INR (S a) ltac:(lia)) as Ia.
  assert (Q4 : num_ (l + 1) b 0 = (-1) ^ b * F h / F (S a)) by (apply (Rmult_eq_reg_r (F (S a))); [rewrite Q3; field; lra | lra]).
  rewrite Q4 in D. rewrite (F_S a) in D.
  match type of D with derivable_pt_lim _ _ ?v => replace v with (((-1) ^ b * (-1) ^ b) * ((-1) ^ a * (F h * F h / (F m * F b * INR (S a))))) in D by (field; repeat split; lra) end.
  rewrite Sq, Rmult_1_l in D. exact D.
Qed.

(** staggered: the polynomial of all points is symmetric around 1/2 *)
Fixpoint q_ (h : nat) (x : R) : R := match h with O => 1 | S k => (x + INR k) * (q_ k x * (x - INR (S k))) end.
Lemma num_front s n x : num_ s (S n) x = (x - IZR s) * num_ (s + 1) n x.
Proof. change (S n) with (1 + n)%nat. rewrite num_split. cbn [num_]. rewrite Z.add_0_r. change (Z.of_nat 1) with 1%Z. ring. Qed.
Lemma q_num h x : num_ (1 - Z.of_nat h) (h + h) x = q_ h x.
Proof.
  induction h as [|h IH]; [reflexivity|]. change (S h + S h)%nat with (S (h + S h)). rewrite num_front, Nat.add_succ_r. cbn [num_].
  replace (1 - Z.of_nat (S h) + 1)%Z with (1 - Z.of_nat h)%Z by lia. rewrite IH. cbn [q_].
  replace (1 - Z.of_nat (S h))%Z with (- Z.of_nat h)%Z by lia. replace (1 - Z.of_nat h + Z.of_nat (h + h))%Z with (Z.of_nat (S h)) by lia.
  rewrite opp_IZR, <- !INR_IZR_INZ. ring.
Qed.
Lemma q_der h : derivable_pt_lim (q_ h) (1 / 2) 0.
Proof.
  induction h as [|h IH]; [apply (derivable_pt_lim_const 1)|].
  assert (D : derivable_pt_lim (fun x => (x + INR h) * (q_ h x * (x - INR (S h)))) (1 / 2)
     ((1 + 0) * (q_ h (1 / 2) * (1 / 2 - INR (S h))) + (1 / 2 + INR h) * (0 * (1 / 2 - INR (S h)) + q_ h (1 / 2) * (1 - 0)))).
  { apply (derivable_pt_lim_mult (fun x => x + INR h) (fun x => q_ h x * (x - INR (S h)))).
    - apply (derivable_pt_lim_plus id (fct_cte (INR h))); [apply derivable_pt_lim_id | apply derivable_pt_lim_const].
    - apply (derivable_pt_lim_mult (q_ h) (fun x => x - INR (S h))); [exact IH|].
      apply (derivable_pt_lim_minus id (fct_cte (INR (S h)))); [apply derivable_pt_lim_id | apply derivable_pt_lim_const]. }
  match type of D with derivable_pt_lim _ _ ?v => replace v with 0 in D by (rewrite S_INR; field) end. exact D.
Qed.
(** (1/2)(3/2)...(h - 1/2) *)
Fixpoint halves (h : nat) : R := match h with O => 1 | S k => halves k * (INR k + 1 / 2) end.
Lemma q_half h : q_ h (1 / 2) = (-1) ^ h * (halves h * halves h).
Proof. induction h as [|h IH]; cbn [q_ halves pow]; [ring|]. rewrite IH, S_INR. field. Qed.
Lemma halves_fact k : halves (S k) * 2 ^ (2 * k + 1) * F k = F (2 * k + 1).
Proof.
  induction k as [|k IH].
  - unfold F. cbn. field.
  - replace (2 * S k + 1)%nat with (S (S (2 * k + 1))) by lia. rewrite !F_S, <- IH. cbn [halves pow]. rewrite !S_INR, plus_INR, mult_INR. cbn [INR]. field.
Qed.
Lemma staggered_der (a b : nat) : let l := Z.of_nat (S a) in
  derivable_pt_lim (lagrange (1 - Z.of_nat (S a + b)) (Z.of_nat (S a + b)) l) (1 / 2)
    ((-1) ^ a * (4 * (halves (S a + b) * halves (S a + b)) / ((2 * INR (S a) - 1) * (2 * INR (S a) - 1) * F (S a + b + a) * F b))).
Proof.
  intros l. set (h := (S a + b)%nat). set (m := (h + a)%nat). set (g := fun x => num_ (l - Z.of_nat m) m x * num_ (l + 1) b x).
  assert (Dg : exists g', derivable_pt_lim g (1 / 2) g') by (eexists; apply (derivable_pt_lim_mult (num_ (l - Z.of_nat m) m) (num_ (l + 1) b)); apply num_der).
  destruct Dg as [g' Dg].
  assert (E : forall x, q_ h x = g x * (x - IZR l)).
  { intros x. rewrite <- q_num. unfold g. replace (h + h)%nat with (m + S b)%nat by (unfold m, h; lia). rewrite num_split, num_front.
    replace (1 - Z.of_nat h)%Z with (l - Z.of_nat m)%Z by (unfold l, m, h; lia). replace (l - Z.of_nat m + Z.of_nat m)%Z with l by lia. ring. }
  assert (El : IZR l = INR (S a)) by (unfold l; rewrite <- INR_IZR_INZ; reflexivity).
  assert (Il : 1 <= INR (S a)) by (apply (le_INR 1); lia).
  assert (Z0 : g' * (1 / 2 - IZR l) + g (1 / 2) * (1 - 0) = 0).
  { apply (uniqueness_limite (q_ h) (1 / 2)); [|apply q_der].
    assert (D : derivable_pt_lim (fun x => g x * (x - IZR l)) (1 / 2) (g' * (1 / 2 - IZR l) + g (1 / 2) * (1 - 0))).
    { apply (derivable_pt_lim_mult g (fun x => x - IZR l)); [exact Dg|]. apply (derivable_pt_lim_minus id (fct_cte (IZR l))); [apply derivable_pt_lim_id | apply derivable_pt_lim_const]. }
    intros eps He. destruct (D eps He) as [dl Hd]. exists dl. intros k H1 H2. rewrite !E. apply Hd; assumption. }
  pose proof (E (1 / 2)) as Eh. rewrite q_half in Eh. rewrite El in *.
  set (L := INR (S a)) in *. set (T := halves h * halves h) in *.
  assert (G : g (1 / 2) = (-1) ^ h * T / (1 / 2 - L)) by (rewrite Eh; field; lra).
  assert (G' : g' = (-1) ^ h * T * - (4 / ((2 * L - 1) * (2 * L - 1)))).
  { rewrite G in Z0. apply (Rmult_eq_reg_r (1 / 2 - L)); [|lra].
    replace (g' * (1 / 2 - L)) with (- ((-1) ^ h * T / (1 / 2 - L))) by lra. field. split; lra. }
  apply der_two in Dg. rewrite G' in Dg. replace (l - Z.of_nat m)%Z with (1 - Z.of_nat h)%Z in Dg by (unfold l, m, h; lia). replace (l + Z.of_nat b)%Z with (Z.of_nat h) in Dg by (unfold l, h; lia).
  pose proof (F_pos m). pose proof (F_pos b). pose proof (pm1_sq b) as Sq.
  assert (Sg : (-1) ^ h = - ((-1) ^ a * (-1) ^ b)) by (unfold h; rewrite pow_add; cbn [pow]; ring).
  rewrite Sg in Dg.
  match type of Dg with derivable_pt_lim _ _ ?v => replace v with (((-1) ^ b * (-1) ^ b) * ((-1) ^ a * (4 * T / ((2 * L - 1) * (2 * L - 1) * F m * F b)))) in Dg by (field; repeat split; lra) end.
  rewrite Sq, Rmult_1_l in Dg. exact Dg.
Qed.

(** ** what the code computes *)
Section X.
Context {tg : R -> R}.
Notation N := (RX tg).
Notation fin r := (Fin r : num N).
Lemma log_fin r : 0 < r -> @n_log N (fin r) = fin (ln r). Proof. apply x_log_fin. Qed.
Lemma log_Z k : (1 <= k)%Z -> @n_log N (@n_mul N (@n_one N) (@n_of_Z N k)) = fin (ln (IZR k)).
Proof. intros H. change (@n_mul N (@n_one N) (@n_of_Z N k)) with (fin (1 * IZR k)). rewrite Rmult_1_l. apply log_fin. apply (IZR_lt 0). lia. Qed.
Lemma logfactorial_ok n : @logfactorial N (Z.of_nat n) = fin (ln (F n)).
Proof.
  unfold logfactorial. destruct (Z.eqb_spec (Z.of_nat n) 0) as [E|E].
  - replace n with 0%nat by lia. unfold F. cbn [fact INR]. rewrite ln_1. reflexivity.
  - destruct n as [|n]; [lia|]. rewrite log_Z by lia.
    assert (Q : forall k, fold_left (fun (s : num N) (i : Z) => @n_add N s (@n_log N (@n_mul N (@n_one N) (@n_of_Z N i)))) (zrange 2 (Z.of_nat (S k) - 1)) (fin (ln (IZR (Z.of_nat (S n))))) = fin (ln (IZR (Z.of_nat (S n))) + ln (F k))).
    { induction k as [|k IH].
      - rewrite zrange_nil by lia. cbn [fold_left]. unfold F. cbn [fact INR]. rewrite ln_1, Rplus_0_r. reflexivity.
      - destruct (Nat.eq_dec k 0) as [->|Nk].
        + rewrite zrange_nil by lia. cbn [fold_left]. unfold F. cbn [fact INR Nat.mul Nat.add]. rewrite ln_1, Rplus_0_r. reflexivity.
        + replace (Z.of_nat (S (S k)) - 1)%Z with ((Z.of_nat (S k) - 1) + 1)%Z by lia. rewrite zrange_snoc by lia. rewrite fold_left_app, IH. cbn [fold_left].
          rewrite log_Z by lia. rewrite add_fin. apply fin_eq. rewrite F_S, ln_mult by (try apply F_pos; apply lt_0_INR; lia). rewrite INR_IZR_INZ.
          replace (Z.of_nat (S k) - 1 + 1)%Z with (Z.of_nat (S k)) by lia. ring. }
    rewrite Q. apply fin_eq. rewrite F_S, ln_mult by (try apply F_pos; apply lt_0_INR; lia). rewrite INR_IZR_INZ. reflexivity.
Qed.
Lemma sign_ok a : (if Z.even (Z.of_nat (S a) + 1) then @n_one N else @n_opp N (@n_one N)) = fin ((-1) ^ a).
Proof.
  replace (Z.of_nat (S a) + 1)%Z with (Z.of_nat a + 2)%Z by lia.
  induction a as [|a IH]; [reflexivity|]. cbn [pow]. replace (Z.of_nat (S a) + 2)%Z with (Z.succ (Z.of_nat a + 2))%Z by lia.
  rewrite Z.even_succ, <- Z.negb_even. destruct (Z.even (Z.of_nat a + 2)); cbn [negb];
  [assert (E : 1 = (-1) ^ a) by (injection IH; auto) | assert (E : - (1) = (-1) ^ a) by (injection IH; auto)]; rewrite <- E; apply fin_eq; ring.
Qed.
Lemma exp_ln2 x : 0 < x -> exp (ln x * 2) = x * x.
Proof. intros H. replace (ln x * 2) with (ln x + ln x) by ring. rewrite exp_plus, exp_ln by assumption. reflexivity. Qed.
Lemma exp_div x y : exp (x - y) = exp x / exp y.
Proof. unfold Rminus, Rdiv. rewrite exp_plus, exp_Ropp. reflexivity. Qed.

Definition hv (staggered : bool) (h : nat) (i : Z) : R :=
  let a := Z.to_nat (i - 1) in let b := (h - Z.to_nat i)%nat in
  if staggered then (-1) ^ a * (4 * (halves (S a + b) * halves (S a + b)) / ((2 * INR (S a) - 1) * (2 * INR (S a) - 1) * F (S a + b + a) * F b))
  else (-1) ^ a * (F (S a + b) * F (S a + b) / (F (S a + b + S a) * F b * INR (S a))).
Lemma quarter k : exp (ln 16 * (1 - INR (S k))) * (F (2 * k + 1) * F (2 * k + 1)) / (F k * F k) = 4 * (halves (S k) * halves (S k)).
Proof.
  pose proof (F_pos k) as P. rewrite <- halves_fact.
  assert (E : exp (ln 16 * (1 - INR (S k))) * (2 ^ (2 * k + 1) * 2 ^ (2 * k + 1)) = 4).
  { rewrite S_INR. replace (ln 16 * (1 - (INR k + 1))) with (- (INR k * ln 16)) by ring. rewrite exp_Ropp.
    replace (exp (INR k * ln 16)) with (16 ^ k) by (rewrite <- Rpower_pow by lra; reflexivity).
    assert (E2 : 2 ^ (2 * k + 1) * 2 ^ (2 * k + 1) = 4 * 16 ^ k).
    { rewrite pow_add, pow_mult. replace (2 ^ 2) with 4 by ring. replace 16 with (4 * 4) by ring. rewrite Rpow_mult_distr. ring. }
    rewrite E2. field. apply pow_nonzero. lra. }
  transitivity ((exp (ln 16 * (1 - INR (S k))) * (2 ^ (2 * k + 1) * 2 ^ (2 * k + 1))) * (halves (S k) * halves (S k))); [field; lra|]. rewrite E. ring.
Qed.
Lemma hv_ok (h : nat) st : (1 <= h)%nat -> @fd_weights_hvincenti N (2 * Z.of_nat h) st = map (fun r => fin r) (map (hv st h) (zrange 1 (Z.of_nat h))).
Proof.
  intros Hh. unfold fd_weights_hvincenti. replace (2 * Z.of_nat h ÷ 2)%Z with (Z.of_nat h) by (rewrite Z.mul_comm, Z.quot_mul; lia).
  rewrite map_map. apply map_ext_in. intros i Hi. apply in_zrange in Hi. cbv zeta.
  unfold hv. set (a := Z.to_nat (i - 1)). set (b := (h - Z.to_nat i)%nat).
  assert (Ei : i = Z.of_nat (S a)) by (unfold a; lia). assert (Eh : h = (S a + b)%nat) by (unfold a, b; lia). clearbody a b. subst i.
  rewrite sign_ok. pose proof (F_pos b) as Pb. pose proof (lt_0_INR (S a) ltac:(lia)) as Pa. assert (Il : 1 <= INR (S a)) by (apply (le_INR 1); lia).
  pose proof (F_pos (S a + b)) as Ph. pose proof (F_pos (S a + b + S a)) as P1. pose proof (F_pos (S a + b + a)) as P2. pose proof (F_pos (a + b)) as P3. pose proof (F_pos (2 * (a + b) + 1)) as P4.
  destruct st.
  - replace (2 * Z.of_nat h - 1)%Z with (Z.of_nat (2 * (a + b) + 1)) by lia. replace (Z.of_nat h + Z.of_nat (S a) - 1)%Z with (Z.of_nat (S a + b + a)) by lia.
    replace (Z.of_nat h - Z.of_nat (S a))%Z with (Z.of_nat b) by lia. replace (Z.of_nat h - 1)%Z with (Z.of_nat (a + b)) by lia.
    rewrite !logfactorial_ok. rewrite lit_fin. change (@n_of_Z N (2 * Z.of_nat h)) with (fin (IZR (2 * Z.of_nat h))). change (@n_of_Z N (Z.of_nat (S a))) with (fin (IZR (Z.of_nat (S a)))).
    change (@n_two N) with (fin 2). change (@n_one N) with (fin 1). rewrite <- INR_IZR_INZ. rewrite div_fin by lra. rewrite !mul_fin, !sub_fin. rewrite !log_fin by lra.
    rewrite !mul_fin, !add_fin, sub_fin. change (@n_exp N) with x_exp. cbn [x_exp]. rewrite mul_fin. apply fin_eq. f_equal.
    replace (IZR (2 * Z.of_nat h) / 2) with (INR (S (a + b))) by (rewrite mult_IZR, <- INR_IZR_INZ, Eh; change (S a + b)%nat with (S (a + b)); field).
    rewrite exp_div, !exp_plus. rewrite (Rmult_comm 2 (ln (F (a + b)))). rewrite !exp_ln2 by lra. rewrite !exp_ln by assumption.
    pose proof (quarter (a + b)) as Q. change (S a + b)%nat with (S (a + b)). change (S a + b + a)%nat with (S (a + b) + a)%nat in *. rewrite <- Q. field. repeat split; lra.
  - replace (Z.of_nat h + Z.of_nat (S a))%Z with (Z.of_nat (S a + b + S a)) by lia. replace (Z.of_nat h - Z.of_nat (S a))%Z with (Z.of_nat b) by lia. rewrite Eh at 1.
    rewrite !logfactorial_ok, log_Z by lia. change (@n_two N) with (fin 2). rewrite mul_fin, !add_fin, sub_fin. change (@n_exp N) with x_exp. cbn [x_exp]. rewrite mul_fin. apply fin_eq. f_equal.
    rewrite exp_div, !exp_plus, exp_ln2 by assumption. rewrite <- INR_IZR_INZ. rewrite !exp_ln by assumption. field. repeat split; lra.
Qed.
Lemma hv_spec (h : Z) (st : bool) : (1 <= h)%Z -> exists cs, @fd_weights_hvincenti N (2 * h) st = map (fun r => fin r) cs /\ zlen cs = h /\
  forall i, (1 <= i <= h)%Z -> derivable_pt_lim (lagrange (if st then 1 - h else - h) h i) (if st then 1 / 2 else 0) (weight cs i).
Proof.
  intros Hh. exists (map (hv st (Z.to_nat h)) (zrange 1 h)). pose proof (hv_ok (Z.to_nat h) st ltac:(lia)) as W. rewrite Z2Nat.id in W by lia. split; [exact W|]. split.
  - unfold zlen, zrange, zseq. rewrite !map_length, seq_length. lia.
  - intros i Hi. unfold weight. rewrite nth_map_zrange by lia. unfold hv. set (a := Z.to_nat (i - 1)). set (b := (Z.to_nat h - Z.to_nat i)%nat).
    assert (Ei : i = Z.of_nat (S a)) by (unfold a; lia). assert (Eh : h = Z.of_nat (S a + b)) by (unfold a, b; lia). clearbody a b. rewrite Ei, Eh.
    destruct st; [apply staggered_der | apply nodal_der].
Qed.
End X.
