(** The formulas with the weights of the derivative are exact on polynomials up to their order. *)
From Coq Require Import ZArith Reals List Bool Lia Lra.
From Verif Require Import Cxx Num NumRX Fortran Grid SpecYee SpecFd Hvincenti CxxLemmas RXLemmas GridLemmas FdProofs HvProofs.
Import ListNotations.
Local Open Scope R_scope.

(** ** functions that are polynomials with n coefficients *)
Definition isP (n : nat) (f : R -> R) : Prop := exists a, (length a <= n)%nat /\ forall x, f x = poly a x.
Fixpoint padd (a b : list R) : list R := match a, b with [], _ => b | _, [] => a | x :: a', y :: b' => (x + y) :: padd a' b' end.
Lemma padd_len a : forall b, length (padd a b) = Nat.max (length a) (length b).
Proof. induction a as [|x a IH]; intros [|y b]; cbn [padd length]; [reflexivity..|]. rewrite IH. reflexivity. Qed.
Lemma padd_ok a x : forall b, poly (padd a b) x = poly a x + poly b x.
Proof. unfold poly. induction a as [|u a IH]; intros [|y b]; cbn [padd fold_right]; [ring..|]. rewrite IH. ring. Qed.
Lemma isP_add n f g : isP n f -> isP n g -> isP n (fun x => f x + g x).
Proof. intros (a & La & Ha) (b & Lb & Hb). exists (padd a b). split; [rewrite padd_len; lia|]. intros x. rewrite padd_ok, Ha, Hb. reflexivity. Qed.
Lemma scal_ok k a x : poly (map (fun c => k * c) a) x = k * poly a x.
Proof. unfold poly. induction a as [|u a IH]; cbn [map fold_right]; [ring|]. rewrite IH. ring. Qed.
Lemma isP_scal n k f : isP n f -> isP n (fun x => k * f x).
Proof. intros (a & La & Ha). exists (map (fun c => k * c) a). split; [rewrite map_length; lia|]. intros x. rewrite scal_ok, Ha. reflexivity. Qed.
Lemma isP_aff n u v f : isP n f -> isP (S n) (fun x => (u + v * x) * f x).
Proof.
  intros (a & La & Ha). exists (padd (map (fun c => u * c) a) (0 :: map (fun c => v * c) a)). split; [rewrite padd_len; cbn [length]; rewrite !map_length; lia|].
  intros x. rewrite padd_ok, scal_ok. change (poly (0 :: map (fun c => v * c) a) x) with (0 + x * poly (map (fun c => v * c) a) x). rewrite scal_ok, Ha. ring.
Qed.
Lemma isP_const n k : isP (S n) (fun _ => k).
Proof. exists [k]. split; [cbn; lia|]. intros x. cbn. ring. Qed.
Lemma isP_ext n f g : (forall x, f x = g x) -> isP n f -> isP n g.
Proof. intros E (a & La & Ha). exists a. split; [exact La|]. intros x. rewrite <- E. apply Ha. Qed.
Lemma isP_le n m f : (n <= m)%nat -> isP n f -> isP m f.
Proof. intros H (a & La & Ha). exists a. split; [lia | exact Ha]. Qed.
Lemma isP_comp n u v f : isP n f -> isP n (fun x => f (u + v * x)).
Proof.
  intros (a & La & Ha). apply (isP_ext n (fun x => poly a (u + v * x))); [intros x; symmetry; apply Ha|]. clear f Ha.
  revert n La. induction a as [|c a IH]; intros n La.
  - exists []. split; [cbn; lia | reflexivity].
  - cbn [length] in La. destruct n as [|n]; [lia|]. apply (isP_ext _ (fun x => c + (u + v * x) * poly a (u + v * x))); [reflexivity|].
    apply isP_add; [apply isP_const|]. apply (isP_aff n u v (fun x => poly a (u + v * x))), IH. lia.
Qed.
Lemma isP_num s k n f : isP n f -> isP (k + n) (fun x => num_ s k x * f x).
Proof.
  intros H. induction k as [|k IH]; [apply (isP_ext _ f); [intros x; cbn; ring | exact H]|].
  apply (isP_ext _ (fun x => (- IZR (s + Z.of_nat k) + 1 * x) * (num_ s k x * f x))); [intros x; cbn [num_]; ring|]. apply (isP_aff _ _ _ (fun x => num_ s k x * f x)), IH.
Qed.
Lemma isP_sum n N (f : Z -> R -> R) : (forall i, (1 <= i <= N)%Z -> isP n (f i)) -> isP n (fun x => Sum N (fun i => f i x)).
Proof.
  intros H. unfold Sum. assert (Q : forall l, (forall i, In i l -> isP n (f i)) -> isP n (fun x => fold_right Rplus 0 (map (fun i => f i x) l))).
  { induction l as [|i l IH]; intros Hl; cbn [map fold_right].
    - exists []. split; [cbn; lia | reflexivity].
    - apply isP_add; [apply Hl; left; reflexivity | apply IH; intros; apply Hl; right; assumption]. }
  apply Q. intros i Hi. apply H, in_zrange. exact Hi.
Qed.
(** a root is a factor *)
Lemma synth a r : exists b, (length b <= pred (length a))%nat /\ forall x, poly a x = (x - r) * poly b x + poly a r.
Proof.
  induction a as [|c a (b & Lb & Hb)]; [exists []; split; [cbn; lia | intros x; cbn; ring]|].
  destruct a as [|c' a']; [exists []; split; [cbn; lia | intros x; cbn; ring]|].
  set (a := c' :: a') in *. exists (poly a r :: b). split; [cbn [length pred] in *; unfold a in *; cbn [length pred] in *; lia|].
  intros x. change (poly (c :: a) x) with (c + x * poly a x). change (poly (c :: a) r) with (c + r * poly a r). change (poly (poly a r :: b) x) with (poly a r + x * poly b x).
  rewrite (Hb x). ring.
Qed.
Lemma factor n f r : isP (S n) f -> f r = 0 -> exists g, isP n g /\ forall x, f x = (x - r) * g x.
Proof.
  intros (a & La & Ha) E. destruct (synth a r) as (b & Lb & Hb). exists (poly b). split; [exists b; split; [lia | reflexivity]|].
  intros x. rewrite Ha, Hb, <- Ha, E. ring.
Qed.
Lemma roots s n : forall m f, isP (n + m) f -> (forall k, (k < n)%nat -> f (IZR (s + Z.of_nat k)) = 0) -> exists g, isP m g /\ forall x, f x = num_ s n x * g x.
Proof.
  induction n as [|n IH]; intros m f Hf Z0.
  - exists f. split; [exact Hf | intros x; cbn; ring].
  - destruct (IH (S m) f) as (g & Hg & E); [rewrite Nat.add_succ_r; exact Hf | intros k Hk; apply Z0; lia|].
    destruct (factor m g (IZR (s + Z.of_nat n)) Hg) as (g' & Hg' & E').
    { pose proof (Z0 n (Nat.lt_succ_diag_r n)) as Q. rewrite E in Q. apply Rmult_integral in Q. destruct Q as [Q|Q]; [|exact Q]. exfalso. revert Q. apply num_nz. lia. }
    exists g'. split; [exact Hg'|]. intros x. rewrite E, E'. cbn [num_]. ring.
Qed.

(** ** interpolation *)
Lemma lag_one s e i : lagrange s e i (IZR i) = 1.
Proof.
  unfold lagrange. assert (Q : forall l, fold_right Rmult 1 (map (fun j => (IZR i - IZR j) / (IZR i - IZR j)) (filter (fun j => negb (j =? i)%Z) l)) = 1).
  { induction l as [|j l IH]; [reflexivity|]. cbn [filter]. destruct (Z.eqb_spec j i) as [E|E]; cbn [negb]; [exact IH|]. cbn [map fold_right]. rewrite IH. field.
    intros Q. apply E. apply eq_IZR. lra. }
  apply Q.
Qed.
Lemma lag_zero s e i j : (s <= j <= e)%Z -> j <> i -> lagrange s e i (IZR j) = 0.
Proof.
  intros Hj Nj. unfold lagrange. apply in_zrange in Hj. revert Hj. generalize (zrange s e). induction l as [|k l IH]; [intros []|]. intros [E|Hl]; cbn [filter].
  - subst k. replace (j =? i)%Z with false by (symmetry; apply Z.eqb_neq; exact Nj). cbn [negb map fold_right]. unfold Rdiv. rewrite Rminus_diag_eq by reflexivity. ring.
  - destruct (k =? i)%Z; cbn [negb map fold_right]; [|rewrite IH by assumption; ring]. apply IH. assumption.
Qed.
Lemma lag_isP (s e i : Z) : (s <= i <= e)%Z -> isP (Z.to_nat (e - s + 1)) (lagrange s e i).
Proof.
  intros H. set (m := Z.to_nat (i - s)). set (b := Z.to_nat (e - i)). replace (Z.to_nat (e - s + 1)) with (m + (b + 1))%nat by (unfold m, b; lia).
  apply (isP_ext _ (fun x => num_ (i - Z.of_nat m) m x * (num_ (i + 1) b x * ((-1) ^ b / (F m * F b))))).
  - intros x. replace s with (i - Z.of_nat m)%Z by (unfold m; lia). replace e with (i + Z.of_nat b)%Z by (unfold b; lia). rewrite lagrange_two.
    replace (i - Z.of_nat (Z.to_nat (i - (i - Z.of_nat m))))%Z with (i - Z.of_nat m)%Z by lia. ring.
  - apply (isP_num _ _ _ (fun x => num_ (i + 1) b x * ((-1) ^ b / (F m * F b)))), (isP_num _ _ 1 (fun _ => (-1) ^ b / (F m * F b))), isP_const.
Qed.
Lemma Sum_one n (f : Z -> R) j : (1 <= j <= n)%Z -> (forall i, (1 <= i <= n)%Z -> i <> j -> f i = 0) -> Sum n f = f j.
Proof.
  intros Hj Hz. unfold Sum. apply in_zrange in Hj.
  assert (Q : forall l, NoDup l -> In j l -> (forall i, In i l -> i <> j -> f i = 0) -> fold_right Rplus 0 (map f l) = f j).
  { assert (Q0 : forall l, (forall i, In i l -> f i = 0) -> fold_right Rplus 0 (map f l) = 0).
    { induction l as [|i l IH]; intros H; [reflexivity|]. cbn [map fold_right]. rewrite (H i), IH; [ring | intros; apply H; right; assumption | left; reflexivity]. }
    induction l as [|i l IH]; [intros _ []|]. intros Nd [E|Hl] H; inversion Nd as [|? ? Ni Nl]; subst; cbn [map fold_right].
    - rewrite Q0; [ring|]. intros k Hk. apply H; [right; exact Hk | intros ->; contradiction].
    - rewrite (H i), IH; [ring | assumption | assumption | intros; apply H; [right|]; assumption | left; reflexivity | intros ->; contradiction]. }
  apply Q; [|exact Hj|intros i Hi; apply Hz, in_zrange; exact Hi].
  clear. unfold zrange. apply FinFun.Injective_map_NoDup; [intros a b; lia|]. unfold zseq. apply FinFun.Injective_map_NoDup; [intros a b; lia|]. apply seq_NoDup.
Qed.
Lemma Sum_zero n (f : Z -> R) : (forall i, (1 <= i <= n)%Z -> f i = 0) -> Sum n f = 0.
Proof.
  intros H. unfold Sum. assert (Q : forall l, (forall i, In i l -> f i = 0) -> fold_right Rplus 0 (map f l) = 0).
  { induction l as [|i l IH]; intros Hl; [reflexivity|]. cbn [map fold_right]. rewrite (Hl i), IH; [ring | intros; apply Hl; right; assumption | left; reflexivity]. }
  apply Q. intros i Hi. apply H, in_zrange. exact Hi.
Qed.
Definition interp (kk h : Z) (g : R -> R) (t : R) : R :=
  Sum h (fun i => g (IZR i) * lagrange (kk - h) h i t + g (IZR (kk - i)) * lagrange (kk - h) h i (IZR kk - t)).
Lemma interp_node kk h g j : (kk = 0 \/ kk = 1)%Z -> (kk = 0%Z -> g 0 = 0) -> (1 <= h)%Z -> (kk - h <= j <= h)%Z -> interp kk h g (IZR j) = g (IZR j).
Proof.
  intros Hk G0 Hh Hj. unfold interp. destruct (Z_le_gt_dec 1 j) as [P|P].
  - rewrite (Sum_one h _ j) by (try lia; intros i Hi Ni; rewrite <- minus_IZR, !lag_zero by lia; ring).
    rewrite lag_one, <- minus_IZR, lag_zero by lia. ring.
  - destruct (Z.eq_dec (kk - j) 0) as [E|E].
    + assert (kk = 0%Z) by lia. assert (j = 0%Z) by lia. subst kk j. rewrite G0 by reflexivity. apply Sum_zero. intros i Hi. rewrite <- minus_IZR, !lag_zero by lia. ring.
    + rewrite (Sum_one h _ (kk - j)) by (try lia; intros i Hi Ni; rewrite <- minus_IZR, !lag_zero by lia; ring).
      rewrite <- minus_IZR, lag_one, lag_zero by lia. replace (kk - (kk - j))%Z with j by lia. ring.
Qed.
Lemma interpolation kk h g : (kk = 0 \/ kk = 1)%Z -> (kk = 0%Z -> g 0 = 0) -> (1 <= h)%Z -> isP (Z.to_nat (2 * h + 1)) g ->
  exists P, isP (Z.to_nat kk) P /\ forall t, g t = interp kk h g t + num_ (kk - h) (Z.to_nat (2 * h + 1 - kk)) t * P t.
Proof.
  intros Hk G0 Hh Hg. destruct (roots (kk - h) (Z.to_nat (2 * h + 1 - kk)) (Z.to_nat kk) (fun t => g t + (-1) * interp kk h g t)) as (P & HP & E).
  - replace (Z.to_nat (2 * h + 1 - kk) + Z.to_nat kk)%nat with (Z.to_nat (2 * h + 1)) by lia. apply isP_add; [exact Hg|]. apply isP_scal.
    unfold interp. apply (isP_sum _ h (fun i t => g (IZR i) * lagrange (kk - h) h i t + g (IZR (kk - i)) * lagrange (kk - h) h i (IZR kk - t))).
    intros i Hi. assert (L : isP (Z.to_nat (2 * h + 1)) (lagrange (kk - h) h i)) by (apply (isP_le (Z.to_nat (h - (kk - h) + 1))); [lia | apply lag_isP; lia]).
    apply isP_add; apply isP_scal; [exact L|]. apply (isP_ext _ (fun t => lagrange (kk - h) h i (IZR kk + (-1) * t))); [intros t; f_equal; ring | apply isP_comp; exact L].
  - intros k Hkk. rewrite interp_node by (try assumption; lia). ring.
  - exists P. split; [exact HP|]. intros t. rewrite <- E. ring.
Qed.

(** ** derivatives *)
Lemma der_ext f g x d : (forall t, f t = g t) -> derivable_pt_lim f x d -> derivable_pt_lim g x d.
Proof. intros E D eps He. destruct (D eps He) as [dl Hd]. exists dl. intros k H1 H2. rewrite <- !E. apply Hd; assumption. Qed.
Lemma der_sum n (f : Z -> R -> R) d x : (forall i, (1 <= i <= n)%Z -> derivable_pt_lim (f i) x (d i)) -> derivable_pt_lim (fun t => Sum n (fun i => f i t)) x (Sum n d).
Proof.
  intros H. unfold Sum. assert (Q : forall l, (forall i, In i l -> derivable_pt_lim (f i) x (d i)) -> derivable_pt_lim (fun t => fold_right Rplus 0 (map (fun i => f i t) l)) x (fold_right Rplus 0 (map d l))).
  { induction l as [|i l IH]; intros Hl; cbn [map fold_right]; [apply (derivable_pt_lim_const 0)|].
    apply (derivable_pt_lim_plus (f i) (fun t => fold_right Rplus 0 (map (fun i => f i t) l))); [apply Hl; left; reflexivity | apply IH; intros; apply Hl; right; assumption]. }
  apply Q. intros i Hi. apply H, in_zrange. exact Hi.
Qed.
Lemma der_aff f u v x d : derivable_pt_lim f (u + v * x) d -> derivable_pt_lim (fun t => f (u + v * t)) x (d * v).
Proof.
  intros D. apply (derivable_pt_lim_comp (fun t => u + v * t) f); [|exact D].
  assert (A : derivable_pt_lim (fun t => u + v * t) x (0 + v * 1)); [|replace (0 + v * 1) with v in A by ring; exact A].
  apply (derivable_pt_lim_plus (fct_cte u) (mult_real_fct v id)); [apply derivable_pt_lim_const | apply derivable_pt_lim_scal, derivable_pt_lim_id].
Qed.
Lemma rest_der kk h P : (kk = 0 \/ kk = 1)%Z -> (1 <= h)%Z -> isP (Z.to_nat kk) P -> derivable_pt_lim (fun t => num_ (kk - h) (Z.to_nat (2 * h + 1 - kk)) t * P t) (IZR kk / 2) 0.
Proof.
  intros [->| ->] Hh (a & La & Ha).
  - apply (der_ext (fun _ => 0)); [|apply (derivable_pt_lim_const 0)]. intros t. rewrite Ha. destruct a; [cbn; ring | cbn in La; lia].
  - set (p := P 0). apply (der_ext (fun t => p * q_ (Z.to_nat h) t)).
    + intros t. rewrite <- q_num. replace (Z.of_nat (Z.to_nat h)) with h by lia. replace (Z.to_nat h + Z.to_nat h)%nat with (Z.to_nat (2 * h + 1 - 1)) by lia.
      assert (E : P t = p). { unfold p. rewrite !Ha. destruct a as [|c [|]]; cbn in La |- *; [reflexivity | ring | lia]. } rewrite E. ring.
    + replace 0 with (p * 0) by ring. apply (derivable_pt_lim_scal (q_ (Z.to_nat h)) p (1 / 2) 0), q_der.
Qed.
Lemma centred_exact kk h (w : Z -> R) a x d : (kk = 0 \/ kk = 1)%Z -> (1 <= h)%Z -> d <> 0 -> (length a <= S (Z.to_nat (2 * h)))%nat ->
  (forall i, (1 <= i <= h)%Z -> derivable_pt_lim (lagrange (kk - h) h i) (IZR kk / 2) (w i)) ->
  derivable_pt_lim (poly a) x (Sum h (fun i => w i * (poly a (x + (IZR i - IZR kk / 2) * d) - poly a (x - (IZR i - IZR kk / 2) * d))) / d).
Proof.
  intros Hk Hh Hd La Hw. set (c := IZR kk / 2) in *. set (g := fun t => poly a ((x - c * d) + d * t) + - poly a x).
  assert (Pg : isP (Z.to_nat (2 * h + 1)) g).
  { apply isP_add; [|apply (isP_le 1); [lia | apply isP_const]]. apply (isP_comp _ (x - c * d) d (poly a)). exists a. split; [lia | reflexivity]. }
  destruct (interpolation kk h g) as (P & HP & E); [exact Hk | | exact Hh | exact Pg |].
  { intros ->. unfold g, c. replace (x - 0 / 2 * d + d * 0) with x by field. ring. }
  assert (D : derivable_pt_lim g c (Sum h (fun i => w i * (poly a (x + (IZR i - c) * d) - poly a (x - (IZR i - c) * d))))).
  { apply (der_ext (fun t => interp kk h g t + num_ (kk - h) (Z.to_nat (2 * h + 1 - kk)) t * P t)); [intros t; symmetry; apply E|].
    match goal with |- derivable_pt_lim _ _ ?v => rewrite <- (Rplus_0_r v) end.
    apply (derivable_pt_lim_plus (interp kk h g) (fun t => num_ (kk - h) (Z.to_nat (2 * h + 1 - kk)) t * P t)); [|apply rest_der; assumption].
    unfold interp. apply (der_sum h (fun i t => g (IZR i) * lagrange (kk - h) h i t + g (IZR (kk - i)) * lagrange (kk - h) h i (IZR kk - t))).
    intros i Hi. replace (w i * (poly a (x + (IZR i - c) * d) - poly a (x - (IZR i - c) * d))) with (g (IZR i) * w i + g (IZR (kk - i)) * (w i * -1)).
    - apply (derivable_pt_lim_plus (fun t => g (IZR i) * lagrange (kk - h) h i t) (fun t => g (IZR (kk - i)) * lagrange (kk - h) h i (IZR kk - t))).
      + apply (derivable_pt_lim_scal (lagrange (kk - h) h i)), Hw. exact Hi.
      + apply (derivable_pt_lim_scal (fun t => lagrange (kk - h) h i (IZR kk - t))). apply (der_ext (fun t => lagrange (kk - h) h i (IZR kk + -1 * t))); [intros t; f_equal; ring|].
        apply (der_aff (lagrange (kk - h) h i) (IZR kk) (-1)). replace (IZR kk + -1 * c) with c by (unfold c; field). apply Hw. exact Hi.
    - unfold g. rewrite minus_IZR. replace (x - c * d + d * IZR i) with (x + (IZR i - c) * d) by ring. replace (x - c * d + d * (IZR kk - IZR i)) with (x - (IZR i - c) * d) by (unfold c; field). ring. }
  apply (der_ext (fun y => poly a x + g ((c - x / d) + / d * y))).
  - intros y. unfold g. replace (x - c * d + d * (c - x / d + / d * y)) with y by (field; exact Hd). ring.
  - match goal with |- derivable_pt_lim _ _ ?v => rewrite <- (Rplus_0_l v) end.
    apply (derivable_pt_lim_plus (fct_cte (poly a x)) (fun y => g ((c - x / d) + / d * y))); [apply derivable_pt_lim_const|].
    unfold Rdiv at 1. apply (der_aff g (c - x / d) (/ d)). replace (c - x / d + / d * x) with c by (field; exact Hd). exact D.
Qed.
Lemma hv_exact (tg : R -> R) (h : Z) (st : bool) : (1 <= h)%Z -> exists cs, @fd_weights_hvincenti (RX tg) (2 * h) st = map (fun r => Fin r) cs /\
  forall d, d <> 0 -> exact_to (Z.to_nat (2 * h)) (if st then staggered cs d else nodal cs d).
Proof.
  intros Hh. destruct (hv_spec (tg := tg) h st Hh) as (cs & E & L & W). exists cs. split; [exact E|]. intros d Hd a x La. destruct st.
  - unfold staggered. rewrite L. apply (centred_exact 1 h (weight cs) a x d); [lia | exact Hh | exact Hd | exact La | exact W].
  - unfold nodal. rewrite L. pose proof (centred_exact 0 h (weight cs) a x d ltac:(lia) Hh Hd La) as Q.
    replace (IZR 0 / 2) with 0 in Q by field. specialize (Q W). 
    match type of Q with derivable_pt_lim _ _ ?v => match goal with |- derivable_pt_lim _ _ ?u => replace u with v; [exact Q|] end end.
    f_equal. unfold Sum. f_equal. apply map_ext. intros i. rewrite Rminus_0_r. reflexivity.
Qed.
