(** Sums and differences of real fields. *)
From Coq Require Import ZArith Reals List Bool Lia Lra.
From Verif Require Import Cxx Num NumRX Grid GridLemmas SpecYee.
Import ListNotations.
Local Open Scope R_scope.

Definition rsum (l : list Z) (f : Z -> R) : R := fold_right Rplus 0 (map f l).

Lemma rsum_ext l f g : (forall i, In i l -> f i = g i) -> rsum l f = rsum l g.
Proof. unfold rsum. induction l as [|a l IH]; intros H; [reflexivity|]. cbn. rewrite H by (left; reflexivity). rewrite IH; [reflexivity|]. intros i Hi. apply H. right; exact Hi. Qed.
Lemma rsum_plus l f g : rsum l (fun i => f i + g i) = rsum l f + rsum l g.
Proof. unfold rsum. induction l as [|a l IH]; cbn; [lra|]. rewrite IH. lra. Qed.
Lemma rsum_scal l c f : rsum l (fun i => c * f i) = c * rsum l f.
Proof. unfold rsum. induction l as [|a l IH]; cbn; [lra|]. rewrite IH. lra. Qed.
Lemma rsum_0 l : rsum l (fun _ => 0) = 0.
Proof. unfold rsum. induction l as [|a l IH]; cbn; [lra|]. rewrite IH. lra. Qed.
Lemma rsum_swap l m (f : Z -> Z -> R) : rsum l (fun i => rsum m (f i)) = rsum m (fun j => rsum l (fun i => f i j)).
Proof.
  induction l as [|a l IH].
  - cbn. symmetry. apply rsum_0.
  - change (rsum m (f a) + rsum l (fun i => rsum m (f i)) = rsum m (fun j => f a j + rsum l (fun i => f i j))).
    rewrite IH, rsum_plus. reflexivity.
Qed.
Lemma rsum_app l m f : rsum (l ++ m) f = rsum l f + rsum m f.
Proof. unfold rsum. induction l as [|a l IH]; cbn; [lra|]. rewrite IH. lra. Qed.
Lemma Sum_rsum n f : Sum n f = rsum (zrange 1 n) f.
Proof. reflexivity. Qed.
Lemma Sum_1 f : Sum 1 f = f 1%Z.
Proof. change (f 1%Z + 0 = f 1%Z). lra. Qed.
Lemma Sum_ext n f g : (forall i, (1 <= i <= n)%Z -> f i = g i) -> Sum n f = Sum n g.
Proof. intros H. apply rsum_ext. intros i Hi. apply H. apply in_zrange. exact Hi. Qed.
Lemma Sum_scal n c f : Sum n (fun i => c * f i) = c * Sum n f.
Proof. apply rsum_scal. Qed.

(** a general difference *)
Definition dif (s : stencil) (d : axis) (a b : Z -> Z) (f : idx -> R) (p : idx) : R :=
  rsum (zrange 1 (half_order s d)) (fun i => coef s d i * (f (shift d (a i) p) - f (shift d (b i) p))).

Lemma fwd_dif s d f p : fwd s d f p = dif s d (fun i => i) (fun i => ist s - i)%Z f p.
Proof. reflexivity. Qed.
Lemma bwd_dif s d f p : bwd s d f p = dif s d (fun i => i - ist s)%Z (fun i => - i)%Z f p.
Proof. reflexivity. Qed.

Lemma shift_comm d d' m n p : d <> d' -> shift d m (shift d' n p) = shift d' n (shift d m p).
Proof. destruct p as [[j k] l]. destruct d, d'; intros H; try congruence; reflexivity. Qed.

Lemma dif_comm s d d' a b a' b' f p : d <> d' ->
  dif s d a b (dif s d' a' b' f) p = dif s d' a' b' (dif s d a b f) p.
Proof.
  intros N. unfold dif.
  transitivity (rsum (zrange 1 (half_order s d)) (fun i => rsum (zrange 1 (half_order s d')) (fun i' =>
     coef s d i * (coef s d' i' * (f (shift d' (a' i') (shift d (a i) p)) - f (shift d' (b' i') (shift d (a i) p)))) +
     -1 * (coef s d i * (coef s d' i' * (f (shift d' (a' i') (shift d (b i) p)) - f (shift d' (b' i') (shift d (b i) p)))))))).
  - apply rsum_ext. intros i _. rewrite rsum_plus, !rsum_scal. lra.
  - rewrite rsum_swap. apply rsum_ext. intros i' _.
    transitivity (coef s d' i' * (rsum (zrange 1 (half_order s d)) (fun i => coef s d i * (f (shift d (a i) (shift d' (a' i') p)) - f (shift d (b i) (shift d' (a' i') p))))
       + -1 * rsum (zrange 1 (half_order s d)) (fun i => coef s d i * (f (shift d (a i) (shift d' (b' i') p)) - f (shift d (b i) (shift d' (b' i') p)))))); [|lra].
    rewrite <- rsum_scal, <- rsum_plus, <- rsum_scal. apply rsum_ext. intros i _.
    rewrite !(shift_comm d d') by exact N. lra.
Qed.

Lemma dif_lin s d a b f g c p : dif s d a b (fun q => f q + c * g q) p = dif s d a b f p + c * dif s d a b g p.
Proof. unfold dif. rewrite <- rsum_scal, <- rsum_plus. apply rsum_ext. intros i _. lra. Qed.

Lemma dif_ext s d a b f g p :
  (forall i, (1 <= i <= half_order s d)%Z -> f (shift d (a i) p) = g (shift d (a i) p) /\ f (shift d (b i) p) = g (shift d (b i) p)) ->
  dif s d a b f p = dif s d a b g p.
Proof. intros H. apply rsum_ext. intros i Hi. apply in_zrange in Hi. destruct (H i Hi) as [-> ->]. reflexivity. Qed.

Lemma dif_sub s d a b f g p : dif s d a b (fun q => f q - g q) p = dif s d a b f p - dif s d a b g p.
Proof.
  transitivity (dif s d a b (fun q => f q + -1 * g q) p).
  - apply dif_ext. intros; split; lra.
  - rewrite dif_lin. lra.
Qed.

(** the divergence of a curl is zero *)
Lemma div_curl_dif s a b f p :
  div (fun d => dif s d a b) (curl (fun d => dif s d a b) f) p = 0.
Proof.
  unfold div, curl. cbn [comp_x comp_y comp_z]. rewrite !dif_sub.
  rewrite (dif_comm s AX AY), (dif_comm s AX AZ), (dif_comm s AY AZ) by discriminate. lra.
Qed.

Lemma div_curl_fwd s f p : div (fwd s) (curl (fwd s) f) p = 0.
Proof. exact (div_curl_dif s (fun i => i) (fun i => ist s - i)%Z f p). Qed.
Lemma div_curl_bwd s f p : div (bwd s) (curl (bwd s) f) p = 0.
Proof. exact (div_curl_dif s (fun i => i - ist s)%Z (fun i => - i)%Z f p). Qed.

Lemma fwd_yee hx hy hz d f p : fwd (yee hx hy hz) d f p =
  match d with AX => / hx | AY => / hy | AZ => / hz end * (f (shift d 1 p) - f p).
Proof. unfold fwd. cbn [half_order yee]. rewrite Sum_1. cbn. destruct p as [[j k] l], d; cbn; rewrite Z.add_0_r; reflexivity. Qed.
Lemma bwd_yee hx hy hz d f p : bwd (yee hx hy hz) d f p =
  match d with AX => / hx | AY => / hy | AZ => / hz end * (f p - f (shift d (-1) p)).
Proof. unfold bwd. cbn [half_order yee]. rewrite Sum_1. cbn. destruct p as [[j k] l], d; cbn; rewrite Z.add_0_r; reflexivity. Qed.
