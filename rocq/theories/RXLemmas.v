(** Facts about the extended real instance (proofs only). *)
From Coq Require Import ZArith Reals Lra Lia Bool.
From Verif Require Import Cxx Num NumRX.
Local Open Scope R_scope.

Lemma Rltb_true a b : a < b -> Rltb a b = true.
Proof. intros; unfold Rltb; destruct (Rlt_dec a b); auto; lra. Qed.
Lemma Rltb_false a b : b <= a -> Rltb a b = false.
Proof. intros; unfold Rltb; destruct (Rlt_dec a b); auto; lra. Qed.
Lemma Rleb_true a b : a <= b -> Rleb a b = true.
Proof. intros; unfold Rleb; destruct (Rle_dec a b); auto; lra. Qed.
Lemma Rleb_false a b : b < a -> Rleb a b = false.
Proof. intros; unfold Rleb; destruct (Rle_dec a b); auto; lra. Qed.
Lemma Reqb_true a b : a = b -> Reqb a b = true.
Proof. intros; unfold Reqb; destruct (Req_EM_T a b); auto; lra. Qed.
Lemma Reqb_false a b : a <> b -> Reqb a b = false.
Proof. intros; unfold Reqb; destruct (Req_EM_T a b); auto; lra. Qed.

Lemma Rltb_spec a b : reflect (a < b) (Rltb a b).
Proof. unfold Rltb; destruct (Rlt_dec a b); constructor; auto. Qed.
Lemma Rleb_spec a b : reflect (a <= b) (Rleb a b).
Proof. unfold Rleb; destruct (Rle_dec a b); constructor; auto. Qed.
Lemma Reqb_spec a b : reflect (a = b) (Reqb a b).
Proof. unfold Reqb; destruct (Req_EM_T a b); constructor; auto. Qed.

Lemma x_div_fin a b : b <> 0 -> x_div (Fin a) (Fin b) = Fin (a / b).
Proof. intros; cbn; destruct (Req_EM_T b 0); auto; contradiction. Qed.
Lemma x_sqrt_fin a : 0 <= a -> x_sqrt (Fin a) = Fin (sqrt a).
Proof. intros; cbn; destruct (Rlt_dec a 0); auto; lra. Qed.
Lemma x_log_fin a : 0 < a -> x_log (Fin a) = Fin (ln a).
Proof. intros; cbn; destruct (Rlt_dec a 0); [lra|]; destruct (Req_EM_T a 0); auto; lra. Qed.
Lemma x_log_zero : x_log (Fin 0) = NInf.
Proof. cbn; destruct (Rlt_dec 0 0); [lra|]; destruct (Req_EM_T 0 0); auto; lra. Qed.
Lemma x_pow_fin a b : 0 < a -> x_pow (Fin a) (Fin b) = Fin (Rpower a b).
Proof. intros; cbn; destruct (Rlt_dec a 0); [lra|]; destruct (Req_EM_T a 0); auto; lra. Qed.

(** [Int_part] is the floor. *)
Lemma Int_part_bounds x : IZR (Int_part x) <= x < IZR (Int_part x) + 1.
Proof. destruct (base_Int_part x). lra. Qed.

Lemma Int_part_unique x z : IZR z <= x < IZR z + 1 -> Int_part x = z.
Proof.
  intros [H1 H2]. destruct (Int_part_bounds x) as [H3 H4].
  apply Z.le_antisymm.
  - assert (IZR (Int_part x) < IZR (z + 1)) by (rewrite plus_IZR; lra).
    apply lt_IZR in H. lia.
  - assert (IZR z < IZR (Int_part x + 1)) by (rewrite plus_IZR; lra).
    apply lt_IZR in H. lia.
Qed.

Lemma x_floor_size_fin x z :
  IZR z <= x < IZR z + 1 -> (0 <= z < 2 ^ 64)%Z -> x_floor_size (Fin x) = Some z.
Proof.
  intros H1 H2. unfold x_floor_size. rewrite (Int_part_unique _ _ H1). cbn zeta.
  replace (0 <=? z)%Z with true by (symmetry; apply Z.leb_le; lia).
  replace (z <? 2 ^ 64)%Z with true by (symmetry; apply Z.ltb_lt; lia). reflexivity.
Qed.

Lemma x_floor_size_neg x : x < 0 -> x_floor_size (Fin x) = None.
Proof.
  intros H. unfold x_floor_size. destruct (Int_part_bounds x) as [H1 H2].
  replace (0 <=? Int_part x)%Z with false; [reflexivity|].
  symmetry. apply Z.leb_gt. apply lt_IZR. lra.
Qed.
