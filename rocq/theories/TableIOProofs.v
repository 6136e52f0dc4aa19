(** Proofs about TableIO.v. *)
From Coq Require Import ZArith List Bool Lia.
From Verif Require Import Cxx TableIO CxxLemmas Spec.
Import ListNotations.
Local Open Scope Z_scope.

Lemma to_le_length w z : length (to_le w z) = w.
Proof. revert z; induction w; intros; cbn; auto. Qed.

Lemma of_to_le w z : 0 <= z < 256 ^ Z.of_nat w -> of_le (to_le w z) = z.
Proof.
  revert z; induction w as [|w IH]; intros z Hz.
  - cbn in *. lia.
  - cbn [to_le of_le]. rewrite IH.
    + pose proof (Z.div_mod z 256 ltac:(lia)). lia.
    + rewrite Nat2Z.inj_succ, Z.pow_succ_r in Hz by lia.
      split; [apply Z.div_pos; lia|apply Z.div_lt_upper_bound; lia].
Qed.

Lemma flat_length rsize v : length (flat_map (to_le rsize) v) = (length v * rsize)%nat.
Proof. induction v; cbn; [reflexivity|]. rewrite app_length, to_le_length, IHv. lia. Qed.

Lemma firstn_exact {A} (l k : list A) : firstn (length l) (l ++ k) = l.
Proof. rewrite firstn_app, Nat.sub_diag, firstn_all. cbn. apply app_nil_r. Qed.
Lemma skipn_exact {A} (l k : list A) : skipn (length l) (l ++ k) = k.
Proof. rewrite skipn_app, Nat.sub_diag, skipn_all. reflexivity. Qed.

Lemma is_read_exact bs rest n : n = zlen bs -> is_read (mkis (bs ++ rest) true) n = (bs, mkis rest true).
Proof.
  intros ->. unfold is_read. cbn [is_good is_bytes].
  rewrite zlen_app. replace (zlen bs <=? zlen bs + zlen rest) with true
    by (symmetry; apply Z.leb_le; pose proof (zlen_nonneg rest); lia).
  unfold zlen. rewrite Nat2Z.id, firstn_exact, skipn_exact. reflexivity.
Qed.

Lemma cells_flat rsize v rest : Forall (fun w => 0 <= w < 256 ^ Z.of_nat rsize) v ->
  cells rsize (length v) (flat_map (to_le rsize) v ++ rest) = map Some v.
Proof.
  induction v as [|w v IH]; intros H; cbn [cells length map flat_map]; [reflexivity|].
  inversion H as [|? ? Hw Hv]; subst. rewrite <- app_assoc.
  replace (rsize <=? length (to_le rsize w ++ flat_map (to_le rsize) v ++ rest))%nat with true.
  - replace (firstn rsize (to_le rsize w ++ flat_map (to_le rsize) v ++ rest)) with (to_le rsize w)
      by (symmetry; rewrite <- (to_le_length rsize w) at 1; apply firstn_exact).
    replace (skipn rsize (to_le rsize w ++ flat_map (to_le rsize) v ++ rest)) with (flat_map (to_le rsize) v ++ rest)
      by (symmetry; rewrite <- (to_le_length rsize w) at 1; apply skipn_exact).
    rewrite of_to_le by exact Hw. now rewrite IH by exact Hv.
  - symmetry. apply Nat.leb_le. rewrite app_length, to_le_length. lia.
Qed.

Lemma read_size_write n rest : 0 <= n < 2 ^ 64 ->
  read_size (mkis (to_le 8 n ++ rest) true) = Ret (n, mkis rest true).
Proof.
  intros Hn. unfold read_size. rewrite is_read_exact by (unfold zlen; now rewrite to_le_length).
  unfold zlen. rewrite to_le_length. cbn [Z.of_nat Pos.of_succ_nat Pos.succ Z.eqb Pos.eqb].
  rewrite of_to_le; [reflexivity|]. exact Hn.
Qed.

Lemma read_vec_write rsize v rest : storable rsize v ->
  read_vec rsize (mkis (write_vec rsize v ++ rest) true) = Ret (map Some v, mkis rest true).
Proof.
  intros (Hw & Hn & Hb). fold (zlen v) in Hn, Hb. unfold read_vec, write_vec. rewrite <- app_assoc.
  pose proof (zlen_nonneg v).
  rewrite read_size_write by lia. cbn [bind].
  rewrite wrap64_small by nia.
  rewrite is_read_exact by (unfold zlen; rewrite flat_length, Nat2Z.inj_mul; apply Z.mul_comm).
  unfold zlen. rewrite Nat2Z.id. do 2 f_equal.
  rewrite <- (app_nil_r (flat_map (to_le rsize) v)). now apply cells_flat.
Qed.

Lemma round_trip_1d rsize c d rest : storable rsize c -> storable rsize d ->
  read_1d rsize (mkis (write_1d rsize c d ++ rest) true)
  = Ret ({| m1_coords := map Some c; m1_data := map Some d; m1_init := true |}, mkis rest true).
Proof.
  intros Hc Hd. unfold read_1d, write_1d. rewrite <- app_assoc.
  rewrite read_vec_write by exact Hc. cbn [bind].
  rewrite read_vec_write by exact Hd. reflexivity.
Qed.

Lemma round_trip_2d rsize x y d rest : storable rsize x -> storable rsize y -> storable rsize d ->
  read_2d rsize (mkis (write_2d rsize x y d ++ rest) true)
  = Ret ({| m2_x := map Some x; m2_y := map Some y; m2_data := map Some d; m2_init := true |}, mkis rest true).
Proof.
  intros Hx Hy Hd. unfold read_2d, write_2d. rewrite <- !app_assoc.
  rewrite read_vec_write by exact Hx. cbn [bind].
  rewrite read_vec_write by exact Hy. cbn [bind].
  rewrite read_vec_write by exact Hd. reflexivity.
Qed.

(** a file cut inside the last array *)
Lemma cells_short rsize n bs : (0 < rsize)%nat -> (length bs < n * rsize)%nat ->
  exists k, (k < n)%nat /\ nth_error (cells rsize n bs) k = Some None.
Proof.
  intros Hr. revert bs; induction n as [|n IH]; intros bs H; [lia|]. cbn [cells].
  destruct (rsize <=? length bs)%nat eqn:E.
  - apply Nat.leb_le in E. destruct (IH (skipn rsize bs)) as (k & Hk & Hn).
    + rewrite skipn_length. lia.
    + exists (S k). split; [lia|]. exact Hn.
  - exists 0%nat. split; [lia|]. reflexivity.
Qed.

Lemma read_vec_truncated rsize v lost : (0 < rsize)%nat -> storable rsize v ->
  (0 < lost <= length v * rsize)%nat ->
  exists cs k, read_vec rsize (mkis (firstn (length (write_vec rsize v) - lost) (write_vec rsize v)) true)
     = Ret (cs, mkis [] false) /\ length cs = length v /\ nth_error cs k = Some None.
Proof.
  intros Hr (Hw & Hn & Hb) Hl. fold (zlen v) in Hn, Hb. unfold write_vec. pose proof (zlen_nonneg v).
  rewrite firstn_app, app_length, to_le_length, flat_length.
  set (m := (8 + length v * rsize - lost)%nat).
  rewrite (firstn_all2 (to_le 8 (zlen v))) by (rewrite to_le_length; subst m; lia).
  unfold read_vec. rewrite read_size_write by lia. cbn [bind]. rewrite wrap64_small by nia.
  set (bs := firstn (m - 8) (flat_map (to_le rsize) v)).
  assert (Hbs : length bs = (length v * rsize - lost)%nat).
  { unfold bs. rewrite firstn_length, flat_length. unfold m. lia. }
  unfold is_read. cbn [is_good is_bytes].
  replace (Z.of_nat rsize * zlen v <=? zlen bs) with false
    by (symmetry; apply Z.leb_gt; unfold zlen; rewrite Hbs; nia).
  unfold zlen. rewrite Nat2Z.id.
  destruct (cells_short rsize (length v) bs Hr) as (k & Hk & Hnk); [lia|].
  exists (cells rsize (length v) bs), k. split; [reflexivity|]. split; [|exact Hnk].
  clearbody bs. clear. revert bs. induction (length v) as [|n IH]; intros bs; cbn; [reflexivity|]. now rewrite IH.
Qed.

Lemma truncated_1d rsize c d lost : (0 < rsize)%nat -> storable rsize c -> storable rsize d ->
  (0 < lost <= length d * rsize)%nat ->
  exists m s k, read_1d rsize (mkis (firstn (length (write_1d rsize c d) - lost) (write_1d rsize c d)) true) = Ret (m, s) /\
    m1_init m = true /\ nth_error (m1_data m) k = Some None.
Proof.
  intros Hr Hc Hd Hl.
  destruct (read_vec_truncated rsize d lost Hr Hd Hl) as (cs & k & E & Hlen & Hk).
  unfold read_1d, write_1d. rewrite firstn_app, app_length.
  assert (Hwd : (lost <= length (write_vec rsize d))%nat).
  { unfold write_vec. rewrite app_length, flat_length. lia. }
  rewrite firstn_all2 by lia.
  replace (length (write_vec rsize c) + length (write_vec rsize d) - lost - length (write_vec rsize c))%nat
    with (length (write_vec rsize d) - lost)%nat by lia.
  rewrite read_vec_write by exact Hc. cbn [bind]. rewrite E. cbn [bind].
  eexists _, _, k. split; [reflexivity|]. auto.
Qed.

Lemma truncated_2d rsize x y d lost : (0 < rsize)%nat -> storable rsize x -> storable rsize y -> storable rsize d ->
  (0 < lost <= length d * rsize)%nat ->
  exists m s k, read_2d rsize (mkis (firstn (length (write_2d rsize x y d) - lost) (write_2d rsize x y d)) true) = Ret (m, s) /\
    m2_init m = true /\ nth_error (m2_data m) k = Some None.
Proof.
  intros Hr Hx Hy Hd Hl.
  destruct (read_vec_truncated rsize d lost Hr Hd Hl) as (cs & k & E & Hlen & Hk).
  unfold read_2d, write_2d. rewrite !firstn_app, !app_length.
  assert (Hwd : (lost <= length (write_vec rsize d))%nat).
  { unfold write_vec. rewrite app_length, flat_length. lia. }
  rewrite !firstn_all2 by lia.
  match goal with |- context [firstn ?a (write_vec rsize d)] =>
    replace a with (length (write_vec rsize d) - lost)%nat by lia end.
  rewrite read_vec_write by exact Hx. cbn [bind]. rewrite read_vec_write by exact Hy. cbn [bind].
  rewrite E. cbn [bind].
  eexists _, _, k. split; [reflexivity|]. auto.
Qed.

(** a file that could not be opened *)
Lemma read_unopened rsize bs : read_1d rsize (mkis bs false) = UB /\ read_2d rsize (mkis bs false) = UB.
Proof. split; reflexivity. Qed.

Lemma uninitialised_1d rsize rest :
  exists m, read_1d rsize (mkis (write_1d rsize [] [] ++ rest) true) = Ret (m, mkis rest true) /\
            m1_coords m = [] /\ m1_data m = [] /\ m1_init m = true.
Proof.
  eexists. split; [apply (round_trip_1d rsize [] [] rest); unfold storable; cbn; repeat split; auto; try constructor; lia|].
  auto.
Qed.
