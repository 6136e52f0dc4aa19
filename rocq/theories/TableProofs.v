(** Proofs about LookupTables.v over exact arithmetic. *)
From Coq Require Import ZArith Reals List Bool Lia Lra.
From Verif Require Import Cxx Num NumRX Utilities LookupTables CxxLemmas RXLemmas Spec UtilitiesProofs.
Import ListNotations.
Local Open Scope R_scope.

Lemma vget_el (xs : list R) (z : Z) i : z = Z.of_nat i ->
  (i < length xs)%nat -> (Z.of_nat i < 2 ^ 31)%Z -> vget (map Fin xs) z = Ret (Fin (el xs i)).
Proof.
  intros -> Hi Hb. unfold vget. rewrite to_int32_small by lia.
  apply zget_ok; [lia|]. rewrite Nat2Z.id. now apply nth_error_map_Fin.
Qed.

Lemma vget_neg {A} (l : list A) : vget l (wrap64 (0 - 1)) = UB.
Proof. unfold vget. apply zget_ub. change (to_int32 (wrap64 (0 - 1))) with (-1)%Z. lia. Qed.

Lemma vget_oob {A} (l : list A) i : (zlen l <= i < 2 ^ 31)%Z -> vget l i = UB.
Proof. intros H. unfold vget. rewrite to_int32_small by (pose proof (zlen_nonneg l); lia). apply zget_ub. lia. Qed.

Lemma vfront_el (xs : list R) : (0 < length xs)%nat -> vfront (map Fin xs) = Ret (Fin (el xs 0)).
Proof. intros H. unfold vfront. apply zget_ok; [lia|]. now apply nth_error_map_Fin. Qed.

Lemma vback_el (xs : list R) : (0 < length xs)%nat -> fits xs ->
  vback (map Fin xs) = Ret (Fin (el xs (length xs - 1))).
Proof.
  unfold fits. intros H Hf. unfold vback. rewrite zlen_map. unfold zlen. rewrite wrap64_small by lia.
  apply zget_ok; [lia|]. replace (Z.to_nat (Z.of_nat (length xs) - 1)) with (length xs - 1)%nat by lia.
  apply nth_error_map_Fin. lia.
Qed.

Lemma lin_formula_line tg xl xr yl yr w : xl <> xr ->
  @lin_formula (RX tg) (Fin xl) (Fin xr) (Fin yl) (Fin yr) (Fin w) = Fin (line xl yl xr yr w).
Proof.
  intros H. unfold lin_formula. cbn [n_add n_mul n_div n_sub RX x_sub].
  rewrite x_div_fin by lra. cbn. f_equal. unfold line. field. lra.
Qed.

Lemma first_formula_line tg xl xr zl zr w : xl <> xr ->
  @first_formula (RX tg) (Fin xl) (Fin xr) (Fin zl) (Fin zr) (Fin w) = Fin (line xl zl xr zr w).
Proof.
  intros H. unfold first_formula. cbn [n_add n_mul n_div n_sub RX x_sub x_mul x_add].
  rewrite x_div_fin by lra. f_equal. unfold line. field. lra.
Qed.

Lemma bilin_formula_line tg xl xr yl yr zll zlr zrl zrr wx wy : xl <> xr -> yl <> yr ->
  @bilin_formula (RX tg) (Fin xl) (Fin xr) (Fin yl) (Fin yr) (Fin zll) (Fin zlr) (Fin zrl) (Fin zrr) (Fin wx) (Fin wy)
  = Fin (line xl (line yl zll yr zlr wy) xr (line yl zrl yr zrr wy) wx).
Proof.
  intros H1 H2. unfold bilin_formula. cbn [n_add n_mul n_div n_sub RX x_sub x_mul x_add].
  rewrite x_div_fin by (apply Rmult_integral_contrapositive; split; lra). f_equal. unfold line. field. lra.
Qed.

(** cell found by the binary search *)
Lemma ub_cell tg (xs : list R) w : strictly_increasing xs -> (2 <= length xs)%nat ->
  el xs 0 <= w < el xs (length xs - 1) ->
  exists i, (S i < length xs)%nat /\ el xs i <= w < el xs (S i) /\
    @picsar_upper_bound (RX tg) (map Fin xs) (Fin w) = Ret (Z.of_nat (S i)).
Proof.
  intros Hs Hn Hw.
  destruct (upper_bound_sorted tg xs w (strictly_increasing_nondecreasing _ Hs)) as (k & Hk & E & Hlo & Hhi).
  destruct k as [|i].
  - specialize (Hhi 0%nat ltac:(lia)). lra.
  - exists i. assert (S i < length xs)%nat.
    { destruct (Nat.eq_dec (S i) (length xs)); [|lia]. specialize (Hlo (length xs - 1)%nat ltac:(lia)). lra. }
    repeat split; [lia| | |exact E].
    + apply Hlo. lia.
    + apply Hhi. lia.
Qed.

Lemma ub_low tg xs w : strictly_increasing xs -> (1 <= length xs)%nat -> w < el xs 0 ->
  @picsar_upper_bound (RX tg) (map Fin xs) (Fin w) = Ret 0%Z.
Proof.
  intros Hs Hn Hw.
  destruct (upper_bound_sorted tg xs w (strictly_increasing_nondecreasing _ Hs)) as (k & Hk & E & Hlo & Hhi).
  destruct k; [exact E|]. specialize (Hlo 0%nat ltac:(lia)). lra.
Qed.

Lemma ub_high tg xs w : strictly_increasing xs -> (1 <= length xs)%nat -> el xs (length xs - 1) <= w ->
  @picsar_upper_bound (RX tg) (map Fin xs) (Fin w) = Ret (Z.of_nat (length xs)).
Proof.
  intros Hs Hn Hw.
  destruct (upper_bound_sorted tg xs w (strictly_increasing_nondecreasing _ Hs)) as (k & Hk & E & Hlo & Hhi).
  rewrite E. do 2 f_equal. destruct (Nat.eq_dec k (length xs)); [auto|].
  specialize (Hhi (length xs - 1)%nat ltac:(lia)). lra.
Qed.

(** cell found by the floor of the equispaced look-ups *)
Lemma equispaced_increasing xs : equispaced xs -> strictly_increasing xs.
Proof.
  intros (h & Hh & H) i j Hij. rewrite (H i), (H j) by lia.
  assert (INR i < INR j) by (apply lt_INR; lia). nra.
Qed.

Notation cell_arg tg xs w :=
  (@n_div (RX tg)
    (@n_mul (RX tg) (@n_of_Z (RX tg) (wrap64 (Z.sub (@zlen (num (RX tg)) (map Fin xs)) 1)))
                    (@n_sub (RX tg) (Fin w) (Fin (el xs 0))))
    (@n_sub (RX tg) (Fin (el xs (length xs - 1))) (Fin (el xs 0)))).

Lemma floor_arg tg (xs : list R) w : equispaced xs -> (2 <= length xs)%nat -> fits xs ->
  exists h, 0 < h /\ (forall i, (i < length xs)%nat -> el xs i = el xs 0 + INR i * h) /\
  cell_arg tg xs w = Fin ((w - el xs 0) / h).
Proof.
  intros (h & Hh & H) Hn Hf. unfold fits in Hf. exists h. split; [exact Hh|]. split; [exact H|].
  rewrite zlen_map. unfold zlen. rewrite wrap64_small by lia. cbn [n_of_Z n_mul n_div n_sub RX x_sub x_mul].
  rewrite (H (length xs - 1)%nat) by lia.
  replace (IZR (Z.of_nat (length xs) - 1)) with (INR (length xs - 1))
    by (rewrite INR_IZR_INZ; f_equal; lia).
  assert (0 < INR (length xs - 1)) by (apply lt_0_INR; lia).
  replace (el xs 0 + INR (length xs - 1) * h - el xs 0) with (INR (length xs - 1) * h) by ring.
  rewrite x_div_fin by (apply Rmult_integral_contrapositive; split; lra). f_equal. field. split; lra.
Qed.

Lemma floor_cell tg (xs : list R) w : equispaced xs -> (2 <= length xs)%nat -> fits xs ->
  el xs 0 <= w < el xs (length xs - 1) ->
  exists i, (S i < length xs)%nat /\ el xs i <= w < el xs (S i) /\
  floor_size (cell_arg tg xs w) = Ret (Z.of_nat i).
Proof.
  intros He Hn Hf Hw. destruct (floor_arg tg xs w He Hn Hf) as (h & Hh & H & ->).
  set (q := (w - el xs 0) / h).
  assert (Hq : q * h = w - el xs 0) by (unfold q; field; lra).
  rewrite (H (length xs - 1)%nat) in Hw by lia.
  destruct (Int_part_bounds q) as [B1 B2]. set (z := Int_part q) in *.
  assert (Hz0 : (0 <= z)%Z). { assert (-1 < z)%Z; [|lia]. apply lt_IZR. nra. }
  assert (Hzn : (z < Z.of_nat (length xs - 1))%Z). { apply lt_IZR. rewrite <- INR_IZR_INZ. nra. }
  exists (Z.to_nat z).
  assert (EI : INR (Z.to_nat z) = IZR z) by (rewrite INR_IZR_INZ, Z2Nat.id by lia; reflexivity).
  split; [lia|]. split.
  - rewrite (H (Z.to_nat z)), (H (S (Z.to_nat z))) by lia. rewrite S_INR, EI. nra.
  - unfold floor_size. cbn [n_floor_size RX]. unfold fits in Hf.
    rewrite (x_floor_size_fin q z) by (fold z; lra || lia). now rewrite Z2Nat.id by lia.
Qed.

Lemma floor_last tg (xs : list R) w : equispaced xs -> (2 <= length xs)%nat -> fits xs ->
  el xs (length xs - 1) <= w < 2 * el xs (length xs - 1) - el xs (length xs - 2) ->
  floor_size (cell_arg tg xs w) = Ret (Z.of_nat (length xs - 1)).
Proof.
  intros He Hn Hf Hw. destruct (floor_arg tg xs w He Hn Hf) as (h & Hh & H & ->).
  set (q := (w - el xs 0) / h).
  assert (Hq : q * h = w - el xs 0) by (unfold q; field; lra).
  rewrite (H (length xs - 1)%nat), (H (length xs - 2)%nat) in Hw by lia.
  assert (E : INR (length xs - 1) = INR (length xs - 2) + 1) by (rewrite <- S_INR; f_equal; lia).
  unfold floor_size. cbn [n_floor_size RX]. unfold fits in Hf.
  rewrite (x_floor_size_fin q (Z.of_nat (length xs - 1))); [reflexivity| |lia].
  rewrite <- INR_IZR_INZ. split; nra.
Qed.

Lemma floor_below tg (xs : list R) w : equispaced xs -> (2 <= length xs)%nat -> fits xs -> w < el xs 0 ->
  floor_size (cell_arg tg xs w) = UB.
Proof.
  intros He Hn Hf Hw. destruct (floor_arg tg xs w He Hn Hf) as (h & Hh & H & ->).
  unfold floor_size. cbn [n_floor_size RX]. rewrite x_floor_size_neg; [reflexivity|].
  apply Rmult_lt_reg_r with h; [lra|]. unfold Rdiv. rewrite Rmult_assoc, Rinv_l by lra. lra.
Qed.

(** *** 1D *)
Section D1.
Variable tg : R -> R.
Definition table1 (xs ys : list R) (b : bool) : lookup_1d (RX tg) := @mk1d (RX tg) (map Fin xs) (map Fin ys) b.

Lemma reads_1d xs ys b i w : (S i < length xs)%nat -> fits xs -> length ys = length xs -> el xs i < el xs (S i) ->
  (do xl <- vget (t1_coords (table1 xs ys b)) (Z.of_nat i);
   do xr <- vget (t1_coords (table1 xs ys b)) (Z.of_nat (S i));
   do yl <- vget (t1_data (table1 xs ys b)) (Z.of_nat i);
   do yr <- vget (t1_data (table1 xs ys b)) (Z.of_nat (S i));
   Ret (lin_formula xl xr yl yr (Fin w : num (RX tg))))
  = Ret (Fin (line (el xs i) (el ys i) (el xs (S i)) (el ys (S i)) w)).
Proof.
  unfold fits. intros Hi Hf Hl Hlt. cbn [t1_coords t1_data table1].
  rewrite (vget_el xs _ i), (vget_el xs _ (S i)), (vget_el ys _ i), (vget_el ys _ (S i)) by (reflexivity || lia).
  cbn [bind]. now rewrite lin_formula_line by lra.
Qed.

Lemma interp_linear_spec xs ys b w : strictly_increasing xs -> (2 <= length xs)%nat -> fits xs ->
  length ys = length xs -> el xs 0 <= w < el xs (length xs - 1) ->
  exists v, interp_linear (table1 xs ys b) (Fin w) = Ret (Fin v) /\ linear_interpolant xs ys w v.
Proof.
  intros Hs Hn Hf Hl Hw. destruct (ub_cell tg xs w Hs Hn Hw) as (i & Hi & Hc & E).
  unfold interp_linear. cbn [t1_coords table1] in *. rewrite E. cbn [bind].
  rewrite (wrap64_small (Z.of_nat (S i) - 1)) by (unfold fits in Hf; lia).
  replace (Z.of_nat (S i) - 1)%Z with (Z.of_nat i) by lia.
  eexists. split; [exact (reads_1d xs ys b i w Hi Hf Hl ltac:(lra))|].
  exists i. auto.
Qed.

Lemma interp_linear_outside xs ys b w : strictly_increasing xs -> (1 <= length xs)%nat -> fits xs ->
  (w < el xs 0 \/ el xs (length xs - 1) <= w) -> interp_linear (table1 xs ys b) (Fin w) = UB.
Proof.
  intros Hs Hn Hf [Hw|Hw]; unfold interp_linear; cbn [t1_coords table1].
  - rewrite ub_low by auto. cbn [bind]. now rewrite vget_neg.
  - rewrite ub_high by auto. cbn [bind]. unfold fits in Hf.
    rewrite (wrap64_small (Z.of_nat (length xs) - 1)) by lia.
    rewrite (vget_el xs _ (length xs - 1)) by lia. cbn [bind].
    rewrite (vget_oob (map Fin xs)); [reflexivity|]. rewrite zlen_map. unfold zlen. lia.
Qed.

Lemma interp_eq_spec xs ys b w : equispaced xs -> (2 <= length xs)%nat -> fits xs ->
  length ys = length xs -> el xs 0 <= w < el xs (length xs - 1) ->
  exists v, interp_linear_equispaced (table1 xs ys b) (Fin w) = Ret (Fin v) /\ linear_interpolant xs ys w v.
Proof.
  intros Hs Hn Hf Hl Hw. destruct (floor_cell tg xs w Hs Hn Hf Hw) as (i & Hi & Hc & E).
  unfold interp_linear_equispaced. cbn [t1_coords table1] in *.
  rewrite vfront_el, vback_el by (auto || lia). cbn [bind]. cbn zeta. rewrite E. cbn [bind].
  rewrite (wrap64_small (Z.of_nat i + 1)) by (unfold fits in Hf; lia).
  replace (Z.of_nat i + 1)%Z with (Z.of_nat (S i)) by lia.
  eexists. split; [exact (reads_1d xs ys b i w Hi Hf Hl ltac:(lra))|].
  exists i. auto.
Qed.

Lemma interp_eq_last xs ys b w : equispaced xs -> (2 <= length xs)%nat -> fits xs ->
  el xs (length xs - 1) <= w < 2 * el xs (length xs - 1) - el xs (length xs - 2) ->
  interp_linear_equispaced (table1 xs ys b) (Fin w) = UB.
Proof.
  intros Hs Hn Hf Hw. unfold interp_linear_equispaced. cbn [t1_coords table1] in *.
  rewrite vfront_el, vback_el by (auto || lia). cbn [bind]. cbn zeta.
  rewrite floor_last by auto. cbn [bind]. unfold fits in Hf.
  rewrite (vget_el xs _ (length xs - 1)) by lia. cbn [bind].
  rewrite wrap64_small by lia.
  rewrite (vget_oob (map Fin xs)); [reflexivity|]. rewrite zlen_map. unfold zlen. lia.
Qed.

Lemma interp_eq_below xs ys b w : equispaced xs -> (2 <= length xs)%nat -> fits xs ->
  w < el xs 0 -> interp_linear_equispaced (table1 xs ys b) (Fin w) = UB.
Proof.
  intros Hs Hn Hf Hw. unfold interp_linear_equispaced. cbn [t1_coords table1] in *.
  rewrite vfront_el, vback_el by (auto || lia). cbn [bind]. cbn zeta.
  now rewrite floor_below by auto.
Qed.
End D1.

(** facts about the specification itself *)
Lemma linear_interpolant_unique xs ys w v1 v2 : strictly_increasing xs ->
  linear_interpolant xs ys w v1 -> linear_interpolant xs ys w v2 -> v1 = v2.
Proof.
  intros Hs (i & Hi & Hw & ->) (j & Hj & Hw' & ->).
  destruct (Nat.lt_trichotomy i j) as [H|[->|H]]; auto; exfalso.
  - destruct (Nat.eq_dec (S i) j) as [<-|]; [lra|]. specialize (Hs (S i) j ltac:(lia)). lra.
  - destruct (Nat.eq_dec (S j) i) as [<-|]; [lra|]. specialize (Hs (S j) i ltac:(lia)). lra.
Qed.

Lemma line_at_left xl yl xr yr : line xl yl xr yr xl = yl.
Proof. unfold line, Rdiv. ring. Qed.

Lemma line_between xl yl xr yr w : xl < xr -> xl <= w <= xr ->
  Rmin yl yr <= line xl yl xr yr w <= Rmax yl yr.
Proof.
  intros Hx Hw. unfold line.
  set (t := (w - xl) / (xr - xl)).
  assert (Ht : 0 <= t <= 1).
  { unfold t. split; [apply Rmult_le_pos; [lra|apply Rlt_le, Rinv_0_lt_compat; lra]|].
    apply Rmult_le_reg_r with (xr - xl); [lra|]. unfold Rdiv. rewrite Rmult_assoc, Rinv_l by lra. lra. }
  replace ((yr - yl) * (w - xl) / (xr - xl)) with ((yr - yl) * t) by (unfold t, Rdiv; ring).
  unfold Rmin, Rmax. destruct (Rle_dec yl yr); nra.
Qed.

Lemma linear_interpolant_at_knot xs ys i v : strictly_increasing xs -> (S i < length xs)%nat ->
  linear_interpolant xs ys (el xs i) v -> v = el ys i.
Proof.
  intros Hs Hi H. apply (linear_interpolant_unique xs ys (el xs i) v (el ys i) Hs H).
  exists i. split; [exact Hi|]. split; [split; [lra|apply Hs; lia]|].
  now rewrite line_at_left.
Qed.

(** *** 2D *)
Section D2.
Variable tg : R -> R.
Definition table2 (xs ys zs : list R) (b : bool) : lookup_2d (RX tg) :=
  @mk2d (RX tg) (map Fin xs) (map Fin ys) (map Fin zs) b.

Lemma entry_index (n1 n2 i j : nat) : (i < n1)%nat -> (j < n2)%nat -> (i * n2 + j < n1 * n2)%nat.
Proof. intros. nia. Qed.

Lemma well_sized_fits_x xs ys zs : well_sized xs ys zs -> (1 <= length ys)%nat -> fits xs.
Proof. unfold well_sized, fits. intros [H1 H2] H. nia. Qed.
Lemma well_sized_fits_y xs ys zs : well_sized xs ys zs -> (1 <= length xs)%nat -> fits ys.
Proof. unfold well_sized, fits. intros [H1 H2] H. nia. Qed.

Lemma data_at_el xs ys zs b i j : well_sized xs ys zs -> (i < length xs)%nat -> (j < length ys)%nat ->
  data_at_coords (table2 xs ys zs b) (Z.of_nat i) (Z.of_nat j) = Ret (Fin (entry (length ys) zs i j)).
Proof.
  unfold well_sized, fits. intros [Hl Hf] Hi Hj. unfold data_at_coords, row_major. cbn [t2_data t2_y table2].
  rewrite zlen_map. unfold zlen. pose proof (entry_index _ _ i j Hi Hj).
  rewrite wrap64_small by nia. unfold entry.
  apply vget_el; nia.
Qed.

Lemma bilin_reads xs ys zs b i j wx wy : well_sized xs ys zs ->
  (S i < length xs)%nat -> (S j < length ys)%nat -> el xs i < el xs (S i) -> el ys j < el ys (S j) ->
  bilin_at (table2 xs ys zs b) (Z.of_nat i) (Z.of_nat (S i)) (Z.of_nat j) (Z.of_nat (S j)) (Fin wx) (Fin wy)
  = Ret (Fin (line (el xs i)
       (line (el ys j) (entry (length ys) zs i j) (el ys (S j)) (entry (length ys) zs i (S j)) wy)
       (el xs (S i))
       (line (el ys j) (entry (length ys) zs (S i) j) (el ys (S j)) (entry (length ys) zs (S i) (S j)) wy)
       wx)).
Proof.
  intros Hw Hi Hj Hx Hy. unfold bilin_at.
  rewrite !data_at_el by (auto || lia).
  pose proof (well_sized_fits_x _ _ _ Hw ltac:(lia)) as Fx.
  pose proof (well_sized_fits_y _ _ _ Hw ltac:(lia)) as Fy. unfold fits in Fx, Fy.
  cbn [t2_x t2_y table2].
  rewrite (vget_el xs _ i), (vget_el xs _ (S i)), (vget_el ys _ j), (vget_el ys _ (S j)) by (reflexivity || lia).
  cbn [bind]. now rewrite bilin_formula_line by lra.
Qed.

Lemma interp2_spec xs ys zs b wx wy : strictly_increasing xs -> strictly_increasing ys ->
  (2 <= length xs)%nat -> (2 <= length ys)%nat -> well_sized xs ys zs ->
  el xs 0 <= wx < el xs (length xs - 1) -> el ys 0 <= wy < el ys (length ys - 1) ->
  exists v, interp2_linear (table2 xs ys zs b) (Fin wx) (Fin wy) = Ret (Fin v) /\
            bilinear_interpolant xs ys zs wx wy v.
Proof.
  intros Hs Hs' Hn Hn' Hz Hwx Hwy.
  pose proof (well_sized_fits_x _ _ _ Hz ltac:(lia)) as Fx.
  pose proof (well_sized_fits_y _ _ _ Hz ltac:(lia)) as Fy. unfold fits in Fx, Fy.
  destruct (ub_cell tg xs wx Hs Hn Hwx) as (i & Hi & Hc & E).
  destruct (ub_cell tg ys wy Hs' Hn' Hwy) as (j & Hj & Hc' & E').
  unfold interp2_linear. cbn [t2_x t2_y table2] in *. rewrite E. cbn [bind]. rewrite E'. cbn [bind].
  rewrite !wrap64_small by lia.
  replace (Z.of_nat (S i) - 1)%Z with (Z.of_nat i) by lia.
  replace (Z.of_nat (S j) - 1)%Z with (Z.of_nat j) by lia.
  eexists. split; [apply (bilin_reads xs ys zs b i j wx wy); (auto || lra)|].
  exists i, j. repeat split; auto; lra.
Qed.

Lemma interp2_eq_spec xs ys zs b wx wy : equispaced xs -> equispaced ys ->
  (2 <= length xs)%nat -> (2 <= length ys)%nat -> well_sized xs ys zs ->
  el xs 0 <= wx < el xs (length xs - 1) -> el ys 0 <= wy < el ys (length ys - 1) ->
  exists v, interp2_linear_equispaced (table2 xs ys zs b) (Fin wx) (Fin wy) = Ret (Fin v) /\
            bilinear_interpolant xs ys zs wx wy v.
Proof.
  intros Hs Hs' Hn Hn' Hz Hwx Hwy.
  pose proof (well_sized_fits_x _ _ _ Hz ltac:(lia)) as Fx.
  pose proof (well_sized_fits_y _ _ _ Hz ltac:(lia)) as Fy.
  destruct (floor_cell tg xs wx Hs Hn Fx Hwx) as (i & Hi & Hc & E).
  destruct (floor_cell tg ys wy Hs' Hn' Fy Hwy) as (j & Hj & Hc' & E').
  unfold interp2_linear_equispaced. cbn [t2_x t2_y table2] in *.
  rewrite !vfront_el, !vback_el by (auto || lia). cbn [bind]. cbn zeta.
  rewrite E. cbn [bind]. rewrite E'. cbn [bind]. unfold fits in Fx, Fy.
  rewrite !wrap64_small by lia.
  replace (Z.of_nat i + 1)%Z with (Z.of_nat (S i)) by lia.
  replace (Z.of_nat j + 1)%Z with (Z.of_nat (S j)) by lia.
  eexists. split; [apply (bilin_reads xs ys zs b i j wx wy); (auto || lra)|].
  exists i, j. repeat split; auto; lra.
Qed.

Lemma first_reads xs ys zs b i j w : well_sized xs ys zs ->
  (S i < length xs)%nat -> (j < length ys)%nat -> el xs i < el xs (S i) ->
  (do xl <- vget (t2_x (table2 xs ys zs b)) (Z.of_nat i);
   do xr <- vget (t2_x (table2 xs ys zs b)) (Z.of_nat (S i));
   do zl <- data_at_coords (table2 xs ys zs b) (Z.of_nat i) (Z.of_nat j);
   do zr <- data_at_coords (table2 xs ys zs b) (Z.of_nat (S i)) (Z.of_nat j);
   Ret (first_formula xl xr zl zr (Fin w : num (RX tg))))
  = Ret (Fin (line (el xs i) (entry (length ys) zs i j) (el xs (S i)) (entry (length ys) zs (S i) j) w)).
Proof.
  intros Hw Hi Hj Hx.
  rewrite !data_at_el by (auto || lia).
  pose proof (well_sized_fits_x _ _ _ Hw ltac:(lia)) as Fx. unfold fits in Fx.
  cbn [t2_x table2].
  rewrite (vget_el xs _ i), (vget_el xs _ (S i)) by (reflexivity || lia).
  cbn [bind]. now rewrite first_formula_line by lra.
Qed.

Lemma first_spec xs ys zs b w j : strictly_increasing xs -> (2 <= length xs)%nat -> well_sized xs ys zs ->
  (j < length ys)%nat -> el xs 0 <= w < el xs (length xs - 1) ->
  exists v i, interp2_linear_first (table2 xs ys zs b) (Fin w) (Z.of_nat j) = Ret (Fin v) /\
    (S i < length xs)%nat /\ el xs i <= w < el xs (S i) /\
    v = line (el xs i) (entry (length ys) zs i j) (el xs (S i)) (entry (length ys) zs (S i) j) w.
Proof.
  intros Hs Hn Hz Hj Hw.
  pose proof (well_sized_fits_x _ _ _ Hz ltac:(lia)) as Fx.
  destruct (ub_cell tg xs w Hs Hn Hw) as (i & Hi & Hc & E).
  unfold interp2_linear_first. cbn [t2_x table2].
  rewrite vfront_el, vback_el by (auto || lia). cbn [bind]. rewrite E. cbn [bind]. cbn zeta.
  rewrite wrap64_small by (unfold fits in Fx; lia).
  replace (Z.of_nat (S i) - 1)%Z with (Z.of_nat i) by lia.
  eexists _, i. split; [exact (first_reads xs ys zs b i j w Hz Hi Hj ltac:(lra))|]. auto.
Qed.

Lemma first_eq_spec xs ys zs b w j : equispaced xs -> (2 <= length xs)%nat -> well_sized xs ys zs ->
  (j < length ys)%nat ->
  exists v, interp2_linear_first_equispaced (table2 xs ys zs b) (Fin w) (Z.of_nat j) = Ret (Fin v) /\
            clamped_interp xs (length ys) zs j w v.
Proof.
  intros He Hn Hz Hj.
  pose proof (well_sized_fits_x _ _ _ Hz ltac:(lia)) as Fx.
  unfold interp2_linear_first_equispaced. cbn [t2_x table2].
  cbn zeta. rewrite vfront_el by lia. cbn [bind]. cbn [n_le RX x_le].
  destruct (Rleb_spec w (el xs 0)) as [H0|H0].
  { eexists. split; [exact (data_at_el xs ys zs b 0 j Hz ltac:(lia) Hj)|]. left. auto. }
  rewrite vback_el by (auto || lia). cbn [bind x_le].
  destruct (Rleb_spec (el xs (length xs - 1)) w) as [H1|H1].
  { assert (EZ : wrap64 (@zlen (num (RX tg)) (map Fin xs) - 1) = Z.of_nat (length xs - 1)).
    { unfold fits in Fx. rewrite zlen_map. unfold zlen. rewrite wrap64_small by lia. lia. }
    rewrite EZ. eexists. split; [apply data_at_el; [exact Hz|lia|exact Hj]|]. right; left. auto. }
  destruct (floor_cell tg xs w He Hn Fx ltac:(lra)) as (i & Hi & Hc & E).
  rewrite E. cbn [bind]. rewrite (wrap64_small (Z.of_nat i + 1)) by (unfold fits in Fx; lia).
  replace (Z.of_nat i + 1)%Z with (Z.of_nat (S i)) by lia.
  eexists. split; [exact (first_reads xs ys zs b i j w Hz Hi Hj ltac:(lra))|].
  right; right. exists i. auto.
Qed.
End D2.

(** Every arithmetic: an element whose row-major index does not fit an int *)
Lemma data_at_too_big {N : NumOps} (t : lookup_2d N) i j :
  (2 ^ 31 <= i * zlen (t2_y t) + j < 2 ^ 32)%Z -> data_at_coords t i j = UB.
Proof.
  intros H. unfold data_at_coords, row_major, vget. rewrite wrap64_small by lia.
  apply zget_ub. unfold to_int32. rewrite Z.mod_small by lia.
  destruct (_ <? _)%Z eqn:E; [apply Z.ltb_lt in E; lia|]. lia.
Qed.

(** more facts about the specification *)
Lemma linear_interpolant_affine xs ys w v a c : strictly_increasing xs -> linear_interpolant xs ys w v ->
  (forall i, (i < length xs)%nat -> el ys i = a * el xs i + c) -> v = a * w + c.
Proof.
  intros Hs (i & Hi & Hw & ->) H. rewrite !H by lia. specialize (Hs i (S i) ltac:(lia)).
  unfold line. field. lra.
Qed.

Lemma linear_interpolant_bounds xs ys w v lo hi : strictly_increasing xs -> linear_interpolant xs ys w v ->
  (forall i, (i < length xs)%nat -> lo <= el ys i <= hi) -> lo <= v <= hi.
Proof.
  intros Hs (i & Hi & Hw & ->) H. specialize (Hs i (S i) ltac:(lia)).
  pose proof (line_between (el xs i) (el ys i) (el xs (S i)) (el ys (S i)) w Hs ltac:(lra)) as [H1 H2].
  pose proof (H i ltac:(lia)). pose proof (H (S i) Hi).
  split; [apply Rle_trans with (2 := H1); apply Rmin_glb; lra|apply Rle_trans with (1 := H2); apply Rmax_lub; lra].
Qed.

Lemma bilinear_bounds xs ys zs wx wy v lo hi : strictly_increasing xs -> strictly_increasing ys ->
  bilinear_interpolant xs ys zs wx wy v ->
  (forall i j, (i < length xs)%nat -> (j < length ys)%nat -> lo <= entry (length ys) zs i j <= hi) -> lo <= v <= hi.
Proof.
  intros Hs Hs' (i & j & Hi & Hj & Hx & Hy & ->) H.
  specialize (Hs i (S i) ltac:(lia)). specialize (Hs' j (S j) ltac:(lia)).
  assert (L : forall r, (r < length xs)%nat -> lo <= line (el ys j) (entry (length ys) zs r j) (el ys (S j)) (entry (length ys) zs r (S j)) wy <= hi).
  { intros r Hr. pose proof (line_between (el ys j) (entry (length ys) zs r j) (el ys (S j)) (entry (length ys) zs r (S j)) wy Hs' ltac:(lra)) as [H1 H2].
    pose proof (H r j Hr ltac:(lia)). pose proof (H r (S j) Hr ltac:(lia)).
    split; [apply Rle_trans with (2 := H1); apply Rmin_glb; lra|apply Rle_trans with (1 := H2); apply Rmax_lub; lra]. }
  pose proof (L i ltac:(lia)). pose proof (L (S i) Hi).
  match goal with |- _ <= line ?a ?b ?c ?d ?e <= _ => pose proof (line_between a b c d e Hs ltac:(lra)) as [B1 B2] end.
  split; [apply Rle_trans with (2 := B1); apply Rmin_glb; lra|apply Rle_trans with (1 := B2); apply Rmax_lub; lra].
Qed.

Lemma bilinear_exact xs ys zs wx wy v a b c d : strictly_increasing xs -> strictly_increasing ys ->
  bilinear_interpolant xs ys zs wx wy v ->
  (forall i j, (i < length xs)%nat -> (j < length ys)%nat ->
     entry (length ys) zs i j = a + b * el xs i + c * el ys j + d * el xs i * el ys j) ->
  v = a + b * wx + c * wy + d * wx * wy.
Proof.
  intros Hs Hs' (i & j & Hi & Hj & Hx & Hy & ->) H.
  specialize (Hs i (S i) ltac:(lia)). specialize (Hs' j (S j) ltac:(lia)).
  rewrite !H by lia. unfold line. field. lra.
Qed.

Lemma bilinear_at_node xs ys zs i j v : strictly_increasing xs -> strictly_increasing ys ->
  (S i < length xs)%nat -> (S j < length ys)%nat ->
  bilinear_interpolant xs ys zs (el xs i) (el ys j) v -> v = entry (length ys) zs i j.
Proof.
  intros Hs Hs' Hi Hj (i' & j' & Hi' & Hj' & Hx & Hy & E).
  assert (i' = i).
  { destruct (Nat.lt_trichotomy i i') as [H|[H|H]]; auto; exfalso.
    - specialize (Hs i i' ltac:(lia)). lra.
    - destruct (Nat.eq_dec (S i') i) as [<-|]; [lra|]. specialize (Hs (S i') i ltac:(lia)). lra. }
  assert (j' = j).
  { destruct (Nat.lt_trichotomy j j') as [H'|[H'|H']]; auto; exfalso.
    - specialize (Hs' j j' ltac:(lia)). lra.
    - destruct (Nat.eq_dec (S j') j) as [<-|]; [lra|]. specialize (Hs' (S j') j ltac:(lia)). lra. }
  subst i' j'. cbn zeta in E. rewrite !line_at_left in E. exact E.
Qed.

Lemma interp_linear_full tg xs ys b w : strictly_increasing xs -> (2 <= length xs)%nat -> fits xs ->
  length ys = length xs -> el xs 0 <= w < el xs (length xs - 1) ->
  exists v, interp_linear (table1 tg xs ys b) (Fin w) = Ret (Fin v) /\ linear_interpolant xs ys w v /\
    (forall i, (S i < length xs)%nat -> w = el xs i -> v = el ys i) /\
    (forall a c, (forall i, (i < length xs)%nat -> el ys i = a * el xs i + c) -> v = a * w + c) /\
    (forall lo hi, (forall i, (i < length xs)%nat -> lo <= el ys i <= hi) -> lo <= v <= hi).
Proof.
  intros Hs Hn Hf Hl Hw. destruct (interp_linear_spec tg xs ys b w Hs Hn Hf Hl Hw) as (v & E & S).
  exists v. split; [exact E|]. split; [exact S|]. split; [|split].
  - intros i Hi ->. now apply (linear_interpolant_at_knot xs ys i v).
  - intros a c H. now apply (linear_interpolant_affine xs ys w v a c).
  - intros lo hi H. now apply (linear_interpolant_bounds xs ys w v lo hi).
Qed.

Lemma interp_eq_full tg xs ys b w : equispaced xs -> (2 <= length xs)%nat -> fits xs ->
  length ys = length xs -> el xs 0 <= w < el xs (length xs - 1) ->
  exists v, interp_linear_equispaced (table1 tg xs ys b) (Fin w) = Ret (Fin v) /\
            interp_linear (table1 tg xs ys b) (Fin w) = Ret (Fin v) /\ linear_interpolant xs ys w v.
Proof.
  intros Hs Hn Hf Hl Hw. destruct (interp_eq_spec tg xs ys b w Hs Hn Hf Hl Hw) as (v & E & S).
  pose proof (equispaced_increasing xs Hs) as Hi.
  destruct (interp_linear_spec tg xs ys b w Hi Hn Hf Hl Hw) as (v' & E' & S').
  assert (v = v') as <- by now apply (linear_interpolant_unique xs ys w).
  exists v. auto.
Qed.

Lemma interp_last_ub tg xs ys b : strictly_increasing xs -> (1 <= length xs)%nat -> fits xs ->
  interp_linear (table1 tg xs ys b) (Fin (el xs (length xs - 1))) = UB /\
  (equispaced xs -> (2 <= length xs)%nat ->
   interp_linear_equispaced (table1 tg xs ys b) (Fin (el xs (length xs - 1))) = UB).
Proof.
  intros Hs Hn Hf. split.
  - apply interp_linear_outside; auto. right. lra.
  - intros He Hn2. apply interp_eq_last; auto. specialize (Hs (length xs - 2)%nat (length xs - 1)%nat ltac:(lia)). lra.
Qed.

Lemma row_major_injective nc i j i' j' : (j < nc)%nat -> (j' < nc)%nat ->
  (i * nc + j = i' * nc + j')%nat -> i = i' /\ j = j'.
Proof.
  intros H1 H2 H. assert (i = i').
  { destruct (Nat.lt_trichotomy i i') as [L|[L|L]]; auto; exfalso.
    - assert (S i * nc <= i' * nc)%nat by (apply Nat.mul_le_mono_r; lia). cbn in *. lia.
    - assert (S i' * nc <= i * nc)%nat by (apply Nat.mul_le_mono_r; lia). cbn in *. lia. }
  subst. lia.
Qed.
