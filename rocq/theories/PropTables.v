(** Properties C13-C20: lookup tables (src/multi_physics/QED/src/lookup_tables.hpp).
    [table1 tg xs ys init] is the 1D table with coordinates xs and data ys,
    [table2 tg xs ys zs init] the 2D table with row-major data zs. *)
From Coq Require Import ZArith Reals List Bool Lia Lra.
From Verif Require Import Cxx Num NumRX NumIEEE LookupTables TableIO Spec.
From Verif Require Import TableProofs TableIOProofs TableIEEE.
Import ListNotations.

(** *** C13 *)
Theorem C13_interp_linear : forall tg xs ys init w,
  strictly_increasing xs -> (2 <= length xs)%nat -> fits xs -> length ys = length xs ->
  (el xs 0 <= w < el xs (length xs - 1))%R ->
  exists v, interp_linear (table1 tg xs ys init) (Fin w) = Ret (Fin v) /\ linear_interpolant xs ys w v /\
    (forall i, (S i < length xs)%nat -> w = el xs i -> v = el ys i) /\
    (forall a c, (forall i, (i < length xs)%nat -> (el ys i = a * el xs i + c)%R) -> (v = a * w + c)%R) /\
    (forall lo hi, (forall i, (i < length xs)%nat -> (lo <= el ys i <= hi)%R) -> (lo <= v <= hi)%R).
Proof. exact interp_linear_full. Qed.
Print Assumptions C13_interp_linear.

(** the specification determines the value *)
Theorem C13_interpolant_unique : forall xs ys w v1 v2, strictly_increasing xs ->
  linear_interpolant xs ys w v1 -> linear_interpolant xs ys w v2 -> v1 = v2.
Proof. exact linear_interpolant_unique. Qed.
Print Assumptions C13_interpolant_unique.

(** *** C14 *)
Theorem C14_interp_linear_equispaced : forall tg xs ys init w,
  equispaced xs -> (2 <= length xs)%nat -> fits xs -> length ys = length xs ->
  (el xs 0 <= w < el xs (length xs - 1))%R ->
  exists v, interp_linear_equispaced (table1 tg xs ys init) (Fin w) = Ret (Fin v) /\
            interp_linear (table1 tg xs ys init) (Fin w) = Ret (Fin v) /\ linear_interpolant xs ys w v.
Proof. exact interp_eq_full. Qed.
Print Assumptions C14_interp_linear_equispaced.

Example C13_C14_nonvacuous : equispaced [0; 2; 4]%R /\ strictly_increasing [0; 2; 4]%R /\ fits [0; 2; 4]%R
  /\ (el [0; 2; 4] 0 <= 3 < el [0; 2; 4] (length [0; 2; 4]%R - 1))%R.
Proof.
  assert (H : equispaced [0; 2; 4]%R).
  { exists 2%R. split; [lra|]. intros [|[|[|i]]] Hi; cbn in *; unfold el; cbn; try lia; lra. }
  split; [exact H|]. split; [now apply equispaced_increasing|]. unfold fits, el; cbn. split; [lia|lra].
Qed.

(** *** C15 *)
(** Finding: both interpolators read past the end at the last coordinate. *)
Theorem C15_last_coordinate_refuted : forall tg xs ys init,
  strictly_increasing xs -> (1 <= length xs)%nat -> fits xs ->
  interp_linear (table1 tg xs ys init) (Fin (el xs (length xs - 1))) = UB /\
  (equispaced xs -> (2 <= length xs)%nat ->
   interp_linear_equispaced (table1 tg xs ys init) (Fin (el xs (length xs - 1))) = UB).
Proof. exact interp_last_ub. Qed.
Print Assumptions C15_last_coordinate_refuted.

(** outside the range on either side *)
Theorem C15_outside_is_out_of_bounds : forall tg xs ys init w,
  strictly_increasing xs -> (1 <= length xs)%nat -> fits xs ->
  (w < el xs 0 \/ el xs (length xs - 1) <= w)%R -> interp_linear (table1 tg xs ys init) (Fin w) = UB.
Proof. exact interp_linear_outside. Qed.
Print Assumptions C15_outside_is_out_of_bounds.

Theorem C15_equispaced_below_is_out_of_bounds : forall tg xs ys init w,
  equispaced xs -> (2 <= length xs)%nat -> fits xs -> (w < el xs 0)%R ->
  interp_linear_equispaced (table1 tg xs ys init) (Fin w) = UB.
Proof. exact interp_eq_below. Qed.
Print Assumptions C15_equispaced_below_is_out_of_bounds.

(** *** C16 *)
Theorem C16_bilinear : forall tg xs ys zs init wx wy,
  strictly_increasing xs -> strictly_increasing ys ->
  (2 <= length xs)%nat -> (2 <= length ys)%nat -> well_sized xs ys zs ->
  (el xs 0 <= wx < el xs (length xs - 1))%R -> (el ys 0 <= wy < el ys (length ys - 1))%R ->
  exists v, interp2_linear (table2 tg xs ys zs init) (Fin wx) (Fin wy) = Ret (Fin v) /\
            bilinear_interpolant xs ys zs wx wy v.
Proof. exact interp2_spec. Qed.
Print Assumptions C16_bilinear.

Theorem C16_bilinear_equispaced : forall tg xs ys zs init wx wy,
  equispaced xs -> equispaced ys ->
  (2 <= length xs)%nat -> (2 <= length ys)%nat -> well_sized xs ys zs ->
  (el xs 0 <= wx < el xs (length xs - 1))%R -> (el ys 0 <= wy < el ys (length ys - 1))%R ->
  exists v, interp2_linear_equispaced (table2 tg xs ys zs init) (Fin wx) (Fin wy) = Ret (Fin v) /\
            bilinear_interpolant xs ys zs wx wy v.
Proof. exact interp2_eq_spec. Qed.
Print Assumptions C16_bilinear_equispaced.

(** what a bilinear interpolant is: exact at nodes, between the data bounds,
    exact for bilinear data *)
Theorem C16_exact_at_nodes : forall xs ys zs i j v, strictly_increasing xs -> strictly_increasing ys ->
  (S i < length xs)%nat -> (S j < length ys)%nat ->
  bilinear_interpolant xs ys zs (el xs i) (el ys j) v -> v = entry (length ys) zs i j.
Proof. exact bilinear_at_node. Qed.
Print Assumptions C16_exact_at_nodes.

Theorem C16_between_bounds : forall xs ys zs wx wy v lo hi, strictly_increasing xs -> strictly_increasing ys ->
  bilinear_interpolant xs ys zs wx wy v ->
  (forall i j, (i < length xs)%nat -> (j < length ys)%nat -> (lo <= entry (length ys) zs i j <= hi)%R) ->
  (lo <= v <= hi)%R.
Proof. exact bilinear_bounds. Qed.
Print Assumptions C16_between_bounds.

Theorem C16_exact_for_bilinear_data : forall xs ys zs wx wy v a b c d,
  strictly_increasing xs -> strictly_increasing ys ->
  bilinear_interpolant xs ys zs wx wy v ->
  (forall i j, (i < length xs)%nat -> (j < length ys)%nat ->
     (entry (length ys) zs i j = a + b * el xs i + c * el ys j + d * el xs i * el ys j)%R) ->
  (v = a + b * wx + c * wy + d * wx * wy)%R.
Proof. exact bilinear_exact. Qed.
Print Assumptions C16_exact_for_bilinear_data.

Example C16_nonvacuous : well_sized [0; 1]%R [0; 1; 2]%R [1; 2; 3; 4; 5; 6]%R.
Proof. split; [reflexivity|unfold fits; cbn; lia]. Qed.

(** *** C17 *)
Theorem C17_first_axis_clamped : forall tg xs ys zs init w j,
  equispaced xs -> (2 <= length xs)%nat -> well_sized xs ys zs -> (j < length ys)%nat ->
  exists v, interp2_linear_first_equispaced (table2 tg xs ys zs init) (Fin w) (Z.of_nat j) = Ret (Fin v) /\
            clamped_interp xs (length ys) zs j w v.
Proof. exact first_eq_spec. Qed.
Print Assumptions C17_first_axis_clamped.

(** the variant without clamping, inside the range *)
Theorem C17_first_axis : forall tg xs ys zs init w j,
  strictly_increasing xs -> (2 <= length xs)%nat -> well_sized xs ys zs -> (j < length ys)%nat ->
  (el xs 0 <= w < el xs (length xs - 1))%R ->
  exists v i, interp2_linear_first (table2 tg xs ys zs init) (Fin w) (Z.of_nat j) = Ret (Fin v) /\
    (S i < length xs)%nat /\ (el xs i <= w < el xs (S i))%R /\
    v = line (el xs i) (entry (length ys) zs i j) (el xs (S i)) (entry (length ys) zs (S i) j) w.
Proof. exact first_spec. Qed.
Print Assumptions C17_first_axis.

(** Finding: in double precision, with coordinates -4 and 1, the largest double
    below 1 is inside the range but indexes row 2 of 2. *)
Theorem C17_binary64_refuted : forall lm : Libm b64,
  exists x0 x1 w : b64, exists z0 z1 : b64,
    @n_lt (B64 lm) x0 w = true /\ @n_lt (B64 lm) w x1 = true /\
    @interp2_linear_first_equispaced (B64 lm) (@mk2d (B64 lm) [x0; x1] [x0] [z0; z1] true) w 0 = UB.
Proof. exact first_eq_b64_oob. Qed.
Print Assumptions C17_binary64_refuted.

(** *** C18 *)
Theorem C18_addressing : forall tg xs ys zs init i j,
  well_sized xs ys zs -> (i < length xs)%nat -> (j < length ys)%nat ->
  data_at_coords (table2 tg xs ys zs init) (Z.of_nat i) (Z.of_nat j) = Ret (Fin (entry (length ys) zs i j)).
Proof. exact data_at_el. Qed.
Print Assumptions C18_addressing.

(** distinct coordinates address distinct entries *)
Theorem C18_addressing_injective : forall nc i j i' j', (j < nc)%nat -> (j' < nc)%nat ->
  (i * nc + j = i' * nc + j')%nat -> i = i' /\ j = j'.
Proof. exact row_major_injective. Qed.
Print Assumptions C18_addressing_injective.

(** Finding: entries whose position does not fit a 32 bit int are out of reach. *)
Theorem C18_large_table_refuted : forall (N : NumOps) (t : lookup_2d N) i j,
  (2 ^ 31 <= i * zlen (t2_y t) + j < 2 ^ 32)%Z -> data_at_coords t i j = UB.
Proof. exact @data_at_too_big. Qed.
Print Assumptions C18_large_table_refuted.

Example C18_large_table_nonvacuous : forall (N : NumOps) (z : num N),
  let t := mk2d (repeat z 3) (repeat z (Z.to_nat (2 ^ 30))) (repeat z (Z.to_nat (3 * 2 ^ 30))) true in
  (2 ^ 31 <= 2 * zlen (t2_y t) + 0 < 2 ^ 32)%Z /\
  zlen (t2_data t) = (zlen (t2_x t) * zlen (t2_y t))%Z.
Proof.
  intros N z t. subst t. cbn [t2_y t2_x t2_data]. unfold zlen. rewrite !repeat_length, !Z2Nat.id by lia. cbn. lia.
Qed.

(** *** C19 *)
(** rsize is sizeof(_REAL); elements are bit patterns of that many bytes. *)
Theorem C19_round_trip_1d : forall rsize coords data rest,
  storable rsize coords -> storable rsize data ->
  read_1d rsize (mkis (write_1d rsize coords data ++ rest) true)
  = Ret ({| m1_coords := map Some coords; m1_data := map Some data; m1_init := true |}, mkis rest true).
Proof. exact round_trip_1d. Qed.
Print Assumptions C19_round_trip_1d.

Theorem C19_round_trip_2d : forall rsize x y data rest,
  storable rsize x -> storable rsize y -> storable rsize data ->
  read_2d rsize (mkis (write_2d rsize x y data ++ rest) true)
  = Ret ({| m2_x := map Some x; m2_y := map Some y; m2_data := map Some data; m2_init := true |}, mkis rest true).
Proof. exact round_trip_2d. Qed.
Print Assumptions C19_round_trip_2d.

Example C19_nonvacuous : storable 8 [0; 4607182418800017408; 18446744073709551615]%Z.
Proof. split; [repeat constructor; cbn; lia|cbn; lia]. Qed.

(** *** C20 *)
(** Finding: any file that lost between one byte and the whole of its last
    array is accepted, and the table says it is initialised although some
    element was never read. *)
Theorem C20_truncated_1d_refuted : forall rsize coords data lost,
  (0 < rsize)%nat -> storable rsize coords -> storable rsize data -> (0 < lost <= length data * rsize)%nat ->
  exists m s k,
    read_1d rsize (mkis (firstn (length (write_1d rsize coords data) - lost) (write_1d rsize coords data)) true) = Ret (m, s) /\
    m1_init m = true /\ nth_error (m1_data m) k = Some None.
Proof. exact truncated_1d. Qed.
Print Assumptions C20_truncated_1d_refuted.

Theorem C20_truncated_2d_refuted : forall rsize x y data lost,
  (0 < rsize)%nat -> storable rsize x -> storable rsize y -> storable rsize data -> (0 < lost <= length data * rsize)%nat ->
  exists m s k,
    read_2d rsize (mkis (firstn (length (write_2d rsize x y data) - lost) (write_2d rsize x y data)) true) = Ret (m, s) /\
    m2_init m = true /\ nth_error (m2_data m) k = Some None.
Proof. exact truncated_2d. Qed.
Print Assumptions C20_truncated_2d_refuted.

(** Finding: a file that could not be opened makes the reader use an
    indeterminate size. *)
Theorem C20_unopened_file_refuted : forall rsize bytes,
  read_1d rsize (mkis bytes false) = UB /\ read_2d rsize (mkis bytes false) = UB.
Proof. exact read_unopened. Qed.
Print Assumptions C20_unopened_file_refuted.

(** Finding: the flag is not stored; an uninitialised (empty) table comes back
    claiming to be initialised. *)
Theorem C20_uninitialised_refuted : forall rsize rest,
  exists m, read_1d rsize (mkis (write_1d rsize [] [] ++ rest) true) = Ret (m, mkis rest true) /\
            m1_coords m = [] /\ m1_data m = [] /\ m1_init m = true.
Proof. exact uninitialised_1d. Qed.
Print Assumptions C20_uninitialised_refuted.
