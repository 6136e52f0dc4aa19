(** Mathematical vocabulary used by the property statements.  Nothing here
    refers to the model of the code. *)
From Coq Require Import ZArith Reals List Bool.
Import ListNotations.
Local Open Scope R_scope.

(** i-th element of a list of reals (0 outside, never used outside) *)
Definition el (xs : list R) (i : nat) : R := nth i xs 0.

Definition strictly_increasing (xs : list R) : Prop :=
  forall i j, (i < j < length xs)%nat -> el xs i < el xs j.

Definition nondecreasing (xs : list R) : Prop :=
  forall i j, (i < j < length xs)%nat -> el xs i <= el xs j.

(** points at constant distance h > 0 *)
Definition equispaced (xs : list R) : Prop :=
  exists h, 0 < h /\ forall i, (i < length xs)%nat -> el xs i = el xs 0 + INR i * h.

(** straight line through (xl,yl) and (xr,yr) *)
Definition line (xl yl xr yr w : R) : R := yl + (yr - yl) * (w - xl) / (xr - xl).

(** v is the value at w of the piecewise linear function through the points *)
Definition linear_interpolant (xs ys : list R) (w v : R) : Prop :=
  exists i, (S i < length xs)%nat /\ el xs i <= w < el xs (S i) /\
            v = line (el xs i) (el ys i) (el xs (S i)) (el ys (S i)) w.

(** entry of row i, column j of a row-major matrix with nc columns *)
Definition entry (nc : nat) (zs : list R) (i j : nat) : R := el zs (i * nc + j).

(** v is the value at (wx,wy) of the bilinear interpolant of a table: linear
    interpolation in y on the two neighbouring rows, then linear in x *)
Definition bilinear_interpolant (xs ys zs : list R) (wx wy v : R) : Prop :=
  exists i j, (S i < length xs)%nat /\ (S j < length ys)%nat /\
    el xs i <= wx < el xs (S i) /\ el ys j <= wy < el ys (S j) /\
    let zl := line (el ys j) (entry (length ys) zs i j) (el ys (S j)) (entry (length ys) zs i (S j)) wy in
    let zr := line (el ys j) (entry (length ys) zs (S i) j) (el ys (S j)) (entry (length ys) zs (S i) (S j)) wy in
    v = line (el xs i) zl (el xs (S i)) zr wx.

(** value of the Poisson cumulative distribution of mean l at k *)
Definition poisson_cdf (l : R) (k : nat) : R :=
  sum_f_R0 (fun i => exp (- l) * (l ^ i / INR (fact i))) k.

(** value at w of the interpolation along the first axis at column j, constant
    outside the range of the first axis *)
Definition clamped_interp (xs : list R) (nc : nat) (zs : list R) (j : nat) (w v : R) : Prop :=
  (w <= el xs 0 /\ v = entry nc zs 0 j) \/
  (el xs (length xs - 1) <= w /\ v = entry nc zs (length xs - 1) j) \/
  (exists i, (S i < length xs)%nat /\ el xs i <= w < el xs (S i) /\
     v = line (el xs i) (entry nc zs i j) (el xs (S i)) (entry nc zs (S i) j) w).

(** number of elements representable in an int *)
Definition fits {A} (l : list A) : Prop := (Z.of_nat (length l) < 2 ^ 31)%Z.

(** the data of a 2D table has one entry per pair of coordinates, at most 2^31 *)
Definition well_sized (xs ys zs : list R) : Prop :=
  length zs = (length xs * length ys)%nat /\ fits zs.

(** a list of bit patterns of rsize bytes whose total size is a 64 bit integer *)
Definition storable (rsize : nat) (v : list Z) : Prop :=
  Forall (fun w => (0 <= w < 256 ^ Z.of_nat rsize)%Z) v /\
  (Z.of_nat (length v) < 2 ^ 64)%Z /\ (Z.of_nat rsize * Z.of_nat (length v) < 2 ^ 64)%Z.
