(** Model of src/multi_physics/QED/src/lookup_tables.hpp.  The vectors of a
    table are lists of values; that copies of [picsar_vector] behave like
    independent values is proved separately, in the picsar_vector files. *)
From Coq Require Import ZArith List Bool.
From Verif Require Import Cxx Num Utilities.
Import ListNotations.
Local Open Scope Z_scope.

(** picsar_vector.hpp:282-293 [operator[](int)]: the size_t argument is first
    converted to int. *)
Definition vget {A} (v : list A) (i : Z) : out A := zget v (to_int32 i).
Definition vset {A} (v : list A) (i : Z) (a : A) : out (list A) := zset v (to_int32 i) a.

(** picsar_vector.hpp:373-376 [front() const] *)
Definition vfront {A} (v : list A) : out A := zget v 0.
(** picsar_vector.hpp:365-368 [back() const]: [v_data[v_size-1]], unsigned. *)
Definition vback {A} (v : list A) : out A := zget v (wrap64 (zlen v - 1)).

Section Tables.
Context {N : NumOps}.

(** lookup_tables.hpp:30-101 class lookup_1d *)
Record lookup_1d := mk1d {
  t1_coords : list (num N);
  t1_data : list (num N);
  t1_init : bool }.

(** lookup_tables.hpp:105-203 class lookup_2d *)
Record lookup_2d := mk2d {
  t2_x : list (num N);
  t2_y : list (num N);
  t2_data : list (num N);
  t2_init : bool }.

(** lookup_tables.hpp:212-217 *)
Definition lookup_1d_empty : lookup_1d := mk1d [] [] false.
(** lookup_tables.hpp:220-227 *)
Definition lookup_1d_make (coords data : list (num N)) : lookup_1d := mk1d coords data true.
(** lookup_tables.hpp:245-253: raw pointer constructor; [how_many] elements are
    taken from both blocks. A view longer than its block would be UB on access,
    which is what the shorter list gives. *)
Definition lookup_1d_raw (how_many : Z) (coords data : list (num N)) : lookup_1d :=
  mk1d (firstn (Z.to_nat how_many) coords) (firstn (Z.to_nat how_many) data) true.
(** lookup_tables.hpp:400-405 *)
Definition lookup_2d_empty : lookup_2d := mk2d [] [] [] false.
(** lookup_tables.hpp:409-417 *)
Definition lookup_2d_make (x y data : list (num N)) : lookup_2d := mk2d x y data true.
(** lookup_tables.hpp:436-450 *)
Definition lookup_2d_raw (n1 : Z) (x : list (num N)) (n2 : Z) (y data : list (num N)) : lookup_2d :=
  mk2d (firstn (Z.to_nat n1) x) (firstn (Z.to_nat n2) y)
       (firstn (Z.to_nat (wrap64 (n1 * n2))) data) true.

(** lookup_tables.hpp:347 and 328: the interpolation formula. *)
Definition lin_formula (xl xr yl yr w : num N) : num N :=
  (yl + ((yr - yl) / (xr - xl)) * (w - xl))%N.

(** lookup_tables.hpp:312-329 lookup_1d::interp_linear_equispaced *)
Definition interp_linear_equispaced (t : lookup_1d) (w : num N) : out (num N) :=
  do xmin <- vfront (t1_coords t);
  do xmax <- vback (t1_coords t);
  let xsize := (xmax - xmin)%N in
  do il <- floor_size (n_of_Z (wrap64 (zlen (t1_coords t) - 1)) * (w - xmin) / xsize)%N;
  let ir := wrap64 (il + 1) in
  do xl <- vget (t1_coords t) il;
  do xr <- vget (t1_coords t) ir;
  do yl <- vget (t1_data t) il;
  do yr <- vget (t1_data t) ir;
  Ret (lin_formula xl xr yl yr w).

(** lookup_tables.hpp:336-348 lookup_1d::interp_linear *)
Definition interp_linear (t : lookup_1d) (w : num N) : out (num N) :=
  do ir <- picsar_upper_bound (t1_coords t) w;
  let il := wrap64 (ir - 1) in
  do xl <- vget (t1_coords t) il;
  do xr <- vget (t1_coords t) ir;
  do yl <- vget (t1_data t) il;
  do yr <- vget (t1_data t) ir;
  Ret (lin_formula xl xr yl yr w).

(** lookup_tables.hpp:757-761 row_major *)
Definition row_major (i j c2_size : Z) : Z := wrap64 (i * c2_size + j).

(** lookup_tables.hpp:514-517 data_at_coords *)
Definition data_at_coords (t : lookup_2d) (i j : Z) : out (num N) :=
  vget (t2_data t) (row_major i j (zlen (t2_y t))).

(** lookup_tables.hpp:560-567 and 607-614: weights of the bilinear formula. *)
Definition bilin_formula (xl xr yl yr zll zlr zrl zrr wx wy : num N) : num N :=
  let wll := ((xr - wx) * (yr - wy))%N in
  let wlr := ((xr - wx) * (wy - yl))%N in
  let wrl := ((wx - xl) * (yr - wy))%N in
  let wrr := ((wx - xl) * (wy - yl))%N in
  let w_norm := ((xr - xl) * (yr - yl))%N in
  ((wll * zll + wlr * zlr + wrl * zrl + wrr * zrr) / w_norm)%N.

(** lookup_tables.hpp:547-567: the common part of the two 2D interpolations,
    given the cell indices. *)
Definition bilin_at (t : lookup_2d) (ixl ixr iyl iyr : Z) (wx wy : num N) : out (num N) :=
  do xl <- vget (t2_x t) ixl;
  do xr <- vget (t2_x t) ixr;
  do yl <- vget (t2_y t) iyl;
  do yr <- vget (t2_y t) iyr;
  do zll <- data_at_coords t ixl iyl;
  do zlr <- data_at_coords t ixl iyr;
  do zrl <- data_at_coords t ixr iyl;
  do zrr <- data_at_coords t ixr iyr;
  Ret (bilin_formula xl xr yl yr zll zlr zrl zrr wx wy).

(** lookup_tables.hpp:536-568 lookup_2d::interp_linear *)
Definition interp2_linear (t : lookup_2d) (wx wy : num N) : out (num N) :=
  do ixr <- picsar_upper_bound (t2_x t) wx;
  do iyr <- picsar_upper_bound (t2_y t) wy;
  bilin_at t (wrap64 (ixr - 1)) ixr (wrap64 (iyr - 1)) iyr wx wy.

(** lookup_tables.hpp:575-615 lookup_2d::interp_linear_equispaced *)
Definition interp2_linear_equispaced (t : lookup_2d) (wx wy : num N) : out (num N) :=
  do xmin <- vfront (t2_x t);
  do xmax <- vback (t2_x t);
  let xsize := (xmax - xmin)%N in
  do ymin <- vfront (t2_y t);
  do ymax <- vback (t2_y t);
  let ysize := (ymax - ymin)%N in
  do ixl <- floor_size (n_of_Z (wrap64 (zlen (t2_x t) - 1)) * (wx - xmin) / xsize)%N;
  do iyl <- floor_size (n_of_Z (wrap64 (zlen (t2_y t) - 1)) * (wy - ymin) / ysize)%N;
  bilin_at t ixl (wrap64 (ixl + 1)) iyl (wrap64 (iyl + 1)) wx wy.

(** lookup_tables.hpp:643-648 and 683-688 *)
Definition first_formula (xl xr zl zr w : num N) : num N :=
  let wlc := (xr - w)%N in
  let wrc := (w - xl)%N in
  let w_norm := (xr - xl)%N in
  ((wlc * zl + wrc * zr) / w_norm)%N.

(** lookup_tables.hpp:623-649 lookup_2d::interp_linear_first.  The unused
    locals xmin, xmax still read front() and back(). *)
Definition interp2_linear_first (t : lookup_2d) (wx : num N) (j : Z) : out (num N) :=
  do _xmin <- vfront (t2_x t);
  do _xmax <- vback (t2_x t);
  do ixr <- picsar_upper_bound (t2_x t) wx;
  let ixl := wrap64 (ixr - 1) in
  do xl <- vget (t2_x t) ixl;
  do xr <- vget (t2_x t) ixr;
  do zl <- data_at_coords t ixl j;
  do zr <- data_at_coords t ixr j;
  Ret (first_formula xl xr zl zr wx).

(** lookup_tables.hpp:658-689 lookup_2d::interp_linear_first_equispaced *)
Definition interp2_linear_first_equispaced (t : lookup_2d) (wx : num N) (j : Z) : out (num N) :=
  let sx := zlen (t2_x t) in
  do xmin <- vfront (t2_x t);
  if (wx <=? xmin)%N then data_at_coords t 0 j
  else
    do xmax <- vback (t2_x t);
    if (wx >=? xmax)%N then data_at_coords t (wrap64 (sx - 1)) j
    else
      let xsize := (xmax - xmin)%N in
      do ixl <- floor_size (n_of_Z (wrap64 (sx - 1)) * (wx - xmin) / xsize)%N;
      let ixr := wrap64 (ixl + 1) in
      do xl <- vget (t2_x t) ixl;
      do xr <- vget (t2_x t) ixr;
      do zl <- data_at_coords t ixl j;
      do zr <- data_at_coords t ixr j;
      Ret (first_formula xl xr zl zr wx).

End Tables.

Arguments lookup_1d : clear implicits.
Arguments lookup_2d : clear implicits.
