(** Binary files of lookup tables: lookup_tables.hpp:355-393 and 694-746. *)
From Coq Require Import ZArith List Bool.
From Verif Require Import Cxx.
Import ListNotations.
Local Open Scope Z_scope.

(** A byte is an integer in [0,256). *)
Notation byte := Z (only parsing).

(** Little endian object representation of an integer in [w] bytes
    (size_t and, reinterpreted as a bit pattern, _REAL). *)
Fixpoint to_le (w : nat) (z : Z) : list byte :=
  match w with
  | O => []
  | S k => (z mod 256) :: to_le k (z / 256)
  end.

Fixpoint of_le (l : list byte) : Z :=
  match l with
  | [] => 0
  | b :: t => b + 256 * of_le t
  end.

(** An input stream: remaining bytes and the state of its fail bit.  A file
    that cannot be opened is a stream with the fail bit set. *)
Record istream := mkis { is_bytes : list byte; is_good : bool }.

(** [in.read(ptr, n)]: on success [n] bytes; otherwise the bytes available are
    delivered, the stream fails, the rest of the destination is untouched. *)
Definition is_read (s : istream) (n : Z) : list byte * istream :=
  if is_good s then
    if n <=? zlen (is_bytes s)
    then (firstn (Z.to_nat n) (is_bytes s), mkis (skipn (Z.to_nat n) (is_bytes s)) true)
    else (is_bytes s, mkis [] false)
  else ([], s).

(** Elements of a table are [rsize]-byte patterns, represented by the integer
    they encode.  A cell that was never written is [None]. *)
Notation word := Z (only parsing).

(** [size_t n; in.read(&n, sizeof(n))]: using an incompletely read [n] is the
    use of an indeterminate value. *)
Definition read_size (s : istream) : out (Z * istream) :=
  let '(bs, s') := is_read s 8 in
  if zlen bs =? 8 then Ret (of_le bs, s') else UB.

(** Cells of the vector after [in.read(data(), rsize*n)] delivered [bs]. *)
Fixpoint cells (rsize : nat) (n : nat) (bs : list byte) : list (option word) :=
  match n with
  | O => []
  | S k =>
      (if (rsize <=? length bs)%nat then Some (of_le (firstn rsize bs)) else None)
      :: cells rsize k (skipn rsize bs)
  end.

(** lookup_tables.hpp:359-364: read a size, resize the vector (old content
    irrelevant), read its elements.  Simplification: the allocation succeeds. *)
Definition read_vec (rsize : nat) (s : istream) : out (list (option word) * istream) :=
  do '(n, s1) <- read_size s;
  let '(bs, s2) := is_read s1 (wrap64 (Z.of_nat rsize * n)) in
  Ret (cells rsize (Z.to_nat n) bs, s2).

(** lookup_tables.hpp:383-387 *)
Definition write_vec (rsize : nat) (v : list word) : list byte :=
  to_le 8 (zlen v) ++ flat_map (to_le rsize) v.

(** A table as stored in memory after reading (cells may be indeterminate). *)
Record mem_1d := { m1_coords : list (option word); m1_data : list (option word); m1_init : bool }.
Record mem_2d := { m2_x : list (option word); m2_y : list (option word);
                   m2_data : list (option word); m2_init : bool }.

(** lookup_tables.hpp:355-374 lookup_1d::read_from_stream_bin *)
Definition read_1d (rsize : nat) (s : istream) : out (mem_1d * istream) :=
  do '(c, s1) <- read_vec rsize s;
  do '(d, s2) <- read_vec rsize s1;
  Ret ({| m1_coords := c; m1_data := d; m1_init := true |}, s2).

(** lookup_tables.hpp:379-393 lookup_1d::write_on_stream_bin (a failing output
    device is not modelled) *)
Definition write_1d (rsize : nat) (coords data : list word) : list byte :=
  write_vec rsize coords ++ write_vec rsize data.

(** lookup_tables.hpp:695-721 lookup_2d::read_from_stream_bin *)
Definition read_2d (rsize : nat) (s : istream) : out (mem_2d * istream) :=
  do '(x, s1) <- read_vec rsize s;
  do '(y, s2) <- read_vec rsize s1;
  do '(d, s3) <- read_vec rsize s2;
  Ret ({| m2_x := x; m2_y := y; m2_data := d; m2_init := true |}, s3).

(** lookup_tables.hpp:725-746 lookup_2d::write_on_stream_bin *)
Definition write_2d (rsize : nat) (x y data : list word) : list byte :=
  write_vec rsize x ++ write_vec rsize y ++ write_vec rsize data.
