(** Vocabulary of the statements about particle sorting. *)
From Coq Require Import ZArith Reals List Permutation Sorted.
Import ListNotations.
Local Open Scope Z_scope.

(** [r] holds the elements of [a] in the order given by [perm]: r(p) = a(perm(p)) *)
Definition rearranged {A} (perm : list nat) (a r : list A) : Prop :=
  map (@Some A) r = map (nth_error a) perm.

(** [perm] lists every index 0..n-1 once *)
Definition is_permutation (n : nat) (perm : list nat) : Prop := Permutation perm (seq 0 n).

(** the keys are non-decreasing along [perm], and equal keys keep their order *)
Definition stably_sorted (key : nat -> Z) (perm : list nat) : Prop :=
  StronglySorted (fun i j => key i < key j \/ (key i = key j /\ (i < j)%nat)) perm.

(** the cell of width d, counted from lo, that contains x *)
Definition in_cell (lo d x : R) (c : Z) : Prop := (lo + IZR c * d <= x < lo + (IZR c + 1) * d)%R.

(** particles i and j appear in this order: by z cell, then y cell, then x cell,
    then the order they had *)
Definition cell_order (cx cy cz : nat -> Z) (i j : nat) : Prop :=
  cz i < cz j \/ (cz i = cz j /\ (cy i < cy j \/ (cy i = cy j /\ (cx i < cx j \/ (cx i = cx j /\ (i < j)%nat))))).
