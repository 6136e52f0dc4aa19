(** Vocabulary of the statements about the domain decomposition.  Nothing here
    computes what the code computes. *)
From Coq Require Import ZArith Reals List Bool.
From Verif Require Import LoadBalance.
Import ListNotations.
Local Open Scope Z_scope.

(** element i of an array of integers declared (0:n-1) *)
Definition zel (l : list Z) (i : Z) : Z := nth (Z.to_nat i) l 0.

(** process p owns cell ic: p is a process and ic lies in its interval *)
Definition owns (mins maxs : list Z) (p ic : Z) : Prop :=
  0 <= p < Z.of_nat (length mins) /\ zel mins p <= ic <= zel maxs p.

(** the intervals of the processes follow each other without overlap *)
Definition ordered_intervals (mins maxs : list Z) : Prop :=
  length mins = length maxs /\
  forall p q, 0 <= p < q -> q < Z.of_nat (length mins) ->
    zel mins p <= zel mins q /\ zel maxs p < zel mins q.

(** an array sorted in non-decreasing order *)
Definition sorted_array (a : list Z) : Prop :=
  forall i j, 0 <= i <= j -> j < Z.of_nat (length a) -> zel a i <= zel a j.

(** node (x,y,z) lies in a box *)
Definition in_box (b : box) (x y z : Z) : Prop :=
  bx1 b <= x <= bx2 b /\ by1 b <= y <= by2 b /\ bz1 b <= z <= bz2 b.

Definition nonempty (b : box) : Prop := bx1 b <= bx2 b /\ by1 b <= by2 b /\ bz1 b <= bz2 b.

(** load of the cells 0 .. k-1 *)
Fixpoint load_before (loads : list R) (k : nat) : R :=
  match k with
  | O => 0%R
  | S j => (load_before loads j + nth j loads 0)%R
  end.

(** load of the whole direction *)
Definition total_load (loads : list R) : R := load_before loads (length loads).
