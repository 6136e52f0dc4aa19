(** Model of src/multi_physics/QED/src/utilities.hpp (all functions except the
    Boost wrapper [bracket_and_solve_root], which is an oracle). *)
From Coq Require Import ZArith List Bool.
From Verif Require Import Cxx Num.
Import ListNotations.
Local Open Scope Z_scope.

Section Utilities.
Context {N : NumOps}.

(** utilities.hpp:149-160: the while loop of [picsar_upper_bound].  Pointers are
    offsets from the start of the range; [count >= step + 1], so the unsigned
    subtraction cannot wrap. *)
Fixpoint ub_loop (v : list (num N)) (val : num N) (fuel : nat) (first count : Z) : out Z :=
  match fuel with
  | O => OutOfFuel
  | S f =>
      if 0 <? count then
        let step := count / 2 in
        let it := first + step in
        do x <- zget v it;
        if negb (val <? x)%N
        then ub_loop v val f (it + 1) (count - (step + 1))
        else ub_loop v val f first step
      else Ret first
  end.

(** utilities.hpp:143-162 [picsar_upper_bound(first,last,val)], the range being
    the whole vector; the result is [std::distance(begin, result)].  The fuel
    (length+1) is shown to be sufficient. *)
Definition picsar_upper_bound (v : list (num N)) (val : num N) : out Z :=
  ub_loop v val (S (length v)) 0 (zlen v).

(** utilities.hpp:82-85: the loop of [generate_log_spaced_vec]. *)
Fixpoint log_fill (n : nat) (val mul : num N) : list (num N) :=
  match n with
  | O => []
  | S m => val :: log_fill m (val * mul)%N mul
  end.

(** utilities.hpp:66-88 [generate_log_spaced_vec]; [size] is a size_t. *)
Definition generate_log_spaced_vec (mn mx : num N) (size : Z) : list (num N) :=
  if (mn >=? mx)%N || (mn <? n_lit 0 0)%N || (mx <? n_lit 0 0)%N || (size <? 2)
  then []
  else
    let mul := n_pow (mx / mn)%N (n_lit 1 0 / n_of_Z (size - 1))%N in
    log_fill (Z.to_nat (size - 1)) mn mul ++ [mx].

(** utilities.hpp:91-107 [generate_lin_spaced_vec]. *)
Definition generate_lin_spaced_vec (mn mx : num N) (size : Z) : list (num N) :=
  if (mn >=? mx)%N || (size <? 2)
  then []
  else
    map (fun i => (n_of_Z i * (mx - mn) / (n_of_Z size - n_lit 1 0) + mn)%N)
        (zseq (Z.to_nat (size - 1))) ++ [mx].

(** utilities.hpp:110-137 [generate_log_lin_log_spaced_vec].  Each lambda
    captures [n] by value, so each of the three fills starts from n = 0;
    [size_third-1-(n++)] is unsigned and wraps.  [front()]/[back()] of an empty
    vector is undefined. *)
Definition generate_log_lin_log_spaced_vec (mn mx : num N) (size : Z) : out (list (num N)) :=
  let sf := size / 3 in
  let ss := size / 3 in
  let st := size / 3 in
  let first_val := (mx * (n_lit 1 0 / n_lit 10 0))%N in
  let second_val := (mx * (n_lit 9 0 / n_lit 10 0))%N in
  let part1 := map (fun n => (mn * n_exp (n_of_Z n * n_log (first_val / mn) / n_of_Z sf))%N)
                   (zseq (Z.to_nat sf)) in
  let part2 := map (fun n => (first_val + (second_val - first_val) * n_of_Z n / n_of_Z ss)%N)
                   (zseq (Z.to_nat ss)) in
  let part3 := map (fun n => (mx * n_exp (n_of_Z (wrap64 (wrap64 (st - 1) - n))
                                * n_log (second_val / mx) / n_of_Z (wrap64 (st - 1))))%N)
                   (zseq (Z.to_nat (size - sf - ss))) in
  let vec := part1 ++ part2 ++ part3 in
  do vec1 <- zset vec 0 mn;
  zset vec1 (wrap64 (zlen vec1 - 1)) mx.

(** utilities.hpp:176-184: the while loop of [poisson_distrib].  Simplification:
    [k] is an unbounded integer (a size_t that would need 2^64 iterations to
    wrap). *)
Fixpoint poisson_loop (fuel : nat) (lambda u : num N) (k : Z) (p s : num N) : out Z :=
  match fuel with
  | O => OutOfFuel
  | S f =>
      if (u >? s)%N then
        let old_s := s in
        let k' := k + 1 in
        let p' := (p * lambda / n_of_Z k')%N in
        let s' := (s + p')%N in
        if (s' <=? old_s)%N then Ret k'
        else poisson_loop f lambda u k' p' s'
      else Ret k
  end.

(** utilities.hpp:166-186 [poisson_distrib(lambda, unf)]. *)
Definition poisson_distrib (fuel : nat) (lambda u : num N) : out Z :=
  let p := n_exp (- lambda)%N in
  poisson_loop fuel lambda u 0 p p.

End Utilities.
