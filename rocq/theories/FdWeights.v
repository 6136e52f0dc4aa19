(** Model of the coefficients of the finite difference solver: FD_weights and init_stencil_coefficients of src/submain.F90.
    Simplifications: the array c(0:1, 0:n-1) is the list of the pairs c(0:1, j); the loops over k run from 1 to 1
    (mn = min(i+1, 2) = 2 for i >= 1) and are written out. *)
From Coq Require Import ZArith List Bool.
From Verif Require Import Cxx Num Fortran Grid.
Import ListNotations.
Local Open Scope Z_scope.

Section Weights.
Context {N : NumOps}.
Local Open Scope num_scope.

(** submain.F90:958-960 *)
Definition fd_x (n i : Z) : num N := n_of_Z (i - n ÷ 2 + 1) * n_one.

(** submain.F90:968-982, the body of the loop over j: (c, c2) *)
Definition fd_inner (n i : Z) (c1 c4 c5 : num N) (j : Z) (s : list (num N * num N) * num N) : out (list (num N * num N) * num N) :=
  let '(c, c2) := s in
  let c3 := fd_x n i - fd_x n j in
  let c2 := c2 * c3 in
  if (j =? i - 1)%Z then
    do p <- zget c (i - 1);
    let new := (- (c1 * c5 * fst p / c2), c1 * (n_of_Z 1 * fst p - c5 * snd p) / c2) in
    do c <- zset c i new;
    do q <- zget c j;
    let upd := (c4 * fst q / c3, (c4 * snd q - n_of_Z 1 * fst q) / c3) in
    do c <- zset c j upd;
    Ret (c, c2)
  else Ret (c, c2).
(** submain.F90:963-984, the body of the loop over i: (c, c1, c4) *)
Definition fd_outer (n : Z) (z : num N) (i : Z) (s : list (num N * num N) * num N * num N) : out (list (num N * num N) * num N * num N) :=
  let '(c, c1, c4) := s in
  let c5 := c4 in
  let c4 := fd_x n i - z in
  do s' <- do_range 0 (i - 1) (fd_inner n i c1 c4 c5) (c, n_one);
  let '(c, c2) := s' in
  Ret (c, c2, c4).
(** submain.F90:933-990 *)
Definition fd_weights (norder : Z) (nodal : bool) : out (list (num N)) :=
  let z := if nodal then n_zero else n_lit 5 (-1) in
  let n := (norder + 1)%Z in
  let c := (n_one, n_zero) :: repeat (n_zero, n_zero) (Z.to_nat (n - 1)) in
  do s <- do_range 1 (n - 1) (fd_outer n z) (c, n_one, fd_x n 0 - z);
  let '(c, _, _) := s in
  mapM (fun i => do p <- zget c (norder ÷ 2 + i - 1); Ret (snd p)) (zrange 1 (norder ÷ 2)).
(** submain.F90:896-915 init_stencil_coefficients; the allocation is left out *)
Definition init_stencil_coefficients (norderx nordery norderz : Z) (nodal : bool) : out (list (num N) * list (num N) * list (num N)) :=
  do x <- fd_weights norderx nodal;
  do y <- fd_weights nordery nodal;
  do z <- fd_weights norderz nodal;
  Ret (x, y, z).
End Weights.
