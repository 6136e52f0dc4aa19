(** Model of the second way the library computes coefficients of difference formulas: FD_weights_hvincenti and
    logfactorial of src/field_solvers/Maxwell/GPSTD_solver/init_kspace_3D.F90.
    Simplification: the integer power of -1 is the sign. *)
From Coq Require Import ZArith List Bool.
From Verif Require Import Cxx Num Fortran Grid.
Import ListNotations.
Local Open Scope Z_scope.

Section Weights.
Context {N : NumOps}.
Local Open Scope num_scope.
(** init_kspace_3D.F90:66-82 *)
Definition logfactorial (n : Z) : num N :=
  if (n =? 0)%Z then n_zero
  else fold_left (fun s k => s + n_log (n_one * n_of_Z k)) (zrange 2 (n - 1)) (n_log (n_one * n_of_Z n)).
(** init_kspace_3D.F90:1515-1537 *)
Definition fd_weights_hvincenti (p : Z) (is_staggered : bool) : list (num N) :=
  map (fun l =>
    let lognumer := if is_staggered then n_log (n_lit 16 0) * (n_one - n_of_Z p / n_two) + logfactorial (p - 1) * n_two
                    else logfactorial (p ÷ 2) * n_two in
    let logdenom := if is_staggered then n_log (n_two * n_of_Z l - n_one) * n_two + logfactorial (p ÷ 2 + l - 1) + logfactorial (p ÷ 2 - l)
                                         + n_two * logfactorial (p ÷ 2 - 1)
                    else logfactorial (p ÷ 2 + l) + logfactorial (p ÷ 2 - l) + n_log (n_one * n_of_Z l) in
    (if Z.even (l + 1) then n_one else - n_one) * n_exp (lognumer - logdenom)) (zrange 1 (p ÷ 2)).
End Weights.
