(** Model of the choice of the time step in initall (src/submain.F90). *)
From Coq Require Import ZArith List Bool.
From Verif Require Import Cxx Num Fortran Grid.
Local Open Scope Z_scope.

Section Step.
Context {N : NumOps}.
Local Open Scope num_scope.
(** x**2 *)
Definition sq (a : num N) : num N := a * a.
(** MIN(a, b) *)
Definition smaller (a b : num N) : num N := if n_lt b a then b else a.
(** submain.F90:583-595; with another c_dim dt keeps its value *)
Definition time_step (c_dim : Z) (l_spectral : bool) (dtcoef clight dx dy dz dt : num N) : num N :=
  if (c_dim =? 3)%Z then
    if l_spectral then smaller (smaller dx dy) dz / clight
    else dtcoef / (clight * n_sqrt (n_one / sq dx + n_one / sq dy + n_one / sq dz))
  else if (c_dim =? 2)%Z then
    if l_spectral then smaller dx dz / clight
    else dtcoef / (clight * n_sqrt (n_one / sq dx + n_one / sq dz))
  else dt.
(** control_file.F90:179 *)
Definition default_dtcoef : num N := n_lit 7 (-1).
End Step.
