(** Model of the Cole-Karkkainen-Cowan (CKC) field pushes of the library:
    src/field_solvers/Maxwell/karkkainen_solver/karkkainen.F90.
    Simplifications: as in Yee.v, a statement [a(p) = a(p) + ...] is one step and an array of
    rank two (j, k) of the 2D routines is an array of rank three with the middle index
    fixed; x**2 is x*x; the brackets that two statements have in common are written once. *)
From Coq Require Import ZArith List Bool.
From Verif Require Import Cxx Num Fortran Grid Pushers Yee.
Import ListNotations.
Local Open Scope Z_scope.

Section Ckc.
Context {N : NumOps}.
Local Open Scope num_scope.
Notation gridN := (grid (num N)).
Notation fieldN := (field (num N)).
Notation stmtN := (stmt (num N)).

(** the intrinsic max of two numbers (karkkainen.F90:117, 311, 434, 537) *)
Definition larger (a b : num N) : num N := if a <? b then b else a.

(** the coefficients of one direction: the difference at the point itself, the ones at the neighbours along
    the first and the second of the other two axes, the ones at the diagonal neighbours
    (karkkainen.F90:112-113 alpha., beta.., beta.., gamma.) *)
Record Coefs := { c_alpha : num N; c_beta1 : num N; c_beta2 : num N; c_gamma : num N }.
(** the multiplication of the coefficients by dt/dx, karkkainen.F90:135-146, 321-324 *)
Definition times (d : num N) (c : Coefs) : Coefs :=
  {| c_alpha := d * c_alpha c; c_beta1 := d * c_beta1 c; c_beta2 := d * c_beta2 c; c_gamma := d * c_gamma c |}.

(** karkkainen.F90:117-146 and 537-566: the coefficients of x (betaxy, betaxz), y (betayx, betayz), z (betazx, betazy) *)
Definition coefs3 (dtsdx dtsdy dtsdz : num N) : Coefs * Coefs * Coefs :=
  let delta := larger (larger dtsdx dtsdy) dtsdz in
  let rx := (dtsdx / delta) * (dtsdx / delta) in
  let ry := (dtsdy / delta) * (dtsdy / delta) in
  let rz := (dtsdz / delta) * (dtsdz / delta) in
  let beta := n_one / n_lit 8 0 * (n_one - rx * ry * rz / (ry * rz + rz * rx + rx * ry)) in
  let betaxy := ry * beta in
  let betaxz := rz * beta in
  let betayx := rx * beta in
  let betayz := rz * beta in
  let betazx := rx * beta in
  let betazy := ry * beta in
  let gammax := ry * rz * (n_one / n_lit 16 0 - n_one / n_lit 8 0 * ry * rz / (ry * rz + rz * rx + rx * ry)) in
  let gammay := rx * rz * (n_one / n_lit 16 0 - n_one / n_lit 8 0 * rx * rz / (ry * rz + rz * rx + rx * ry)) in
  let gammaz := rx * ry * (n_one / n_lit 16 0 - n_one / n_lit 8 0 * rx * ry / (ry * rz + rz * rx + rx * ry)) in
  let alphax := n_one - n_two * betaxy - n_two * betaxz - n_lit 4 0 * gammax in
  let alphay := n_one - n_two * betayx - n_two * betayz - n_lit 4 0 * gammay in
  let alphaz := n_one - n_two * betazx - n_two * betazy - n_lit 4 0 * gammaz in
  (times dtsdx {| c_alpha := alphax; c_beta1 := betaxy; c_beta2 := betaxz; c_gamma := gammax |},
   times dtsdy {| c_alpha := alphay; c_beta1 := betayx; c_beta2 := betayz; c_gamma := gammay |},
   times dtsdz {| c_alpha := alphaz; c_beta1 := betazx; c_beta2 := betazy; c_gamma := gammaz |}).

(** a bracket f(p1) - f(q1) + f(p2) - f(q2) + ... *)
Fixpoint more (f : gridN) (acc : num N) (l : list (idx * idx)) : out (num N) :=
  match l with
  | [] => Ret acc
  | (p, q) :: l' => do x <- get3 f p; do y <- get3 f q; more f (acc + x - y) l'
  end.
Definition bracket (f : gridN) (p q : idx) (l : list (idx * idx)) : out (num N) :=
  do d <- diff f p q; more f d l.

(** the four products of a difference along x, karkkainen.F90:193-201 (Ez), 225-233 (Ey), 582-590 (F) *)
Definition terms_x (c : Coefs) (f : gridN) (p : idx) : out (num N * num N * num N * num N) :=
  let '(j, k, l) := p in
  let at_ a b d := ((j + a)%Z, (k + b)%Z, (l + d)%Z) in
  do t1 <- bracket f (at_ 1 0 0)%Z (at_ 0 0 0)%Z [];
  do t2 <- bracket f (at_ 1 1 0)%Z (at_ 0 1 0)%Z [(at_ 1 (-1) 0, at_ 0 (-1) 0)%Z];
  do t3 <- bracket f (at_ 1 0 1)%Z (at_ 0 0 1)%Z [(at_ 1 0 (-1), at_ 0 0 (-1))%Z];
  do t4 <- bracket f (at_ 1 1 1)%Z (at_ 0 1 1)%Z [(at_ 1 (-1) 1, at_ 0 (-1) 1)%Z; (at_ 1 1 (-1), at_ 0 1 (-1))%Z; (at_ 1 (-1) (-1), at_ 0 (-1) (-1))%Z];
  Ret (c_alpha c * t1, c_beta1 c * t2, c_beta2 c * t3, c_gamma c * t4).
(** along y, karkkainen.F90:161-169 (Ez), 234-242 (Ex), 605-613 (F) *)
Definition terms_y (c : Coefs) (f : gridN) (p : idx) : out (num N * num N * num N * num N) :=
  let '(j, k, l) := p in
  let at_ a b d := ((j + a)%Z, (k + b)%Z, (l + d)%Z) in
  do t1 <- bracket f (at_ 0 1 0)%Z (at_ 0 0 0)%Z [];
  do t2 <- bracket f (at_ 1 1 0)%Z (at_ 1 0 0)%Z [(at_ (-1) 1 0, at_ (-1) 0 0)%Z];
  do t3 <- bracket f (at_ 0 1 1)%Z (at_ 0 0 1)%Z [(at_ 0 1 (-1), at_ 0 0 (-1))%Z];
  do t4 <- bracket f (at_ 1 1 1)%Z (at_ 1 0 1)%Z [(at_ (-1) 1 1, at_ (-1) 0 1)%Z; (at_ 1 1 (-1), at_ 1 0 (-1))%Z; (at_ (-1) 1 (-1), at_ (-1) 0 (-1))%Z];
  Ret (c_alpha c * t1, c_beta1 c * t2, c_beta2 c * t3, c_gamma c * t4).
(** along z, karkkainen.F90:170-178 (Ey), 202-210 (Ex), 628-636 (F) *)
Definition terms_z (c : Coefs) (f : gridN) (p : idx) : out (num N * num N * num N * num N) :=
  let '(j, k, l) := p in
  let at_ a b d := ((j + a)%Z, (k + b)%Z, (l + d)%Z) in
  do t1 <- bracket f (at_ 0 0 1)%Z (at_ 0 0 0)%Z [];
  do t2 <- bracket f (at_ 1 0 1)%Z (at_ 1 0 0)%Z [(at_ (-1) 0 1, at_ (-1) 0 0)%Z];
  do t3 <- bracket f (at_ 0 1 1)%Z (at_ 0 1 0)%Z [(at_ 0 (-1) 1, at_ 0 (-1) 0)%Z];
  do t4 <- bracket f (at_ 1 1 1)%Z (at_ 1 1 0)%Z [(at_ (-1) 1 1, at_ (-1) 1 0)%Z; (at_ 1 (-1) 1, at_ 1 (-1) 0)%Z; (at_ (-1) (-1) 1, at_ (-1) (-1) 0)%Z];
  Ret (c_alpha c * t1, c_beta1 c * t2, c_beta2 c * t3, c_gamma c * t4).

(** b + t1 + t2 + t3 + t4 and b - t1 - t2 - t3 - t4 *)
Definition add4 (b : num N) (t : num N * num N * num N * num N) : num N := let '(t1, t2, t3, t4) := t in b + t1 + t2 + t3 + t4.
Definition sub4 (b : num N) (t : num N * num N * num N * num N) : num N := let '(t1, t2, t3, t4) := t in b - t1 - t2 - t3 - t4.

(** karkkainen.F90:161-178 *)
Definition k3_bx (E : fieldN) (cy cz : Coefs) (p : idx) : list stmtN :=
  [(p, fun b => do t <- terms_y cy (fz E) p; do u <- terms_z cz (fy E) p; Ret (add4 (sub4 b t) u))].
(** karkkainen.F90:193-210 *)
Definition k3_by (E : fieldN) (cx cz : Coefs) (p : idx) : list stmtN :=
  [(p, fun b => do t <- terms_x cx (fz E) p; do u <- terms_z cz (fx E) p; Ret (sub4 (add4 b t) u))].
(** karkkainen.F90:225-242 *)
Definition k3_bz (E : fieldN) (cx cy : Coefs) (p : idx) : list stmtN :=
  [(p, fun b => do t <- terms_x cx (fy E) p; do u <- terms_y cy (fx E) p; Ret (add4 (sub4 b t) u))].
(** karkkainen.F90:83-253 *)
Definition pxrpush_em3d_bvec_ckc (xlo xhi ylo yhi zlo zhi : idx) (E B : fieldN) (dtsdx dtsdy dtsdz : num N) : out fieldN :=
  let '(cx, cy, cz) := coefs3 dtsdx dtsdy dtsdz in
  do bx <- loop3 xlo xhi (k3_bx E cy cz) (fx B);
  do by_ <- loop3 ylo yhi (k3_by E cx cz) (fy B);
  do bz <- loop3 zlo zhi (k3_bz E cx cy) (fz B);
  Ret (Field3 bx by_ bz).

(** karkkainen.F90:582-590, 605-613, 628-636 *)
Definition kf_ex (F : gridN) (c : Coefs) (p : idx) : list stmtN := [(p, fun e => do t <- terms_x c F p; Ret (add4 e t))].
Definition kf_ey (F : gridN) (c : Coefs) (p : idx) : list stmtN := [(p, fun e => do t <- terms_y c F p; Ret (add4 e t))].
Definition kf_ez (F : gridN) (c : Coefs) (p : idx) : list stmtN := [(p, fun e => do t <- terms_z c F p; Ret (add4 e t))].
(** karkkainen.F90:504-647 *)
Definition pxrpush_em3d_evec_f_ckc (xlo xhi ylo yhi zlo zhi : idx) (E : fieldN) (F : gridN) (dtsdx dtsdy dtsdz : num N) : out fieldN :=
  let '(cx, cy, cz) := coefs3 dtsdx dtsdy dtsdz in
  do ex <- loop3 xlo xhi (kf_ex F cx) (fx E);
  do ey <- loop3 ylo yhi (kf_ey F cy) (fy E);
  do ez <- loop3 zlo zhi (kf_ez F cz) (fz E);
  Ret (Field3 ex ey ez).

(** ** two dimensions *)
(** karkkainen.F90:311-324 and 434-447: (alphax, betaxz, alphaz, betazx) *)
Definition coefs2 (dtsdx dtsdz : num N) : num N * num N * num N * num N :=
  let delta := larger dtsdx dtsdz in
  let rx := (dtsdx / delta) * (dtsdx / delta) in
  let rz := (dtsdz / delta) * (dtsdz / delta) in
  let betaxz := n_one / n_lit 8 0 * rz in
  let betazx := n_one / n_lit 8 0 * rx in
  let alphax := n_one - n_two * betaxz in
  let alphaz := n_one - n_two * betazx in
  (dtsdx * alphax, dtsdx * betaxz, dtsdz * alphaz, dtsdz * betazx).
(** karkkainen.F90:349-351 (Ez), 367-369 (Ey), 458-460 (F) *)
Definition terms2_x (alpha beta : num N) (f : gridN) (p : idx) : out (num N * num N) :=
  let '(j, k, l) := p in
  do t1 <- bracket f ((j + 1)%Z, k, l) (j, k, l) [];
  do t2 <- bracket f ((j + 1)%Z, k, (l + 1)%Z) (j, k, (l + 1)%Z) [(((j + 1)%Z, k, (l - 1)%Z), (j, k, (l - 1)%Z))];
  Ret (alpha * t1, beta * t2).
(** karkkainen.F90:334-336 (Ey), 352-354 (Ex), 473-475 (F) *)
Definition terms2_z (alpha beta : num N) (f : gridN) (p : idx) : out (num N * num N) :=
  let '(j, k, l) := p in
  do t1 <- bracket f (j, k, (l + 1)%Z) (j, k, l) [];
  do t2 <- bracket f ((j + 1)%Z, k, (l + 1)%Z) ((j + 1)%Z, k, l) [(((j - 1)%Z, k, (l + 1)%Z), ((j - 1)%Z, k, l))];
  Ret (alpha * t1, beta * t2).
(** karkkainen.F90:334-336 *)
Definition k2_bx (E : fieldN) (az bz : num N) (p : idx) : list stmtN :=
  [(p, fun b => do t <- terms2_z az bz (fy E) p; Ret (b + fst t + snd t))].
(** karkkainen.F90:349-354 *)
Definition k2_by (E : fieldN) (ax bx az bz : num N) (p : idx) : list stmtN :=
  [(p, fun b => do t <- terms2_x ax bx (fz E) p; do u <- terms2_z az bz (fx E) p; Ret (b + fst t + snd t - fst u - snd u))].
(** karkkainen.F90:367-369 *)
Definition k2_bz (E : fieldN) (ax bx : num N) (p : idx) : list stmtN :=
  [(p, fun b => do t <- terms2_x ax bx (fy E) p; Ret (b - fst t - snd t))].
(** karkkainen.F90:272-378; dtsdy is not used *)
Definition pxrpush_em2d_bvec_ckc (xlo xhi ylo yhi zlo zhi : idx) (E B : fieldN) (dtsdx dtsdz : num N) : out fieldN :=
  let '(ax, bx, az, bz) := coefs2 dtsdx dtsdz in
  do gx <- loop3 xlo xhi (k2_bx E az bz) (fx B);
  do gy <- loop3 ylo yhi (k2_by E ax bx az bz) (fy B);
  do gz <- loop3 zlo zhi (k2_bz E ax bx) (fz B);
  Ret (Field3 gx gy gz).
(** karkkainen.F90:458-460, 473-475 *)
Definition kf2_ex (F : gridN) (a b : num N) (p : idx) : list stmtN := [(p, fun e => do t <- terms2_x a b F p; Ret (e + fst t + snd t))].
Definition kf2_ez (F : gridN) (a b : num N) (p : idx) : list stmtN := [(p, fun e => do t <- terms2_z a b F p; Ret (e + fst t + snd t))].
(** karkkainen.F90:401-484; Ey is not updated *)
Definition pxrpush_em2d_evec_f_ckc (xlo xhi zlo zhi : idx) (E : fieldN) (F : gridN) (dtsdx dtsdz : num N) : out fieldN :=
  let '(ax, bx, az, bz) := coefs2 dtsdx dtsdz in
  do ex <- loop3 xlo xhi (kf2_ex F ax bx) (fx E);
  do ez <- loop3 zlo zhi (kf2_ez F az bz) (fz E);
  Ret (Field3 ex (fy E) ez).
End Ckc.
