(** Model of the charge conserving current deposition in three dimensions:
    src/particle_deposition/current_deposition/esirkepov/esirkepov_3d.F90.
    Simplifications: as in Deposit.v and Pushers.v.  The arrays sx0, sx, dsx, sdyj, sdzk, sdx, ...
    are functions of the index: the assignment of sx below checks the declared bounds, and the
    loops only use indices between the smallest and the largest index assigned. *)
From Coq Require Import ZArith List Bool.
From Verif Require Import Cxx Num Fortran Grid Pushers Deposit.
Import ListNotations.
Local Open Scope Z_scope.

Section Esirkepov.
Context {N : FNum}.
Local Open Scope num_scope.
Notation one := (n_lit 1 0).
Notation half := (n_lit 5 (-1)).
Notation zero := (n_lit 0 0).

(** the shape factors of one axis: sx0 (new position), dsx = sx - sx0, node iixp0 (of the new
    position), and the range ixmin:ixmax *)
Record Ax := { s0 : Z -> num N; ds : Z -> num N; nd : Z; imin : Z; imax : Z }.

(** esirkepov_3d.F90:3609-3691, 3695-3800 (and 166-196, 1820-1878, 3346-3424 for one order): shape factors of order n, arrays declared lo:hi, at the new position x and the
    old position xold.  For an order other than 0, 1, 2, 3 nothing is assigned to the shape
    factors, which stay zero. *)
Definition axis_shapes (n lo hi : Z) (x xold : num N) : out Ax :=
  do i0 <- node n x;
  do i <- node n xold;
  let d := (i - i0)%Z in
  let a := smin n in let b := smax n in
  let known := ((0 <=? n) && (n <=? 3))%Z in
  let s0 (m : Z) := if (known && ((a <=? m) && (m <=? b)))%Z then shape n (x - n_of_Z i0) m else zero in
  let s (m : Z) := if (known && ((a + d <=? m) && (m <=? b + d)))%Z then shape n (xold - n_of_Z i) (m - d)%Z else zero in
  if ((lo <=? a) && (b <=? hi) && ((lo <=? a + d) && (b + d <=? hi)))%Z
  then Ret {| s0 := s0; ds := fun m => s m - s0 m; nd := i0;
              imin := (Z.min 0 d + a)%Z; imax := (Z.max 0 d + b)%Z |}
  else UB.

(** jx(p) = jx(p) + v, and the same for jy, jz *)
Definition addx (p : idx) (v : num N) (J : field (num N)) : out (field (num N)) :=
  do g <- exec1 (add p v) (fx J); Ret (Field3 g (fy J) (fz J)).
Definition addy (p : idx) (v : num N) (J : field (num N)) : out (field (num N)) :=
  do g <- exec1 (add p v) (fy J); Ret (Field3 (fx J) g (fz J)).
Definition addz (p : idx) (v : num N) (J : field (num N)) : out (field (num N)) :=
  do g <- exec1 (add p v) (fz J); Ret (Field3 (fx J) (fy J) g).

(** esirkepov_3d.F90:1888-1889 (and 205-206, 1895-1896, 1902-1903, 3434-3435, 3809-3810): the product
    wqx*dsx(i)*((sy0(j)+0.5*dsy(j))*sz0(k) + (0.5*sy0(j)+1.0/3.0*dsy(j))*dsz(k)) *)
Definition flux (wqx : num N) (X Y Z' : Ax) (i j k : Z) : num N :=
  wqx * ds X i * ((s0 Y j + half * ds Y j) * s0 Z' k + (half * s0 Y j + one / n_lit 3 0 * ds Y j) * ds Z' k).

(** ** the versions of fixed order *)
(** the variables sdxi, sdxim1, sdyj, sdyjm1, sdzk, sdzkm1, which keep their values from one
    particle to the next *)
Record Carry := mkCarry { sdxi : num N; sdxim1 : num N; sdyj : Z -> num N; sdyjm1 : Z -> num N;
                  sdzk : Z -> Z -> num N; sdzkm1 : Z -> Z -> num N }.
Definition upd1 (f : Z -> num N) (i : Z) (v : num N) : Z -> num N := fun m => if (m =? i)%Z then v else f m.
Definition upd2 (f : Z -> Z -> num N) (i j : Z) (v : num N) : Z -> Z -> num N :=
  fun m n => if ((m =? i) && (n =? j))%Z then v else f m n.

Notation state := (field (num N) * Carry)%type.
(** esirkepov_3d.F90:1884-1908 (and 201-226, 3430-3454): body of the innermost loop *)
Definition esk_body (wqx wqy wqz : num N) (X Y Z' : Ax) (k j i : Z) (s : state) : out state :=
  let p := (nd X + i, nd Y + j, nd Z' + k)%Z in
  do s <- (let (J, c) := s in
           if (i <? imax X)%Z then
             let v := flux wqx X Y Z' i j k in
             let v := if (imin X <? i)%Z then v + sdxim1 c else v in
             do J' <- addx p v J; Ret (J', mkCarry v (sdxim1 c) (sdyj c) (sdyjm1 c) (sdzk c) (sdzkm1 c))
           else Ret (J, c));
  do s <- (let (J, c) := s in
           if (j <? imax Y)%Z then
             let v := flux wqy Y Z' X j k i in
             let v := if (imin Y <? j)%Z then v + sdyjm1 c i else v in
             do J' <- addy p v J; Ret (J', mkCarry (sdxi c) (sdxim1 c) (upd1 (sdyj c) i v) (sdyjm1 c) (sdzk c) (sdzkm1 c))
           else Ret (J, c));
  do s <- (let (J, c) := s in
           if (k <? imax Z')%Z then
             let v := flux wqz Z' X Y k i j in
             let v := if (imin Z' <? k)%Z then v + sdzkm1 c i j else v in
             do J' <- addz p v J; Ret (J', mkCarry (sdxi c) (sdxim1 c) (sdyj c) (sdyjm1 c) (upd2 (sdzk c) i j v) (sdzkm1 c))
           else Ret (J, c));
  let (J, c) := s in
  Ret (J, mkCarry (sdxi c) (sdxi c) (sdyj c) (sdyjm1 c) (sdzk c) (sdzkm1 c)).
(** esirkepov_3d.F90:1881-1913 (and 198-233, 3427-3459): the loops over k, j, i *)
Definition esk_loops (wqx wqy wqz : num N) (X Y Z' : Ax) (s : state) : out state :=
  do_range (imin Z') (imax Z') (fun k s =>
    do s <- do_range (imin Y) (imax Y) (fun j s =>
      do s <- do_range (imin X) (imax X) (esk_body wqx wqy wqz X Y Z' k j) s;
      let (J, c) := s in Ret (J, mkCarry (sdxi c) (sdxim1 c) (sdyj c) (sdyj c) (sdzk c) (sdzkm1 c))) s;
    let (J, c) := s in Ret (J, mkCarry (sdxi c) (sdxim1 c) (sdyj c) (sdyjm1 c) (sdzk c) (sdzk c))) s.

(** esirkepov_3d.F90:126-136, 1772-1783, 3301-3312: dtsdx0, invdtdx, ... *)
Definition dtsd (dt d : num N) : num N := dt * (one / d).
Definition invdt (dt d d' : num N) : num N := one / (dt * d * d').

(** esirkepov_3d.F90:1797-1913 and 3326-3459: one particle, order n, arrays lo:hi *)
Definition esk_particle (n lo hi : Z) (G : Geom N) (dt q : num N) (a : pos3 N) (m : mom N) (w : num N) (s : state) : out state :=
  let x := gridx G a in let y := gridy G a in let z := gridz G a in
  let vx := ux m * gi m in let vy := uy m * gi m in let vz := uz m * gi m in
  do X <- axis_shapes n lo hi x (x - dtsd dt (g_dx G) * vx);
  do Y <- axis_shapes n lo hi y (y - dtsd dt (g_dy G) * vy);
  do Z' <- axis_shapes n lo hi z (z - dtsd dt (g_dz G) * vz);
  let wq := q * w in
  esk_loops (wq * invdt dt (g_dy G) (g_dz G)) (wq * invdt dt (g_dx G) (g_dz G)) (wq * invdt dt (g_dx G) (g_dy G)) X Y Z' s.
(** esirkepov_3d.F90:150-233: one particle, order 1; the product dtsdx0*uxp(ip)*gaminv(ip) is formed from the left *)
Definition esk_particle_1 (G : Geom N) (dt q : num N) (a : pos3 N) (m : mom N) (w : num N) (s : state) : out state :=
  let x := gridx G a in let y := gridy G a in let z := gridz G a in
  do X <- axis_shapes 1 (-1) 2 x (x - dtsd dt (g_dx G) * ux m * gi m);
  do Y <- axis_shapes 1 (-1) 2 y (y - dtsd dt (g_dy G) * uy m * gi m);
  do Z' <- axis_shapes 1 (-1) 2 z (z - dtsd dt (g_dz G) * uz m * gi m);
  let wq := q * w in
  esk_loops (wq * invdt dt (g_dy G) (g_dz G)) (wq * invdt dt (g_dx G) (g_dz G)) (wq * invdt dt (g_dx G) (g_dy G)) X Y Z' s.

(** [DO ip=1, np] *)
Definition esk_all {S} (np : Z) (f : pos3 N -> mom N -> num N -> S -> out S)
  (xs : list (pos3 N)) (ms : list (mom N)) (ws : list (num N)) (s : S) : out S :=
  do_range 1 np (fun ip s => do a <- get1 xs ip; do m <- get1 ms ip; do w <- get1 ws ip; f a m w s) s.
(** esirkepov_3d.F90:138-143, 1784-1789, 3313-3318: all zero before the first particle *)
Definition carry0 : Carry := mkCarry zero zero (fun _ => zero) (fun _ => zero) (fun _ _ => zero) (fun _ _ => zero).

(** esirkepov_3d.F90:82-239 depose_jxjyjz_esirkepov_1_1_1 *)
Definition depose_jxjyjz_esirkepov_1_1_1 (np : Z) (xs : list (pos3 N)) (ms : list (mom N)) (ws : list (num N))
  (q : num N) (G : Geom N) (dt : num N) (J : field (num N)) : out (field (num N)) :=
  do s <- esk_all np (esk_particle_1 G dt q) xs ms ws (J, carry0); Ret (fst s).
(** esirkepov_3d.F90:1734-1918 depose_jxjyjz_esirkepov_2_2_2 *)
Definition depose_jxjyjz_esirkepov_2_2_2 (np : Z) (xs : list (pos3 N)) (ms : list (mom N)) (ws : list (num N))
  (q : num N) (G : Geom N) (dt : num N) (J : field (num N)) : out (field (num N)) :=
  do s <- esk_all np (esk_particle 2 (-2) 2 G dt q) xs ms ws (J, carry0); Ret (fst s).
(** esirkepov_3d.F90:3263-3464 depose_jxjyjz_esirkepov_3_3_3 *)
Definition depose_jxjyjz_esirkepov_3_3_3 (np : Z) (xs : list (pos3 N)) (ms : list (mom N)) (ws : list (num N))
  (q : num N) (G : Geom N) (dt : num N) (J : field (num N)) : out (field (num N)) :=
  do s <- esk_all np (esk_particle 3 (-2) 3 G dt q) xs ms ws (J, carry0); Ret (fst s).

(** ** the version of arbitrary order *)
(** the arrays sdx, sdy, sdz, which keep their values from one particle to the next *)
Record Sums := mkSums { sdx : idx -> num N; sdy : idx -> num N; sdz : idx -> num N }.
Definition upd3 (f : idx -> num N) (p : idx) (v : num N) : idx -> num N := fun q => if idx_eqb p q then v else f q.
Notation state_n := (field (num N) * Sums)%type.
(** esirkepov_3d.F90:3805-3825: body of the innermost loop *)
Definition esk_body_n (wqx wqy wqz : num N) (X Y Z' : Ax) (k j i : Z) (s : state_n) : out state_n :=
  let p := (nd X + i, nd Y + j, nd Z' + k)%Z in
  do s <- (let (J, c) := s in
           if (i <? imax X)%Z then
             let v := flux wqx X Y Z' i j k in
             let v := if (imin X <? i)%Z then v + sdx c (i - 1, j, k)%Z else v in
             do J' <- addx p v J; Ret (J', mkSums (upd3 (sdx c) (i, j, k) v) (sdy c) (sdz c))
           else Ret (J, c));
  do s <- (let (J, c) := s in
           if (j <? imax Y)%Z then
             let v := flux wqy Y Z' X j k i in
             let v := if (imin Y <? j)%Z then v + sdy c (i, j - 1, k)%Z else v in
             do J' <- addy p v J; Ret (J', mkSums (sdx c) (upd3 (sdy c) (i, j, k) v) (sdz c))
           else Ret (J, c));
  (let (J, c) := s in
   if (k <? imax Z')%Z then
     let v := flux wqz Z' X Y k i j in
     let v := if (imin Z' <? k)%Z then v + sdz c (i, j, k - 1)%Z else v in
     do J' <- addz p v J; Ret (J', mkSums (sdx c) (sdy c) (upd3 (sdz c) (i, j, k) v))
   else Ret (J, c)).
(** esirkepov_3d.F90:3802-3828: the loops over k, j, i *)
Definition esk_loops_n (wqx wqy wqz : num N) (X Y Z' : Ax) (s : state_n) : out state_n :=
  do_range (imin Z') (imax Z') (fun k =>
    do_range (imin Y) (imax Y) (fun j =>
      do_range (imin X) (imax X) (esk_body_n wqx wqy wqz X Y Z' k j))) s.

(** esirkepov_3d.F90:3520-3522, 3537-3542: lower and upper bound of sx, from ndtodx = int(clight*dt/dx) *)
Definition bounds_n (K : Consts N) (dt d : num N) (n : Z) : out (Z * Z) :=
  do nd <- trunc32 (clight K * dt / d); Ret (smin n - 1 - nd, smax n + 1 + nd)%Z.
(** esirkepov_3d.F90:3564-3595: xold, and the position x recomputed from it; ncells is 1 *)
Definition old_new (sym : bool) (dts0 x v : num N) : num N * num N :=
  let xold := x - dts0 * v in
  let '(xold, v) := if sym then (n_fabs xold, (n_fabs x - n_fabs xold) / dts0) else (xold, v) in
  (xold, xold + dts0 / n_of_Z 1 * v).
(** esirkepov_3d.F90:3555-3830: one particle, w1 is w(1) *)
Definition esk_particle_n (K : Consts N) (nox noy noz : Z) (l_particles_weight l4symtry : bool) (G : Geom N) (dt q w1 : num N)
  (a : pos3 N) (m : mom N) (w : num N) (s : state_n) : out state_n :=
  let '(xold, x) := old_new l4symtry (dtsd dt (g_dx G)) (gridx G a) (ux m * gi m) in
  let '(yold, y) := old_new l4symtry (dtsd dt (g_dy G)) (gridy G a) (uy m * gi m) in
  let '(zold, z) := old_new false (dtsd dt (g_dz G)) (gridz G a) (uz m * gi m) in
  do bx <- bounds_n K dt (g_dx G) nox; do by_ <- bounds_n K dt (g_dy G) noy; do bz <- bounds_n K dt (g_dz G) noz;
  do X <- axis_shapes nox (fst bx) (snd bx) x xold;
  do Y <- axis_shapes noy (fst by_) (snd by_) y yold;
  do Z' <- axis_shapes noz (fst bz) (snd bz) z zold;
  let wq := if l_particles_weight then q * w else q * w1 in
  esk_loops_n (wq * invdt dt (g_dy G) (g_dz G)) (wq * invdt dt (g_dx G) (g_dz G)) (wq * invdt dt (g_dx G) (g_dy G)) X Y Z' s.
(** esirkepov_3d.F90:3480-3836 pxr_depose_jxjyjz_esirkepov_n *)
Definition pxr_depose_jxjyjz_esirkepov_n (K : Consts N) (np : Z) (xs : list (pos3 N)) (ms : list (mom N)) (ws : list (num N))
  (q : num N) (G : Geom N) (dt : num N) (nox noy noz : Z) (l_particles_weight l4symtry : bool) (J : field (num N)) : out (field (num N)) :=
  do s <- esk_all np (fun a m w s => do w1 <- get1 ws 1; esk_particle_n K nox noy noz l_particles_weight l4symtry G dt q w1 a m w s)
            xs ms ws (J, mkSums (fun _ => zero) (fun _ => zero) (fun _ => zero)); Ret (fst s).
End Esirkepov.
