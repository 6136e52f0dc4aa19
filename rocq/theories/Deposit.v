(** Model of the charge deposition: src/particle_deposition/charge_deposition/
    charge_deposition_3d.F90 and charge_deposition_2d.F90.
    Simplifications: the dummy arrays xp(np), yp(np), zp(np) are one list of records (as in
    Pushers.v); x**2 is x*x; the lists of updates below are executed in the order of the
    source. *)
From Coq Require Import ZArith List Bool.
From Verif Require Import Cxx Num Fortran Grid Pushers.
Import ListNotations.
Local Open Scope Z_scope.

Section Intrinsics.
Context {N : FNum}.
Local Open Scope num_scope.
(** The intrinsics NINT (to the nearest integer, halves away from zero) and INT (towards
    zero) with the default integer kind (32 bit).  This models the language. *)
Definition nearest_pos (x : num N) : out Z :=
  match f_floor x with
  | Some f => Ret (if x - n_of_Z f <? n_lit 5 (-1) then f else (f + 1)%Z)
  | None => UB
  end.
Definition int32 (z : Z) : out Z := if ((- 2 ^ 31 <=? z) && (z <? 2 ^ 31))%Z then Ret z else UB.
Definition nint32 (x : num N) : out Z :=
  if x <? n_of_Z 0 then do z <- nearest_pos (- x); int32 (- z)%Z else do z <- nearest_pos x; int32 z.
Definition trunc32 (x : num N) : out Z :=
  if x <? n_of_Z 0 then do z <- floor32 (- x); Ret (- z)%Z else floor32 x.
End Intrinsics.

Section Deposit.
Context {N : FNum}.
Local Open Scope num_scope.
Notation one := (n_lit 1 0).
Notation half := (n_lit 5 (-1)).

(** charge_deposition_3d.F90:90 onesixth, twothird *)
Definition onesixth : num N := n_lit 1 0 / n_lit 6 0.
Definition twothird : num N := n_lit 2 0 / n_lit 3 0.

(** charge_deposition_3d.F90:2155-2174 (x), 2176-2195 (y), 2197-2216 (z), and the same formulas in 118-123,
    214-225, 364-384: sx( 0), sx( 1), ... of order n, as a function of the index, for the distance xint between
    particle and node *)
Definition shape (n : Z) (xint : num N) (m : Z) : num N :=
  match n with
  | 0%Z => one
  | 1%Z => if (m =? 0)%Z then one - xint else xint
  | 2%Z => let xintsq := xint * xint in
           if (m =? -1)%Z then half * sq (half - xint)
           else if (m =? 0)%Z then n_lit 75 (-2) - xintsq
           else half * sq (half + xint)
  | _ => let oxint := one - xint in
         let xintsq := xint * xint in
         let oxintsq := oxint * oxint in
         if (m =? -1)%Z then onesixth * oxintsq * oxint
         else if (m =? 0)%Z then twothird - xintsq * (one - xint / n_lit 2 0)
         else if (m =? 1)%Z then twothird - oxintsq * (one - oxint / n_lit 2 0)
         else onesixth * xintsq * xint
  end.

(** charge_deposition_3d.F90:2104-2109: ixmin, ixmax; the bounds of sx (2094-2095) are the same *)
Definition smin (n : Z) : Z := (- (n ÷ 2))%Z.
Definition smax (n : Z) : Z := ((n + 1) ÷ 2)%Z.

(** charge_deposition_3d.F90:2126-2140: the node of a particle *)
Definition node (n : Z) (x : num N) : out Z := if (n =? 2 * (n ÷ 2))%Z then nint32 x else floor32 x.

(** rho(p) = rho(p) + v *)
Definition add (p : idx) (v : num N) : stmt (num N) := (p, fun e => Ret (e + v)).

(** xmin, ymin, zmin, dx, dy, dz *)
Record Geom := { g_xmin : num N; g_ymin : num N; g_zmin : num N; g_dx : num N; g_dy : num N; g_dz : num N }.
(** charge_deposition_3d.F90:93-96 (and 190-193, 341-344, 2099-2102): invvol *)
Definition invvol (G : Geom) : num N := one / g_dx G * (one / g_dy G) * (one / g_dz G).
(** charge_deposition_3d.F90:104-106 (and 200-202, 350-352, 2114-2116): position in grid units *)
Definition gridx (G : Geom) (a : pos3 N) : num N := (xp a - g_xmin G) * (one / g_dx G).
Definition gridy (G : Geom) (a : pos3 N) : num N := (yp a - g_ymin G) * (one / g_dy G).
Definition gridz (G : Geom) (a : pos3 N) : num N := (zp a - g_zmin G) * (one / g_dz G).

(** charge_deposition_3d.F90:103-140: the updates of rho made for one particle of weight w *)
Definition rho_1_1_1 (G : Geom) (q : num N) (a : pos3 N) (w : num N) : out (list (stmt (num N))) :=
  let x := gridx G a in let y := gridy G a in let z := gridz G a in
  do j <- floor32 x; do k <- floor32 y; do l <- floor32 z;
  let sx := shape 1 (x - n_of_Z j) in let sy := shape 1 (y - n_of_Z k) in let sz := shape 1 (z - n_of_Z l) in
  let wq := q * w * invvol G in
  let add (p : Z * Z * Z) v := add p v in
  Ret ([add (j, k, l) (sx 0%Z * sy 0%Z * sz 0%Z * wq)%N;
    add (j + 1, k, l) (sx 1%Z * sy 0%Z * sz 0%Z * wq)%N;
    add (j, k + 1, l) (sx 0%Z * sy 1%Z * sz 0%Z * wq)%N;
    add (j + 1, k + 1, l) (sx 1%Z * sy 1%Z * sz 0%Z * wq)%N;
    add (j, k, l + 1) (sx 0%Z * sy 0%Z * sz 1%Z * wq)%N;
    add (j + 1, k, l + 1) (sx 1%Z * sy 0%Z * sz 1%Z * wq)%N;
    add (j, k + 1, l + 1) (sx 0%Z * sy 1%Z * sz 1%Z * wq)%N;
    add (j + 1, k + 1, l + 1) (sx 1%Z * sy 1%Z * sz 1%Z * wq)%N])%Z.

(** charge_deposition_3d.F90:199-290: the same for order 2 *)
Definition rho_2_2_2 (G : Geom) (q : num N) (a : pos3 N) (w : num N) : out (list (stmt (num N))) :=
  let x := gridx G a in let y := gridy G a in let z := gridz G a in
  do j <- nint32 x; do k <- nint32 y; do l <- nint32 z;
  let xint := x - n_of_Z j in let yint := y - n_of_Z k in let zint := z - n_of_Z l in
  let wq := q * w * invvol G in
  let sx := shape 2 xint in let sy := shape 2 yint in
  let sz (m : Z) := shape 2 zint m * wq in
  let sx1 := sx (-1)%Z * sy (-1)%Z in let sx2 := sx 0%Z * sy (-1)%Z in let sx3 := sx 1%Z * sy (-1)%Z in
  let sx4 := sx (-1)%Z * sy 0%Z in let sx5 := sx 0%Z * sy 0%Z in let sx6 := sx 1%Z * sy 0%Z in
  let sx7 := sx (-1)%Z * sy 1%Z in let sx8 := sx 0%Z * sy 1%Z in let sx9 := sx 1%Z * sy 1%Z in
  let add (p : Z * Z * Z) v := add p v in
  Ret ([add (j - 1, k - 1, l - 1) (sx1 * sz (-1)%Z)%N;
    add (j, k - 1, l - 1) (sx2 * sz (-1)%Z)%N;
    add (j + 1, k - 1, l - 1) (sx3 * sz (-1)%Z)%N;
    add (j - 1, k, l - 1) (sx4 * sz (-1)%Z)%N;
    add (j, k, l - 1) (sx5 * sz (-1)%Z)%N;
    add (j + 1, k, l - 1) (sx6 * sz (-1)%Z)%N;
    add (j - 1, k + 1, l - 1) (sx7 * sz (-1)%Z)%N;
    add (j, k + 1, l - 1) (sx8 * sz (-1)%Z)%N;
    add (j + 1, k + 1, l - 1) (sx9 * sz (-1)%Z)%N;
    add (j - 1, k - 1, l) (sx1 * sz 0%Z)%N;
    add (j, k - 1, l) (sx2 * sz 0%Z)%N;
    add (j + 1, k - 1, l) (sx3 * sz 0%Z)%N;
    add (j - 1, k, l) (sx4 * sz 0%Z)%N;
    add (j, k, l) (sx5 * sz 0%Z)%N;
    add (j + 1, k, l) (sx6 * sz 0%Z)%N;
    add (j - 1, k + 1, l) (sx7 * sz 0%Z)%N;
    add (j, k + 1, l) (sx8 * sz 0%Z)%N;
    add (j + 1, k + 1, l) (sx9 * sz 0%Z)%N;
    add (j - 1, k - 1, l + 1) (sx1 * sz 1%Z)%N;
    add (j, k - 1, l + 1) (sx2 * sz 1%Z)%N;
    add (j + 1, k - 1, l + 1) (sx3 * sz 1%Z)%N;
    add (j - 1, k, l + 1) (sx4 * sz 1%Z)%N;
    add (j, k, l + 1) (sx5 * sz 1%Z)%N;
    add (j + 1, k, l + 1) (sx6 * sz 1%Z)%N;
    add (j - 1, k + 1, l + 1) (sx7 * sz 1%Z)%N;
    add (j, k + 1, l + 1) (sx8 * sz 1%Z)%N;
    add (j + 1, k + 1, l + 1) (sx9 * sz 1%Z)%N])%Z.

(** charge_deposition_3d.F90:349-515: the same for order 3 *)
Definition rho_3_3_3 (G : Geom) (q : num N) (a : pos3 N) (w : num N) : out (list (stmt (num N))) :=
  let x := gridx G a in let y := gridy G a in let z := gridz G a in
  do j <- floor32 x; do k <- floor32 y; do l <- floor32 z;
  let sx := shape 3 (x - n_of_Z j) in let sy := shape 3 (y - n_of_Z k) in let sz := shape 3 (z - n_of_Z l) in
  let wq := q * w * invvol G in
  let add (p : Z * Z * Z) v := add p v in
  Ret ([add (j - 1, k - 1, l - 1) (sx (-1)%Z * sy (-1)%Z * sz (-1)%Z * wq)%N;
    add (j, k - 1, l - 1) (sx 0%Z * sy (-1)%Z * sz (-1)%Z * wq)%N;
    add (j + 1, k - 1, l - 1) (sx 1%Z * sy (-1)%Z * sz (-1)%Z * wq)%N;
    add (j + 2, k - 1, l - 1) (sx 2%Z * sy (-1)%Z * sz (-1)%Z * wq)%N;
    add (j - 1, k, l - 1) (sx (-1)%Z * sy 0%Z * sz (-1)%Z * wq)%N;
    add (j, k, l - 1) (sx 0%Z * sy 0%Z * sz (-1)%Z * wq)%N;
    add (j + 1, k, l - 1) (sx 1%Z * sy 0%Z * sz (-1)%Z * wq)%N;
    add (j + 2, k, l - 1) (sx 2%Z * sy 0%Z * sz (-1)%Z * wq)%N;
    add (j - 1, k + 1, l - 1) (sx (-1)%Z * sy 1%Z * sz (-1)%Z * wq)%N;
    add (j, k + 1, l - 1) (sx 0%Z * sy 1%Z * sz (-1)%Z * wq)%N;
    add (j + 1, k + 1, l - 1) (sx 1%Z * sy 1%Z * sz (-1)%Z * wq)%N;
    add (j + 2, k + 1, l - 1) (sx 2%Z * sy 1%Z * sz (-1)%Z * wq)%N;
    add (j - 1, k + 2, l - 1) (sx (-1)%Z * sy 2%Z * sz (-1)%Z * wq)%N;
    add (j, k + 2, l - 1) (sx 0%Z * sy 2%Z * sz (-1)%Z * wq)%N;
    add (j + 1, k + 2, l - 1) (sx 1%Z * sy 2%Z * sz (-1)%Z * wq)%N;
    add (j + 2, k + 2, l - 1) (sx 2%Z * sy 2%Z * sz (-1)%Z * wq)%N;
    add (j - 1, k - 1, l) (sx (-1)%Z * sy (-1)%Z * sz 0%Z * wq)%N;
    add (j, k - 1, l) (sx 0%Z * sy (-1)%Z * sz 0%Z * wq)%N;
    add (j + 1, k - 1, l) (sx 1%Z * sy (-1)%Z * sz 0%Z * wq)%N;
    add (j + 2, k - 1, l) (sx 2%Z * sy (-1)%Z * sz 0%Z * wq)%N;
    add (j - 1, k, l) (sx (-1)%Z * sy 0%Z * sz 0%Z * wq)%N;
    add (j, k, l) (sx 0%Z * sy 0%Z * sz 0%Z * wq)%N;
    add (j + 1, k, l) (sx 1%Z * sy 0%Z * sz 0%Z * wq)%N;
    add (j + 2, k, l) (sx 2%Z * sy 0%Z * sz 0%Z * wq)%N;
    add (j - 1, k + 1, l) (sx (-1)%Z * sy 1%Z * sz 0%Z * wq)%N;
    add (j, k + 1, l) (sx 0%Z * sy 1%Z * sz 0%Z * wq)%N;
    add (j + 1, k + 1, l) (sx 1%Z * sy 1%Z * sz 0%Z * wq)%N;
    add (j + 2, k + 1, l) (sx 2%Z * sy 1%Z * sz 0%Z * wq)%N;
    add (j - 1, k + 2, l) (sx (-1)%Z * sy 2%Z * sz 0%Z * wq)%N;
    add (j, k + 2, l) (sx 0%Z * sy 2%Z * sz 0%Z * wq)%N;
    add (j + 1, k + 2, l) (sx 1%Z * sy 2%Z * sz 0%Z * wq)%N;
    add (j + 2, k + 2, l) (sx 2%Z * sy 2%Z * sz 0%Z * wq)%N;
    add (j - 1, k - 1, l + 1) (sx (-1)%Z * sy (-1)%Z * sz 1%Z * wq)%N;
    add (j, k - 1, l + 1) (sx 0%Z * sy (-1)%Z * sz 1%Z * wq)%N;
    add (j + 1, k - 1, l + 1) (sx 1%Z * sy (-1)%Z * sz 1%Z * wq)%N;
    add (j + 2, k - 1, l + 1) (sx 2%Z * sy (-1)%Z * sz 1%Z * wq)%N;
    add (j - 1, k, l + 1) (sx (-1)%Z * sy 0%Z * sz 1%Z * wq)%N;
    add (j, k, l + 1) (sx 0%Z * sy 0%Z * sz 1%Z * wq)%N;
    add (j + 1, k, l + 1) (sx 1%Z * sy 0%Z * sz 1%Z * wq)%N;
    add (j + 2, k, l + 1) (sx 2%Z * sy 0%Z * sz 1%Z * wq)%N;
    add (j - 1, k + 1, l + 1) (sx (-1)%Z * sy 1%Z * sz 1%Z * wq)%N;
    add (j, k + 1, l + 1) (sx 0%Z * sy 1%Z * sz 1%Z * wq)%N;
    add (j + 1, k + 1, l + 1) (sx 1%Z * sy 1%Z * sz 1%Z * wq)%N;
    add (j + 2, k + 1, l + 1) (sx 2%Z * sy 1%Z * sz 1%Z * wq)%N;
    add (j - 1, k + 2, l + 1) (sx (-1)%Z * sy 2%Z * sz 1%Z * wq)%N;
    add (j, k + 2, l + 1) (sx 0%Z * sy 2%Z * sz 1%Z * wq)%N;
    add (j + 1, k + 2, l + 1) (sx 1%Z * sy 2%Z * sz 1%Z * wq)%N;
    add (j + 2, k + 2, l + 1) (sx 2%Z * sy 2%Z * sz 1%Z * wq)%N;
    add (j - 1, k - 1, l + 2) (sx (-1)%Z * sy (-1)%Z * sz 2%Z * wq)%N;
    add (j, k - 1, l + 2) (sx 0%Z * sy (-1)%Z * sz 2%Z * wq)%N;
    add (j + 1, k - 1, l + 2) (sx 1%Z * sy (-1)%Z * sz 2%Z * wq)%N;
    add (j + 2, k - 1, l + 2) (sx 2%Z * sy (-1)%Z * sz 2%Z * wq)%N;
    add (j - 1, k, l + 2) (sx (-1)%Z * sy 0%Z * sz 2%Z * wq)%N;
    add (j, k, l + 2) (sx 0%Z * sy 0%Z * sz 2%Z * wq)%N;
    add (j + 1, k, l + 2) (sx 1%Z * sy 0%Z * sz 2%Z * wq)%N;
    add (j + 2, k, l + 2) (sx 2%Z * sy 0%Z * sz 2%Z * wq)%N;
    add (j - 1, k + 1, l + 2) (sx (-1)%Z * sy 1%Z * sz 2%Z * wq)%N;
    add (j, k + 1, l + 2) (sx 0%Z * sy 1%Z * sz 2%Z * wq)%N;
    add (j + 1, k + 1, l + 2) (sx 1%Z * sy 1%Z * sz 2%Z * wq)%N;
    add (j + 2, k + 1, l + 2) (sx 2%Z * sy 1%Z * sz 2%Z * wq)%N;
    add (j - 1, k + 2, l + 2) (sx (-1)%Z * sy 2%Z * sz 2%Z * wq)%N;
    add (j, k + 2, l + 2) (sx 0%Z * sy 2%Z * sz 2%Z * wq)%N;
    add (j + 1, k + 2, l + 2) (sx 1%Z * sy 2%Z * sz 2%Z * wq)%N;
    add (j + 2, k + 2, l + 2) (sx 2%Z * sy 2%Z * sz 2%Z * wq)%N])%Z.

(** charge_deposition_3d.F90:2112-2225: the updates of pxr_depose_rho_n for one particle, of
    weight w, where w1 is w(1).  For an order other than 0, 1, 2, 3 the shape factors are read
    although nothing was assigned to them. *)
Definition rho_n (nox noy noz : Z) (l_particles_weight l4symtry : bool) (G : Geom) (q w1 : num N)
  (a : pos3 N) (w : num N) : out (list (stmt (num N))) :=
  let x := gridx G a in let y := gridy G a in let z := gridz G a in
  let x := if l4symtry then n_fabs x else x in
  let y := if l4symtry then n_fabs y else y in
  do j <- node nox x; do k <- node noy y; do l <- node noz z;
  let xint := x - n_of_Z j in let yint := y - n_of_Z k in let zint := z - n_of_Z l in
  let wq := if l_particles_weight then q * w * invvol G else q * invvol G * w1 in
  let known n := ((0 <=? n) && (n <=? 3))%Z in
  if known nox && known noy && known noz then
    Ret (map (fun p => let '(jj, kk, ll) := p in
                add (j + jj, k + kk, l + ll)%Z (shape nox xint jj * shape noy yint kk * shape noz zint ll * wq))
             (box (smin nox, smin noy, smin noz) (smax nox, smax noy, smax noz)))
  else UB.

(** [DO ip=1, np]: the updates of particle ip are made after those of the particles before *)
Definition depose (np : Z) (f : pos3 N -> num N -> out (list (stmt (num N))))
  (xs : list (pos3 N)) (ws : list (num N)) (rho : grid (num N)) : out (grid (num N)) :=
  do_range 1 np (fun ip r => do a <- get1 xs ip; do w <- get1 ws ip; do ss <- f a w; exec ss r) rho.

(** charge_deposition_3d.F90:77-145 depose_rho_scalar_1_1_1 *)
Definition depose_rho_scalar_1_1_1 (np : Z) (xs : list (pos3 N)) (ws : list (num N)) (q : num N) (G : Geom) :=
  depose np (rho_1_1_1 G q) xs ws.
(** charge_deposition_3d.F90:174-295 depose_rho_scalar_2_2_2 *)
Definition depose_rho_scalar_2_2_2 (np : Z) (xs : list (pos3 N)) (ws : list (num N)) (q : num N) (G : Geom) :=
  depose np (rho_2_2_2 G q) xs ws.
(** charge_deposition_3d.F90:324-520 depose_rho_scalar_3_3_3 *)
Definition depose_rho_scalar_3_3_3 (np : Z) (xs : list (pos3 N)) (ws : list (num N)) (q : num N) (G : Geom) :=
  depose np (rho_3_3_3 G q) xs ws.
(** charge_deposition_3d.F90:2081-2228 pxr_depose_rho_n; w(1) is only read when there is a particle *)
Definition pxr_depose_rho_n (np : Z) (xs : list (pos3 N)) (ws : list (num N)) (q : num N) (G : Geom)
  (nox noy noz : Z) (l_particles_weight l4symtry : bool) :=
  depose np (fun a w => do w1 <- get1 ws 1; rho_n nox noy noz l_particles_weight l4symtry G q w1 a w) xs ws.

(** ** two dimensions *)
(** charge_deposition_2d.F90:62: the constants onesixth=1./6., twothird=2./3. are quotients of
    default (single precision) reals, i.e. 11184811 / 2^26 and 11184811 / 2^24 *)
Definition onesixth_sp : num N := n_of_Z 11184811 / n_of_Z 67108864.
Definition twothird_sp : num N := n_of_Z 11184811 / n_of_Z 16777216.

(** charge_deposition_2d.F90:125-144 (x), 147-166 (z): the shape factors in two dimensions *)
Definition shape_2d (n : Z) (xint : num N) (m : Z) : num N :=
  match n with
  | 0%Z | 1%Z | 2%Z => shape n xint m
  | _ => let oxint := one - xint in
         let xintsq := xint * xint in
         let oxintsq := oxint * oxint in
         if (m =? -1)%Z then onesixth_sp * oxintsq * oxint
         else if (m =? 0)%Z then twothird_sp - xintsq * (one - xint / n_lit 2 0)
         else if (m =? 1)%Z then twothird_sp - oxintsq * (one - oxint / n_lit 2 0)
         else onesixth_sp * xintsq * xint
  end.

(** charge_deposition_2d.F90:81-173: the updates for one particle, with l_2drz false and type_rz_depose other
    than 2 (Cartesian geometry) *)
Definition rho_n_2dxz (nox noz : Z) (l_particles_weight l4symtry : bool) (G : Geom) (q : num N)
  (a : pos3 N) (w : num N) : out (list (stmt (num N))) :=
  let x := gridx G a in let z := gridz G a in
  let x := if l4symtry then n_fabs x else x in
  do j <- node nox x; do l <- node noz z;
  let xint := x - n_of_Z j in let zint := z - n_of_Z l in
  let invvol := one / g_dx G * (one / g_dz G) in
  let wq := if l_particles_weight then q * w * invvol else q * invvol in
  let known n := ((0 <=? n) && (n <=? 3))%Z in
  if known nox && known noz then
    Ret (map (fun p => let '(jj, _, ll) := p in
                add (j + jj, 0, l + ll)%Z (shape_2d nox xint jj * shape_2d noz zint ll * wq))
             (box (smin nox, 0, smin noz) (smax nox, 0, smax noz))%Z)
  else UB.

(** charge_deposition_2d.F90:48-178 pxr_depose_rho_n_2dxz, in Cartesian geometry *)
Definition pxr_depose_rho_n_2dxz (np : Z) (xs : list (pos3 N)) (ws : list (num N)) (q : num N) (G : Geom)
  (nox noz : Z) (l_particles_weight l4symtry : bool) :=
  depose np (rho_n_2dxz nox noz l_particles_weight l4symtry G q) xs ws.
End Deposit.

Arguments Geom : clear implicits.
