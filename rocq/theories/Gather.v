(** Model of the gathering of the fields at the particles in three dimensions:
    src/field_gathering/energy_conserving/field_gathering_on_3d.F90, field_gathering_o1_3d.F90,
    field_gathering_o2_3d.F90, field_gathering_o3_3d.F90 and
    src/field_gathering/field_gathering_manager_3d.F90.
    Simplifications: the dummy arrays xp(np), yp(np), zp(np), and ex(np), ..., bz(np), are one list of
    records each (as in Pushers.v); an array exg with its arguments exg_nguard, exg_nvalid is a grid with its
    declared bounds; x**2 is x*x; the INTEGER(isp) counters of the blocked loops do not overflow; the lanes
    of a SIMD loop are executed one after the other; the algorithms compiled only with the macro DEV are left out. *)
From Coq Require Import ZArith List Bool.
From Verif Require Import Cxx Num Fortran Grid Pushers Deposit.
Import ListNotations.
Local Open Scope Z_scope.

(** a loop over the elements of a list; this models the language *)
Fixpoint each {A S} (f : A -> S -> out S) (l : list A) (s : S) : out S :=
  match l with [] => Ret s | a :: l' => do s' <- f a s; each f l' s' end.

Section Gather.
Context {N : FNum}.
Local Open Scope num_scope.
Notation one := (n_lit 1 0).
Notation half := (n_lit 5 (-1)).

(** field_gathering_on_3d.F90:90-94 (and 1074-1078): stagger_shift *)
Definition stagger_shift (l_nodal : bool) : num N := if l_nodal then n_of_Z 0 else half.

(** field_gathering_o3_3d.F90:169-181: the shape factors of order 3 with xint*0.5; the others as in Deposit.v *)
Definition shape_half (n : Z) (xint : num N) (m : Z) : num N :=
  match n with
  | 0%Z | 1%Z | 2%Z => shape n xint m
  | _ => let oxint := one - xint in
         let xintsq := xint * xint in
         let oxintsq := oxint * oxint in
         if (m =? -1)%Z then onesixth * oxintsq * oxint
         else if (m =? 0)%Z then twothird - xintsq * (one - xint * half)
         else if (m =? 1)%Z then twothird - oxintsq * (one - oxint * half)
         else onesixth * xintsq * xint
  end.

(** What the code has along one axis for one component: the node j (or j0), the index range of the shape factors and
    the shape factors sx(m) (or sx0(m)). *)
Record axw := AxW { ax_node : Z; ax_lo : Z; ax_hi : Z; ax_w : Z -> out (num N) }.

(** the shape factors of a known order; those of other orders are never assigned: zero if the array has been set to
    zero before, undefined otherwise *)
Definition factor (zeroed : bool) (nox : Z) (w : num N) : out (num N) :=
  if ((1 <=? nox) && (nox <=? 3))%Z then Ret w else if zeroed then Ret (n_of_Z 0) else UB.

(** field_gathering_on_3d.F90:1087-1088, 1134-1138 (or 1155-1159), 1179, 1183-1199: j, ixmin, ixmax+1, sx, from x *)
Definition plain (sh : Z -> num N -> Z -> num N) (zeroed : bool) (nox : Z) (x : num N) : out axw :=
  do j <- node nox x;
  Ret (AxW j (smin nox) (smax nox) (fun m => factor zeroed nox (sh nox (x - n_of_Z j) m))).

(** field_gathering_on_3d.F90:1094-1108, 1132-1176: j0, for l_lower_order_in_v true and false *)
Definition node0 (nox : Z) (l_lower_order_in_v : bool) (shift x : num N) : out Z :=
  if l_lower_order_in_v
  then if (nox =? 2 * (nox ÷ 2))%Z then floor32 (x - shift) else floor32 (x + half - shift)
  else if (nox =? 2 * (nox ÷ 2))%Z then floor32 (x + half - shift) else floor32 (x - shift).
(** field_gathering_on_3d.F90:1095-1096 (or 1102-1103), 1235, 1241-1251 (or 1277-1293): ixmin0, ixmax0, sx0 *)
Definition stag (sh : Z -> num N -> Z -> num N) (zeroed : bool) (nox : Z) (l_lower_order_in_v : bool) (shift x : num N) : out axw :=
  do j0 <- node0 nox l_lower_order_in_v shift x;
  let m0 := (if l_lower_order_in_v then nox - 1 else nox)%Z in
  Ret (AxW j0 (smin m0) (smax m0) (fun m => factor zeroed nox (sh m0 (x - shift - n_of_Z j0) m))).

(** field_gathering_on_3d.F90:1332-1338 (and the loops after): e(ip) = e(ip) + sx*sy*sz*eg(...)*sign *)
Definition gather (sign : num N -> num N) (X Y Z : axw) (g : grid (num N)) (e : num N) : out (num N) :=
  each (fun p e => let '(jj, kk, ll) := p in
          do sx <- ax_w X jj; do sy <- ax_w Y kk; do sz <- ax_w Z ll;
          do v <- get3 g (ax_node X + jj, ax_node Y + kk, ax_node Z + ll)%Z;
          Ret (e + sign (sx * sy * sz * v)))
       (box (ax_lo X, ax_lo Y, ax_lo Z) (ax_hi X, ax_hi Y, ax_hi Z)) e.

(** f(lo) + f(lo+1) + ... + f(hi), from left to right *)
Definition plus_terms (lo hi : Z) (f : Z -> out (num N)) : out (num N) :=
  do t <- f lo; each (fun i a => do t <- f i; Ret (a + t)) (zrange (lo + 1) hi) t.
(** field_gathering_o2_3d.F90:2886-2898 (and so on up to 3191): the unrolled sums of the vectorised routines:
    a = (sx(-1)*exg(...) + ...)*sy(-1); a = a + (...)*sy(0); ...; e(nn) = e(nn) + a*sz(-1); ... *)
Definition nested (X Y Z : axw) (g : grid (num N)) (e : num N) : out (num N) :=
  each (fun ll e =>
          do a <- plus_terms (ax_lo Y) (ax_hi Y) (fun kk =>
            do b <- plus_terms (ax_lo X) (ax_hi X) (fun jj =>
              do sx <- ax_w X jj; do v <- get3 g (ax_node X + jj, ax_node Y + kk, ax_node Z + ll)%Z; Ret (sx * v));
            do sy <- ax_w Y kk; Ret (b * sy));
          do sz <- ax_w Z ll; Ret (e + a * sz))
       (zrange (ax_lo Z) (ax_hi Z)) e.

(** plain and staggered axes of a particle at (x, y, z), in grid units *)
Record axes := Axes { pX : axw; pY : axw; pZ : axw; sX : axw; sY : axw; sZ : axw }.
Definition axes_of (sh : Z -> num N -> Z -> num N) (zeroed : bool) (nox noy noz : Z) (l_lower_order_in_v l_nodal : bool)
  (x y z : num N) : out axes :=
  let s := stagger_shift l_nodal in
  do X <- plain sh zeroed nox x; do Y <- plain sh zeroed noy y; do Z <- plain sh zeroed noz z;
  do X0 <- stag sh zeroed nox l_lower_order_in_v s x; do Y0 <- stag sh zeroed noy l_lower_order_in_v s y;
  do Z0 <- stag sh zeroed noz l_lower_order_in_v s z; Ret (Axes X Y Z X0 Y0 Z0).

Definition same (v : num N) : num N := v.
(** field_gathering_on_3d.F90:1332-1356 *)
Definition gete (signx signy : num N -> num N) (A : axes) (E : field (num N)) (f : fld N) : out (fld N) :=
  do a <- gather signx (sX A) (pY A) (pZ A) (fx E) (ex f);
  do b <- gather signy (pX A) (sY A) (pZ A) (fy E) (ey f);
  do c <- gather same (pX A) (pY A) (sZ A) (fz E) (ez f); Ret (Fld a b c (bx f) (by_ f) (bz f)).
(** field_gathering_on_3d.F90:654-676 *)
Definition getb (signx signy : num N -> num N) (A : axes) (B : field (num N)) (f : fld N) : out (fld N) :=
  do a <- gather signx (pX A) (sY A) (sZ A) (fx B) (bx f);
  do b <- gather signy (sX A) (pY A) (sZ A) (fy B) (by_ f);
  do c <- gather same (sX A) (sY A) (pZ A) (fz B) (bz f); Ret (Fld (ex f) (ey f) (ez f) a b c).
(** the same in the vectorised routines of order 2 and 3, and of order 1 with l_lower_order_in_v false *)
Definition geteb_nested (A : axes) (E B : field (num N)) (f : fld N) : out (fld N) :=
  do a <- nested (sX A) (pY A) (pZ A) (fx E) (ex f);
  do b <- nested (pX A) (sY A) (pZ A) (fy E) (ey f);
  do c <- nested (pX A) (pY A) (sZ A) (fz E) (ez f);
  do d <- nested (pX A) (sY A) (sZ A) (fx B) (bx f);
  do e <- nested (sX A) (pY A) (sZ A) (fy B) (by_ f);
  do g <- nested (sX A) (sY A) (pZ A) (fz B) (bz f); Ret (Fld a b c d e g).

(** the body of [DO ip=1, np]: reads the position and updates the fields of particle ip *)
Definition at_particle (body : pos3 N -> fld N -> out (fld N)) (xs : list (pos3 N)) (ip : Z) (fs : list (fld N)) : out (list (fld N)) :=
  do a <- get1 xs ip; do f <- get1 fs ip; do f' <- body a f; set1 fs ip f'.
Definition over_particles (np : Z) (body : pos3 N -> fld N -> out (fld N)) (xs : list (pos3 N)) (fs : list (fld N)) : out (list (fld N)) :=
  do_range 1 np (at_particle body xs) fs.
(** field_gathering_o1_3d.F90:2040-2064: [DO ip=1, np, lvect] and [DO nn=ip, MIN(ip+lvect-1, np)]; a step of zero is not allowed *)
Definition over_blocks (np lvect : Z) (body : pos3 N -> fld N -> out (fld N)) (xs : list (pos3 N)) (fs : list (fld N)) : out (list (fld N)) :=
  if (lvect =? 0)%Z then UB
  else do_step (Z.to_nat ((np - 1 + lvect) ÷ lvect)) 1 lvect
         (fun ip fs => do_range ip (Z.min (ip + lvect - 1) np) (at_particle body xs) fs) fs.

(** field_gathering_on_3d.F90:55-364 pxrgete3d_n_energy_conserving; sx, ... are not initialised *)
Definition pxrgete3d_n (np : Z) (xs : list (pos3 N)) (fs : list (fld N)) (G : Geom N) (nox noy noz : Z) (E : field (num N))
  (l_lower_order_in_v l_nodal : bool) : out (list (fld N)) :=
  over_particles np (fun a f => do A <- axes_of shape_half false nox noy noz l_lower_order_in_v l_nodal (gridx G a) (gridy G a) (gridz G a);
    gete (fun v => v * one) (fun v => v * one) A E f) xs fs.
(** field_gathering_on_3d.F90:371-681 pxrgetb3d_n_energy_conserving; sx, ... are set to zero (lines 441-446) *)
Definition pxrgetb3d_n (np : Z) (xs : list (pos3 N)) (fs : list (fld N)) (G : Geom N) (nox noy noz : Z) (B : field (num N))
  (l_lower_order_in_v l_nodal : bool) : out (list (fld N)) :=
  over_particles np (fun a f => do A <- axes_of shape_half true nox noy noz l_lower_order_in_v l_nodal (gridx G a) (gridy G a) (gridz G a);
    getb (fun v => v * one) (fun v => v * one) A B f) xs fs.

(** field_gathering_on_3d.F90:1118-1131: x and signx with l4symtry *)
Definition mirror (l4symtry : bool) (x : num N) : num N * num N :=
  if l4symtry then if x <? n_of_Z 0 then (- x, - one) else (x, one) else (x, one).
(** field_gathering_on_3d.F90:1042-1365 pxr_gete3d_n_energy_conserving; onesixth, twothird are single precision constants (1070); sx, ...
    are not initialised *)
Definition pxr_gete3d_n (np : Z) (xs : list (pos3 N)) (fs : list (fld N)) (G : Geom N) (nox noy noz : Z) (E : field (num N))
  (l4symtry l_lower_order_in_v l_nodal : bool) : out (list (fld N)) :=
  over_particles np (fun a f =>
    let '(x, signx) := mirror l4symtry (gridx G a) in let '(y, signy) := mirror l4symtry (gridy G a) in
    do A <- axes_of shape_2d false nox noy noz l_lower_order_in_v l_nodal x y (gridz G a);
    gete (fun v => v * signx) (fun v => v * signy) A E f) xs fs.
(** field_gathering_on_3d.F90:697-1026 pxr_getb3d_n_energy_conserving; sx, ... are set to zero (766-771) *)
Definition pxr_getb3d_n (np : Z) (xs : list (pos3 N)) (fs : list (fld N)) (G : Geom N) (nox noy noz : Z) (B : field (num N))
  (l4symtry l_lower_order_in_v l_nodal : bool) : out (list (fld N)) :=
  over_particles np (fun a f =>
    let '(x, signx) := mirror l4symtry (gridx G a) in let '(y, signy) := mirror l4symtry (gridy G a) in
    do A <- axes_of shape_2d true nox noy noz l_lower_order_in_v l_nodal x y (gridz G a);
    getb (fun v => v * signx) (fun v => v * signy) A B f) xs fs.

(** field_gathering_o1_3d.F90:74-299, field_gathering_o2_3d.F90:70-334, field_gathering_o3_3d.F90:83-375
    gete3d_energy_conserving_scalar_n_n_n for n = 1, 2, 3 *)
Definition gete3d_scalar (n : Z) (np : Z) (xs : list (pos3 N)) (fs : list (fld N)) (G : Geom N) (E : field (num N))
  (l_lower_order_in_v l_nodal : bool) : out (list (fld N)) :=
  over_particles np (fun a f => do A <- axes_of shape_half false n n n l_lower_order_in_v l_nodal (gridx G a) (gridy G a) (gridz G a);
    gete same same A E f) xs fs.
(** field_gathering_o1_3d.F90:328-551, field_gathering_o2_3d.F90:366-625, field_gathering_o3_3d.F90:406-685
    getb3d_energy_conserving_scalar_n_n_n for n = 1, 2, 3 *)
Definition getb3d_scalar (n : Z) (np : Z) (xs : list (pos3 N)) (fs : list (fld N)) (G : Geom N) (B : field (num N))
  (l_lower_order_in_v l_nodal : bool) : out (list (fld N)) :=
  over_particles np (fun a f => do A <- axes_of shape_half false n n n l_lower_order_in_v l_nodal (gridx G a) (gridy G a) (gridz G a);
    getb same same A B f) xs fs.

(** field_gathering_o1_3d.F90:2067-2123: order 1 with l_lower_order_in_v: one node along the staggered axes *)
Definition geteb_vec_1_lower (l_nodal : bool) (x y z : num N) (E B : field (num N)) (f : fld N) : out (fld N) :=
  let s := stagger_shift l_nodal in
  do j <- floor32 x; do j0 <- floor32 (x + half - s);
  do k <- floor32 y; do k0 <- floor32 (y + half - s);
  do l <- floor32 z; do l0 <- floor32 (z + half - s);
  let xint := x - n_of_Z j in let yint := y - n_of_Z k in let zint := z - n_of_Z l in
  let sx0 := one - xint in let sx1 := xint in let sy0 := one - yint in let sy1 := yint in
  let sz0 := one - zint in let sz1 := zint in
  do e1 <- get3 (fx E) (j0, k, l)%Z; do e2 <- get3 (fx E) (j0, k + 1, l)%Z;
  do e3 <- get3 (fx E) (j0, k, l + 1)%Z; do e4 <- get3 (fx E) (j0, k + 1, l + 1)%Z;
  let rx := ex f + ((sy0 * e1 + sy1 * e2) * sz0 + (sy0 * e3 + sy1 * e4) * sz1) in
  do e1 <- get3 (fy E) (j, k0, l)%Z; do e2 <- get3 (fy E) (j + 1, k0, l)%Z;
  do e3 <- get3 (fy E) (j, k0, l + 1)%Z; do e4 <- get3 (fy E) (j + 1, k0, l + 1)%Z;
  let ry := ey f + ((sx0 * e1 + sx1 * e2) * sz0 + (sx0 * e3 + sx1 * e4) * sz1) in
  do e1 <- get3 (fz E) (j, k, l0)%Z; do e2 <- get3 (fz E) (j + 1, k, l0)%Z;
  do e3 <- get3 (fz E) (j, k + 1, l0)%Z; do e4 <- get3 (fz E) (j + 1, k + 1, l0)%Z;
  let rz := ez f + ((sx0 * e1 + sx1 * e2) * sy0 + (sx0 * e3 + sx1 * e4) * sy1) in
  do b1 <- get3 (fx B) (j, k0, l0)%Z; do b2 <- get3 (fx B) (j + 1, k0, l0)%Z;
  let qx := bx f + (sx0 * b1 + sx1 * b2) in
  do b1 <- get3 (fy B) (j0, k, l0)%Z; do b2 <- get3 (fy B) (j0, k + 1, l0)%Z;
  let qy := by_ f + (sy0 * b1 + sy1 * b2) in
  do b1 <- get3 (fz B) (j0, k0, l)%Z; do b2 <- get3 (fz B) (j0, k0, l + 1)%Z;
  let qz := bz f + (sz0 * b1 + sz1 * b2) in
  Ret (Fld rx ry rz qx qy qz).

(** field_gathering_o1_3d.F90:1967-2250 geteb3d_energy_conserving_vecV4_1_1_1 *)
Definition geteb3d_vecV4_1_1_1 (np : Z) (xs : list (pos3 N)) (fs : list (fld N)) (G : Geom N) (E B : field (num N))
  (lvect : Z) (l_lower_order_in_v l_nodal : bool) : out (list (fld N)) :=
  over_blocks np lvect (fun a f =>
    if l_lower_order_in_v then geteb_vec_1_lower l_nodal (gridx G a) (gridy G a) (gridz G a) E B f
    else do A <- axes_of shape_half true 1 1 1 false l_nodal (gridx G a) (gridy G a) (gridz G a); geteb_nested A E B f) xs fs.
(** field_gathering_o2_3d.F90:2746-3196 geteb3d_energy_conserving_vecV4_2_2_2 *)
Definition geteb3d_vecV4_2_2_2 (np : Z) (xs : list (pos3 N)) (fs : list (fld N)) (G : Geom N) (E B : field (num N))
  (lvect : Z) (l_lower_order_in_v l_nodal : bool) : out (list (fld N)) :=
  over_blocks np lvect (fun a f =>
    do A <- axes_of shape_half true 2 2 2 l_lower_order_in_v l_nodal (gridx G a) (gridy G a) (gridz G a); geteb_nested A E B f) xs fs.
(** field_gathering_o3_3d.F90:5611-6289 geteb3d_energy_conserving_vecV3_3_3_3 *)
Definition geteb3d_vecV3_3_3_3 (np : Z) (xs : list (pos3 N)) (fs : list (fld N)) (G : Geom N) (E B : field (num N))
  (lvect : Z) (l_lower_order_in_v l_nodal : bool) : out (list (fld N)) :=
  over_blocks np lvect (fun a f =>
    do A <- axes_of shape_half true 3 3 3 l_lower_order_in_v l_nodal (gridx G a) (gridy G a) (gridz G a); geteb_nested A E B f) xs fs.

(** field_gathering_manager_3d.F90:536-545, 581-591, 624-633: the two calls of the routines of arbitrary order *)
Definition geteb3d_any (np : Z) (xs : list (pos3 N)) (fs : list (fld N)) (G : Geom N) (nox noy noz : Z) (E B : field (num N))
  (ll4symtry l_lower_order_in_v l_nodal : bool) : out (list (fld N)) :=
  do fs1 <- pxr_gete3d_n np xs fs G nox noy noz E ll4symtry l_lower_order_in_v l_nodal;
  pxr_getb3d_n np xs fs1 G nox noy noz B ll4symtry l_lower_order_in_v l_nodal.
Definition geteb3d_scalar (n np : Z) (xs : list (pos3 N)) (fs : list (fld N)) (G : Geom N) (E B : field (num N))
  (l_lower_order_in_v l_nodal : bool) : out (list (fld N)) :=
  do fs1 <- gete3d_scalar n np xs fs G E l_lower_order_in_v l_nodal;
  getb3d_scalar n np xs fs1 G B l_lower_order_in_v l_nodal.

(** field_gathering_manager_3d.F90:353-636 geteb3d_energy_conserving_generic, without the algorithms 3 to 7 of the macro DEV
    (which then are the default) *)
Definition geteb3d_energy_conserving_generic (np : Z) (xs : list (pos3 N)) (fs : list (fld N)) (G : Geom N) (nox noy noz : Z)
  (E B : field (num N)) (ll4symtry l_lower_order_in_v l_nodal : bool) (lvect field_gathe_algo : Z) : out (list (fld N)) :=
  let all n := ((nox =? n) && (noy =? n) && (noz =? n))%Z in
  if (np =? 0)%Z then Ret fs
  else if (field_gathe_algo =? 2)%Z then geteb3d_any np xs fs G nox noy noz E B ll4symtry l_lower_order_in_v l_nodal
  else if (field_gathe_algo =? 1)%Z then
    if all 1%Z then geteb3d_scalar 1 np xs fs G E B l_lower_order_in_v l_nodal
    else if all 2%Z then geteb3d_scalar 2 np xs fs G E B l_lower_order_in_v l_nodal
    else if all 3%Z then geteb3d_scalar 3 np xs fs G E B l_lower_order_in_v l_nodal
    else geteb3d_any np xs fs G nox noy noz E B ll4symtry l_lower_order_in_v l_nodal
  else
    if all 1%Z then geteb3d_vecV4_1_1_1 np xs fs G E B lvect l_lower_order_in_v l_nodal
    else if all 2%Z then geteb3d_vecV4_2_2_2 np xs fs G E B lvect l_lower_order_in_v l_nodal
    else if all 3%Z then geteb3d_vecV3_3_3_3 np xs fs G E B lvect l_lower_order_in_v l_nodal
    else geteb3d_any np xs fs G nox noy noz E B ll4symtry l_lower_order_in_v l_nodal.

(** ** the tiles *)
(** [tile = g(lo:hi)], passed to a dummy array with the lower bounds -ng *)
Definition tile_copy (g : grid (num N)) (lo hi ng : idx) : out (grid (num N)) :=
  let '(a1, a2, a3) := lo in let '(b1, b2, b3) := hi in let '(n1, n2, n3) := ng in
  if in_box (glo g) (ghi g) lo && in_box (glo g) (ghi g) hi
  then Ret (Grid (- n1, - n2, - n3)%Z (b1 - a1 - n1, b2 - a2 - n2, b3 - a3 - n3)%Z
              (fun p => let '(j, k, l) := p in gat g (j + n1 + a1, k + n2 + a2, l + n3 + a3)%Z))
  else UB.
(** the members of a tile that the gathering reads: nx_tile_min, ..., nx_tile_max, ..., nxg_tile, ..., x_grid_tile_min, ... and
    part_x, ..., part_ex, ... (1:np_tile(1)) *)
Record gtile := GTile { gt_min : idx; gt_max : idx; gt_guard : idx; gt_xmin : num N; gt_ymin : num N; gt_zmin : num N;
  gt_pos : list (pos3 N); gt_fld : list (fld N) }.
Definition zero_fld : fld N := Fld (n_of_Z 0) (n_of_Z 0) (n_of_Z 0) (n_of_Z 0) (n_of_Z 0) (n_of_Z 0).
Definition copy3 (F : field (num N)) (lo hi ng : idx) : out (field (num N)) :=
  do a <- tile_copy (fx F) lo hi ng; do b <- tile_copy (fy F) lo hi ng; do c <- tile_copy (fz F) lo hi ng; Ret (Field3 a b c).
(** field_gathering_manager_3d.F90:152-247, for one tile and one species, neither antenna nor frozen: the fields of the particles
    are set to zero and gathered from copies of the part of the arrays around the tile.  Simplification: the temporary arrays have
    the size that the tile declares, i.e. nx_cells_tile = nx_tile_max - nx_tile_min *)
Definition gather_tile (T : gtile) (dxx dyy dzz : num N) (noxx noyy nozz : Z) (E B : field (num N))
  (l_lower_order_in_v l_nodalgrid : bool) (lvec algo : Z) : out gtile :=
  let '(a1, a2, a3) := gt_min T in let '(b1, b2, b3) := gt_max T in let '(n1, n2, n3) := gt_guard T in
  let lo := (a1 - n1, a2 - n2, a3 - n3)%Z in let hi := (b1 + n1, b2 + n2, b3 + n3)%Z in
  if (zlen (gt_pos T) =? 0)%Z then Ret T
  else
    do Et <- copy3 E lo hi (gt_guard T); do Bt <- copy3 B lo hi (gt_guard T);
    let G := @Build_Geom N (gt_xmin T) (gt_ymin T) (gt_zmin T) dxx dyy dzz in
    do fs <- geteb3d_energy_conserving_generic (zlen (gt_pos T)) (gt_pos T) (map (fun _ => zero_fld) (gt_fld T)) G
               noxx noyy nozz Et Bt false l_lower_order_in_v l_nodalgrid lvec algo;
    Ret (GTile (gt_min T) (gt_max T) (gt_guard T) (gt_xmin T) (gt_ymin T) (gt_zmin T) (gt_pos T) fs).
End Gather.
Arguments axw : clear implicits. Arguments axes : clear implicits. Arguments gtile : clear implicits.
