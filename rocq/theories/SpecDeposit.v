(** Specification vocabulary for the deposition of charge and current: splines, the density
    of a set of particles, sums over the cells; independent of the model. *)
From Coq Require Import ZArith Reals List Bool Permutation.
From Verif Require Import Cxx Num NumRX Fortran FortranNum Grid Pushers Deposit SpecYee.
Import ListNotations.
Local Open Scope R_scope.

Definition sumR (l : list R) : R := fold_right Rplus 0 l.
(** sum of f over the points of the box lo:hi *)
Definition sum_box (lo hi : idx) (f : idx -> R) : R := sumR (map f (box lo hi)).

(** The part of a particle at x (in grid units) that a deposition of order n gives to node i:
    the centred B-splines of degree n.  For n = 0 all of it goes to the nearest node,
    and from the middle between two nodes to the one further from zero. *)
Definition spline (n : Z) (x : R) (i : Z) : R :=
  let t := Rabs (x - IZR i) in
  match n with
  | 0%Z => if Rlt_dec t (1 / 2) then 1
           else if Req_EM_T t (1 / 2) then (if Rlt_dec (Rabs x) (Rabs (IZR i)) then 1 else 0) else 0
  | 1%Z => Rmax 0 (1 - t)
  | 2%Z => if Rle_dec t (1 / 2) then 3 / 4 - t * t
           else if Rle_dec t (3 / 2) then (3 / 2 - t) * (3 / 2 - t) / 2 else 0
  | 3%Z => if Rle_dec t 1 then 2 / 3 - t * t + t * t * t / 2
           else if Rle_dec t 2 then (2 - t) * (2 - t) * (2 - t) / 6 else 0
  | _ => 0
  end.

(** origin and size of the cells *)
Record cells := { ox : R; oy : R; oz : R; hx : R; hy : R; hz : R }.
Definition proper (g : cells) : Prop := hx g <> 0 /\ hy g <> 0 /\ hz g <> 0.
Definition volume (g : cells) : R := hx g * hy g * hz g.
(** a point in grid units *)
Definition unit_x (g : cells) (x : R) : R := (x - ox g) / hx g.
Definition unit_y (g : cells) (y : R) : R := (y - oy g) / hy g.
Definition unit_z (g : cells) (z : R) : R := (z - oz g) / hz g.

(** a macroparticle: position, momentum per mass, inverse Lorentz factor, weight *)
Record rpart := { rpx : R; rpy : R; rpz : R; rux : R; ruy : R; ruz : R; rgam : R; rw : R }.

(** the orders of interpolation along x, y, z *)
Record orders := { onx : Z; ony : Z; onz : Z }.
Definition known (o : orders) : Prop := (0 <= onx o <= 3 /\ 0 <= ony o <= 3 /\ 0 <= onz o <= 3)%Z.
Definition same_order (n : Z) : orders := {| onx := n; ony := n; onz := n |}.

(** the part of a point (x, y, z) given to node p *)
Definition share (o : orders) (g : cells) (x y z : R) (p : idx) : R :=
  let '(j, k, l) := p in
  spline (onx o) (unit_x g x) j * spline (ony o) (unit_y g y) k * spline (onz o) (unit_z g z) l.
(** charge density at node p of particles of charge q (times their weight) *)
Definition density (o : orders) (g : cells) (q : R) (ps : list rpart) (p : idx) : R :=
  sumR (map (fun a => q * rw a / volume g * share o g (rpx a) (rpy a) (rpz a) p) ps).

(** the nodes that a particle at x (in grid units) can give something to, for order n: those at a distance
    of less than (n + 1) / 2, and, for even n, at this distance *)
Definition touches (n : Z) (x : R) (i : Z) : Prop := Rabs (x - IZR i) <= (IZR n + 1) / 2.

(** where the particle is after moving back for a time dt *)
Definition back (dt x u gam : R) : R := x - dt * (u * gam).

(** a particle at the place where its coordinates along x and y, in grid units, are not
    negative: the mirror image kept by a run with four-fold symmetry *)
Definition mirrored (g : cells) (a : rpart) : rpart :=
  {| rpx := ox g + hx g * Rabs (unit_x g (rpx a)); rpy := oy g + hy g * Rabs (unit_y g (rpy a)); rpz := rpz a;
     rux := rux a; ruy := ruy a; ruz := ruz a; rgam := rgam a; rw := rw a |}.
(** a particle with another weight *)
Definition weighted (w : R) (a : rpart) : rpart :=
  {| rpx := rpx a; rpy := rpy a; rpz := rpz a; rux := rux a; ruy := ruy a; ruz := ruz a; rgam := rgam a; rw := w |}.
(** the particles a deposition takes into account: mirrored if the run is four-fold symmetric; all of the
    weight of the first one if weights are not given per particle *)
Definition seen (own_weights symmetry : bool) (g : cells) (ps : list rpart) : list rpart :=
  let ps := if symmetry then map (mirrored g) ps else ps in
  if own_weights then ps else map (weighted (match ps with a :: _ => rw a | [] => 0 end)) ps.

(** a position, in grid units, far enough from the ends of the index range lo:hi for order n *)
Definition fits (n lo hi : Z) (x : R) : Prop := (IZR (lo + n ÷ 2) <= x < IZR (hi - n ÷ 2)).
Definition fits3 (o : orders) (g : cells) (lo hi : idx) (a : rpart) : Prop :=
  let '(a1, a2, a3) := lo in let '(b1, b2, b3) := hi in
  fits (onx o) a1 b1 (unit_x g (rpx a)) /\ fits (ony o) a2 b2 (unit_y g (rpy a)) /\ fits (onz o) a3 b3 (unit_z g (rpz a)).
(** array bounds of moderate size *)
Definition moderate (lo hi : idx) : Prop :=
  let '(a1, a2, a3) := lo in let '(b1, b2, b3) := hi in
  (- 1000000000 <= a1 /\ - 1000000000 <= a2 /\ - 1000000000 <= a3 /\ b1 <= 1000000000 /\ b2 <= 1000000000 /\ b3 <= 1000000000)%Z.

(** node p gets a part of the particle *)
Definition receives (o : orders) (g : cells) (a : rpart) (p : idx) : Prop := share o g (rpx a) (rpy a) (rpz a) p <> 0.

(** coordinate of a node, order and position of a particle (in grid units) along an axis *)
Definition coord (d : axis) (p : idx) : R := let '(j, k, l) := p in match d with AX => IZR j | AY => IZR k | AZ => IZR l end.
Definition order_on (o : orders) (d : axis) : Z := match d with AX => onx o | AY => ony o | AZ => onz o end.
Definition unit_on (g : cells) (d : axis) (a : rpart) : R :=
  match d with AX => unit_x g (rpx a) | AY => unit_y g (rpy a) | AZ => unit_z g (rpz a) end.

(** ** currents *)
Definition comp (d : axis) (f : rfield) : idx -> R := match d with AX => comp_x f | AY => comp_y f | AZ => comp_z f end.
Definition array (d : axis) {A} (F : field A) : grid A := match d with AX => fx F | AY => fy F | AZ => fz F end.
Definition plus_field (f h : rfield) : rfield :=
  RField (fun p => comp_x f p + comp_x h p) (fun p => comp_y f p + comp_y h p) (fun p => comp_z f p + comp_z h p).
(** the arrays jx, jy, jz, with bounds lo d : hi d, hold the real field f *)
Definition holds (J : field (num FRX)) (lo hi : axis -> idx) (f : rfield) : Prop :=
  forall d, @is_grid (fun x => x) (array d J) (lo d) (hi d) (comp d f).
Definition speed (d : axis) (a : rpart) : R := match d with AX => rux a * rgam a | AY => ruy a * rgam a | AZ => ruz a * rgam a end.
Definition width (g : cells) (d : axis) : R := match d with AX => hx g | AY => hy g | AZ => hz g end.
(** the particle where it was a time dt before *)
Definition before_move (dt : R) (a : rpart) : rpart :=
  {| rpx := back dt (rpx a) (rux a) (rgam a); rpy := back dt (rpy a) (ruy a) (rgam a); rpz := back dt (rpz a) (ruz a) (rgam a);
     rux := rux a; ruy := ruy a; ruz := ruz a; rgam := rgam a; rw := rw a |}.
(** the mean along a straight path of the product of two linear functions with the end values y, y0 and z, z0 *)
Definition path_mean (y y0 z z0 : R) : R := (y * z + y0 * z0) / 3 + (y * z0 + y0 * z) / 6.
(** the change along x of the current of a particle that moved from old to new: the part of the
    change of the density at p due to the motion along x *)
Definition inflow (o : orders) (g : cells) (d : axis) (new old : rpart) (p : idx) : R :=
  let '(j, k, l) := p in
  let sx := spline (onx o) (unit_x g (rpx new)) j in let sx0 := spline (onx o) (unit_x g (rpx old)) j in
  let sy := spline (ony o) (unit_y g (rpy new)) k in let sy0 := spline (ony o) (unit_y g (rpy old)) k in
  let sz := spline (onz o) (unit_z g (rpz new)) l in let sz0 := spline (onz o) (unit_z g (rpz old)) l in
  match d with
  | AX => (sx0 - sx) * path_mean sy sy0 sz sz0
  | AY => (sy0 - sy) * path_mean sz sz0 sx sx0
  | AZ => (sz0 - sz) * path_mean sx sx0 sy sy0
  end.

(** ** how the arguments of the routines hold real numbers *)
Definition geom_of (g : cells) : Geom FRX :=
  @Build_Geom FRX (Fin (ox g)) (Fin (oy g)) (Fin (oz g)) (Fin (hx g)) (Fin (hy g)) (Fin (hz g)).
Definition pos_of (a : rpart) : pos3 FRX := @Pos FRX (Fin (rpx a)) (Fin (rpy a)) (Fin (rpz a)).
Definition mom_of (a : rpart) : mom FRX := @Mom FRX (Fin (rux a)) (Fin (ruy a)) (Fin (ruz a)) (Fin (rgam a)).
Definition weight_of (a : rpart) : num FRX := Fin (rw a).

(** ** the routines *)
(** the charge deposition routine for order n along x, y and z, n = 1, 2, 3, and the updates it makes for one particle *)
Inductive fixed_order : Z -> Prop := order1 : fixed_order 1 | order2 : fixed_order 2 | order3 : fixed_order 3.
Definition charge_fixed {N : FNum} (n : Z) :=
  match n with
  | 1%Z => depose_rho_scalar_1_1_1 (N := N)
  | 2%Z => depose_rho_scalar_2_2_2 (N := N)
  | _ => depose_rho_scalar_3_3_3 (N := N)
  end.
Definition charge_updates {N : FNum} (n : Z) :=
  match n with 1%Z => rho_1_1_1 (N := N) | 2%Z => rho_2_2_2 (N := N) | _ => rho_3_3_3 (N := N) end.
(** the updates of all particles, each atomic, in an order chosen by the scheduler *)
Definition atomic_order (n : Z) (g : cells) (q : R) (ps : list rpart) (updates : list (stmt (num FRX))) : Prop :=
  exists each, Forall2 (fun a ss => charge_updates n (geom_of g) (Fin q : num FRX) (pos_of a) (weight_of a) = Ret ss) ps each /\
    Permutation (concat each) updates.
(** both end normally with arrays that hold the same real numbers, or both access an array out of bounds *)
Definition same_outcome (lo hi : idx) (a b : out (grid (num FRX))) : Prop :=
  match a, b with
  | Ret x, Ret y => exists r, @is_grid (fun x => x) x lo hi r /\ @is_grid (fun x => x) y lo hi r
  | UB, UB => True
  | _, _ => False
  end.

(** ** two dimensions *)
Definition proper_2d (g : cells) : Prop := hx g <> 0 /\ hz g <> 0.
(** charge density of the particles at (j, 0, l) *)
Definition density_2d (nx nz : Z) (g : cells) (q : R) (ps : list rpart) (p : idx) : R :=
  let '(j, k, l) := p in
  if (k =? 0)%Z then sumR (map (fun a => q * rw a / (hx g * hz g) * (spline nx (unit_x g (rpx a)) j * spline nz (unit_z g (rpz a)) l)) ps) else 0.

(** ** notation for statements *)
(** the array g with bounds lo:hi holds the real numbers r p *)
Notation real_grid := (@is_grid (fun x => x)).
Notation real x := (Fin x : num FRX).
(** the 2D charge deposition of any order, called with the particles ps *)
Notation charge_plane nx nz g q ps rho :=
  (pxr_depose_rho_n_2dxz (zlen ps) (map pos_of ps) (map weight_of ps) (Fin q : num FRX) (geom_of g) nx nz true false rho).
