(** Specification vocabulary for the gathering of the fields: interpolation with B-splines on the Yee grid;
    independent of the model. *)
From Coq Require Import ZArith Reals List Bool.
From Verif Require Import Cxx Num NumRX Fortran FortranNum Grid Pushers Deposit SpecPhys SpecYee SpecDeposit Gather.
Import ListNotations.
Local Open Scope R_scope.

(** The order along x, y, z; whether a component is interpolated with one order less along the axes where it is given
    between the nodes; whether all components are given at the nodes of the grid instead. *)
Record scheme := { sc_order : orders; sc_lower : bool; sc_nodal : bool }.
Definition proper_scheme (s : scheme) : Prop :=
  (1 <= onx (sc_order s) <= 3 /\ 1 <= ony (sc_order s) <= 3 /\ 1 <= onz (sc_order s) <= 3)%Z.

Inductive quantity := Electric | Magnetic.
(** On the Yee grid component d of the electric field is given between the nodes along d, that of the
    magnetic field along the two other axes. *)
Definition between (q : quantity) (d c : axis) : bool :=
  match q, d, c with
  | Electric, AX, AX | Electric, AY, AY | Electric, AZ, AZ => true
  | Electric, _, _ => false
  | Magnetic, AX, AX | Magnetic, AY, AY | Magnetic, AZ, AZ => false
  | Magnetic, _, _ => true
  end.
(** where value number i of the component is along axis c: at i or at i + 1/2 *)
Definition offset (s : scheme) (q : quantity) (d c : axis) : R :=
  if between q d c then (if sc_nodal s then 0 else 1 / 2) else 0.
(** the degree of the splines used along c for component d *)
Definition degree (s : scheme) (q : quantity) (d c : axis) : Z :=
  if between q d c && sc_lower s then (order_on (sc_order s) c - 1)%Z else order_on (sc_order s) c.

(** the weight of a value at i for a particle at x; degree zero: the value of the cell of size one around i *)
Definition bspline (m : Z) (x : R) (i : Z) : R :=
  match m with
  | 0%Z => if Rle_dec (IZR i - 1 / 2) x then (if Rlt_dec x (IZR i + 1 / 2) then 1 else 0) else 0
  | _ => spline m x i
  end.
Definition weight_on (s : scheme) (q : quantity) (d c : axis) (x : R) (i : Z) : R :=
  bspline (degree s q d c) (x - offset s q d c) i.
Definition node_weight (s : scheme) (q : quantity) (d : axis) (g : cells) (a : rpart) (p : idx) : R :=
  let '(j, k, l) := p in
  weight_on s q d AX (unit_on g AX a) j * weight_on s q d AY (unit_on g AY a) k * weight_on s q d AZ (unit_on g AZ a) l.
(** the values f at the points lo:hi of component d, interpolated at the particle *)
Definition interpolated (s : scheme) (q : quantity) (d : axis) (g : cells) (lo hi : idx) (f : idx -> R) (a : rpart) : R :=
  sum_box lo hi (fun p => node_weight s q d g a p * f p).

(** the electric and the magnetic field at a particle *)
Definition eb : Type := (R3 * R3)%type.
Definition fld_of (v : eb) : fld FRX :=
  let '(E, B) := v in @Fld FRX (Fin (x3 E)) (Fin (y3 E)) (Fin (z3 E)) (Fin (x3 B)) (Fin (y3 B)) (Fin (z3 B)).
Definition of_axes (f : axis -> R) : R3 := mk3 (f AX) (f AY) (f AZ).
Definition add3 (u v : R3) : R3 := mk3 (x3 u + x3 v) (y3 u + y3 v) (z3 u + z3 v).
Definition add_eb (u v : eb) : eb := (add3 (fst u) (fst v), add3 (snd u) (snd v)).
(** field arrays: bounds and values of the components *)
Record arrays := { ar_lo : axis -> idx; ar_hi : axis -> idx; ar_at : rfield }.
Definition stored (F : field (num FRX)) (A : arrays) : Prop := holds F (ar_lo A) (ar_hi A) (ar_at A).
Definition fields_at (s : scheme) (g : cells) (E B : arrays) (a : rpart) : eb :=
  (of_axes (fun d => interpolated s Electric d g (ar_lo E d) (ar_hi E d) (comp d (ar_at E)) a),
   of_axes (fun d => interpolated s Magnetic d g (ar_lo B d) (ar_hi B d) (comp d (ar_at B)) a)).

(** the particle is far enough from the ends of the array of the component *)
Definition low_of (lo : idx) (c : axis) : Z := let '(a1, a2, a3) := lo in match c with AX => a1 | AY => a2 | AZ => a3 end.
Definition inside (s : scheme) (q : quantity) (d : axis) (g : cells) (lo hi : idx) (a : rpart) : Prop :=
  forall c, fits (degree s q d c) (low_of lo c) (low_of hi c) (unit_on g c a - offset s q d c).
Definition all_inside (s : scheme) (g : cells) (E B : arrays) (a : rpart) : Prop :=
  forall d, inside s Electric d g (ar_lo E d) (ar_hi E d) a /\ inside s Magnetic d g (ar_lo B d) (ar_hi B d) a.
Definition sized (A : arrays) : Prop := forall d, moderate (ar_lo A d) (ar_hi A d).

(** The choice of an algorithm and of orders for which the splines have exact coefficients *)
Definition exact_choice (algo : Z) (o : orders) : Prop :=
  ((onx o <= 2 /\ ony o <= 2 /\ onz o <= 2) \/ (algo <> 2 /\ onx o = ony o /\ ony o = onz o))%Z.

(** the gathering routine called with real numbers *)
Notation gather_call s g E B ps vs lvect algo :=
  (geteb3d_energy_conserving_generic (N := FRX) (zlen ps) (map pos_of ps) (map fld_of vs) (geom_of g)
     (onx (sc_order s)) (ony (sc_order s)) (onz (sc_order s)) E B false (sc_lower s) (sc_nodal s) lvect algo).

(** ** positions and components *)
Definition origin (g : cells) (c : axis) : R := match c with AX => ox g | AY => oy g | AZ => oz g end.
Definition at_axis (a : rpart) (c : axis) : R := match c with AX => rpx a | AY => rpy a | AZ => rpz a end.
(** where value number p of component d is *)
Definition where_is (s : scheme) (q : quantity) (d : axis) (g : cells) (p : idx) (c : axis) : R :=
  origin g c + width g c * (coord c p + offset s q d c).
(** a function of the position that is constant plus linear *)
Definition affine (k0 : R) (k : axis -> R) (x : axis -> R) : R := k0 + k AX * x AX + k AY * x AY + k AZ * x AZ.
Definition along (v : R3) (d : axis) : R := match d with AX => x3 v | AY => y3 v | AZ => z3 v end.
Definition none : eb := (mk3 0 0 0, mk3 0 0 0).
(** the values of all components are those of affine functions of the position, constant along
    the axes of degree zero *)
Definition affine_arrays (s : scheme) (q : quantity) (g : cells) (A : arrays) (k0 : axis -> R) (k : axis -> axis -> R) : Prop :=
  forall d, (forall p, in_box (ar_lo A d) (ar_hi A d) p = true -> comp d (ar_at A) p = affine (k0 d) (k d) (where_is s q d g p)) /\
    (forall c, degree s q d c = 0%Z -> k d c = 0).
(** all values of component d are between m d and M d *)
Definition bounded (A : arrays) (m M : axis -> R) : Prop :=
  forall d p, in_box (ar_lo A d) (ar_hi A d) p = true -> m d <= comp d (ar_at A) p <= M d.
Definition between3 (m M : axis -> R) (v : R3) : Prop := forall d, m d <= along v d <= M d.

(** ** the generic routine *)
(** the choices of an algorithm and orders served by the routine of arbitrary order *)
Definition generic_choice (algo : Z) (o : orders) : Prop := algo = 2%Z \/ ~ (onx o = ony o /\ ony o = onz o).
Definition uniform (A : arrays) (e : axis -> R) : Prop := forall d p, in_box (ar_lo A d) (ar_hi A d) p = true -> comp d (ar_at A) p = e d.
(** component d is interpolated with cubic splines along some axis *)
Definition cubic (s : scheme) (q : quantity) (d : axis) : Prop := exists c, degree s q d c = 3%Z.

(** ** tiles *)
(** the grid of a tile that begins m cells after the origin *)
Definition tile_cells (g : cells) (m : idx) : cells :=
  let '(m1, m2, m3) := m in
  {| ox := ox g + IZR m1 * hx g; oy := oy g + IZR m2 * hy g; oz := oz g + IZR m3 * hz g; hx := hx g; hy := hy g; hz := hz g |}.
Definition plus_idx (p q : idx) : idx := let '(a1, a2, a3) := p in let '(b1, b2, b3) := q in (a1 + b1, a2 + b2, a3 + b3)%Z.
Definition minus_idx (p q : idx) : idx := let '(a1, a2, a3) := p in let '(b1, b2, b3) := q in (a1 - b1, a2 - b2, a3 - b3)%Z.
(** the arrays contain the tile min:max with its guard cells *)
Definition covers (A : arrays) (m M ng : idx) : Prop :=
  forall d, in_box (ar_lo A d) (ar_hi A d) (minus_idx m ng) = true /\ in_box (ar_lo A d) (ar_hi A d) (plus_idx M ng) = true.
(** the particle is far enough from the ends of the guard cells of the tile *)
Definition in_tile (s : scheme) (g : cells) (m M ng : idx) (a : rpart) : Prop :=
  forall q d, inside s q d (tile_cells g m) (minus_idx (0, 0, 0)%Z ng) (plus_idx (minus_idx M m) ng) a.
