(** Proofs about the field gathering and particle push on tiles. *)
From Coq Require Import ZArith Reals List Bool Lia Lra Permutation.
From Verif Require Import Cxx CxxLemmas Num NumRX Fortran FortranNum FortranLemmas Grid GridLemmas Pushers SpecPhys SpecPush PusherProofs SpecYee Deposit Tiles DepositTiles SpecTiles SpecDeposit Sums DepositProofs DepositMore TilesReal
  SpecDepositTiles DepositTilesProofs DepositTilesReal Gather SpecGather GatherReal GatherProofs GatherMore GatherFacts.
From Verif Require Import Esirkepov CurrentTiles SpecCurrent SpecCurrentTiles PartBC FieldBC SpecFieldBC FieldBCProofs SpecWhole SpecParallelField PushTiles SpecPic.
Import ListNotations.
Local Open Scope R_scope.
Local Notation F x := (Fin x : num FRX) (only parsing).

(** ** interpolation: only the points around the particle count *)
Lemma half_small n : (0 <= n <= 3)%Z -> (0 <= n ÷ 2 <= 1)%Z.
Proof. intros H. assert (n = 0 \/ n = 1 \/ n = 2 \/ n = 3)%Z as [->|[->|[->| ->]]] by lia; vm_compute; split; discriminate. Qed.
Lemma offset_range s q d c : 0 <= offset s q d c <= 1 / 2.
Proof. unfold offset. destruct (between q d c); [destruct (sc_nodal s)|]; lra. Qed.
Lemma weight_outside s q d g lo hi a p : proper_scheme s -> SpecGather.inside s q d g lo hi a -> in_box lo hi p = false -> node_weight s q d g a p = 0.
Proof.
  intros P I Hp. destruct (Req_dec (node_weight s q d g a p) 0) as [E|E]; [exact E|exfalso].
  assert (In' : in_box lo hi p = true).
  { apply low_box. intros c. specialize (I c). destruct p as [[j k] l]. unfold node_weight, weight_on in E.
    assert (NZ : forall a b c : R, a * b * c <> 0 -> a <> 0 /\ b <> 0 /\ c <> 0) by (intros a0 b0 c0 H; repeat split; intros ->; apply H; ring). apply NZ in E. destruct E as (E1 & E2 & E3).
    destruct (cell0_ex (degree s q d c) (unit_on g c a - offset s q d c)) as (nd & Cn). pose proof (fits_cell _ _ _ _ _ (degree_range s q d c P) I (cell0_cell _ _ _ Cn)) as Fc.
    assert (R : forall i, bspline (degree s q d c) (unit_on g c a - offset s q d c) i <> 0 -> (nd + smin (degree s q d c) <= i <= nd + smax (degree s q d c))%Z).
    { intros i Hi. destruct (Z_le_dec (nd + smin (degree s q d c)) i), (Z_le_dec i (nd + smax (degree s q d c))); try lia; exfalso; apply Hi; apply (bspline_off _ _ nd); try assumption; try lia; apply degree_range; exact P. }
    destruct c; [specialize (R j E1)|specialize (R k E2)|specialize (R l E3)]; cbn [low_of]; lia. }
  congruence.
Qed.
Lemma inside_order s q d g lo hi a c : proper_scheme s -> SpecGather.inside s q d g lo hi a -> (low_of lo c <= low_of hi c)%Z.
Proof.
  intros P I. specialize (I c). destruct I as (I1 & I2). pose proof (half_small _ (degree_range s q d c P)).
  assert (Lt : IZR (low_of lo c + degree s q d c ÷ 2) < IZR (low_of hi c - degree s q d c ÷ 2)) by lra. apply lt_IZR in Lt. lia.
Qed.
Lemma interpolated_same s q d g lo hi lo' hi' f a : proper_scheme s -> SpecGather.inside s q d g lo hi a -> SpecGather.inside s q d g lo' hi' a ->
  interpolated s q d g lo hi f a = interpolated s q d g lo' hi' f a.
Proof.
  intros P I I'. unfold interpolated.
  set (mn := fun p r : idx => let '(a1, a2, a3) := p in let '(b1, b2, b3) := r in (Z.min a1 b1, Z.min a2 b2, Z.min a3 b3)).
  set (mx := fun p r : idx => let '(a1, a2, a3) := p in let '(b1, b2, b3) := r in (Z.max a1 b1, Z.max a2 b2, Z.max a3 b3)).
  transitivity (sum_box (mn lo lo') (mx hi hi') (fun p => node_weight s q d g a p * f p)).
  - symmetry. apply sum_box_window.
    + intros c. pose proof (inside_order s q d g lo hi a c P I). destruct lo as [[? ?] ?], lo' as [[? ?] ?], hi as [[? ?] ?], hi' as [[? ?] ?]. destruct c; cbn in *; lia.
    + intros p Hp. rewrite (weight_outside s q d g lo hi a p P I Hp). ring.
  - apply sum_box_window.
    + intros c. pose proof (inside_order s q d g lo' hi' a c P I'). destruct lo as [[? ?] ?], lo' as [[? ?] ?], hi as [[? ?] ?], hi' as [[? ?] ?]. destruct c; cbn in *; lia.
    + intros p Hp. rewrite (weight_outside s q d g lo' hi' a p P I' Hp). ring.
Qed.
Lemma near_inside s q d g a : proper_scheme s -> SpecGather.inside s q d g (near_lo g a) (near_hi g a) a.
Proof.
  intros P c. pose proof (half_small _ (degree_range s q d c P)) as Hd. pose proof (offset_range s q d c) as Ho.
  assert (E : low_of (near_lo g a) c = (Int_part (unit_on g c a) - 4)%Z /\ low_of (near_hi g a) c = (Int_part (unit_on g c a) + 4)%Z) by (destruct c; now split).
  destruct E as (-> & ->). destruct (base_Int_part (unit_on g c a)) as (B1 & B2). set (i := Int_part (unit_on g c a)) in *. unfold fits. split.
  - apply Rle_trans with (IZR (i - 3)); [apply IZR_le; lia|]. rewrite minus_IZR. lra.
  - apply Rlt_le_trans with (IZR (i + 3)); [|apply IZR_le; lia]. rewrite plus_IZR. lra.
Qed.
(** the part of a process of the grid: the fields at its nodes are those of the whole grid at the points where these are *)
Lemma interpolated_part s q d g m lo hi f a : proper_scheme s -> proper g -> SpecGather.inside s q d (SpecGather.tile_cells g m) lo hi a ->
  interpolated s q d (SpecGather.tile_cells g m) lo hi (fun p => f (plus_idx p m)) a = interpolated s q d g (near_lo g a) (near_hi g a) f a.
Proof.
  intros P Pg I. transitivity (interpolated s q d g (plus_idx lo m) (plus_idx hi m) f a).
  - unfold interpolated. rewrite (sum_box_ext _ _ _ (fun p => (fun r => node_weight s q d g a r * f r) (plus_idx p m))) by (intros p _; rewrite (tile_weight s q d g m a p Pg); reflexivity).
    symmetry. apply sum_box_shift.
  - apply interpolated_same; [exact P| |now apply near_inside]. intros c. specialize (I c). rewrite (unit_tile g m c a Pg) in I. destruct I as (I1 & I2).
    assert (E : forall r, low_of (plus_idx r m) c = (low_of r c + low_of m c)%Z) by (intros r; destruct r as [[? ?] ?], m as [[? ?] ?], c; reflexivity).
    rewrite !E. unfold fits. split.
    + replace (low_of lo c + low_of m c + degree s q d c ÷ 2)%Z with (low_of lo c + degree s q d c ÷ 2 + low_of m c)%Z by ring. rewrite plus_IZR. lra.
    + replace (low_of hi c + low_of m c - degree s q d c ÷ 2)%Z with (low_of hi c - degree s q d c ÷ 2 + low_of m c)%Z by ring. rewrite plus_IZR. lra.
Qed.

(** ** the particles of a tile *)
Lemma stored_particles {N} (t : tile N) ps : stores t ps -> tile_particles t = Ret ps.
Proof.
  intros (_ & Hn & _ & junk & Ha). unfold tile_particles. rewrite Hn, Ha. clear.
  assert (G : forall pre, mapM (fun i => do o <- get1 (map Some (pre ++ ps) ++ junk) i; match o with Some p => Ret p | None => UB end) (zrange (1 + zlen pre) (zlen pre + zlen ps)) = Ret ps).
  { induction ps as [|p ps IH]; intros pre.
    - rewrite zrange_nil by (unfold zlen; cbn [length]; lia). reflexivity.
    - rewrite zrange_cons by (unfold zlen; cbn [length]; lia). cbn [mapM].
      assert (Eg : get1 (map Some (pre ++ p :: ps) ++ junk) (1 + zlen pre) = Ret (Some p)).
      { rewrite map_app, <- app_assoc. cbn [map app]. replace (zlen pre) with (zlen (map (@Some (part N)) pre)) by (unfold zlen; now rewrite map_length). apply get1_mid. }
      rewrite Eg. cbn [bind]. specialize (IH (pre ++ [p])). rewrite <- app_assoc in IH. cbn [app] in IH.
      replace (1 + zlen (pre ++ [p]))%Z with (1 + zlen pre + 1)%Z in IH by (unfold zlen; rewrite app_length; cbn [length]; lia).
      replace (zlen (pre ++ [p]) + zlen ps)%Z with (zlen pre + zlen (p :: ps))%Z in IH by (unfold zlen; rewrite app_length; cbn [length]; lia).
      rewrite IH. reflexivity. }
  exact (G []).
Qed.
Lemma skipn_map_app {A B C} (f : A -> B) l (m : list C) junk : length l = length m -> skipn (length m) (map f l ++ junk) = junk.
Proof. intros E. rewrite <- E, <- (map_length f l), skipn_app, skipn_all, Nat.sub_diag. reflexivity. Qed.

Notation ug a := (momentum3 a, rgam a).
Notation tg := (fun x : R => x).
(** the momenta *)
Definition new_momentum (which : pusher) (c q m dt : R) (v : eb) (a : rpart) (w : R3 * R) : Prop :=
  match which with
  | Boris => boris_step c (q * dt / (2 * m)) (momentum3 a) (fst v) (snd v) (fst w)
  | Vay => vay_step c (q * dt / m) (momentum3 a) (rgam a) (fst v) (snd v) (fst w) (snd w)
  | _ => False
  end /\ snd w = inv_gamma c (fst w).
Lemma momenta_pushed which c q m dt (K : Consts FRX) rs vs : which = Boris \/ which = Vay -> light c K -> 0 < c -> m <> 0 -> length rs = length vs ->
  exists ws, push_momenta K which (zlen rs) (map (fun a => part_mom (part_of a)) rs) (map fld_of vs) (F q) (F m) (F dt) = Ret (map (SpecPush.Part tg) ws) /\ length ws = length rs /\
    forall i a v w, nth_error rs i = Some a -> nth_error vs i = Some v -> nth_error ws i = Some w -> new_momentum which c q m dt v a w.
Proof.
  intros Wh Lk Hc Hm Lr.
  assert (E1 : map (fun a => part_mom (part_of a)) rs = map (SpecPush.Part tg) (map (fun a => ug a) rs)) by (rewrite map_map; reflexivity).
  assert (E2 : map fld_of vs = map (SpecPush.Field tg) vs) by reflexivity.
  assert (Ez : zlen rs = Z.of_nat (length (map (fun a => ug a) rs))) by (unfold zlen; now rewrite map_length).
  rewrite E1, E2, Ez. destruct Wh as [-> | ->]; cbn [push_momenta].
  - assert (Ek : forall np ps fs, pxr_boris_push_u_3d K np ps fs (F q) (F m) (F dt) = pxr_boris_push_u_3d (Constants tg c 0 0 0) np ps fs (F q) (F m) (F dt)) by (intros; unfold pxr_boris_push_u_3d; unfold light in Lk; rewrite Lk; reflexivity).
    rewrite Ek. destruct (boris_follows tg c 0 0 0 q m dt Hc Hm (map (fun a => ug a) rs) vs ltac:(now rewrite map_length)) as (ws & R & Lw & H).
    exists ws. split; [exact R|]. rewrite map_length in Lw. split; [exact Lw|]. intros i a [E B] [u' g'] I1 I2 I3.
    specialize (H i (momentum3 a) (rgam a) E B u' g' ltac:(rewrite nth_error_map, I1; reflexivity) I2 I3). exact H.
  - assert (Ek : forall np ps fs, pxr_ebcancelpush3d K np ps fs (F q) (F m) (F dt) 0 = pxr_ebcancelpush3d (Constants tg c 0 0 0) np ps fs (F q) (F m) (F dt) 0) by (intros; unfold pxr_ebcancelpush3d; unfold light in Lk; rewrite Lk; reflexivity).
    rewrite Ek. destruct (vay_follows_x tg c 0 0 0 q m Hc Hm dt (map (fun a => ug a) rs) vs ltac:(now rewrite map_length)) as (ws & R & Lw & H).
    exists ws. split; [exact R|]. rewrite map_length in Lw. split; [exact Lw|]. intros i a [E B] [u' g'] I1 I2 I3.
    specialize (H i (momentum3 a) (rgam a) E B u' g' ltac:(rewrite nth_error_map, I1; reflexivity) I2 I3). cbv beta in H.
    assert (V : vay_step c (q * dt / m) (momentum3 a) (rgam a) E B u' g') by (apply H; auto). split; [exact V|]. apply V.
Qed.
(** the positions *)
Definition carried (dt : R) (w : R3 * R) (a : rpart) : rpart :=
  {| rpx := rpx a + snd w * dt * x3 (fst w); rpy := rpy a + snd w * dt * y3 (fst w); rpz := rpz a + snd w * dt * z3 (fst w);
     rux := x3 (fst w); ruy := y3 (fst w); ruz := z3 (fst w); rgam := snd w; rw := rw a |}.
Lemma carried_moved which c q m dt v a w : new_momentum which c q m dt v a w -> moved which c q m dt v a (carried dt w a).
Proof.
  destruct w as [[w1 w2 w3] g]. intros (H1 & H2). cbn [fst snd] in *. unfold moved. change (momentum3 (carried dt (mk3 w1 w2 w3, g) a)) with (mk3 w1 w2 w3). cbn [rgam carried fst snd].
  split; [exact H1|]. split; [exact H2|]. split; reflexivity.
Qed.
Lemma positions_pushed dt ws rs : length ws = length rs ->
  pxr_pushxyz (zlen rs) (map (fun a => part_pos (part_of a)) rs) (map (SpecPush.Part tg) ws) (F dt) = Ret (map (fun c => part_pos (part_of (carried dt (fst c) (snd c)))) (combine ws rs)).
Proof.
  intros L. unfold pxr_pushxyz. replace (zlen rs) with (Z.of_nat (length (map (fun a => part_pos (part_of a)) rs))) by (unfold zlen; now rewrite map_length).
  rewrite (for_particles_map2 (push1 (F dt))) by (now rewrite !map_length). f_equal. revert rs L. induction ws as [|[[w1 w2 w3] g] ws IH]; intros [|a rs] L; try discriminate; [reflexivity|].
  unfold map2 in *. cbn [map combine fst snd]. f_equal; [|apply IH; now injection L].
  unfold push1, part_pos, part_of, SpecPush.Part. cbn. f_equal; f_equal; ring.
Qed.
Lemma put_back_all dt ws rs : length ws = length rs ->
  map (fun c => put_back (fst (fst c)) (snd (fst c)) (snd c)) (combine (combine (map (fun c => part_pos (part_of (carried dt (fst c) (snd c)))) (combine ws rs)) (map (SpecPush.Part tg) ws)) (map part_of rs)) =
  map part_of (map (fun c => carried dt (fst c) (snd c)) (combine ws rs)).
Proof.
  revert rs. induction ws as [|[[w1 w2 w3] g] ws IH]; intros [|a rs] L; try discriminate; [reflexivity|]. cbn [map combine]. rewrite IH by (now injection L). reflexivity.
Qed.
Lemma all_moved which c q m dt v ws rs : length ws = length rs -> (forall i a w, nth_error rs i = Some a -> nth_error ws i = Some w -> new_momentum which c q m dt (v a) a w) ->
  Forall2 (fun a a' => moved which c q m dt (v a) a a') rs (map (fun c => carried dt (fst c) (snd c)) (combine ws rs)).
Proof.
  revert rs. induction ws as [|w ws IH]; intros [|a rs] L H; try discriminate; [constructor|]. cbn [combine map]. constructor.
  - apply carried_moved. apply (H 0%nat); reflexivity.
  - apply IH; [now injection L|]. intros i. apply (H (Datatypes.S i)).
Qed.

(** ** one tile *)
Section Process.
Variables (x y z : paxis R) (s : scheme) (which : pusher) (lvec algo : Z) (c q m dt : R) (K : Consts FRX).
Hypotheses (Hx : sensible x) (Hy : sensible y) (Hz : sensible z) (Dx : 0 < p_d x) (Dy : 0 < p_d y) (Dz : 0 < p_d z).
Hypotheses (Ho : sc_order s = orders_of x y z) (Ha : exact_choice algo (sc_order s)) (Hl : (1 <= lvec)%Z) (Wh : which = Boris \/ which = Vay) (Hk : light c K) (Hc : 0 < c) (Hm : m <> 0).
Local Notation g := (cells_of x y z).
Local Notation X := (fin_axis x). Local Notation Y := (fin_axis y). Local Notation Zz := (fin_axis z).
Local Notation mesh := (mesh_of X Y Zz).
Local Notation tiles := (tiles_of x y z).
Lemma scheme_proper : proper_scheme s.
Proof. unfold proper_scheme. rewrite Ho. destruct Hx as (_ & _ & _ & ?), Hy as (_ & _ & _ & ?), Hz as (_ & _ & _ & ?). cbn. lia. Qed.
Lemma slab_fits (a : paxis R) i v n o : sensible a -> 0 < p_d a -> (1 <= i <= cut a)%Z -> in_slab a i v -> (0 <= n <= 3)%Z -> 0 <= o <= 1 / 2 ->
  fits n (0 - tguard a i) (tmin a i + tcells a i - tmin a i + tguard a i) ((v - (p_lo a + IZR (tmin a i) * p_d a)) / p_d a - o).
Proof.
  intros Hs Hd Hi Hv Hn Hoff. pose proof (slab_unit a i v Hs Hd Hi Hv) as U. pose proof (axis_facts a Hs i Hi) as (_ & _ & _ & Hg & _). pose proof (half_small n Hn). unfold fits. split.
  - apply Rle_trans with (IZR (-1)); [apply IZR_le; lia|lra].
  - apply Rlt_le_trans with (IZR (tcells a i + 1)); [rewrite plus_IZR; lra|apply IZR_le; lia].
Qed.
Lemma slab_in_tile i j k a : In (i, j, k) tiles -> in_slab x i (rpx a) -> in_slab y j (rpy a) -> in_slab z k (rpz a) ->
  SpecGather.in_tile s g (tmin x i, tmin y j, tmin z k) (tmin x i + tcells x i, tmin y j + tcells y j, tmin z k + tcells z k)%Z (tguard x i, tguard y j, tguard z k) a.
Proof.
  intros I A B C qq d cc. apply (in_tiles_of X Y Zz) in I. destruct I as (I1 & I2 & I3). pose proof (degree_range s qq d cc scheme_proper) as Dg. pose proof (offset_range s qq d cc) as Of.
  destruct cc; cbn [low_of minus_idx plus_idx]; [apply (slab_fits x i (rpx a))|apply (slab_fits y j (rpy a))|apply (slab_fits z k (rpz a))]; assumption.
Qed.
Definition held (f : rfield) : arrays := {| ar_lo := fun _ => first_node x y z; ar_hi := fun _ => last_node x y z; ar_at := f |}.
Lemma tile_covered f i j k : In (i, j, k) tiles -> covers (held f) (tmin x i, tmin y j, tmin z k) (tmin x i + tcells x i, tmin y j + tcells y j, tmin z k + tcells z k)%Z (tguard x i, tguard y j, tguard z k).
Proof.
  intros I d. apply (in_tiles_of X Y Zz) in I. destruct I as (I1 & I2 & I3).
  pose proof (axis_facts x Hx i I1). pose proof (axis_facts y Hy j I2). pose proof (axis_facts z Hz k I3). pose proof (tguard_max x i). pose proof (tguard_max y j). pose proof (tguard_max z k).
  cbn [held ar_lo ar_hi minus_idx plus_idx]. unfold first_node, last_node. split; apply in_box_iff; lia.
Qed.
Lemma zero_map (ps : list rpart) : map (fun _ : part FRX => @zero_fld FRX) (map part_of ps) = map (fun _ => zero_fld) ps.
Proof. rewrite map_map. reflexivity. Qed.
Lemma tile_pushed E B e b t rs i j k : stored E (held e) -> stored B (held b) -> In (i, j, k) tiles -> stores t (map part_of rs) ->
  (forall a, In a rs -> in_slab x i (rpx a) /\ in_slab y j (rpy a) /\ in_slab z k (rpz a)) ->
  exists t' rs', push_tile K (choices_of s lvec algo which) (motion_of q m dt) (steps x y z) E B (mesh (i, j, k)) t = Ret t' /\ stores t' (map part_of rs') /\
    same_extents t t' /\ t_max t' = t_max t /\ Forall2 (fun a a' => moved which c q m dt (fields_at s g (held e) (held b) a) a a') rs rs'.
Proof.
  intros SE SB I St P. pose proof St as (Al & Hn & Mx & junk & Arr). unfold push_tile, steps. rewrite Hn.
  assert (Zl : zlen (map part_of rs) = zlen rs) by (unfold zlen; now rewrite map_length). rewrite Zl.
  destruct (Z.eqb_spec (zlen rs) 0) as [E0|E0].
  { assert (rs = []) as -> by (destruct rs; [reflexivity|unfold zlen in E0; cbn [length] in E0; lia]). exists t, []. repeat split; auto. exists junk. exact Arr. }
  rewrite (stored_particles t _ St). cbn [bind]. destruct (mesh_nums X Y Zz i j k) as (E1 & E2 & E3). rewrite E1, E2, E3.
  pose proof I as I0. apply (in_tiles_of X Y Zz) in I0. destruct I0 as (I1 & I2 & I3).
  change (tmin X i) with (tmin x i). change (tmin Y j) with (tmin y j). change (tmin Zz k) with (tmin z k).
  change (tcells X i) with (tcells x i). change (tcells Y j) with (tcells y j). change (tcells Zz k) with (tcells z k).
  change (tguard X i) with (tguard x i). change (tguard Y j) with (tguard y j). change (tguard Zz k) with (tguard z k).
  change (ma_gmin (m_x (mesh (i, j, k)))) with (ma_gmin (mesh_axis (F (p_d x)) (F (p_lo x)) (p_n x) (p_nt x) (p_ng x) (p_o x) i)).
  change (ma_gmin (m_y (mesh (i, j, k)))) with (ma_gmin (mesh_axis (F (p_d y)) (F (p_lo y)) (p_n y) (p_nt y) (p_ng y) (p_o y) j)).
  change (ma_gmin (m_z (mesh (i, j, k)))) with (ma_gmin (mesh_axis (F (p_d z)) (F (p_lo z)) (p_n z) (p_nt z) (p_ng z) (p_o z) k)).
  rewrite !gmin_eq by assumption. rewrite zero_map.
  set (mm := (tmin x i, tmin y j, tmin z k)). set (MM := (tmin x i + tcells x i, tmin y j + tcells y j, tmin z k + tcells z k)%Z). set (gg := (tguard x i, tguard y j, tguard z k)).
  assert (Md : moderate (minus_idx (0, 0, 0)%Z gg) (plus_idx (minus_idx MM mm) gg)).
  { pose proof (tile_moderate x y z Hx Hy Hz (i, j, k) I) as M. unfold tile_zero in M. rewrite E2, E3 in M. cbn [glo ghi] in M. unfold moderate in M. cbn [minus_idx plus_idx mm MM gg]. unfold moderate. cbn [minus_idx plus_idx].
    change (tcells X i) with (tcells x i) in M. change (tcells Y j) with (tcells y j) in M. change (tcells Zz k) with (tcells z k) in M.
    change (tguard X i) with (tguard x i) in M. change (tguard Y j) with (tguard y j) in M. change (tguard Zz k) with (tguard z k) in M. lia. }
  pose proof (tile_gather s g E B (held e) (held b) rs (map (fun _ => @zero_fld FRX) rs) mm MM gg lvec algo scheme_proper ltac:(repeat split; cbn; lra) SE SB (tile_covered e i j k I) (tile_covered b i j k I) Md
    ltac:(now rewrite map_length) Hl Ha (fun a Hr => slab_in_tile i j k a I (proj1 (P a Hr)) (proj1 (proj2 (P a Hr))) (proj2 (proj2 (P a Hr))))) as TG.
  assert (Ep : map part_pos (map part_of rs) = map pos_of rs) by (rewrite map_map; reflexivity).
  rewrite Ep. cbn [choices_of ch_nox ch_noy ch_noz ch_lower ch_nodal ch_lvec ch_algo ch_pusher motion_of mo_q mo_m mo_dt].
  match type of TG with ?a = _ => match goal with |- context [bind ?b _] => change b with a end end. rewrite TG. cbn [bind gt_fld].
  destruct (momenta_pushed which c q m dt K rs (map (fields_at s g (held e) (held b)) rs) Wh Hk Hc Hm ltac:(now rewrite map_length)) as (ws & R1 & Lw & Nw).
  assert (Em : map part_mom (map part_of rs) = map (fun a => part_mom (part_of a)) rs) by apply map_map. rewrite Em, R1. cbn [bind].
  pose proof (positions_pushed dt ws rs Lw) as R2. change (map (fun a => part_pos (part_of a)) rs) with (map pos_of rs) in R2.
  match type of R2 with ?a = _ => match goal with |- context [bind ?b _] => change b with a end end. rewrite R2. cbn [bind].
  pose proof (put_back_all dt ws rs Lw) as PB. cbv zeta. match type of PB with ?a = _ => match goal with |- context [map Some ?b ++ _] => change b with a end end. rewrite PB. set (rs' := map (fun c => carried dt (fst c) (snd c)) (combine ws rs)).
  assert (Lr : length rs' = length rs) by (unfold rs'; rewrite map_length, combine_length, Lw; apply Nat.min_id).
  assert (Sk : skipn (length (map part_of rs')) (t_arr t) = junk) by (rewrite Arr, map_length, Lr; rewrite <- (map_length part_of rs); apply skipn_map_app; reflexivity).
  rewrite Sk. eexists _, rs'. split; [reflexivity|]. split; [|split; [now repeat split|split; [reflexivity|]]].
  - split; [exact Al|]. split; [cbn [t_np]; unfold zlen; rewrite map_length, Lr; reflexivity|]. split; [|now exists junk]. cbn [t_max t_arr]. rewrite Mx, Arr. unfold zlen. rewrite !app_length, !map_length, Lr. reflexivity.
  - apply all_moved; [exact Lw|]. intros n a w N1 N2. apply (Nw n); auto. rewrite nth_error_map, N1. reflexivity.
Qed.
(** ** all tiles, in any order *)
Definition pushed_to e b (rs rs' : list rpart) : Prop := Forall2 (fun a a' => moved which c q m dt (fields_at s g (held e) (held b) a) a a') rs rs'.
Lemma tiles_pushed E B e b ps : stored E (held e) -> stored B (held b) -> in_tiles x y z [RSpecies true q ps] -> forall l T,
  NoDup l -> (forall p, In p l -> In p tiles) -> glo T = (1, 1, 1)%Z -> ghi T = (cut x, cut y, cut z) -> (forall p, In p l -> stores (gat T p) (map part_of (ps p))) ->
  exists T' ps', push_tiles K (choices_of s lvec algo which) (motion_of q m dt) (steps x y z) mesh E B l T = Ret T' /\
    glo T' = glo T /\ ghi T' = ghi T /\ (forall p, ~ In p l -> gat T' p = gat T p) /\
    forall p, In p l -> stores (gat T' p) (map part_of (ps' p)) /\ same_extents (gat T p) (gat T' p) /\ t_max (gat T' p) = t_max (gat T p) /\ pushed_to e b (ps p) (ps' p).
Proof.
  intros SE SB IT. induction l as [|p l IH]; intros T ND Sub Gl Gh St.
  - exists T, ps. split; [reflexivity|]. repeat split; auto; try contradiction.
  - destruct p as [[i j] k]. pose proof (Sub _ (or_introl eq_refl)) as Ip.
    destruct (tile_pushed E B e b (gat T (i, j, k)) (ps (i, j, k)) i j k SE SB Ip (St _ (or_introl eq_refl)) (fun a Hr => IT (RSpecies true q ps) i j k a (or_introl eq_refl) Ip Hr)) as (t' & rs' & R & S1 & X1 & M1 & F1).
    assert (Bx : in_box (glo T) (ghi T) (i, j, k) = true) by (rewrite Gl, Gh; apply in_box_box; exact Ip).
    set (T1 := Grid (glo T) (ghi T) (fun p => if idx_eqb (i, j, k) p then t' else gat T p)).
    inversion ND as [|? ? Nin ND']; subst.
    assert (Oth : forall p, In p l -> gat T1 p = gat T p).
    { intros p Hp. cbn [T1 gat]. destruct (idx_eqb (i, j, k) p) eqn:Eq; [|reflexivity]. apply idx_eqb_eq in Eq. subst p. contradiction. }
    destruct (IH T1 ND' (fun p Hp => Sub p (or_intror Hp)) Gl Gh (fun p Hp => eq_ind_r (fun t => stores t _) (St p (or_intror Hp)) (Oth p Hp))) as (T' & ps' & R' & L1 & L2 & Un & Do).
    assert (Same : gat T1 (i, j, k) = t') by (cbn [T1 gat]; replace (idx_eqb (i, j, k) (i, j, k)) with true by (symmetry; apply idx_eqb_eq; reflexivity); reflexivity).
    exists T', (fun p => if idx_eqb (i, j, k) p then rs' else ps' p). split; [|split; [exact L1|split; [exact L2|split]]].
    + unfold push_tiles in *. cbn [for_each]. unfold get3 at 1. rewrite Bx. cbn [bind]. rewrite R. cbn [bind]. unfold set3 at 1. rewrite Bx. cbn [bind]. exact R'.
    + intros p Hp. rewrite Un by (intros H; apply Hp; now right). cbn [T1 gat]. destruct (idx_eqb (i, j, k) p) eqn:Eq; [|reflexivity]. apply idx_eqb_eq in Eq. exfalso. apply Hp. now left.
    + intros p [<-|Hp].
      * replace (idx_eqb (i, j, k) (i, j, k)) with true by (symmetry; apply idx_eqb_eq; reflexivity). rewrite (Un _ Nin), Same. auto.
      * destruct (idx_eqb (i, j, k) p) eqn:Eq; [apply idx_eqb_eq in Eq; subst p; contradiction|]. rewrite <- (Oth p Hp). apply (Do p Hp).
Qed.
End Process.

(** ** the fields of the whole grid *)
Section Whole.
Variables (L : layout) (W : dir -> waxis) (s : scheme) (which : pusher) (lvec algo : Z) (c q m dt : R) (K : Consts FRX) (r : idx).
Hypotheses (HL : sound_layout L) (HW : sound_parts L W) (Hr : In r (processes (l_procs L))).
Hypotheses (Ho : sc_order s = w_orders W) (Ha : exact_choice algo (sc_order s)) (Hl : (1 <= lvec)%Z) (Wh : which = Boris \/ which = Vay) (Hk : light c K) (Hc : 0 < c) (Hm : m <> 0).
Local Notation x := (part_x L W r). Local Notation y := (part_y L W r). Local Notation z := (part_z L W r).
Definition before_me : idx := (cells_before (l_cells L DirX) (FieldBC.comp DirX r), cells_before (l_cells L DirY) (FieldBC.comp DirY r), cells_before (l_cells L DirZ) (FieldBC.comp DirZ r)).
Definition my_part (f : rfield) : rfield := RField (fun p => comp_x f (plus_idx p before_me)) (fun p => comp_y f (plus_idx p before_me)) (fun p => comp_z f (plus_idx p before_me)).
Lemma my_coord a : (0 <= FieldBC.comp a r < FieldBC.comp a (l_procs L))%Z.
Proof. revert Hr. unfold processes. destruct (l_procs L) as [[n1 n2] n3], r as [[r1 r2] r3]. intros H. apply in_box_box, in_box_iff in H. destruct a; cbn [FieldBC.comp]; lia. Qed.
Lemma my_sensible a : sensible (part_axis L W a (FieldBC.comp a r)). Proof. apply HW, my_coord. Qed.
Lemma my_d a : 0 < p_d (part_axis L W a (FieldBC.comp a r)). Proof. apply HW. Qed.
Lemma my_order : sc_order s = orders_of x y z. Proof. exact Ho. Qed.
Lemma my_cells : cells_of x y z = SpecGather.tile_cells (w_cells W) before_me. Proof. reflexivity. Qed.
Lemma whole_proper : proper (w_cells W). Proof. destruct HW as (D & _). pose proof (D DirX). pose proof (D DirY). pose proof (D DirZ). repeat split; cbn; lra. Qed.
Lemma my_stored E e : carrying L E e -> stored (E r) (held x y z (my_part e)).
Proof.
  intros Cr d. destruct (Cr d) as (Bd & V). specialize (Bd r Hr). cbn beta in Bd.
  assert (Bx : glo (array d (E r)) = first_node x y z /\ ghi (array d (E r)) = last_node x y z).
  { revert Bd. unfold right_bounds, first_node, last_node, local_cells. unfold part_x, part_y, part_z, part_axis. cbn [p_ng p_n]. destruct (l_guards L) as [[g1 g2] g3]. cbn [FieldBC.comp]. intros (-> & ->). split; [reflexivity|].
    assert (T : forall a b c a' b' c' : Z, a = a' -> b = b' -> c = c' -> (a, b, c) = (a', b', c')) by congruence. apply T; lia. }
  destruct Bx as (B1 & B2). split; [exact B1|]. split; [exact B2|]. intros p Hp.
  assert (Nd : In (r, p) (nodes L)).
  { apply in_nodes. split; [exact Hr|]. cbn [snd fst]. revert Hp. cbn [held ar_lo ar_hi]. unfold first_node, last_node, part_x, part_y, part_z, part_axis. cbn [p_ng p_n]. destruct p as [[p1 p2] p3]. intros Hp. apply in_box_iff in Hp.
    unfold FieldBCWorld.inside. destruct (l_guards L) as [[g1 g2] g3] eqn:Eg. intros a. destruct a; cbn [FieldBC.comp] in *; unfold local_cells in *; cbn [FieldBC.comp] in *; try rewrite Eg; cbn [FieldBC.comp]; lia. }
  specialize (V _ Nd). cbn [fst snd] in V. refine (eq_trans V _).
  assert (Pt : point_of L (r, p) = plus_idx p before_me).
  { unfold point_of, before_me. cbn [fst snd]. destruct p as [[p1 p2] p3]. cbn [plus_idx FieldBC.comp].
    assert (T : forall a b c a' b' c' : Z, a = a' -> b = b' -> c = c' -> (a, b, c) = (a', b', c')) by congruence. apply T; ring. }
  rewrite Pt. destruct d; reflexivity.
Qed.
Lemma slab_fits_part (a : paxis R) i v n o : sensible a -> 0 < p_d a -> (1 <= i <= cut a)%Z -> in_slab a i v -> (0 <= n <= 3)%Z -> 0 <= o <= 1 / 2 ->
  fits n (- p_ng a) (p_n a - 1 + p_ng a) ((v - p_lo a) / p_d a - o).
Proof.
  intros Hs Hd Hi Hv Hn Hoff. pose proof (slab_unit a i v Hs Hd Hi Hv) as U. pose proof (axis_facts a Hs i Hi) as (F1 & F2 & F3 & _). destruct Hs as (Hn' & Hnt & Hg & Hor). pose proof (half_small n Hn).
  assert (E : (v - (p_lo a + IZR (tmin a i) * p_d a)) / p_d a = (v - p_lo a) / p_d a - IZR (tmin a i)) by (field; lra). rewrite E in U.
  apply IZR_le in F1, F3. rewrite plus_IZR in F3. split.
  - apply Rle_trans with (IZR (-1)); [apply IZR_le; lia|lra].
  - apply Rlt_le_trans with (IZR (p_n a - 1) + 1); [lra|]. rewrite <- (plus_IZR _ 1). apply IZR_le. lia.
Qed.
Lemma fields_whole e b i j k a : In (i, j, k) (tiles_of x y z) -> in_slab x i (rpx a) -> in_slab y j (rpy a) -> in_slab z k (rpz a) ->
  fields_at s (cells_of x y z) (held x y z (my_part e)) (held x y z (my_part b)) a = fields_seen s (w_cells W) e b a.
Proof.
  intros I A B C. apply (in_tiles_of (fin_axis x) (fin_axis y) (fin_axis z)) in I. destruct I as (I1 & I2 & I3).
  pose proof (scheme_proper x y z s (my_sensible DirX) (my_sensible DirY) (my_sensible DirZ) my_order) as P.
  assert (In' : forall qq d, SpecGather.inside s qq d (SpecGather.tile_cells (w_cells W) before_me) (first_node x y z) (last_node x y z) a).
  { intros qq d cc. rewrite <- my_cells. pose proof (degree_range s qq d cc P) as Dg. pose proof (offset_range s qq d cc) as Of.
    destruct cc; [apply (slab_fits_part x i (rpx a))|apply (slab_fits_part y j (rpy a))|apply (slab_fits_part z k (rpz a))]; try assumption; first [apply my_sensible|apply my_d]. }
  unfold fields_at, fields_seen. cbn [held ar_lo ar_hi ar_at]. rewrite my_cells.
  assert (One : forall qq d f, interpolated s qq d (SpecGather.tile_cells (w_cells W) before_me) (first_node x y z) (last_node x y z) (SpecDeposit.comp d (my_part f)) a =
     interpolated s qq d (w_cells W) (near_lo (w_cells W) a) (near_hi (w_cells W) a) (SpecDeposit.comp d f) a).
  { intros qq d f. replace (SpecDeposit.comp d (my_part f)) with (fun p => SpecDeposit.comp d f (plus_idx p before_me)) by (destruct d; reflexivity). apply interpolated_part; [exact P|apply whole_proper|apply In']. }
  unfold of_axes. rewrite !One. reflexivity.
Qed.
Theorem whole_push E B e b ps l T : carrying L E e -> carrying L B b -> in_tiles x y z [RSpecies true q ps] -> filled x y z T ps -> Permutation l (tiles_of x y z) ->
  exists T' ps', push_tiles K (choices_of s lvec algo which) (motion_of q m dt) (steps x y z) (mesh_of (fin_axis x) (fin_axis y) (fin_axis z)) (E r) (B r) l T = Ret T' /\ filled x y z T' ps' /\
    forall p, In p (tiles_of x y z) -> same_extents (gat T p) (gat T' p) /\ t_max (gat T' p) = t_max (gat T p) /\
      Forall2 (fun a a' => moved which c q m dt (fields_seen s (w_cells W) e b a) a a') (ps p) (ps' p).
Proof.
  intros CE CB IT (G1 & G2 & St) Pl.
  destruct (tiles_pushed x y z s which lvec algo c q m dt K (my_sensible DirX) (my_sensible DirY) (my_sensible DirZ) (my_d DirX) (my_d DirY) (my_d DirZ) my_order Ha Hl Wh Hk Hc Hm (E r) (B r) (my_part e) (my_part b) ps
    (my_stored E e CE) (my_stored B b CB) IT l T) as (T' & ps' & R & L1 & L2 & _ & Do).
  - apply (Permutation_NoDup (Permutation_sym Pl)). apply (nodup_tiles (fin_axis x) (fin_axis y) (fin_axis z)).
  - intros p Hp. apply (Permutation_in _ Pl Hp).
  - exact G1.
  - exact G2.
  - intros p Hp. apply St, (Permutation_in _ Pl Hp).
  - exists T', ps'. split; [exact R|]. split.
    + split; [congruence|]. split; [congruence|]. intros p Hp. apply (Do p), (Permutation_in _ (Permutation_sym Pl) Hp).
    + intros [[i j] k] Hp. destruct (Do (i, j, k) (Permutation_in _ (Permutation_sym Pl) Hp)) as (_ & X1 & M1 & F1). split; [exact X1|]. split; [exact M1|].
      assert (Sl : forall a, In a (ps (i, j, k)) -> in_slab x i (rpx a) /\ in_slab y j (rpy a) /\ in_slab z k (rpz a)) by (intros a Ia; exact (IT (RSpecies true q ps) i j k a (or_introl eq_refl) Hp Ia)).
      clear - F1 Sl Hp HL HW Hr Ho Ha. unfold pushed_to in F1. induction F1 as [|a a' l l' M _ IH]; constructor.
      * destruct (Sl a (or_introl eq_refl)) as (S1 & S2 & S3). rewrite (fields_whole e b i j k a Hp S1 S2 S3) in M. exact M.
      * apply IH. intros a0 Ia. apply Sl. now right.
Qed.
End Whole.
