(** The gathering of the fields: single precision constants, unknown orders, independence of the particles, tiles. *)
From Coq Require Import ZArith Reals List Bool Lia Lra Psatz.
From Verif Require Import Cxx Num NumRX CxxLemmas Fortran FortranNum FortranLemmas Grid GridLemmas Pushers SpecPush PusherProofs Deposit SpecPhys SpecYee YeeReal SpecDeposit
  Splines Sums DepositProofs DepositMore Gather SpecGather GatherReal GatherProofs GatherMore.
Import ListNotations.
Local Open Scope R_scope.

(** ** the routine of arbitrary order with its single precision constants *)
Section Generic.
Variables (s : scheme) (g : cells).
Hypothesis Ps : proper_scheme s.
Hypothesis Pg : proper g.
Let ux (a : rpart) := F (unit_x g (rpx a)).
Let uy (a : rpart) := F (unit_y g (rpy a)).
Let uz (a : rpart) := F (unit_z g (rpz a)).
Definition W2 (a : rpart) (ns : nodes6) (q : quantity) (d c : axis) (i : Z) : R :=
  let A := ax_of q (axes6 shape_half true s (ux a) (uy a) (uz a) ns) d c in
  if ((first A <=? i) && (i <=? last A))%Z then rshape2 (degree s q d c) (unit_on g c a - offset s q d c - IZR (ax_node A)) (i - ax_node A) else 0.
Lemma same_axis zr a ns q d c : let A := ax_of q (axes6 shape_half true s (ux a) (uy a) (uz a) ns) d c in
  let A2 := ax_of q (axes6 shape_2d zr s (ux a) (uy a) (uz a) ns) d c in
  ax_node A2 = ax_node A /\ ax_lo A2 = ax_lo A /\ ax_hi A2 = ax_hi A /\
  forall m, ax_w A2 m = Ret (F (rshape2 (degree s q d c) (unit_on g c a - offset s q d c - IZR (ax_node A)) m)).
Proof.
  destruct ns as [[[j k] l] [[j0 k0] l0]].
  assert (K : forall c, (1 <= order_on (sc_order s) c <= 3)%Z) by (intros c'; now apply proper_on). pose proof (K AX) as KX. pose proof (K AY) as KY. pose proof (K AZ) as KZ. cbn [order_on] in KX, KY, KZ.
  assert (P : forall n x i m, (1 <= n <= 3)%Z -> factor zr n (shape_2d n (n_sub (F x) (n_of_Z i)) m) = Ret (F (rshape2 n (x - 0 - IZR i) m))).
  { intros n x i m Hn. rewrite factor_ok by exact Hn. change (n_sub (F x) (n_of_Z i)) with (F (x - IZR i)). rewrite shape2_fin. rewrite Rminus_0_r. reflexivity. }
  assert (S : forall n x i m, (1 <= n <= 3)%Z -> factor zr n (shape_2d (low_deg s n) (n_sub (n_sub (F x) (stagger_shift (sc_nodal s))) (n_of_Z i)) m) =
    Ret (F (rshape2 (if sc_lower s then n - 1 else n)%Z (x - (if sc_nodal s then 0 else 1 / 2) - IZR i) m))).
  { intros n x i m Hn. rewrite factor_ok by exact Hn. rewrite shift_fin. change (n_sub (n_sub (F x) (F (if sc_nodal s then 0 else 5 / 10))) (n_of_Z i)) with (F (x - (if sc_nodal s then 0 else 5 / 10) - IZR i)).
    rewrite shape2_fin. unfold low_deg. replace (5 / 10) with (1 / 2) by lra. reflexivity. }
  cbv zeta. unfold axes6, ux, uy, uz. destruct q, d, c; cbn [ax_of axE axB pX pY pZ sX sY sZ pax sax ax_node ax_lo ax_hi ax_w unit_on];
    (split; [reflexivity|split; [reflexivity|split; [reflexivity|]]]); intros m; unfold degree, offset; cbn [between andb order_on]; (apply P || apply S); assumption.
Qed.
Lemma W2_good zr a ns : good_axes (axes6 shape_2d zr s (ux a) (uy a) (uz a) ns) (W2 a ns).
Proof.
  intros q d c. destruct (same_axis zr a ns q d c) as (N & Lo & Hi & Wt). cbv zeta in *. set (A := ax_of q (axes6 shape_half true s (ux a) (uy a) (uz a) ns) d c) in *. set (A2 := ax_of q (axes6 shape_2d zr s (ux a) (uy a) (uz a) ns) d c) in *.
  assert (LH : (ax_lo A <= ax_hi A)%Z).
  { destruct ns as [[[j k] l] [[j0 k0] l0]]. pose proof (degree_range s q d c Ps) as D. pose proof (smin_smax (degree s q d c) (proj1 D)) as Sm.
    assert (E : ax_lo A = smin (degree s q d c) /\ ax_hi A = smax (degree s q d c)) by (unfold A, axes6; destruct q, d, c; split; reflexivity). lia. }
  unfold good. rewrite N, Lo, Hi. split; [exact LH|]. split.
  - intros m Hm. rewrite Wt. unfold W2. cbv zeta. fold A. unfold first, last. destruct (Z.leb_spec (ax_node A + ax_lo A) (ax_node A + m)), (Z.leb_spec (ax_node A + m) (ax_node A + ax_hi A)); try lia. cbn [andb].
    replace (ax_node A + m - ax_node A)%Z with m by lia. reflexivity.
  - intros i Hi'. unfold W2. cbv zeta. fold A. unfold first, last. destruct (Z.leb_spec (ax_node A + ax_lo A) i), (Z.leb_spec i (ax_node A + ax_hi A)); try lia; reflexivity.
Qed.
Definition gain2 (QE QB : arrays) (a : rpart) : eb := match nodes_of s (ux a) (uy a) (uz a) with
  | Ret ns => (of_axes (value (W2 a ns) Electric QE), of_axes (value (W2 a ns) Magnetic QB)) | _ => none end.
Lemma any2 E B QE QB ps vs : stored E QE -> stored B QB -> length ps = length vs -> forallb (okEB s g QE QB) ps = true ->
  geteb3d_any (zlen ps) (map pos_of ps) (map fld_of vs) (geom_of g) (onx (sc_order s)) (ony (sc_order s)) (onz (sc_order s)) E B false (sc_lower s) (sc_nodal s) =
  Ret (map fld_of (map (fun av => add_eb (snd av) (gain2 QE QB (fst av))) (combine ps vs))).
Proof.
  intros HE HB L Ok. unfold geteb3d_any, pxr_gete3d_n, pxr_getb3d_n. destruct Pg as (P1 & P2 & P3). unfold okEB in Ok. rewrite forallb_and in Ok. apply andb_prop in Ok. destruct Ok as (O1 & O2).
  erewrite (run pos_of fld_of _ (okE s g QE) (fun a v => (add3 (fst v) (fst (gain2 QE QB a)), snd v))); [|intros a v|exact L].
  2: { cbn [mirror]. rewrite gridx_fin, gridy_fin, gridz_fin by assumption. rewrite axes_of_nodes. unfold okE, gain2. fold (ux a) (uy a) (uz a).
     destruct (nodes_out s (unit_x g (rpx a)) (unit_y g (rpy a)) (unit_z g (rpz a))) as [(ns & Hn)|Hn]; fold (ux a) (uy a) (uz a) in Hn; rewrite Hn; cbn [bind]; [|reflexivity].
     rewrite (gete_real _ _ E QE (W2_good false a ns) HE _ _ 1 1 v) by (intros; reflexivity). rewrite fine3_sh. destruct (fine3 _ Electric QE); [|reflexivity].
     cbn [fst]. unfold of_axes. rewrite !Rmult_1_l. reflexivity. }
  rewrite O1. cbn [bind].
  erewrite (run pos_of fld_of _ (okB s g QB) (fun a v => (fst v, add3 (snd v) (snd (gain2 QE QB a))))); [|intros a v|rewrite map_length, combine_length; lia].
  2: { cbn [mirror]. rewrite gridx_fin, gridy_fin, gridz_fin by assumption. rewrite axes_of_nodes. unfold okB, gain2. fold (ux a) (uy a) (uz a).
     destruct (nodes_out s (unit_x g (rpx a)) (unit_y g (rpy a)) (unit_z g (rpz a))) as [(ns & Hn)|Hn]; fold (ux a) (uy a) (uz a) in Hn; rewrite Hn; cbn [bind]; [|reflexivity].
     rewrite (getb_real _ _ B QB (W2_good true a ns) HB _ _ 1 1 v) by (intros; reflexivity). rewrite fine3_sh. destruct (fine3 _ Magnetic QB); [|reflexivity].
     cbn [snd]. unfold of_axes. rewrite !Rmult_1_l. reflexivity. }
  rewrite O2. f_equal. f_equal. pose proof (combine_map (A := rpart) (B := eb) (fun a v => (add3 (fst v) (fst (gain2 QE QB a)), snd v)) ps vs) as CM. cbv beta in CM. rewrite CM, map_map. apply map_ext. intros av. reflexivity.
Qed.
(** a uniform field *)
Lemma W2_sum a ns q d c lo hi : nodes_of s (ux a) (uy a) (uz a) = Ret ns -> fits (degree s q d c) lo hi (unit_on g c a - offset s q d c) ->
  let S := rsum (zrange lo hi) (W2 a ns q d c) in 1 <= S <= 1 + 1 / 20000000 /\ (degree s q d c = 3%Z -> 1 < S).
Proof.
  intros Hn Ft. destruct (axes6_span s _ _ _ ns q d c Ps Hn) as (S1 & S2 & S3). cbv zeta.
  assert (U : match c with AX => unit_x g (rpx a) | AY => unit_y g (rpy a) | AZ => unit_z g (rpz a) end = unit_on g c a) by (destruct c; reflexivity). rewrite U in S3.
  pose proof (fits_cell _ _ _ _ _ (degree_range s q d c Ps) Ft S3) as Fc. pose proof (degree_range s q d c Ps) as D. pose proof (smin_smax _ (proj1 D)) as Sm.
  set (A := ax_of q _ d c) in *. set (m := degree s q d c) in *. set (t := unit_on g c a - offset s q d c) in *.
  assert (Sum : rsum (zrange lo hi) (W2 a ns q d c) = whole m (t - IZR (ax_node A))).
  { rewrite (rsum_window lo hi (smin m + ax_node A) (smax m + ax_node A)); [|lia|lia|lia|].
    - rewrite rsum_shift. unfold whole. apply rsum_ext. intros i Hi. apply in_zrange in Hi. unfold W2. cbv zeta. unfold ux, uy, uz. fold A. fold m. rewrite S1, S2. fold t.
      destruct (Z.leb_spec (ax_node A + smin m) (i + ax_node A)), (Z.leb_spec (i + ax_node A) (ax_node A + smax m)); try lia. cbn [andb]. f_equal. lia.
    - intros i Hi. unfold W2. cbv zeta. unfold ux, uy, uz. fold A. rewrite S1, S2. destruct (Z.leb_spec (ax_node A + smin m) i), (Z.leb_spec i (ax_node A + smax m)); try lia; reflexivity. }
  rewrite Sum. destruct (Z.eq_dec m 3) as [E3|N3].
  - rewrite E3 in S3 |- *. unfold cell in S3. change (3 =? 2 * (3 ÷ 2))%Z with false in S3. cbv iota in S3.
    pose proof (whole_3_bounds (t - IZR (ax_node A)) ltac:(lra)). split; [lra|]. intros _. lra.
  - rewrite whole_low by lia. split; [lra|]. intros. lia.
Qed.
Lemma value_uniform a ns q d Q e : nodes_of s (ux a) (uy a) (uz a) = Ret ns -> inside s q d g (ar_lo Q d) (ar_hi Q d) a ->
  (forall p, in_box (ar_lo Q d) (ar_hi Q d) p = true -> comp d (ar_at Q) p = e) -> 0 < e ->
  e <= value (W2 a ns) q Q d <= (1 + 1 / 6000000) * e /\ (cubic s q d -> e < value (W2 a ns) q Q d).
Proof.
  intros Hn I Un Pe. unfold value, total.
  rewrite (sum_box_ext _ _ _ (fun p => e * (let '(j, k, l) := p in W2 a ns q d AX j * W2 a ns q d AY k * W2 a ns q d AZ l))).
  2: { intros [[j k] l] Hp. rewrite (Un _ Hp). ring. }
  rewrite sum_box_scal. pose proof (sum_box_prod (ar_lo Q d) (ar_hi Q d) (W2 a ns q d AX) (W2 a ns q d AY) (W2 a ns q d AZ)) as S.
  pose proof (I AX) as IX. pose proof (I AY) as IY. pose proof (I AZ) as IZ. destruct (ar_lo Q d) as [[a1 a2] a3], (ar_hi Q d) as [[b1 b2] b3]. cbn [low_of] in IX, IY, IZ. cbv beta iota in S. rewrite S.
  destruct (W2_sum a ns q d AX _ _ Hn IX) as (X1 & X2). destruct (W2_sum a ns q d AY _ _ Hn IY) as (Y1 & Y2). destruct (W2_sum a ns q d AZ _ _ Hn IZ) as (Z1 & Z2). cbv zeta in *.
  set (X := rsum _ (W2 a ns q d AX)) in *. set (Y := rsum _ (W2 a ns q d AY)) in *. set (V := rsum _ (W2 a ns q d AZ)) in *. clearbody X Y V.
  assert (XY : 1 <= X * Y <= 1 + 1 / 9000000) by (split; nra).
  assert (XYV : 1 <= X * Y * V <= 1 + 1 / 6000000) by (split; nra).
  split; [split; nra|]. intros (c & Hc). assert (1 < X * Y * V); [|nra].
  destruct c; [specialize (X2 Hc)|specialize (Y2 Hc)|specialize (Z2 Hc)]; [assert (1 < X * Y) by nra|assert (1 < X * Y) by nra|]; nra.
Qed.
End Generic.

Theorem generic_uniform s g E B QE QB ps vs lvect algo e b : proper_scheme s -> proper g -> stored E QE -> stored B QB -> length ps = length vs -> generic_choice algo (sc_order s) ->
  sized QE -> sized QB -> (forall a, In a ps -> all_inside s g QE QB a) -> uniform QE e -> uniform QB b -> (forall d, 0 < e d /\ 0 < b d) ->
  exists us, gather_call s g E B ps vs lvect algo = Ret (map fld_of (map (fun vu => add_eb (fst vu) (snd vu)) (combine vs us))) /\ length us = length ps /\
    forall u, In u us -> forall d,
      (e d <= along (fst u) d <= (1 + 1 / 6000000) * e d /\ (cubic s Electric d -> e d < along (fst u) d)) /\
      (b d <= along (snd u) d <= (1 + 1 / 6000000) * b d /\ (cubic s Magnetic d -> b d < along (snd u) d)).
Proof.
  intros P Pg HE HB L Ch SE SB I UE UB' Pos. exists (map (gain2 s g QE QB) ps). split; [|split; [apply map_length|]].
  - assert (Ok : forallb (okEB s g QE QB) ps = true) by (apply forallb_forall; intros a Ha; apply inside_ok; auto).
    assert (T : gather_call s g E B ps vs lvect algo = geteb3d_any (zlen ps) (map pos_of ps) (map fld_of vs) (geom_of g) (onx (sc_order s)) (ony (sc_order s)) (onz (sc_order s)) E B false (sc_lower s) (sc_nodal s)).
    { unfold geteb3d_energy_conserving_generic. cbv zeta. destruct (Z.eqb_spec (zlen ps) 0) as [E0|_].
      { destruct ps; [|unfold zlen in E0; cbn [length] in E0; lia]. destruct vs; [reflexivity|discriminate]. }
      destruct (Z.eqb_spec algo 2) as [|N2]; [reflexivity|]. destruct Ch as [Ch|Ch]; [contradiction|].
      assert (Nn : forall n, ((onx (sc_order s) =? n) && (ony (sc_order s) =? n) && (onz (sc_order s) =? n))%Z = false).
      { intros n. destruct (Z.eqb_spec (onx (sc_order s)) n), (Z.eqb_spec (ony (sc_order s)) n), (Z.eqb_spec (onz (sc_order s)) n); try reflexivity. exfalso. apply Ch. split; congruence. }
      rewrite !Nn. destruct (algo =? 1)%Z; reflexivity. }
    rewrite T. rewrite (any2 s g P Pg E B QE QB ps vs HE HB L Ok). f_equal. f_equal.
    clear -L. revert vs L. induction ps as [|a ps' IH]; intros [|v vs'] L; try discriminate; [reflexivity|]. cbn [map combine fst snd]. f_equal. apply IH. now injection L.
  - intros u Hu d. apply in_map_iff in Hu. destruct Hu as (a & <- & Ha). destruct (nodes_ex s g QE QB a P SE SB (I a Ha)) as (ns & Hn). unfold gain2. rewrite Hn. cbn [fst snd].
    destruct (Pos d) as (P1 & P2). destruct (I a Ha d) as (I1 & I2). split.
    + replace (along _ d) with (value (W2 s g a ns) Electric QE d) by (destruct d; reflexivity). apply value_uniform; auto.
    + replace (along _ d) with (value (W2 s g a ns) Magnetic QB d) by (destruct d; reflexivity). apply value_uniform; auto.
Qed.

(** ** orders other than one to three *)
Section Unknown.
Context {N : FNum}.
Lemma floor_any (x : num N) : (exists j, floor32 x = Ret j) \/ floor32 x = UB.
Proof. unfold floor32. destruct (f_floor x); [destruct (_ && _)%bool|]; eauto. Qed.
Lemma nint_any (x : num N) : (exists j, nint32 x = Ret j) \/ nint32 x = UB.
Proof.
  unfold nint32, nearest_pos, int32. destruct (n_lt _ _).
  - destruct (f_floor (n_opp x)); cbn [bind]; [destruct (_ && _)%bool|]; eauto.
  - destruct (f_floor x); cbn [bind]; [destruct (_ && _)%bool|]; eauto.
Qed.
Lemma node_any n (x : num N) : (exists j, node n x = Ret j) \/ node n x = UB.
Proof. unfold node. destruct (_ =? _)%Z; [apply nint_any|apply floor_any]. Qed.
Lemma node0_any n lower (h x : num N) : (exists j, node0 n lower h x = Ret j) \/ node0 n lower h x = UB.
Proof. unfold node0. destruct lower, (_ =? _)%Z; apply floor_any. Qed.
Lemma factor_any zr n (w : num N) : (exists v, factor zr n w = Ret v) \/ factor zr n w = UB.
Proof. unfold factor. destruct (_ && _)%bool; [eauto|]. destruct zr; eauto. Qed.
Lemma factor_bad n (w : num N) : ~ (1 <= n <= 3)%Z -> factor false n w = UB.
Proof. intros H. unfold factor. destruct (Z.leb_spec 1 n), (Z.leb_spec n 3); try lia; reflexivity. Qed.
Lemma box_first a1 a2 a3 b1 b2 b3 : (a1 <= b1)%Z -> (a2 <= b2)%Z -> (a3 <= b3)%Z -> exists r, box (a1, a2, a3) (b1, b2, b3) = (a1, a2, a3) :: r.
Proof. intros H1 H2 H3. unfold box. rewrite (zrange_cons a3 b3 H3), (zrange_cons a2 b2 H2), (zrange_cons a1 b1 H1). cbn. eauto. Qed.
Lemma smin_smax' n : (-1 <= n)%Z -> (smin n <= smax n)%Z.
Proof. intros H. destruct (Z.eq_dec n (-1)) as [->|]; [vm_compute; discriminate|]. pose proof (smin_smax n ltac:(lia)). lia. Qed.
Lemma gather_bad sg (X Y V : axw N) (g : grid (num N)) e : (ax_lo X <= ax_hi X)%Z -> (ax_lo Y <= ax_hi Y)%Z -> (ax_lo V <= ax_hi V)%Z ->
  (forall A, In A [X; Y; V] -> forall m, (exists v, ax_w A m = Ret v) \/ ax_w A m = UB) ->
  (exists A, In A [X; Y; V] /\ forall m, ax_w A m = UB) -> gather sg X Y V g e = UB.
Proof.
  intros HX HY HV Any (A & HA & Bad). unfold gather. destruct (box_first _ _ _ _ _ _ HX HY HV) as (r & ->). cbn [each].
  destruct (Any X (or_introl eq_refl) (ax_lo X)) as [(x & Ex)|Ex]; rewrite Ex; cbn [bind]; [|reflexivity].
  destruct (Any Y (or_intror (or_introl eq_refl)) (ax_lo Y)) as [(y & Ey)|Ey]; rewrite Ey; cbn [bind]; [|reflexivity].
  destruct (Any V (or_intror (or_intror (or_introl eq_refl))) (ax_lo V)) as [(v & Ev)|Ev]; rewrite Ev; cbn [bind]; [|reflexivity].
  exfalso. destruct HA as [<-|[<-|[<-|[]]]]; rewrite Bad in *; discriminate.
Qed.
Lemma gete_unknown sh nox noy noz lower nodal (x y z : num N) sgx sgy E f : (0 <= nox)%Z -> (0 <= noy)%Z -> (0 <= noz)%Z ->
  ~ (1 <= nox <= 3 /\ 1 <= noy <= 3 /\ 1 <= noz <= 3)%Z -> (do A <- axes_of sh false nox noy noz lower nodal x y z; gete sgx sgy A E f) = UB.
Proof.
  intros H1 H2 H3 Bad. unfold axes_of, plain, stag. cbv zeta.
  destruct (node_any nox x) as [(j & ->)| ->]; cbn [bind]; [|reflexivity]. destruct (node_any noy y) as [(k & ->)| ->]; cbn [bind]; [|reflexivity]. destruct (node_any noz z) as [(l & ->)| ->]; cbn [bind]; [|reflexivity].
  destruct (node0_any nox lower (stagger_shift nodal) x) as [(j0 & ->)| ->]; cbn [bind]; [|reflexivity]. destruct (node0_any noy lower (stagger_shift nodal) y) as [(k0 & ->)| ->]; cbn [bind]; [|reflexivity].
  destruct (node0_any noz lower (stagger_shift nodal) z) as [(l0 & ->)| ->]; cbn [bind]; [|reflexivity].
  unfold gete. cbn [pX pY pZ sX sY sZ]. rewrite gather_bad; [reflexivity| | | | |]; cbn [ax_lo ax_hi].
  - apply smin_smax'. destruct lower; lia.
  - apply smin_smax'. lia.
  - apply smin_smax'. lia.
  - intros A HA m. destruct HA as [<-|[<-|[<-|[]]]]; cbn [ax_w]; apply factor_any.
  - assert (D : ~ (1 <= nox <= 3)%Z \/ ~ (1 <= noy <= 3)%Z \/ ~ (1 <= noz <= 3)%Z) by lia.
    destruct D as [D|[D|D]].
    + eexists. split; [left; reflexivity|]. intros m. cbn [ax_w]. apply factor_bad. exact D.
    + eexists. split; [right; left; reflexivity|]. intros m. cbn [ax_w]. apply factor_bad. exact D.
    + eexists. split; [right; right; left; reflexivity|]. intros m. cbn [ax_w]. apply factor_bad. exact D.
Qed.
Lemma over_bad np body xs (fs : list (fld N)) : (1 <= np)%Z -> (forall a f, body a f = UB) -> over_particles np body xs fs = UB.
Proof.
  intros H B. unfold over_particles, do_range. destruct (Z.to_nat (np - 1 + 1)) as [|n] eqn:En; [lia|]. cbn [do_loop]. unfold at_particle at 1.
  assert (G : forall {A} (l : list A) i, (exists a, get1 l i = Ret a) \/ get1 l i = UB).
  { intros A l i. unfold get1, zget. destruct (_ && _)%bool; [|auto]. destruct (nth_error _ _); eauto. }
  destruct (G _ xs 1%Z) as [(a & ->)| ->]; cbn [bind]; [|reflexivity]. destruct (G _ fs 1%Z) as [(f & ->)| ->]; cbn [bind]; [|reflexivity]. rewrite B. reflexivity.
Qed.
Theorem unknown_order np xs (fs : list (fld N)) G nox noy noz E B l4 lower nodal lvect algo : (1 <= np)%Z -> (0 <= nox)%Z -> (0 <= noy)%Z -> (0 <= noz)%Z ->
  ~ (1 <= nox <= 3 /\ 1 <= noy <= 3 /\ 1 <= noz <= 3)%Z ->
  geteb3d_energy_conserving_generic np xs fs G nox noy noz E B l4 lower nodal lvect algo = UB.
Proof.
  intros Hn H1 H2 H3 Bad. unfold geteb3d_energy_conserving_generic. cbv zeta. destruct (Z.eqb_spec np 0); [lia|].
  assert (Any : geteb3d_any np xs fs G nox noy noz E B l4 lower nodal = UB).
  { unfold geteb3d_any, pxr_gete3d_n. rewrite over_bad; [reflexivity|exact Hn|]. intros a f. destruct (mirror l4 (gridx G a)) as [x sx], (mirror l4 (gridy G a)) as [y sy]. apply gete_unknown; assumption. }
  assert (Nn : forall n, (1 <= n <= 3)%Z -> ((nox =? n) && (noy =? n) && (noz =? n))%Z = false).
  { intros n' K. destruct (Z.eqb_spec nox n'), (Z.eqb_spec noy n'), (Z.eqb_spec noz n'); try reflexivity. lia. }
  rewrite (Nn 1%Z), (Nn 2%Z), (Nn 3%Z) by lia. destruct (algo =? 2)%Z; [exact Any|]. destruct (algo =? 1)%Z; exact Any.
Qed.
End Unknown.

(** the magnetic field alone: nothing is gathered *)
Lemma lset_same {A} (l : list A) : forall n a, nth_error l n = Some a -> lset l n a = l.
Proof. induction l as [|b l IH]; intros [|n] a H; cbn in *; try discriminate; [now injection H as ->|]. f_equal. now apply IH. Qed.
Lemma set1_same {A} (l : list A) i a : get1 l i = Ret a -> set1 l i a = Ret l.
Proof. unfold get1, zget, set1, zset. destruct (_ && _)%bool; [|discriminate]. destruct (nth_error l _) eqn:E; [|discriminate]. intros H. injection H as <-. f_equal. now apply lset_same. Qed.
Lemma gather_none sg (X Y V : axw FRX) (g : grid (num FRX)) lo hi f e : isg g lo hi f -> (forall v, exists w, sg (F v) = F w /\ (v = 0 -> w = 0)) ->
  (forall A, In A [X; Y; V] -> forall m, exists v, ax_w A m = Ret (F v)) -> (exists A, In A [X; Y; V] /\ forall m, ax_w A m = Ret (F 0)) ->
  gather sg X Y V g (F e) = Ret (F e) \/ gather sg X Y V g (F e) = UB.
Proof.
  intros G Sg Any (A & HA & Bad). unfold gather. set (bx := box _ _). clearbody bx. revert bx. induction bx as [|[[jj kk] ll] bx IH]; cbn [each]; [auto|].
  destruct (Any X (or_introl eq_refl) jj) as (x & Ex). destruct (Any Y (or_intror (or_introl eq_refl)) kk) as (y & Ey). destruct (Any V (or_intror (or_intror (or_introl eq_refl))) ll) as (v & Ev).
  rewrite Ex, Ey, Ev. cbn [bind]. destruct (get3_any g lo hi f G (ax_node X + jj, ax_node Y + kk, ax_node V + ll)%Z) as [(u & Eu)|Eu]; rewrite Eu; cbn [bind]; [|auto].
  assert (P0 : x * y * v * u = 0).
  { assert (forall p q : R, (Ret (F p) : out (num FRX)) = Ret (F q) -> p = q) as inj by (intros p q Hpq; injection Hpq; auto).
    destruct HA as [<-|[<-|[<-|[]]]]; [rewrite Bad in Ex; apply inj in Ex; subst x|rewrite Bad in Ey; apply inj in Ey; subst y|rewrite Bad in Ev; apply inj in Ev; subst v]; ring. }
  change (n_mul (n_mul (n_mul (F x) (F y)) (F v)) (F u)) with (F (x * y * v * u)). destruct (Sg (x * y * v * u)) as (w & Ew & W0). rewrite Ew, (W0 P0).
  change (n_add (F e) (F 0)) with (F (e + 0)). rewrite Rplus_0_r. exact IH.
Qed.
Theorem unknown_order_b np (ps : list rpart) vs g nox noy noz B QB l4 lower nodal : proper g -> stored B QB -> length ps = length vs -> np = zlen ps ->
  ~ (1 <= nox <= 3 /\ 1 <= noy <= 3 /\ 1 <= noz <= 3)%Z ->
  pxr_getb3d_n np (map pos_of ps) (map fld_of vs) (geom_of g) nox noy noz B l4 lower nodal = Ret (map fld_of vs) \/
  pxr_getb3d_n np (map pos_of ps) (map fld_of vs) (geom_of g) nox noy noz B l4 lower nodal = UB.
Proof.
  intros Pg HB L -> Bad. unfold pxr_getb3d_n. set (body := fun (a : pos3 FRX) (f : fld FRX) => _).
  assert (Body : forall a v, body (pos_of a) (fld_of v) = Ret (fld_of v) \/ body (pos_of a) (fld_of v) = UB).
  { intros a v. unfold body. destruct Pg as (P1 & P2 & P3). rewrite gridx_fin, gridy_fin, gridz_fin by assumption.
    assert (Mi : forall x, exists x' sg, mirror l4 (F x) = (F x', F sg)).
    { intros x. unfold mirror. destruct l4; [|exists x, 1; reflexivity]. destruct (n_lt _ _); [exists (- x), (- 1) | exists x, 1]; reflexivity. }
    destruct (Mi (unit_x g (rpx a))) as (x & sx & ->). destruct (Mi (unit_y g (rpy a))) as (y & sy & ->). set (z := unit_z g (rpz a)). clearbody z.
    unfold axes_of, plain, stag. cbv zeta. rewrite shift_fin. set (h := if nodal then 0 else 5 / 10). clearbody h.
    destruct (node_any nox (F x)) as [(j & ->)| ->]; cbn [bind]; [|auto]. destruct (node_any noy (F y)) as [(k & ->)| ->]; cbn [bind]; [|auto]. destruct (node_any noz (F z)) as [(l & ->)| ->]; cbn [bind]; [|auto].
    destruct (node0_any nox lower (F h) (F x)) as [(j0 & ->)| ->]; cbn [bind]; [|auto]. destruct (node0_any noy lower (F h) (F y)) as [(k0 & ->)| ->]; cbn [bind]; [|auto].
    destruct (node0_any noz lower (F h) (F z)) as [(l0 & ->)| ->]; cbn [bind]; [|auto].
    unfold getb. cbn [pX pY pZ sX sY sZ]. destruct v as [v w]. cbn [fld_of bx by_ bz ex ey ez].
    assert (FF : forall n n' t m, exists r, factor true n (shape_2d n' (F t) m) = Ret (F r)).
    { intros n n' t m. unfold factor. rewrite shape2_fin. destruct (_ && _)%bool; [eauto|]. exists 0. reflexivity. }
    assert (F0 : forall n n' t m, ~ (1 <= n <= 3)%Z -> factor true n (shape_2d n' (F t) m) = Ret (F 0)).
    { intros n n' t m Hn. unfold factor. destruct (Z.leb_spec 1 n), (Z.leb_spec n 3); try lia; reflexivity. }
    assert (D : ~ (1 <= nox <= 3)%Z \/ ~ (1 <= noy <= 3)%Z \/ ~ (1 <= noz <= 3)%Z) by lia.
    assert (Sg : forall r v, exists w, n_mul (F v) (F r) = F w /\ (v = 0 -> w = 0)) by (intros r v'; exists (v' * r); split; [reflexivity|intros ->; ring]).
    assert (S1 : forall v, exists w, same (F v) = F w /\ (v = 0 -> w = 0)) by (intros v'; exists v'; auto).
    change (n_sub (F x) (F h)) with (F (x - h)). change (n_sub (F y) (F h)) with (F (y - h)). change (n_sub (F z) (F h)) with (F (z - h)).
    change (n_sub (F x) (n_of_Z j)) with (F (x - IZR j)). change (n_sub (F y) (n_of_Z k)) with (F (y - IZR k)). change (n_sub (F z) (n_of_Z l)) with (F (z - IZR l)).
    change (n_sub (F (x - h)) (n_of_Z j0)) with (F (x - h - IZR j0)). change (n_sub (F (y - h)) (n_of_Z k0)) with (F (y - h - IZR k0)). change (n_sub (F (z - h)) (n_of_Z l0)) with (F (z - h - IZR l0)).
    assert (Al : forall A B C : axw FRX, (forall m, exists r, ax_w A m = Ret (F r)) -> (forall m, exists r, ax_w B m = Ret (F r)) -> (forall m, exists r, ax_w C m = Ret (F r)) ->
      forall X, In X [A; B; C] -> forall m, exists r, ax_w X m = Ret (F r)) by (intros A B' C HA HB' HC X [<-|[<-|[<-|[]]]]; assumption).
    assert (Ex : forall A B C : axw FRX, (~ (1 <= nox <= 3)%Z -> forall m, ax_w A m = Ret (F 0)) -> (~ (1 <= noy <= 3)%Z -> forall m, ax_w B m = Ret (F 0)) -> (~ (1 <= noz <= 3)%Z -> forall m, ax_w C m = Ret (F 0)) ->
      exists X, In X [A; B; C] /\ forall m, ax_w X m = Ret (F 0)).
    { intros A B' C HA HB' HC. destruct D as [D|[D|D]]; [exists A|exists B'|exists C]; (split; [cbn; auto|auto]). }
    match goal with |- context [gather ?sg ?X ?Y ?V (fx B) ?e] => assert (K1 : gather sg X Y V (fx B) e = Ret e \/ gather sg X Y V (fx B) e = UB) by
      (apply (gather_none _ _ _ _ _ _ _ _ _ (HB AX)); [apply Sg || apply S1|apply Al; intros m; cbn [ax_w]; apply FF|apply Ex; intros Hn m; cbn [ax_w]; apply F0; exact Hn]) end.
    destruct K1 as [-> | ->]; cbn [bind]; [|auto].
    match goal with |- context [gather ?sg ?X ?Y ?V (fy B) ?e] => assert (K1 : gather sg X Y V (fy B) e = Ret e \/ gather sg X Y V (fy B) e = UB) by
      (apply (gather_none _ _ _ _ _ _ _ _ _ (HB AY)); [apply Sg || apply S1|apply Al; intros m; cbn [ax_w]; apply FF|apply Ex; intros Hn m; cbn [ax_w]; apply F0; exact Hn]) end.
    destruct K1 as [-> | ->]; cbn [bind]; [|auto].
    match goal with |- context [gather ?sg ?X ?Y ?V (fz B) ?e] => assert (K1 : gather sg X Y V (fz B) e = Ret e \/ gather sg X Y V (fz B) e = UB) by
      (apply (gather_none _ _ _ _ _ _ _ _ _ (HB AZ)); [apply Sg || apply S1|apply Al; intros m; cbn [ax_w]; apply FF|apply Ex; intros Hn m; cbn [ax_w]; apply F0; exact Hn]) end.
    destruct K1 as [-> | ->]; cbn [bind]; auto. }
  unfold over_particles, do_range. 
  assert (At : forall i, at_particle body (map pos_of ps) i (map fld_of vs) = Ret (map fld_of vs) \/ at_particle body (map pos_of ps) i (map fld_of vs) = UB).
  { intros i. unfold at_particle. destruct (get1 (map pos_of ps) i) as [p| | |] eqn:E1; cbn [bind]; auto; try (exfalso; revert E1; unfold get1, zget; destruct (_ && _)%bool; [|discriminate]; destruct (nth_error _ _); discriminate).
    destruct (get1 (map fld_of vs) i) as [f| | |] eqn:E2; cbn [bind]; auto; try (exfalso; revert E2; unfold get1, zget; destruct (_ && _)%bool; [|discriminate]; destruct (nth_error _ _); discriminate).
    assert (exists a, p = pos_of a) as (a & ->).
    { revert E1. unfold get1, zget. destruct (_ && _)%bool; [|discriminate]. rewrite nth_error_map. destruct (nth_error ps _); cbn; intros H; [injection H as <-; eauto | discriminate]. }
    assert (exists v, f = fld_of v) as (v & ->).
    { revert E2. unfold get1, zget. destruct (_ && _)%bool; [|discriminate]. rewrite nth_error_map. destruct (nth_error vs _); cbn; intros H; [injection H as <-; eauto | discriminate]. }
    destruct (Body a v) as [-> | ->]; cbn [bind]; auto. left. apply set1_same. exact E2. }
  enough (Lp : forall n i, do_loop n i (at_particle body (map pos_of ps)) (map fld_of vs) = Ret (map fld_of vs) \/ do_loop n i (at_particle body (map pos_of ps)) (map fld_of vs) = UB) by apply Lp.
  induction n as [|n IH]; intros i; cbn [do_loop]; [auto|]. destruct (At i) as [-> | ->]; cbn [bind]; auto.
Qed.

(** ** every particle for itself *)
Section Alone.
Context {N : FNum}.
(** what is done for one particle *)
Inductive each_one (B : pos3 N -> fld N -> fld N -> Prop) : list (pos3 N) -> list (fld N) -> list (fld N) -> Prop :=
| each_nil : each_one B [] [] []
| each_cons x xs f fs f' fs' : B x f f' -> each_one B xs fs fs' -> each_one B (x :: xs) (f :: fs) (f' :: fs').
Definition separate (call : list (pos3 N) -> list (fld N) -> out (list (fld N))) (B : pos3 N -> fld N -> fld N -> Prop) : Prop :=
  forall xs fs, length xs = length fs -> forall fs', call xs fs = Ret fs' <-> each_one B xs fs fs'.
Lemma each_length B xs fs fs' : each_one B xs fs fs' -> length fs' = length fs /\ length xs = length fs.
Proof. induction 1; cbn; lia. Qed.
Lemma over_from body : forall (xs : list (pos3 N)) (fs : list (fld N)) dp dv, length xs = length fs -> length dp = length dv -> forall r,
  do_loop (length xs) (1 + zlen dv) (at_particle body (dp ++ xs)) (dv ++ fs) = Ret r <-> exists fs', r = dv ++ fs' /\ each_one (fun x f f' => body x f = Ret f') xs fs fs'.
Proof.
  induction xs as [|x xs IH]; intros [|f fs] dp dv L1 L2 r; try discriminate.
  - cbn. split; [intros H; injection H as <-; exists []; split; [reflexivity|constructor]|]. intros (fs' & -> & H). inversion H. reflexivity.
  - cbn [length do_loop]. unfold at_particle at 1. replace (zlen dv) with (zlen dp) at 1 by (unfold zlen; lia). rewrite get1_mid. cbn [bind]. rewrite get1_mid. cbn [bind].
    destruct (body x f) as [f'| | |] eqn:Eb; cbn [bind].
    2-4: split; [discriminate|]; intros (fs' & _ & H); inversion H; congruence.
    rewrite set1_mid. cbn [bind]. specialize (IH fs (dp ++ [x]) (dv ++ [f']) ltac:(injection L1; auto) ltac:(rewrite !app_length; cbn [length]; lia) r). rewrite <- !app_assoc in IH. cbn [app] in IH.
    replace (1 + zlen dv + 1)%Z with (1 + zlen (dv ++ [f']))%Z by (unfold zlen; rewrite app_length; cbn [length]; lia). rewrite IH. split.
    + intros (fs' & -> & H). exists (f' :: fs'). rewrite <- app_assoc. split; [reflexivity|]. constructor; assumption.
    + intros (fs' & -> & H). inversion H as [|? ? ? ? g' gs Hb Hr]; subst. rewrite Eb in Hb. injection Hb as <-. exists gs. rewrite <- app_assoc. auto.
Qed.
Lemma over_separate body : separate (fun xs fs => over_particles (zlen xs) body xs fs) (fun x f f' => body x f = Ret f').
Proof.
  intros xs fs L fs'. unfold over_particles, do_range. replace (Z.to_nat (zlen xs - 1 + 1)) with (length xs) by (unfold zlen; lia).
  rewrite (over_from body xs fs [] [] L eq_refl fs'). cbn [app]. split; [intros (r & -> & H); exact H | intros H; exists fs'; auto].
Qed.
Lemma blocks_separate body lvect : (1 <= lvect)%Z -> separate (fun xs fs => over_blocks (zlen xs) lvect body xs fs) (fun x f f' => body x f = Ret f').
Proof. intros H xs fs L fs'. rewrite blocks_loop by exact H. apply over_separate. exact L. Qed.
Lemma then_separate c1 c2 B1 B2 : separate c1 B1 -> separate c2 B2 -> separate (fun xs fs => do m <- c1 xs fs; c2 xs m) (fun x f f' => exists m, B1 x f m /\ B2 x m f').
Proof.
  intros S1 S2 xs fs L fs'. split.
  - destruct (c1 xs fs) as [ms| | |] eqn:E1; cbn [bind]; try discriminate. intros E2. apply S1 in E1; [|exact L]. destruct (each_length _ _ _ _ E1) as (L1 & _).
    apply S2 in E2; [|lia]. clear L L1. revert fs' E2. induction E1 as [|x xs f fs m ms H1 E1 IH]; intros fs' E2; inversion E2; subst; constructor; eauto.
  - intros H. assert (exists ms, each_one B1 xs fs ms /\ each_one B2 xs ms fs') as (ms & H1 & H2).
    { clear L. induction H as [|x xs f fs f' fs' (m & M1 & M2) H (ms & H1 & H2)]; [exists []; split; constructor|]. exists (m :: ms). split; constructor; assumption. }
    rewrite (proj2 (S1 xs fs L ms) H1). cbn [bind]. apply S2; [|exact H2]. destruct (each_length _ _ _ _ H1). lia.
Qed.
Lemma separate_ext c1 c2 B : (forall xs fs, length xs = length fs -> c1 xs fs = c2 xs fs) -> separate c2 B -> separate c1 B.
Proof. intros E S xs fs L fs'. rewrite E by exact L. apply S. exact L. Qed.
Lemma call_separate G nox noy noz (E B : field (num N)) l4 lower nodal algo : exists P, forall lvect, (1 <= lvect)%Z ->
  separate (fun xs fs => geteb3d_energy_conserving_generic (zlen xs) xs fs G nox noy noz E B l4 lower nodal lvect algo) P.
Proof.
  set (all := fun n => ((nox =? n) && (noy =? n) && (noz =? n))%Z).
  assert (Z0 : forall (c1 : list (pos3 N) -> list (fld N) -> out (list (fld N))) P, separate c1 P -> separate (fun xs fs => if (zlen xs =? 0)%Z then Ret fs else c1 xs fs) P).
  { intros c1 P S xs fs L fs'. destruct (Z.eqb_spec (zlen xs) 0) as [E0|_]; [|apply S; exact L]. destruct xs; [|unfold zlen in E0; cbn [length] in E0; lia]. destruct fs; [|discriminate].
    split; [intros H; injection H as <-; constructor | intros H; inversion H; reflexivity]. }
  assert (An : exists P, separate (fun xs fs => geteb3d_any (zlen xs) xs fs G nox noy noz E B l4 lower nodal) P).
  { eexists. unfold geteb3d_any, pxr_gete3d_n, pxr_getb3d_n. apply (then_separate _ (fun xs m => _)); apply over_separate. }
  assert (Sc : forall n, exists P, separate (fun xs fs => geteb3d_scalar n (zlen xs) xs fs G E B lower nodal) P).
  { intros n. eexists. unfold geteb3d_scalar, gete3d_scalar, getb3d_scalar. apply (then_separate _ (fun xs m => _)); apply over_separate. }
  destruct An as (PA & An).
  unfold geteb3d_energy_conserving_generic. fold all. cbv zeta.
  destruct (algo =? 2)%Z; [exists PA; intros; apply Z0; exact An|]. destruct (algo =? 1)%Z.
  - destruct (Sc 1%Z) as (P1 & S1). destruct (Sc 2%Z) as (P2 & S2). destruct (Sc 3%Z) as (P3 & S3). fold (all 1%Z) (all 2%Z) (all 3%Z).
    destruct (all 1%Z); [exists P1; intros; apply Z0; exact S1|]. destruct (all 2%Z); [exists P2; intros; apply Z0; exact S2|]. destruct (all 3%Z); [exists P3; intros; apply Z0; exact S3|]. exists PA; intros; apply Z0; exact An.
  - fold (all 1%Z) (all 2%Z) (all 3%Z).
    destruct (all 1%Z); [eexists; intros lv Hl; apply Z0; unfold geteb3d_vecV4_1_1_1; apply blocks_separate; exact Hl|].
    destruct (all 2%Z); [eexists; intros lv Hl; apply Z0; unfold geteb3d_vecV4_2_2_2; apply blocks_separate; exact Hl|].
    destruct (all 3%Z); [eexists; intros lv Hl; apply Z0; unfold geteb3d_vecV3_3_3_3; apply blocks_separate; exact Hl|]. exists PA; intros; apply Z0; exact An.
Qed.
Theorem call_alone G nox noy noz (E B : field (num N)) l4 lower nodal algo lvect lvect' xs fs fs' : (1 <= lvect)%Z -> (1 <= lvect')%Z -> length xs = length fs ->
  (geteb3d_energy_conserving_generic (zlen xs) xs fs G nox noy noz E B l4 lower nodal lvect algo = Ret fs' <->
   length fs' = length fs /\ forall i x f f', nth_error xs i = Some x -> nth_error fs i = Some f -> nth_error fs' i = Some f' ->
     geteb3d_energy_conserving_generic 1 [x] [f] G nox noy noz E B l4 lower nodal lvect' algo = Ret [f']).
Proof.
  intros L1 L2 L. destruct (call_separate G nox noy noz E B l4 lower nodal algo) as (P & S). rewrite (S lvect L1 xs fs L fs').
  assert (One : forall x f f', geteb3d_energy_conserving_generic 1 [x] [f] G nox noy noz E B l4 lower nodal lvect' algo = Ret [f'] <-> P x f f').
  { intros x f f'. change 1%Z with (zlen [x]). rewrite (S lvect' L2 [x] [f] eq_refl [f']). split; [intros H; now inversion H | intros H; constructor; [exact H|constructor]]. }
  split.
  - intros H. split; [apply (each_length _ _ _ _ H)|]. induction H as [|x xs f fs f' fs' Hp H IH]; intros [|i] y v v' H1 H2 H3; cbn in H1, H2, H3; try discriminate.
    + injection H1 as <-. injection H2 as <-. injection H3 as <-. apply One. exact Hp.
    + apply (IH ltac:(injection L; auto) i); assumption.
  - intros (Lf & H). revert fs fs' L Lf H. induction xs as [|x xs IH]; intros [|f fs] [|f' fs'] L Lf H; try discriminate; constructor.
    + apply One. apply (H 0%nat); reflexivity.
    + apply IH; [now injection L|now injection Lf|]. intros i y v v' H1 H2 H3. apply (H (Datatypes.S i)); assumption.
Qed.
End Alone.

(** ** tiles *)
Lemma bspline_shift m y k i : bspline m (y - IZR k) i = bspline m y (i + k).
Proof.
  destruct m as [|p|p]; unfold bspline.
  - rewrite plus_IZR. destruct (Rle_dec (IZR i - 1 / 2) (y - IZR k)), (Rle_dec (IZR i + IZR k - 1 / 2) y); try lra; destruct (Rlt_dec (y - IZR k) (IZR i + 1 / 2)), (Rlt_dec y (IZR i + IZR k + 1 / 2)); try lra.
  - unfold spline. rewrite plus_IZR. replace (y - IZR k - IZR i) with (y - (IZR i + IZR k)) by ring. reflexivity.
  - reflexivity.
Qed.
Lemma sum_box_window lo hi a b f : (forall c, (low_of lo c <= low_of a c /\ low_of a c <= low_of b c + 1 /\ low_of b c <= low_of hi c)%Z) ->
  (forall p, in_box a b p = false -> f p = 0) -> sum_box lo hi f = sum_box a b f.
Proof.
  intros H Z0. pose proof (H AX) as HX. pose proof (H AY) as HY. pose proof (H AZ) as HZ.
  destruct lo as [[l1 l2] l3], hi as [[h1 h2] h3], a as [[a1 a2] a3], b as [[b1 b2] b3]. cbn [low_of] in HX, HY, HZ. rewrite !sum_box_iter.
  assert (Zr : forall j k l, ~ (a1 <= j <= b1 /\ a2 <= k <= b2 /\ a3 <= l <= b3)%Z -> f (j, k, l) = 0).
  { intros j k l Hn. apply Z0. destruct (in_box (a1, a2, a3) (b1, b2, b3) (j, k, l)) eqn:Eb; [|reflexivity]. apply in_box_iff in Eb. lia. }
  rewrite (rsum_window l3 h3 a3 b3) by (try lia; intros l Hl; apply rsum_zero; intros k _; apply rsum_zero; intros j _; apply Zr; lia).
  apply rsum_ext. intros l _. rewrite (rsum_window l2 h2 a2 b2) by (try lia; intros k Hk; apply rsum_zero; intros j _; apply Zr; lia).
  apply rsum_ext. intros k _. rewrite (rsum_window l1 h1 a1 b1) by (try lia; intros j Hj; apply Zr; lia). reflexivity.
Qed.
Lemma sum_box_shift lo hi m f : sum_box (plus_idx lo m) (plus_idx hi m) f = sum_box lo hi (fun p => f (plus_idx p m)).
Proof.
  destruct lo as [[l1 l2] l3], hi as [[h1 h2] h3], m as [[m1 m2] m3]. cbn [plus_idx]. rewrite !sum_box_iter, rsum_shift. apply rsum_ext. intros l _. rewrite rsum_shift. apply rsum_ext. intros k _. rewrite rsum_shift. reflexivity.
Qed.
Lemma unit_tile g m c a : proper g -> unit_on (tile_cells g m) c a = unit_on g c a - IZR (low_of m c).
Proof. intros (P1 & P2 & P3). destruct m as [[m1 m2] m3]. destruct c; cbn; unfold unit_x, unit_y, unit_z; cbn; field; assumption. Qed.
Lemma tile_weight s q d g m a p : proper g -> node_weight s q d (tile_cells g m) a p = node_weight s q d g a (plus_idx p m).
Proof.
  intros Pg. destruct p as [[j k] l]. pose proof (fun c => unit_tile g m c a Pg) as U. destruct m as [[m1 m2] m3]. cbn [plus_idx]. unfold node_weight, weight_on.
  assert (W : forall c i, bspline (degree s q d c) (unit_on (tile_cells g (m1, m2, m3)) c a - offset s q d c) i = bspline (degree s q d c) (unit_on g c a - offset s q d c) (i + low_of (m1, m2, m3) c)).
  { intros c i. rewrite U. rewrite <- bspline_shift. f_equal. ring. }
  rewrite !W. reflexivity.
Qed.
Definition tile_arrays (Q : arrays) (m M ng : idx) : arrays :=
  {| ar_lo := fun _ => minus_idx (0, 0, 0)%Z ng; ar_hi := fun _ => plus_idx (minus_idx M m) ng;
     ar_at := RField (fun p => comp_x (ar_at Q) (plus_idx p m)) (fun p => comp_y (ar_at Q) (plus_idx p m)) (fun p => comp_z (ar_at Q) (plus_idx p m)) |}.
Lemma tile_interpolated s q d g Q m M ng a : proper_scheme s -> proper g -> covers Q m M ng -> inside s q d (tile_cells g m) (minus_idx (0, 0, 0)%Z ng) (plus_idx (minus_idx M m) ng) a ->
  interpolated s q d (tile_cells g m) (minus_idx (0, 0, 0)%Z ng) (plus_idx (minus_idx M m) ng) (comp d (ar_at (tile_arrays Q m M ng))) a =
  interpolated s q d g (ar_lo Q d) (ar_hi Q d) (comp d (ar_at Q)) a.
Proof.
  intros P Pg Cv I. unfold interpolated.
  rewrite (sum_box_ext _ _ _ (fun p => (fun r => node_weight s q d g a r * comp d (ar_at Q) r) (plus_idx p m))).
  2: { intros p _. rewrite (tile_weight s q d g m a p Pg). destruct d; reflexivity. }
  rewrite <- (sum_box_shift _ _ m (fun r => node_weight s q d g a r * comp d (ar_at Q) r)). symmetry. apply sum_box_window.
  - intros c. destruct (Cv d) as (C1 & C2). apply low_box with (c := c) in C1. apply low_box with (c := c) in C2. specialize (I c). destruct I as (I1 & I2).
    pose proof (degree_range s q d c P) as D. assert (0 <= degree s q d c ÷ 2)%Z by (apply Z.quot_pos; lia).
    assert (Lt : IZR (low_of (minus_idx (0, 0, 0)%Z ng) c + degree s q d c ÷ 2) < IZR (low_of (plus_idx (minus_idx M m) ng) c - degree s q d c ÷ 2)) by lra. apply lt_IZR in Lt.
    destruct m as [[m1 m2] m3], M as [[M1 M2] M3], ng as [[n1 n2] n3]. destruct c; cbn [plus_idx minus_idx low_of] in *; lia.
  - intros p Hp. assert (W0 : node_weight s q d g a p = 0).
    { destruct (Req_dec (node_weight s q d g a p) 0) as [E|E]; [exact E|exfalso]. replace p with (plus_idx (minus_idx p m) m) in E by (destruct p as [[j k] l], m as [[m1 m2] m3]; cbn [plus_idx minus_idx]; rewrite !Z.sub_add; reflexivity).
      rewrite <- (tile_weight s q d g m a _ Pg) in E.
      assert (In' : in_box (minus_idx (0, 0, 0)%Z ng) (plus_idx (minus_idx M m) ng) (minus_idx p m) = true).
      { apply low_box. intros c. specialize (I c). set (pp := minus_idx p m) in *. clearbody pp. destruct pp as [[j k] l]. unfold node_weight, weight_on in E.
        assert (NZ : forall a b c : R, a * b * c <> 0 -> a <> 0 /\ b <> 0 /\ c <> 0) by (intros a0 b0 c0 H; repeat split; intros ->; apply H; ring). apply NZ in E. destruct E as (E1 & E2 & E3).
        destruct (cell0_ex (degree s q d c) (unit_on (tile_cells g m) c a - offset s q d c)) as (nd & Cn). pose proof (fits_cell _ _ _ _ _ (degree_range s q d c P) I (cell0_cell _ _ _ Cn)) as Fc.
        assert (R : forall i, bspline (degree s q d c) (unit_on (tile_cells g m) c a - offset s q d c) i <> 0 -> (nd + smin (degree s q d c) <= i <= nd + smax (degree s q d c))%Z).
        { intros i Hi. destruct (Z_le_dec (nd + smin (degree s q d c)) i), (Z_le_dec i (nd + smax (degree s q d c))); try lia; exfalso; apply Hi; apply (bspline_off _ _ nd); try assumption; try lia; apply degree_range; exact P. }
        destruct c; [specialize (R j E1)|specialize (R k E2)|specialize (R l E3)]; cbn [low_of]; lia. }
      destruct m as [[m1 m2] m3], M as [[M1 M2] M3], ng as [[n1 n2] n3], p as [[j k] l]. cbn [plus_idx minus_idx] in Hp, In'. apply in_box_iff in In'.
      destruct (in_box _ _ (j, k, l)) eqn:Eb in Hp; [discriminate|]. assert (in_box (0 - n1 + m1, 0 - n2 + m2, 0 - n3 + m3) (M1 - m1 + n1 + m1, M2 - m2 + n2 + m2, M3 - m3 + n3 + m3) (j, k, l) = true)%Z by (apply in_box_iff; lia). congruence. }
    rewrite W0. ring.
Qed.
Lemma copy3_stored (F0 : field (num FRX)) Q m M ng : stored F0 Q -> covers Q m M ng ->
  exists Ft, copy3 F0 (minus_idx m ng) (plus_idx M ng) ng = Ret Ft /\ stored Ft (tile_arrays Q m M ng).
Proof.
  intros H Cv.
  assert (One : forall d, exists gt, tile_copy (array d F0) (minus_idx m ng) (plus_idx M ng) ng = Ret gt /\ isg gt (minus_idx (0, 0, 0)%Z ng) (plus_idx (minus_idx M m) ng) (fun p => comp d (ar_at Q) (plus_idx p m))).
  { intros d. destruct (Cv d) as (C1 & C2). destruct (H d) as (G1 & G2 & G3). change (glo (array d F0) = ar_lo Q d) in G1. change (ghi (array d F0) = ar_hi Q d) in G2.
    unfold tile_copy. rewrite G1, G2, C1, C2. cbn [andb].
    destruct m as [[m1 m2] m3], M as [[M1 M2] M3], ng as [[n1 n2] n3]. cbn [plus_idx minus_idx] in *. eexists. split; [reflexivity|].
    assert (T : forall a b c a' b' c' : Z, a = a' -> b = b' -> c = c' -> (a, b, c) = (a', b', c')) by congruence.
    split; [cbn [glo]; apply T; lia|]. split; [cbn [ghi]; apply T; lia|]. intros [[j k] l] Hp. cbn [gat plus_idx]. replace (j + n1 + (m1 - n1), k + n2 + (m2 - n2), l + n3 + (m3 - n3))%Z with (j + m1, k + m2, l + m3)%Z by (apply T; lia).
    apply G3. apply in_box_iff in Hp. destruct (ar_lo Q d) as [[a1 a2] a3], (ar_hi Q d) as [[b1 b2] b3]. apply in_box_iff in C1, C2. apply in_box_iff. lia. }
  destruct (One AX) as (gx & Ex & Gx). destruct (One AY) as (gy & Ey & Gy). destruct (One AZ) as (gz & Ez & Gz). cbn [array] in Ex, Ey, Ez.
  unfold copy3. rewrite Ex, Ey, Ez. cbn [bind]. eexists. split; [reflexivity|]. intros d. destruct d; assumption.
Qed.
Theorem tile_gather s g E B QE QB ps vs m M ng lvect algo : proper_scheme s -> proper g -> stored E QE -> stored B QB -> covers QE m M ng -> covers QB m M ng ->
  moderate (minus_idx (0, 0, 0)%Z ng) (plus_idx (minus_idx M m) ng) -> length ps = length vs -> (1 <= lvect)%Z -> exact_choice algo (sc_order s) -> (forall a, In a ps -> in_tile s g m M ng a) ->
  gather_tile {| gt_min := m; gt_max := M; gt_guard := ng; gt_xmin := F (ox (tile_cells g m)); gt_ymin := F (oy (tile_cells g m)); gt_zmin := F (oz (tile_cells g m)); gt_pos := map pos_of ps; gt_fld := vs |}
    (F (hx g)) (F (hy g)) (F (hz g)) (onx (sc_order s)) (ony (sc_order s)) (onz (sc_order s)) E B (sc_lower s) (sc_nodal s) lvect algo =
  Ret {| gt_min := m; gt_max := M; gt_guard := ng; gt_xmin := F (ox (tile_cells g m)); gt_ymin := F (oy (tile_cells g m)); gt_zmin := F (oz (tile_cells g m)); gt_pos := map pos_of ps;
         gt_fld := map fld_of (map (fields_at s g QE QB) ps) |}.
Proof.
  intros P Pg HE HB CE CB Md L Lv Ch I. unfold gather_tile. cbn [gt_min gt_max gt_guard gt_xmin gt_ymin gt_zmin gt_pos gt_fld].
  destruct (copy3_stored E QE m M ng HE CE) as (Et & E1 & SE). destruct (copy3_stored B QB m M ng HB CB) as (Bt & B1 & SB).
  assert (Hc : hx (tile_cells g m) = hx g /\ hy (tile_cells g m) = hy g /\ hz (tile_cells g m) = hz g) by (destruct m as [[? ?] ?]; auto).
  assert (Pt : proper (tile_cells g m)) by (destruct Hc as (-> & -> & ->) || (unfold proper; destruct Hc as (H1 & H2 & H3); rewrite H1, H2, H3; exact Pg)).
  destruct (Z.eqb_spec (zlen (map pos_of ps)) 0) as [E0|_].
  { destruct ps; [|unfold zlen in E0; rewrite map_length in E0; cbn [length] in E0; lia]. destruct vs; [|discriminate]. destruct m as [[? ?] ?], M as [[? ?] ?], ng as [[? ?] ?]. reflexivity. }
  assert (Z1 : map (fun _ => zero_fld) vs = map fld_of (map (fun _ => none) ps)).
  { clear -L. revert vs L. induction ps as [|a ps IH]; intros [|v vs] L; try discriminate; [reflexivity|]. cbn [map]. f_equal. apply IH. now injection L. }
  destruct Hc as (Hx & Hy & Hz).
  assert (Call : geteb3d_energy_conserving_generic (zlen (map pos_of ps)) (map pos_of ps) (map (fun _ => zero_fld) vs)
      (@Build_Geom FRX (F (ox (tile_cells g m))) (F (oy (tile_cells g m))) (F (oz (tile_cells g m))) (F (hx g)) (F (hy g)) (F (hz g)))
      (onx (sc_order s)) (ony (sc_order s)) (onz (sc_order s)) Et Bt false (sc_lower s) (sc_nodal s) lvect algo = Ret (map fld_of (map (fields_at s g QE QB) ps))).
  { rewrite Z1. rewrite <- Hx, <- Hy, <- Hz. replace (zlen (map pos_of ps)) with (zlen ps) by (unfold zlen; now rewrite map_length).
    etransitivity; [apply (call_ok s (tile_cells g m) Et Bt (tile_arrays QE m M ng) (tile_arrays QB m M ng) ps (map (fun _ => none) ps) lvect algo); try assumption|].
    - now rewrite map_length.
    - intros d. exact Md.
    - intros d. exact Md.
    - intros a Ha d. split; apply (I a Ha).
    - f_equal. f_equal. unfold gathered. 
      assert (Eq : forall a, In a ps -> add_eb none (fields_at s (tile_cells g m) (tile_arrays QE m M ng) (tile_arrays QB m M ng) a) = fields_at s g QE QB a).
      { intros a Ha. unfold fields_at, of_axes. cbn [tile_arrays ar_lo ar_hi].
        pose proof (fun d => tile_interpolated s Electric d g QE m M ng a P Pg CE (I a Ha Electric d)) as TE. pose proof (fun d => tile_interpolated s Magnetic d g QB m M ng a P Pg CB (I a Ha Magnetic d)) as TB.
        pose proof (TE AX). pose proof (TE AY). pose proof (TE AZ). pose proof (TB AX). pose proof (TB AY). pose proof (TB AZ). cbn [tile_arrays ar_at] in *. rewrite H, H0, H1, H2, H3, H4.
        unfold add_eb, none, add3. cbn [fst snd x3 y3 z3]. rewrite !Rplus_0_l. reflexivity. }
      clear -Eq. induction ps as [|a ps IH]; [reflexivity|]. cbn [map combine fst snd]. f_equal; [apply Eq; left; reflexivity|]. apply IH. intros b Hb. apply Eq. right. exact Hb. }
  revert E1 B1 Call. destruct m as [[m1 m2] m3], M as [[M1 M2] M3], ng as [[n1 n2] n3]. cbn [plus_idx minus_idx]. intros E1 B1 Call. cbv beta iota zeta. rewrite E1. cbn [bind]. rewrite B1. cbn [bind]. rewrite Call. reflexivity.
Qed.

(** ** the statements of PropGather.v *)
Theorem all_agree s g E B QE QB ps vs lvect lvect' algo algo' : proper_scheme s -> proper g -> stored E QE -> stored B QB -> length ps = length vs -> (1 <= lvect)%Z -> (1 <= lvect')%Z ->
  exact_choice algo (sc_order s) -> exact_choice algo' (sc_order s) -> gather_call s g E B ps vs lvect algo = gather_call s g E B ps vs lvect' algo'.
Proof. intros. etransitivity; [apply (call_run s g E B QE QB); assumption|symmetry; apply (call_run s g E B QE QB); assumption]. Qed.
