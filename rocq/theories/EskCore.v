(** The current of all particles (proofs only). *)
From Coq Require Import ZArith Reals List Bool Lia Lra Psatz.
From Verif Require Import Cxx Num NumRX CxxLemmas Fortran FortranNum FortranLemmas Grid GridLemmas Pushers Deposit Esirkepov SpecYee YeeReal SpecDeposit Splines Sums DepositProofs EskLoops EskReal.
Import ListNotations.
Local Open Scope R_scope.

Definition area (g : cells) (d : axis) : R := match d with AX => hy g * hz g | AY => hx g * hz g | AZ => hx g * hy g end.
(** the field c is the current of the particles ps, where nw and ol give the new and the old place *)
Record current (o : orders) (g : cells) (q dt : R) (lo hi : axis -> idx) (ps : list (rpart * rpart)) (c : rfield) : Prop := {
  cu_diff : forall d p, comp d c p - comp d c (shift d (-1) p) =
     sumR (map (fun a => q * rw (fst a) / (dt * area g d) * inflow o g d (fst a) (snd a) p) ps);
  cu_out : forall d p, in_box (lo d) (hi d) p = false -> comp d c p = 0;
  cu_sum : forall d, (1 <= order_on o d)%Z -> sum_box (lo d) (hi d) (comp d c) =
     sumR (map (fun a => q * rw (fst a) / (dt * area g d) * (unit_on g d (fst a) - unit_on g d (snd a))) ps) }.
Lemma current_nil o g q dt lo hi : current o g q dt lo hi [] (RField (fun _ => 0) (fun _ => 0) (fun _ => 0)).
Proof.
  assert (Q : forall d p, comp d (RField (fun _ => 0) (fun _ => 0) (fun _ => 0)) p = 0) by (intros d p; destruct d; reflexivity).
  constructor; intros; cbn [map]; change (sumR []) with 0; rewrite ?Q; try lra.
  unfold sum_box. rewrite (sumR_ext _ (fun _ => 0)) by (intros; apply Q). apply sumR_0.
Qed.
Lemma current_cons o g q dt lo hi a ps c c' : current o g q dt lo hi [a] c -> current o g q dt lo hi ps c' ->
  current o g q dt lo hi (a :: ps) (plus_field c c').
Proof.
  intros [A1 A2 A3] [B1 B2 B3]. constructor.
  - intros d p. rewrite !comp_plus. specialize (A1 d p). specialize (B1 d p). cbn [map] in *. unfold sumR in *. cbn [fold_right] in *. lra.
  - intros d p H. rewrite comp_plus, A2, B2 by exact H. lra.
  - intros d O. specialize (A3 d O). specialize (B3 d O). unfold sum_box in *.
    rewrite (sumR_ext _ (fun p => comp d c p + comp d c' p)) by (intros; apply comp_plus). rewrite sumR_plus, A3, B3.
    cbn [map]. unfold sumR. cbn [fold_right]. lra.
Qed.

(** ** one particle *)
Section Core.
Context {C : Type} (loops : num FRX -> num FRX -> num FRX -> Ax (N := FRX) -> Ax (N := FRX) -> Ax (N := FRX) -> field (num FRX) * C -> out (field (num FRX) * C)).
Context (loops_ok : forall wx wy wz X Y Z', (imin X <= imax X + 1)%Z -> (imin Y <= imax Y + 1)%Z -> (imin Z' <= imax Z' + 1)%Z ->
  forall c, exists c', does (loops wx wy wz X Y Z') (items3 wx wy wz X Y Z') c c').
Definition core (l1 u1 l2 u2 l3 u3 : Z) (o : orders) (g : cells) (q dt : R) (new old : rpart) (s : field (num FRX) * C) : out (field (num FRX) * C) :=
  do X <- axis_shapes (onx o) l1 u1 (F (unit_x g (rpx new))) (F (unit_x g (rpx old)));
  do Y <- axis_shapes (ony o) l2 u2 (F (unit_y g (rpy new))) (F (unit_y g (rpy old)));
  do Z' <- axis_shapes (onz o) l3 u3 (F (unit_z g (rpz new))) (F (unit_z g (rpz old)));
  loops (F (q * rw new / (dt * area g AX))) (F (q * rw new / (dt * area g AY))) (F (q * rw new / (dt * area g AZ))) X Y Z' s.
Definition core_ok (l1 u1 l2 u2 l3 u3 : Z) (o : orders) (g : cells) (new old : rpart) : Prop :=
  ax_ok (onx o) l1 u1 (unit_x g (rpx new)) (unit_x g (rpx old)) /\ ax_ok (ony o) l2 u2 (unit_y g (rpy new)) (unit_y g (rpy old)) /\
  ax_ok (onz o) l3 u3 (unit_z g (rpz new)) (unit_z g (rpz old)).
(** what is touched *)
Definition span (n lo hi : Z) (x xo : R) (e : bool) : Prop :=
  (lo <= Z.min (nod n x) (nod n xo) + smin n /\ Z.max (nod n x) (nod n xo) + smax n - (if e then 1 else 0) <= hi)%Z.
Definition core_in (lo hi : axis -> idx) (o : orders) (g : cells) (new old : rpart) : Prop := forall d,
  let '(a1, a2, a3) := lo d in let '(b1, b2, b3) := hi d in
  span (onx o) a1 b1 (unit_x g (rpx new)) (unit_x g (rpx old)) (axis_eqb d AX) /\
  span (ony o) a2 b2 (unit_y g (rpy new)) (unit_y g (rpy old)) (axis_eqb d AY) /\
  span (onz o) a3 b3 (unit_z g (rpz new)) (unit_z g (rpz old)) (axis_eqb d AZ).

Lemma sum_four a1 a2 a3 b1 b2 b3 A B B' D D' : rsum (zrange a2 b2) B = 1 -> rsum (zrange a2 b2) B' = 1 -> rsum (zrange a3 b3) D = 1 -> rsum (zrange a3 b3) D' = 1 ->
  rsum (zrange a3 b3) (fun l => rsum (zrange a2 b2) (fun k => rsum (zrange a1 b1) (fun j => A j * path_mean (B k) (B' k) (D l) (D' l)))) = rsum (zrange a1 b1) A.
Proof.
  intros H1 H2 H3 H4. set (S := rsum (zrange a1 b1) A).
  transitivity (rsum (zrange a3 b3) (fun l => S * (1 / 2) * D l + S * (1 / 2) * D' l)).
  - apply rsum_ext. intros l _.
    transitivity (rsum (zrange a2 b2) (fun k => S * (D l / 3 + D' l / 6) * B k + S * (D' l / 3 + D l / 6) * B' k)).
    + apply rsum_ext. intros k _. rewrite (rsum_ext _ _ (fun j => path_mean (B k) (B' k) (D l) (D' l) * A j)) by (intros; ring).
      rewrite rsum_scal. fold S. unfold path_mean. field.
    + rewrite rsum_plus, !rsum_scal, H1, H2. field.
  - rewrite rsum_plus, !rsum_scal, H3, H4. field.
Qed.

Lemma core_spec l1 u1 l2 u2 l3 u3 o g q dt new old : known o -> core_ok l1 u1 l2 u2 l3 u3 o g new old ->
  exists L, (forall c, exists c', does (core l1 u1 l2 u2 l3 u3 o g q dt new old) (map fin3 L) c c') /\
    (forall lo hi, all_in3 lo hi L -> current o g q dt lo hi [(new, old)] (made L)) /\
    (forall lo hi, core_in lo hi o g new old -> all_in3 lo hi L).
Proof.
  intros (K1 & K2 & K3) (O1 & O2 & O3). unfold core.
  destruct (ax_ret _ _ _ _ _ K1 O1) as (X & EX & RX & NX & IX & MX).
  destruct (ax_ret _ _ _ _ _ K2 O2) as (Y & EY & RY & NY & IY & MY).
  destruct (ax_ret _ _ _ _ _ K3 O3) as (Z' & EZ & RZ & NZ & IZ & MZ).
  rewrite EX, EY, EZ. cbn [bind].
  set (x := unit_x g (rpx new)) in *. set (xo := unit_x g (rpx old)) in *. set (y := unit_y g (rpy new)) in *. set (yo := unit_y g (rpy old)) in *.
  set (z := unit_z g (rpz new)) in *. set (zo := unit_z g (rpz old)) in *.
  set (wx := q * rw new / (dt * area g AX)). set (wy := q * rw new / (dt * area g AY)). set (wz := q * rw new / (dt * area g AZ)).
  pose proof (ra_le _ _ _ _ RX) as LX. pose proof (ra_le _ _ _ _ RY) as LY. pose proof (ra_le _ _ _ _ RZ) as LZ.
  set (L := ritems3 (onx o) (ony o) (onz o) x xo y yo z zo wx wy wz X Y Z').
  assert (HL : forall d p, hits3 L d p = jform (onx o) (ony o) (onz o) x xo y yo z zo wx wy wz X Y Z' d p).
  { intros d p. apply hits_jform; assumption. }
  assert (IN : forall i j k, (imin X <= i <= imax X)%Z -> (imin Y <= j <= imax Y)%Z -> (imin Z' <= k <= imax Z')%Z -> forall t,
     In t (ritems (onx o) (ony o) (onz o) x xo y yo z zo wx wy wz X Y Z' (i, j, k)) -> In t L).
  { intros i j k Hi Hj Hk t Ht. unfold L, ritems3. apply in_flat_map. exists (i, j, k). split; [|exact Ht]. apply in_box_box. unfold bmin, bmax. apply in_box_iff. lia. }
  exists L. split; [|split].
  - intros c. destruct (loops_ok (F wx) (F wy) (F wz) X Y Z' ltac:(lia) ltac:(lia) ltac:(lia) c) as (c' & D). exists c'.
    unfold L. rewrite <- (items3_fin _ _ _ _ _ _ _ _ _ _ _ _ _ _ _ RX RY RZ). intros J. rewrite <- (D J). rewrite ?EX, ?EY, ?EZ. reflexivity.
  - intros lo hi A. constructor.
    + intros d p. rewrite !comp_made, !HL. rewrite (jform_diff _ _ _ _ _ _ _ _ _ _ _ _ _ _ _ RX RY RZ d p).
      destruct p as [[a b] c]. cbn [map]. unfold sumR. cbn [fold_right fst snd]. unfold inflow. fold x xo y yo z zo. unfold dsp.
      rewrite Rplus_0_r. destruct d; reflexivity.
    + intros d p B. rewrite comp_made. exact (made_outside lo hi L A d p B).
    + intros d O. cbn [map]. unfold sumR. cbn [fold_right fst snd]. rewrite Rplus_0_r. rewrite comp_made.
      rewrite (sum_box_ext _ _ _ (jform (onx o) (ony o) (onz o) x xo y yo z zo wx wy wz X Y Z' d)) by (intros; apply HL).
      destruct d; cbn [order_on unit_on] in *; fold x xo y yo z zo.
      * pose proof (ra_lt _ _ _ _ RX O) as LT.
        assert (T1 : In (AX, (nd X + imin X, nd Y + imin Y, nd Z' + imin Z')%Z, jform (onx o) (ony o) (onz o) x xo y yo z zo wx wy wz X Y Z' AX (nd X + imin X, nd Y + imin Y, nd Z' + imin Z')%Z) L).
        { apply (IN (imin X) (imin Y) (imin Z')); try lia. unfold ritems. destruct (Z.ltb_spec (imin X) (imax X)); [|lia]. left. reflexivity. }
        assert (T2 : In (AX, (nd X + (imax X - 1), nd Y + imax Y, nd Z' + imax Z')%Z, jform (onx o) (ony o) (onz o) x xo y yo z zo wx wy wz X Y Z' AX (nd X + (imax X - 1), nd Y + imax Y, nd Z' + imax Z')%Z) L).
        { apply (IN (imax X - 1)%Z (imax Y) (imax Z')); try lia. unfold ritems. destruct (Z.ltb_spec (imax X - 1) (imax X)); [|lia]. left. reflexivity. }
        apply A in T1, T2. destruct (lo AX) as [[a1 a2] a3], (hi AX) as [[b1 b2] b3]. apply in_box_iff in T1, T2.
        rewrite sum_box_iter. unfold jform. rewrite (sum_four a1 a2 a3 b1 b2 b3 (fun j => wx * cum (onx o) x xo X j) (spline (ony o) y) (spline (ony o) yo) (spline (onz o) z) (spline (onz o) zo)).
        { rewrite rsum_scal. rewrite (cum_total (onx o) x xo X K1 RX) by lia. reflexivity. }
        all: [> apply (sum_new (ony o) y yo Y K2 RY) | apply (sum_old (ony o) y yo Y K2 RY) | apply (sum_new (onz o) z zo Z' K3 RZ) | apply (sum_old (onz o) z zo Z' K3 RZ)]; lia.
      * pose proof (ra_lt _ _ _ _ RY O) as LT.
        assert (T1 : In (AY, (nd X + imin X, nd Y + imin Y, nd Z' + imin Z')%Z, jform (onx o) (ony o) (onz o) x xo y yo z zo wx wy wz X Y Z' AY (nd X + imin X, nd Y + imin Y, nd Z' + imin Z')%Z) L).
        { apply (IN (imin X) (imin Y) (imin Z')); try lia. unfold ritems. destruct (Z.ltb_spec (imin Y) (imax Y)); [|lia]. apply in_or_app. right. left. reflexivity. }
        assert (T2 : In (AY, (nd X + imax X, nd Y + (imax Y - 1), nd Z' + imax Z')%Z, jform (onx o) (ony o) (onz o) x xo y yo z zo wx wy wz X Y Z' AY (nd X + imax X, nd Y + (imax Y - 1), nd Z' + imax Z')%Z) L).
        { apply (IN (imax X) (imax Y - 1)%Z (imax Z')); try lia. unfold ritems. destruct (Z.ltb_spec (imax Y - 1) (imax Y)); [|lia]. apply in_or_app. right. left. reflexivity. }
        apply A in T1, T2. destruct (lo AY) as [[a1 a2] a3], (hi AY) as [[b1 b2] b3]. apply in_box_iff in T1, T2.
        rewrite sum_box_iter. unfold jform.
        transitivity (rsum (zrange a3 b3) (fun l => rsum (zrange a1 b1) (fun j => rsum (zrange a2 b2) (fun k => wy * cum (ony o) y yo Y k * path_mean (spline (onx o) x j) (spline (onx o) xo j) (spline (onz o) z l) (spline (onz o) zo l))))).
        { apply rsum_ext. intros l _. rewrite rsum_swap. apply rsum_ext. intros j _. apply rsum_ext. intros k _. unfold path_mean. field. }
        rewrite (sum_four a2 a1 a3 b2 b1 b3 (fun j => wy * cum (ony o) y yo Y j) (spline (onx o) x) (spline (onx o) xo) (spline (onz o) z) (spline (onz o) zo)).
        { rewrite rsum_scal. rewrite (cum_total (ony o) y yo Y K2 RY) by lia. reflexivity. }
        all: [> apply (sum_new (onx o) x xo X K1 RX) | apply (sum_old (onx o) x xo X K1 RX) | apply (sum_new (onz o) z zo Z' K3 RZ) | apply (sum_old (onz o) z zo Z' K3 RZ)]; lia.
      * pose proof (ra_lt _ _ _ _ RZ O) as LT.
        assert (T1 : In (AZ, (nd X + imin X, nd Y + imin Y, nd Z' + imin Z')%Z, jform (onx o) (ony o) (onz o) x xo y yo z zo wx wy wz X Y Z' AZ (nd X + imin X, nd Y + imin Y, nd Z' + imin Z')%Z) L).
        { apply (IN (imin X) (imin Y) (imin Z')); try lia. unfold ritems. destruct (Z.ltb_spec (imin Z') (imax Z')); [|lia]. apply in_or_app. right. apply in_or_app. right. left. reflexivity. }
        assert (T2 : In (AZ, (nd X + imax X, nd Y + imax Y, nd Z' + (imax Z' - 1))%Z, jform (onx o) (ony o) (onz o) x xo y yo z zo wx wy wz X Y Z' AZ (nd X + imax X, nd Y + imax Y, nd Z' + (imax Z' - 1))%Z) L).
        { apply (IN (imax X) (imax Y) (imax Z' - 1)%Z); try lia. unfold ritems. destruct (Z.ltb_spec (imax Z' - 1) (imax Z')); [|lia]. apply in_or_app. right. apply in_or_app. right. left. reflexivity. }
        apply A in T1, T2. destruct (lo AZ) as [[a1 a2] a3], (hi AZ) as [[b1 b2] b3]. apply in_box_iff in T1, T2.
        rewrite sum_box_iter. unfold jform.
        transitivity (rsum (zrange a2 b2) (fun k => rsum (zrange a1 b1) (fun j => rsum (zrange a3 b3) (fun l => wz * cum (onz o) z zo Z' l * path_mean (spline (onx o) x j) (spline (onx o) xo j) (spline (ony o) y k) (spline (ony o) yo k))))).
        { rewrite rsum_swap. apply rsum_ext. intros k _. rewrite rsum_swap. reflexivity. }
        rewrite (sum_four a3 a1 a2 b3 b1 b2 (fun j => wz * cum (onz o) z zo Z' j) (spline (onx o) x) (spline (onx o) xo) (spline (ony o) y) (spline (ony o) yo)).
        { rewrite rsum_scal. rewrite (cum_total (onz o) z zo Z' K3 RZ) by lia. reflexivity. }
        all: [> apply (sum_new (onx o) x xo X K1 RX) | apply (sum_old (onx o) x xo X K1 RX) | apply (sum_new (ony o) y yo Y K2 RY) | apply (sum_old (ony o) y yo Y K2 RY)]; lia.
  - intros lo hi A d p v I. unfold L, ritems3 in I. apply in_flat_map in I. destruct I as ([[i j] k] & Hb & I).
    apply in_box_box in Hb. unfold bmin, bmax in Hb. apply in_box_iff in Hb. specialize (A d). unfold span in A. fold x xo y yo z zo in A.
    destruct (lo d) as [[a1 a2] a3], (hi d) as [[b1 b2] b3].
    unfold ritems in I. unfold jump in *. apply in_app_or in I. destruct I as [I|I]; [|apply in_app_or in I; destruct I as [I|I]].
    + destruct (Z.ltb_spec i (imax X)); [|destruct I]. destruct I as [I|[]]. injection I as <- <- _. apply in_box_iff. cbn [axis_eqb] in A. lia.
    + destruct (Z.ltb_spec j (imax Y)); [|destruct I]. destruct I as [I|[]]. injection I as <- <- _. apply in_box_iff. cbn [axis_eqb] in A. lia.
    + destruct (Z.ltb_spec k (imax Z')); [|destruct I]. destruct I as [I|[]]. injection I as <- <- _. apply in_box_iff. cbn [axis_eqb] in A. lia.
Qed.
Lemma core_ub l1 u1 l2 u2 l3 u3 o g q dt new old s : known o -> ~ core_ok l1 u1 l2 u2 l3 u3 o g new old -> core l1 u1 l2 u2 l3 u3 o g q dt new old s = UB.
Proof.
  intros (K1 & K2 & K3) H. unfold core.
  destruct (ax_ok_dec (onx o) l1 u1 (unit_x g (rpx new)) (unit_x g (rpx old))) as [O1|O1]; [|rewrite ax_ub by exact O1; reflexivity].
  destruct (ax_ret _ _ _ _ _ K1 O1) as (X & -> & _). cbn [bind].
  destruct (ax_ok_dec (ony o) l2 u2 (unit_y g (rpy new)) (unit_y g (rpy old))) as [O2|O2]; [|rewrite ax_ub by exact O2; reflexivity].
  destruct (ax_ret _ _ _ _ _ K2 O2) as (Y & -> & _). cbn [bind].
  destruct (ax_ok_dec (onz o) l3 u3 (unit_z g (rpz new)) (unit_z g (rpz old))) as [O3|O3]; [|rewrite ax_ub by exact O3; reflexivity].
  exfalso. apply H. unfold core_ok. auto.
Qed.
Lemma core_ok_dec l1 u1 l2 u2 l3 u3 o g new old : {core_ok l1 u1 l2 u2 l3 u3 o g new old} + {~ core_ok l1 u1 l2 u2 l3 u3 o g new old}.
Proof.
  unfold core_ok.
  destruct (ax_ok_dec (onx o) l1 u1 (unit_x g (rpx new)) (unit_x g (rpx old))), (ax_ok_dec (ony o) l2 u2 (unit_y g (rpy new)) (unit_y g (rpy old))), (ax_ok_dec (onz o) l3 u3 (unit_z g (rpz new)) (unit_z g (rpz old))); tauto.
Qed.

(** ** all particles: the new place, the old place and the size of the scratch arrays *)
Context (l1 u1 l2 u2 l3 u3 : Z) (o : orders) (g : cells) (q dt : R) (K : known o).
Notation stp := (fun a : rpart * rpart => core l1 u1 l2 u2 l3 u3 o g q dt (fst a) (snd a)).
Theorem cores_sound ps : forall J c J' c' lo hi j, holds J lo hi j -> foldM stp ps (J, c) = Ret (J', c') ->
  exists m, current o g q dt lo hi ps m /\ holds J' lo hi (plus_field j m).
Proof.
  induction ps as [|a ps IH]; intros J c J' c' lo hi j H E.
  - injection E as <- <-. exists (RField (fun _ => 0) (fun _ => 0) (fun _ => 0)). split; [apply current_nil|]. apply (holds_ext _ _ _ _ _ H).
    intros d p _. rewrite comp_plus. destruct d; cbn; symmetry; apply Rplus_0_r.
  - cbn [foldM] in E. destruct (core_ok_dec l1 u1 l2 u2 l3 u3 o g (fst a) (snd a)) as [O|O].
    2:{ rewrite core_ub in E by assumption. discriminate. }
    destruct (core_spec l1 u1 l2 u2 l3 u3 o g q dt (fst a) (snd a) K O) as (L & D & Cu & _). destruct (D c) as (c1 & D1). rewrite (D1 J) in E.
    destruct (all_in3_dec lo hi L) as [A|A]; [|rewrite (run3_ub L J lo hi j H A) in E; discriminate].
    destruct (run3_ok L J lo hi j H A) as (J1 & R1 & H1). rewrite R1 in E. cbn [bind] in E.
    destruct (IH J1 c1 J' c' lo hi _ H1 E) as (m & Cm & Hm). exists (plus_field (made L) m). split.
    + apply current_cons; [|exact Cm]. destruct a as [nw ol]. exact (Cu lo hi A).
    + apply (holds_ext _ _ _ _ _ Hm). intros d p _. rewrite !comp_plus. apply Rplus_assoc.
Qed.
Theorem cores_complete ps : forall J c lo hi j, holds J lo hi j ->
  (forall a, In a ps -> core_ok l1 u1 l2 u2 l3 u3 o g (fst a) (snd a) /\ core_in lo hi o g (fst a) (snd a)) -> exists J' c', foldM stp ps (J, c) = Ret (J', c').
Proof.
  induction ps as [|a ps IH]; intros J c lo hi j H A; [exists J, c; reflexivity|].
  destruct (A a (or_introl eq_refl)) as [O I]. cbn [foldM].
  destruct (core_spec l1 u1 l2 u2 l3 u3 o g q dt (fst a) (snd a) K O) as (L & D & _ & Al). destruct (D c) as (c1 & D1). rewrite (D1 J).
  destruct (run3_ok L J lo hi j H (Al lo hi I)) as (J1 & R1 & H1). rewrite R1. cbn [bind].
  apply (IH J1 c1 lo hi _ H1). intros b Hb. apply A. right. exact Hb.
Qed.
Theorem cores_ub ps : forall J c lo hi j a, holds J lo hi j -> In a ps -> ~ core_ok l1 u1 l2 u2 l3 u3 o g (fst a) (snd a) -> foldM stp ps (J, c) = UB.
Proof.
  induction ps as [|b ps IH]; intros J c lo hi j a H I A; [destruct I|]. cbn [foldM].
  destruct (core_ok_dec l1 u1 l2 u2 l3 u3 o g (fst b) (snd b)) as [O|O]; [|rewrite core_ub by assumption; reflexivity].
  destruct (core_spec l1 u1 l2 u2 l3 u3 o g q dt (fst b) (snd b) K O) as (L & D & _ & _). destruct (D c) as (c1 & D1). rewrite (D1 J).
  destruct (all_in3_dec lo hi L) as [B|B]; [|rewrite (run3_ub L J lo hi j H B); reflexivity].
  destruct (run3_ok L J lo hi j H B) as (J1 & -> & H1). cbn [bind]. destruct I as [<-|I]; [contradiction|]. exact (IH J1 c1 lo hi _ a H1 I A).
Qed.
End Core.

(** ** the equation of continuity *)
Lemma path_identity a a0 b b0 c c0 :
  (a0 - a) * path_mean b b0 c c0 + (b0 - b) * path_mean c c0 a a0 + (c0 - c) * path_mean a a0 b b0 = a0 * b0 * c0 - a * b * c.
Proof. unfold path_mean. field. Qed.
Lemma inflow_total o g new old p : inflow o g AX new old p + inflow o g AY new old p + inflow o g AZ new old p =
  share o g (rpx old) (rpy old) (rpz old) p - share o g (rpx new) (rpy new) (rpz new) p.
Proof. destruct p as [[j k] l]. unfold inflow, share. apply path_identity. Qed.
Lemma bwd_yee a b c d f p : bwd (yee a b c) d f p = (match d with AX => / a | AY => / b | AZ => / c end) * (f p - f (shift d (-1) p)).
Proof.
  unfold bwd, Sum. cbn [half_order yee]. change (zrange 1 1) with [1%Z]. cbn [map fold_right coef yee ist]. change (1 - 1)%Z with 0%Z.
  assert (E : shift d 0 p = p) by (destruct p as [[j k] l], d; cbn; rewrite ?Z.add_0_r; reflexivity). rewrite E. change (-(1))%Z with (-1)%Z. destruct d; ring.
Qed.
Theorem continuity o g q dt lo hi ps c : proper g -> dt <> 0 -> current o g q dt lo hi ps c ->
  (forall a, In a ps -> rw (snd a) = rw (fst a)) ->
  forall p, div (bwd (yee (hx g) (hy g) (hz g))) c p = - (density o g q (map fst ps) p - density o g q (map snd ps) p) / dt.
Proof.
  intros (P1 & P2 & P3) T [D _ _] W p. unfold div. rewrite !bwd_yee.
  pose proof (D AX p) as DX. pose proof (D AY p) as DY. pose proof (D AZ p) as DZ. cbn [comp] in DX, DY, DZ. rewrite DX, DY, DZ. clear D DX DY DZ.
  rewrite <- !sumR_scal. rewrite <- !sumR_plus. unfold density. rewrite !map_map.
  rewrite <- sumR_minus.
  rewrite (sumR_ext _ (fun a => (- / dt) * (q * rw (fst a) / volume g * share o g (rpx (fst a)) (rpy (fst a)) (rpz (fst a)) p - q * rw (snd a) / volume g * share o g (rpx (snd a)) (rpy (snd a)) (rpz (snd a)) p))).
  - rewrite sumR_scal. unfold Rdiv. ring.
  - intros a Ha. rewrite (W a Ha). unfold area, volume.
    pose proof (inflow_total o g (fst a) (snd a) p) as I.
    transitivity (q * rw (fst a) / (dt * (hx g * hy g * hz g)) * (inflow o g AX (fst a) (snd a) p + inflow o g AY (fst a) (snd a) p + inflow o g AZ (fst a) (snd a) p)).
    + field. auto.
    + rewrite I. field. auto.
Qed.
