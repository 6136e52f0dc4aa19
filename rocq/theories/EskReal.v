(** The current deposition in exact arithmetic (proofs only). *)
From Coq Require Import ZArith Reals List Bool Lia Lra Psatz.
From Verif Require Import Cxx Num NumRX CxxLemmas Fortran FortranNum FortranLemmas Grid GridLemmas Pushers Deposit Esirkepov SpecYee YeeReal SpecDeposit Splines Sums DepositProofs EskLoops.
Import ListNotations.
Local Open Scope R_scope.

(** ** shape factors *)
Record real_ax (n : Z) (x xo : R) (A : Ax (N := FRX)) : Prop := {
  ra_s0 : forall m, s0 A m = F (spline n x (nd A + m));
  ra_ds : forall m, ds A m = F (spline n xo (nd A + m) - spline n x (nd A + m));
  ra_le : (imin A <= imax A)%Z;
  ra_lt : (1 <= n)%Z -> (imin A < imax A)%Z;
  ra_new : forall i, ~ (nd A + imin A <= i <= nd A + imax A)%Z -> spline n x i = 0;
  ra_old : forall i, ~ (nd A + imin A <= i <= nd A + imax A)%Z -> spline n xo i = 0 }.

Definition jump (n : Z) (x xo : R) : Z := (nod n xo - nod n x)%Z.
(** the arrays of shape factors are large enough *)
Definition ax_ok (n lo hi : Z) (x xo : R) : Prop :=
  found n x /\ found n xo /\ (lo <= smin n /\ smax n <= hi /\ lo <= smin n + jump n x xo /\ smax n + jump n x xo <= hi)%Z.
Lemma ax_ok_dec n lo hi x xo : {ax_ok n lo hi x xo} + {~ ax_ok n lo hi x xo}.
Proof.
  unfold ax_ok. destruct (found_dec n x), (found_dec n xo), (Z_le_dec lo (smin n)), (Z_le_dec (smax n) hi), (Z_le_dec lo (smin n + jump n x xo)), (Z_le_dec (smax n + jump n x xo) hi); tauto.
Qed.
Lemma ax_ret n lo hi x xo : (0 <= n <= 3)%Z -> ax_ok n lo hi x xo ->
  exists A, axis_shapes n lo hi (F x) (F xo) = Ret A /\ real_ax n x xo A /\
    nd A = nod n x /\ imin A = (Z.min 0 (jump n x xo) + smin n)%Z /\ imax A = (Z.max 0 (jump n x xo) + smax n)%Z.
Proof.
  intros K (Fx & Fo & B). pose proof (nod_is n x Fx) as Nx. pose proof (nod_is n xo Fo) as No.
  destruct Fx as (i0 & E0), Fo as (i & E1). unfold jump in *.
  assert (Q0 : nod n x = i0) by (unfold nod; rewrite E0; reflexivity). assert (Q1 : nod n xo = i) by (unfold nod; rewrite E1; reflexivity).
  rewrite Q0, Q1 in *. unfold axis_shapes. rewrite E0, E1. cbn [bind].
  assert (T : ((lo <=? smin n) && (smax n <=? hi) && ((lo <=? smin n + (i - i0)) && (smax n + (i - i0) <=? hi)))%Z = true)
    by (rewrite !andb_true_iff, !Z.leb_le; lia).
  rewrite T. eexists. split; [reflexivity|]. cbn [nd imin imax]. split; [|auto].
  assert (KK : ((0 <=? n) && (n <=? 3))%Z = true) by (rewrite andb_true_iff, !Z.leb_le; lia).
  assert (S0 : forall m, (if ((0 <=? n) && (n <=? 3) && ((smin n <=? m) && (m <=? smax n)))%Z then shape n (n_sub (F x) (n_of_Z i0)) m else n_lit 0 0) = F (spline n x (i0 + m))).
  { intros m. rewrite KK. cbn [andb]. destruct (((smin n <=? m) && (m <=? smax n))%Z) eqn:E.
    - rewrite andb_true_iff, !Z.leb_le in E. change (n_sub (F x) (n_of_Z i0)) with (F (x - IZR i0)). rewrite shape_fin, spline_on by (assumption || lia). reflexivity.
    - rewrite (spline_off n x i0) by (try assumption; rewrite andb_false_iff, !Z.leb_gt in E; lia). change (n_lit 0 0 : num FRX) with (F 0). reflexivity. }
  assert (S1 : forall m, (if ((0 <=? n) && (n <=? 3) && ((smin n + (i - i0) <=? m) && (m <=? smax n + (i - i0))))%Z then shape n (n_sub (F xo) (n_of_Z i)) (m - (i - i0)) else n_lit 0 0) = F (spline n xo (i0 + m))).
  { intros m. rewrite KK. cbn [andb]. destruct (((smin n + (i - i0) <=? m) && (m <=? smax n + (i - i0)))%Z) eqn:E.
    - rewrite andb_true_iff, !Z.leb_le in E. change (n_sub (F xo) (n_of_Z i)) with (F (xo - IZR i)).
      rewrite shape_fin, <- spline_on by (assumption || lia). do 2 f_equal. lia.
    - rewrite (spline_off n xo i) by (try assumption; rewrite andb_false_iff, !Z.leb_gt in E; lia). change (n_lit 0 0 : num FRX) with (F 0). reflexivity. }
  pose proof (smin_smax n ltac:(lia)).
  constructor; cbn [s0 ds nd imin imax].
  - exact S0.
  - intros m. rewrite S0, S1. reflexivity.
  - lia.
  - intros O. assert (1 <= smax n)%Z by (unfold smax; apply (Z.quot_le_mono 2 (n + 1) 2); lia). lia.
  - intros k Hk. apply (spline_off n x i0); try assumption. lia.
  - intros k Hk. apply (spline_off n xo i); try assumption. lia.
Qed.
Lemma ax_ub n lo hi x xo : ~ ax_ok n lo hi x xo -> axis_shapes n lo hi (F x) (F xo) = UB.
Proof.
  intros H. unfold axis_shapes. destruct (node_out n x) as [(i0 & E0)|E0]; rewrite E0; [|reflexivity]. cbn [bind].
  destruct (node_out n xo) as [(i & E1)|E1]; rewrite E1; [|reflexivity]. cbn [bind].
  match goal with |- (if ?b then _ else _) = _ => destruct b eqn:E; [|reflexivity] end.
  exfalso. apply H. unfold ax_ok, jump, found, nod. rewrite E0, E1. rewrite !andb_true_iff, !Z.leb_le in E. split; [eauto|]. split; [eauto|]. lia.
Qed.

Section Axis.
Context (n : Z) (x xo : R) (A : Ax (N := FRX)) (K : (0 <= n <= 3)%Z) (RA : real_ax n x xo A).
Definition dsp (m : Z) : R := spline n xo m - spline n x m.
Definition cum (a : Z) : R := rsum (zrange (nd A + imin A) a) dsp.
Lemma dsp_off i : ~ (nd A + imin A <= i <= nd A + imax A)%Z -> dsp i = 0.
Proof. intros H. unfold dsp. rewrite (ra_new _ _ _ _ RA i H), (ra_old _ _ _ _ RA i H). lra. Qed.
Lemma sum_new lo hi : (lo <= nd A + imin A)%Z -> (nd A + imax A <= hi)%Z -> rsum (zrange lo hi) (spline n x) = 1.
Proof. intros L H. apply spline_total; [exact K|]. intros i Hi. destruct (Z_le_dec lo i), (Z_le_dec i hi); try lia; exfalso; apply Hi; apply (ra_new _ _ _ _ RA); lia. Qed.
Lemma sum_old lo hi : (lo <= nd A + imin A)%Z -> (nd A + imax A <= hi)%Z -> rsum (zrange lo hi) (spline n xo) = 1.
Proof. intros L H. apply spline_total; [exact K|]. intros i Hi. destruct (Z_le_dec lo i), (Z_le_dec i hi); try lia; exfalso; apply Hi; apply (ra_old _ _ _ _ RA); lia. Qed.
Lemma rsum_minus l f h : rsum l (fun i => f i - h i) = rsum l f - rsum l h.
Proof. rewrite !rsum_sumR. apply sumR_minus. Qed.
Lemma cum_left a : (a < nd A + imin A)%Z -> cum a = 0.
Proof. intros H. unfold cum. rewrite zrange_nil by lia. reflexivity. Qed.
Lemma cum_right a : (nd A + imax A <= a)%Z -> cum a = 0.
Proof. intros H. unfold cum, dsp. rewrite rsum_minus, sum_new, sum_old by lia. lra. Qed.
Lemma cum_diff a : cum a - cum (a - 1) = dsp a.
Proof.
  destruct (Z_le_dec (nd A + imin A) a) as [L|L].
  - unfold cum. replace a with (a - 1 + 1)%Z at 1 by lia. rewrite zrange_snoc by lia. rewrite rsum_app. unfold rsum at 2. cbn.
    replace (a - 1 + 1)%Z with a by lia. lra.
  - rewrite !cum_left by lia. rewrite dsp_off by lia. lra.
Qed.
(** sum of the running sums *)
Lemma cum_total lo hi : (1 <= n)%Z -> (lo <= nd A + imin A)%Z -> (nd A + imax A - 1 <= hi)%Z -> rsum (zrange lo hi) cum = x - xo.
Proof.
  intros O L H. pose proof (ra_le _ _ _ _ RA) as LE.
  assert (Q : forall m a, (nd A + imin A - 1 <= a)%Z -> a = (nd A + imin A - 1 + Z.of_nat m)%Z ->
     rsum (zrange (nd A + imin A) a) cum = rsum (zrange (nd A + imin A) a) (fun i => (IZR a + 1 - IZR i) * dsp i)).
  { induction m as [|m IH]; intros a Ha E.
    - rewrite zrange_nil by lia. reflexivity.
    - assert (Ea : a = (a - 1 + 1)%Z) by lia. rewrite Ea at 1 2. rewrite zrange_snoc by lia. rewrite !rsum_app. rewrite (IH (a - 1)%Z) by lia.
      unfold rsum at 2 4. cbn [map fold_right]. replace (a - 1 + 1)%Z with a by lia.
      rewrite (rsum_ext (zrange (nd A + imin A) (a - 1)) (fun i => (IZR a + 1 - IZR i) * dsp i) (fun i => (IZR (a - 1) + 1 - IZR i) * dsp i + dsp i)).
      2:{ intros i _. rewrite minus_IZR. ring. }
      rewrite rsum_plus. fold (cum (a - 1)). pose proof (cum_diff a). lra. }
  set (l := (nd A + imin A)%Z) in *. set (h := (nd A + imax A)%Z).
  assert (B : (l <= h)%Z) by (unfold l, h; lia).
  transitivity (rsum (zrange l h) cum).
  { destruct (Z_le_dec h hi).
    - apply rsum_window; try lia. intros i Hi. destruct (Z_lt_le_dec i l); [apply cum_left; exact l1 | apply cum_right; unfold h in *; lia].
    - assert (E : h = (hi + 1)%Z) by (unfold h in *; lia). rewrite E. rewrite zrange_snoc by lia. rewrite rsum_app. unfold rsum at 3. cbn [map fold_right].
      rewrite (cum_right (hi + 1)) by (unfold h in *; lia). rewrite Rplus_0_r, Rplus_0_r. apply rsum_window; try lia.
      intros i Hi. destruct (Z_lt_le_dec i l); [apply cum_left; exact l0 | apply cum_right; unfold h in *; lia]. }
  rewrite (Q (Z.to_nat (h - l + 1)) h) by lia.
  rewrite (rsum_ext _ _ (fun i => (IZR h + 1) * dsp i - (IZR i * spline n xo i - IZR i * spline n x i))) by (intros; unfold dsp; ring).
  rewrite rsum_minus, rsum_scal. fold (cum h). unfold cum in *. fold l. 
  assert (C : rsum (zrange l h) dsp = 0) by (exact (cum_right h ltac:(unfold h; lia))). rewrite C. rewrite rsum_minus.
  assert (M : forall y, (forall i, ~ (l <= i <= h)%Z -> spline n y i = 0) -> rsum (zrange l h) (fun i => IZR i * spline n y i) = y).
  { intros y Hy. destruct (is_node_ex n y) as (j & Hj). pose proof (smin_smax n ltac:(lia)) as SM.
    etransitivity; [| exact (spline_moment n y j ltac:(lia) Hj)].
    transitivity (rsum (zrange (Z.min l (j + smin n)) (Z.max h (j + smax n))) (fun i => IZR i * spline n y i)).
    - symmetry. apply rsum_window; try lia. intros i Hi. rewrite (Hy i Hi). ring.
    - apply rsum_window; try lia. intros i Hi. rewrite (spline_off n y j i K Hj Hi). ring. }
  rewrite (M xo (ra_old _ _ _ _ RA)), (M x (ra_new _ _ _ _ RA)). ring.
Qed.
End Axis.

(** ** adding to three arrays *)
Definition ritem : Type := (axis * idx * R)%type.
Definition fin3 (t : ritem) : item (N := FRX) := let '(d, p, v) := t in (d, p, F v).
Definition axis_eqb (d e : axis) : bool := match d, e with AX, AX | AY, AY | AZ, AZ => true | _, _ => false end.
Definition hits3 (L : list ritem) (d : axis) (p : idx) : R :=
  sumR (map (fun t : ritem => let '(e, q, v) := t in if axis_eqb e d && idx_eqb q p then v else 0) L).
Definition made (L : list ritem) : rfield := RField (hits3 L AX) (hits3 L AY) (hits3 L AZ).
Lemma comp_made L d : comp d (made L) = hits3 L d. Proof. destruct d; reflexivity. Qed.
Lemma comp_plus d f h p : comp d (plus_field f h) p = comp d f p + comp d h p. Proof. destruct d; reflexivity. Qed.
Definition all_in3 (lo hi : axis -> idx) (L : list ritem) : Prop := forall d p v, In (d, p, v) L -> in_box (lo d) (hi d) p = true.

Lemma addd_fin t J lo hi f : holds J lo hi f ->
  let '(d, p, v) := t in
  if in_box (lo d) (hi d) p then exists J', addd (fin3 t) J = Ret J' /\ holds J' lo hi (plus_field f (made [t])) else addd (fin3 t) J = UB.
Proof.
  destruct t as [[d p] v]. intros H. pose proof (exec1_add (array d J) (lo d) (hi d) (comp d f) (p, v) (H d)) as E. cbn [fst snd] in E.
  destruct (in_box (lo d) (hi d) p) eqn:B.
  - destruct E as (g & E & G). unfold fin3, addd, addx, addy, addz.
    assert (Q : forall e p', comp e (made [(d, p, v)]) p' = if axis_eqb d e && idx_eqb p p' then v else 0).
    { intros e p'. rewrite comp_made. unfold hits3, sumR. cbn [map fold_right]. lra. }
    destruct d; cbn [array] in E; unfold radd in E; cbn [fst snd] in E; rewrite E; cbn [bind]; eexists; (split; [reflexivity|]);
      intros e; destruct e; cbn [array fx fy fz];
      (eapply isg_ext; [first [exact G | exact (H AX) | exact (H AY) | exact (H AZ)]|]); intros p' _; rewrite comp_plus, Q; cbn [axis_eqb andb comp]; lra.
  - unfold fin3, addd, addx, addy, addz. destruct d; cbn [array] in E; unfold radd in E; cbn [fst snd] in E; rewrite E; reflexivity.
Qed.
Lemma holds_ext J lo hi f h : holds J lo hi f -> (forall d p, in_box (lo d) (hi d) p = true -> comp d f p = comp d h p) -> holds J lo hi h.
Proof. intros H E d. apply (isg_ext _ _ _ _ _ (H d)). intros p Hp. exact (E d p Hp). Qed.
Lemma hits3_cons t L d p : hits3 (t :: L) d p = hits3 [t] d p + hits3 L d p.
Proof. unfold hits3, sumR. cbn [map fold_right]. lra. Qed.
Lemma hits3_app L M d p : hits3 (L ++ M) d p = hits3 L d p + hits3 M d p.
Proof. unfold hits3. rewrite map_app, sumR_app. reflexivity. Qed.
Lemma run3_ok L : forall J lo hi f, holds J lo hi f -> all_in3 lo hi L ->
  exists J', run3 (map fin3 L) J = Ret J' /\ holds J' lo hi (plus_field f (made L)).
Proof.
  induction L as [|t L IH]; intros J lo hi f H A.
  - exists J. split; [reflexivity|]. apply (holds_ext _ _ _ _ _ H). intros d p _. rewrite comp_plus, comp_made. unfold hits3. cbn. lra.
  - cbn [map run3]. pose proof (addd_fin t J lo hi f H) as E. destruct t as [[d p] v]. rewrite (A d p v (or_introl eq_refl)) in E.
    destruct E as (J1 & -> & H1). cbn [bind]. destruct (IH J1 lo hi _ H1) as (J2 & -> & H2); [intros e q w I; apply (A e q w); right; exact I|].
    exists J2. split; [reflexivity|]. apply (holds_ext _ _ _ _ _ H2). intros e q _. rewrite !comp_plus, !comp_made, (hits3_cons (d, p, v) L e q). apply Rplus_assoc.
Qed.
Lemma all_in3_dec lo hi L : {all_in3 lo hi L} + {~ all_in3 lo hi L}.
Proof.
  destruct (forallb (fun t : ritem => let '(d, p, v) := t in in_box (lo d) (hi d) p) L) eqn:E; [left | right].
  - intros d p v I. rewrite forallb_forall in E. exact (E _ I).
  - intros A. rewrite <- not_true_iff_false in E. apply E. apply forallb_forall. intros [[d p] v] I. exact (A d p v I).
Qed.
Lemma run3_ub L : forall J lo hi f, holds J lo hi f -> ~ all_in3 lo hi L -> run3 (map fin3 L) J = UB.
Proof.
  induction L as [|t L IH]; intros J lo hi f H A; [exfalso; apply A; intros d p v []|].
  cbn [map run3]. pose proof (addd_fin t J lo hi f H) as E. destruct t as [[d p] v]. destruct (in_box (lo d) (hi d) p) eqn:B; [|rewrite E; reflexivity].
  destruct E as (J1 & -> & H1). cbn [bind]. apply (IH J1 lo hi _ H1). intros A'. apply A. intros e q w [I|I]; [injection I as <- <- <-; exact B | exact (A' e q w I)].
Qed.
Lemma made_outside lo hi L : all_in3 lo hi L -> forall d p, in_box (lo d) (hi d) p = false -> hits3 L d p = 0.
Proof.
  intros A d p B. unfold hits3. rewrite (sumR_ext _ (fun _ => 0)); [apply sumR_0|]. intros [[e q] v] I.
  destruct e, d; cbn [axis_eqb andb]; try reflexivity; destruct (idx_eqb q p) eqn:E; try reflexivity; apply idx_eqb_eq in E; subst q; rewrite (A _ _ _ I) in B; discriminate.
Qed.

(** ** the additions made for one particle *)
Lemma psum_fin (f : Z -> num FRX) r lo i : (forall m, f m = F (r m)) -> (lo <= i)%Z -> psum f lo i = F (rsum (zrange lo i) r).
Proof.
  intros H L. unfold psum. remember (Z.to_nat (i - lo)) as n eqn:E. revert i L E. induction n as [|n IH]; intros i L E.
  - assert (i = lo) by lia. subst i. cbn [pre]. rewrite H. rewrite zrange_cons, zrange_nil by lia. unfold rsum. cbn. f_equal. lra.
  - cbn [pre]. rewrite (IH (i - 1)%Z) by lia. rewrite H. replace i with (i - 1 + 1)%Z at 2 by lia. rewrite zrange_snoc by lia. rewrite rsum_app.
    change (n_add (F ?a) (F ?b)) with (F (a + b)). f_equal. unfold rsum at 3. cbn [map fold_right]. replace (lo + Z.of_nat (S n))%Z with i by lia.
    replace (i - 1 + 1)%Z with i by lia. apply (f_equal Fin). lra.
Qed.
Lemma flux_fin wq n1 x1 y1 X n2 x2 y2 Y n3 x3 y3 Z' i j k : real_ax n1 x1 y1 X -> real_ax n2 x2 y2 Y -> real_ax n3 x3 y3 Z' ->
  flux (F wq) X Y Z' i j k = F (wq * dsp n1 x1 y1 (nd X + i) *
    path_mean (spline n2 x2 (nd Y + j)) (spline n2 y2 (nd Y + j)) (spline n3 x3 (nd Z' + k)) (spline n3 y3 (nd Z' + k))).
Proof.
  intros A B C. unfold flux. rewrite (ra_s0 _ _ _ _ B), (ra_s0 _ _ _ _ C), (ra_ds _ _ _ _ A), (ra_ds _ _ _ _ B), (ra_ds _ _ _ _ C).
  change (n_lit 1 0 : num FRX) with (F 1). change (n_lit 3 0 : num FRX) with (F 3). rewrite fdiv by lra.
  change (n_lit 5 (-1) : num FRX) with (F (5 / 10)). cbn. f_equal. unfold dsp, path_mean. field.
Qed.
Lemma sum_fin wq n x xo (A : Ax (N := FRX)) w i : (imin A <= i)%Z ->
  rsum (zrange (imin A) i) (fun m => wq * dsp n x xo (nd A + m) * w) = wq * cum n x xo A (nd A + i) * w.
Proof.
  intros L. rewrite (rsum_ext _ _ (fun m => (wq * w) * dsp n x xo (nd A + m))) by (intros; ring). rewrite rsum_scal. unfold cum.
  replace (nd A + imin A)%Z with (imin A + nd A)%Z by lia. replace (nd A + i)%Z with (i + nd A)%Z by lia. rewrite rsum_shift.
  rewrite (rsum_ext _ (fun i0 => dsp n x xo (i0 + nd A)) (fun i0 => dsp n x xo (nd A + i0))) by (intros; f_equal; lia). ring.
Qed.
Lemma flat_map_box {B} (g : idx -> list B) a1 a2 a3 b1 b2 b3 : flat_map g (box (a1, a2, a3) (b1, b2, b3)) =
  flat_map (fun l => flat_map (fun k => flat_map (fun j => g (j, k, l)) (zrange a1 b1)) (zrange a2 b2)) (zrange a3 b3).
Proof.
  assert (Q : forall (A C : Type) (h : A -> list idx) l, flat_map g (flat_map h l) = flat_map (fun a => flat_map g (h a)) l).
  { intros A _ h l. induction l as [|a l IH]; [reflexivity|]. cbn. rewrite flat_map_app, IH. reflexivity. }
  unfold box. rewrite (Q Z unit). apply flat_map_ext. intros l. rewrite (Q Z unit). apply flat_map_ext. intros k.
  generalize (zrange a1 b1). induction l0 as [|j l0 IH]; [reflexivity|]. cbn. rewrite IH. reflexivity.
Qed.
Lemma flat_map_ext_in {A B} (f g : A -> list B) l : (forall a, In a l -> f a = g a) -> flat_map f l = flat_map g l.
Proof. induction l as [|a l IH]; intros H; [reflexivity|]. cbn. rewrite (H a (or_introl eq_refl)), IH; [reflexivity|]. intros; apply H; right; assumption. Qed.
Lemma map_flat {A B C} (h : B -> C) (f : A -> list B) l : map h (flat_map f l) = flat_map (fun a => map h (f a)) l.
Proof. induction l as [|a l IH]; [reflexivity|]. cbn. rewrite map_app, IH. reflexivity. Qed.

Section Particle.
Context (n1 n2 n3 : Z) (x xo y yo z zo wx wy wz : R) (X Y Z' : Ax (N := FRX)).
Context (K1 : (0 <= n1 <= 3)%Z) (K2 : (0 <= n2 <= 3)%Z) (K3 : (0 <= n3 <= 3)%Z).
Context (AX' : real_ax n1 x xo X) (AY' : real_ax n2 y yo Y) (AZ' : real_ax n3 z zo Z').
(** the current, as a function on all nodes *)
Definition jform (d : axis) (p : idx) : R :=
  let '(a, b, c) := p in
  match d with
  | AX => wx * cum n1 x xo X a * path_mean (spline n2 y b) (spline n2 yo b) (spline n3 z c) (spline n3 zo c)
  | AY => wy * cum n2 y yo Y b * path_mean (spline n3 z c) (spline n3 zo c) (spline n1 x a) (spline n1 xo a)
  | AZ => wz * cum n3 z zo Z' c * path_mean (spline n1 x a) (spline n1 xo a) (spline n2 y b) (spline n2 yo b)
  end.
Definition ritems (q : idx) : list ritem :=
  let '(i, j, k) := q in let p := (nd X + i, nd Y + j, nd Z' + k)%Z in
  (if (i <? imax X)%Z then [(AX, p, jform AX p)] else []) ++ (if (j <? imax Y)%Z then [(AY, p, jform AY p)] else []) ++
  (if (k <? imax Z')%Z then [(AZ, p, jform AZ p)] else []).
Definition bmin : idx := (imin X, imin Y, imin Z'). Definition bmax : idx := (imax X, imax Y, imax Z').
Definition ritems3 : list ritem := flat_map ritems (box bmin bmax).
Lemma items_fin i j k : (imin X <= i)%Z -> (imin Y <= j)%Z -> (imin Z' <= k)%Z ->
  items (F wx) (F wy) (F wz) X Y Z' k j i = map fin3 (ritems (i, j, k)).
Proof.
  intros Bi Bj Bk. unfold items, ritems, at3. rewrite !map_app.
  assert (Ex : px (F wx) X Y Z' k j i = F (jform AX (nd X + i, nd Y + j, nd Z' + k)%Z)).
  { unfold px. rewrite (psum_fin _ _ _ _ (fun m => flux_fin wx _ _ _ X _ _ _ Y _ _ _ Z' m j k AX' AY' AZ') Bi). rewrite sum_fin by lia. reflexivity. }
  assert (Ey : py (F wy) X Y Z' k j i = F (jform AY (nd X + i, nd Y + j, nd Z' + k)%Z)).
  { unfold py. rewrite (psum_fin _ _ _ _ (fun m => flux_fin wy _ _ _ Y _ _ _ Z' _ _ _ X m k i AY' AZ' AX') Bj). rewrite sum_fin by lia. reflexivity. }
  assert (Ez : pz (F wz) X Y Z' k j i = F (jform AZ (nd X + i, nd Y + j, nd Z' + k)%Z)).
  { unfold pz. rewrite (psum_fin _ _ _ _ (fun m => flux_fin wz _ _ _ Z' _ _ _ X _ _ _ Y m i j AZ' AX' AY') Bk). rewrite sum_fin by lia. reflexivity. }
  rewrite Ex, Ey, Ez. destruct (i <? imax X)%Z, (j <? imax Y)%Z, (k <? imax Z')%Z; reflexivity.
Qed.
Lemma items3_fin : items3 (F wx) (F wy) (F wz) X Y Z' = map fin3 ritems3.
Proof.
  unfold items3, ritems3, bmin, bmax. rewrite map_flat, flat_map_box.
  apply flat_map_ext_in. intros k Hk. apply flat_map_ext_in. intros j Hj. apply flat_map_ext_in. intros i Hi.
  apply in_zrange in Hi, Hj, Hk. apply items_fin; lia.
Qed.
Lemma ritems_hits q d p : hits3 (ritems q) d p =
  if idx_eqb (let '(i, j, k) := q in (nd X + i, nd Y + j, nd Z' + k)%Z) p &&
     (let '(i, j, k) := q in match d with AX => i <? imax X | AY => j <? imax Y | AZ => k <? imax Z' end)%Z then jform d p else 0.
Proof.
  destruct q as [[i j] k]. unfold ritems. rewrite !hits3_app.
  set (P := (nd X + i, nd Y + j, nd Z' + k)%Z).
  assert (Q : forall (b : bool) e v, hits3 (if b then [(e, P, v)] else []) d p = if b && axis_eqb e d && idx_eqb P p then v else 0).
  { intros b e v. destruct b; unfold hits3, sumR; cbn [map fold_right andb]; [|reflexivity]. destruct (axis_eqb e d && idx_eqb P p); lra. }
  rewrite !Q. destruct (idx_eqb P p) eqn:E.
  - apply idx_eqb_eq in E. rewrite <- E. destruct d, (i <? imax X)%Z, (j <? imax Y)%Z, (k <? imax Z')%Z; cbn [axis_eqb andb]; lra.
  - rewrite !andb_false_r. cbn [andb]. lra.
Qed.
Lemma path_off_l u v : path_mean 0 0 u v = 0. Proof. unfold path_mean. lra. Qed.
Lemma path_off_r u v : path_mean u v 0 0 = 0. Proof. unfold path_mean. lra. Qed.
Lemma jform_off d p : ~ (let '(a, b, c) := p in
    (nd X + imin X <= a <= nd X + imax X - (if axis_eqb d AX then 1 else 0) /\
     nd Y + imin Y <= b <= nd Y + imax Y - (if axis_eqb d AY then 1 else 0) /\
     nd Z' + imin Z' <= c <= nd Z' + imax Z' - (if axis_eqb d AZ then 1 else 0))%Z) -> jform d p = 0.
Proof.
  destruct p as [[a b] c]. unfold jform. intros H.
  assert (Sx : ~ (nd X + imin X <= a <= nd X + imax X)%Z -> spline n1 x a = 0 /\ spline n1 xo a = 0) by (intros Q; split; [apply (ra_new _ _ _ _ AX') | apply (ra_old _ _ _ _ AX')]; exact Q).
  assert (Sy : ~ (nd Y + imin Y <= b <= nd Y + imax Y)%Z -> spline n2 y b = 0 /\ spline n2 yo b = 0) by (intros Q; split; [apply (ra_new _ _ _ _ AY') | apply (ra_old _ _ _ _ AY')]; exact Q).
  assert (Sz : ~ (nd Z' + imin Z' <= c <= nd Z' + imax Z')%Z -> spline n3 z c = 0 /\ spline n3 zo c = 0) by (intros Q; split; [apply (ra_new _ _ _ _ AZ') | apply (ra_old _ _ _ _ AZ')]; exact Q).
  assert (Cx : ~ (nd X + imin X <= a <= nd X + imax X - 1)%Z -> cum n1 x xo X a = 0).
  { intros Q. destruct (Z_lt_le_dec a (nd X + imin X)); [apply (cum_left n1 x xo X) | apply (cum_right n1 x xo X K1 AX')]; lia. }
  assert (Cy : ~ (nd Y + imin Y <= b <= nd Y + imax Y - 1)%Z -> cum n2 y yo Y b = 0).
  { intros Q. destruct (Z_lt_le_dec b (nd Y + imin Y)); [apply (cum_left n2 y yo Y) | apply (cum_right n2 y yo Y K2 AY')]; lia. }
  assert (Cz : ~ (nd Z' + imin Z' <= c <= nd Z' + imax Z' - 1)%Z -> cum n3 z zo Z' c = 0).
  { intros Q. destruct (Z_lt_le_dec c (nd Z' + imin Z')); [apply (cum_left n3 z zo Z') | apply (cum_right n3 z zo Z' K3 AZ')]; lia. }
  destruct d; cbn [axis_eqb] in H.
  - destruct (Z_le_dec (nd X + imin X) a), (Z_le_dec a (nd X + imax X - 1)); try (rewrite Cx by lia; ring).
    destruct (Z_le_dec (nd Y + imin Y) b), (Z_le_dec b (nd Y + imax Y)); try (destruct Sy as [-> ->]; [lia|]; rewrite path_off_l; ring).
    destruct Sz as [-> ->]; [lia|]. rewrite path_off_r. ring.
  - destruct (Z_le_dec (nd Y + imin Y) b), (Z_le_dec b (nd Y + imax Y - 1)); try (rewrite Cy by lia; ring).
    destruct (Z_le_dec (nd Z' + imin Z') c), (Z_le_dec c (nd Z' + imax Z')); try (destruct Sz as [-> ->]; [lia|]; rewrite path_off_l; ring).
    destruct Sx as [-> ->]; [lia|]. rewrite path_off_r. ring.
  - destruct (Z_le_dec (nd Z' + imin Z') c), (Z_le_dec c (nd Z' + imax Z' - 1)); try (rewrite Cz by lia; ring).
    destruct (Z_le_dec (nd X + imin X) a), (Z_le_dec a (nd X + imax X)); try (destruct Sx as [-> ->]; [lia|]; rewrite path_off_l; ring).
    destruct Sy as [-> ->]; [lia|]. rewrite path_off_r. ring.
Qed.
Lemma hits_jform d p : hits3 ritems3 d p = jform d p.
Proof.
  unfold ritems3. unfold hits3. rewrite map_flat.
  assert (Q : forall (f : idx -> list R) l, sumR (flat_map f l) = sumR (map (fun q => sumR (f q)) l)).
  { intros f l. induction l as [|q l IH]; [reflexivity|]. cbn [flat_map]. rewrite sumR_app, IH. reflexivity. }
  rewrite Q. rewrite (sumR_ext _ (fun q => hits3 (ritems q) d p)) by (intros; reflexivity).
  destruct p as [[a b] c].
  rewrite (sumR_single idx_dec _ _ (a - nd X, b - nd Y, c - nd Z')%Z (NoDup_box _ _)).
  2:{ intros [[i j] k] _ D. rewrite ritems_hits. destruct (idx_eqb _ _) eqn:E; [|reflexivity]. apply idx_eqb_eq in E. injection E as E1 E2 E3.
      exfalso. apply D. f_equal; [f_equal|]; lia. }
  assert (E : idx_eqb (nd X + (a - nd X), nd Y + (b - nd Y), nd Z' + (c - nd Z'))%Z (a, b, c) = true) by (apply idx_eqb_eq; f_equal; [f_equal|]; lia).
  destruct (in_dec idx_dec _ _) as [I|I].
  - rewrite ritems_hits, E. cbn [andb]. apply in_box_box in I. unfold bmin, bmax in I. apply in_box_iff in I.
    destruct d; match goal with |- (if (?u <? ?v)%Z then _ else _) = _ => destruct (Z.ltb_spec u v); [reflexivity|] end; symmetry; apply jform_off; cbn [axis_eqb]; lia.
  - symmetry. apply jform_off. intros H. apply I. apply in_box_box. unfold bmin, bmax. apply in_box_iff. destruct d; cbn [axis_eqb] in H; lia.
Qed.
Lemma jform_diff d p : jform d p - jform d (shift d (-1) p) =
  match d with AX => wx | AY => wy | AZ => wz end *
  (let '(a, b, c) := p in
   match d with
   | AX => dsp n1 x xo a * path_mean (spline n2 y b) (spline n2 yo b) (spline n3 z c) (spline n3 zo c)
   | AY => dsp n2 y yo b * path_mean (spline n3 z c) (spline n3 zo c) (spline n1 x a) (spline n1 xo a)
   | AZ => dsp n3 z zo c * path_mean (spline n1 x a) (spline n1 xo a) (spline n2 y b) (spline n2 yo b)
   end).
Proof.
  destruct p as [[a b] c]. destruct d; cbn [shift jform].
  - replace (a + -1)%Z with (a - 1)%Z by lia. rewrite <- (cum_diff n1 x xo X AX' a). ring.
  - replace (b + -1)%Z with (b - 1)%Z by lia. rewrite <- (cum_diff n2 y yo Y AY' b). ring.
  - replace (c + -1)%Z with (c - 1)%Z by lia. rewrite <- (cum_diff n3 z zo Z' AZ' c). ring.
Qed.
End Particle.
