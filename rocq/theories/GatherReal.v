(** The gathering of the fields in exact arithmetic: lemmas. *)
From Coq Require Import ZArith Reals List Bool Lia Lra Psatz.
From Verif Require Import Cxx Num NumRX CxxLemmas Fortran FortranNum FortranLemmas Grid GridLemmas Pushers Deposit SpecPhys SpecYee YeeReal SpecDeposit
  Splines Sums DepositProofs DepositMore Gather SpecGather.
Import ListNotations.
Local Open Scope R_scope.

(** ** splines around a node *)
Definition cell (m : Z) (y : R) (j : Z) : Prop :=
  if (m =? 2 * (m ÷ 2))%Z then IZR j - 1 / 2 <= y <= IZR j + 1 / 2 else IZR j <= y < IZR j + 1.
Lemma is_node_cell n x j : is_node n x j -> cell n x j.
Proof.
  unfold is_node, cell. destruct (n =? 2 * (n ÷ 2))%Z; [|auto]. intros H.
  assert (Rabs (x - IZR j) <= 1 / 2) as A by lra. apply Rabs_le_inv in A. lra.
Qed.
Lemma three (P : Z -> Prop) : P 1%Z -> P 2%Z -> P 3%Z -> forall n, (1 <= n <= 3)%Z -> P n.
Proof. intros P1 P2 P3 n H. assert (n = 1 \/ n = 2 \/ n = 3)%Z as [-> |[-> | ->]] by lia; assumption. Qed.

Lemma cell_on n x j m : (1 <= n <= 3)%Z -> cell n x j -> (smin n <= m <= smax n)%Z -> spline n x (j + m) = rshape n (x - IZR j) m.
Proof.
  intros K. pattern n. revert n K. apply three.
  - intros H B. apply spline_on; [lia | exact H | exact B].
  - unfold cell, smin, smax. change (2 =? 2 * (2 ÷ 2))%Z with true. cbv iota. intros H B. change (- (2 ÷ 2) <= m <= (2 + 1) ÷ 2)%Z with (-1 <= m <= 1)%Z in B.
    assert (A : -1 / 2 <= x - IZR j <= 1 / 2) by lra. clear H. set (t := x - IZR j) in *.
    assert (m = -1 \/ m = 0 \/ m = 1)%Z as [-> |[-> | ->]] by lia; unfold spline, rshape; cbn zeta; cbn [Z.eqb Pos.eqb]; rewrite plus_IZR.
    + replace (x - (IZR j + -1)) with (t + 1) by (unfold t; ring). rewrite Rabs_pos_eq by lra.
      abs_case; try lra; try field; assert (t = - (1 / 2)) as -> by lra; field.
    + replace (x - (IZR j + 0)) with t by (unfold t; ring).
      abs_case; try lra; try field; nra.
    + replace (x - (IZR j + 1)) with (t - 1) by (unfold t; ring).
      abs_case; try lra; try field; assert (t = 1 / 2) as -> by lra; field.
  - intros H B. apply spline_on; [lia | exact H | exact B].
Qed.
Lemma cell_off n x j i : (1 <= n <= 3)%Z -> cell n x j -> ~ (j + smin n <= i <= j + smax n)%Z -> spline n x i = 0.
Proof.
  intros K. pattern n. revert n K. apply three.
  - intros H B. apply (spline_off 1 x j); [lia | exact H | exact B].
  - unfold cell, smin, smax. change (2 =? 2 * (2 ÷ 2))%Z with true. cbv iota. intros H B. change (- (2 ÷ 2))%Z with (-1)%Z in B. change ((2 + 1) ÷ 2)%Z with 1%Z in B.
    assert (i + 1 + 1 <= j \/ j + 1 + 1 <= i)%Z as [C|C] by lia; apply IZR_far in C; rewrite ?plus_IZR in C; unfold spline; cbn zeta.
    + rewrite (Rabs_pos_eq (x - IZR i)) by lra. abs_case; try lra. replace (x - IZR i) with (3 / 2) by lra. field.
    + rewrite (Rabs_left1 (x - IZR i)) by lra. abs_case; try lra. replace (- (x - IZR i)) with (3 / 2) by lra. field.
  - intros H B. apply (spline_off 3 x j); [lia | exact H | exact B].
Qed.
(** the node found for the values between the nodes *)
Definition cell0 (m : Z) (y : R) (j : Z) : Prop :=
  if (m =? 2 * (m ÷ 2))%Z then IZR j - 1 / 2 <= y < IZR j + 1 / 2 else IZR j <= y < IZR j + 1.
Lemma cell0_cell m y j : cell0 m y j -> cell m y j.
Proof. unfold cell0, cell. destruct (_ =? _)%Z; lra. Qed.
Lemma bspline_on m y j i : (0 <= m <= 3)%Z -> cell0 m y j -> (smin m <= i <= smax m)%Z -> bspline m y (j + i) = rshape m (y - IZR j) i.
Proof.
  intros K C B. destruct (Z.eq_dec m 0) as [->|N].
  - change (smin 0) with 0%Z in B. change (smax 0) with 0%Z in B. assert (i = 0)%Z by lia. subst i. rewrite Z.add_0_r. cbn.
    unfold cell0 in C. cbn in C. destruct (Rle_dec (IZR j - 1 / 2) y); [|lra]. destruct (Rlt_dec y (IZR j + 1 / 2)); [reflexivity | lra].
  - destruct m as [|p|p]; try lia. change (bspline (Zpos p) y (j + i)) with (spline (Zpos p) y (j + i)). apply cell_on; [lia | now apply cell0_cell | exact B].
Qed.
Lemma bspline_off m y j i : (0 <= m <= 3)%Z -> cell0 m y j -> ~ (j + smin m <= i <= j + smax m)%Z -> bspline m y i = 0.
Proof.
  intros K C B. destruct (Z.eq_dec m 0) as [->|N].
  - change (smin 0) with 0%Z in B. change (smax 0) with 0%Z in B. cbn. unfold cell0 in C. cbn in C.
    destruct (Rle_dec (IZR i - 1 / 2) y) as [L|L]; [|reflexivity]. destruct (Rlt_dec y (IZR i + 1 / 2)) as [L'|L']; [|reflexivity]. exfalso.
    assert (i + 1 <= j \/ j + 1 <= i)%Z as [D|D] by lia; apply IZR_far in D; lra.
  - destruct m as [|p|p]; try lia. change (bspline (Zpos p) y i) with (spline (Zpos p) y i). apply (cell_off _ _ j); [lia | now apply cell0_cell | exact B].
Qed.
Lemma bspline_pos m y i : (1 <= m)%Z -> bspline m y i = spline m y i.
Proof. intros H. destruct m; try lia. reflexivity. Qed.

Lemma shape_half_fin n t m : shape_half n (F t) m = F (rshape n t m).
Proof.
  unfold shape_half. destruct n as [|[p|[p|p|]|]|p]; try apply shape_fin.
  all: rewrite sixth, third2; change (n_lit 5 (-1) : num FRX) with (F (5 / 10)); change (n_lit 1 0 : num FRX) with (F 1); change (n_sub (F 1) (F t)) with (F (1 - t));
    unfold rshape; destruct (m =? -1)%Z, (m =? 0)%Z, (m =? 1)%Z; cbn; apply (f_equal Fin); field.
Qed.

(** ** axes *)
(** the axis A has the weights w *)
Definition good (A : axw FRX) (w : Z -> R) : Prop :=
  (ax_lo A <= ax_hi A)%Z /\
  (forall m, (ax_lo A <= m <= ax_hi A)%Z -> ax_w A m = Ret (F (w (ax_node A + m)%Z))) /\
  (forall i, ~ (ax_node A + ax_lo A <= i <= ax_node A + ax_hi A)%Z -> w i = 0).
Definition first (A : axw FRX) : Z := (ax_node A + ax_lo A)%Z.
Definition last (A : axw FRX) : Z := (ax_node A + ax_hi A)%Z.

Lemma factor_ok z n (w : num FRX) : (1 <= n <= 3)%Z -> factor z n w = Ret w.
Proof. intros H. unfold factor. destruct (Z.leb_spec 1 n), (Z.leb_spec n 3); try lia. reflexivity. Qed.
Lemma node_out' n x : (exists j, node n (F x) = Ret j) \/ node n (F x) = UB.
Proof. exact (node_out n x). Qed.

Section Shapes.
Variable sh : Z -> num FRX -> Z -> num FRX.
Variable zr : bool.
Lemma plain_good n x A : (1 <= n <= 3)%Z -> (forall t m, sh n (F t) m = F (rshape n t m)) ->
  plain sh zr n (F x) = Ret A -> good A (spline n x) /\ first A = (ax_node A + smin n)%Z /\ last A = (ax_node A + smax n)%Z /\ is_node n x (ax_node A).
Proof.
  intros K S H. unfold plain in H. destruct (node n (F x)) as [j| | |] eqn:E; cbn [bind] in H; try discriminate. injection H as <-.
  apply node_is in E. split; [|cbn; auto]. split; [cbn; pose proof (smin_smax n); lia|]. cbn. split.
  - intros m B. rewrite factor_ok by exact K. change (n_sub (F x) (n_of_Z j)) with (F (x - IZR j)). rewrite S. f_equal. f_equal. symmetry. apply spline_on; [lia | exact E | exact B].
  - intros i B. apply (spline_off n x j); [lia | exact E | exact B].
Qed.
Lemma node0_is n (lower : bool) s x j : node0 n lower (F s) (F x) = Ret j -> cell0 (if lower then n - 1 else n)%Z (x - s) j.
Proof.
  unfold node0, cell0. set (m := (if lower then n - 1 else n)%Z).
  assert (P : (n =? 2 * (n ÷ 2))%Z = (if lower then negb (m =? 2 * (m ÷ 2))%Z else (m =? 2 * (m ÷ 2))%Z)).
  { unfold m. destruct lower; [|reflexivity]. rewrite <- !Z.even_spec || idtac.
    assert (Q : forall a, (a =? 2 * (a ÷ 2))%Z = Z.even a).
    { intros a. destruct (Z.even a) eqn:Ev.
      - apply Z.even_spec in Ev. destruct Ev as [b ->]. apply Z.eqb_eq. rewrite Z.mul_comm, Z.quot_mul by lia. lia.
      - apply Z.eqb_neq. intros C. rewrite C in Ev. rewrite Z.even_mul in Ev. discriminate. }
    rewrite !Q. rewrite Z.even_sub. cbn. destruct (Z.even n); reflexivity. }
  rewrite P. change (n_sub (F x) (F s)) with (F (x - s)). change (n_sub (n_add (F x) (n_lit 5 (-1))) (F s)) with (F (x + 5 / 10 - s)).
  destruct lower; destruct (m =? 2 * (m ÷ 2))%Z; cbn [negb]; intros H; apply floor_node in H; lra.
Qed.
Lemma stag_good n (lower : bool) s x A : (1 <= n <= 3)%Z -> forall m0, m0 = (if lower then n - 1 else n)%Z ->
  (forall t m, sh m0 (F t) m = F (rshape m0 t m)) -> stag sh zr n lower (F s) (F x) = Ret A ->
  good A (bspline m0 (x - s)) /\ first A = (ax_node A + smin m0)%Z /\ last A = (ax_node A + smax m0)%Z /\ cell0 m0 (x - s) (ax_node A).
Proof.
  intros K m0 M0 S H. unfold stag in H. destruct (node0 n lower (F s) (F x)) as [j| | |] eqn:E; cbn [bind] in H; try discriminate. cbv zeta in H. rewrite <- M0 in H. injection H as <-.
  apply node0_is in E. rewrite <- M0 in E. assert (M : (0 <= m0 <= 3)%Z) by (destruct lower; lia).
  split; [|cbn; auto]. split; [cbn; pose proof (smin_smax m0); lia|]. cbn. split.
  - intros m B. rewrite factor_ok by exact K. change (n_sub (n_sub (F x) (F s)) (n_of_Z j)) with (F (x - s - IZR j)). rewrite S. f_equal. f_equal. symmetry. apply bspline_on; assumption.
  - intros i B. apply (bspline_off m0 _ j); assumption.
Qed.
Lemma floor_out x : (exists j, floor32 (F x) = Ret j) \/ floor32 (F x) = UB.
Proof. unfold floor32. cbn. destruct (_ && _)%bool; eauto. Qed.
Lemma node0_out n lower s x : (exists j, node0 n lower (F s) (F x) = Ret j) \/ node0 n lower (F s) (F x) = UB.
Proof.
  unfold node0. change (n_sub (F x) (F s)) with (F (x - s)). change (n_sub (n_add (F x) (n_lit 5 (-1))) (F s)) with (F (x + 5 / 10 - s)).
  destruct lower, (n =? 2 * (n ÷ 2))%Z; apply floor_out.
Qed.
Lemma plain_out n x : (exists A, plain sh zr n (F x) = Ret A) \/ plain sh zr n (F x) = UB.
Proof. unfold plain. destruct (node_out n x) as [(j & ->)| ->]; cbn; eauto. Qed.
Lemma stag_out n lower s x : (exists A, stag sh zr n lower (F s) (F x) = Ret A) \/ stag sh zr n lower (F s) (F x) = UB.
Proof. unfold stag. destruct (node0_out n lower s x) as [(j & ->)| ->]; cbn; eauto. Qed.
Lemma floor_ex x : Rabs x <= 1000000001 -> exists j, floor32 (F x) = Ret j.
Proof.
  intros A. apply Rabs_le_inv in A. exists (Int_part x). apply floor_node'; [apply Int_part_floor|]. pose proof (Int_part_floor x) as B.
  assert ((- 2 ^ 31 < Int_part x)%Z /\ (Int_part x < 2 ^ 31)%Z); [|lia].
  split; apply lt_IZR; [change (IZR (- 2 ^ 31)) with (-2147483648) | change (IZR (2 ^ 31)) with 2147483648]; lra.
Qed.
End Shapes.

(** ** loops *)
Lemma each_foldM {A S} (f : A -> S -> out S) l s : each f l s = foldM f l s.
Proof. revert s. induction l as [|a l IH]; intros s; cbn; [reflexivity|]. destruct (f a s); cbn; auto. Qed.
Lemma each_sum {A} (f : A -> num FRX -> out (num FRX)) (t : A -> R) l : (forall a e, In a l -> f a (F e) = Ret (F (e + t a))) ->
  forall e, each f l (F e) = Ret (F (e + sumR (map t l))).
Proof.
  induction l as [|a l IH]; intros H e; cbn [each map].
  - do 2 f_equal. unfold sumR. cbn. lra.
  - rewrite (H a e) by (left; reflexivity). cbn [bind]. rewrite IH by (intros; apply H; right; assumption). do 2 f_equal. unfold sumR. cbn. lra.
Qed.
Lemma each_ub {A} (f : A -> num FRX -> out (num FRX)) l b : (forall a e, In a l -> (exists v, f a (F e) = Ret (F v)) \/ f a (F e) = UB) ->
  In b l -> (forall e, f b (F e) = UB) -> forall e, each f l (F e) = UB.
Proof.
  induction l as [|a l IH]; intros H I U e; [destruct I|]. cbn [each]. destruct (H a e (or_introl eq_refl)) as [(v & E)|E]; rewrite E; cbn [bind]; [|reflexivity].
  destruct I as [->|I]; [rewrite U in E; discriminate|]. apply IH; auto. intros; apply H; right; assumption.
Qed.

(** the points from which a component is read are all in the array *)
Definition within (X Y Z : axw FRX) (lo hi : idx) : bool :=
  in_box lo hi (first X, first Y, first Z) && in_box lo hi (last X, last Y, last Z).
Definition total (X Y Z : Z -> R) (lo hi : idx) (f : idx -> R) : R := sum_box lo hi (fun p => let '(j, k, l) := p in X j * Y k * Z l * f p).

Lemma rsum_in lo hi a b (w : Z -> R) f : (a <= b + 1)%Z -> (lo <= a)%Z -> (b <= hi)%Z -> (forall i, ~ (a <= i <= b)%Z -> w i = 0) ->
  rsum (zrange lo hi) (fun i => w i * f i) = rsum (zrange a b) (fun i => w i * f i).
Proof. intros H1 H2 H3 W. apply rsum_window; try assumption. intros i B. rewrite (W i B). ring. Qed.
Lemma total_window X Y Z wx wy wz lo hi f : good X wx -> good Y wy -> good Z wz -> within X Y Z lo hi = true ->
  total wx wy wz lo hi f = rsum (zrange (ax_lo Z) (ax_hi Z)) (fun ll => rsum (zrange (ax_lo Y) (ax_hi Y)) (fun kk => rsum (zrange (ax_lo X) (ax_hi X)) (fun jj =>
     wx (ax_node X + jj)%Z * wy (ax_node Y + kk)%Z * wz (ax_node Z + ll)%Z * f (ax_node X + jj, ax_node Y + kk, ax_node Z + ll)%Z))).
Proof.
  intros (X1 & _ & X3) (Y1 & _ & Y3) (Z1 & _ & Z3) W. unfold within in W. apply andb_true_iff in W. destruct W as [W1 W2].
  destruct lo as [[a1 a2] a3], hi as [[b1 b2] b3]. apply in_box_iff in W1, W2. unfold first, last in *. unfold total. rewrite sum_box_iter.
  rewrite (rsum_ext _ _ (fun l => wz l * rsum (zrange a2 b2) (fun k => wy k * rsum (zrange a1 b1) (fun j => wx j * f (j, k, l))))).
  2:{ intros l _. rewrite <- rsum_scal. apply rsum_ext. intros k _. rewrite <- !rsum_scal. apply rsum_ext. intros j _. ring. }
  rewrite (rsum_in a3 b3 (ax_node Z + ax_lo Z) (ax_node Z + ax_hi Z)) by (assumption || lia).
  rewrite !(Z.add_comm (ax_node Z)), rsum_shift. apply rsum_ext. intros ll _. rewrite (Z.add_comm ll).
  rewrite (rsum_in a2 b2 (ax_node Y + ax_lo Y) (ax_node Y + ax_hi Y)) by (assumption || lia).
  rewrite !(Z.add_comm (ax_node Y)), rsum_shift, <- rsum_scal. apply rsum_ext. intros kk _. rewrite (Z.add_comm kk).
  rewrite (rsum_in a1 b1 (ax_node X + ax_lo X) (ax_node X + ax_hi X)) by (assumption || lia).
  rewrite !(Z.add_comm (ax_node X)), rsum_shift, <- !rsum_scal. apply rsum_ext. intros jj _. rewrite (Z.add_comm jj). ring.
Qed.

Section Three.
Variables (X Y V : axw FRX) (wx wy wz : Z -> R) (g : grid (num FRX)) (lo hi : idx) (f : idx -> R).
Hypotheses (GX : good X wx) (GY : good Y wy) (GZ : good V wz) (Gg : isg g lo hi f).
Lemma get3_in p : in_box lo hi p = true -> get3 g p = Ret (F (f p)).
Proof. intros H. destruct Gg as (G1 & G2 & G3). change (glo g = lo) in G1. change (ghi g = hi) in G2. unfold get3. rewrite G1, G2, H. f_equal. apply G3. exact H. Qed.
Lemma get3_out p : in_box lo hi p = false -> get3 g p = UB.
Proof. intros H. destruct Gg as (G1 & G2 & G3). change (glo g = lo) in G1. change (ghi g = hi) in G2. unfold get3. rewrite G1, G2, H. reflexivity. Qed.
Lemma get3_any p : (exists v, get3 g p = Ret (F v)) \/ get3 g p = UB.
Proof. destruct (in_box lo hi p) eqn:E; [left; eexists; now apply get3_in | right; now apply get3_out]. Qed.
Lemma in_zr a b i : In i (zrange a b) <-> (a <= i <= b)%Z.
Proof. apply in_zrange. Qed.
Lemma within_pt jj kk ll : within X Y V lo hi = true -> (ax_lo X <= jj <= ax_hi X)%Z -> (ax_lo Y <= kk <= ax_hi Y)%Z -> (ax_lo V <= ll <= ax_hi V)%Z ->
  in_box lo hi (ax_node X + jj, ax_node Y + kk, ax_node V + ll)%Z = true.
Proof.
  unfold within. rewrite andb_true_iff. intros [W1 W2] B1 B2 B3. destruct lo as [[a1 a2] a3], hi as [[b1 b2] b3]. apply in_box_iff in W1, W2. apply in_box_iff. unfold first, last in *. lia.
Qed.
Lemma not_within : within X Y V lo hi = false -> exists jj kk ll,
  (ax_lo X <= jj <= ax_hi X)%Z /\ (ax_lo Y <= kk <= ax_hi Y)%Z /\ (ax_lo V <= ll <= ax_hi V)%Z /\
  in_box lo hi (ax_node X + jj, ax_node Y + kk, ax_node V + ll)%Z = false.
Proof.
  destruct GX as (X1 & _), GY as (Y1 & _), GZ as (Z1 & _). unfold within. rewrite andb_false_iff. intros [W|W].
  - exists (ax_lo X), (ax_lo Y), (ax_lo V). repeat split; try lia. exact W.
  - exists (ax_hi X), (ax_hi Y), (ax_hi V). repeat split; try lia. exact W.
Qed.

Lemma gather_real (sign : num FRX -> num FRX) s e : (forall v, sign (F v) = F (v * s)) ->
  gather sign X Y V g (F e) = if within X Y V lo hi then Ret (F (e + s * total wx wy wz lo hi f)) else UB.
Proof.
  intros Sg. destruct (within X Y V lo hi) eqn:W; unfold gather.
  - rewrite (each_sum _ (fun p => let '(jj, kk, ll) := p in wx (ax_node X + jj)%Z * wy (ax_node Y + kk)%Z * wz (ax_node V + ll)%Z * f (ax_node X + jj, ax_node Y + kk, ax_node V + ll)%Z * s)).
    + do 3 f_equal. change (sumR (map ?h (box ?a ?b))) with (sum_box a b h). rewrite sum_box_iter. rewrite (total_window X Y V wx wy wz lo hi f GX GY GZ W).
      rewrite <- rsum_scal. apply rsum_ext. intros ll _. rewrite <- rsum_scal. apply rsum_ext. intros kk _. rewrite <- rsum_scal. apply rsum_ext. intros jj _. ring.
    + intros [[jj kk] ll] e' I. apply in_box_box in I. apply in_box_iff in I. destruct GX as (_ & X2 & _), GY as (_ & Y2 & _), GZ as (_ & Z2 & _).
      rewrite X2, Y2, Z2 by lia. cbn [bind]. rewrite get3_in by (apply within_pt; auto; lia). cbn [bind].
      change (n_mul (n_mul (n_mul (F (wx (ax_node X + jj)%Z)) (F (wy (ax_node Y + kk)%Z))) (F (wz (ax_node V + ll)%Z))) (F (f (ax_node X + jj, ax_node Y + kk, ax_node V + ll)%Z))) with
        (F (wx (ax_node X + jj)%Z * wy (ax_node Y + kk)%Z * wz (ax_node V + ll)%Z * f (ax_node X + jj, ax_node Y + kk, ax_node V + ll)%Z)). rewrite Sg. reflexivity.
  - destruct (not_within W) as (jj & kk & ll & B1 & B2 & B3 & O). destruct GX as (_ & X2 & _), GY as (_ & Y2 & _), GZ as (_ & Z2 & _).
    apply (each_ub _ _ (jj, kk, ll)).
    + intros [[j k] l] e' I. apply in_box_box in I. apply in_box_iff in I. rewrite X2, Y2, Z2 by lia. cbn [bind].
      destruct (get3_any (ax_node X + j, ax_node Y + k, ax_node V + l)%Z) as [(v & ->)| ->]; cbn [bind]; [left | right; reflexivity].
      eexists. change (n_mul (n_mul (n_mul (F (wx (ax_node X + j)%Z)) (F (wy (ax_node Y + k)%Z))) (F (wz (ax_node V + l)%Z))) (F v)) with
        (F (wx (ax_node X + j)%Z * wy (ax_node Y + k)%Z * wz (ax_node V + l)%Z * v)). rewrite Sg. reflexivity.
    + apply in_box_box, in_box_iff. lia.
    + intros e'. rewrite X2, Y2, Z2 by lia. cbn [bind]. rewrite get3_out by exact O. reflexivity.
Qed.

Lemma plus_sum a b (h : Z -> out (num FRX)) (t : Z -> R) : (a <= b)%Z -> (forall i, (a <= i <= b)%Z -> h i = Ret (F (t i))) ->
  plus_terms a b h = Ret (F (rsum (zrange a b) t)).
Proof.
  intros H T. unfold plus_terms. rewrite (T a) by lia. cbn [bind]. rewrite (each_sum _ t).
  - do 2 f_equal. rewrite (zrange_split a a b) by lia. replace (zrange a a) with [a].
    + reflexivity.
    + unfold zrange. replace (Z.to_nat (a - a + 1)) with 1%nat by lia. cbn. f_equal. lia.
  - intros i e I. apply in_zr in I. rewrite (T i) by lia. reflexivity.
Qed.
Lemma plus_any a b (h : Z -> out (num FRX)) : (forall i, (a <= i <= b)%Z -> (exists v, h i = Ret (F v)) \/ h i = UB) -> (a <= b)%Z ->
  (exists v, plus_terms a b h = Ret (F v)) \/ plus_terms a b h = UB.
Proof.
  intros T H. unfold plus_terms. destruct (T a) as [(v & ->)| ->]; [lia| |right; reflexivity]. cbn [bind].
  assert (Q : forall l, (forall i, In i l -> (exists v, h i = Ret (F v)) \/ h i = UB) -> forall e, (exists v, each (fun i a => do t <- h i; Ret (n_add a t)) l (F e) = Ret (F v)) \/ each (fun i a => do t <- h i; Ret (n_add a t)) l (F e) = UB).
  { induction l as [|i l IH]; intros Hl e; cbn [each]; [left; eauto|]. destruct (Hl i (or_introl eq_refl)) as [(u & ->)| ->]; cbn [bind]; [|right; reflexivity].
    change (n_add (F e) (F u)) with (F (e + u)). apply IH. intros; apply Hl; right; assumption. }
  apply Q. intros i I. apply in_zr in I. apply T. lia.
Qed.
Lemma plus_ub a b (h : Z -> out (num FRX)) i : (forall i, (a <= i <= b)%Z -> (exists v, h i = Ret (F v)) \/ h i = UB) -> (a <= i <= b)%Z -> h i = UB -> plus_terms a b h = UB.
Proof.
  intros T B U. unfold plus_terms. destruct (T a) as [(v & E)| ->]; [lia| |reflexivity]. rewrite E. cbn [bind].
  destruct (Z.eq_dec i a) as [->|N]; [rewrite U in E; discriminate|].
  apply (each_ub _ _ i).
  - intros j e I. apply in_zr in I. destruct (T j) as [(u & ->)| ->]; [lia| |right; reflexivity]. left. cbn. eauto.
  - apply in_zr. lia.
  - intros e. rewrite U. reflexivity.
Qed.

Lemma nested_real e : nested X Y V g (F e) = if within X Y V lo hi then Ret (F (e + total wx wy wz lo hi f)) else UB.
Proof.
  destruct GX as (X1 & X2 & X3), GY as (Y1 & Y2 & Y3), GZ as (Z1 & Z2 & Z3). destruct (within X Y V lo hi) eqn:W; unfold nested.
  - rewrite (total_window X Y V wx wy wz lo hi f GX GY GZ W). unfold rsum at 1. change (fold_right Rplus 0) with sumR.
    apply each_sum. intros ll e' I. apply in_zr in I.
    rewrite (plus_sum _ _ _ (fun kk => rsum (zrange (ax_lo X) (ax_hi X)) (fun jj => wx (ax_node X + jj)%Z * f (ax_node X + jj, ax_node Y + kk, ax_node V + ll)%Z) * wy (ax_node Y + kk)%Z) Y1).
    + cbn [bind]. rewrite Z2 by lia. cbn [bind]. do 2 f_equal. cbn. apply (f_equal Fin). f_equal. rewrite Rmult_comm, <- rsum_scal. apply rsum_ext. intros kk _.
      rewrite (Rmult_comm (rsum _ _)), <- Rmult_assoc, <- rsum_scal. apply rsum_ext. intros jj _. ring.
    + intros kk Bk. rewrite (plus_sum _ _ _ (fun jj => wx (ax_node X + jj)%Z * f (ax_node X + jj, ax_node Y + kk, ax_node V + ll)%Z) X1).
      * cbn [bind]. rewrite Y2 by lia. reflexivity.
      * intros jj Bj. rewrite X2 by lia. cbn [bind]. rewrite get3_in by (apply within_pt; auto; lia). reflexivity.
  - destruct (not_within W) as (jj & kk & ll & B1 & B2 & B3 & O).
    assert (P1 : forall k l i, (ax_lo X <= i <= ax_hi X)%Z ->
      (exists v, (do sx <- ax_w X i; do v <- get3 g (ax_node X + i, ax_node Y + k, ax_node V + l)%Z; Ret (n_mul sx v)) = Ret (F v)) \/
      (do sx <- ax_w X i; do v <- get3 g (ax_node X + i, ax_node Y + k, ax_node V + l)%Z; Ret (n_mul sx v)) = UB).
    { intros k l i Bi. rewrite X2 by lia. cbn [bind]. destruct (get3_any (ax_node X + i, ax_node Y + k, ax_node V + l)%Z) as [(v & ->)| ->]; cbn; eauto. }
    assert (P2 : forall l i, (ax_lo Y <= i <= ax_hi Y)%Z ->
      (exists v, (do b <- plus_terms (ax_lo X) (ax_hi X) (fun jj => do sx <- ax_w X jj; do v <- get3 g (ax_node X + jj, ax_node Y + i, ax_node V + l)%Z; Ret (n_mul sx v)); do sy <- ax_w Y i; Ret (n_mul b sy)) = Ret (F v)) \/
      (do b <- plus_terms (ax_lo X) (ax_hi X) (fun jj => do sx <- ax_w X jj; do v <- get3 g (ax_node X + jj, ax_node Y + i, ax_node V + l)%Z; Ret (n_mul sx v)); do sy <- ax_w Y i; Ret (n_mul b sy)) = UB).
    { intros l i Bi. destruct (plus_any _ _ _ (P1 i l) X1) as [(v & ->)| ->]; cbn [bind]; [|right; reflexivity]. rewrite Y2 by lia. cbn. eauto. }
    apply (each_ub _ _ ll).
    + intros l e' I. apply in_zr in I. destruct (plus_any _ _ _ (P2 l) Y1) as [(v & ->)| ->]; cbn [bind]; [|right; reflexivity]. rewrite Z2 by lia. cbn. eauto.
    + apply in_zr. lia.
    + intros e'. rewrite (plus_ub _ _ _ kk (P2 ll) B2); [reflexivity|]. rewrite (plus_ub _ _ _ jj (P1 kk ll) B1); [reflexivity|].
      rewrite X2 by lia. cbn [bind]. rewrite get3_out by exact O. reflexivity.
Qed.
End Three.
