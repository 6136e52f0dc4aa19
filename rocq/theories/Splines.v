(** The shape factors of the code are the B-splines of the specification. *)
From Coq Require Import ZArith Reals List Bool Lia Lra Psatz.
From Verif Require Import Cxx Num NumRX Fortran FortranNum Grid GridLemmas Pushers Deposit SpecYee SpecDeposit.
Import ListNotations.
Local Open Scope R_scope.

Lemma fdiv a b : b <> 0 -> n_div (Fin a : num FRX) (Fin b) = Fin (a / b).
Proof. intros H. cbn. destruct (Req_EM_T b 0); [contradiction | reflexivity]. Qed.

(** the shape factors as real functions of the distance *)
Definition rshape (n : Z) (t : R) (m : Z) : R :=
  match n with
  | 0%Z => 1
  | 1%Z => if (m =? 0)%Z then 1 - t else t
  | 2%Z => if (m =? -1)%Z then (1 / 2 - t) * (1 / 2 - t) / 2 else if (m =? 0)%Z then 3 / 4 - t * t else (1 / 2 + t) * (1 / 2 + t) / 2
  | _ => if (m =? -1)%Z then (1 - t) * (1 - t) * (1 - t) / 6
         else if (m =? 0)%Z then 2 / 3 - t * t * (1 - t / 2)
         else if (m =? 1)%Z then 2 / 3 - (1 - t) * (1 - t) * (1 - (1 - t) / 2)
         else t * t * t / 6
  end.

Lemma sixth : onesixth (N := FRX) = Fin (1 / 6).
Proof. unfold onesixth. change (n_lit 1 0 : num FRX) with (Fin 1 : num FRX). change (n_lit 6 0 : num FRX) with (Fin 6 : num FRX). apply fdiv. lra. Qed.
Lemma third2 : twothird (N := FRX) = Fin (2 / 3).
Proof. unfold twothird. change (n_lit 2 0 : num FRX) with (Fin 2 : num FRX). change (n_lit 3 0 : num FRX) with (Fin 3 : num FRX). apply fdiv. lra. Qed.

Lemma shape3_fin t m : shape 3 (Fin t : num FRX) m = Fin (rshape 3 t m).
Proof.
  unfold shape, rshape. rewrite sixth, third2. change (n_lit 2 0 : num FRX) with (Fin 2 : num FRX).
  change (n_lit 1 0 : num FRX) with (Fin 1 : num FRX).
  change (n_sub (Fin 1 : num FRX) (Fin t)) with (Fin (1 - t) : num FRX).
  rewrite !fdiv by lra.
  repeat match goal with |- context[if ?b then _ else _] => destruct b end; cbn; f_equal; field.
Qed.
Lemma shape_fin n t m : shape n (Fin t : num FRX) m = Fin (rshape n t m).
Proof.
  destruct (Z.eq_dec n 0) as [->|N0]; [cbn; f_equal; lra|].
  destruct (Z.eq_dec n 1) as [->|N1]; [cbn; destruct (m =? 0)%Z; reflexivity|].
  destruct (Z.eq_dec n 2) as [->|N2].
  { cbn. repeat match goal with |- context[if ?b then _ else _] => destruct b end; cbn; f_equal; field. }
  transitivity (shape 3 (Fin t : num FRX) m).
  - destruct n as [|[?|[?|?|]|]|?]; try lia; reflexivity.
  - rewrite shape3_fin. destruct n as [|[?|[?|?|]|]|?]; try lia; reflexivity.
Qed.

Lemma Rabs_le_inv a b : Rabs a <= b -> - b <= a <= b.
Proof. unfold Rabs. destruct (Rcase_abs a); lra. Qed.
(** j is the node of x *)
Definition is_node (n : Z) (x : R) (j : Z) : Prop :=
  if (n =? 2 * (n ÷ 2))%Z
  then Rabs (x - IZR j) < 1 / 2 \/ (Rabs (x - IZR j) = 1 / 2 /\ Rabs x < Rabs (IZR j))
  else IZR j <= x < IZR j + 1.

Lemma Int_part_floor x : IZR (Int_part x) <= x < IZR (Int_part x) + 1.
Proof. destruct (base_Int_part x). lra. Qed.
Lemma Int_part_unique x z : IZR z <= x < IZR z + 1 -> Int_part x = z.
Proof.
  intros H. pose proof (Int_part_floor x) as F.
  assert ((Int_part x < z + 1)%Z /\ (z < Int_part x + 1)%Z) as [? ?] by (split; apply lt_IZR; rewrite plus_IZR; lra). lia.
Qed.

Lemma floor_node x j : floor32 (Fin x : num FRX) = Ret j -> IZR j <= x < IZR j + 1.
Proof.
  unfold floor32. cbn. destruct (_ && _)%bool; [|discriminate]. intros [= <-]. apply Int_part_floor.
Qed.
Lemma floor_node' x j : IZR j <= x < IZR j + 1 -> (- 2 ^ 31 <= j < 2 ^ 31)%Z -> floor32 (Fin x : num FRX) = Ret j.
Proof.
  intros H B. unfold floor32. change (f_floor (Fin x : num FRX)) with (Some (Int_part x)). cbv iota beta. rewrite (Int_part_unique _ _ H).
  destruct (Z.leb_spec (- 2 ^ 31) j), (Z.ltb_spec j (2 ^ 31)); cbn; try lia. reflexivity.
Qed.

Lemma nearest_fin x : exists z, nearest_pos (Fin x : num FRX) = Ret z /\ IZR z - 1 / 2 <= x < IZR z + 1 / 2.
Proof.
  unfold nearest_pos. change (f_floor (Fin x : num FRX)) with (Some (Int_part x)). cbv iota beta.
  pose proof (Int_part_floor x) as F. set (z := Int_part x) in *. eexists. split; [reflexivity|].
  change (n_lt (n_sub (Fin x : num FRX) (n_of_Z z)) (n_lit 5 (-1))) with (Rltb (x - IZR z) (5 / 10)). unfold Rltb.
  destruct (Rlt_dec (x - IZR z) (5 / 10)); [|rewrite plus_IZR]; lra.
Qed.
Lemma abs_half x z : 0 <= x -> IZR z - 1 / 2 <= x < IZR z + 1 / 2 ->
  Rabs (x - IZR z) < 1 / 2 \/ (Rabs (x - IZR z) = 1 / 2 /\ Rabs x < Rabs (IZR z)).
Proof.
  intros P H. destruct (Req_dec x (IZR z - 1 / 2)) as [E|E].
  - right. assert (0 < IZR z) by lra. rewrite (Rabs_pos_eq x), (Rabs_pos_eq (IZR z)) by lra.
    split; [|lra]. rewrite Rabs_left1 by lra. lra.
  - left. apply Rabs_def1; lra.
Qed.
Lemma int32_ret z j : int32 z = Ret j -> z = j.
Proof. unfold int32. destruct (_ && _)%bool; congruence. Qed.
Lemma nint_node x j : nint32 (Fin x : num FRX) = Ret j ->
  Rabs (x - IZR j) < 1 / 2 \/ (Rabs (x - IZR j) = 1 / 2 /\ Rabs x < Rabs (IZR j)).
Proof.
  unfold nint32. change (n_lt (Fin x : num FRX) (n_of_Z 0)) with (Rltb x 0). unfold Rltb. destruct (Rlt_dec x 0) as [L|L].
  - change (n_opp (Fin x : num FRX)) with (Fin (- x) : num FRX).
    destruct (nearest_fin (- x)) as (z & -> & B). cbn. intros H. apply int32_ret in H. subst j.
    destruct (abs_half (- x) z ltac:(lra) B) as [A|[A A']]; rewrite opp_IZR, Rabs_Ropp in *.
    + left. replace (x - - IZR z) with (- (- x - IZR z)) by ring. rewrite Rabs_Ropp. exact A.
    + right. replace (x - - IZR z) with (- (- x - IZR z)) by ring. rewrite !Rabs_Ropp. auto.
  - destruct (nearest_fin x) as (z & -> & B). cbn. intros H. apply int32_ret in H. subst j. apply abs_half; lra.
Qed.
Lemma near_unique x i j :
  (Rabs (x - IZR i) < 1 / 2 \/ (Rabs (x - IZR i) = 1 / 2 /\ Rabs x < Rabs (IZR i))) ->
  (Rabs (x - IZR j) < 1 / 2 \/ (Rabs (x - IZR j) = 1 / 2 /\ Rabs x < Rabs (IZR j))) -> i = j.
Proof.
  intros Hi Hj.
  assert (Ci : IZR i - 1 / 2 <= x <= IZR i + 1 / 2).
  { assert (Rabs (x - IZR i) <= 1 / 2) as A by lra. apply Rabs_le_inv in A. lra. }
  assert (Cj : IZR j - 1 / 2 <= x <= IZR j + 1 / 2).
  { assert (Rabs (x - IZR j) <= 1 / 2) as A by lra. apply Rabs_le_inv in A. lra. }
  assert ((i <= j + 1)%Z /\ (j <= i + 1)%Z) as [B1 B2] by (split; apply le_IZR; rewrite plus_IZR; lra).
  assert (i = j \/ i = j + 1 \/ j = i + 1)%Z as [E|[E|E]] by lia; [exact E| |]; exfalso; subst.
  - rewrite plus_IZR in *. assert (x = IZR j + 1 / 2) by lra. subst x.
    replace (IZR j + 1 / 2 - IZR j) with (1 / 2) in * by ring.
    replace (IZR j + 1 / 2 - (IZR j + 1)) with (- (1 / 2)) in * by field. rewrite Rabs_Ropp, (Rabs_pos_eq (1 / 2)) in * by lra.
    destruct Hi as [?|[_ A1]]; [lra|]. destruct Hj as [?|[_ A2]]; [lra|].
    destruct (Z_lt_le_dec j 0) as [L|L].
    + assert (IZR j <= -1) by (apply (IZR_le j (-1)); lia). rewrite (Rabs_left1 (IZR j + 1 / 2)), (Rabs_left1 (IZR j + 1)) in A1 by lra. lra.
    + assert (0 <= IZR j) by (apply (IZR_le 0 j); lia). rewrite (Rabs_pos_eq (IZR j + 1 / 2)), (Rabs_pos_eq (IZR j)) in A2 by lra. lra.
  - rewrite plus_IZR in *. assert (x = IZR i + 1 / 2) by lra. subst x.
    replace (IZR i + 1 / 2 - IZR i) with (1 / 2) in * by ring.
    replace (IZR i + 1 / 2 - (IZR i + 1)) with (- (1 / 2)) in * by field. rewrite Rabs_Ropp, (Rabs_pos_eq (1 / 2)) in * by lra.
    destruct Hi as [?|[_ A1]]; [lra|]. destruct Hj as [?|[_ A2]]; [lra|].
    destruct (Z_lt_le_dec i 0) as [L|L].
    + assert (IZR i <= -1) by (apply (IZR_le i (-1)); lia). rewrite (Rabs_left1 (IZR i + 1 / 2)), (Rabs_left1 (IZR i + 1)) in A2 by lra. lra.
    + assert (0 <= IZR i) by (apply (IZR_le 0 i); lia). rewrite (Rabs_pos_eq (IZR i + 1 / 2)), (Rabs_pos_eq (IZR i)) in A1 by lra. lra.
Qed.

Lemma node_is n x j : node n (Fin x : num FRX) = Ret j -> is_node n x j.
Proof. unfold node, is_node. destruct (n =? 2 * (n ÷ 2))%Z; [apply nint_node | apply floor_node]. Qed.
Lemma is_node_unique n x i j : is_node n x i -> is_node n x j -> i = j.
Proof.
  unfold is_node. destruct (n =? 2 * (n ÷ 2))%Z; [apply near_unique|]. intros A B.
  rewrite <- (Int_part_unique _ _ A). apply Int_part_unique. exact B.
Qed.
(** a node close to zero is found *)
Lemma int32_ok z : (- 2 ^ 31 <= z < 2 ^ 31)%Z -> int32 z = Ret z.
Proof. intros B. unfold int32. destruct (Z.leb_spec (- 2 ^ 31) z), (Z.ltb_spec z (2 ^ 31)); cbn; try lia. reflexivity. Qed.
Lemma node_ex n x : Rabs x <= 1000000000 -> exists j, node n (Fin x : num FRX) = Ret j.
Proof.
  intros A. apply Rabs_le_inv in A. unfold node. destruct (n =? 2 * (n ÷ 2))%Z.
  - unfold nint32. destruct (n_lt (Fin x : num FRX) (n_of_Z 0)).
    + change (n_opp (Fin x : num FRX)) with (Fin (- x) : num FRX). destruct (nearest_fin (- x)) as (z & -> & B). cbn [bind].
      exists (- z)%Z. apply int32_ok. assert ((- 2 ^ 31 < z)%Z /\ (z < 2 ^ 31)%Z); [|lia].
      split; apply lt_IZR; [change (IZR (- 2 ^ 31)) with (-2147483648) | change (IZR (2 ^ 31)) with 2147483648]; lra.
    + destruct (nearest_fin x) as (z & -> & B). cbn [bind].
      exists z. apply int32_ok. assert ((- 2 ^ 31 < z)%Z /\ (z < 2 ^ 31)%Z); [|lia].
      split; apply lt_IZR; [change (IZR (- 2 ^ 31)) with (-2147483648) | change (IZR (2 ^ 31)) with 2147483648]; lra.
  - exists (Int_part x). apply floor_node'; [apply Int_part_floor|]. pose proof (Int_part_floor x) as B.
    assert ((- 2 ^ 31 < Int_part x)%Z /\ (Int_part x < 2 ^ 31)%Z); [|lia].
    split; apply lt_IZR; [change (IZR (- 2 ^ 31)) with (-2147483648) | change (IZR (2 ^ 31)) with 2147483648]; lra.
Qed.

(** ** splines *)
Lemma four (P : Z -> Prop) : P 0%Z -> P 1%Z -> P 2%Z -> P 3%Z -> forall n, (0 <= n <= 3)%Z -> P n.
Proof. intros P0 P1 P2 P3 n H. assert (n = 0 \/ n = 1 \/ n = 2 \/ n = 3)%Z as [-> |[-> |[-> | ->]]] by lia; assumption. Qed.

Ltac abs_case := unfold Rabs in *; repeat match goal with
  | |- context[Rcase_abs ?x] => destruct (Rcase_abs x)
  | H : context[Rcase_abs ?x] |- _ => destruct (Rcase_abs x)
  | |- context[Rle_dec ?x ?y] => destruct (Rle_dec x y)
  | |- context[Rlt_dec ?x ?y] => destruct (Rlt_dec x y)
  | |- context[Req_EM_T ?x ?y] => destruct (Req_EM_T x y) end.

Lemma spline_on n x j m : (0 <= n <= 3)%Z -> is_node n x j -> (smin n <= m <= smax n)%Z ->
  spline n x (j + m) = rshape n (x - IZR j) m.
Proof.
  intros K. pattern n. revert n K. apply four; unfold is_node, smin, smax.
  - change (0 =? 2 * (0 ÷ 2))%Z with true. cbv iota. intros H B. change (- (0 ÷ 2) <= m <= (0 + 1) ÷ 2)%Z with (0 <= m <= 0)%Z in B.
    assert (m = 0)%Z by lia. subst m. rewrite Z.add_0_r. unfold spline, rshape. cbn zeta.
    destruct (Rlt_dec (Rabs (x - IZR j)) (1 / 2)); [reflexivity|]. destruct H as [H|[H H']]; [lra|].
    destruct (Req_EM_T (Rabs (x - IZR j)) (1 / 2)); [|lra]. destruct (Rlt_dec (Rabs x) (Rabs (IZR j))); [reflexivity | lra].
  - change (1 =? 2 * (1 ÷ 2))%Z with false. cbv iota. intros H B. change (- (1 ÷ 2) <= m <= (1 + 1) ÷ 2)%Z with (0 <= m <= 1)%Z in B.
    assert (m = 0 \/ m = 1)%Z as [-> | ->] by lia; unfold spline, rshape; cbn zeta; cbn [Z.eqb]; rewrite plus_IZR; unfold Rmax; abs_case; lra.
  - change (2 =? 2 * (2 ÷ 2))%Z with true. cbv iota. intros H B. change (- (2 ÷ 2) <= m <= (2 + 1) ÷ 2)%Z with (-1 <= m <= 1)%Z in B.
    assert (A : -1 / 2 <= x - IZR j <= 1 / 2).
    { assert (Rabs (x - IZR j) <= 1 / 2) as A by lra. apply Rabs_le_inv in A. lra. }
    clear H. set (t := x - IZR j) in *.
    assert (m = -1 \/ m = 0 \/ m = 1)%Z as [-> |[-> | ->]] by lia; unfold spline, rshape; cbn zeta; cbn [Z.eqb Pos.eqb]; rewrite plus_IZR.
    + replace (x - (IZR j + -1)) with (t + 1) by (unfold t; ring). rewrite Rabs_pos_eq by lra.
      abs_case; try lra; try field; assert (t = - (1 / 2)) as -> by lra; field.
    + replace (x - (IZR j + 0)) with t by (unfold t; ring).
      abs_case; try lra; try field; nra.
    + replace (x - (IZR j + 1)) with (t - 1) by (unfold t; ring).
      abs_case; try lra; try field; assert (t = 1 / 2) as -> by lra; field.
  - change (3 =? 2 * (3 ÷ 2))%Z with false. cbv iota. intros H B. change (- (3 ÷ 2) <= m <= (3 + 1) ÷ 2)%Z with (-1 <= m <= 2)%Z in B.
    assert (A : 0 <= x - IZR j < 1) by lra. clear H. set (t := x - IZR j) in *.
    assert (m = -1 \/ m = 0 \/ m = 1 \/ m = 2)%Z as [-> |[-> |[-> | ->]]] by lia; unfold spline, rshape; cbn zeta; cbn [Z.eqb Pos.eqb]; rewrite plus_IZR.
    + replace (x - (IZR j + -1)) with (t + 1) by (unfold t; ring). rewrite Rabs_pos_eq by lra.
      abs_case; try lra; try field; assert (t = 0) as -> by lra; field.
    + replace (x - (IZR j + 0)) with t by (unfold t; ring). rewrite Rabs_pos_eq by lra.
      abs_case; try lra; field.
    + replace (x - (IZR j + 1)) with (- (1 - t)) by (unfold t; ring). rewrite Rabs_Ropp, Rabs_pos_eq by lra.
      abs_case; try lra; field.
    + replace (x - (IZR j + 2)) with (- (2 - t)) by (unfold t; ring). rewrite Rabs_Ropp, Rabs_pos_eq by lra.
      abs_case; try lra; try field; assert (t = 1) as -> by lra; field.
Qed.

Lemma IZR_far a b : (a + 1 <= b)%Z -> IZR a + 1 <= IZR b.
Proof. intros H. rewrite <- plus_IZR. apply IZR_le. lia. Qed.

Lemma spline_off n x j i : (0 <= n <= 3)%Z -> is_node n x j -> ~ (j + smin n <= i <= j + smax n)%Z -> spline n x i = 0.
Proof.
  intros K. pattern n. revert n K. apply four; unfold is_node, smin, smax.
  - change (0 =? 2 * (0 ÷ 2))%Z with true. cbv iota. intros H B. change (- (0 ÷ 2))%Z with 0%Z in B. change ((0 + 1) ÷ 2)%Z with 0%Z in B.
    assert (i <> j) by lia. unfold spline. cbn zeta.
    destruct (Rlt_dec (Rabs (x - IZR i)) (1 / 2)) as [L|L]; [exfalso; apply H0; apply (near_unique x); auto|].
    destruct (Req_EM_T (Rabs (x - IZR i)) (1 / 2)) as [E|E]; [|reflexivity].
    destruct (Rlt_dec (Rabs x) (Rabs (IZR i))) as [L'|L']; [|reflexivity]. exfalso; apply H0; apply (near_unique x); auto.
  - change (1 =? 2 * (1 ÷ 2))%Z with false. cbv iota. intros H B. change (- (1 ÷ 2))%Z with 0%Z in B. change ((1 + 1) ÷ 2)%Z with 1%Z in B.
    assert (i + 1 <= j \/ j + 1 + 1 <= i)%Z as [C|C] by lia; apply IZR_far in C; rewrite ?plus_IZR in C;
      unfold spline; cbn zeta; unfold Rmax; abs_case; lra.
  - change (2 =? 2 * (2 ÷ 2))%Z with true. cbv iota. intros H B. change (- (2 ÷ 2))%Z with (-1)%Z in B. change ((2 + 1) ÷ 2)%Z with 1%Z in B.
    assert (A : -1 / 2 <= x - IZR j <= 1 / 2).
    { assert (Rabs (x - IZR j) <= 1 / 2) as A by lra. apply Rabs_le_inv in A. lra. }
    clear H.
    assert (i + 1 + 1 <= j \/ j + 1 + 1 <= i)%Z as [C|C] by lia; apply IZR_far in C; rewrite ?plus_IZR in C; unfold spline; cbn zeta.
    + rewrite (Rabs_pos_eq (x - IZR i)) by lra. abs_case; try lra. replace (x - IZR i) with (3 / 2) by lra. field.
    + rewrite (Rabs_left1 (x - IZR i)) by lra. abs_case; try lra. replace (- (x - IZR i)) with (3 / 2) by lra. field.
  - change (3 =? 2 * (3 ÷ 2))%Z with false. cbv iota. intros H B. change (- (3 ÷ 2))%Z with (-1)%Z in B. change ((3 + 1) ÷ 2)%Z with 2%Z in B.
    assert (i + 1 + 1 <= j \/ j + 1 + 1 + 1 <= i)%Z as [C|C] by lia; apply IZR_far in C; rewrite ?plus_IZR in C; unfold spline; cbn zeta.
    + rewrite (Rabs_pos_eq (x - IZR i)) by lra. abs_case; try lra. replace (x - IZR i) with 2 by lra. field.
    + rewrite (Rabs_left1 (x - IZR i)) by lra. abs_case; try lra.
Qed.
Lemma spline_unknown n x i : ~ (0 <= n <= 3)%Z -> spline n x i = 0.
Proof. intros H. destruct n as [|[[?|?|]|[?|?|]|]|?]; try lia; reflexivity. Qed.

Lemma spline_nonneg n x i : 0 <= spline n x i.
Proof.
  destruct (Z_lt_le_dec n 0) as [L|L]; [rewrite spline_unknown by lia; lra|].
  destruct (Z_lt_le_dec 3 n) as [L'|L']; [rewrite spline_unknown by lia; lra|].
  assert (K : (0 <= n <= 3)%Z) by lia. pattern n. revert n K L L'. 
  refine (four _ _ _ _ _); intros _ _; unfold spline; cbn zeta.
  - abs_case; lra.
  - apply Rmax_l.
  - set (t := Rabs (x - IZR i)). pose proof (Rabs_pos (x - IZR i)) as P. fold t in P.
    destruct (Rle_dec t (1 / 2)); [nra|]. destruct (Rle_dec t (3 / 2)); [nra | lra].
  - set (t := Rabs (x - IZR i)). pose proof (Rabs_pos (x - IZR i)) as P. fold t in P.
    destruct (Rle_dec t 1); [nra|]. destruct (Rle_dec t 2); [|lra].
    assert (0 <= 2 - t) by lra. assert (0 <= (2 - t) * (2 - t)) by nra. nra.
Qed.
