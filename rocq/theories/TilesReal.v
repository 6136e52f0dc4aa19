(** Tiles in exact arithmetic: sizes of the arrays, the split of the domain. *)
From Coq Require Import ZArith Reals List Bool Permutation Lia Lra.
From Verif Require Import Cxx CxxLemmas Num NumRX RXLemmas Fortran FortranNum Grid GridLemmas Deposit Splines Tiles Exchange TilesProofs TilesExchange SpecTiles.
Import ListNotations.
Local Open Scope Z_scope.

Lemma floor64_fin x j : (IZR j <= x < IZR j + 1)%R -> - 2 ^ 63 <= j < 2 ^ 63 -> floor64 (Fin x : num FRX) = Ret j.
Proof.
  intros H B. unfold floor64. change (f_floor (Fin x : num FRX)) with (Some (Int_part x)). cbv iota beta. rewrite (Int_part_unique _ _ H).
  destruct (Z.leb_spec (- 2 ^ 63) j), (Z.ltb_spec j (2 ^ 63)); cbn; try lia. reflexivity.
Qed.

Lemma sizes_real M : 0 <= M < 2 ^ 31 -> sizes_exact FRX M.
Proof.
  intros HM n Hn.
  change (@downsize_threshold FRX) with (Fin (4 / 10) : num FRX). change (@downsize_factor FRX) with (Fin (5 / 10) : num FRX).
  change (@resize_factor FRX) with (Fin 2 : num FRX).
  change (@n_of_Z FRX n) with (Fin (IZR n) : num FRX). change (@n_of_Z FRX 1) with (Fin 1 : num FRX).
  change (@n_mul FRX (Fin (4 / 10)) (Fin (IZR n))) with (Fin (4 / 10 * IZR n) : num FRX).
  change (@n_mul FRX (Fin (5 / 10)) (Fin (IZR n))) with (Fin (5 / 10 * IZR n) : num FRX).
  change (@n_add FRX (@n_mul FRX (Fin 2) (Fin (IZR n))) (Fin 1)) with (Fin (2 * IZR n + 1) : num FRX).
  assert (Hn0 : (0 <= IZR n)%R) by (apply IZR_le; lia).
  split.
  - pose proof (Int_part_floor (4 / 10 * IZR n)) as F1. pose proof (Int_part_floor (5 / 10 * IZR n)) as F2.
    set (a := Int_part (4 / 10 * IZR n)) in *. set (b := Int_part (5 / 10 * IZR n)) in *.
    assert (Ha : 0 <= a). { assert (-1 < a) by (apply lt_IZR; lra). lia. }
    assert (Hab : a <= b). { assert (a < b + 1) by (apply lt_IZR; rewrite plus_IZR; lra). lia. }
    assert (Hbn : b <= n). { assert (b < n + 1) by (apply lt_IZR; rewrite plus_IZR; lra). lia. }
    exists a, b. split; [apply floor_node'; [exact F1|lia]|]. split; [apply floor_node'; [exact F2|lia]|]. split; [apply floor64_fin; [exact F2|lia]|lia].
  - unfold nint64. change (@n_of_Z FRX 0) with (Fin 0 : num FRX).
    replace (n_lt (Fin (2 * IZR n + 1) : num FRX) (Fin 0)) with false.
    2:{ symmetry. change (n_lt (Fin (2 * IZR n + 1) : num FRX) (Fin 0)) with (Rltb (2 * IZR n + 1) 0). unfold Rltb. destruct (Rlt_dec (2 * IZR n + 1) 0); [lra|reflexivity]. }
    destruct (nearest_fin (2 * IZR n + 1)) as (z & -> & Hz). cbn [bind].
    assert (z = 2 * n + 1).
    { assert (z < 2 * n + 1 + 1) by (apply lt_IZR; rewrite !plus_IZR, mult_IZR; lra).
      assert (2 * n + 1 < z + 1) by (apply lt_IZR; rewrite !plus_IZR, mult_IZR; lra). lia. }
    subst z. destruct (Z.leb_spec (- 2 ^ 63) (2 * n + 1)), (Z.ltb_spec (2 * n + 1) (2 ^ 63)); cbn [andb]; try lia. reflexivity.
Qed.

(** *** One direction *)
Section Axis.
Variable s : raxis.
Hypothesis Hs : good_axis s.
Notation lo := (ra_lo s). Notation d := (ra_d s). Notation NN := (ra_n s). Notation nt := (ntiles (ra_n s) (ra_nt s)).
Notation n0 := (NN ÷ ra_nt s).

(** grid points of the first tile *)
Definition first_n : Z := if nt =? 1 then NN else n0.
Definition left_of (i : Z) : R := if (i =? nt) then (lo + IZR ((i - 1) * n0) * d - d / 2)%R else if i =? 1 then lo else (lo + IZR ((i - 1) * n0) * d - d / 2)%R.
Definition right_of (i : Z) : R := if (i =? nt) then ra_hi s else (lo + IZR (i * n0) * d - d / 2)%R.

Lemma nt_cases : (nt = 1 /\ first_n = NN) \/ (2 <= nt /\ 4 <= n0 /\ nt * n0 <= NN /\ first_n = n0).
Proof.
  destruct Hs as (Hd & Hn & Hnt & _). unfold first_n.
  destruct (Z.eqb_spec nt 1) as [E|E]; [left; tauto|right]. unfold ntiles in *. destruct (Z.ltb_spec n0 4); [lia|].
  split; [lia|]. split; [lia|]. split; [|reflexivity]. rewrite Z.quot_div_nonneg by lia. rewrite Z.mul_comm. rewrite Z.mul_comm. apply Z.mul_div_le. lia.
Qed.

Lemma x_div_two a : @n_div FRX (Fin a) (n_lit 2 0) = Fin (a / 2).
Proof. change (@n_div FRX (Fin a) (n_lit 2 0)) with (x_div (Fin a) (Fin 2)). apply x_div_fin. lra. Qed.

Lemma tile_extents i : ta_min (tile_of s i) = Fin (left_of i) /\ (1 <= i <= nt -> ta_max (tile_of s i) = Fin (right_of i)) /\
  ta_n (tile_of s 1) = first_n.
Proof.
  unfold tile_of, tile_axis, left_of, right_of. rewrite !x_div_two. split; [|split].
  - destruct (i =? nt); [reflexivity|]. destruct (i =? 1); reflexivity.
  - intros Hi. destruct (Z.eqb_spec i nt); [reflexivity|]. destruct (Z.eqb_spec i 1) as [->|H1].
    + cbn [ta_max]. change (@n_of_Z FRX (n0 - 1)) with (Fin (IZR (n0 - 1)) : num FRX).
      apply (f_equal Fin). rewrite minus_IZR, mult_IZR. lra.
    + cbn [ta_max]. change (@n_of_Z FRX (n0 - 1)) with (Fin (IZR (n0 - 1)) : num FRX). apply (f_equal Fin).
      rewrite !mult_IZR, !minus_IZR. lra.
  - unfold first_n. destruct (Z.eqb_spec 1 nt) as [E|E]; destruct (Z.eqb_spec nt 1); try lia; cbn [ta_n]; [lia|reflexivity].
Qed.

Lemma inside_real i x : 1 <= i <= nt -> inside_axis (tile_of s i) (Fin x : num FRX) = true <-> (left_of i <= x < right_of i)%R.
Proof.
  intros Hi. unfold inside_axis. destruct (tile_extents i) as (-> & E & _). rewrite (E Hi).
  change (@n_le FRX (Fin (left_of i)) (Fin x)) with (Rleb (left_of i) x).
  change (@n_lt FRX (Fin x) (Fin (right_of i))) with (Rltb x (right_of i)). unfold Rleb, Rltb.
  rewrite andb_true_iff. destruct (Rle_dec (left_of i) x), (Rlt_dec x (right_of i)); split; intros; try tauto; try lra; intuition discriminate.
Qed.

Lemma tile_index_eq x : tile_index (axis_of s) first_n (Fin x : num FRX) =
  do f <- floor64 (Fin ((x - lo + d / 2) / (IZR first_n * d)) : num FRX); Ret (Z.min (f + 1) nt).
Proof.
  destruct Hs as (Hd & Hn & _). unfold tile_index. cbn [ag_lo ag_d ag_nt axis_of]. rewrite x_div_two.
  change (@n_of_Z FRX first_n) with (Fin (IZR first_n) : num FRX).
  change (@n_mul FRX (Fin (IZR first_n)) (Fin d)) with (Fin (IZR first_n * d) : num FRX).
  change (@n_add FRX (@n_sub FRX (Fin x) (Fin lo)) (Fin (d / 2))) with (Fin (x - lo + d / 2) : num FRX).
  change (@n_div FRX) with x_div. rewrite x_div_fin; [reflexivity|].
  assert (0 < IZR first_n)%R. { apply IZR_lt. destruct nt_cases as [(_ & ->)|(_ & ? & _ & ->)]; lia. }
  apply Rmult_integral_contrapositive. split; lra.
Qed.

Lemma pos_n0 : (0 < IZR first_n * d)%R.
Proof.
  destruct Hs as (Hd & Hn & _). apply Rmult_lt_0_compat; [|exact Hd]. apply IZR_lt. destruct nt_cases as [(_ & ->)|(_ & ? & _ & ->)]; lia.
Qed.
Lemma index_floor x f : (IZR f * (IZR first_n * d) <= x - lo + d / 2 < (IZR f + 1) * (IZR first_n * d))%R -> 0 <= f < 2 ^ 62 ->
  tile_index (axis_of s) first_n (Fin x : num FRX) = Ret (Z.min (f + 1) nt).
Proof.
  intros H Hf. pose proof pos_n0 as Hp. rewrite tile_index_eq. rewrite (floor64_fin _ f); [reflexivity| |lia].
  split; [apply (Rmult_le_reg_r (IZR first_n * d)); [exact Hp|]|apply (Rmult_lt_reg_r (IZR first_n * d)); [exact Hp|]]; unfold Rdiv; rewrite Rmult_assoc, Rinv_l by lra; lra.
Qed.

(** floor of the unclamped index of a point of the domain *)
Lemma floor_exists x : (lo - d / 2 <= x < ra_hi s)%R -> exists f, 0 <= f < 2 ^ 62 /\
  (IZR f * (IZR first_n * d) <= x - lo + d / 2 < (IZR f + 1) * (IZR first_n * d))%R.
Proof.
  intros Hx. pose proof pos_n0 as Hp. destruct Hs as (Hd & Hn & _).
  set (y := ((x - lo + d / 2) / (IZR first_n * d))%R).
  assert (Ey : (y * (IZR first_n * d) = x - lo + d / 2)%R) by (unfold y, Rdiv; rewrite Rmult_assoc, Rinv_l by lra; lra).
  exists (Int_part y). pose proof (Int_part_floor y) as F. split; [split|].
  - assert (0 <= y)%R by (apply (Rmult_le_reg_r (IZR first_n * d)); [exact Hp|lra]). assert (-1 < Int_part y) by (apply lt_IZR; lra). lia.
  - assert (y < IZR NN)%R.
    { apply (Rmult_lt_reg_r (IZR first_n * d)); [exact Hp|]. rewrite Ey. unfold ra_hi in Hx. rewrite minus_IZR in Hx.
      assert (1 <= IZR first_n)%R by (apply IZR_le; destruct nt_cases as [(_ & ->)|(_ & ? & _ & ->)]; lia).
      assert (0 <= IZR NN * (IZR first_n - 1) * d)%R.
      { apply Rmult_le_pos; [|lra]. apply Rmult_le_pos; [apply IZR_le; lia|lra]. }
      replace (IZR NN * (IZR first_n * d))%R with (IZR NN * d + IZR NN * (IZR first_n - 1) * d)%R by ring. lra. }
    assert (Int_part y < NN) by (apply lt_IZR; lra). lia.
  - rewrite <- Ey. split; [apply Rmult_le_compat_r; lra|apply Rmult_lt_compat_r; lra].
Qed.

Lemma mul_d_le a b : a <= b -> (IZR a * d <= IZR b * d)%R.
Proof. intros H. destruct Hs as (Hd & _). apply Rmult_le_compat_r; [lra|]. now apply IZR_le. Qed.

(** a point inside tile i gets index i *)
Lemma inside_index i x : 1 <= i <= nt -> inside_axis (tile_of s i) (Fin x : num FRX) = true ->
  tile_index (axis_of s) first_n (Fin x : num FRX) = Ret i.
Proof.
  intros Hi Hx. apply (inside_real i x Hi) in Hx. pose proof Hs as (Hd & Hn & Hnt & _).
  assert (Hx2 : (lo - d / 2 <= x < ra_hi s)%R).
  { destruct nt_cases as [(E & F)|(E & E4 & En & F)].
    - assert (i = 1) by lia. subst i. unfold left_of, right_of in Hx. rewrite E in Hx. cbn in Hx. lra.
    - split.
      + unfold left_of in Hx. pose proof (mul_d_le 0 ((i - 1) * n0) ltac:(nia)). destruct (Z.eqb_spec i nt); [lra|]. destruct (Z.eqb_spec i 1); lra.
      + unfold right_of in Hx. destruct (Z.eqb_spec i nt); [lra|]. unfold ra_hi. pose proof (mul_d_le (i * n0) (NN - 1) ltac:(nia)). lra. }
  destruct (floor_exists x Hx2) as (f & Hf & Hy). rewrite (index_floor x f Hy Hf). f_equal.
  destruct nt_cases as [(E & F)|(E & E4 & En & F)]; [lia|].
  rewrite F in Hy. rewrite <- !Rmult_assoc in Hy. rewrite <- mult_IZR, <- plus_IZR, <- mult_IZR in Hy.
  assert (X1 : (IZR ((i - 1) * n0) * d <= x - lo + d / 2)%R).
  { unfold left_of in Hx. destruct (Z.eqb_spec i nt); [lra|]. destruct (Z.eqb_spec i 1) as [->|]; [|lra]. replace ((1 - 1) * n0) with 0 by lia. lra. }
  assert (Y1 : (i - 1) * n0 < (f + 1) * n0). { apply lt_IZR. apply (Rmult_lt_reg_r d); lra. }
  assert (i - 1 < f + 1) by nia.
  destruct (Z.eq_dec i nt) as [->|Ne]; [lia|].
  assert (X2 : (x - lo + d / 2 < IZR (i * n0) * d)%R) by (unfold right_of in Hx; destruct (Z.eqb_spec i nt); [lia|lra]).
  assert (Y2 : f * n0 < i * n0). { apply lt_IZR. apply (Rmult_lt_reg_r d); lra. }
  assert (f < i) by nia. lia.
Qed.

(** a point of the domain is inside the tile of its index *)
Lemma index_inside x : (lo <= x < ra_hi s)%R -> exists i, 1 <= i <= nt /\
  tile_index (axis_of s) first_n (Fin x : num FRX) = Ret i /\ inside_axis (tile_of s i) (Fin x : num FRX) = true.
Proof.
  intros Hx. pose proof Hs as (Hd & Hn & Hnt & _).
  destruct (floor_exists x ltac:(lra)) as (f & Hf & Hy). exists (Z.min (f + 1) nt).
  assert (Hr : 1 <= Z.min (f + 1) nt <= nt) by (destruct nt_cases as [(-> & _)|(? & _)]; lia).
  split; [exact Hr|]. split; [now apply index_floor|]. apply inside_real; [exact Hr|].
  destruct nt_cases as [(E & F)|(E & E4 & En & F)].
  - replace (Z.min (f + 1) nt) with 1 by lia. unfold left_of, right_of. rewrite E. cbn. lra.
  - rewrite F in Hy. rewrite <- !Rmult_assoc in Hy. rewrite <- mult_IZR, <- plus_IZR, <- mult_IZR in Hy.
    unfold left_of, right_of. destruct (Z.eqb_spec (Z.min (f + 1) nt) nt) as [Em|Em].
    + rewrite Em. pose proof (mul_d_le ((nt - 1) * n0) (f * n0) ltac:(nia)). lra.
    + replace (Z.min (f + 1) nt) with (f + 1) by lia. split; [|lra]. destruct (Z.eqb_spec (f + 1) 1); [lra|]. replace (f + 1 - 1) with f by lia. lra.
Qed.

(** a point less than four cells away from tile i belongs to tile i or to a neighbour *)
Lemma close_index i j x : 1 <= i <= nt -> 1 <= j <= nt -> close s i (Fin x) ->
  inside_axis (tile_of s j) (Fin x : num FRX) = true -> Z.abs (j - i) <= 1.
Proof.
  intros Hi Hj (l & r & v & El & Er & Ev & Hc) Hx. destruct (tile_extents i) as (E1 & E2 & _).
  specialize (E2 Hi). rewrite El in E1. rewrite Er in E2. injection E1 as ->. injection E2 as ->. injection Ev as <-.
  apply (inside_real j x Hj) in Hx. pose proof Hs as (Hd & Hn & Hnt & _).
  destruct nt_cases as [(E & F)|(E & E4 & En & F)]; [lia|].
  destruct (Z_le_dec (Z.abs (j - i)) 1) as [Hl|Hl]; [exact Hl|exfalso].
  destruct (Z_lt_dec i j) as [Lt|Ge].
  - assert (R1 : right_of i = (lo + IZR (i * n0) * d - d / 2)%R) by (unfold right_of; destruct (Z.eqb_spec i nt); [lia|reflexivity]).
    assert (L1 : left_of j = (lo + IZR ((j - 1) * n0) * d - d / 2)%R) by (unfold left_of; destruct (Z.eqb_spec j nt); [reflexivity|]; destruct (Z.eqb_spec j 1); [lia|reflexivity]).
    pose proof (mul_d_le (i * n0 + 4) ((j - 1) * n0) ltac:(nia)) as X. rewrite plus_IZR in X. lra.
  - assert (R1 : right_of j = (lo + IZR (j * n0) * d - d / 2)%R) by (unfold right_of; destruct (Z.eqb_spec j nt); [lia|reflexivity]).
    assert (L1 : left_of i = (lo + IZR ((i - 1) * n0) * d - d / 2)%R) by (unfold left_of; destruct (Z.eqb_spec i nt); [reflexivity|]; destruct (Z.eqb_spec i 1); [lia|reflexivity]).
    pose proof (mul_d_le (j * n0 + 4) ((i - 1) * n0) ltac:(nia)) as X. rewrite plus_IZR in X. lra.
Qed.
End Axis.
