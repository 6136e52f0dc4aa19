(** Proofs about Tiles.v, for any arithmetic. *)
From Coq Require Import ZArith List Bool Permutation Lia.
From Verif Require Import Cxx CxxLemmas Num Fortran FortranLemmas Grid GridLemmas Deposit Tiles Exchange.
Import ListNotations.
Local Open Scope Z_scope.

(** the conversions used to compute the sizes of the arrays are correct up to M *)
Definition sizes_exact (N : FNum) (M : Z) : Prop := forall n, 0 <= n <= M ->
  (exists a b, @floor32 N (downsize_threshold * n_of_Z n)%N = Ret a /\ @floor32 N (downsize_factor * n_of_Z n)%N = Ret b /\
     @floor64 N (downsize_factor * n_of_Z n)%N = Ret b /\ a <= b <= n) /\
  @nint64 N (resize_factor * n_of_Z n + n_of_Z 1)%N = Ret (2 * n + 1).

(** the particles of a tile *)
Definition live {N} (t : tile N) : list (option (part N)) := firstn (Z.to_nat (t_np t)) (t_arr t).

(** the tile holds exactly the particles ps, in this order, in arrays of at most M elements *)
Definition holds {N} (M : Z) (t : tile N) (ps : list (part N)) : Prop :=
  t_alloc t = true /\ (exists junk, t_arr t = map Some ps ++ junk) /\ t_np t = zlen ps /\ t_max t = zlen (t_arr t) /\ t_max t <= M.
Definition same_place {N} (t t' : tile N) : Prop :=
  t_x t' = t_x t /\ t_y t' = t_y t /\ t_z t' = t_z t /\ t_bound t' = t_bound t.

Lemma lset_app_here {A} (l1 : list A) x l2 a : lset (l1 ++ x :: l2) (length l1) a = l1 ++ a :: l2.
Proof. induction l1 as [|y l1 IH]; [reflexivity|]. cbn. now rewrite IH. Qed.
Lemma zlen_firstn {A} n (l : list A) : zlen (firstn n l) = Z.min (Z.of_nat n) (zlen l).
Proof. unfold zlen. rewrite firstn_length. lia. Qed.
Lemma zlen_repeat {A} n (a : A) : zlen (repeat a n) = Z.of_nat n.
Proof. unfold zlen. now rewrite repeat_length. Qed.
Lemma zlen_cons {A} (a : A) l : zlen (a :: l) = zlen l + 1.
Proof. unfold zlen. cbn [length]. lia. Qed.

Section Storage.
Context {N : FNum} (M : Z).
Hypothesis HM : sizes_exact N M.

Lemma holds_live t ps : holds M t ps -> @live N t = map Some ps.
Proof.
  intros (_ & (junk & E) & En & _). unfold live. rewrite E, En. unfold zlen. rewrite Nat2Z.id.
  rewrite <- (map_length Some ps). rewrite firstn_app, Nat.sub_diag, firstn_O, app_nil_r. now apply firstn_all2.
Qed.

Lemma resize_holds t ps m : holds M t ps -> zlen ps <= m <= M ->
  exists t', @resize_particle_arrays N t m = Ret t' /\ holds M t' ps /\ same_place t t' /\ t_np t' = t_np t /\ t_max t' = m /\ t_moved t' = 1.
Proof.
  intros (Ha & (junk & E) & En & Em & Hm) H. unfold resize_particle_arrays, resize_array.
  rewrite (proj2 (Z.leb_le _ _)) by lia. cbn [bind].
  pose proof (zlen_nonneg ps). pose proof (zlen_nonneg (t_arr t)).
  eexists. split; [reflexivity|]. unfold holds, same_place, set_arrays. cbn.
  split; [|repeat split; reflexivity]. split; [reflexivity|]. split; [|split; [exact En|split; [|lia]]].
  - rewrite E. set (k := Z.to_nat (Z.min (t_max t) m)).
    assert (Hk : (length (map (@Some (part N)) ps) <= k)%nat).
    { rewrite map_length. unfold k. rewrite Em, E, zlen_app, zlen_map. pose proof (zlen_nonneg junk). unfold zlen in *. lia. }
    rewrite firstn_app, firstn_all2 by exact Hk. rewrite <- app_assoc. eexists. reflexivity.
  - rewrite zlen_app, zlen_firstn, zlen_repeat. rewrite Em in *. lia.
Qed.

Lemma add_holds t ps p : holds M t ps -> 2 * zlen ps + 1 <= M ->
  exists t', @add_to_tile N t p = Ret t' /\ holds M t' (ps ++ [p]) /\ same_place t t'.
Proof.
  intros Ht HM2. pose proof Ht as (Ha & (junk & E) & En & Em & Hm). unfold add_to_tile. rewrite Ha.
  pose proof (zlen_nonneg ps) as Hp. pose proof (zlen_nonneg junk) as Hj.
  assert (Hmx : t_max t = zlen ps + zlen junk) by now rewrite Em, E, zlen_app, zlen_map.
  assert (X : exists t1, (if t_max t <? t_np t + 1
      then do m <- @nint64 N (resize_factor * n_of_Z (t_max t) + n_of_Z 1)%N; resize_particle_arrays t m else Ret t) = Ret t1 /\
      holds M t1 ps /\ same_place t t1 /\ t_np t1 = t_np t /\ zlen ps < t_max t1).
  { destruct (Z.ltb_spec (t_max t) (t_np t + 1)).
    - rewrite (proj2 (HM (t_max t) ltac:(lia))). cbn [bind].
      destruct (resize_holds t ps (2 * t_max t + 1) Ht ltac:(lia)) as (t' & E1 & H1 & H2 & H3 & H4 & _).
      exists t'. split; [exact E1|]. split; [exact H1|]. split; [exact H2|]. split; [exact H3|]. lia.
    - exists t. split; [reflexivity|]. split; [exact Ht|]. split; [now repeat split|]. split; [reflexivity|]. lia. }
  destruct X as (t1 & -> & (Ha1 & (junk1 & E1) & En1 & Em1 & Hm1) & Hpl & Hnp & Hlt). cbn [bind].
  assert (Hj1 : t_max t1 = zlen ps + zlen junk1) by now rewrite Em1, E1, zlen_app, zlen_map.
  destruct junk1 as [|o junk1]; [unfold zlen in Hj1 at 2; cbn in Hj1; lia|].
  rewrite set1_ok. 2:{ rewrite <- Em1. lia. }
  replace (Z.to_nat (t_np t + 1 - 1)) with (length (map (@Some (part N)) ps)).
  2:{ rewrite map_length, En. unfold zlen. lia. }
  rewrite E1, lset_app_here. cbn [bind]. eexists. split; [reflexivity|]. unfold holds, set_arrays. cbn.
  split; [|destruct Hpl as (? & ? & ? & ?); repeat split; assumption]. split; [reflexivity|]. split; [exists junk1|].
  - rewrite map_app, <- app_assoc. reflexivity.
  - rewrite !zlen_app, !zlen_map, !zlen_cons in *. cbn [zlen length] in *. change (zlen []) with 0. split; [lia|]. split; lia.
Qed.

Lemma add_holds_new t p : t_alloc t = false -> t_np t = 0 -> 0 <= t_max t <= M -> 1 <= M ->
  exists t', @add_to_tile N t p = Ret t' /\ holds M t' [p] /\ same_place t t'.
Proof.
  intros Ha Hn Hm HM1. assert (Hh : holds M (allocate_tile_arrays t) []).
  { unfold holds, allocate_tile_arrays, set_arrays. cbn. split; [reflexivity|]. split; [now eexists|].
    split; [now rewrite Hn|]. split; [rewrite zlen_repeat; lia|lia]. }
  destruct (add_holds _ [] p Hh) as (t' & E & H1 & H2).
  { change (zlen (@nil (part N))) with 0. lia. }
  exists t'. split; [|split; [exact H1|exact H2]]. unfold add_to_tile in *. now rewrite Ha.
Qed.

Lemma rm_holds t l1 p l2 : holds M t (l1 ++ p :: l2) ->
  exists t', @rm_from_tile N t (zlen l1 + 1) = Ret t' /\ holds M t' (l1 ++ rot l2) /\ same_place t t'.
Proof.
  intros Ht. pose proof Ht as (Ha & (junk & E) & En & Em & Hm). unfold rm_from_tile.
  pose proof (zlen_nonneg l1) as Hl1. pose proof (zlen_nonneg l2) as Hl2. pose proof (zlen_nonneg junk) as Hj.
  rewrite zlen_app, zlen_cons in En.
  assert (Hmx : t_max t = t_np t + zlen junk) by (rewrite Em, E, zlen_app, zlen_map, zlen_app, zlen_cons, En; lia).
  assert (X : exists t1, (if zlen l1 + 1 =? t_np t then Ret (set_arrays t (t_np t - 1) (t_max t) (t_arr t) (t_moved t))
           else do p0 <- get1 (t_arr t) (t_np t); do arr <- set1 (t_arr t) (zlen l1 + 1) p0;
                Ret (set_arrays t (t_np t - 1) (t_max t) arr (t_moved t))) = Ret t1 /\
      holds M t1 (l1 ++ rot l2) /\ same_place t t1 /\ t_max t1 = t_max t).
  { destruct l2 as [|x l3 _] using rev_ind.
    - change (zlen (@nil (part N))) with 0 in En. rewrite (proj2 (Z.eqb_eq _ _)) by lia. eexists. split; [reflexivity|].
      unfold holds, same_place, set_arrays. cbn. rewrite app_nil_r. split; [|repeat split; reflexivity]. split; [reflexivity|].
      split; [exists (Some p :: junk); rewrite E, map_app, <- app_assoc; reflexivity|]. split; [lia|]. split; [exact Em|lia].
    - rewrite rot_snoc. rewrite zlen_app in En. change (zlen [x]) with 1 in En. pose proof (zlen_nonneg l3).
      rewrite (proj2 (Z.eqb_neq _ _)) by lia.
      assert (Ex : t_arr t = map Some (l1 ++ p :: l3) ++ Some x :: junk).
      { rewrite E. rewrite app_comm_cons, app_assoc, map_app, <- app_assoc. reflexivity. }
      rewrite (get1_ok _ _ None) by lia.
      replace (nth (Z.to_nat (t_np t - 1)) (t_arr t) None) with (Some x).
      2:{ rewrite Ex, app_nth2 by (rewrite map_length, app_length; cbn [length]; unfold zlen in *; lia).
          replace (_ - _)%nat with O; [reflexivity|]. rewrite map_length, app_length; cbn [length]; unfold zlen in *; lia. }
      cbn [bind]. rewrite set1_ok by lia. cbn [bind].
      replace (Z.to_nat (zlen l1 + 1 - 1)) with (length (map (@Some (part N)) l1)) by (rewrite map_length; unfold zlen; lia).
      assert (Es : lset (t_arr t) (length (map (@Some (part N)) l1)) (Some x) = map Some (l1 ++ x :: l3) ++ Some x :: junk).
      { rewrite Ex, map_app, <- app_assoc. cbn [map app]. rewrite lset_app_here, map_app, <- app_assoc. reflexivity. }
      rewrite Es. eexists. split; [reflexivity|]. unfold holds, same_place, set_arrays. cbn.
      split; [|repeat split; reflexivity]. split; [reflexivity|]. split; [now eexists|].
      rewrite !zlen_app, zlen_map, !zlen_app, !zlen_cons. split; [lia|]. split; [lia|exact Hm]. }
  destruct X as (t1 & -> & Ht1 & Hp1 & Hm1). cbn [bind]. pose proof Ht1 as (_ & _ & En1 & _ & _).
  assert (Hl : zlen (l1 ++ rot l2) = t_np t1) by now symmetry.
  destruct (HM (t_max t1) ltac:(lia)) as ((a & b & Ea & Eb & Ec & Hab) & _). rewrite Ea. cbn [bind].
  destruct (Z.ltb_spec (t_np t1) a); [|exists t1; split; [reflexivity|split; assumption]].
  rewrite Eb. cbn [bind]. destruct (Z.ltb_spec 0 b); [|exists t1; split; [reflexivity|split; assumption]].
  rewrite Ec. cbn [bind]. destruct (resize_holds t1 _ b Ht1 ltac:(lia)) as (t2 & E2 & H2 & (X1 & X2 & X3 & X4) & _).
  exists t2. split; [exact E2|]. split; [exact H2|]. destruct Hp1 as (Y1 & Y2 & Y3 & Y4).
  repeat split; congruence.
Qed.
End Storage.
