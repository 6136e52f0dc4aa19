(** Witnesses and concrete cases for PropDecomp.v (proofs only). *)
From Coq Require Import ZArith Reals List Bool Lia Lra Permutation Sorted.
From Flocq Require Import Core BinarySingleNaN.
From Verif Require Import Cxx Num NumRX NumIEEE Fortran FortranNum LoadBalance Sorting SpecDecomp SpecSorting
  CxxLemmas RXLemmas FortranLemmas DecompProofs BalanceProofs SortingProofs.
Import ListNotations.
Local Open Scope Z_scope.

Lemma ex_intervals : ordered_intervals [0; 4; 9] [3; 8; 9] /\ owns [0; 4; 9] [3; 8; 9] 1 6 /\
  (forall p, ~ owns [0; 4; 9] [3; 8; 9] p 12).
Proof.
  assert (C : forall p, 0 <= p < 3 -> p = 0 \/ p = 1 \/ p = 2) by lia.
  split; [|split].
  - split; [reflexivity|]. cbn [length]. intros p q Hp Hq.
    destruct (C p ltac:(lia)) as [E|[E|E]], (C q ltac:(lia)) as [E'|[E'|E']]; subst; try lia; split; vm_compute; congruence.
  - repeat split; vm_compute; congruence.
  - intros p [Hp H]. cbn [length] in Hp. destruct (C p ltac:(lia)) as [E|[E|E]]; subst; vm_compute in H; destruct H; congruence.
Qed.

Lemma ex_sorted : sorted_array [2; 2; 5; 9] /\ binary_search 5 [2; 2; 5; 9] 4 = Ret 3 /\ binary_search 4 [2; 2; 5; 9] 4 = Ret (-1).
Proof.
  split; [|split; reflexivity]. intros i j Hi Hj. cbn [length] in Hj.
  assert (C : forall p, 0 <= p < 4 -> p = 0 \/ p = 1 \/ p = 2 \/ p = 3) by lia.
  destruct (C i ltac:(lia)) as [E|[E|[E|E]]], (C j ltac:(lia)) as [E'|[E'|[E'|E']]]; subst; try lia; vm_compute; congruence.
Qed.

Lemma intersection_empty : exists a b, nonempty a /\ fst (get_3Dintersection a b) = true /\
  forall x y z, ~ in_box b x y z.
Proof.
  exists (Box 0 9 0 9 0 9), (Box 5 4 0 9 0 9). split; [unfold nonempty; cbn; lia|]. split; [reflexivity|].
  intros x y z. unfold in_box. cbn. lia.
Qed.

Lemma ex_boxes : nonempty (Box 0 4 0 4 0 4) /\ nonempty (Box 3 9 1 2 4 7) /\
  get_3Dintersection (Box 0 4 0 4 0 4) (Box 3 9 1 2 4 7) = (true, Box 3 4 1 2 4 4).
Proof. unfold nonempty. cbn. repeat split; lia. Qed.

Lemma balance_outside (lm : Libm b64) :
  balance_in_dir (N := F64 lm) (map (fun z => @n_of_Z (F64 lm) z) [1; 1; 1; 10]) 4 2 [7; 7] [7; 7] = Ret ([0; 4], [3; 4]).
Proof. vm_compute. reflexivity. Qed.

Lemma balance_last_cell (lm : Libm b64) : exists tiny : num (F64 lm),
  @n_lt (F64 lm) (n_of_Z 0) tiny = true /\
  exists mins maxs, balance_in_dir (N := F64 lm) [n_of_Z 1; n_of_Z 1; tiny] 3 1 [7] [7] = Ret (mins, maxs) /\
    forall p, ~ owns mins maxs p 2.
Proof.
  exists (@n_lit (F64 lm) 1 (-20)). split; [vm_compute; reflexivity|].
  exists [0], [1]. split; [vm_compute; reflexivity|].
  intros p [Hp H]. cbn [length] in Hp. assert (p = 0) by lia. subst. vm_compute in H. destruct H; congruence.
Qed.

Lemma ex_loads : let rs := [1; 2; 1; 2; 2]%R in
  (forall x, In x rs -> (0 <= x <= 2)%R) /\ (0 < last rs 0)%R /\ (2 * IZR 4 <= total_load rs)%R /\ rs <> [].
Proof.
  cbv zeta. split; [|split; [|split]].
  - intros x Hx. cbn in Hx. repeat destruct Hx as [Hx|Hx]; subst; lra.
  - cbn. lra.
  - unfold total_load. cbn. lra.
  - discriminate.
Qed.

Lemma proclimits l cxmin cymin czmin cxmax cymax czmax npx npy npz :
  1 <= npx -> 1 <= npy <= npx -> 1 <= npz <= npx ->
  zlen cxmin = npx -> zlen cxmax = npx -> zlen cymin = npy -> zlen cymax = npy -> zlen czmin = npz -> zlen czmax = npz ->
  (let np := npx * npy * npz in
   zlen (lx1 l) = np /\ zlen (lx2 l) = np /\ zlen (ly1 l) = np /\ zlen (ly2 l) = np /\ zlen (lz1 l) = np /\ zlen (lz2 l) = np) ->
  exists l', get_1Darray_proclimits l cxmin cymin czmin cxmax cymax czmax npx npy npz = Ret l' /\
    forall ix iy iz, 0 <= ix < npx -> 0 <= iy < npy -> 0 <= iz < npz ->
      let r := pxr_convertindtoproc ix iy iz npx npy npz in
      zel (lx1 l') r = zel cxmin ix /\ zel (lx2 l') r = zel cxmax ix + 1 /\
      zel (ly1 l') r = zel cymin iy /\ zel (ly2 l') r = zel cymax iy + 1 /\
      zel (lz1 l') r = zel czmin iz /\ zel (lz2 l') r = zel czmax iz + 1.
Proof.
  intros. edestruct proclimits_spec as (l' & E & _ & H'); [..|exists l'; split; [exact E|]]; try eassumption.
  intros ix iy iz Hx Hy Hz r. assert (Er := convert_in_range ix iy iz npx npy npz Hx Hy Hz ltac:(lia) ltac:(lia)).
  unfold r. rewrite Er. apply H'; try assumption. rewrite <- Er. apply convert_rank_range; lia.
Qed.

Lemma ranks_shared npx npy npz : 1 <= npx < npy -> 1 <= npz ->
  pxr_convertindtoproc 0 npx 0 npx npy npz = pxr_convertindtoproc 0 0 0 npx npy npz.
Proof.
  intros. unfold pxr_convertindtoproc. cbv zeta. change (0 <? 0) with false. cbv iota.
  replace (npx <? 0) with false by (symmetry; apply Z.ltb_ge; lia).
  replace (npx - 1 <? npx) with true by (symmetry; apply Z.ltb_lt; lia).
  replace (npx - 1 <? 0) with false by (symmetry; apply Z.ltb_ge; lia). reflexivity.
Qed.

Lemma wrap_y_missing npx npy npz : 1 <= npy < npx -> 1 <= npz ->
  pxr_convertindtoproc 0 npy 0 npx npy npz <> pxr_convertindtoproc 0 0 0 npx npy npz.
Proof.
  intros. unfold pxr_convertindtoproc. cbv zeta. change (0 <? 0) with false. cbv iota.
  replace (npy <? 0) with false by (symmetry; apply Z.ltb_ge; lia).
  replace (npx - 1 <? npy) with false by (symmetry; apply Z.ltb_ge; lia).
  replace (npx - 1 <? 0) with false by (symmetry; apply Z.ltb_ge; lia). cbv iota. nia.
Qed.

Lemma ex_limits : pxr_convertindtoproc 2 1 1 3 2 2 = 11 /\
  exists l', get_1Darray_proclimits (Limits [0; 0] [0; 0] [0; 0] [0; 0] [0; 0] [0; 0]) [0; 4] [0] [0] [3; 9] [5] [5] 2 1 1 = Ret l' /\
    lx1 l' = [0; 4] /\ lx2 l' = [4; 10].
Proof. split; [reflexivity|]. eexists. split; [reflexivity|]. split; reflexivity. Qed.

Lemma sort_edge (lm : Libm b64) : exists x : num (F64 lm),
  let N := F64 lm in let one : num N := n_of_Z 1 in let zero : num N := n_of_Z 0 in
  @n_lt N x one = true /\ @n_le N (- one)%N x = true /\
  pxr_particle_bin_sorting (N := N) 1 [x] [zero] [zero] [zero] [zero] [zero] [one] [one]
    (- one)%N (- one)%N (- one)%N one one one one one one = UB.
Proof.
  exists (B754_finite false 9007199254740991 (-53) (eq_refl : SpecFloat.bounded 53 1024 9007199254740991 (-53) = true)).
  cbv zeta. split; [vm_compute; reflexivity|]. split; vm_compute; reflexivity.
Qed.

Lemma sort_below :
  pxr_particle_bin_sorting_2d (N := FRX) 1 [Fin (-1/2)] [Fin 0] [Fin 0] [Fin 0] [Fin 0] [Fin 1] [Fin 1]
    (Fin 0) (Fin 0) (Fin 1) (Fin 1) (Fin 1) (Fin 1) = UB.
Proof.
  assert (EC : @ceiling32 FRX (@n_mul FRX (@n_sub FRX (Fin 1) (Fin 0)) (@n_div FRX (n_of_Z 1) (Fin 1))) = Ret 1).
  { change (@n_of_Z FRX 1) with (Fin 1). change (@n_div FRX) with x_div. rewrite x_div_fin by lra.
    unfold ceiling32. change (@n_opp FRX (@n_mul FRX (@n_sub FRX (Fin 1) (Fin 0)) (Fin (1 / 1)))) with (Fin (- ((1 - 0) * (1 / 1)))).
    assert (E : Int_part (- ((1 - 0) * (1 / 1))) = -1) by (apply Int_part_unique; change (IZR (-1)) with (-1)%R; lra).
    rewrite floor32_fin; rewrite E; [reflexivity|lia]. }
  unfold pxr_particle_bin_sorting_2d. cbv zeta. rewrite !EC. cbn [bind].
  change (map (Z.add 1) (zseq (Z.to_nat 1))) with [1]. cbn [mapM]. 
  change (get1 [Fin (-1 / 2)] 1) with (Ret (Fin (-1 / 2))). change (get1 [Fin 0] 1) with (Ret (Fin 0)). cbn [bind].
  unfold bin_2d. change (@n_of_Z FRX 1) with (Fin 1). change (@n_div FRX) with x_div. rewrite x_div_fin by lra.
  change (@n_mul FRX (@n_sub FRX (Fin (-1 / 2)) (Fin 0)) (Fin (1 / 1))) with (Fin ((-1 / 2 - 0) * (1 / 1))).
  change (@n_mul FRX (@n_sub FRX (Fin 0) (Fin 0)) (Fin (1 / 1))) with (Fin ((0 - 0) * (1 / 1))).
  assert (E1 : Int_part ((-1 / 2 - 0) * (1 / 1)) = -1) by (apply Int_part_unique; change (IZR (-1)) with (-1)%R; lra).
  assert (E2 : Int_part ((0 - 0) * (1 / 1)) = 0) by (apply Int_part_unique; change (IZR 0) with 0%R; lra).
  rewrite !floor32_fin; rewrite ?E1, ?E2; try lia. reflexivity.
Qed.

Lemma ex_sort : cells_fit 0 4 1 /\ (forall x, In x [2.5; 0.5; 3]%R -> (0 <= x < 4)%R) /\
  counting_sort 4 3 [3; 1; 3; 2] [[10; 20; 30; 40]; [1; 2; 3; 4]] = Ret [[20; 40; 10; 30]; [2; 4; 1; 3]].
Proof.
  split; [|split].
  - unfold cells_fit. change (2 ^ 31 - 1)%Z with 2147483647%Z. lra.
  - intros x Hx. cbn in Hx. repeat destruct Hx as [Hx|Hx]; subst; lra.
  - reflexivity.
Qed.
