(** Proofs about LoadBalance.v: searches, intersections, process grid. *)
From Coq Require Import ZArith Reals List Bool Lia Lra.
From Verif Require Import Cxx Num Fortran CxxLemmas FortranLemmas LoadBalance SpecDecomp.
Import ListNotations.
Local Open Scope Z_scope.

Lemma quot2 a b : 0 <= a <= b -> a <= Z.quot (b + a) 2 <= b.
Proof. intros H. rewrite Z.quot_div_nonneg by lia. pose proof (Z.div_mod (b + a) 2). pose proof (Z.mod_pos_bound (b + a) 2). lia. Qed.

(** *** get_proc_interval *)
Lemma gpi_loop_spec ic mins maxs fuel : forall imin imax,
  length mins = length maxs -> 0 <= imin -> imax < zlen mins -> 0 < Z.of_nat fuel -> imax - imin + 2 <= Z.of_nat fuel ->
  exists r, gpi_loop fuel ic mins maxs imin imax = Ret r /\
    (r = -1 \/ (imin <= r <= imax /\ zel mins r <= ic <= zel maxs r)) /\
    (ordered_intervals mins maxs -> forall p, imin <= p <= imax -> zel mins p <= ic <= zel maxs p -> r = p).
Proof.
  induction fuel as [|fuel IH]; intros imin imax HL H0 H1 HF0 HF; [lia|].
  cbn [gpi_loop]. destruct (imin <=? imax) eqn:E; cycle 1.
  { exists (-1). split; [reflexivity|]. apply Z.leb_gt in E. split; [now left|]. lia. }
  apply Z.leb_le in E. pose proof (quot2 imin imax ltac:(lia)) as Hm.
  set (imid := Z.quot (imax + imin) 2) in *.
  assert (HL' : zlen maxs = zlen mins) by (unfold zlen; now rewrite HL).
  rewrite (zget_nth mins imid 0) by lia. rewrite (zget_nth maxs imid 0) by lia. cbn [bind].
  fold (zel mins imid) (zel maxs imid).
  destruct ((zel mins imid <=? ic) && (ic <=? zel maxs imid)) eqn:Ein.
  { apply andb_true_iff in Ein as [A B]. apply Z.leb_le in A, B.
    exists imid. split; [reflexivity|]. split; [right; lia|].
    intros [_ Ho] p Hp Hip. unfold zlen in *.
    destruct (Z.lt_trichotomy p imid) as [L|[L|L]]; [|auto|].
    - destruct (Ho p imid) as [? ?]; lia.
    - destruct (Ho imid p) as [? ?]; lia. }
  destruct (ic <? zel mins imid) eqn:El.
  - apply Z.ltb_lt in El. destruct (IH imin (imid - 1) HL) as (r & Er & Hr & Hu); [lia..|].
    exists r. split; [exact Er|]. split; [destruct Hr as [?|?]; [now left|right; lia]|].
    intros Ho p Hp Hip. apply Hu; [exact Ho| |exact Hip].
    destruct (Z.lt_trichotomy p imid) as [L|[L|L]]; [lia|subst; lia|].
    destruct Ho as [_ Ho]. unfold zlen in *. destruct (Ho imid p); lia.
  - apply Z.ltb_ge in El. destruct (IH (imid + 1) imax HL) as (r & Er & Hr & Hu); [lia..|].
    exists r. split; [exact Er|]. split; [destruct Hr as [?|?]; [now left|right; lia]|].
    intros Ho p Hp Hip. apply Hu; [exact Ho| |exact Hip].
    apply andb_false_iff in Ein. rewrite !Z.leb_gt in Ein.
    destruct (Z.lt_trichotomy p imid) as [L|[L|L]]; [|subst; lia|lia].
    destruct Ho as [_ Ho]. unfold zlen in *. destruct (Ho p imid); lia.
Qed.

Theorem get_proc_interval_sound ic mins maxs : length mins = length maxs ->
  exists r, get_proc_interval ic mins maxs (Z.of_nat (length mins)) = Ret r /\
    (r = -1 \/ owns mins maxs r ic).
Proof.
  intros HL. unfold get_proc_interval.
  destruct (gpi_loop_spec ic mins maxs (S (Z.to_nat (Z.of_nat (length mins)))) 0 (Z.of_nat (length mins) - 1) HL)
    as (r & E & H & _); [unfold zlen; lia..|].
  exists r. split; [exact E|]. destruct H as [H|H]; [now left|right]. split; lia.
Qed.

Theorem get_proc_interval_complete ic mins maxs p : ordered_intervals mins maxs -> owns mins maxs p ic ->
  get_proc_interval ic mins maxs (Z.of_nat (length mins)) = Ret p.
Proof.
  intros Ho [Hp Hi]. unfold get_proc_interval.
  destruct (gpi_loop_spec ic mins maxs (S (Z.to_nat (Z.of_nat (length mins)))) 0 (Z.of_nat (length mins) - 1) (proj1 Ho))
    as (r & E & _ & H); [unfold zlen; lia..|].
  rewrite E. f_equal. apply H; [exact Ho|lia|exact Hi].
Qed.

Theorem get_proc_interval_none ic mins maxs : length mins = length maxs -> (forall p, ~ owns mins maxs p ic) ->
  get_proc_interval ic mins maxs (Z.of_nat (length mins)) = Ret (-1).
Proof.
  intros HL Hn. destruct (get_proc_interval_sound ic mins maxs HL) as (r & E & [H|H]); [congruence|].
  destruct (Hn _ H).
Qed.

(** *** binary_search *)
Lemma bs_loop_spec c a fuel : forall imin imax,
  1 <= imin -> imax <= zlen a -> 0 < Z.of_nat fuel -> imax - imin + 2 <= Z.of_nat fuel ->
  exists r, bs_loop fuel c a imin imax = Ret r /\
    (r = -1 \/ (imin <= r <= imax /\ zel a (r - 1) = c)) /\
    (sorted_array a -> r = -1 -> forall i, imin <= i <= imax -> zel a (i - 1) <> c).
Proof.
  induction fuel as [|fuel IH]; intros imin imax H0 H1 HF0 HF; [lia|].
  cbn [bs_loop]. destruct (imin <=? imax) eqn:E; cycle 1.
  { exists (-1). split; [reflexivity|]. apply Z.leb_gt in E. split; [now left|]. lia. }
  apply Z.leb_le in E. pose proof (quot2 imin imax ltac:(lia)) as Hm.
  set (imid := Z.quot (imax + imin) 2) in *.
  rewrite (get1_ok a imid 0) by lia. cbn [bind]. fold (zel a (imid - 1)).
  destruct (zel a (imid - 1) =? c) eqn:Ec.
  { apply Z.eqb_eq in Ec. exists imid. split; [reflexivity|]. split; [right; lia|lia]. }
  apply Z.eqb_neq in Ec. destruct (c <=? zel a (imid - 1)) eqn:El.
  - apply Z.leb_le in El. destruct (IH imin (imid - 1)) as (r & Er & Hr & Hu); [lia..|].
    exists r. split; [exact Er|]. split; [destruct Hr as [?|?]; [now left|right; lia]|].
    intros Hs Hn i Hi. destruct (Z.lt_ge_cases i imid) as [L|L]; [apply Hu; auto; lia|].
    unfold zlen in *. pose proof (Hs (imid - 1) (i - 1)). lia.
  - apply Z.leb_gt in El. destruct (IH (imid + 1) imax) as (r & Er & Hr & Hu); [lia..|].
    exists r. split; [exact Er|]. split; [destruct Hr as [?|?]; [now left|right; lia]|].
    intros Hs Hn i Hi. destruct (Z.lt_ge_cases imid i) as [L|L]; [apply Hu; auto; lia|].
    unfold zlen in *. pose proof (Hs (i - 1) (imid - 1)). lia.
Qed.

Theorem binary_search_spec c a : sorted_array a ->
  exists r, binary_search c a (Z.of_nat (length a)) = Ret r /\
    ((1 <= r <= Z.of_nat (length a) /\ zel a (r - 1) = c) \/ (r = -1 /\ ~ In c a)).
Proof.
  intros Hs. unfold binary_search.
  destruct (bs_loop_spec c a (S (Z.to_nat (Z.of_nat (length a)))) 1 (Z.of_nat (length a)))
    as (r & E & H & Hu); [unfold zlen; lia..|].
  exists r. split; [exact E|]. destruct H as [H|H]; [|left; exact H]. right. split; [exact H|].
  intros Hin. apply In_nth with (d := 0) in Hin as (n & Hn & En).
  apply (Hu Hs H (Z.of_nat n + 1)); [lia|]. unfold zel. now replace (Z.to_nat (Z.of_nat n + 1 - 1)) with n by lia.
Qed.

(** any array: the search terminates inside the array *)
Theorem binary_search_sound c a :
  exists r, binary_search c a (Z.of_nat (length a)) = Ret r /\
    (r = -1 \/ (1 <= r <= Z.of_nat (length a) /\ zel a (r - 1) = c)).
Proof.
  unfold binary_search.
  destruct (bs_loop_spec c a (S (Z.to_nat (Z.of_nat (length a)))) 1 (Z.of_nat (length a)))
    as (r & E & H & _); [unfold zlen; lia..|].
  exists r. split; [exact E|exact H].
Qed.

(** *** intersections *)
Lemma intersect_dir_spec a b c d : a <= b -> c <= d ->
  match intersect_dir a b c d with
  | (l, m, n) => (l = true <-> exists x, a <= x <= b /\ c <= x <= d) /\
                 (l = true -> forall x, m <= x <= n <-> (a <= x <= b /\ c <= x <= d))
  end.
Proof.
  intros H1 H2. unfold intersect_dir. destruct (Z.leb_spec a c).
  - destruct (Z.leb_spec c b); (split; [split|]); try discriminate; try lia; auto.
    + intros _. exists c. lia.
    + intros (x & ?). lia.
  - destruct (Z.leb_spec a d); (split; [split|]); try discriminate; try lia; auto.
    + intros _. exists a. lia.
    + intros (x & ?). lia.
Qed.

Theorem get_3Dintersection_spec a b : nonempty a -> nonempty b ->
  let r := get_3Dintersection a b in
  (fst r = true <-> exists x y z, in_box a x y z /\ in_box b x y z) /\
  (fst r = true -> forall x y z, in_box (snd r) x y z <-> (in_box a x y z /\ in_box b x y z)).
Proof.
  intros (A1 & A2 & A3) (B1 & B2 & B3). unfold get_3Dintersection.
  pose proof (intersect_dir_spec _ _ _ _ A1 B1) as Hx.
  pose proof (intersect_dir_spec _ _ _ _ A2 B2) as Hy.
  pose proof (intersect_dir_spec _ _ _ _ A3 B3) as Hz.
  destruct (intersect_dir (bx1 a) (bx2 a) (bx1 b) (bx2 b)) as [[lx x1] x2].
  destruct (intersect_dir (by1 a) (by2 a) (by1 b) (by2 b)) as [[ly y1] y2].
  destruct (intersect_dir (bz1 a) (bz2 a) (bz1 b) (bz2 b)) as [[lz z1] z2].
  destruct Hx as [Hx1 Hx2], Hy as [Hy1 Hy2], Hz as [Hz1 Hz2]. cbn [fst snd]. split.
  - rewrite !andb_true_iff. split.
    + intros [[-> ->] ->]. destruct (proj1 Hx1 eq_refl) as (x & ?), (proj1 Hy1 eq_refl) as (y & ?), (proj1 Hz1 eq_refl) as (z & ?).
      exists x, y, z. unfold in_box. tauto.
    + intros (x & y & z & (? & ? & ?) & (? & ? & ?)).
      rewrite Hx1, Hy1, Hz1. split; [split|]; [exists x|exists y|exists z]; tauto.
  - rewrite !andb_true_iff. intros [[-> ->] ->] x y z. unfold in_box. cbn.
    rewrite (Hx2 eq_refl x), (Hy2 eq_refl y), (Hz2 eq_refl z). tauto.
Qed.

Theorem get_2Dintersection_spec a b : nonempty a -> nonempty b ->
  let r := get_2Dintersection a b in
  (fst r = true <-> exists x z, (bx1 a <= x <= bx2 a /\ bz1 a <= z <= bz2 a) /\ (bx1 b <= x <= bx2 b /\ bz1 b <= z <= bz2 b)) /\
  (fst r = true -> forall x z, in_box (snd r) x 1 z <->
     ((bx1 a <= x <= bx2 a /\ bz1 a <= z <= bz2 a) /\ (bx1 b <= x <= bx2 b /\ bz1 b <= z <= bz2 b))).
Proof.
  intros (A1 & A2 & A3) (B1 & B2 & B3). unfold get_2Dintersection.
  pose proof (intersect_dir_spec _ _ _ _ A1 B1) as Hx.
  pose proof (intersect_dir_spec _ _ _ _ A3 B3) as Hz.
  destruct (intersect_dir (bx1 a) (bx2 a) (bx1 b) (bx2 b)) as [[lx x1] x2].
  destruct (intersect_dir (bz1 a) (bz2 a) (bz1 b) (bz2 b)) as [[lz z1] z2].
  destruct Hx as [Hx1 Hx2], Hz as [Hz1 Hz2]. cbn [fst snd]. split.
  - rewrite !andb_true_iff. split.
    + intros [-> ->]. destruct (proj1 Hx1 eq_refl) as (x & ?), (proj1 Hz1 eq_refl) as (z & ?).
      exists x, z. tauto.
    + intros (x & z & (? & ?) & (? & ?)). rewrite Hx1, Hz1. split; [exists x|exists z]; tauto.
  - rewrite !andb_true_iff. intros [-> ->] x z. unfold in_box. cbn.
    rewrite (Hx2 eq_refl x), (Hz2 eq_refl z). lia.
Qed.

(** the order of the arguments does not matter: sender and receiver agree *)
Theorem get_3Dintersection_sym a b : nonempty a -> nonempty b ->
  fst (get_3Dintersection a b) = fst (get_3Dintersection b a) /\
  (fst (get_3Dintersection a b) = true -> snd (get_3Dintersection a b) = snd (get_3Dintersection b a)).
Proof.
  intros (A1 & A2 & A3) (B1 & B2 & B3).
  assert (S : forall p q r s, p <= q -> r <= s -> intersect_dir p q r s = intersect_dir r s p q).
  { intros p q r s ? ?. unfold intersect_dir.
    destruct (Z.leb_spec p r), (Z.leb_spec r p), (Z.leb_spec r q), (Z.leb_spec p s); try lia; auto; f_equal; try lia; f_equal; lia. }
  unfold get_3Dintersection. rewrite (S _ _ _ _ A1 B1), (S _ _ _ _ A2 B2), (S _ _ _ _ A3 B3).
  destruct (intersect_dir (bx1 b) (bx2 b) (bx1 a) (bx2 a)) as [[? ?] ?].
  destruct (intersect_dir (by1 b) (by2 b) (by1 a) (by2 a)) as [[? ?] ?].
  destruct (intersect_dir (bz1 b) (bz2 b) (bz1 a) (bz2 a)) as [[? ?] ?]. auto.
Qed.

(** *** Process grid *)
Lemma convert_in_range ix iy iz npx npy npz :
  0 <= ix < npx -> 0 <= iy < npy -> 0 <= iz < npz -> npy <= npx -> npz <= npx ->
  pxr_convertindtoproc ix iy iz npx npy npz = ix + npx * (iy + npy * iz).
Proof.
  intros. unfold pxr_convertindtoproc. cbv zeta.
  replace (ix <? 0) with false by (symmetry; apply Z.ltb_ge; lia).
  replace (npx - 1 <? ix) with false by (symmetry; apply Z.ltb_ge; lia).
  replace (iy <? 0) with false by (symmetry; apply Z.ltb_ge; lia).
  replace (npx - 1 <? iy) with false by (symmetry; apply Z.ltb_ge; lia).
  replace (iz <? 0) with false by (symmetry; apply Z.ltb_ge; lia).
  replace (npx - 1 <? iz) with false by (symmetry; apply Z.ltb_ge; lia). ring.
Qed.

Lemma linear_lt a b n m : 0 <= a < n -> b < m -> a + n * b < n * m.
Proof. intros. assert (n * b <= n * (m - 1)) by (apply Z.mul_le_mono_nonneg_l; lia). lia. Qed.

Lemma linear_inj a b a' b' n : 0 <= a < n -> 0 <= a' < n -> a + n * b = a' + n * b' -> a = a' /\ b = b'.
Proof. intros H1 H2 E. assert (b = b') by (destruct (Z.lt_trichotomy b b') as [L|[L|L]]; [|exact L|]; nia). subst. lia. Qed.

Theorem convert_rank_range ix iy iz npx npy npz :
  0 <= ix < npx -> 0 <= iy < npy -> 0 <= iz < npz -> npy <= npx -> npz <= npx ->
  0 <= pxr_convertindtoproc ix iy iz npx npy npz < npx * npy * npz.
Proof.
  intros. rewrite convert_in_range by assumption.
  pose proof (linear_lt iy iz npy npz ltac:(lia) ltac:(lia)).
  pose proof (linear_lt ix (iy + npy * iz) npx (npy * npz) ltac:(lia) ltac:(lia)).
  assert (0 <= npy * iz) by (apply Z.mul_nonneg_nonneg; lia).
  assert (0 <= npx * (iy + npy * iz)) by (apply Z.mul_nonneg_nonneg; lia). lia.
Qed.

Theorem convert_rank_inj npx npy npz ix iy iz jx jy jz :
  npy <= npx -> npz <= npx ->
  0 <= ix < npx -> 0 <= iy < npy -> 0 <= iz < npz -> 0 <= jx < npx -> 0 <= jy < npy -> 0 <= jz < npz ->
  pxr_convertindtoproc ix iy iz npx npy npz = pxr_convertindtoproc jx jy jz npx npy npz ->
  ix = jx /\ iy = jy /\ iz = jz.
Proof.
  intros. rewrite !convert_in_range in * by assumption.
  destruct (linear_inj ix (iy + npy * iz) jx (jy + npy * jz) npx) as [? E]; [lia..|].
  destruct (linear_inj iy iz jy jz npy) as [? ?]; [lia..|auto].
Qed.

(** periodic wrap of the x index *)
Theorem convert_wrap_x iy iz npx npy npz : 1 <= npx ->
  pxr_convertindtoproc (-1) iy iz npx npy npz = pxr_convertindtoproc (npx - 1) iy iz npx npy npz /\
  pxr_convertindtoproc npx iy iz npx npy npz = pxr_convertindtoproc 0 iy iz npx npy npz.
Proof.
  intros. unfold pxr_convertindtoproc. cbv zeta. change (0 <? 0) with false. change (-1 <? 0) with true. cbv iota.
  replace (npx - 1 <? npx - 1) with false by (symmetry; apply Z.ltb_ge; lia).
  replace (npx <? 0) with false by (symmetry; apply Z.ltb_ge; lia).
  replace (npx - 1 <? npx) with true by (symmetry; apply Z.ltb_lt; lia).
  replace (npx - 1 <? 0) with false by (symmetry; apply Z.ltb_ge; lia). cbv iota.
  replace (npx - 1 <? npx - 1) with false by (symmetry; apply Z.ltb_ge; lia). split; reflexivity.
Qed.

(** what get_1Darray_proclimits has written for the ranks below r *)
Definition limits_upto (cxmin cymin czmin cxmax cymax czmax : list Z) (npx npy npz r : Z) (l : limits) : Prop :=
  let np := npx * npy * npz in
  (zlen (lx1 l) = np /\ zlen (lx2 l) = np /\ zlen (ly1 l) = np /\ zlen (ly2 l) = np /\ zlen (lz1 l) = np /\ zlen (lz2 l) = np) /\
  forall ix iy iz, 0 <= ix < npx -> 0 <= iy < npy -> 0 <= iz < npz ->
    let q := ix + npx * (iy + npy * iz) in
    q < r ->
    zel (lx1 l) q = zel cxmin ix /\ zel (lx2 l) q = zel cxmax ix + 1 /\
    zel (ly1 l) q = zel cymin iy /\ zel (ly2 l) q = zel cymax iy + 1 /\
    zel (lz1 l) q = zel czmin iz /\ zel (lz2 l) q = zel czmax iz + 1.

Lemma zel_set_same l i v : 0 <= i < zlen l -> zel (lset l (Z.to_nat i) v) i = v.
Proof. intros H. unfold zel. apply nth_lset_same. unfold zlen in H. lia. Qed.
Lemma zel_set_other l i j v : 0 <= i -> 0 <= j -> i <> j -> zel (lset l (Z.to_nat i) v) j = zel l j.
Proof. intros. unfold zel. apply nth_lset_other. lia. Qed.

Theorem proclimits_spec l cxmin cymin czmin cxmax cymax czmax npx npy npz :
  1 <= npx -> 1 <= npy <= npx -> 1 <= npz <= npx ->
  zlen cxmin = npx -> zlen cxmax = npx -> zlen cymin = npy -> zlen cymax = npy -> zlen czmin = npz -> zlen czmax = npz ->
  (let np := npx * npy * npz in
   zlen (lx1 l) = np /\ zlen (lx2 l) = np /\ zlen (ly1 l) = np /\ zlen (ly2 l) = np /\ zlen (lz1 l) = np /\ zlen (lz2 l) = np) ->
  exists l', get_1Darray_proclimits l cxmin cymin czmin cxmax cymax czmax npx npy npz = Ret l' /\
    limits_upto cxmin cymin czmin cxmax cymax czmax npx npy npz (npx * npy * npz) l'.
Proof.
  intros Hx Hy Hz C1 C2 C3 C4 C5 C6 HL. unfold get_1Darray_proclimits.
  set (P := limits_upto cxmin cymin czmin cxmax cymax czmax npx npy npz).
  assert (H0 : P 0 l).
  { split; [exact HL|]. intros ix iy iz ? ? ? q Hq. exfalso. unfold q in Hq.
    assert (0 <= npy * iz) by (apply Z.mul_nonneg_nonneg; lia). assert (0 <= npx * (iy + npy * iz)) by (apply Z.mul_nonneg_nonneg; lia). lia. }
  edestruct (do_range_inv (fun iz l => P (npx * (npy * iz)) l)) as (l' & E & H'); [| | |].
  4:{ exists l'. split; [exact E|]. replace (npx * npy * npz) with (npx * (npy * (npz - 1 + 1))) by ring. exact H'. }
  { lia. }
  { replace (npx * (npy * 0)) with 0 by ring. exact H0. }
  clear l HL H0. intros iz l Hiz HP. cbv beta in HP.
  edestruct (do_range_inv (fun iy l => P (npx * (iy + npy * iz)) l)) as (l' & E & H'); [| | |].
  4:{ exists l'. split; [exact E|]. replace (npx * (npy * (iz + 1))) with (npx * (npy - 1 + 1 + npy * iz)) by ring. exact H'. }
  { lia. }
  { exact HP. }
  clear l HP. intros iy l Hiy HP. cbv beta in HP.
  edestruct (do_range_inv (fun ix l => P (ix + npx * (iy + npy * iz)) l)) as (l' & E & H'); [| | |].
  4:{ exists l'. split; [exact E|]. replace (npx * (iy + 1 + npy * iz)) with (npx - 1 + 1 + npx * (iy + npy * iz)) by ring. exact H'. }
  { lia. }
  { exact HP. }
  clear l HP. intros ix l Hix HP. cbv beta in HP.
  assert (Hr : 0 <= ix + npx * (iy + npy * iz) < npx * npy * npz).
  { rewrite <- (convert_in_range ix iy iz npx npy npz) by lia. apply convert_rank_range; lia. }
  cbv beta zeta. rewrite convert_in_range by lia. cbv zeta. set (r := ix + npx * (iy + npy * iz)) in *.
  destruct HP as [(A1 & A2 & A3 & A4 & A5 & A6) HW].
  rewrite (zget_nth cxmin ix 0) by lia. rewrite (zget_nth cxmax ix 0) by lia.
  rewrite (zget_nth cymin iy 0) by lia. rewrite (zget_nth cymax iy 0) by lia.
  rewrite (zget_nth czmin iz 0) by lia. rewrite (zget_nth czmax iz 0) by lia.
  cbn [bind]. rewrite !zset_ok by lia. cbn [bind].
  eexists. split; [reflexivity|]. split.
  - cbn [lx1 lx2 ly1 ly2 lz1 lz2]. rewrite !zlen_lset. auto 10.
  - intros jx jy jz Hjx Hjy Hjz q Hq. cbn [lx1 lx2 ly1 ly2 lz1 lz2].
    assert (Hq0 : 0 <= q).
    { unfold q. rewrite <- (convert_in_range jx jy jz npx npy npz) by lia. apply convert_rank_range; lia. }
    destruct (Z.eq_dec r q) as [Eq|Ne].
    + unfold r, q in Eq. destruct (linear_inj ix (iy + npy * iz) jx (jy + npy * jz) npx) as [? E2]; [lia..|].
      destruct (linear_inj iy iz jy jz npy) as [? ?]; [lia..|]. subst jx jy jz.
      change q with r. rewrite !zel_set_same by lia. auto 10.
    + rewrite !zel_set_other by lia. apply HW; try assumption. fold q. lia.
Qed.
