(** Consequences for the gathering of the fields: affine fields, bounds, charge. *)
From Coq Require Import ZArith Reals List Bool Lia Lra Psatz.
From Verif Require Import Cxx Num NumRX CxxLemmas Fortran FortranNum FortranLemmas Grid GridLemmas Pushers SpecPush PusherProofs Deposit SpecPhys SpecYee YeeReal SpecDeposit
  Splines Sums DepositProofs DepositMore Esirkepov SpecCurrent Gather SpecGather GatherReal GatherProofs.
Import ListNotations.
Local Open Scope R_scope.

(** ** sums of the weights *)
Lemma bspline_nonneg m y i : 0 <= bspline m y i.
Proof. destruct m as [|p|p]; [|apply spline_nonneg|apply spline_nonneg]. cbn. destruct (Rle_dec _ _); [destruct (Rlt_dec _ _)|]; lra. Qed.
Lemma cell0_ex m y : exists j, cell0 m y j.
Proof.
  unfold cell0. destruct (_ =? _)%Z.
  - exists (Int_part (y + 1 / 2)). pose proof (Int_part_floor (y + 1 / 2)). lra.
  - exists (Int_part y). apply Int_part_floor.
Qed.
Lemma bspline_sums m y lo hi : (0 <= m <= 3)%Z -> fits m lo hi y ->
  rsum (zrange lo hi) (bspline m y) = 1 /\ ((1 <= m)%Z -> rsum (zrange lo hi) (fun i => IZR i * bspline m y i) = y).
Proof.
  intros K H. destruct (Z.eq_dec m 0) as [->|N].
  - split; [|lia]. destruct (cell0_ex 0 y) as (j & C). destruct (fits_cell 0 lo hi y j K H (cell0_cell _ _ _ C)) as (L1 & L2).
    rewrite (rsum_window lo hi (j + smin 0) (j + smax 0)); [|lia|cbn; lia|lia|intros i Hi; apply (bspline_off 0 y j); assumption].
    change (smin 0) with 0%Z. change (smax 0) with 0%Z. rewrite Z.add_0_r. rewrite zrange_cons by lia. rewrite zrange_nil by lia. unfold rsum. cbn [map fold_right].
    pose proof (bspline_on 0 y j 0 K C ltac:(cbn; lia)) as B. rewrite Z.add_0_r in B. rewrite B. cbn. ring.
  - destruct (is_node_ex m y) as (j & Hj). destruct (fits_cell m lo hi y j K H (is_node_cell _ _ _ Hj)) as (L1 & L2). pose proof (smin_smax m ltac:(lia)) as Sm. split; [|intros M].
    + rewrite (rsum_ext _ _ (spline m y)) by (intros; apply bspline_pos; lia). rewrite <- (spline_rsum m y j K Hj). apply rsum_window; try lia. intros i Hi. apply (spline_off m y j); assumption.
    + rewrite (rsum_ext _ _ (fun i => IZR i * spline m y i)) by (intros; rewrite bspline_pos by lia; reflexivity). etransitivity; [|exact (spline_moment m y j ltac:(lia) Hj)]. apply rsum_window; try lia. intros i Hi. rewrite (spline_off m y j) by assumption. ring.
Qed.
Lemma weight_sums s q d c x lo hi : proper_scheme s -> fits (degree s q d c) lo hi (x - offset s q d c) ->
  rsum (zrange lo hi) (weight_on s q d c x) = 1 /\ ((1 <= degree s q d c)%Z -> rsum (zrange lo hi) (fun i => IZR i * weight_on s q d c x i) = x - offset s q d c).
Proof. intros P H. exact (bspline_sums _ _ _ _ (degree_range s q d c P) H). Qed.
Lemma node_weight_sum s q d g lo hi a : proper_scheme s -> inside s q d g lo hi a -> sum_box lo hi (node_weight s q d g a) = 1.
Proof.
  intros P I. pose proof (sum_box_prod lo hi (weight_on s q d AX (unit_on g AX a)) (weight_on s q d AY (unit_on g AY a)) (weight_on s q d AZ (unit_on g AZ a))) as S.
  pose proof (I AX) as IX. pose proof (I AY) as IY. pose proof (I AZ) as IZ. destruct lo as [[a1 a2] a3], hi as [[b1 b2] b3]. cbn [low_of] in IX, IY, IZ. etransitivity; [exact S|].
  rewrite (proj1 (weight_sums _ _ _ _ _ _ _ P IX)), (proj1 (weight_sums _ _ _ _ _ _ _ P IY)), (proj1 (weight_sums _ _ _ _ _ _ _ P IZ)). ring.
Qed.
Lemma node_weight_moment s q d g lo hi a c : proper_scheme s -> inside s q d g lo hi a -> (1 <= degree s q d c)%Z ->
  sum_box lo hi (fun p => node_weight s q d g a p * (coord c p + offset s q d c)) = unit_on g c a.
Proof.
  intros P I K. transitivity (sum_box lo hi (fun p => coord c p * node_weight s q d g a p) + offset s q d c * sum_box lo hi (node_weight s q d g a)).
  { rewrite <- sum_box_scal, <- sum_box_plus. apply sum_box_ext. intros p _. ring. }
  rewrite node_weight_sum by assumption.
  assert (S : sum_box lo hi (fun p => coord c p * node_weight s q d g a p) = unit_on g c a - offset s q d c).
  { pose proof (I AX) as IX. pose proof (I AY) as IY. pose proof (I AZ) as IZ.
    destruct (weight_sums _ _ _ _ _ _ _ P IX) as (X1 & X2). destruct (weight_sums _ _ _ _ _ _ _ P IY) as (Y1 & Y2). destruct (weight_sums _ _ _ _ _ _ _ P IZ) as (Z1 & Z2).
    unfold node_weight. set (wx := weight_on s q d AX (unit_on g AX a)) in *. set (wy := weight_on s q d AY (unit_on g AY a)) in *. set (wz := weight_on s q d AZ (unit_on g AZ a)) in *.
    pose proof (sum_box_prod lo hi (match c with AX => fun i => IZR i * wx i | _ => wx end) (match c with AY => fun i => IZR i * wy i | _ => wy end) (match c with AZ => fun i => IZR i * wz i | _ => wz end)) as S.
    destruct lo as [[a1 a2] a3], hi as [[b1 b2] b3]. cbn [low_of] in X1, X2, Y1, Y2, Z1, Z2.
    etransitivity; [|etransitivity; [exact S|]].
    - apply sum_box_ext. intros [[j k] l] _. destruct c; cbn [coord]; ring.
    - destruct c; [rewrite (X2 K), Y1, Z1|rewrite X1, (Y2 K), Z1|rewrite X1, Y1, (Z2 K)]; ring. }
  rewrite S. ring.
Qed.
Lemma unit_at g c a : proper g -> origin g c + width g c * unit_on g c a = at_axis a c.
Proof. intros (H1 & H2 & H3). destruct c; cbn; unfold unit_x, unit_y, unit_z; field; assumption. Qed.
Lemma interpolated_affine s q d g lo hi f a k0 k : proper_scheme s -> proper g -> inside s q d g lo hi a ->
  (forall p, in_box lo hi p = true -> f p = affine k0 k (where_is s q d g p)) -> (forall c, degree s q d c = 0%Z -> k c = 0) ->
  interpolated s q d g lo hi f a = affine k0 k (at_axis a).
Proof.
  intros P Pg I H D. unfold interpolated.
  set (w := node_weight s q d g a).
  assert (M : forall c, k c * sum_box lo hi (fun p => w p * where_is s q d g p c) = k c * at_axis a c).
  { intros c. destruct (Z.eq_dec (degree s q d c) 0) as [Z0|NZ]; [rewrite (D c Z0); ring|]. f_equal.
    transitivity (origin g c * sum_box lo hi w + width g c * sum_box lo hi (fun p => w p * (coord c p + offset s q d c))).
    - rewrite <- !sum_box_scal, <- sum_box_plus. apply sum_box_ext. intros p _. unfold where_is. ring.
    - unfold w. rewrite node_weight_sum, node_weight_moment by (try assumption; pose proof (degree_range s q d c P); lia). rewrite <- (unit_at g c a Pg). ring. }
  transitivity (k0 * sum_box lo hi w + k AX * sum_box lo hi (fun p => w p * where_is s q d g p AX) + k AY * sum_box lo hi (fun p => w p * where_is s q d g p AY) + k AZ * sum_box lo hi (fun p => w p * where_is s q d g p AZ)).
  - rewrite <- !sum_box_scal, <- !sum_box_plus. apply sum_box_ext. intros p Hp. rewrite (H p Hp). unfold affine. ring.
  - rewrite !M. unfold w. rewrite node_weight_sum by assumption. unfold affine. ring.
Qed.
Lemma weight_nonneg s q d g a p : 0 <= node_weight s q d g a p.
Proof. destruct p as [[j k] l]. unfold node_weight, weight_on. apply Rmult_le_pos; [apply Rmult_le_pos|]; apply bspline_nonneg. Qed.
Lemma sum_box_le lo hi f h : (forall p, in_box lo hi p = true -> f p <= h p) -> sum_box lo hi f <= sum_box lo hi h.
Proof.
  intros H. assert (0 <= sum_box lo hi (fun p => h p - f p)).
  { unfold sum_box. apply sumR_nonneg. intros p Hp. apply in_box_box in Hp. specialize (H p Hp). lra. }
  assert (E : sum_box lo hi (fun p => h p - f p) = sum_box lo hi h - sum_box lo hi f) by (unfold sum_box; apply sumR_minus). lra.
Qed.
Lemma interpolated_bounds s q d g lo hi f a m M : proper_scheme s -> inside s q d g lo hi a ->
  (forall p, in_box lo hi p = true -> m <= f p <= M) -> m <= interpolated s q d g lo hi f a <= M.
Proof.
  intros P I H. unfold interpolated. pose proof (node_weight_sum s q d g lo hi a P I) as S. split.
  - replace m with (sum_box lo hi (fun p => m * node_weight s q d g a p)) by (rewrite sum_box_scal, S; ring). apply sum_box_le. intros p Hp. specialize (H p Hp). pose proof (weight_nonneg s q d g a p). nra.
  - replace M with (sum_box lo hi (fun p => M * node_weight s q d g a p)) by (rewrite sum_box_scal, S; ring). apply sum_box_le. intros p Hp. specialize (H p Hp). pose proof (weight_nonneg s q d g a p). nra.
Qed.

(** ** the routine *)
Section Call.
Variables (s : scheme) (g : cells) (E B : field (num FRX)) (QE QB : arrays) (ps : list rpart) (vs : list eb) (lvect algo : Z).
Hypotheses (Ps : proper_scheme s) (Pg : proper g) (HE : stored E QE) (HB : stored B QB) (L : length ps = length vs) (Lv : (1 <= lvect)%Z) (Ch : exact_choice algo (sc_order s))
  (SE : sized QE) (SB : sized QB) (In_ : forall a, In a ps -> all_inside s g QE QB a).
Lemma call_affine kE0 kE kB0 kB : affine_arrays s Electric g QE kE0 kE -> affine_arrays s Magnetic g QB kB0 kB ->
  gather_call s g E B ps vs lvect algo =
  Ret (map fld_of (map (fun av => add_eb (snd av) (of_axes (fun d => affine (kE0 d) (kE d) (at_axis (fst av))), of_axes (fun d => affine (kB0 d) (kB d) (at_axis (fst av))))) (combine ps vs))).
Proof.
  intros AE AB. rewrite (call_ok s g E B QE QB) by assumption. f_equal. f_equal. unfold gathered. apply map_ext_in. intros [a v] Hav. apply in_combine_l in Hav. cbn [fst snd]. f_equal.
  specialize (In_ a Hav). unfold fields_at.
  assert (X : forall d, interpolated s Electric d g (ar_lo QE d) (ar_hi QE d) (comp d (ar_at QE)) a = affine (kE0 d) (kE d) (at_axis a)) by (intros d; destruct (AE d); apply interpolated_affine; try assumption; apply In_).
  assert (Y : forall d, interpolated s Magnetic d g (ar_lo QB d) (ar_hi QB d) (comp d (ar_at QB)) a = affine (kB0 d) (kB d) (at_axis a)) by (intros d; destruct (AB d); apply interpolated_affine; try assumption; apply In_).
  unfold of_axes. now rewrite !X, !Y.
Qed.
Lemma call_bounded mE ME mB MB : bounded QE mE ME -> bounded QB mB MB ->
  exists us, gather_call s g E B ps vs lvect algo = Ret (map fld_of (map (fun vu => add_eb (fst vu) (snd vu)) (combine vs us))) /\ length us = length ps /\
    forall u, In u us -> between3 mE ME (fst u) /\ between3 mB MB (snd u).
Proof.
  intros BE BB. exists (map (fields_at s g QE QB) ps). split; [|split; [apply map_length|]].
  - rewrite (call_ok s g E B QE QB) by assumption. f_equal. f_equal. unfold gathered. revert L. clear. revert vs. induction ps as [|a ps' IH]; intros [|v vs'] L; try discriminate; [reflexivity|].
    cbn [map combine fst snd]. f_equal. apply IH. now injection L.
  - intros u Hu. apply in_map_iff in Hu. destruct Hu as (a & <- & Ha). specialize (In_ a Ha). unfold fields_at. cbn [fst snd].
    split; intros d; [destruct (In_ d) as (I & _)|destruct (In_ d) as (_ & I)].
    + replace (along _ d) with (interpolated s Electric d g (ar_lo QE d) (ar_hi QE d) (comp d (ar_at QE)) a) by (destruct d; reflexivity). apply interpolated_bounds; auto.
    + replace (along _ d) with (interpolated s Magnetic d g (ar_lo QB d) (ar_hi QB d) (comp d (ar_at QB)) a) by (destruct d; reflexivity). apply interpolated_bounds; auto.
Qed.
End Call.

(** ** the force on the particles and the charge density *)
Lemma nodal_share s q d g a p : proper_scheme s -> sc_nodal s = true -> sc_lower s = false -> node_weight s q d g a p = share (sc_order s) g (rpx a) (rpy a) (rpz a) p.
Proof.
  intros P N Lo. destruct p as [[j k] l]. unfold node_weight, share.
  assert (W : forall c x i, weight_on s q d c x i = spline (order_on (sc_order s) c) x i).
  { intros c x i. unfold weight_on, degree, offset. rewrite N, Lo, andb_false_r. rewrite bspline_pos by (pose proof (proper_on s c P); lia). f_equal. destruct (between q d c); ring. }
  rewrite !W. reflexivity.
Qed.
Lemma sum_swap lo hi (h : rpart -> idx -> R) ps : sumR (map (fun a => sum_box lo hi (h a)) ps) = sum_box lo hi (fun p => sumR (map (fun a => h a p) ps)).
Proof. unfold sum_box. apply sumR_swap. Qed.
Theorem force_charge s g q E B QE QB ps us lvect algo rho rho' lo hi r d : proper_scheme s -> proper g -> sc_nodal s = true -> sc_lower s = false ->
  stored E QE -> stored B QB -> (1 <= lvect)%Z -> exact_choice algo (sc_order s) -> ar_lo QE d = lo -> ar_hi QE d = hi ->
  isg rho lo hi (fun _ => 0) -> charge_call (sc_order s) true false g q ps rho = Ret rho' -> isg rho' lo hi r ->
  gather_call s g E B ps (map (fun _ => none) ps) lvect algo = Ret (map fld_of us) ->
  sumR (map (fun au => q * rw (fst au) * along (fst (snd au)) d) (combine ps us)) = volume g * sum_box lo hi (fun p => r p * comp d (ar_at QE) p).
Proof.
  intros P Pg N Lo HE HB Lv Ch El Eh Z0 Cc Z1 Gc.
  destruct (call_out s g E B QE QB ps (map (fun _ => none) ps) lvect algo P Pg HE HB) as [Gc'|Gc']; try assumption; [now rewrite map_length| |congruence].
  rewrite Gc in Gc'. injection Gc' as Us.
  assert (inj : forall u v, fld_of u = fld_of v -> u = v).
  { intros [[? ? ?] [? ? ?]] [[? ? ?] [? ? ?]] Hf. cbn in Hf. injection Hf as -> -> -> -> -> ->. reflexivity. }
  assert (us = gathered s g QE QB ps (map (fun _ => none) ps)) as ->.
  { clear Gc. revert Us. generalize (gathered s g QE QB ps (map (fun _ => none) ps)). induction us as [|u us IH]; intros [|v vs'] Us; cbn in Us; try discriminate; [reflexivity|]. injection Us as H1 H2. f_equal; [now apply inj | now apply IH]. }
  assert (G : sumR (map (fun au => q * rw (fst au) * along (fst (snd au)) d) (combine ps (gathered s g QE QB ps (map (fun _ => none) ps)))) =
    sumR (map (fun a => q * rw a * interpolated s Electric d g lo hi (comp d (ar_at QE)) a) ps)).
  { clear - El Eh. f_equal. unfold gathered. induction ps as [|a ps IH]; [reflexivity|]. cbn [map combine fst snd]. f_equal; [|exact IH]. f_equal. rewrite <- El, <- Eh.
    unfold none, add_eb, add3, fields_at, of_axes. destruct d; cbn; ring. }
  rewrite G. pose proof (charge_density (sc_order s) true false g q ps rho rho' lo hi (fun _ => 0) Pg Z0 Cc) as D. pose proof (isg_eq _ _ _ _ _ Z1 D) as Er.
  rewrite <- sum_box_scal. rewrite (sum_box_ext lo hi _ (fun p => sumR (map (fun a => q * rw a * (node_weight s Electric d g a p * comp d (ar_at QE) p)) ps))).
  - rewrite <- (sum_swap lo hi (fun a p => q * rw a * (node_weight s Electric d g a p * comp d (ar_at QE) p))). apply sumR_ext. intros a _. rewrite sum_box_scal. reflexivity.
  - intros p Hp. rewrite (Er p Hp). cbn [seen]. unfold density. rewrite Rplus_0_l. rewrite <- Rmult_assoc, <- sumR_scal, Rmult_comm, <- sumR_scal. apply sumR_ext. intros a _.
    rewrite nodal_share by assumption. unfold volume. destruct Pg as (G1 & G2 & G3). field. auto.
Qed.
