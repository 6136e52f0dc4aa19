(** More about the charge deposition: parallel execution, two dimensions (proofs only). *)
From Coq Require Import ZArith Reals List Bool Lia Lra Psatz Permutation.
From Verif Require Import Cxx Num NumRX CxxLemmas Fortran FortranNum FortranLemmas Grid GridLemmas Pushers Deposit SpecYee YeeReal SpecDeposit Splines Sums DepositProofs.
Import ListNotations.
Local Open Scope R_scope.

(** ** atomic updates in any order *)
Lemma sum_perm l l' : Permutation l l' -> sumR l = sumR l'.
Proof. unfold sumR. induction 1; cbn; lra. Qed.
Lemma hits_perm cs cs' p : Permutation cs cs' -> hits cs p = hits cs' p.
Proof. intros H. unfold hits. apply sum_perm, Permutation_map, H. Qed.
Lemma exec_perm cs M (rho : grid (num FRX)) lo hi r : isg rho lo hi r -> Permutation (map radd cs) M ->
  same_outcome lo hi (exec (map radd cs) rho) (exec M rho).
Proof.
  intros H P. destruct (Permutation_map_inv radd cs (Permutation_sym P)) as (cs' & -> & P').
  unfold same_outcome. destruct (all_in_dec lo hi cs) as [A|A].
  - assert (A' : all_in lo hi cs') by (intros c I; apply A; apply (Permutation_in c (Permutation_sym P')); exact I).
    destruct (exec_add_ok cs rho lo hi r H A) as (g1 & -> & H1). destruct (exec_add_ok cs' rho lo hi r H A') as (g2 & -> & H2).
    eexists. split; [exact H1|]. apply (isg_ext _ _ _ _ _ H2). intros p _. rewrite (hits_perm cs cs' p P'). reflexivity.
  - assert (A' : ~ all_in lo hi cs') by (intros A'; apply A; intros c I; apply A'; apply (Permutation_in c P'); exact I).
    rewrite (exec_add_ub cs rho lo hi r H A), (exec_add_ub cs' rho lo hi r H A'). exact Logic.I.
Qed.
Lemma exec_app {A} (a b : list (stmt A)) g : exec (a ++ b) g = do g' <- exec a g; exec b g'.
Proof. revert g. induction a as [|s a IH]; intros g; [reflexivity|]. cbn. destruct (exec1 s g); cbn [bind]; try reflexivity. apply IH. Qed.
Lemma fixed_updates n g q a : fixed_order n -> proper g -> charge_updates n (geom_of g) (F q) (pos_of a) (weight_of a) = one (same_order n) g q a.
Proof.
  intros O P. destruct O; cbn [charge_updates].
  - transitivity (rho_n 1 1 1 true false (geom_of g) (F q) (F 0) (pos_of a) (weight_of a)); [apply rho_1_n|].
    apply (rho_n_one (same_order 1) true false g q 0 a P).
  - apply rho_2_one. exact P.
  - transitivity (rho_n 3 3 3 true false (geom_of g) (F q) (F 0) (pos_of a) (weight_of a)); [apply rho_3_n|].
    apply (rho_n_one (same_order 3) true false g q 0 a P).
Qed.

Lemma fold_concat {A} (f : A -> out (list (stmt (num FRX)))) ps each : Forall2 (fun a ss => f a = Ret ss) ps each ->
  forall rho, foldM (fun a r => do ss <- f a; exec ss r) ps rho = exec (concat each) rho.
Proof.
  induction 1 as [|a ss ps each H F IH]; intros rho; [reflexivity|]. cbn [foldM concat]. rewrite H, exec_app. cbn [bind]. destruct (exec ss rho); cbn [bind]; try reflexivity. apply IH.
Qed.
Lemma concat_radd {A} (f : A -> out (list (stmt (num FRX)))) (c : A -> list (idx * R)) ps each :
  (forall a ss, f a = Ret ss -> ss = map radd (c a)) -> Forall2 (fun a ss => f a = Ret ss) ps each -> concat each = map radd (flat_map c ps).
Proof.
  intros H. induction 1 as [|a ss ps each E F IH]; [reflexivity|]. cbn [concat flat_map]. rewrite map_app, (H a ss E), IH. reflexivity.
Qed.
Lemma one_radd o g q a ss : one o g q a = Ret ss -> ss = map radd (gives o g q a).
Proof. intros E. destruct (place_dec o g a) as [P|P]; [rewrite (one_ok _ _ _ _ P) in E; congruence | rewrite (one_bad _ _ _ _ P) in E; discriminate]. Qed.
Lemma charge_fixed_fold n g q ps rho : fixed_order n -> proper g ->
  charge_fixed n (zlen ps) (map pos_of ps) (map weight_of ps) (F q) (geom_of g) rho = foldM (fun a r => do ss <- one (same_order n) g q a; exec ss r) ps rho.
Proof.
  intros O P.
  assert (Q : depose (zlen ps) (charge_updates n (geom_of g) (F q)) (map pos_of ps) (map weight_of ps) rho = foldM (fun a r => do ss <- one (same_order n) g q a; exec ss r) ps rho).
  { unfold depose. apply do_range_list. intros k a t Hk. rewrite !(get1_map _ _ k a Hk). cbn [bind]. rewrite fixed_updates by assumption. reflexivity. }
  rewrite <- Q. destruct O; reflexivity.
Qed.
Theorem atomic_any_order n g q ps rho lo hi r M : fixed_order n -> proper g -> isg rho lo hi r -> atomic_order n g q ps M ->
  same_outcome lo hi (charge_fixed n (zlen ps) (map pos_of ps) (map weight_of ps) (F q) (geom_of g) rho) (exec M rho).
Proof.
  intros O P H (each & F2 & Pm). rewrite charge_fixed_fold by assumption.
  assert (F2' : Forall2 (fun a ss => one (same_order n) g q a = Ret ss) ps each).
  { clear Pm. induction F2 as [|a ss ps each E F IH]; constructor; [rewrite fixed_updates in E by assumption; exact E | exact IH]. }
  rewrite (fold_concat _ _ _ F2'). rewrite (concat_radd _ (gives (same_order n) g q) ps each (one_radd (same_order n) g q) F2') in *. apply (exec_perm _ M rho lo hi r H Pm).
Qed.
Theorem charge_fixed_n n g q ps (rho : grid (num FRX)) : fixed_order n -> proper g ->
  charge_fixed n (zlen ps) (map pos_of ps) (map weight_of ps) (F q) (geom_of g) rho = charge_n (same_order n) true false g q ps rho.
Proof. intros O P. rewrite charge_fixed_fold, depose_n_fold by assumption. reflexivity. Qed.

(** ** sign and locality *)
Theorem density_sign o g q ps p : 0 < volume g -> 0 <= q -> (forall a, In a ps -> 0 <= rw a) -> 0 <= density o g q ps p.
Proof.
  intros V Q W. unfold density. apply sumR_nonneg. intros a I. destruct p as [[j k] l]. unfold share.
  apply Rmult_le_pos; [|repeat apply Rmult_le_pos; apply spline_nonneg]. unfold Rdiv. apply Rmult_le_pos; [apply Rmult_le_pos; [exact Q | apply W; exact I] | left; apply Rinv_0_lt_compat; exact V].
Qed.
Lemma spline_touch n x i : (0 <= n <= 3)%Z -> spline n x i <> 0 -> touches n x i.
Proof.
  intros K. unfold touches. set (t := Rabs (x - IZR i)). intros H. apply Rnot_lt_le. intros L. apply H. clear H. revert L. pattern n. revert n K. apply four; intros L; unfold spline; fold t.
  - destruct (Rlt_dec t (1 / 2)); [lra|]. destruct (Req_EM_T t (1 / 2)); lra.
  - apply Rmax_left. lra.
  - destruct (Rle_dec t (1 / 2)); [lra|]. destruct (Rle_dec t (3 / 2)); lra.
  - destruct (Rle_dec t 1); [lra|]. destruct (Rle_dec t 2); lra.
Qed.
Theorem density_local o g q ps j k l : known o -> density o g q ps (j, k, l) <> 0 ->
  exists a, In a ps /\ touches (onx o) (unit_x g (rpx a)) j /\ touches (ony o) (unit_y g (rpy a)) k /\ touches (onz o) (unit_z g (rpz a)) l.
Proof.
  intros (K1 & K2 & K3). unfold density. induction ps as [|a ps IH]; [intros H; exfalso; apply H; reflexivity|].
  intros H. destruct (Req_EM_T (share o g (rpx a) (rpy a) (rpz a) (j, k, l)) 0) as [Z|Z].
  - destruct IH as (b & I & T); [|exists b; split; [right; exact I | exact T]]. intros Q. apply H. unfold sumR in *. cbn [map fold_right]. rewrite Q, Z. lra.
  - exists a. split; [left; reflexivity|]. unfold share in Z. split; [|split]; apply spline_touch; try assumption; intros Q; apply Z; rewrite Q; ring.
Qed.

(** ** two dimensions *)
Lemma six_sp : onesixth_sp (N := FRX) = F (1 / 6 + 1 / 201326592).
Proof.
  unfold onesixth_sp. change (n_of_Z 11184811 : num FRX) with (F 11184811). change (n_of_Z 67108864 : num FRX) with (F 67108864). rewrite fdiv by lra. apply (f_equal Fin). lra.
Qed.
Lemma third_sp : twothird_sp (N := FRX) = F (2 / 3 + 1 / 50331648).
Proof.
  unfold twothird_sp. change (n_of_Z 11184811 : num FRX) with (F 11184811). change (n_of_Z 16777216 : num FRX) with (F 16777216). rewrite fdiv by lra. apply (f_equal Fin). lra.
Qed.
Definition rshape2 (n : Z) (t : R) (m : Z) : R :=
  match n with
  | 0%Z | 1%Z | 2%Z => rshape n t m
  | _ => rshape 3 t m + (if (m =? -1)%Z then (1 - t) * (1 - t) * (1 - t) / 201326592
         else if (m =? 0)%Z then 1 / 50331648 else if (m =? 1)%Z then 1 / 50331648 else t * t * t / 201326592)
  end.
Lemma shape2_fin n t m : shape_2d n (F t) m = F (rshape2 n t m).
Proof.
  unfold shape_2d. destruct n as [|[p|[p|p|]|]|p]; cbn [rshape2]; try apply shape_fin.
  all: rewrite six_sp, third_sp; change (n_lit 2 0 : num FRX) with (F 2); change (n_lit 1 0 : num FRX) with (F 1); change (n_sub (F 1) (F t)) with (F (1 - t)); rewrite !fdiv by lra;
    unfold rshape; destruct (m =? -1)%Z, (m =? 0)%Z, (m =? 1)%Z; cbn; apply (f_equal Fin); field.
Qed.
Lemma rshape2_low n t m : (0 <= n <= 2)%Z -> rshape2 n t m = rshape n t m.
Proof. intros H. assert (n = 0 \/ n = 1 \/ n = 2)%Z as [->|[->| ->]] by lia; reflexivity. Qed.
(** the sum of the shape factors *)
Definition whole (n : Z) (t : R) : R := rsum (zrange (smin n) (smax n)) (rshape2 n t).
Lemma whole_low n t : (0 <= n <= 2)%Z -> whole n t = 1.
Proof.
  intros H. unfold whole. assert (n = 0 \/ n = 1 \/ n = 2)%Z as [->|[->| ->]] by lia.
  - change (zrange (smin 0) (smax 0)) with [0%Z]. unfold rsum. cbn. lra.
  - change (zrange (smin 1) (smax 1)) with [0;1]%Z. unfold rsum. cbn. lra.
  - change (zrange (smin 2) (smax 2)) with [-1;0;1]%Z. unfold rsum. cbn. lra.
Qed.
Lemma whole_3 t : whole 3 t = 1 + 2 / 50331648 + ((1 - t) * (1 - t) * (1 - t) + t * t * t) / 201326592.
Proof. unfold whole. change (zrange (smin 3) (smax 3)) with [-1;0;1;2]%Z. unfold rsum. cbn. field. Qed.
Lemma whole_3_bounds t : 0 <= t <= 1 -> 1 < whole 3 t <= 1 + 1 / 20000000.
Proof.
  intros H. rewrite whole_3. assert (A : 0 <= (1 - t) * (1 - t) * (1 - t) <= 1 - t).
  { split; [repeat apply Rmult_le_pos; lra|]. assert (0 <= (1 - t) * (1 - t) <= 1) by (split; nra). nra. }
  assert (B : 0 <= t * t * t <= t) by (split; [repeat apply Rmult_le_pos; lra | assert (0 <= t * t <= 1) by (split; nra); nra]). lra.
Qed.
Lemma gridx_fin2 g a : hx g <> 0 -> gridx (geom_of g) (pos_of a) = F (unit_x g (rpx a)). Proof. apply gridx_fin. Qed.
Definition ok2 (nx nz : Z) (g : cells) (a : rpart) : Prop :=
  ((0 <= nx <= 3)%Z /\ (0 <= nz <= 3)%Z) /\ found nx (unit_x g (rpx a)) /\ found nz (unit_z g (rpz a)).
Lemma ok2_dec nx nz g a : {ok2 nx nz g a} + {~ ok2 nx nz g a}.
Proof.
  unfold ok2. destruct (Z_le_dec 0 nx), (Z_le_dec nx 3), (Z_le_dec 0 nz), (Z_le_dec nz 3), (found_dec nx (unit_x g (rpx a))), (found_dec nz (unit_z g (rpz a))); try (right; lia || tauto); left; auto.
Qed.
Definition gives2 (nx nz : Z) (g : cells) (q : R) (a : rpart) : list (idx * R) :=
  let x := unit_x g (rpx a) in let z := unit_z g (rpz a) in
  map (fun p : idx => let '(jj, _, ll) := p in ((nod nx x + jj, 0, nod nz z + ll)%Z, rshape2 nx (x - IZR (nod nx x)) jj * rshape2 nz (z - IZR (nod nz z)) ll * (q * rw a / (hx g * hz g))))
    (box (smin nx, 0, smin nz) (smax nx, 0, smax nz))%Z.
(** the particles seen by the routine: mirrored if the run is symmetric; of weight one if weights are not used *)
Lemma rho2_ok nx nz g q a : proper_2d g -> ok2 nx nz g a -> rho_n_2dxz nx nz true false (geom_of g) (F q) (pos_of a) (weight_of a) = Ret (map radd (gives2 nx nz g q a)).
Proof.
  intros (P1 & P3) ((K1 & K2) & (j & E1) & (l & E2)). unfold rho_n_2dxz. rewrite gridx_fin, gridz_fin by assumption. cbv zeta. rewrite E1, E2. cbn [bind].
  replace ((0 <=? nx) && (nx <=? 3) && ((0 <=? nz) && (nz <=? 3)))%Z with true by (symmetry; rewrite !andb_true_iff, !Z.leb_le; lia).
  f_equal. unfold gives2, nod. rewrite E1, E2. rewrite map_map. apply map_ext. intros [[jj kk] ll]. unfold radd. cbn [fst snd]. f_equal.
  change (n_sub (F (unit_x g (rpx a))) (n_of_Z j)) with (F (unit_x g (rpx a) - IZR j)). change (n_sub (F (unit_z g (rpz a))) (n_of_Z l)) with (F (unit_z g (rpz a) - IZR l)).
  rewrite !shape2_fin. cbn [geom_of g_dx g_dz]. change (n_lit 1 0 : num FRX) with (F 1). rewrite !fdiv by assumption. cbn. f_equal. field. auto.
Qed.
Lemma rho2_bad nx nz g q a : proper_2d g -> ~ ok2 nx nz g a -> rho_n_2dxz nx nz true false (geom_of g) (F q) (pos_of a) (weight_of a) = UB.
Proof.
  intros (P1 & P3) H. unfold rho_n_2dxz. rewrite gridx_fin, gridz_fin by assumption. cbv zeta.
  destruct (node_out nx (unit_x g (rpx a))) as [(j & E1)|E1]; rewrite E1; [|reflexivity]. destruct (node_out nz (unit_z g (rpz a))) as [(l & E2)|E2]; rewrite E2; [|reflexivity]. cbn [bind].
  destruct ((0 <=? nx) && (nx <=? 3) && ((0 <=? nz) && (nz <=? 3)))%Z eqn:E; [|reflexivity]. exfalso. apply H. rewrite !andb_true_iff, !Z.leb_le in E. unfold ok2, found. split; [lia|]. eauto.
Qed.
Notation charge_2d nx nz g q ps rho := (pxr_depose_rho_n_2dxz (zlen ps) (map pos_of ps) (map weight_of ps) (F q) (geom_of g) nx nz true false rho).
Lemma fold_2d nx nz g q ps (rho : grid (num FRX)) :
  charge_2d nx nz g q ps rho = foldM (fun a r => do ss <- rho_n_2dxz nx nz true false (geom_of g) (F q) (pos_of a) (weight_of a); exec ss r) ps rho.
Proof. unfold pxr_depose_rho_n_2dxz, depose. apply do_range_list. intros k a t Hk. rewrite !(get1_map _ _ k a Hk). reflexivity. Qed.
Lemma sound_2d nx nz g q ps (rho rho' : grid (num FRX)) lo hi r : proper_2d g -> isg rho lo hi r -> charge_2d nx nz g q ps rho = Ret rho' ->
  (forall a, In a ps -> ok2 nx nz g a /\ all_in lo hi (gives2 nx nz g q a)) /\ isg rho' lo hi (fun p => r p + sumR (map (fun a => hits (gives2 nx nz g q a) p) ps)).
Proof.
  intros P H E. rewrite fold_2d in E.
  exact (all_sound (fun a => rho_n_2dxz nx nz true false (geom_of g) (F q) (pos_of a) (weight_of a)) (gives2 nx nz g q) (ok2 nx nz g)
    (fun a => rho2_ok nx nz g q a P) (fun a => rho2_bad nx nz g q a P) (ok2_dec nx nz g) ps rho rho' lo hi r H E).
Qed.
Lemma hits_sum cs lo hi : all_in lo hi cs -> sum_box lo hi (hits cs) = sumR (map snd cs).
Proof.
  intros A. unfold sum_box, hits. rewrite sumR_swap. apply sumR_ext. intros c I. specialize (A c I). destruct c as [p v]. cbn [fst snd] in *.
  rewrite (sumR_single idx_dec _ _ p (NoDup_box lo hi)).
  - destruct (in_dec idx_dec p (box lo hi)) as [J|J]; [|exfalso; apply J; apply in_box_box; exact A]. rewrite idx_eqb_refl. reflexivity.
  - intros b _ N. destruct (idx_eqb p b) eqn:E; [|reflexivity]. apply idx_eqb_eq in E. congruence.
Qed.
Lemma gives2_sum nx nz g q a : sumR (map snd (gives2 nx nz g q a)) =
  whole nx (unit_x g (rpx a) - IZR (nod nx (unit_x g (rpx a)))) * whole nz (unit_z g (rpz a) - IZR (nod nz (unit_z g (rpz a)))) * (q * rw a / (hx g * hz g)).
Proof.
  unfold gives2. rewrite map_map. set (sx := rshape2 nx _). set (sz := rshape2 nz _). set (w := q * rw a / (hx g * hz g)).
  transitivity (sum_box (smin nx, 0, smin nz)%Z (smax nx, 0, smax nz)%Z (fun p => let '(j, k, l) := p in sx j * w * sz l)).
  - unfold sum_box. apply sumR_ext. intros [[jj kk] ll] _. cbn [snd]. ring.
  - pose proof (sum_box_prod (smin nx, 0, smin nz)%Z (smax nx, 0, smax nz)%Z sx (fun _ => w) sz) as Q. cbv beta iota in Q.
    rewrite Q. change (zrange 0 0) with [0%Z]. unfold whole. fold sx sz. unfold rsum at 2. cbn [map fold_right]. ring.
Qed.
Theorem total_2d nx nz g q ps (rho rho' : grid (num FRX)) lo hi r r' : proper_2d g -> isg rho lo hi r -> charge_2d nx nz g q ps rho = Ret rho' -> isg rho' lo hi r' ->
  hx g * hz g * sum_box lo hi r' = hx g * hz g * sum_box lo hi r +
    q * sumR (map (fun a => rw a * (whole nx (unit_x g (rpx a) - IZR (nod nx (unit_x g (rpx a)))) * whole nz (unit_z g (rpz a) - IZR (nod nz (unit_z g (rpz a)))))) ps).
Proof.
  intros P H E H'. destruct (sound_2d nx nz g q ps rho rho' lo hi r P H E) as [A B].
  rewrite (sum_box_ext lo hi r' _ (isg_eq _ _ _ _ _ H' B)). rewrite sum_box_plus, Rmult_plus_distr_l. f_equal.
  unfold sum_box at 1. rewrite sumR_swap. rewrite <- !sumR_scal. apply sumR_ext. intros a I. destruct (A a I) as [_ Ia].
  change (sumR (map (fun b => hits (gives2 nx nz g q a) b) (box lo hi))) with (sum_box lo hi (hits (gives2 nx nz g q a))).
  rewrite (hits_sum _ lo hi Ia), gives2_sum. destruct P. field. auto.
Qed.
Theorem total_2d_low nx nz g q ps (rho rho' : grid (num FRX)) lo hi r r' : proper_2d g -> (0 <= nx <= 2)%Z -> (0 <= nz <= 2)%Z ->
  isg rho lo hi r -> charge_2d nx nz g q ps rho = Ret rho' -> isg rho' lo hi r' ->
  hx g * hz g * sum_box lo hi r' = hx g * hz g * sum_box lo hi r + q * sumR (map rw ps).
Proof.
  intros P N1 N2 H E H'. rewrite (total_2d nx nz g q ps rho rho' lo hi r r' P H E H'). do 2 f_equal. apply sumR_ext. intros a _. rewrite !whole_low by assumption. ring.
Qed.
Lemma odd_int n x : (n = 1 \/ n = 3)%Z -> found n x -> 0 <= x - IZR (nod n x) <= 1.
Proof. intros O Fd. apply nod_is in Fd. unfold is_node in Fd. destruct O as [-> | ->]; cbn in Fd; lra. Qed.
Lemma whole_bounds n x : (0 <= n <= 3)%Z -> found n x -> 1 <= whole n (x - IZR (nod n x)) <= 1 + 1 / 20000000.
Proof.
  intros K Fd. destruct (Z_le_dec n 2) as [L|L]; [rewrite whole_low by lia; lra|]. assert (n = 3)%Z by lia. subst n.
  pose proof (whole_3_bounds _ (odd_int 3 x (or_intror eq_refl) Fd)). lra.
Qed.
Theorem total_2d_high nx nz g q ps (rho rho' : grid (num FRX)) lo hi r r' : proper_2d g -> (nx = 3 \/ nz = 3)%Z ->
  isg rho lo hi r -> charge_2d nx nz g q ps rho = Ret rho' -> isg rho' lo hi r' ->
  0 < q -> (forall a, In a ps -> 0 < rw a) -> ps <> [] ->
  hx g * hz g * sum_box lo hi r + q * sumR (map rw ps) < hx g * hz g * sum_box lo hi r' <= hx g * hz g * sum_box lo hi r + (1 + 1 / 9000000) * (q * sumR (map rw ps)).
Proof.
  intros P N3 H E H' Q W NE. destruct (sound_2d nx nz g q ps rho rho' lo hi r P H E) as [A _]. rewrite (total_2d nx nz g q ps rho rho' lo hi r r' P H E H'). clear E H H'.
  assert (B : sumR (map rw ps) < sumR (map (fun a => rw a * (whole nx (unit_x g (rpx a) - IZR (nod nx (unit_x g (rpx a)))) * whole nz (unit_z g (rpz a) - IZR (nod nz (unit_z g (rpz a)))))) ps)
     <= (1 + 1 / 9000000) * sumR (map rw ps)).
  { assert (C : forall a, In a ps -> rw a < rw a * (whole nx (unit_x g (rpx a) - IZR (nod nx (unit_x g (rpx a)))) * whole nz (unit_z g (rpz a) - IZR (nod nz (unit_z g (rpz a))))) <= (1 + 1 / 9000000) * rw a).
    { intros a I. destruct (A a I) as [((K1 & K2) & F1 & F2) _]. specialize (W a I).
      pose proof (whole_bounds _ _ K1 F1) as B1. pose proof (whole_bounds _ _ K2 F2) as B2.
      assert (S : 1 < whole nx (unit_x g (rpx a) - IZR (nod nx (unit_x g (rpx a)))) \/ 1 < whole nz (unit_z g (rpz a) - IZR (nod nz (unit_z g (rpz a))))).
      { destruct N3 as [-> | ->]; [left | right]; apply whole_3_bounds; apply odd_int; auto. }
      set (u := whole nx _) in *. set (v := whole nz _) in *. assert (1 < u * v <= 1 + 1 / 9000000) by (split; [destruct S; nra|]; nra). split; nra. }
    clear A W. destruct ps as [|a ps]; [congruence|]. clear NE.
    assert (D : forall l, (forall b, In b l -> In b (a :: ps)) -> sumR (map rw l) <= sumR (map (fun a => rw a * (whole nx (unit_x g (rpx a) - IZR (nod nx (unit_x g (rpx a)))) * whole nz (unit_z g (rpz a) - IZR (nod nz (unit_z g (rpz a)))))) l)
     <= (1 + 1 / 9000000) * sumR (map rw l)).
    { induction l as [|b l IH]; intros I; [unfold sumR; cbn; lra|]. specialize (IH (fun c Hc => I c (or_intror Hc))). pose proof (C b (I b (or_introl eq_refl))). unfold sumR in *. cbn [map fold_right]. lra. }
    specialize (D ps (fun b Hb => or_intror Hb)). pose proof (C a (or_introl eq_refl)). unfold sumR in *. cbn [map fold_right]. lra. }
  split; [|]; nra.
Qed.
(** for orders up to two the density is the sum of the splines *)
Lemma hits_gives2 nx nz g q a j k l : (0 <= nx <= 2)%Z -> (0 <= nz <= 2)%Z -> ok2 nx nz g a ->
  hits (gives2 nx nz g q a) (j, k, l) = if (k =? 0)%Z then q * rw a / (hx g * hz g) * (spline nx (unit_x g (rpx a)) j * spline nz (unit_z g (rpz a)) l) else 0.
Proof.
  intros N1 N2 (_ & F1 & F2). apply nod_is in F1, F2. unfold hits, gives2. rewrite map_map.
  set (x := unit_x g (rpx a)) in *. set (z := unit_z g (rpz a)) in *. set (J := nod nx x) in *. set (L := nod nz z) in *. set (w := q * rw a / (hx g * hz g)).
  rewrite (sumR_single idx_dec _ _ (j - J, k, l - L)%Z (NoDup_box _ _)).
  - destruct (in_dec idx_dec _ _) as [I|I].
    + apply in_box_box in I. apply in_box_iff in I. assert (k = 0)%Z by lia. subst k. cbn [fst snd Z.eqb].
      replace (J + (j - J))%Z with j by lia. replace (L + (l - L))%Z with l by lia. rewrite idx_eqb_refl.
      rewrite !rshape2_low by assumption. rewrite <- (spline_on nx x J (j - J)) by (assumption || lia). rewrite <- (spline_on nz z L (l - L)) by (assumption || lia).
      replace (J + (j - J))%Z with j by lia. replace (L + (l - L))%Z with l by lia. ring.
    + destruct (Z.eqb_spec k 0) as [->|]; [|reflexivity].
      assert (O : (~ (J + smin nx <= j <= J + smax nx) \/ ~ (L + smin nz <= l <= L + smax nz))%Z).
      { destruct (Z_le_dec (J + smin nx) j), (Z_le_dec j (J + smax nx)), (Z_le_dec (L + smin nz) l), (Z_le_dec l (L + smax nz)); try lia. exfalso. apply I. apply in_box_box. apply in_box_iff. lia. }
      destruct O as [O|O]; [rewrite (spline_off nx x J j) by (assumption || lia) | rewrite (spline_off nz z L l) by (assumption || lia)]; ring.
  - intros [[jj kk] ll] I Nb. apply in_box_box in I. apply in_box_iff in I. cbn [fst snd].
    destruct (idx_eqb (J + jj, 0, L + ll)%Z (j, k, l)) eqn:E; [|reflexivity]. apply idx_eqb_eq in E. injection E as E1 E2 E3. exfalso. apply Nb. f_equal; [f_equal|]; lia.
Qed.
Theorem density_2d_low nx nz g q ps (rho rho' : grid (num FRX)) lo hi r : proper_2d g -> (0 <= nx <= 2)%Z -> (0 <= nz <= 2)%Z ->
  isg rho lo hi r -> charge_2d nx nz g q ps rho = Ret rho' -> isg rho' lo hi (fun p => r p + density_2d nx nz g q ps p).
Proof.
  intros P N1 N2 H E. destruct (sound_2d nx nz g q ps rho rho' lo hi r P H E) as [A B]. apply (isg_ext _ _ _ _ _ B). intros [[j k] l] _. f_equal. unfold density_2d.
  rewrite (sumR_ext _ (fun a => if (k =? 0)%Z then q * rw a / (hx g * hz g) * (spline nx (unit_x g (rpx a)) j * spline nz (unit_z g (rpz a)) l) else 0)).
  - destruct (k =? 0)%Z; [reflexivity|]. apply sumR_0.
  - intros a I. apply hits_gives2; try assumption. apply A. exact I.
Qed.
