(** The exchange between the tiles in exact arithmetic, and the insertion of particles. *)
From Coq Require Import ZArith Reals List Bool Permutation Lia Lra.
From Verif Require Import Cxx CxxLemmas Num NumRX RXLemmas Fortran FortranLemmas FortranNum Grid GridLemmas Deposit Tiles Exchange TilesProofs TilesExchange TilesReal SpecTiles TilesFacts.
Import ListNotations.
Local Open Scope Z_scope.

(** *** Every point of the domain is in exactly one tile *)
Theorem partition_fact s x : good_axis s -> (ra_lo s <= x < ra_hi s)%R ->
  exists i, 1 <= i <= ntiles (ra_n s) (ra_nt s) /\ inside_axis (tile_of s i) (Fin x : num FRX) = true /\
    tile_index (axis_of s) (ta_n (tile_of s 1)) (Fin x : num FRX) = Ret i /\
    forall j, 1 <= j <= ntiles (ra_n s) (ra_nt s) -> inside_axis (tile_of s j) (Fin x : num FRX) = true -> j = i.
Proof.
  intros Hs Hx. destruct (index_inside s Hs x Hx) as (i & Hi & E & H). destruct (tile_extents s 1) as (_ & _ & ->).
  exists i. split; [exact Hi|]. split; [exact H|]. split; [exact E|]. intros j Hj Hin.
  pose proof (inside_index s Hs j x Hj Hin) as E'. rewrite E in E'. now injection E'.
Qed.
Lemma nt_pos s : good_axis s -> 1 <= ntiles (ra_n s) (ra_nt s).
Proof. intros Hs. destruct (nt_cases s Hs) as [(-> & _)|(? & _)]; lia. Qed.

(** sum of the grid points of the tiles *)
Theorem points_fact s : good_axis s ->
  fold_right Z.add 0 (map (fun i => ta_n (tile_of s i)) (zrange 1 (ntiles (ra_n s) (ra_nt s)))) = ra_n s /\
  (2 <= ntiles (ra_n s) (ra_nt s) -> forall i, 1 <= i <= ntiles (ra_n s) (ra_nt s) -> 4 <= ta_n (tile_of s i)).
Proof.
  intros Hs. set (nt := ntiles (ra_n s) (ra_nt s)). set (n0 := ra_n s ÷ ra_nt s).
  assert (En : forall i, ta_n (tile_of s i) = if i =? nt then n0 + (ra_n s - n0 * nt) else n0).
  { intros i. unfold tile_of, tile_axis. fold nt n0. destruct (i =? nt); [reflexivity|]. now destruct (i =? 1). }
  pose proof (nt_pos s Hs) as Hp. fold nt in Hp. split.
  - assert (X : forall k, 0 <= k < nt -> fold_right Z.add 0 (map (fun i => ta_n (tile_of s i)) (zrange 1 k)) = n0 * k).
    { intros k Hk. rewrite <- (Z2Nat.id k) in * by lia. set (m := Z.to_nat k) in *. clearbody m. clear k. induction m as [|m IH]; [cbn; lia|].
      replace (Z.of_nat (S m)) with (Z.of_nat m + 1) by lia. rewrite zrange_snoc by lia. rewrite map_app, fold_right_app. cbn [map fold_right].
      rewrite En. destruct (Z.eqb_spec (Z.of_nat m + 1) nt); [lia|].
      assert (Y : forall l a, fold_right Z.add a l = fold_right Z.add 0 l + a) by (induction l as [|b l IHl]; intros a; cbn; [lia|rewrite IHl; lia]).
      rewrite Y, IH by lia. lia. }
    replace nt with (nt - 1 + 1) at 1 by lia. rewrite zrange_snoc by lia. rewrite map_app, fold_right_app. cbn [map fold_right].
    assert (Y : forall l a, fold_right Z.add a l = fold_right Z.add 0 l + a) by (induction l as [|b l IHl]; intros a; cbn; [lia|rewrite IHl; lia]).
    rewrite Y, X by lia. rewrite En. replace (nt - 1 + 1) with nt by lia. rewrite Z.eqb_refl. lia.
  - intros H2 i Hi. destruct (nt_cases s Hs) as [(E & _)|(_ & H4 & Hn & _)]; [fold nt in E; lia|]. fold nt n0 in Hn. fold n0 in H4. rewrite En. destruct (i =? nt); nia.
Qed.

Section Domain.
Variables sx sy sz : raxis.
Hypothesis Hx : good_axis sx.
Hypothesis Hy : good_axis sy.
Hypothesis Hz : good_axis sz.
Notation D := (dom_of sx sy sz).
Variables (M : Z) (T : grid (tile FRX)) (A : idx -> list (part FRX)).
Hypothesis HC : contents M D T A.
Hypothesis HLay : laid_out sx sy sz T.
Hypothesis HF : forall q p, In q (all_tiles D) -> In p (A q) -> finite p.
Definition n0_of : idx := (ta_n (tile_of sx 1), ta_n (tile_of sy 1), ta_n (tile_of sz 1)).

Lemma tile_box i j k : In (i, j, k) (all_tiles D) <-> 1 <= i <= ntiles (ra_n sx) (ra_nt sx) /\ 1 <= j <= ntiles (ra_n sy) (ra_nt sy) /\ 1 <= k <= ntiles (ra_n sz) (ra_nt sz).
Proof. unfold all_tiles. rewrite in_box_box, in_box_iff. reflexivity. Qed.
Lemma layout i j k : In (i, j, k) (all_tiles D) -> let t := gat T (i, j, k) in t_x t = tile_of sx i /\ t_y t = tile_of sy j /\ t_z t = tile_of sz k.
Proof. intros H. apply HLay. destruct HC as (-> & -> & _). exact H. Qed.
Lemma first_tile_real : first_tile T = Ret n0_of.
Proof.
  assert (H1 : In (1, 1, 1) (all_tiles D)).
  { apply tile_box. pose proof (nt_pos sx Hx). pose proof (nt_pos sy Hy). pose proof (nt_pos sz Hz). lia. }
  unfold first_tile, get3. pose proof HC as (E1 & E2 & _). rewrite E1, E2. pose proof H1 as H1'. unfold all_tiles in H1'. apply in_box_box in H1'. rewrite H1'. cbn [bind].
  destruct (layout 1 1 1 H1) as (-> & -> & ->). reflexivity.
Qed.

Lemma outside_axis_false s x : outside_axis (axis_of s) (Fin x : num FRX) = false -> (ra_plo s <= x < ra_phi s)%R.
Proof.
  unfold outside_axis. cbn [ag_plo ag_phi axis_of].
  change (@n_lt FRX (Fin x) (Fin (ra_plo s))) with (Rltb x (ra_plo s)). change (@n_le FRX (Fin (ra_phi s)) (Fin x)) with (Rleb (ra_phi s) x).
  unfold Rltb, Rleb. destruct (Rlt_dec x (ra_plo s)), (Rle_dec (ra_phi s) x); cbn; intros; try discriminate. lra.
Qed.

(** a particle of the domain gets the tile it is inside of *)
Lemma target_real p : finite p -> outside D p = false -> exists r, target D n0_of p = Ret r /\ In r (all_tiles D) /\ inside (gat T r) p = true.
Proof.
  intros (x & y & z & Ex & Ey & Ez) Ho. unfold outside in Ho. apply orb_false_iff in Ho. destruct Ho as (Ho & Oz). apply orb_false_iff in Ho. destruct Ho as (Ox & Oy).
  rewrite Ex in Ox. rewrite Ey in Oy. rewrite Ez in Oz. cbn [dX dY dZ dom_of] in *.
  apply outside_axis_false in Ox, Oy, Oz.
  pose proof Hx as (_ & _ & _ & X1 & X2). pose proof Hy as (_ & _ & _ & Y1 & Y2). pose proof Hz as (_ & _ & _ & Z1 & Z2).
  destruct (partition_fact sx x Hx ltac:(lra)) as (i & Hi & Ii & Ti & _).
  destruct (partition_fact sy y Hy ltac:(lra)) as (j & Hj & Ij & Tj & _).
  destruct (partition_fact sz z Hz ltac:(lra)) as (k & Hk & Ik & Tk & _).
  exists (i, j, k). unfold target, n0_of. cbn [dX dY dZ dom_of]. rewrite Ex, Ey, Ez, Ti, Tj, Tk. split; [reflexivity|].
  assert (Hb : In (i, j, k) (all_tiles D)) by (apply tile_box; tauto). split; [exact Hb|].
  unfold inside. destruct (layout i j k Hb) as (-> & -> & ->). now rewrite Ex, Ey, Ez, Ii, Ij, Ik.
Qed.
Lemma exist_real : targets_exist D n0_of T A.
Proof.
  intros q p Hq Hp. unfold new_tile. destruct (inside (gat T q) p) eqn:Ei; [now exists q|]. destruct (outside D p) eqn:Eo; [now exists q|]. cbn [orb].
  destruct (target_real p (HF q p Hq Hp) Eo) as (r & E & Hr & _). now exists r.
Qed.
(** no particle is four cells or more away from its tile *)
Lemma adjacent_real : all_close sx sy sz A -> targets_adjacent D n0_of T A.
Proof.
  intros Hcl [[a b] c] p Hq Hp.
  assert (St : exists r, Ret (a, b, c) = Ret r /\ In r (all_tiles D) /\ (let '(j, k, l) := r in Z.abs (j - a) <= 1 /\ Z.abs (k - b) <= 1 /\ Z.abs (l - c) <= 1)).
  { exists (a, b, c). split; [reflexivity|]. split; [exact Hq|]. lia. }
  unfold new_tile. destruct (inside (gat T (a, b, c)) p) eqn:Ei; [exact St|]. destruct (outside D p) eqn:Eo; [exact St|]. cbn [orb].
  destruct (target_real p (HF _ p Hq Hp) Eo) as ([[i j] k] & E & Hr & Hin). exists (i, j, k). split; [exact E|]. split; [exact Hr|].
  destruct (Hcl a b c p Hq Hp) as (Cx & Cy & Cz). destruct (HF _ p Hq Hp) as (x & y & z & Ex & Ey & Ez). rewrite Ex in Cx. rewrite Ey in Cy. rewrite Ez in Cz.
  unfold inside in Hin. destruct (layout i j k Hr) as (Lx & Ly & Lz). rewrite Lx, Ly, Lz, Ex, Ey, Ez in Hin. rewrite !andb_true_iff in Hin. destruct Hin as ((Ix & Iy) & Iz).
  apply tile_box in Hq, Hr. split; [|split].
  - apply (close_index sx Hx a i x); tauto.
  - apply (close_index sy Hy b j y); tauto.
  - apply (close_index sz Hz c k z); tauto.
Qed.

Lemma expected_place A' T' : (forall r, In r (all_tiles D) -> Permutation (A' r) (expected D n0_of T A r)) ->
  (forall q, In q (all_tiles D) -> same_extents (gat T q) (gat T' q)) -> in_place D A A' T'.
Proof.
  intros HP HE r p Hr Hp. apply (Permutation_in _ (HP r Hr)) in Hp. apply in_flat_map in Hp. destruct Hp as (q & Hq & Hp). apply filter_In in Hp. destruct Hp as (Hp & Hg).
  rewrite (inside_same (gat T r)) by (exact (HE r Hr)). unfold goes_to, new_tile in Hg.
  destruct (outside D p) eqn:Eo.
  - rewrite orb_true_r in Hg. apply idx_eqb_eq in Hg. subst q. split; [discriminate|]. intros _. exact Hp.
  - split; [|discriminate]. intros _. rewrite orb_false_r in Hg. destruct (inside (gat T q) p) eqn:Ei.
    + apply idx_eqb_eq in Hg. now subst q.
    + destruct (target_real p (HF q p Hq Hp) Eo) as (r' & E & _ & Hin). rewrite E in Hg. apply idx_eqb_eq in Hg. now subst r'.
Qed.

Theorem serial_real : M < 2 ^ 31 -> 2 * zlen (all_particles D A) + 1 <= M ->
  exists T' A', particle_bcs_tiles D T = Ret T' /\ contents M D T' A' /\ Permutation (all_particles D A') (all_particles D A) /\ in_place D A A' T'.
Proof.
  intros HM HR. pose proof (zlen_nonneg (all_particles D A)).
  destruct (serial_fact M (sizes_real M ltac:(lia)) D T A n0_of HC HR exist_real first_tile_real) as (T' & A' & E & C & S & P & X).
  exists T', A'. split; [exact E|]. split; [exact C|]. split; [exact P|]. now apply expected_place.
Qed.
Theorem omp_real : M < 2 ^ 31 -> 2 * zlen (all_particles D A) + 1 <= M -> all_close sx sy sz A ->
  exists A', Permutation (all_particles D A') (all_particles D A) /\
    forall res, particle_bcs_tiles_openmp D T res -> exists T', res = Ret T' /\ contents M D T' A' /\ in_place D A A' T'.
Proof.
  intros HM HR Hcl. pose proof (zlen_nonneg (all_particles D A)).
  destruct (omp_fact M (sizes_real M ltac:(lia)) D T A n0_of HC HR exist_real (adjacent_real Hcl) first_tile_real) as (A' & X & P & R).
  exists A'. split; [exact P|]. intros res Hres. destruct (R res Hres) as (T' & -> & C & S). exists T'. split; [reflexivity|]. split; [exact C|]. now apply expected_place.
Qed.
End Domain.

(** *** Insertion of particles *)
Section Insert.
Context {N : FNum} (M : Z) (HM : sizes_exact N M) (D : dom N) (n0 : idx).
Lemma insert_fact T A npart p r : contents M D T A -> 2 * zlen (all_particles D A) + 1 <= M -> first_tile T = Ret n0 -> target D n0 p = Ret r -> In r (all_tiles D) ->
  exists T', add_particle_to_species D p (T, npart) = Ret (T', npart + 1) /\ contents M D T' (upd A r (A r ++ [p])) /\ first_tile T' = Ret n0 /\
    forall q, In q (all_tiles D) -> same_extents (gat T q) (gat T' q).
Proof.
  intros HC HR Hf Ht Hr. unfold add_particle_to_species. cbn [fst snd]. rewrite Hf. cbn [bind]. rewrite Ht. cbn [bind].
  pose proof HC as (E1 & E2 & H). pose proof (contents_rep M D T A HC) as Hrep.
  unfold add_particle_at_tile. rewrite (rep_get M D T E1 E2 T A r Hrep Hr). cbn [bind].
  destruct (H r Hr) as (Hs & Hm). destruct (add_fact M HM (gat T r) (A r) p Hs Hm) as (t' & Ea & Hs' & Hm' & Hp).
  { assert (L : zlen (A r) <= zlen (all_particles D A)). { unfold zlen. pose proof (cell_le (all_tiles D) (NoDup_box _ _) A r Hr). unfold items, all_particles in *. lia. } lia. }
  rewrite Ea. cbn [bind]. destruct (rep_set M D T E1 E2 T A r t' (A r ++ [p]) Hrep Hr) as (T' & Es & Hrep' & Eg & Eo); [now apply stores_holds|exact Hp|].
  rewrite Es. cbn [bind]. exists T'. split; [reflexivity|]. destruct (rep_contents M D T A HC T' _ Hrep') as (C' & S'). split; [exact C'|]. split; [|exact S'].
  revert Hf. unfold first_tile, get3. destruct C' as (-> & -> & _). rewrite E1, E2. destruct (in_box _ _ _) eqn:Eb; [|discriminate]. cbn [bind].
  assert (H1 : In (1, 1, 1) (all_tiles D)) by (unfold all_tiles; now apply in_box_box). destruct (S' _ H1) as (-> & -> & -> & _). tauto.
Qed.

(** particles inserted one after the other *)
Lemma insert_all_fact ps : forall T A npart, contents M D T A -> 2 * (zlen (all_particles D A) + zlen ps) + 1 <= M -> first_tile T = Ret n0 ->
  (forall p, In p ps -> exists r, target D n0 p = Ret r /\ In r (all_tiles D)) ->
  exists T' A', py_add_particles_to_species D ps (T, npart) = Ret (T', npart + zlen ps) /\ contents M D T' A' /\
    (forall q, In q (all_tiles D) -> same_extents (gat T q) (gat T' q)) /\
    forall r, In r (all_tiles D) -> A' r = A r ++ filter (fun p => match target D n0 p with Ret s => idx_eqb s r | _ => false end) ps.
Proof.
  intros T A npart HC HR Hf Ht.
  assert (X : forall k dn rest T A npart, ps = dn ++ rest -> length rest = k -> contents M D T A -> 2 * (zlen (all_particles D A) + zlen rest) + 1 <= M -> first_tile T = Ret n0 ->
    exists T' A', do_loop k (zlen dn + 1) (fun i s => do p <- get1 ps i; add_particle_to_species D p s) (T, npart) = Ret (T', npart + zlen rest) /\ contents M D T' A' /\
    (forall q, In q (all_tiles D) -> same_extents (gat T q) (gat T' q)) /\
    forall r, In r (all_tiles D) -> A' r = A r ++ filter (fun p => match target D n0 p with Ret s => idx_eqb s r | _ => false end) rest).
  { clear T A npart HC HR Hf. induction k as [|k IH]; intros dn rest T A npart Ep Hk HC HR Hf.
    - destruct rest; [|discriminate]. exists T, A. cbn [do_loop filter]. change (zlen (@nil (part N))) with 0. rewrite Z.add_0_r. split; [reflexivity|]. split; [exact HC|].
      split; [intros q _; now repeat split|]. intros r _. now rewrite app_nil_r.
    - destruct rest as [|p rest]; [discriminate|]. injection Hk as Hk. cbn [do_loop].
      replace (get1 ps (zlen dn + 1)) with (Ret p : out (part N)).
      2:{ symmetry. unfold get1. apply zget_ok; [unfold zlen; lia|]. replace (Z.to_nat (zlen dn + 1 - 1)) with (length dn) by (unfold zlen; lia).
          rewrite Ep, nth_error_app2 by lia. now rewrite Nat.sub_diag. }
      cbn [bind]. destruct (Ht p) as (r & Er & Hr). { rewrite Ep. apply in_or_app. right. now left. }
      rewrite zlen_cons in HR. pose proof (zlen_nonneg rest). destruct (insert_fact T A npart p r HC ltac:(lia) Hf Er Hr) as (T1 & E1 & C1 & F1 & S1). rewrite E1. cbn [bind].
      destruct (IH (dn ++ [p]) rest T1 (upd A r (A r ++ [p])) (npart + 1)) as (T2 & A2 & E2 & C2 & S2 & G2); [now rewrite <- app_assoc|exact Hk|exact C1| |exact F1|].
      + assert (L : zlen (all_particles D (upd A r (A r ++ [p]))) = zlen (all_particles D A) + 1).
        { unfold all_particles. pose proof (NoDup_box (1, 1, 1) (ag_nt (dX D), ag_nt (dY D), ag_nt (dZ D))) as ND. fold (all_tiles D) in ND. destruct (in_split _ _ Hr) as (l1 & l2 & EB). rewrite EB in ND |- *. apply NoDup_remove_2 in ND.
          assert (Y : forall l, ~ In r l -> flat_map (upd A r (A r ++ [p])) l = flat_map A l).
          { induction l as [|q l IHl]; intros Hn; [reflexivity|]. cbn [flat_map]. rewrite IHl by (intros Hi; apply Hn; now right). rewrite upd_other by (intros <-; apply Hn; now left). reflexivity. }
          rewrite !flat_map_app. cbn [flat_map]. rewrite upd_same, !Y by (intros Hi; apply ND; apply in_or_app; tauto).
          rewrite !zlen_app. change (zlen [p]) with 1. lia. }
        rewrite L. lia.
      + exists T2, A2. rewrite zlen_app in E2. change (zlen [p]) with 1 in E2. split; [rewrite E2; f_equal; f_equal; rewrite zlen_cons; lia|]. split; [exact C2|]. split.
        * intros q Hq. destruct (S1 q Hq) as (? & ? & ? & ?), (S2 q Hq) as (? & ? & ? & ?). repeat split; congruence.
        * intros s Hs. rewrite (G2 s Hs). cbn [filter]. rewrite Er. destruct (idx_dec r s) as [<-|Dn].
          -- rewrite upd_same, idx_eqb_refl, <- app_assoc. reflexivity.
          -- rewrite upd_other by exact Dn. now rewrite (proj2 (idx_eqb_neq r s) Dn). }
  unfold py_add_particles_to_species, do_range. replace (Z.to_nat (zlen ps - 1 + 1)) with (length ps) by (unfold zlen; lia).
  destruct (X (length ps) [] ps T A npart eq_refl eq_refl HC HR Hf) as (T' & A' & E & R). change (zlen [] + 1) with 1 in E. now exists T', A'.
Qed.
End Insert.

(** *** Executions of the parallel loops exist *)
Section Exist.
Context {N : FNum} (M : Z) (HM : sizes_exact N M) (D : dom N) (n0 : idx) (T0 : grid (tile N)).
Hypothesis T0lo : glo T0 = (1, 1, 1).
Hypothesis T0hi : ghi T0 = (ag_nt (dX D), ag_nt (dY D), ag_nt (dZ D)).
Notation B := (all_tiles D). Notation st := (stays D T0). Notation tg := (tgt D n0).

Lemma run_down L q n : In q L -> In q B -> forall T A pc, rep M D T0 T A -> good M D n0 T0 A -> (n <= length (A q))%nat -> settled st tg q (skipn n (A q)) -> pc q = Some (Z.of_nat n) ->
  (forall T' A' pc', rep M D T0 T' A' -> good M D n0 T0 A' -> pc' q = Some 0 -> (forall s, s <> q -> pc' s = pc s) -> exists r, parallel_sweep D n0 L T' pc' r) ->
  exists r, parallel_sweep D n0 L T pc r.
Proof.
  intros HqL Hq. induction n as [|m IH]; intros T A pc HT HG Hn Hs Hpc K.
  - apply (K T A pc HT HG); [now rewrite Hpc|reflexivity].
  - destruct (sweep_refines M HM D n0 T0 T0lo T0hi T A q (S m) HT (proj1 HG) (proj2 HG) Hq ltac:(lia)) as (T1 & E1 & HT1).
    destruct (step_here st tg q m A Hn Hs) as (L1 & S1 & _).
    destruct (IH T1 _ (upd pc q (Some (Z.of_nat (S m) - 1))) HT1 (good_step M D n0 T0 A q (S m) Hq HG) L1 S1) as (r & Hr).
    + rewrite upd_same. f_equal. lia.
    + intros T' A' pc' HT' HG' H1 H2. apply (K T' A' pc' HT' HG' H1). intros s Hne. rewrite H2 by exact Hne. now rewrite upd_other by congruence.
    + exists r. eapply ps_next with (i := Z.of_nat (S m)); [exact HqL|exact Hpc|lia|exact E1|exact Hr].
Qed.
Lemma parallel_exists L : (forall q, In q L -> In q B) -> forall todo T A pc, rep M D T0 T A -> good M D n0 T0 A ->
  (forall q, In q L -> In q todo \/ pc q = Some 0) -> (forall q, In q todo -> In q L) -> NoDup todo -> (forall q, In q todo -> pc q = None) -> exists r, parallel_sweep D n0 L T pc r.
Proof.
  intros HL. induction todo as [|q todo IH]; intros T A pc HT HG H1 H2 ND H3.
  - exists (Ret T). apply ps_done. intros q Hq. destruct (H1 q Hq) as [[]|E]. exists 0. split; [exact E|lia].
  - assert (HqL : In q L) by (apply H2; now left). inversion ND as [|q' t' Hn ND']; subst.
    pose proof (rep_get M D T0 T0lo T0hi T A q HT (HL q HqL)) as Eg.
    pose proof HT as (_ & _ & HT'). destruct (HT' q (HL q HqL)) as ((_ & _ & En & _) & _).
    destruct (run_down L q (length (A q)) HqL (HL q HqL) T A (upd pc q (Some (t_np (gat T q)))) HT HG) as (r & Hr).
    + lia.
    + rewrite skipn_all. intros p [].
    + rewrite upd_same, En. reflexivity.
    + intros T' A' pc' HT1 HG1 E0 Eo. apply (IH T' A' pc' HT1 HG1).
      * intros s Hs. destruct (idx_dec s q) as [->|Dn]; [now right|]. rewrite (Eo s Dn), upd_other by congruence. destruct (H1 s Hs) as [[->|Hi]|E]; [congruence|now left|now right].
      * intros s Hs. apply H2. now right.
      * exact ND'.
      * intros s Hs. assert (Dn : s <> q) by (intros ->; contradiction). rewrite (Eo s Dn), upd_other by congruence. apply H3. now right.
    + exists r. eapply ps_start; [exact HqL|apply H3; now left|exact Eg|exact Hr].
Qed.
Lemma omp_exists cs : (forall c, In c cs -> NoDup (colour D c) /\ forall q, In q (colour D c) -> In q B) ->
  forall T A, rep M D T0 T A -> good M D n0 T0 A -> exists r, omp_sweeps D n0 cs T r.
Proof.
  induction cs as [|c cs IH]; intros Hc T A HT HG; [exists (Ret T); constructor|].
  destruct (Hc c (or_introl eq_refl)) as (ND & HL).
  destruct (parallel_exists (colour D c) HL (colour D c) T A (fun _ => None) HT HG) as (r & Hr); [now left|tauto|exact ND|reflexivity|].
  destruct (parallel_refines M HM D n0 T0 T0lo T0hi (colour D c) HL T _ r Hr A HT HG) as (T1 & A1 & -> & HT1 & HG1 & _); [intros q i _ E; discriminate|].
  destruct (IH (fun c Hi => Hc c (or_intror Hi)) T1 A1 HT1 HG1) as (r2 & Hr2). exists r2. eapply os_cons; [exact Hr|exact Hr2].
Qed.
End Exist.
Theorem omp_exists_fact {N : FNum} (M : Z) (HM : sizes_exact N M) (D : dom N) (T : grid (tile N)) (A : idx -> list (part N)) (n0 : idx) :
  contents M D T A -> 2 * zlen (all_particles D A) + 1 <= M -> targets_exist D n0 T A -> first_tile T = Ret n0 ->
  exists res, particle_bcs_tiles_openmp D T res.
Proof.
  intros HC HR HX Hf. unfold particle_bcs_tiles_openmp. rewrite Hf. pose proof HC as (E1 & E2 & _).
  apply (omp_exists M HM D n0 T E1 E2 colours) with (A := A).
  - intros c Hc. split; [apply NoDup_colour|]. intros q. now apply colour_tiles.
  - now apply contents_rep.
  - now apply exist_good.
Qed.
