(** The theorems about the tiles for exact arithmetic and for IEEE binary64. *)
From Coq Require Import ZArith Reals List Bool Permutation Lia Lra.
From Verif Require Import Cxx CxxLemmas Num NumRX NumIEEE Fortran FortranNum Grid GridLemmas Deposit Tiles Exchange TilesProofs TilesExchange TilesReal SpecTiles TilesFacts TilesDomain TilesIEEE.
Import ListNotations.
Local Open Scope Z_scope.

Lemma sizes_ok N M : arithmetic N -> M < 2 ^ 31 -> sizes_exact N M.
Proof.
  intros HN HM. destruct (Z.lt_ge_cases M 0).
  - intros n Hn. lia.
  - destruct HN as [->|(lm & ->)]; [apply sizes_real|apply sizes_b64]; lia.
Qed.

Section Both.
Variables (N : FNum) (M : Z).
Hypothesis HN : arithmetic N.
Hypothesis HM : M < 2 ^ 31.

Lemma both_add (t : tile N) ps p : stores t ps -> t_max t <= M -> 2 * zlen ps + 1 <= M ->
  exists t', add_to_tile t p = Ret t' /\ stores t' (ps ++ [p]) /\ t_max t' <= M /\ same_extents t t'.
Proof. exact (add_fact M (sizes_ok N M HN HM) t ps p). Qed.
Lemma both_rm (t : tile N) l1 p l2 : stores t (l1 ++ p :: l2) -> t_max t <= M ->
  exists t', rm_from_tile t (zlen l1 + 1) = Ret t' /\ t_max t' <= M /\ same_extents t t' /\
    stores t' (l1 ++ match rev l2 with [] => [] | z :: r => z :: rev r end).
Proof. exact (rm_fact M (sizes_ok N M HN HM) t l1 p l2). Qed.
Lemma both_mask (t : tile N) ps mask npart : stores t ps -> t_max t <= M -> zlen mask = zlen ps ->
  exists t' npart' l, rm_with_mask mask t npart = Ret (t', npart') /\ stores t' l /\ t_max t' <= M /\ same_extents t t' /\
    Permutation l (kept mask ps) /\ npart' = npart - (zlen ps - zlen l).
Proof. exact (mask_fact M (sizes_ok N M HN HM) t ps mask npart). Qed.
Lemma both_group (t : tile N) ps g : stores t ps -> 2 * t_max t + 1 <= M -> zlen ps + zlen g <= 2 * t_max t + 1 ->
  exists t', add_group_to_tile t g = Ret t' /\ stores t' (ps ++ g) /\ t_max t' <= M /\ same_extents t t'.
Proof. intros H1 H2. exact (proj1 (group_fact M (sizes_ok N M HN HM) t ps g H1 H2)). Qed.
Lemma both_group_ub (t : tile N) ps g : stores t ps -> 2 * t_max t + 1 <= M -> 2 * t_max t + 1 < zlen ps + zlen g -> add_group_to_tile t g = UB.
Proof. intros H1 H2. exact (proj2 (group_fact M (sizes_ok N M HN HM) t ps g H1 H2)). Qed.

Lemma both_insert D n0 ps T A npart : contents M D T A -> 2 * (zlen (all_particles D A) + zlen ps) + 1 <= M -> first_tile T = Ret n0 ->
  (forall p, In p ps -> exists r, target D n0 p = Ret r /\ In r (all_tiles D)) ->
  exists T' A', @py_add_particles_to_species N D ps (T, npart) = Ret (T', npart + zlen ps) /\ contents M D T' A' /\
    (forall q, In q (all_tiles D) -> same_extents (gat T q) (gat T' q)) /\
    forall r, In r (all_tiles D) -> A' r = A r ++ filter (fun p => match target D n0 p with Ret s => idx_eqb s r | _ => false end) ps.
Proof. exact (insert_all_fact M (sizes_ok N M HN HM) D n0 ps T A npart). Qed.
Lemma both_serial D n0 (T : grid (tile N)) A : contents M D T A -> 2 * zlen (all_particles D A) + 1 <= M -> targets_exist D n0 T A -> first_tile T = Ret n0 ->
  exists T' A', particle_bcs_tiles D T = Ret T' /\ contents M D T' A' /\ (forall q, In q (all_tiles D) -> same_extents (gat T q) (gat T' q)) /\
    Permutation (all_particles D A') (all_particles D A) /\ forall r, In r (all_tiles D) -> Permutation (A' r) (expected D n0 T A r).
Proof. intros H1 H2 H3. exact (serial_fact M (sizes_ok N M HN HM) D T A n0 H1 H2 H3). Qed.
Lemma both_omp D n0 (T : grid (tile N)) A : contents M D T A -> 2 * zlen (all_particles D A) + 1 <= M -> targets_adjacent D n0 T A -> first_tile T = Ret n0 ->
  (exists res, particle_bcs_tiles_openmp D T res) /\
  exists A', (forall r, In r (all_tiles D) -> Permutation (A' r) (expected D n0 T A r)) /\ Permutation (all_particles D A') (all_particles D A) /\
    forall res, particle_bcs_tiles_openmp D T res -> exists T', res = Ret T' /\ contents M D T' A' /\ forall q, In q (all_tiles D) -> same_extents (gat T q) (gat T' q).
Proof.
  intros H1 H2 H3 H4.
  assert (H3' : targets_exist D n0 T A) by (intros q p Hq Hp; destruct (H3 q p Hq Hp) as (r & E & Hr & _); now exists r).
  split; [now apply (omp_exists_fact M (sizes_ok N M HN HM) D T A n0)|exact (omp_fact M (sizes_ok N M HN HM) D T A n0 H1 H2 H3' H3 H4)].
Qed.
End Both.

(** insertion in exact arithmetic: particles of the domain come into the tile they are inside of *)
Lemma insert_real sx sy sz M T A ps npart : good_axis sx -> good_axis sy -> good_axis sz -> M < 2 ^ 31 ->
  contents M (dom_of sx sy sz) T A -> laid_out sx sy sz T -> 2 * (zlen (all_particles (dom_of sx sy sz) A) + zlen ps) + 1 <= M ->
  (forall p, In p ps -> finite p /\ outside (dom_of sx sy sz) p = false) ->
  exists T' A', py_add_particles_to_species (dom_of sx sy sz) ps (T, npart) = Ret (T', npart + zlen ps) /\ contents M (dom_of sx sy sz) T' A' /\ laid_out sx sy sz T' /\
    (forall r, In r (all_tiles (dom_of sx sy sz)) -> A' r = A r ++ filter (inside (gat T r)) ps).
Proof.
  intros Hx Hy Hz HM HC HL HR Hp. set (D := dom_of sx sy sz) in *.
  pose proof (first_tile_real sx sy sz Hx Hy Hz M T A HC HL) as Hf.
  assert (Ht : forall p, In p ps -> exists r, target D (n0_of sx sy sz) p = Ret r /\ In r (all_tiles D) /\ inside (gat T r) p = true).
  { intros p Hi. destruct (Hp p Hi) as (Hfi & Ho). exact (target_real sx sy sz Hx Hy Hz M T A HC HL p Hfi Ho). }
  destruct (both_insert FRX M (or_introl eq_refl) HM D _ ps T A npart HC HR Hf) as (T' & A' & E & C & S & G).
  { intros p Hi. destruct (Ht p Hi) as (r & ? & ? & _). now exists r. }
  exists T', A'. split; [exact E|]. split; [exact C|]. split.
  - intros i j k t Hq. assert (Hq' : In (i, j, k) (all_tiles D)) by (destruct C as (E1 & E2 & _); rewrite E1, E2 in Hq; exact Hq).
    subst t. destruct (S _ Hq') as (-> & -> & -> & _). exact (layout sx sy sz M T A HC HL i j k Hq').
  - intros r Hr. rewrite (G r Hr). f_equal. apply filter_ext_in. intros p Hi. destruct (Ht p Hi) as (r' & -> & Hr' & Hin).
    destruct (idx_dec r' r) as [->|Dn]; [now rewrite idx_eqb_refl, Hin|]. rewrite (proj2 (idx_eqb_neq r' r) Dn). symmetry. apply not_true_is_false. intros Hin2. apply Dn.
    destruct r as [[i j] k], r' as [[a b] c]. destruct (Hp p Hi) as ((x & y & z & Ex & Ey & Ez) & Ho).
    unfold inside in Hin, Hin2. destruct (layout sx sy sz M T A HC HL i j k Hr) as (L1 & L2 & L3). destruct (layout sx sy sz M T A HC HL a b c Hr') as (L4 & L5 & L6).
    rewrite L1, L2, L3, Ex, Ey, Ez, !andb_true_iff in Hin2. rewrite L4, L5, L6, Ex, Ey, Ez, !andb_true_iff in Hin.
    apply tile_box in Hr, Hr'.
    pose proof (inside_index sx Hx i x ltac:(lia) ltac:(tauto)) as I1. pose proof (inside_index sx Hx a x ltac:(lia) ltac:(tauto)) as I2. rewrite I1 in I2. injection I2 as ->.
    pose proof (inside_index sy Hy j y ltac:(lia) ltac:(tauto)) as J1. pose proof (inside_index sy Hy b y ltac:(lia) ltac:(tauto)) as J2. rewrite J1 in J2. injection J2 as ->.
    pose proof (inside_index sz Hz k z ltac:(lia) ltac:(tauto)) as K1. pose proof (inside_index sz Hz c z ltac:(lia) ltac:(tauto)) as K2. rewrite K1 in K2. injection K2 as ->.
    reflexivity.
Qed.
Lemma omp_real_both sx sy sz M T A : good_axis sx -> good_axis sy -> good_axis sz -> contents M (dom_of sx sy sz) T A -> laid_out sx sy sz T ->
  (forall q p, In q (all_tiles (dom_of sx sy sz)) -> In p (A q) -> finite p) -> M < 2 ^ 31 -> 2 * zlen (all_particles (dom_of sx sy sz) A) + 1 <= M -> all_close sx sy sz A ->
  (exists res, particle_bcs_tiles_openmp (dom_of sx sy sz) T res) /\
  exists A', Permutation (all_particles (dom_of sx sy sz) A') (all_particles (dom_of sx sy sz) A) /\
    forall res, particle_bcs_tiles_openmp (dom_of sx sy sz) T res -> exists T', res = Ret T' /\ contents M (dom_of sx sy sz) T' A' /\ in_place (dom_of sx sy sz) A A' T'.
Proof.
  intros Hx Hy Hz HC HL HF HM HR Hcl. split.
  - apply (omp_exists_fact M (sizes_ok FRX M (or_introl eq_refl) HM) _ T A (n0_of sx sy sz) HC HR).
    + exact (exist_real sx sy sz Hx Hy Hz M T A HC HL HF).
    + exact (first_tile_real sx sy sz Hx Hy Hz M T A HC HL).
  - exact (omp_real sx sy sz Hx Hy Hz M T A HC HL HF HM HR Hcl).
Qed.
