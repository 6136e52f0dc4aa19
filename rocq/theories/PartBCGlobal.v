(** All processes together. *)
From Coq Require Import ZArith List Bool Permutation Lia.
From Verif Require Import Cxx CxxLemmas Num Fortran FortranLemmas Grid GridLemmas Deposit Tiles Exchange TilesProofs TilesExchange SpecTiles TilesFacts TilesDomain PartBC SpecPartBC PartBCProofs PartBCTile.
Import ListNotations.
Local Open Scope Z_scope.

Lemma NoDup_directions : NoDup directions. Proof. apply NoDup_filter, NoDup_box. Qed.
Local Opaque directions.
Section Global.
Context {N : FNum} (npid M : Z) (HM : sizes_exact N M).
Hypothesis Hpid : 0 <= npid.

Lemma flat_nil {X Y} (l : list X) : flat_map (fun _ => @nil Y) l = [].
Proof. induction l as [|? ? IHl]; [reflexivity|exact IHl]. Qed.
Definition sends (F : fate N) (d : idx) : list (part N) := match F with Leave p' d' => if idx_eqb d' d then [p'] else [] | _ => [] end.
Lemma sends_once p' d ds : In d ds -> NoDup ds -> flat_map (sends (Leave p' d)) ds = [p'].
Proof.
  induction ds as [|e l IHl]; [easy|].
  intros Hd Nd. inversion Nd as [|? ? N1 N2]; subst. cbn [flat_map sends]. destruct (idx_eqb d e) eqn:Ee.
  - apply idx_eqb_eq in Ee. subst e. cbn [app]. f_equal. clear -N1. induction l as [|e l IHl]; [reflexivity|]. cbn [flat_map sends].
    destruct (idx_eqb d e) eqn:Ee; [apply idx_eqb_eq in Ee; subst e; elim N1; now left|]. apply IHl. intros X. apply N1. now right.
  - cbn [app]. apply IHl; [|exact N2]. destruct Hd as [->|Hd]; [now rewrite idx_eqb_refl in Ee|exact Hd].
Qed.
Lemma survive_list t (B : bnd N) ds ps : NoDup ds -> (forall d, In d directions -> In d ds) ->
  Permutation (flat_map (fun p => match bc_particle t B p with Drop => [] | Keep p' | Leave p' _ => [p'] end) ps)
    (flat_map (fun p => match bc_particle t B p with Keep p' => [p'] | _ => [] end) ps ++ flat_map (fun d => flat_map (fun p => sends (bc_particle t B p) d) ps) ds).
Proof.
  intros Nd Hds. induction ps as [|p ps IH]; cbn [flat_map].
  - now rewrite flat_nil.
  - pose proof (flat_map_two (sends (bc_particle t B p)) (fun d => flat_map (fun p => sends (bc_particle t B p) d) ps) ds) as E. cbv beta in E.
    rewrite E, IH. clear E IH. pose proof (bc_particle_pid t B p) as Hp.
    destruct (bc_particle t B p) as [|p'|p' d].
    + unfold sends at 2. now rewrite flat_nil.
    + unfold sends at 2. now rewrite flat_nil.
    + rewrite sends_once by (try exact Nd; apply Hds, Hp). cbn [app]. apply Permutation_middle.
Qed.
Lemma survive_split (B : bnd N) T A q :
  Permutation (surviving B T A q) (staying B T A q ++ flat_map (fun d => leaving B T A d q) directions).
Proof.
  unfold surviving, staying, leaving. destruct (t_bound (gat T q)).
  - apply survive_list; [apply NoDup_directions|auto].
  - now rewrite flat_nil, app_nil_r.
Qed.
Lemma surviving_le (B : bnd N) T A q : zlen (surviving B T A q) <= zlen (A q).
Proof.
  unfold surviving. destruct (t_bound (gat T q)); [|reflexivity]. induction (A q) as [|p ps IH]; [reflexivity|]. cbn [flat_map]. rewrite zlen_app, zlen_cons.
  assert (zlen (match bc_particle (gat T q) B p with Drop => [] | Keep p' | Leave p' _ => [p'] end) <= 1) by (destruct (bc_particle (gat T q) B p); unfold zlen; cbn; lia). lia.
Qed.

Variables (np : idx) (D : idx -> dom N) (B : idx -> bnd N) (W : idx -> grid (tile N) * Z) (A : idx -> idx -> list (part N)) (n0 : idx -> idx).
Hypothesis Hnp : grid_size np.
Hypothesis HC : consistent np D W A M npid n0.
Hypothesis HT : arrivals_have_tile np D B W A n0.
Hypothesis HR : 2 * zlen (world np D A) + 1 <= M.
Hypothesis HI : zlen (world np D A) * (npid + 7) + 1 < 2 ^ 31.

Notation P := (processes np).
Definition stays_at (r : idx) : list (part N) := flat_map (staying (B r) (fst (W r)) (A r)) (all_tiles (D r)).
Definition leaves (s d : idx) : list (part N) := flat_map (leaving (B s) (fst (W s)) (A s) d) (all_tiles (D s)).

Lemma arriving_eq r : arriving np D B W A r = flat_map (fun d => leaves (neighbour np r (opposite d)) d) directions.
Proof. reflexivity. Qed.

Lemma survivors_split : Permutation (survivors np D B W A) (flat_map (fun r => stays_at r ++ arriving np D B W A r) P).
Proof.
  unfold survivors.
  transitivity (flat_map (fun r => stays_at r ++ flat_map (leaves r) directions) P).
  - apply flat_map_perm_in. intros r _. unfold stays_at, leaves.
    rewrite (flat_map_perm_in _ (fun q => staying (B r) (fst (W r)) (A r) q ++ flat_map (fun d => leaving (B r) (fst (W r)) (A r) d q) directions)) by (intros; apply survive_split).
    rewrite flat_map_two. apply Permutation_app_head. apply (flat_map_swap (fun q d => leaving (B r) (fst (W r)) (A r) d q)).
  - rewrite !flat_map_two. apply Permutation_app_head.
    rewrite (flat_map_ext_in (arriving np D B W A) (fun r => flat_map (fun d => leaves (neighbour np r (opposite d)) d) directions)) by reflexivity.
    rewrite (flat_map_swap (fun r d => leaves r d)), (flat_map_swap (fun r d => leaves (neighbour np r (opposite d)) d)).
    apply flat_map_perm_in. intros d _. rewrite <- (flat_map_perm (fun s => leaves s d) _ _ (sources np d Hnp)).
    rewrite flat_map_concat_map, flat_map_concat_map, map_map. reflexivity.
Qed.
Lemma world_room r : In r P -> zlen (stays_at r) + zlen (arriving np D B W A r) <= zlen (world np D A).
Proof.
  intros Hr. rewrite <- zlen_app. etransitivity; [apply (flat_map_piece (fun r => stays_at r ++ arriving np D B W A r)); exact Hr|].
  rewrite <- (zlen_perm _ _ survivors_split). unfold survivors, world, all_particles. apply flat_map_le. intros s _. apply flat_map_le. intros q _. apply surviving_le.
Qed.
Lemma pids r q : In r P -> In q (all_tiles (D r)) -> Forall (good_pid npid) (A r q).
Proof. intros Hr Hq. apply Forall_forall. intros p Hp. destruct (HC r Hr) as (_ & _ & H). now apply (H q). Qed.
Lemma rank_room r : In r P -> zlen (all_particles (D r) (A r)) <= zlen (world np D A).
Proof. intros Hr. apply (flat_map_piece (fun r => all_particles (D r) (A r)) P r Hr). Qed.

Lemma local_rank r : In r P -> exists T1 A1 bufs, local_phase npid (D r) (B r) (W r) =
    Ret (T1, snd (W r) - (zlen (all_particles (D r) (A r)) - zlen (all_particles (D r) A1)), bufs) /\
  contents M (D r) T1 A1 /\ (forall s, In s (all_tiles (D r)) -> same_extents (gat (fst (W r)) s) (gat T1 s)) /\
  (forall q, In q (all_tiles (D r)) -> Permutation (A1 q) (staying (B r) (fst (W r)) (A r) q)) /\
  bufs_ok npid bufs (leaves r).
Proof.
  intros Hr. destruct (HC r Hr) as (C & _ & _). 
  destruct (local_ok npid M HM Hpid (D r) (B r) (fst (W r)) (A r) (snd (W r)) C) as (T1 & A1 & bufs & E & H).
  - intros q Hq. now apply pids.
  - pose proof (rank_room r Hr). nia.
  - exists T1, A1, bufs. rewrite <- E. split; [now destruct (W r)|exact H].
Qed.

Lemma first_same (r : idx) T T' A' A1 m : contents M (D r) T A1 -> contents M (D r) T' A' -> (forall s, In s (all_tiles (D r)) -> same_extents (gat T s) (gat T' s)) ->
  first_tile T = Ret m -> first_tile T' = Ret m.
Proof.
  intros (E1 & E2 & _) (E3 & E4 & _) HS. unfold first_tile, get3. rewrite E1, E2, E3, E4. destruct (in_box _ _ _) eqn:Eb; [|discriminate]. cbn [bind].
  assert (H1 : In (1, 1, 1) (all_tiles (D r))) by (unfold all_tiles; now apply in_box_box). destruct (HS _ H1) as (-> & -> & -> & _). auto.
Qed.

Lemma targets_perm r ps : (forall p, In p ps -> exists q, target (D r) (n0 r) p = Ret q /\ In q (all_tiles (D r))) ->
  Permutation (flat_map (fun q => filter (has_target D r q n0) ps) (all_tiles (D r))) ps.
Proof.
  intros H. 
        transitivity (flat_map (fun q => flat_map (fun p => if has_target D r q n0 p then [p] else []) ps) (all_tiles (D r))).
        { apply flat_map_perm_in. intros q _. induction ps as [|p ps IHp]; [reflexivity|]. cbn [filter flat_map].
          assert (IH : Permutation (filter (has_target D r q n0) ps) (flat_map (fun p => if has_target D r q n0 p then [p] else []) ps)) by (apply IHp; intros; apply H; now right).
          destruct (has_target D r q n0 p); cbn [app]; [now constructor|exact IH]. }
        rewrite (flat_map_swap (fun q p => if has_target D r q n0 p then [p] else [])).
        transitivity (flat_map (fun p => [p]) ps); [|clear; induction ps as [|p ps IH]; [reflexivity|cbn; now constructor]].
        apply flat_map_perm_in. intros p Hp. destruct (H p Hp) as (q0 & E0 & H0). assert (Nd : NoDup (all_tiles (D r))) by apply NoDup_box. revert H0 Nd. generalize (all_tiles (D r)). clear -E0.
        induction l as [|q l IHl]; intros H0 Nd; [easy|]. inversion Nd as [|? ? N1 N2]; subst. cbn [flat_map]. unfold has_target at 1. rewrite E0.
        destruct (idx_eqb q0 q) eqn:Eq.
        - apply idx_eqb_eq in Eq. subst q0. cbn [app]. replace (flat_map _ l) with (@nil (part N)); [reflexivity|]. symmetry. clear -N1 E0.
          induction l as [|s l IHl]; [reflexivity|]. cbn [flat_map]. unfold has_target at 1. rewrite E0. destruct (idx_eqb q s) eqn:Es; [apply idx_eqb_eq in Es; subst s; elim N1; now left|].
          apply IHl. intros X. apply N1. now right.
        - cbn [app]. apply IHl; [|exact N2]. destruct H0 as [->|H0]; [now rewrite idx_eqb_refl in Eq|exact H0].
Qed.

(** the messages of the directions dl *)
Lemma receives r dl : In r P -> (forall d, In d dl -> In d directions) -> forall T A1 npart, contents M (D r) T A1 -> first_tile T = Ret (n0 r) ->
  2 * (zlen (all_particles (D r) A1) + zlen (flat_map (fun d => leaves (neighbour np r (opposite d)) d) dl)) + 1 <= M ->
  (forall p, In p (flat_map (fun d => leaves (neighbour np r (opposite d)) d) dl) -> exists q, target (D r) (n0 r) p = Ret q /\ In q (all_tiles (D r))) ->
  exists T' A', for_each (fun d s =>
    match matched np r d with
    | None => OutOfFuel
    | Some d' =>
        let src := neighbour np r (opposite d) in
        do l <- local_phase npid (D src) (B src) (W src);
        do b <- get3 (snd l) d';
        do m <- message npid b;
        receive npid (D r) m s
    end) dl (T, npart) = Ret (T', npart + zlen (flat_map (fun d => leaves (neighbour np r (opposite d)) d) dl)) /\ contents M (D r) T' A' /\
    (forall s, In s (all_tiles (D r)) -> same_extents (gat T s) (gat T' s)) /\
    forall q, In q (all_tiles (D r)) -> A' q = A1 q ++ filter (has_target D r q n0) (flat_map (fun d => leaves (neighbour np r (opposite d)) d) dl).
Proof.
  intros Hr. induction dl as [|d dl IH]; intros Hin T A1 npart HC1 Hf Hroom Ht.
  - exists T, A1. cbn [for_each flat_map filter]. change (zlen (@nil (part N))) with 0. split; [f_equal; f_equal; lia|]. split; [exact HC1|]. split; [now repeat split|].
    intros q _. now rewrite app_nil_r.
  - cbn [for_each flat_map] in *. rewrite zlen_app in Hroom.
    pose proof (Hin d (or_introl eq_refl)) as Hd. rewrite (matched_ok np r d Hnp Hr Hd).
    set (src := neighbour np r (opposite d)) in *. assert (Hs : In src P) by now apply neighbour_in.
    destruct (local_rank src Hs) as (Ts & As & bufs & El & _ & _ & _ & HB). cbv zeta. rewrite El. cbn [bind snd].
    destruct HB as (G1 & G2 & HB).
    replace (get3 bufs d) with (Ret (gat bufs d)) by (unfold get3; now rewrite G1, G2, (proj1 (proj1 (in_directions d) Hd))). cbn [bind].
    rewrite (message_ok npid _ _ (HB d Hd)). cbn [bind].
    assert (Hg : Forall (good_pid npid) (leaves src d)) by apply (HB d Hd).
    rewrite (receive_ok npid Hpid (D r) _ _ Hg).
    destruct (insert_all_fact M HM (D r) (n0 r) (leaves src d) T A1 npart HC1) as (T2 & A2 & E2 & HC2 & S2 & F2).
    + pose proof (zlen_nonneg (flat_map (fun d => leaves (neighbour np r (opposite d)) d) dl)). lia.
    + exact Hf.
    + intros p Hp. apply Ht. apply in_app_iff. now left.
    + rewrite E2. cbn [bind].
      assert (L2 : zlen (all_particles (D r) A2) = zlen (all_particles (D r) A1) + zlen (leaves src d)).
      { unfold all_particles. rewrite (flat_map_ext_in A2 (fun q => A1 q ++ filter (has_target D r q n0) (leaves src d))) by exact F2.
        rewrite (zlen_perm _ _ (flat_map_two _ _ _)), zlen_app. f_equal.
        rewrite (zlen_perm _ _ (targets_perm r (leaves src d) ltac:(intros p Hp; apply Ht; apply in_app_iff; now left))). reflexivity. }
      destruct (IH (fun e He => Hin e (or_intror He)) T2 A2 (npart + zlen (leaves src d)) HC2) as (T3 & A3 & E3 & HC3 & S3 & F3).
      * now apply (first_same r T T2 A2 A1).
      * lia.
      * intros p Hp. apply Ht. apply in_app_iff. now right.
      * exists T3, A3. rewrite E3. rewrite zlen_app. split; [f_equal; f_equal; lia|]. split; [exact HC3|]. split.
        { intros s Hs0. destruct (S2 s Hs0) as (a1 & a2 & a3 & a4), (S3 s Hs0) as (b1 & b2 & b3 & b4). repeat split; congruence. }
        intros q Hq. rewrite F3, F2 by exact Hq. rewrite filter_app, <- app_assoc. reflexivity.
Qed.

Theorem rank_fact r : In r P -> exists T' A', particle_bcs_mpi_blocking npid np D B W r =
    Ret (T', snd (W r) + zlen (all_particles (D r) A') - zlen (all_particles (D r) (A r))) /\
  contents M (D r) T' A' /\ (forall q, In q (all_tiles (D r)) -> same_extents (gat (fst (W r)) q) (gat T' q)) /\
  (forall q, In q (all_tiles (D r)) -> Permutation (A' q) (staying (B r) (fst (W r)) (A r) q ++ filter (has_target D r q n0) (arriving np D B W A r))) /\
  Permutation (all_particles (D r) A') (stays_at r ++ arriving np D B W A r).
Proof.
  intros Hr. unfold particle_bcs_mpi_blocking. destruct (local_rank r Hr) as (T1 & A1 & bufs & El & HC1 & S1 & P1 & _). rewrite El. cbn [bind fst].
  assert (L1 : Permutation (all_particles (D r) A1) (stays_at r)) by (apply flat_map_perm_in; exact P1).
  destruct (HC r Hr) as (HC0 & Hf & _).
  destruct (receives r directions Hr (fun d H => H) T1 A1 (snd (W r) - (zlen (all_particles (D r) (A r)) - zlen (all_particles (D r) A1))) HC1) as (T' & A' & E & HC' & S' & F').
  - now apply (first_same r (fst (W r)) T1 A1 (A r)).
  - pose proof (world_room r Hr) as X. rewrite (zlen_perm _ _ L1). rewrite arriving_eq in X. lia.
  - intros p Hp. now apply HT.
  - assert (PA : Permutation (all_particles (D r) A') (stays_at r ++ arriving np D B W A r)).
    { rewrite <- L1. unfold all_particles.
      rewrite (flat_map_ext_in A' _ _ F'), flat_map_two. apply Permutation_app_head.
      apply targets_perm. intros p Hp. now apply HT. }
    exists T', A'. split.
    { etransitivity; [exact E|]. f_equal. f_equal. rewrite (zlen_perm _ _ PA), zlen_app, <- (zlen_perm _ _ L1). rewrite arriving_eq. lia. }
    split; [exact HC'|]. split.
    { intros s Hs0. destruct (S1 s Hs0) as (a1 & a2 & a3 & a4), (S' s Hs0) as (b1 & b2 & b3 & b4). repeat split; congruence. }
    split; [|exact PA]. intros q Hq. rewrite F' by exact Hq. apply Permutation_app; [now apply P1|reflexivity].
Qed.
End Global.
