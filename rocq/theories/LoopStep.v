(** Proofs: a time step of the main loop on several processes is a time step on the whole grid. *)
From Coq Require Import ZArith Reals List Bool Lia Lra Permutation FunctionalExtensionality.
From Verif Require Import Cxx CxxLemmas Num NumRX RXLemmas Fortran FortranNum FortranLemmas Grid GridLemmas Pushers SpecPhys SpecPush PusherProofs Yee SpecYee SpecSolver Deposit Tiles DepositTiles CurrentTiles Gather SpecTiles SpecDeposit SpecCurrent SpecFlux SpecGather SpecDepositTiles SpecCurrentTiles CurrentTilesProofs.
From Verif Require Import TilesReal TilesFacts TilesDomain TilesBoth PartBC SpecPartBC PartBCProofs PartBCReal PartDefault SpecPartDefault PartDefaultReal FieldBC SpecFieldBC SpecWhole SpecWholeCurrent WholeProofs WholeCurrentProofs Sums EskFacts SpecParallelField ParallelField ParallelGauss.
From Verif Require Import PushTilesProofs PushTiles SpecPic Loop SpecLoop LoopBridge LoopParticles.
Import ListNotations.
Local Open Scope R_scope.

Section Step.
Variables (P : plan) (M : Z).
Hypothesis HP : sound_plan P.
Notation U := (pl_solver P). Notation c := (u_c U). Notation dt := (rdt (u_steps U)).
Notation D := (rank_dom (pl_x P) (pl_y P) (pl_z P)).
Notation np := (g_procs (pl_x P) (pl_y P) (pl_z P)).
Notation x r := (part_x (lay P) (axs P) r). Notation y r := (part_y (lay P) (axs P) r). Notation z r := (part_z (lay P) (axs P) r).
Notation Ga := (good_axes P HP).
(** the particles of a state, without the fields *)
Definition placed (W : idx -> grid (tile FRX) * Z) (ps : idx -> idx -> list rpart) : Prop := forall r, In r (procs P) ->
  contents M (D r) (fst (W r)) (fun q => map part_of (ps r q)) /\ rank_tiles (pl_x P) (pl_y P) (pl_z P) r (fst (W r)) /\
  forall q a, In q (all_tiles (D r)) -> In a (ps r q) -> outside (D r) (part_of a) = false /\ Tiles.inside (gat (fst (W r)) q) (part_of a) = true.
Lemma in_world (A : idx -> idx -> list (part FRX)) r q p : In r (procs P) -> In q (all_tiles (D r)) -> In p (A r q) -> In p (SpecPartBC.world np D A).
Proof. intros Hr Hq Hp. unfold SpecPartBC.world, all_particles. apply in_flat_map. exists r. split; [exact Hr|]. apply in_flat_map. now exists q. Qed.
Lemma real_back (ps1 : idx -> idx -> list rpart) W' A' : exchanged_to P M (fun r q => map part_of (ps1 r q)) W' A' ->
  exists ps', placed W' ps' /\ Permutation (map (wrapped P) (everyone P ps1)) (everyone P ps').
Proof.
  intros (H & Pe). rewrite (world_everyone P ps1), map_map, (map_ext _ (fun a => part_of (wrapped P a))) in Pe by (intros a; apply wrap_part). 
  assert (R : forall r q, In r (procs P) -> In q (all_tiles (D r)) -> map part_of (map real_of (A' r q)) = A' r q).
  { intros r q Hr Hq. rewrite map_map. rewrite <- (map_id (A' r q)) at 2. apply map_ext_in. intros p Hp. pose proof (in_world A' r q p Hr Hq Hp) as Iw. rewrite Pe in Iw. apply in_map_iff in Iw. destruct Iw as (a & <- & _). rewrite real_part. reflexivity. }
  exists (fun r q => map real_of (A' r q)). split.
  - intros r Hr. destruct (H r Hr) as ((C1 & C2 & C3) & Rt & I). split; [|split; [exact Rt|]].
    + split; [exact C1|]. split; [exact C2|]. intros q Hq. rewrite (R r q Hr Hq). now apply C3.
    + intros q a Hq Ha. apply I; [exact Hq|]. rewrite <- (R r q Hr Hq). now apply in_map.
  - assert (E : everyone P (fun r q => map real_of (A' r q)) = map real_of (SpecPartBC.world np D A')).
    { unfold everyone, SpecPartBC.world, all_particles. rewrite flat_map_concat_map, (flat_map_concat_map _ (processes np)), concat_map, map_map. f_equal. apply map_ext. intros r. rewrite !flat_map_concat_map, concat_map, map_map. reflexivity. }
    rewrite E. apply (Permutation_map real_of) in Pe. symmetry. rewrite Pe, map_map. rewrite (map_ext _ (wrapped P)) by (intros a; apply real_part). reflexivity.
Qed.

(** ** the species for the deposition *)
Definition species_at (W : idx -> grid (tile FRX) * Z) (ps : idx -> idx -> list rpart) (r : idx) : list rspecies :=
  [RSpecies true (pl_q P) (fun i => if in_box (glo (fst (W r))) (ghi (fst (W r))) i then ps r i else [])].
Lemma species_read W ps r : In r (procs P) -> placed W ps -> [jspecies_in (Fin (pl_q P) : num FRX) (fst (W r))] = map jspecies_of (species_at W ps r).
Proof.
  intros Hr H. destruct (H r Hr) as ((C1 & C2 & C3) & _). unfold jspecies_in, species_at, jspecies_of. cbn [map rs_depos rs_q rs_parts]. do 2 f_equal. apply functional_extensionality. intros i.
  destruct (in_box (glo (fst (W r))) (ghi (fst (W r))) i) eqn:E; [|reflexivity]. destruct (C3 i) as (St & _); [unfold all_tiles; apply in_box_box; rewrite C1, C2 in E; exact E|].
  rewrite (stored_particles _ _ St), map_map. reflexivity.
Qed.
Lemma tile_parts W ps r q : In r (procs P) -> placed W ps -> In q (all_tiles (D r)) -> (if in_box (glo (fst (W r))) (ghi (fst (W r))) q then ps r q else []) = ps r q.
Proof. intros Hr H Hq. destruct (H r Hr) as ((C1 & C2 & _) & _). unfold all_tiles in Hq. apply in_box_box in Hq. rewrite C1, C2, Hq. reflexivity. Qed.
Lemma species_placed W ps : placed W ps -> well_placed (lay P) (axs P) (species_at W ps).
Proof.
  intros H r Hr s i j k a [<-|[]] Iq Ia. cbn [rs_parts] in Ia. rewrite (bridge_tiles P Ga r Hr) in Iq. rewrite (tile_parts W ps r _ Hr H Iq) in Ia. destruct (H r Hr) as (C & Rt & I).
  apply (bridge_inside P Ga r (fst (W r)) i j k a M _ Hr C Rt Iq). now apply I.
Qed.
Lemma species_charges W ps : placed W ps -> charges (lay P) (axs P) (species_at W ps) = map (pair (pl_q P)) (everyone P ps).
Proof.
  intros H. unfold charges, everyone. change (processes (l_procs (lay P))) with (procs P).
  assert (E : forall l, (forall r, In r l -> In r (procs P)) -> flat_map (fun r => flat_map (fun s => map (pair (rs_q s)) (flat_map (rs_parts s) (tiles_of (x r) (y r) (z r)))) (filter rs_depos (species_at W ps r))) l =
    map (pair (pl_q P)) (flat_map (fun r => flat_map (ps r) (all_tiles (D r))) l)).
  { induction l as [|r l IH]; intros Hl; [reflexivity|]. cbn [flat_map]. rewrite map_app, IH by (intros r' Hr'; apply Hl; now right). f_equal. unfold species_at. cbn [filter rs_depos flat_map rs_q rs_parts]. rewrite app_nil_r. f_equal.
    assert (Hr : In r (procs P)) by (apply Hl; now left). rewrite (bridge_tiles P Ga r Hr). apply flat_map_ext_in. intros q Hq. now apply tile_parts. }
  apply E. auto.
Qed.
Lemma current_same W ps m : placed W ps -> whole_j (lay P) (axs P) U m (species_at W ps) = current P m (everyone P ps).
Proof. intros H. unfold whole_j, current, current_at, folded. rewrite (species_charges W ps H). reflexivity. Qed.
Lemma currents_same W ps J0 : placed W ps -> all_currents P W J0 <-> currents_deposited (lay P) (axs P) (pl_consts P) (pl_optimised P) (pl_threads P) dt (species_at W ps) J0.
Proof. intros H. unfold all_currents, currents_deposited. change (processes (l_procs (lay P))) with (procs P). split; intros A r Hr; specialize (A r Hr); rewrite (species_read W ps r Hr H) in *; exact A. Qed.

Lemma forall2_len {X Y} (R : X -> Y -> Prop) l l' : Forall2 R l l' -> length l = length l'.
Proof. intros F. induction F; cbn [length]; congruence. Qed.

(** ** the push of all processes *)
Definition all_moved (e b : rfield) : list rpart -> list rpart -> Prop := Forall2 (fun a a' => moved (pl_pusher P) c (pl_q P) (pl_m P) dt (fields_seen (gathering P) (w_cells (axs P)) e b a) a a').
Lemma everyone_moved e b ps ps1 : (forall r q, In r (procs P) -> In q (all_tiles (D r)) -> all_moved e b (ps r q) (ps1 r q)) -> all_moved e b (everyone P ps) (everyone P ps1).
Proof.
  intros H. unfold everyone, all_moved in *. assert (E : forall l, (forall r, In r l -> In r (procs P)) -> Forall2 (fun a a' => moved (pl_pusher P) c (pl_q P) (pl_m P) dt (fields_seen (gathering P) (w_cells (axs P)) e b a) a a')
    (flat_map (fun r => flat_map (ps r) (all_tiles (D r))) l) (flat_map (fun r => flat_map (ps1 r) (all_tiles (D r))) l)); [|now apply E].
  induction l as [|r l IH]; intros Hl; [constructor|]. cbn [flat_map]. apply Forall2_app; [|apply IH; intros r' Hr'; apply Hl; now right]. assert (Hr : In r (procs P)) by (apply Hl; now left).
  assert (E : forall k, (forall q, In q k -> In q (all_tiles (D r))) -> Forall2 (fun a a' => moved (pl_pusher P) c (pl_q P) (pl_m P) dt (fields_seen (gathering P) (w_cells (axs P)) e b a) a a') (flat_map (ps r) k) (flat_map (ps1 r) k)); [|now apply E].
  induction k as [|q k IHk]; intros Hk; [constructor|]. cbn [flat_map]. apply Forall2_app; [apply H; [exact Hr|apply Hk; now left]|apply IHk; intros q' Hq'; apply Hk; now right].
Qed.
Lemma slow_wrapped e b l l1 : all_moved e b l l1 -> forall a, In a l1 -> slower c (wrapped P a).
Proof.
  intros F a Ia. destruct (light_step P HP) as (Hc & _).
  assert (G : rgam a = inv_gamma c (momentum3 a)) by (clear - F Ia; induction F as [|a0 a1 l0 l1 (_ & H & _) F IH]; [destruct Ia|]; destruct Ia as [<-|Ia]; [exact H|now apply IH]).
  destruct (speed_parts c (momentum3 a) Hc) as (S1 & S2 & S3). rewrite <- G in S1, S2, S3. cbn [momentum3 x3 y3 z3] in *. rewrite Rmult_comm in S1, S2, S3. intros d. destruct d; cbn [speed wrapped rux ruy ruz rgam]; lra.
Qed.
Lemma period_of g v : good_gaxis g -> exists k, back_in g v = v + IZR (k * g_n g) * g_d g.
Proof.
  intros (H1 & H2 & _). assert (Hn : IZR (g_n g) <> 0) by (apply not_0_IZR; lia). assert (E : IZR (g_n g) * g_d g = g_hi g - g_lo g) by (unfold g_d; field; exact Hn).
  unfold back_in. destruct (Rlt_dec _ _); [|destruct (Rle_dec _ _)]; [exists 1%Z|exists (-1)%Z|exists 0%Z]; rewrite mult_IZR; nra.
Qed.
Lemma all_cells_n a : all_cells (lay P) a = g_n (pl_axis P a).
Proof.
  unfold all_cells. destruct (Ga a) as (_ & H2 & _). assert (E : FieldBC.comp a (l_procs (lay P)) = g_np (pl_axis P a)) by (destruct a; reflexivity). rewrite E.
  change (l_cells (lay P) a) with (fun c => (SpecPartBC.cut (g_n (pl_axis P a)) (g_np (pl_axis P a)) (c + 1) - SpecPartBC.cut (g_n (pl_axis P a)) (g_np (pl_axis P a)) c)%Z). rewrite before_cut by lia. apply cut_np; lia.
Qed.
Lemma moved_back e b l l1 : all_moved e b l l1 -> Forall2 (same_place (lay P) (axs P)) (map (pair (pl_q P)) l) (map (fun a => (pl_q P, before_move dt (wrapped P a))) l1).
Proof.
  intros F. induction F as [|a a1 l l1 (_ & Hg & Hx & Hw) F IH]; [constructor|]. cbn [map]. constructor; [|exact IH]. split; [reflexivity|]. cbn [fst snd before_move wrapped rw]. split; [now symmetry|].
  intros d. pose proof (f_equal x3 Hx) as X1. pose proof (f_equal y3 Hx) as X2. pose proof (f_equal z3 Hx) as X3. unfold place3, SpecPhys.add3, scale3, momentum3 in X1, X2, X3. cbn [x3 y3 z3] in X1, X2, X3. rewrite all_cells_n.
  destruct d; cbn [coord before_move wrapped rpx rpy rpz rux ruy ruz rgam pl_axis axs w_d]; unfold back.
  - destruct (period_of (pl_x P) (rpx a1) (Ga DirX)) as (k & K). exists k. split; [rewrite K, X1; ring|discriminate].
  - destruct (period_of (pl_y P) (rpy a1) (Ga DirY)) as (k & K). exists k. split; [rewrite K, X2; ring|discriminate].
  - destruct (period_of (pl_z P) (rpz a1) (Ga DirZ)) as (k & K). exists k. split; [rewrite K, X3; ring|discriminate].
Qed.
Lemma forall2_perm {X Y} (R : X -> Y -> Prop) l l1 l1' : Forall2 R l l1 -> Permutation l1 l1' -> exists l', Permutation l l' /\ Forall2 R l' l1'.
Proof.
  intros F Pm. revert l F. induction Pm as [|a k k' Pm IH|a b k|k1 k2 k3 _ IH1 _ IH2]; intros l F.
  - inversion F; subst. exists []. split; constructor.
  - inversion F as [|v w vs ws H F']; subst. destruct (IH _ F') as (l' & Pl & Fl). exists (v :: l'). split; [now constructor|now constructor].
  - inversion F as [|v w vs ws H F']; subst. inversion F' as [|v2 w2 vs2 ws2 H2 F2]; subst. eexists. split; [apply perm_swap|]. constructor; [exact H2|]. now constructor.
  - destruct (IH1 _ F) as (l' & Pl & Fl). destruct (IH2 _ Fl) as (l2 & Pl2 & Fl2). exists l2. split; [now transitivity l'|exact Fl2].
Qed.

(** ** a time step *)
Lemma pushed_choice W E B ps e b T1 : placed W ps -> carrying (lay P) E e -> carrying (lay P) B b -> all_pushed P W E B T1 -> exists ps1, forall r, In r (procs P) -> well_pushed P M e b (ps r) r (T1 r) (ps1 r).
Proof.
  intros H HE HB Hp. apply (choice_list (fun _ : idx => @nil rpart) (fun r p1 => well_pushed P M e b (ps r) r (T1 r) p1)). intros r Hr. destruct (H r Hr) as (C & Rt & I). destruct (Hp r Hr) as (l & Pl & El).
  destruct (push_fact P M HP r E B e b (ps r) l (fst (W r)) Hr C Rt I HE HB Pl) as (T1' & p1 & Ep & Wp). rewrite Ep in El. injection El as <-. now exists p1.
Qed.
Lemma pushed_exists W E B ps e b : placed W ps -> carrying (lay P) E e -> carrying (lay P) B b -> exists T1, all_pushed P W E B T1.
Proof.
  intros H HE HB. unfold all_pushed. match goal with |- exists T1 : _, forall r, In r (procs P) -> @?Q r T1 => idtac end.
  apply (choice_list (fst (W (0, 0, 0)%Z)) (fun r T => exists l, Permutation l (tiles_of (x r) (y r) (z r)) /\
    push_tiles (pl_consts P) (choices_of (gathering P) (pl_lvec P) (pl_algo P) (pl_pusher P)) (motion_of (pl_q P) (pl_m P) dt) (steps (x r) (y r) (z r)) (mesh_of (fin_axis (x r)) (fin_axis (y r)) (fin_axis (z r))) (E r) (B r) l (fst (W r)) = Ret T)).
  intros r Hr. destruct (H r Hr) as (C & Rt & I). destruct (push_fact P M HP r E B e b (ps r) (tiles_of (x r) (y r) (z r)) (fst (W r)) Hr C Rt I HE HB (Permutation_refl _)) as (T1' & p1 & Ep & _). exists T1', (tiles_of (x r) (y r) (z r)). now split.
Qed.
Lemma pushed_length e b ps ps1 T1 : (forall r, In r (procs P) -> well_pushed P M e b (ps r) r (T1 r) (ps1 r)) -> all_moved e b (everyone P ps) (everyone P ps1).
Proof. intros H. apply everyone_moved. intros r q Hr Hq. destruct (H r Hr) as (_ & _ & _ & F). now apply F. Qed.
Lemma after_push W T1 ps ps1 e b : room M (zlen (everyone P ps)) -> (forall r, In r (procs P) -> well_pushed P M e b (ps r) r (T1 r) (ps1 r)) ->
  (exists W', all_exchanged P (fun r => (T1 r, snd (W r : grid (tile FRX) * Z))) W') /\
  forall W', all_exchanged P (fun r => (T1 r, snd (W r))) W' -> exists ps', placed W' ps' /\ Permutation (map (wrapped P) (everyone P ps1)) (everyone P ps').
Proof.
  intros Hroom H. pose proof (pushed_length e b ps ps1 T1 H) as F.
  destruct (exchange_fact P M HP (fun r => (T1 r, snd (W r))) (fun r q => map part_of (ps1 r q))) as (X1 & X2).
  - intros r q p _ _ Hp. apply in_map_iff in Hp. destruct Hp as (a & <- & _). reflexivity.
  - rewrite (world_everyone P ps1), zlen_map. replace (zlen (everyone P ps1)) with (zlen (everyone P ps)); [exact Hroom|]. unfold zlen. now rewrite (forall2_len _ _ _ F).
  - intros r Hr. cbn [fst]. destruct (H r Hr) as (C & Rt & O & _). now split.
  - split; [exact X1|]. intros W' HW'. destruct (X2 W' HW') as (A' & Ex). exact (real_back ps1 W' A' Ex).
Qed.
(** the step, with the particles as in the proofs about the fields *)
Definition as_pic (s : state) (ps : idx -> idx -> list rpart) : pic_state := let '(W, E, B) := s in (species_at W ps, E, B).
Lemma slow_charges_after ps' l1 e b l : all_moved e b l l1 -> Permutation (map (wrapped P) l1) ps' -> slow_charges c (map (pair (pl_q P)) ps').
Proof. intros F Pe k Ik. apply in_map_iff in Ik. destruct Ik as (a & <- & Ia). cbn [snd]. rewrite <- Pe in Ia. apply in_map_iff in Ia. destruct Ia as (a1 & <- & Ia). now apply (slow_wrapped e b l l1). Qed.
Lemma same_after ps' l1 e b l : all_moved e b l l1 -> Permutation (map (wrapped P) l1) ps' -> same_particles (lay P) (axs P) (map (pair (pl_q P)) l) (charges_before dt (map (pair (pl_q P)) ps')).
Proof.
  intros F Pe. pose proof (moved_back e b l l1 F) as G. unfold charges_before. rewrite map_map. cbn [fst snd].
  apply (forall2_perm _ _ _ _ G). rewrite <- Pe, map_map. reflexivity.
Qed.
Theorem step_refines W E B s' ps e b m : room M (zlen (everyone P ps)) -> beyond_guards P m -> representing P M (W, E, B) ps e b -> full_step P (W, E, B) s' ->
  exists ps' e' b', representing P M s' ps' e' b' /\ whole_pic_step P m (everyone P ps, e, b) (everyone P ps', e', b') /\
    pic_step (lay P) (axs P) U (pl_consts P) (pl_optimised P) (pl_blocking P) (pl_threads P) (as_pic (W, E, B) ps) (as_pic s' ps').
Proof.
  intros Hroom Hm (Hp & He & Hb & HE & HB). destruct s' as [[W' E'] B']. intros (T1 & J0 & J & T & Pu & Ex & Cu & Ty & Su & Fs).
  destruct (pushed_choice W E B ps e b T1 Hp HE HB Pu) as (ps1 & Wp). pose proof (pushed_length e b ps ps1 T1 Wp) as F.
  destruct (after_push W T1 ps ps1 e b Hroom Wp) as (_ & X). destruct (X W' Ex) as (ps' & Pl & Pe).
  assert (St : pic_step (lay P) (axs P) U (pl_consts P) (pl_optimised P) (pl_blocking P) (pl_threads P) (species_at W ps, E, B) (species_at W' ps', E', B')).
  { split; [now apply species_placed|]. rewrite !species_charges by assumption. split; [exact (slow_charges_after _ _ _ _ _ F Pe)|]. split; [exact (same_after _ _ _ _ _ F Pe)|].
    exists J0, J, T. split; [now apply currents_same|]. split; [exact Ty|]. split; [exact Su|exact Fs]. }
  pose proof HP as (_ & (HL & Hper & HF & HW & Hn & Hk & Hs & Hro) & _).
  pose proof (step_whole (lay P) (axs P) U (pl_consts P) (pl_optimised P) (pl_blocking P) (pl_threads P) HL Hper HF HW Hn Hk Hs Hro m (species_at W ps, E, B) (species_at W' ps', E', B') e b Hm) as Sw.
  specialize (Sw (conj (species_placed W ps Hp) (conj He (conj Hb (conj HE HB)))) St). cbn [fst] in Sw. rewrite (current_same W' ps' m Pl) in Sw. destruct Sw as (_ & PE & PB & CE & CB).
  set (w := whole_step U (current P m (everyone P ps')) (e, b)) in *. exists ps', (fst w), (snd w). split; [|split].
  - split; [exact Pl|]. split; [exact PE|]. split; [exact PB|]. split; [exact CE|exact CB].
  - exists (map (wrapped P) (everyone P ps1)). split; [|split; [exact Pe|now rewrite <- surjective_pairing]].
    clear - F. unfold all_moved in F. induction F as [|a a1 l l1 H F IH]; [constructor|]. cbn [map]. constructor; [|exact IH]. exists a1. split; [exact H|reflexivity].
  - exact St.
Qed.
Theorem step_exists W E B ps e b : room M (zlen (everyone P ps)) -> representing P M (W, E, B) ps e b -> exists s', full_step P (W, E, B) s'.
Proof.
  intros Hroom (Hp & He & Hb & HE & HB). destruct (pushed_exists W E B ps e b Hp HE HB) as (T1 & Pu). destruct (pushed_choice W E B ps e b T1 Hp HE HB Pu) as (ps1 & Wp). pose proof (pushed_length e b ps ps1 T1 Wp) as F.
  destruct (after_push W T1 ps ps1 e b Hroom Wp) as ((W' & Ex) & X). destruct (X W' Ex) as (ps' & Pl & Pe).
  pose proof HP as (_ & (HL & Hper & HF & HW & Hn & Hk & Hs & Hro) & H1 & _).
  assert (Sl : slow_charges c (charges (lay P) (axs P) (species_at W' ps'))) by (rewrite species_charges by assumption; exact (slow_charges_after _ _ _ _ _ F Pe)).
  destruct (step_possible (lay P) (axs P) U (pl_consts P) (pl_optimised P) (pl_blocking P) (pl_threads P) HL Hper HF HW Hn Hk Hs Hro (species_at W ps) (species_at W' ps') E B e b) as (E' & B' & St).
  - exact (conj (species_placed W ps Hp) (conj He (conj Hb (conj HE HB)))).
  - now apply species_placed.
  - exact Sl.
  - rewrite !species_charges by assumption. exact (same_after _ _ _ _ _ F Pe).
  - apply (currents_possible (lay P) (axs P) (species_at W' ps') (pl_consts P) (pl_optimised P) c dt HW (species_placed W' ps' Pl) Hk Hs Hro (pl_threads P) H1).
    intros r s q a Hr [<-|[]] Iq Ia. cbn [rs_parts] in Ia. rewrite (bridge_tiles P Ga r Hr) in Iq. rewrite (tile_parts W' ps' r q Hr Pl Iq) in Ia.
    refine (slow_charges_after (everyone P ps') (everyone P ps1) e b (everyone P ps) F Pe (pl_q P, a) _). apply in_map. unfold everyone. apply in_flat_map. exists r. split; [exact Hr|]. apply in_flat_map. now exists q.
  - exists (W', E', B'). destruct St as (_ & _ & _ & J0 & J & T & Cu & Ty & Su & Fs). exists T1, J0, J, T. split; [exact Pu|]. split; [exact Ex|]. split; [now apply (currents_same W' ps')|]. split; [exact Ty|]. split; [exact Su|exact Fs].
Qed.

(** ** a run *)
Lemma whole_step_number m ps e b ps' e' b' : whole_pic_step P m (ps, e, b) (ps', e', b') -> length ps' = length ps.
Proof. intros (l & F & Pe & _). rewrite <- (Permutation_length Pe). symmetry. exact (forall2_len _ _ _ F). Qed.
Theorem run_refines n s s' : full_run P n s s' -> forall m ps e b, room M (zlen (everyone P ps)) -> beyond_guards P m -> representing P M s ps e b ->
  exists ps' e' b' l, representing P M s' ps' e' b' /\ whole_pic_run P m n (everyone P ps, e, b) (everyone P ps', e', b') /\ zlen (everyone P ps') = zlen (everyone P ps) /\
    pic_run (lay P) (axs P) U (pl_consts P) (pl_optimised P) (pl_blocking P) (pl_threads P) l (as_pic s ps) (as_pic s' ps') /\ length l = n.
Proof.
  intros R. induction R as [s|n s s1 s2 St R IH]; intros m ps e b Hr Hm Hs.
  - exists ps, e, b, []. split; [exact Hs|]. split; [constructor|]. split; [reflexivity|]. split; [constructor|reflexivity].
  - destruct s as [[W E] B]. destruct (step_refines W E B s1 ps e b m Hr Hm Hs St) as (ps1 & e1 & b1 & Hs1 & Ws & Ps).
    assert (Ez : zlen (everyone P ps1) = zlen (everyone P ps)) by (unfold zlen; now rewrite (whole_step_number _ _ _ _ _ _ _ Ws)).
    destruct (IH m ps1 e1 b1) as (ps2 & e2 & b2 & l & Hs2 & Wr & E2 & Pr & El); [now rewrite Ez|exact Hm|exact Hs1|].
    exists ps2, e2, b2. eexists. split; [exact Hs2|]. split; [econstructor; eassumption|]. split; [congruence|]. split; [econstructor; eassumption|cbn [length]; now rewrite El].
Qed.
Theorem run_exists n : forall s ps e b, room M (zlen (everyone P ps)) -> representing P M s ps e b -> exists s', full_run P n s s'.
Proof.
  induction n as [|n IH]; intros s ps e b Hr Hs; [exists s; constructor|]. destruct s as [[W E] B]. destruct (step_exists W E B ps e b Hr Hs) as (s1 & St).
  assert (Hm : exists m, beyond_guards P m) by (unfold beyond_guards; destruct (pl_guards P) as [[g1 g2] g3]; exists (Z.max g1 (Z.max g2 g3) + 1)%Z; intros a; destruct a; cbn [FieldBC.comp]; lia).
  destruct Hm as (m & Hm). destruct (step_refines W E B s1 ps e b m Hr Hm Hs St) as (ps1 & e1 & b1 & Hs1 & Ws & _).
  assert (Ez : zlen (everyone P ps1) = zlen (everyone P ps)) by (unfold zlen; now rewrite (whole_step_number _ _ _ _ _ _ _ Ws)).
  destruct (IH s1 ps1 e1 b1) as (s2 & R); [now rewrite Ez|exact Hs1|]. exists s2. econstructor; eassumption.
Qed.
Lemma density_same W ps p : placed W ps -> whole_rho (lay P) (axs P) (species_at W ps) p = density_at P (everyone P ps) p.
Proof. intros H. unfold whole_rho, density_at. rewrite (species_charges W ps H). reflexivity. Qed.
Theorem run_gauss_full n s s' ps e b : full_run P n s s' -> room M (zlen (everyone P ps)) -> representing P M s ps e b -> exists ps' e' b', representing P M s' ps' e' b' /\
  (forall p, div (fwd (diffs U)) b' p = div (fwd (diffs U)) b p) /\
  (same_grid (axs P) U -> forall p, div (bwd (diffs U)) e' p - c ^ 2 * u_mu U * density_at P (everyone P ps') p = div (bwd (diffs U)) e p - c ^ 2 * u_mu U * density_at P (everyone P ps) p).
Proof.
  intros R Hr Hs.
  assert (Hm : exists m, beyond_guards P m) by (unfold beyond_guards; destruct (pl_guards P) as [[g1 g2] g3]; exists (Z.max g1 (Z.max g2 g3) + 1)%Z; intros a; destruct a; cbn [FieldBC.comp]; lia).
  destruct Hm as (m & Hm). destruct (run_refines n s s' R m ps e b Hr Hm Hs) as (ps' & e1 & b1 & l & Hs1 & _ & _ & Pr & _).
  pose proof HP as (_ & (HL & Hper & HF & HW & Hn & Hk & Hsh & Hro) & _). destruct s as [[W E] B], s' as [[W' E'] B']. destruct Hs as (Pl & He & Hb & HE & HB). destruct Hs1 as (Pl' & _).
  destruct (ParallelGauss.run_gauss (lay P) (axs P) U (pl_consts P) (pl_optimised P) (pl_blocking P) (pl_threads P) HL Hper HF HW Hn Hk Hsh Hro l _ _ Pr e b (conj (species_placed W ps Pl) (conj He (conj Hb (conj HE HB))))) as (e' & b' & (_ & G1 & G2 & G3 & G4) & Gb & Gg).
  exists ps', e', b'. split; [exact (conj Pl' (conj G1 (conj G2 (conj G3 G4))))|]. split; [exact Gb|]. intros SG p. specialize (Gg SG p). unfold gauss in Gg. cbn [fst as_pic] in Gg. rewrite !density_same in Gg by assumption. exact Gg.
Qed.
End Step.

(** ** two plans for the same problem *)
Lemma vec_eq (u v : R3) : x3 u = x3 v -> y3 u = y3 v -> z3 u = z3 v -> u = v.
Proof. destruct u, v. cbn. intros -> -> ->. reflexivity. Qed.
Lemma moved_unique which c q m dt v a a1 a2 : 0 < c -> moved which c q m dt v a a1 -> moved which c q m dt v a a2 -> a1 = a2.
Proof.
  intros Hc (S1 & G1 & X1 & W1) (S2 & G2 & X2 & W2).
  assert (Eu : momentum3 a1 = momentum3 a2).
  { destruct which; try contradiction; [exact (boris_step_unique _ _ _ _ _ _ _ S1 S2)|]. apply (vay_step_iff _ _ _ _ _ _ _ _ Hc) in S1. apply (vay_step_iff _ _ _ _ _ _ _ _ Hc) in S2. rewrite S1 in S2. apply (f_equal fst) in S2. exact S2. }
  assert (Eg : rgam a1 = rgam a2) by (rewrite G1, G2, Eu; reflexivity). assert (Ex : place3 a1 = place3 a2) by (rewrite X1, X2, Eu, Eg; reflexivity).
  destruct a1, a2. unfold momentum3, place3 in Eu, Ex. cbn in Eu, Ex, Eg, W1, W2. injection Eu as <- <- <-. injection Ex as <- <- <-. rewrite Eg, W1, W2. reflexivity.
Qed.
Lemma forall2_flip {X Y} (R : X -> Y -> Prop) l l' : Forall2 R l l' <-> Forall2 (fun b a => R a b) l' l.
Proof. split; intros F; induction F; constructor; auto. Qed.
Section Two.
Variables P P' : plan.
Hypothesis HP : sound_plan P.
Hypothesis HP' : sound_plan P'.
Hypothesis SP : same_problem P P'.
Lemma two_whole : same_whole (lay P) (lay P').
Proof. intros a. split; [|reflexivity]. rewrite (all_cells_n P HP), (all_cells_n P' HP'). apply SP. Qed.
Lemma two_axes : same_axes (axs P) (axs P').
Proof. destruct SP as (Sa & So & _). intros a. destruct (Sa a) as (A1 & A2 & A3). cbn [axs w_lo w_d w_o]. unfold g_d. rewrite A1, A2, A3, So. auto. Qed.
Lemma two_orders : w_orders (axs P) = w_orders (axs P').
Proof. pose proof two_axes as SA. unfold w_orders; rewrite !(proj2 (proj2 (SA _))); reflexivity. Qed.
Lemma two_cells : w_cells (axs P) = w_cells (axs P').
Proof. pose proof two_axes as SA. unfold w_cells; rewrite !(proj1 (SA _)), !(proj1 (proj2 (SA _))); reflexivity. Qed.
Lemma two_wrapped a : wrapped P a = wrapped P' a.
Proof.
  destruct SP as (Sa & _). destruct (Sa DirX) as (X1 & X2 & _), (Sa DirY) as (Y1 & Y2 & _), (Sa DirZ) as (Z1 & Z2 & _). cbn [pl_axis] in *. unfold wrapped, back_in. rewrite X1, X2, Y1, Y2, Z1, Z2. reflexivity.
Qed.
Lemma two_current m ps ps' : Permutation ps ps' -> current P m ps = current P' m ps'.
Proof.
  intros Pe. pose proof two_whole as SW. destruct SP as (_ & _ & SU & _ & _ & Eq & _).
  assert (Et : u_steps (pl_solver P) = u_steps (pl_solver P')) by apply SU.
  assert (Ef : forall d p, current_at P m ps d p = current_at P' m ps' d p).
  { intros d p. unfold current_at. rewrite two_orders, two_cells, Et, Eq.
    assert (Ea : around (lay P) m = around (lay P') m) by (unfold around; rewrite !(proj1 (SW _)); reflexivity).
    assert (Es : filter (stands_for (lay P) ((0, 0, 0)%Z, p)) (around (lay P) m) = filter (stands_for (lay P') ((0, 0, 0)%Z, p)) (around (lay P') m)).
    { rewrite Ea. apply filter_ext. intros Q. unfold stands_for, on_axes. cbn zeta. rewrite !(proj1 (SW _)). reflexivity. }
    rewrite Es. apply sumR_ext. intros Q _. unfold current_of. apply sumR_perm. now apply Permutation_map, Permutation_map. }
  unfold current. f_equal; apply functional_extensionality; intros p; apply Ef.
Qed.
Lemma two_moved e b a a1 : moved (pl_pusher P) (u_c (pl_solver P)) (pl_q P) (pl_m P) (rdt (u_steps (pl_solver P))) (fields_seen (gathering P) (w_cells (axs P)) e b a) a a1 ->
  moved (pl_pusher P') (u_c (pl_solver P')) (pl_q P') (pl_m P') (rdt (u_steps (pl_solver P'))) (fields_seen (gathering P') (w_cells (axs P')) e b a) a a1.
Proof.
  pose proof two_orders as Eo. pose proof two_cells as Ec. destruct SP as (_ & _ & (_ & En & Et & Ecc & _) & El & Ep & Eq & Em). unfold gathering. rewrite Eo, Ec, En, Et, Ecc, El, Ep, Eq, Em. auto.
Qed.
Lemma two_steps m ps ps' e b ps1 e1 b1 ps1' e1' b1' : Permutation ps ps' -> whole_pic_step P m (ps, e, b) (ps1, e1, b1) -> whole_pic_step P' m (ps', e, b) (ps1', e1', b1') ->
  Permutation ps1 ps1' /\ e1 = e1' /\ b1 = b1'.
Proof.
  intros Pe (l & F & Pl & Eb) (l' & F' & Pl' & Eb').
  assert (Pp : Permutation ps1 ps1').
  { apply forall2_flip in F. destruct (forall2_perm _ _ _ _ F Pe) as (l2 & Pl2 & F2). apply (forall2_flip (fun a a' => exists a1, moved _ _ _ _ _ (fields_seen _ _ e b a) a a1 /\ a' = _ a1)) in F2.
    assert (E : l2 = l').
    { clear - F2 F' SP HP HP'. revert l' F'. induction F2 as [|a a1 k k1 (v & V & ->) F2 IH]; intros l' F'; inversion F' as [|a' v' k' k1' (w & W' & ->) F3]; subst; [reflexivity|]. f_equal; [|now apply IH].
      rewrite two_wrapped. f_equal. apply two_moved in V. destruct (light_step P' HP') as (Hc & _). exact (moved_unique _ _ _ _ _ _ _ _ _ Hc V W'). }
    subst l2. rewrite <- Pl, <- Pl'. exact Pl2. }
  split; [exact Pp|]. rewrite (two_current m ps1 ps1' Pp) in Eb. pose proof (same_run _ _ [current P' m ps1'] (e, b) (proj1 (proj2 (proj2 SP)))) as Es. unfold whole_run in Es. cbn [fold_left] in Es. rewrite Es, <- Eb' in Eb. injection Eb as -> ->. auto.
Qed.
Lemma two_runs m n : forall s s1, whole_pic_run P m n s s1 -> forall s' s1', whole_pic_run P' m n s' s1' -> Permutation (fst (fst s)) (fst (fst s')) -> snd (fst s) = snd (fst s') -> snd s = snd s' ->
  Permutation (fst (fst s1)) (fst (fst s1')) /\ snd (fst s1) = snd (fst s1') /\ snd s1 = snd s1'.
Proof.
  induction n as [|n IH]; intros s s1 R s' s1' R' Pe Ee Eb; inversion R as [|? ? s2 ? St R1]; subst; inversion R' as [|? ? s2' ? St' R1']; subst; [auto|].
  destruct s as [[ps e] b], s' as [[ps' e'] b'], s2 as [[p2 e2] b2], s2' as [[p2' e2'] b2']. cbn [fst snd] in Pe, Ee, Eb. subst e' b'.
  destruct (two_steps m ps ps' e b p2 e2 b2 p2' e2' b2' Pe St St') as (Q1 & Q2 & Q3). exact (IH _ _ R1 _ _ R1' Q1 Q2 Q3).
Qed.
Theorem two_plans M M' n s s' s1 s1' ps ps' e b : room M (zlen (everyone P ps)) -> room M' (zlen (everyone P' ps')) -> representing P M s ps e b -> representing P' M' s' ps' e b ->
  Permutation (everyone P ps) (everyone P' ps') -> full_run P n s s1 -> full_run P' n s' s1' ->
  exists ps1 ps1' e1 b1, representing P M s1 ps1 e1 b1 /\ representing P' M' s1' ps1' e1 b1 /\ Permutation (everyone P ps1) (everyone P' ps1').
Proof.
  intros Hr Hr' Hs Hs' Pe R R'.
  assert (Hm : exists m, beyond_guards P m /\ beyond_guards P' m).
  { unfold beyond_guards. destruct (pl_guards P) as [[g1 g2] g3], (pl_guards P') as [[h1 h2] h3]. exists (Z.max (Z.max g1 (Z.max g2 g3)) (Z.max h1 (Z.max h2 h3)) + 1)%Z. split; intros a; destruct a; cbn [FieldBC.comp]; lia. }
  destruct Hm as (m & Hm & Hm').
  destruct (run_refines P M HP n s s1 R m ps e b Hr Hm Hs) as (p1 & e1 & b1 & l & H1 & W1 & _). destruct (run_refines P' M' HP' n s' s1' R' m ps' e b Hr' Hm' Hs') as (p1' & e1' & b1' & l' & H1' & W1' & _).
  destruct (two_runs m n _ _ W1 _ _ W1' Pe eq_refl eq_refl) as (Q1 & Q2 & Q3). cbn [fst snd] in Q1, Q2, Q3. subst e1' b1'. exists p1, p1', e1, b1. auto.
Qed.
Theorem two_arrays M M' W1 E1 B1 W1' E1' B1' ps1 ps1' e1 b1 : representing P M (W1, E1, B1) ps1 e1 b1 -> representing P' M' (W1', E1', B1') ps1' e1 b1 ->
  forall d u u', In u (nodes (lay P)) -> In u' (nodes (lay P')) -> stands_for (lay P) u (point_of (lay P') u') = true ->
    gat (array d (E1 (fst u))) (snd u) = gat (array d (E1' (fst u'))) (snd u') /\ gat (array d (B1 (fst u))) (snd u) = gat (array d (B1' (fst u'))) (snd u').
Proof.
  intros (_ & He & Hb & CE & CB) (_ & _ & _ & CE' & CB') d u u' Hu Hu' St. pose proof HP as (_ & (HL & Hper & _) & _).
  assert (Mm : forall f, repeats (lay P) f -> f (point_of (lay P) u) = f (point_of (lay P') u')) by (intros f Hf; apply (repeats_mod (lay P) HL f _ _ Hf); intros a; apply (stands_mod (lay P) (lay P') u u' a HL Hper two_whole St)).
  split.
  - refine (eq_trans (proj2 (CE d) u Hu) _). refine (eq_trans _ (eq_sym (proj2 (CE' d) u' Hu'))). f_equal. apply Mm, He.
  - refine (eq_trans (proj2 (CB d) u Hu) _). refine (eq_trans _ (eq_sym (proj2 (CB' d) u' Hu'))). f_equal. apply Mm, Hb.
Qed.
End Two.
