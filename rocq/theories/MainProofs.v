(** Proofs about the time loop of the test program (C56, C60, C61). *)
From Coq Require Import ZArith List Bool Lia Permutation.
From Verif Require Import Cxx Num CxxLemmas LookupTables VecFun Units Oracles BreitWheeler TestProgram SpecSpecies TestMain SpeciesProofs SpeciesHistory SpecMain.
Import ListNotations.
Local Open Scope Z_scope.

Section Main.
Context {N : NumOps} (U : Units N) (Orc : Oracles N) (G : Rng N).
Notation st := (state_of U Orc G).

Lemma mapM_Forall2' {A B} (f : A -> out B) l r : mapM f l = Ret r -> Forall2 (fun a b => f a = Ret b) l r.
Proof. apply mapM_Forall2. Qed.

Lemma to_int32_nat n : Z.of_nat n < 2 ^ 31 -> Z.to_nat (to_int32 (Z.of_nat n)) = n.
Proof. intros H. rewrite to_int32_small by lia. apply Nat2Z.id. Qed.

(** ** BW_opticaldepth *)
Definition depth_step (eng : bw_engine G) (dt : num N) (p : part N) : out (part N) :=
  do '(ev, dtp, o) <- bw_evolve U Orc G eng (q_p p) (q_e p) (q_b p) dt (q_opt p);
  Ret (mkP (if ev : bool then move p0_phot dtp (q_x p) (q_p p) else q_x p) (q_p p) (q_e p) (q_b p) o ev).

Lemma optical_body_ok eng dt ps k p : nth_error ps k = Some p ->
  bw_optical_body U Orc G eng dt (Z.of_nat k) (data_of ps) = do q <- depth_step eng dt p; Ret (data_of (lset ps k q)).
Proof.
  intros H. unfold bw_optical_body. cbn [data_of d_pos d_mom d_fld d_opt d_flag].
  rewrite (get_rows0' q_p _ _ _ _ H eq_refl), (get_rows0 _ _ _ _ _ _ H eq_refl), (get_rows3 _ _ _ _ _ _ H eq_refl), (zget_map q_opt _ _ _ _ H eq_refl).
  cbn [bind]. unfold depth_step. destruct (bw_evolve _ _ _ _ _ _ _ _ _) as [[[ev dtp] o]| | |]; cbn [bind]; auto.
  set (q := mkP (if ev then move p0_phot dtp (q_x p) (q_p p) else q_x p) (q_p p) (q_e p) (q_b p) o ev).
  change o with (q_opt q) at 1. rewrite (zset_map q_opt _ _ _ _ q H eq_refl). cbn [bind].
  change ev with (q_flag q) at 1. rewrite (zset_map q_flag _ _ _ _ q H eq_refl). cbn [bind].
  unfold data_of.
  rewrite (rows3_lset_same q_p _ _ _ q H eq_refl), (rows3_lset_same q_e _ _ _ q H eq_refl), (rows3_lset_same q_b _ _ _ q H eq_refl).
  destruct ev.
  - rewrite (get_rows0' q_x _ _ _ _ H eq_refl). cbn [bind]. change (move p0_phot dtp (q_x p) (q_p p)) with (q_x q).
    rewrite (set_rows0' q_x _ _ _ _ q H eq_refl). reflexivity.
  - rewrite (rows3_lset_same q_x _ _ _ q H eq_refl). reflexivity.
Qed.

Lemma opticaldepth_ok (w : world G) ps mass charge dt :
  BW_opticaldepth U Orc G w (d_pos (data_of ps)) (d_mom (data_of ps)) (d_fld (data_of ps)) (d_opt (data_of ps)) (d_flag (data_of ps)) mass charge dt
  = of_out (mapM (depth_step (w_eng w) dt) ps) (fun ps' => let d := data_of ps' in (w, (d_pos d, d_mom d, d_opt d, d_flag d)))
           (let d := data_of ps in (w, (d_pos d, d_mom d, d_opt d, d_flag d))).
Proof.
  unfold BW_opticaldepth. cbn zeta.
  change (mkD (d_pos (data_of ps)) (d_mom (data_of ps)) (d_fld (data_of ps)) (d_opt (data_of ps)) (d_flag (data_of ps))) with (data_of ps).
  rewrite size_data_of. cbn [bind]. rewrite Nat2Z.id.
  rewrite (loop_all _ (depth_step (w_eng w) dt)) by (intros; now apply optical_body_ok).
  destruct (mapM _ ps); reflexivity.
Qed.

Lemma mapM_length {A B} (f : A -> out B) l r : mapM f l = Ret r -> length r = length l.
Proof. intros H. apply mapM_Forall2 in H. induction H; cbn; congruence. Qed.

(** the optical depth does not change the fields *)
Lemma depth_fields eng dt ps ps' : mapM (depth_step eng dt) ps = Ret ps' -> rows3 q_e ps' ++ rows3 q_b ps' = rows3 q_e ps ++ rows3 q_b ps.
Proof.
  intros H. apply mapM_Forall2 in H. assert (HH : map q_e ps' = map q_e ps /\ map q_b ps' = map q_b ps).
  { induction H as [|p q ps ps' Hp _ [IH1 IH2]]; [split; reflexivity|]. unfold depth_step in Hp.
    destruct (bw_evolve _ _ _ _ _ _ _ _ _) as [[[ev dtp] o]| | |]; try discriminate. cbn [bind] in Hp. injection Hp as <-.
    cbn [map q_e q_b]. now rewrite IH1, IH2. }
  destruct HH as [H1 H2].
  assert (HV : forall f (g : part N -> vec3 N), map g ps' = map g ps -> map (fun p => f (g p)) ps' = map (fun p => f (g p)) ps :> list (num N)).
  { intros f g Hg. rewrite <- (map_map g f), <- (map_map g f ps). now rewrite Hg. }
  unfold rows3. rewrite !(HV vx q_e H1), !(HV vy q_e H1), !(HV vz q_e H1), !(HV vx q_b H2), !(HV vy q_b H2), !(HV vz q_b H2). reflexivity.
Qed.

(** ** BW_pair_prod *)
Lemma add_new {W} (s : species N W) els x m : s_data s = data_of els -> add_particle x m s = Done (with_data s (data_of (els ++ [newborn x m]))).
Proof. intros H. unfold add_particle, on_data. rewrite H, add_particle_ok. reflexivity. Qed.

Lemma with_data_twice {W} (s : species N W) d d' : with_data (with_data s d) d' = with_data s d'.
Proof. reflexivity. Qed.

Lemma generate_one eng p e b w r : bw_generate U G eng p e b w 1 = Ret r -> exists x y eng', r = ([x], [y], eng').
Proof.
  intros H. unfold bw_generate in H. change (Z.to_nat 1) with 1%nat in H.
  destruct (draw_unf G 1 (be_rng eng)) as [us rr] eqn:E. cbn [draw_unf] in E. destruct (rng_unf G (be_rng eng) _ _) as [u r1].
  injection E as <- <-. destruct (bw_internal_generate _ _ _ _ _ _ _ _ _ _) as [prs| | |] eqn:EP; try discriminate. cbn [bind] in H.
  injection H as <-. unfold bw_internal_generate in EP.
  apply mapM_length in EP || (destruct (mapM _ _) eqn:EM; try discriminate).
  destruct prs as [|[x y] [|]]; try discriminate EP. exists x, y. eauto.
Qed.

Lemma visit_pairs (s : species N (world G)) dt : forall qs (w w' : world G) bs els pos E P,
  w_ele w = with_data E (data_of els) -> w_pos w = with_data P (data_of pos) ->
  visit (on_part (BW_pair_prod U G) s dt) w qs = Done (w', bs) ->
  bs = map q_flag qs /\ exists ne np eng', born U G (w_eng w) (filter q_flag qs) ne np eng' /\
    w' = mkW eng' (with_data E (data_of (els ++ ne))) (with_data P (data_of (pos ++ np))).
Proof.
  induction qs as [|q qs IH]; intros w w' bs els pos E P HE HP H; cbn [visit] in H.
  - injection H as <- <-. split; [reflexivity|]. exists [], [], (w_eng w). split; [constructor|]. rewrite !app_nil_r. destruct w. cbn in *. now subst.
  - cbn [map filter]. unfold on_part at 1 in H. unfold BW_pair_prod in H at 1. destruct (q_flag q) eqn:Ef; cbn [negb fst snd] in H.
    + destruct (bw_generate U G (w_eng w) (q_p q) (q_e q) (q_b q) n_one 1) as [r| | |] eqn:EG; try discriminate.
      destruct (generate_one _ _ _ _ _ _ EG) as ([pe we] & [pp wp] & eng1 & ->).
      change (zget [(pe, we)] 0) with (@Ret (particle N) (pe, we)) in H. change (zget [(pp, wp)] 0) with (@Ret (particle N) (pp, wp)) in H.
      cbn iota beta in H.
      rewrite (add_new (w_ele w) els) in H by (rewrite HE; reflexivity). cbn [rbind] in H.
      rewrite (add_new (w_pos w) pos) in H by (rewrite HP; reflexivity). cbn [rbind] in H.
      destruct (visit (on_part (BW_pair_prod U G) s dt) _ qs) as [[w2 bs2]|[w2 bs2]|] eqn:EV; cbn [rbind] in H; try discriminate. injection H as <- <-.
      rewrite HE, HP in EV. rewrite !with_data_twice in EV.
      destruct (fun A B => IH _ _ _ (els ++ [newborn (q_x q) pe]) (pos ++ [newborn (q_x q) pp]) E P A B EV) as (-> & ne & np & eng' & HB & ->); [reflexivity|reflexivity|].
      split; [reflexivity|]. exists (newborn (q_x q) pe :: ne), (newborn (q_x q) pp :: np), eng'. split; [econstructor; eauto|].
      now rewrite <- !app_assoc.
    + cbn [rbind] in H. destruct (visit (on_part (BW_pair_prod U G) s dt) w qs) as [[w2 bs2]|[w2 bs2]|] eqn:EV; cbn [rbind] in H; try discriminate.
      injection H as <- <-. destruct (IH _ _ _ els pos E P HE HP EV) as (-> & R). split; auto.
Qed.

Lemma spared_filter (qs : list (part N)) : spared (map q_flag qs) qs = filter (fun q => negb (q_flag q)) qs.
Proof.
  unfold spared. induction qs as [|q qs IH]; [reflexivity|]. cbn [pick map nth filter]. rewrite <- IH. now destruct (q_flag q).
Qed.

(** ** one step *)
Lemma on_all_st f1 (f2 : species N unit -> res (species N unit)) eng ph el po ph' el' po' (x : state G) :
  f1 (snd (st eng ph el po)) = Done (with_data (snd (st eng ph el po)) (data_of ph')) ->
  f2 (with_data electrons_new (data_of el)) = Done (with_data (with_data electrons_new (data_of el)) (data_of el')) ->
  f2 (with_data positrons_new (data_of po)) = Done (with_data (with_data positrons_new (data_of po)) (data_of po')) ->
  on_all G f1 f2 (st eng ph el po) = Ret x -> x = st eng ph' el' po'.
Proof. intros H1 H2 H3 H. unfold on_all, st in H. cbn [w_ele w_pos w_eng] in H. cbn [snd st] in H1. rewrite H1, H2, H3 in H. injection H as <-. reflexivity. Qed.

Lemma fields_done {W} em tt (s : species N W) ps : s_data s = data_of ps -> Z.of_nat (length ps) < 2 ^ 31 ->
  calc_fields em tt s = Done (with_data s (data_of (map (fun p => set_eb p (em (q_x p) tt)) ps))).
Proof. intros H L. unfold calc_fields, on_data. rewrite H, calc_fields_map by auto. reflexivity. Qed.
Lemma positions_done {W} dt (s : species N W) ps : s_data s = data_of ps -> Z.of_nat (length ps) < 2 ^ 31 ->
  push_positions dt s = Done (with_data s (data_of (map (fun p => set_x p (move (match s_kind s with Photons => p0_phot | Leptons => p0_lep end) dt (q_x p) (q_p p))) ps))).
Proof. intros H L. unfold push_positions, on_data. rewrite H, push_positions_map by auto. reflexivity. Qed.
Lemma momenta_done {W} dt (s : species N W) ps : s_data s = data_of ps -> s_kind s = Leptons -> s_pusher s = None -> Z.of_nat (length ps) < 2 ^ 31 ->
  push_momenta dt s = Done (with_data s (data_of (map (fun p => set_p p (boris (n_lit 5 (-1) * s_charge s * dt / s_mass s)%N (q_p p) (q_e p) (q_b p))) ps))).
Proof. intros H K P L. unfold push_momenta, on_data. rewrite K, P, H, boris_map by auto. reflexivity. Qed.

Lemma all_processes_spec dt eng ph el po x : all_processes G dt (st eng ph el po) = Ret x ->
  exists qs, mapM (depth_step eng dt) ph = Ret qs /\ x = st eng qs el po.
Proof.
  intros H. unfold all_processes in H. unfold do_all_simple_processes in H.
  unfold state_of in H. cbn [snd s_simple call_all] in H. unfold call_simple at 1 in H. cbn [s_data s_mass s_charge] in H.
  rewrite opticaldepth_ok in H. cbn [w_eng] in H. destruct (mapM (depth_step eng dt) ph) as [qs| | |] eqn:EQ; cbn [of_out rbind] in H; try discriminate.
  exists qs. split; [reflexivity|].
  assert (EF : mkD (d_pos (data_of qs)) (d_mom (data_of qs)) (d_fld (data_of ph)) (d_opt (data_of qs)) (d_flag (data_of qs)) = data_of qs).
  { unfold data_of. cbn [d_pos d_mom d_fld d_opt d_flag]. now rewrite (depth_fields _ _ _ _ EQ). }
  cbn zeta in H. rewrite EF in H. unfold call_simple, BW_howmanyphotons in H. cbn [s_data with_data] in H. cbn [rbind] in H.
  change (mkD (d_pos (data_of qs)) (d_mom (data_of qs)) (d_fld (data_of qs)) (d_opt (data_of qs)) (d_flag (data_of qs))) with (data_of qs) in H.
  cbn in H. injection H as <-. reflexivity.
Qed.

Lemma pair_process_spec dt eng qs el po x : Z.of_nat (length qs) < 2 ^ 64 ->
  do_process_with_destruction 42 dt (st eng qs el po) = Done x ->
  exists ph' ne np eng', Permutation ph' (filter (fun q => negb (q_flag q)) qs) /\
    born U G eng (filter q_flag qs) ne np eng' /\ x = st eng' ph' (el ++ ne) (po ++ np).
Proof.
  intros L H. unfold state_of in H.
  match type of H with do_process_with_destruction _ _ (?w, ?s) = _ => set (W := w) in H; set (S := s) in H end.
  pose proof (destruction_spec 42 dt (BW_pair_prod U G) S qs W eq_refl eq_refl L) as D.
  destruct (visit (on_part (BW_pair_prod U G) S dt) W qs) as [[w' bs]|[w' bs]|] eqn:EV.
  - destruct D as (ph' & D1 & D2 & _). rewrite D1 in H. injection H as <-.
    destruct (visit_pairs S dt qs W w' bs el po electrons_new positrons_new eq_refl eq_refl EV) as (-> & ne & np & eng' & HB & ->).
    exists ph', ne, np, eng'. rewrite spared_filter in D2. split; [exact D2|]. split; [exact HB|]. reflexivity.
  - rewrite D in H. discriminate.
  - rewrite D in H. discriminate.
Qed.

Lemma main_step_spec em dt t eng ph el po x :
  Z.of_nat (length ph) < 2 ^ 31 -> Z.of_nat (length el) < 2 ^ 31 -> Z.of_nat (length po) < 2 ^ 31 ->
  main_step G em dt t (st eng ph el po) = Ret x ->
  exists qs ph' ne np eng', Forall2 (photon_step U Orc G eng em dt t) ph qs /\
    Permutation ph' (filter (fun q => negb (q_flag q)) qs) /\
    born U G eng (filter q_flag qs) ne np eng' /\
    x = st eng' ph' (map (lepton_step em dt t (- n_one)%N) el ++ ne) (map (lepton_step em dt t n_one) po ++ np).
Proof.
  intros L1 L2 L3 H. unfold main_step in H.
  destruct (on_all G (calc_fields em t) (calc_fields em t) (st eng ph el po)) as [x1| | |] eqn:E1; try discriminate. cbn [bind] in H.
  eapply on_all_st in E1; [|apply fields_done; [reflexivity|auto]..].
  subst x1.
  match type of H with context [st eng ?a ?b ?c] => set (ph1 := a) in H; set (el1 := b) in H; set (po1 := c) in H end.
  destruct (on_all G (push_momenta dt) (push_momenta dt) (st eng ph1 el1 po1)) as [x2| | |] eqn:E2; try discriminate. cbn [bind] in H.
  eapply (on_all_st _ _ eng ph1 el1 po1 ph1) in E2;
    [|reflexivity|apply momenta_done; [reflexivity|reflexivity|reflexivity|unfold el1; now rewrite map_length]
     |apply momenta_done; [reflexivity|reflexivity|reflexivity|unfold po1; now rewrite map_length]].
  subst x2. cbn [s_charge s_mass with_data electrons_new positrons_new] in H.
  match type of H with context [st eng ph1 ?b ?c] => set (el2 := b) in H; set (po2 := c) in H end.
  destruct (on_all G (push_positions dt) (push_positions dt) (st eng ph1 el2 po2)) as [x3| | |] eqn:E3; try discriminate. cbn [bind] in H.
  eapply on_all_st in E3;
    [|apply positions_done; [reflexivity|unfold ph1; now rewrite map_length]
     |apply positions_done; [reflexivity|unfold el2, el1; now rewrite !map_length]
     |apply positions_done; [reflexivity|unfold po2, po1; now rewrite !map_length]].
  subst x3. cbn [s_kind with_data electrons_new positrons_new snd st state_of] in H.
  match type of H with context [st eng (map ?f ph1) (map ?g el2) (map ?h po2)] =>
    set (ph3 := map f ph1) in H; set (el3 := map g el2) in H; set (po3 := map h po2) in H end.
  assert (HE : el3 = map (lepton_step em dt t (- n_one)%N) el).
  { unfold el3, el2, el1. rewrite !map_map. apply map_ext. intros p. unfold lepton_step, set_x, set_p, set_eb. cbn. now destruct (em (q_x p) t). }
  assert (HP : po3 = map (lepton_step em dt t n_one) po).
  { unfold po3, po2, po1. rewrite !map_map. apply map_ext. intros p. unfold lepton_step, set_x, set_p, set_eb. cbn. now destruct (em (q_x p) t). }
  destruct (all_processes G dt (st eng ph3 el3 po3)) as [x4| | |] eqn:E4; try discriminate. cbn [bind] in H.
  destruct (all_processes_spec _ _ _ _ _ _ E4) as (qs & HQ & ->).
  assert (Lq : length qs = length ph). { apply mapM_length in HQ. rewrite HQ. unfold ph3, ph1. now rewrite !map_length. }
  destruct (pair_process_spec dt eng qs el3 po3 x ltac:(lia)) as (ph' & ne & np & eng' & P1 & P2 & P3).
  { destruct (do_process_with_destruction 42 dt (st eng qs el3 po3)); congruence. }
  exists qs, ph', ne, np, eng'. split.
  - apply mapM_Forall2 in HQ. unfold ph3, ph1 in HQ. rewrite map_map in HQ. clear -HQ.
    remember (map _ ph) as l eqn:El. revert ph El. induction HQ as [|a b l l' Hab HQ IH]; intros [|p ph] El; try discriminate; constructor.
    + injection El as Ha _. subst a. unfold photon_step. destruct (em (q_x p) t) as [e b'] eqn:Eem. unfold depth_step in Hab.
      cbn [set_x set_eb q_x q_p q_e q_b q_opt q_flag fst snd] in Hab. 
      destruct (bw_evolve U Orc G eng (q_p p) e b' dt (q_opt p)) as [[[ev dtp] o]| | |]; try discriminate. cbn [bind] in Hab. injection Hab as <-.
      exists ev, dtp, o. split; reflexivity.
    + apply IH. now injection El.
  - split; [exact P1|]. split; [exact P2|]. now rewrite P3, HE, HP.
Qed.

(** ** numbers of particles *)
Lemma born_length eng qs ne np eng' : born U G eng qs ne np eng' -> length ne = length qs /\ length np = length qs.
Proof. induction 1; cbn; [auto|]. lia. Qed.
Lemma Forall2_len {A B} (R : A -> B -> Prop) l l' : Forall2 R l l' -> length l = length l'.
Proof. induction 1; cbn; congruence. Qed.
Lemma filter_split {A} (f : A -> bool) l : (length (filter (fun a => negb (f a)) l) + length (filter f l) = length l)%nat.
Proof. induction l as [|a l IH]; cbn; auto. destruct (f a); cbn; lia. Qed.

Lemma main_step_counts em dt t eng ph el po x : length el = length po -> Z.of_nat (length ph + length el) < 2 ^ 31 ->
  main_step G em dt t (st eng ph el po) = Ret x ->
  exists eng' ph' el' po', x = st eng' ph' el' po' /\ length el' = length po' /\ (length ph' + length el' = length ph + length el)%nat.
Proof.
  intros E L H. apply main_step_spec in H as (qs & ph' & ne & np & eng' & HQ & HP & HB & ->); try lia.
  do 4 eexists. split; [reflexivity|]. rewrite !app_length, !map_length. destruct (born_length _ _ _ _ _ HB) as [B1 B2].
  apply Permutation_length in HP. apply Forall2_len in HQ. pose proof (filter_split (@q_flag N) qs). lia.
Qed.
Lemma main_loop_counts em dt n : forall i eng ph el po x, length el = length po -> Z.of_nat (length ph + length el) < 2 ^ 31 ->
  main_loop G em dt n i (st eng ph el po) = Ret x ->
  exists eng' ph' el' po', x = st eng' ph' el' po' /\ length el' = length po' /\ (length ph' + length el' = length ph + length el)%nat.
Proof.
  induction n as [|n IH]; intros i eng ph el po x E L H; cbn [main_loop] in H.
  - injection H as <-. do 4 eexists. split; [reflexivity|]. auto.
  - destruct (main_step G em dt (n_of_Z i * dt)%N (st eng ph el po)) as [x1| | |] eqn:E1; try discriminate. cbn [bind] in H.
    destruct (main_step_counts _ _ _ _ _ _ _ _ E L E1) as (eng' & ph' & el' & po' & -> & E' & L').
    assert (L2 : Z.of_nat (length ph' + length el') < 2 ^ 31) by lia.
    destruct (IH _ _ _ _ _ _ E' L2 H) as (eng2 & ph2 & el2 & po2 & -> & E2 & L3). do 4 eexists. split; [reflexivity|]. lia.
Qed.

(** ** before the loop *)
Lemma init_photons_spec n : forall r (s : species N (world G)) ps, s_data s = data_of ps ->
  exists qs, length qs = n /\ init_photons G n r s = Ret (with_data s (data_of (ps ++ qs))).
Proof.
  induction n as [|n IH]; intros r s ps H; cbn [init_photons].
  - exists []. split; auto. rewrite app_nil_r, <- H. now destruct s.
  - destruct (rng_unf G r _ _) as [x r1]. destruct (rng_unf G r1 _ _) as [y r2]. destruct (rng_unf G r2 _ _) as [z r3].
    rewrite (add_new s ps) by exact H.
    destruct (IH r3 (with_data s (data_of (ps ++ [newborn (V3 n_zero n_zero n_zero) (V3 x y z)]))) (ps ++ [newborn (V3 n_zero n_zero n_zero) (V3 x y z)]) eq_refl) as (qs & L & ->).
    eexists (_ :: qs). split; [cbn; now rewrite L|]. rewrite <- app_assoc. reflexivity.
Qed.
Lemma draw_depths_length n : forall eng, length (fst (draw_depths G n eng)) = n.
Proof.
  induction n as [|n IH]; intros eng; cbn [draw_depths]; auto. destruct (bw_get_optical_depth G eng) as [v e1].
  specialize (IH e1). destruct (draw_depths G n e1). cbn in *. congruence.
Qed.
(** optical depths in place of the old ones *)
Lemma set_depths ps : forall os, length os = length ps -> exists qs, length qs = length ps /\
  mkD (d_pos (data_of ps)) (d_mom (data_of ps)) (d_fld (data_of ps)) os (d_flag (data_of ps)) = data_of (N := N) qs /\ map q_opt qs = os.
Proof.
  induction ps as [|p ps IH]; intros [|o os] L; try discriminate.
  - exists []. auto.
  - injection L as L. destruct (IH os L) as (qs & Lq & Hq & Ho). exists (mkP (q_x p) (q_p p) (q_e p) (q_b p) o (q_flag p) :: qs).
    split; [cbn; congruence|]. split; [|cbn; congruence].
    unfold data_of, rows3 in *. cbn [d_pos d_mom d_fld d_opt d_flag map app] in *. injection Hq as -> -> -> -> -> -> -> -> -> -> -> -> -> ->. reflexivity.
Qed.

Lemma setup_spec eng n seed x : setup U Orc G eng n seed = Ret x ->
  exists ph, length ph = n /\ x = st (bw_of_innards G (bw_export_innards G eng)) ph [] [] /\ map q_opt ph = fst (draw_depths G n eng).
Proof.
  intros H. unfold setup in H.
  destruct (init_photons_spec n (rng_seed G seed) photons_new [] eq_refl) as (qs & L & E). rewrite E in H. cbn [bind app] in H.
  cbn [s_data with_data] in H. assert (LO : length (d_opt (data_of qs)) = n) by (cbn; rewrite map_length; exact L). rewrite LO in H.
  pose proof (draw_depths_length n eng) as LD. destruct (draw_depths G n eng) as [os eng2]. cbn [fst] in *.
  destruct (set_depths qs os ltac:(congruence)) as (ps & Lp & Ep & Eo). rewrite Ep in H.
  cbn in H. injection H as <-. exists ps. split; [congruence|]. split; [reflexivity|exact Eo].
Qed.

Lemma num_particles {W} (s : species N W) ps : s_data s = data_of ps -> Z.of_nat (length ps) < 2 ^ 31 -> get_num_particles s = Ret (Z.of_nat (length ps)).
Proof. intros H L. unfold get_num_particles. rewrite H, size_data_of. cbn [bind]. now rewrite to_int32_small by lia. Qed.

Lemma test_BW_counts eng n seed dt steps w ph : Z.of_nat n < 2 ^ 31 -> test_BW U Orc G eng n seed dt steps = Ret (w, ph) ->
  exists a b, get_num_particles ph = Ret a /\ get_num_particles (w_ele w) = Ret b /\ get_num_particles (w_pos w) = Ret b /\ a + b = Z.of_nat n.
Proof.
  intros L H. unfold test_BW in H. destruct (setup U Orc G eng n seed) as [x| | |] eqn:E; try discriminate. cbn [bind] in H.
  destruct (setup_spec _ _ _ _ E) as (ph0 & L0 & -> & _).
  assert (L1 : Z.of_nat (length ph0 + length (@nil (part N))) < 2 ^ 31) by (cbn; lia).
  destruct (main_loop_counts _ _ _ _ _ _ [] [] _ eq_refl L1 H) as (eng' & ph' & el & po & Hx & HE & HL).
  unfold state_of in Hx. injection Hx as -> ->. exists (Z.of_nat (length ph')), (Z.of_nat (length el)). cbn in HL.
  split; [apply num_particles; [reflexivity|lia]|]. split; [apply num_particles; [reflexivity|lia]|].
  split; [rewrite HE; apply num_particles; [reflexivity|lia]|]. lia.
Qed.

(** ** the generators: the k-th depth is drawn from the k-th state of the generator
    with which the clone starts *)
Lemma draw_depths_states n : forall eng k, (k < n)%nat ->
  nth_error (fst (draw_depths G n eng)) k = Some (fst (rng_exp G (Nat.iter k (fun s => snd (rng_exp G s n_one)) (be_rng eng)) n_one)).
Proof.
  induction n as [|n IH]; intros eng k Hk; [lia|]. cbn [draw_depths]. unfold bw_get_optical_depth.
  destruct (rng_exp G (be_rng eng) n_one) as [v r] eqn:E. specialize (IH (mk_bw (be_lambda eng) r (be_ctrl eng) (be_TT eng) (be_cum eng))).
  destruct (draw_depths G n _) as [vs e2]. cbn [fst] in *. destruct k as [|k]; cbn [nth_error].
  - cbn. now rewrite E.
  - rewrite IH by lia. cbn [be_rng]. f_equal. f_equal. f_equal. clear -E.
    induction k as [|k IH]; cbn [Nat.iter nat_rect]; [now rewrite E|]. f_equal. f_equal. exact IH.
Qed.
End Main.
