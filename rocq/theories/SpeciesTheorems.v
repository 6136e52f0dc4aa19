(** Proofs of the statements of PropSpecies.v from the lemmas. *)
From Coq Require Import ZArith Reals List Bool Sorted Permutation Lia Lra.
From Verif Require Import Cxx Num NumRX LookupTables VecFun SpecPhys ChiProofs Units Oracles BreitWheeler TestProgram TestMain.
From Verif Require Import SpecSpecies SpeciesProofs SpeciesHistory SwapProofs SpecMotion MotionProofs SpecMain MainProofs.
Import ListNotations.
Local Open Scope Z_scope.

Section S.
Context {N : NumOps} {W : Type}.
Lemma op_add (s : species N W) ps x m : s_data s = data_of ps ->
  add_particle x m s = Done (with_data s (data_of (ps ++ [mkP x m (V3 n_zero n_zero n_zero) (V3 n_zero n_zero n_zero) n_zero false]))).
Proof. intros H. unfold add_particle, on_data. rewrite H, add_particle_ok. reflexivity. Qed.
Lemma op_remove (s : species N W) ps i : s_data s = data_of ps ->
  remove_particle i s =
  if (0 <=? i) && (i <? Z.of_nat (length ps)) then Done (with_data s (data_of (firstn (Z.to_nat i) ps ++ skipn (S (Z.to_nat i)) ps))) else Undef.
Proof.
  intros H. unfold remove_particle, on_data. rewrite H. destruct ((0 <=? i) && (i <? Z.of_nat (length ps))) eqn:E.
  - apply andb_true_iff in E as [E1 E2]. apply Z.leb_le in E1. apply Z.ltb_lt in E2.
    pose proof (remove_particle_ok ps (Z.to_nat i)) as R. rewrite Z2Nat.id in R by lia. rewrite R by lia. reflexivity.
  - rewrite remove_particle_ub; [reflexivity|]. intros [A B]. apply Z.leb_le in A. apply Z.ltb_lt in B. rewrite A, B in E. discriminate.
Qed.
Lemma op_toend (s : species N W) ps i : s_data s = data_of ps ->
  remove_particles_from_toend i s =
  if (0 <=? i) && (i <=? Z.of_nat (length ps)) then Done (with_data s (data_of (firstn (Z.to_nat i) ps))) else Undef.
Proof.
  intros H. unfold remove_particles_from_toend, on_data. rewrite H. destruct ((0 <=? i) && (i <=? Z.of_nat (length ps))) eqn:E.
  - apply andb_true_iff in E as [E1 E2]. apply Z.leb_le in E1. apply Z.leb_le in E2.
    pose proof (remove_toend_ok ps (Z.to_nat i)) as R. rewrite Z2Nat.id in R by lia. rewrite R by lia. reflexivity.
  - rewrite remove_toend_ub; [reflexivity|]. intros [A B]. apply Z.leb_le in A. apply Z.leb_le in B. rewrite A, B in E. discriminate.
Qed.
Lemma op_fields (s : species N W) ps em t : s_data s = data_of ps -> Z.of_nat (length ps) < 2 ^ 31 ->
  calc_fields em t s = Done (with_data s (data_of (map (fun p => mkP (q_x p) (q_p p) (fst (em (q_x p) t)) (snd (em (q_x p) t)) (q_opt p) (q_flag p)) ps))).
Proof. intros H L. unfold calc_fields, on_data. rewrite H, calc_fields_map by exact L. reflexivity. Qed.
Lemma op_sorted (s : species N W) kill ps : s_data s = data_of ps -> sorted_indices kill (length ps) -> Z.of_nat (length ps) < 2 ^ 64 ->
  exists ps', remove_particles_given_sorted_indices kill s = Done (with_data s (data_of ps')) /\
    Permutation ps' (survivors kill ps) /\
    forall j, ~ In (Z.of_nat j) kill -> (j < length ps')%nat -> nth_error ps' j = nth_error ps j.
Proof.
  intros H HK L. destruct (remove_sorted_spec kill ps HK L) as (ps' & E & R). exists ps'. split; [|exact R].
  unfold remove_particles_given_sorted_indices, on_data. now rewrite H, E.
Qed.
Lemma unknown_destr id w (s : species N W) ps dt : reg_find (s_destr s) id = None -> s_data s = data_of ps ->
  (ps = [] -> do_process_with_destruction id dt (w, s) = Done (w, s)) /\
  (ps <> [] -> exists s1, do_process_with_destruction id dt (w, s) = Raised (w, s1) /\ s_data s1 = s_data s /\
     forall os w2 s2 qs, history os (w, s1) (w2, s2) -> s_data s2 = data_of qs ->
       (forall f, add_process_with_destruction f id s2 = Raised s2) /\
       forall dt', do_process_with_destruction id dt' (w2, s2) = match qs with [] => Done (w2, s2) | _ => Raised (w2, s2) end).
Proof.
  intros E D. pose proof (unknown_destruction id w s ps dt E D) as H. split.
  - intros ->. exact H.
  - intros Hp. destruct ps as [|p ps]; [congruence|]. eexists. split; [exact H|]. split; [reflexivity|].
    intros os w2 s2 qs Hh Dq.
    assert (P : reg_find (s_destr (with_destr s (reg_insert (s_destr s) id None))) id = Some None).
    { cbn. rewrite reg_find_insert by (now apply reg_find_none). now rewrite Z.eqb_refl. }
    split.
    + exact (proj1 (poisoned_destruction id w _ qs n_one os w2 s2 P Hh Dq)).
    + intros dt'. exact (proj2 (poisoned_destruction id w _ qs dt' os w2 s2 P Hh Dq)).
Qed.
End S.

Lemma setup_streams {N : NumOps} (U : Units N) (Orc : Oracles N) (G : Rng N) eng n seed w ph :
  setup U Orc G eng n seed = Ret (w, ph) ->
  be_rng (w_eng w) = be_rng eng /\
  forall k, (k < n)%nat -> nth_error (d_opt (s_data ph)) k =
    Some (fst (rng_exp G (Nat.iter k (fun s => snd (rng_exp G s n_one)) (be_rng (w_eng w))) n_one)).
Proof.
  intros H. destruct (setup_spec U Orc G _ _ _ _ H) as (ps & L & E & O). unfold state_of in E.
  injection E as -> ->. cbn [w_eng be_rng s_data]. split; [reflexivity|]. intros k Hk.
  cbn [data_of d_opt]. rewrite O. rewrite draw_depths_states by exact Hk. reflexivity.
Qed.

Local Open Scope R_scope.
Lemma Forall2_map_r {A B} (R : A -> B -> Prop) f l : (forall a, In a l -> R a (f a)) -> Forall2 R l (map f l).
Proof. induction l as [|a l IH]; intros H; cbn; constructor; [apply H; now left|apply IH; intros; apply H; now right]. Qed.

Lemma swap_refuted tg : exists (s : species (RX tg) unit) p q, s_data s = data_of [p; q] /\
  forall s', swap_particles 0 1 s = Done s' -> s_data s' <> data_of [q; p].
Proof.
  pose (p := FP tg (mkR (mk3 1 2 3) zero3 zero3 zero3 (Fin 0) false)).
  pose (q := FP tg (mkR (mk3 4 5 6) zero3 zero3 zero3 (Fin 0) false)).
  exists (with_data photons_new (data_of [p; q])), p, q. split; [reflexivity|]. intros s' H.
  destruct (swap_spec (with_data photons_new (data_of [p; q]) : species (RX tg) unit) [p; q] 0 1 eq_refl) as (qs & E & L & K); try (cbn; lia).
  assert (ED : Done s' = Done (with_data photons_new (data_of qs) : species (RX tg) unit)) by (rewrite <- H; exact E).
  assert (HS : s' = with_data photons_new (data_of qs)) by (injection ED; auto). rewrite HS. cbn [s_data with_data].
  pose proof (K 0%nat p q eq_refl eq_refl) as K0. destruct qs as [|a [|b [|]]]; try discriminate. cbn in K0. injection K0 as ->.
  intros C. apply (f_equal (@d_pos (RX tg))) in C. unfold data_of, rows3, p, q in C. cbn in C. injection C. intros. lra.
Qed.

Lemma boris_species tg (W : Type) (s : species (RX tg) W) m q dt rs :
  s_kind s = Leptons -> s_pusher s = None -> s_mass s = Fin m -> s_charge s = Fin q -> 0 < m ->
  s_data s = data_of (map (FP tg) rs) -> (Z.of_nat (length rs) < 2 ^ 31)%Z ->
  exists rs', push_momenta (Fin dt : num (RX tg)) s = Done (with_data s (data_of (map (FP tg) rs'))) /\
    Forall2 (fun r r' => exists p', midpoint (q * dt / (2 * m)) (r_p r) (r_e r) (r_b r) p' /\
                           r' = mkR (r_x r) p' (r_e r) (r_b r) (r_opt r) (r_flag r)) rs rs'.
Proof.
  intros. eexists. split; [eapply push_momenta_rx; eassumption|]. apply Forall2_map_r. intros r _. eexists. split; [apply boris_midpoint|reflexivity].
Qed.
Lemma midpoint_gamma beta p E B p' : midpoint beta p E B p' ->
  (gamma_of p' * gamma_of p' - gamma_of p * gamma_of p = 2 * beta * dot3 E (add3 p' p)) /\ (E = zero3 -> norm3 p' = norm3 p).
Proof.
  intros H. split.
  - pose proof (midpoint_energy _ _ _ _ _ H). unfold gamma_of. rewrite !sqrt_def by (pose proof (dot3_nonneg p); pose proof (dot3_nonneg p'); lra). lra.
  - intros ->. eapply midpoint_norm; eassumption.
Qed.
Lemma sub_add3 x v : sub3 (add3 x v) x = v.
Proof. destruct x, v. unfold sub3, add3. cbn. f_equal; ring. Qed.
Lemma photons_species tg (W : Type) (s : species (RX tg) W) dt rs :
  s_kind s = Photons -> s_data s = data_of (map (FP tg) rs) -> Forall (fun r => r_p r <> zero3) rs ->
  (Z.of_nat (length rs) < 2 ^ 31)%Z ->
  exists rs', push_positions (Fin dt : num (RX tg)) s = Done (with_data s (data_of (map (FP tg) rs'))) /\
    Forall2 (fun r r' => exists x', r' = mkR x' (r_p r) (r_e r) (r_b r) (r_opt r) (r_flag r) /\
                           sub3 x' (r_x r) = scale3 dt (unit3 (r_p r)) /\ norm3 (sub3 x' (r_x r)) = Rabs dt) rs rs'.
Proof.
  intros K D F L. eexists. split; [exact (push_photons_rx tg s dt rs K D F L)|]. apply Forall2_map_r. intros r Hr. eexists. split; [reflexivity|].
  rewrite sub_add3. split; [reflexivity|]. apply phot_step_length. rewrite Forall_forall in F. auto.
Qed.
Lemma leptons_species tg (W : Type) (s : species (RX tg) W) dt rs :
  s_kind s = Leptons -> s_data s = data_of (map (FP tg) rs) -> (Z.of_nat (length rs) < 2 ^ 31)%Z ->
  exists rs', push_positions (Fin dt : num (RX tg)) s = Done (with_data s (data_of (map (FP tg) rs'))) /\
    Forall2 (fun r r' => exists x', r' = mkR x' (r_p r) (r_e r) (r_b r) (r_opt r) (r_flag r) /\
                           sub3 x' (r_x r) = scale3 (dt / gamma_of (r_p r)) (r_p r) /\
                           (dt <> 0 -> norm3 (sub3 x' (r_x r)) < Rabs dt)) rs rs'.
Proof.
  intros K D L. eexists. split; [exact (push_leptons_rx tg s dt rs K D L)|]. apply Forall2_map_r. intros r Hr. eexists. split; [reflexivity|].
  rewrite sub_add3. split; [reflexivity|]. apply lep_step_length.
Qed.
Lemma zero_photon_species tg (W : Type) (s : species (RX tg) W) dt r :
  s_kind s = Photons -> s_data s = data_of [FP tg r] -> r_p r = zero3 -> dt <> 0 ->
  push_positions (Fin dt : num (RX tg)) s =
  Done (with_data s (data_of [@mkP (RX tg) (V3 (NaN : num (RX tg)) NaN NaN) (F3 tg (r_p r)) (F3 tg (r_e r)) (F3 tg (r_b r)) (r_opt r) (r_flag r)])).
Proof.
  intros K D Z H. unfold push_positions, on_data. rewrite K, D, push_positions_map by (cbn; lia). cbn [of_out map]. unfold set_x. cbn [FP q_x q_p q_e q_b q_opt q_flag].
  rewrite Z, move_zero_photon by exact H. reflexivity.
Qed.
