(** C49-C56, C60, C61: the test program.  Vocabulary: SpecSpecies.v, SpecMotion.v,
    SpecMain.v, SpecPhys.v. *)
From Coq Require Import ZArith Reals List Bool Sorted Permutation Lia Lra.
From Verif Require Import Cxx Num NumRX NumIEEE LookupTables VecFun SpecPhys ChiProofs Units Oracles BreitWheeler TestProgram TestMain.
From Verif Require Import SpecSpecies SpeciesProofs SpeciesHistory SwapProofs SpecMotion MotionProofs SpecMain MainProofs PlaceProofs SpeciesTheorems.
Import ListNotations.

(** ** C49 *)
(** after any history all arrays hold the same particles *)
Theorem C49_history : forall (N : NumOps) (W : Type) os w0 (s0 : species N W) w s,
  fresh s0 -> Forall respectful os -> history os (w0, s0) (w, s) ->
  exists n, consistent (s_data s) n /\ ((Z.of_nat n < 2 ^ 31)%Z -> get_num_particles s = Ret (Z.of_nat n)).
Proof. exact @history_consistent. Qed.
Print Assumptions C49_history.

(** what the single operations do to the list of particles *)
Theorem C49_add : forall (N : NumOps) (W : Type) (s : species N W) ps x m, s_data s = data_of ps ->
  add_particle x m s = Done (with_data s (data_of (ps ++ [mkP x m (V3 n_zero n_zero n_zero) (V3 n_zero n_zero n_zero) n_zero false]))).
Proof. exact @op_add. Qed.
Print Assumptions C49_add.

Theorem C49_remove : forall (N : NumOps) (W : Type) (s : species N W) ps i, s_data s = data_of ps ->
  remove_particle i s =
  if ((0 <=? i) && (i <? Z.of_nat (length ps)))%Z then Done (with_data s (data_of (firstn (Z.to_nat i) ps ++ skipn (S (Z.to_nat i)) ps))) else Undef.
Proof. exact @op_remove. Qed.
Print Assumptions C49_remove.

Theorem C49_toend : forall (N : NumOps) (W : Type) (s : species N W) ps i, s_data s = data_of ps ->
  remove_particles_from_toend i s =
  if ((0 <=? i) && (i <=? Z.of_nat (length ps)))%Z then Done (with_data s (data_of (firstn (Z.to_nat i) ps))) else Undef.
Proof. exact @op_toend. Qed.
Print Assumptions C49_toend.

Theorem C49_fields : forall (N : NumOps) (W : Type) (s : species N W) ps em t, s_data s = data_of ps -> (Z.of_nat (length ps) < 2 ^ 31)%Z ->
  calc_fields em t s = Done (with_data s (data_of (map (fun p => mkP (q_x p) (q_p p) (fst (em (q_x p) t)) (snd (em (q_x p) t)) (q_opt p) (q_flag p)) ps))).
Proof. exact @op_fields. Qed.
Print Assumptions C49_fields.

Example C49_nonvacuous : forall (N : NumOps) (x m : vec3 N), exists s : species N unit,
  fresh (photons_new : species N unit) /\ Forall respectful [OAdd x m; OAdd m x; ORemove 0 : op N unit] /\
  history [OAdd x m; OAdd m x; ORemove 0] (tt, photons_new) (tt, s) /\ get_num_particles s = Ret 1%Z.
Proof.
  intros. eexists. split; [now left|]. split; [repeat constructor|]. split.
  - eapply h_cons; [left; reflexivity|]. eapply h_cons; [left; reflexivity|]. eapply h_cons; [left; reflexivity|]. apply h_nil.
  - reflexivity.
Qed.

(** ** C50 *)
Theorem C50_removes : forall (N : NumOps) (W : Type) (s : species N W) kill ps,
  s_data s = data_of ps -> sorted_indices kill (length ps) -> (Z.of_nat (length ps) < 2 ^ 64)%Z ->
  exists ps', remove_particles_given_sorted_indices kill s = Done (with_data s (data_of ps')) /\
    Permutation ps' (survivors kill ps) /\
    forall j, ~ In (Z.of_nat j) kill -> (j < length ps')%nat -> nth_error ps' j = nth_error ps j.
Proof. exact @op_sorted. Qed.
Print Assumptions C50_removes.

Example C50_nonvacuous : sorted_indices [0; 2; 3]%Z 5.
Proof.
  split; [|repeat constructor; lia]. intros [|[|[|[|]]]] [|[|[|[|]]]] a b; cbn; intros Ha Hb Hij; try discriminate; try lia;
    injection Ha as <-; injection Hb as <-; lia.
Qed.

(** ** C51 *)
Theorem C51_destroys : forall (N : NumOps) (W : Type) id f w0 (s0 s1 : species N W) os w s ps dt,
  add_process_with_destruction f id s0 = Done s1 -> history os (w0, s1) (w, s) ->
  s_data s = data_of ps -> (Z.of_nat (length ps) < 2 ^ 64)%Z ->
  match visit (on_part f s dt) w ps with
  | Done (w', bs) => exists ps', do_process_with_destruction id dt (w, s) = Done (w', with_data s (data_of ps')) /\
      Permutation ps' (spared bs ps) /\
      forall j, nth j bs false = false -> (j < length ps')%nat -> nth_error ps' j = nth_error ps j
  | Raised (w', _) => do_process_with_destruction id dt (w, s) = Raised (w', s)
  | Undef => do_process_with_destruction id dt (w, s) = Undef
  end.
Proof. exact @registered_destruction. Qed.
Print Assumptions C51_destroys.

(** an ID that is not registered: nothing happens without particles, and with
    particles the ID is lost for good *)
Theorem C51_unknown : forall (N : NumOps) (W : Type) id w (s : species N W) ps dt, reg_find (s_destr s) id = None -> s_data s = data_of ps ->
  (ps = [] -> do_process_with_destruction id dt (w, s) = Done (w, s)) /\
  (ps <> [] -> exists s1, do_process_with_destruction id dt (w, s) = Raised (w, s1) /\ s_data s1 = s_data s /\
     forall os w2 s2 qs, history os (w, s1) (w2, s2) -> s_data s2 = data_of qs ->
       (forall f, add_process_with_destruction f id s2 = Raised s2) /\
       forall dt', do_process_with_destruction id dt' (w2, s2) = match qs with [] => Done (w2, s2) | _ => Raised (w2, s2) end).
Proof. exact @unknown_destr. Qed.
Print Assumptions C51_unknown.

(** a process that counts its calls and removes the flagged particles *)
Example C51_nonvacuous : forall (N : NumOps) (x m : vec3 N), exists s1 w s,
  let f : destruction N nat := fun w _ _ _ _ g _ _ _ => Done (S w, negb g) in
  add_process_with_destruction f 7 photons_new = Done s1 /\ history [OAdd x m; OAdd m x] (0%nat, s1) (w, s) /\
  exists ps, s_data s = data_of ps /\ (Z.of_nat (length ps) < 2 ^ 64)%Z /\
  visit (on_part f s n_one) w ps = Done (2%nat, [true; true]).
Proof.
  intros. do 3 eexists. split; [reflexivity|]. split.
  - eapply h_cons; [left; reflexivity|]. eapply h_cons; [left; reflexivity|]. apply h_nil.
  - exists [mkP x m (V3 n_zero n_zero n_zero) (V3 n_zero n_zero n_zero) n_zero false; mkP m x (V3 n_zero n_zero n_zero) (V3 n_zero n_zero n_zero) n_zero false].
    split; [reflexivity|]. split; [cbn; lia|]. reflexivity.
Qed.

(** ** C52: swap_particles does not exchange two particles *)
Theorem C52_effect : forall (N : NumOps) (W : Type) (s : species N W) ps i j,
  s_data s = data_of ps -> (i < 3)%nat -> (j < 3)%nat -> (i < length ps)%nat -> (j < length ps)%nat ->
  exists qs, swap_particles (Z.of_nat i) (Z.of_nat j) s = Done (with_data s (data_of qs)) /\ length qs = length ps /\
    forall k p q, nth_error ps k = Some p -> nth_error ps (transp i j k) = Some q ->
      nth_error qs k = Some (mkP (exch i j (q_x p)) (exch i j (q_p p)) (q_e p) (q_b p) (q_opt q) (q_flag q)).
Proof. exact @swap_spec. Qed.
Print Assumptions C52_effect.

Theorem C52_undefined : forall (N : NumOps) (W : Type) (s : species N W) ps i j, s_data s = data_of ps ->
  ~ (0 <= i < 3 /\ 0 <= j < 3 /\ i < Z.of_nat (length ps) /\ j < Z.of_nat (length ps))%Z -> swap_particles i j s = Undef.
Proof. exact @swap_ub. Qed.
Print Assumptions C52_undefined.

Theorem C52_refuted : forall tg, exists (s : species (RX tg) unit) p q, s_data s = data_of [p; q] /\
  forall s', swap_particles 0 1 s = Done s' -> s_data s' <> data_of [q; p].
Proof. exact swap_refuted. Qed.
Print Assumptions C52_refuted.

Example C52_nonvacuous : forall (N : NumOps) (p q r : part N), exists s : species N unit,
  s_data s = data_of [p; q; r] /\ exch 0 2 (q_x p) = V3 (vz (q_x p)) (vy (q_x p)) (vx (q_x p)) /\ transp 0 2 0 = 2%nat.
Proof. intros. exists (with_data photons_new (data_of [p; q; r])). auto. Qed.

(** ** C53 *)
Theorem C53_register : forall (N : NumOps) (W : Type) os w0 (s0 : species N W) w s f id, fresh s0 -> history os (w0, s0) (w, s) ->
  (first_use id os = None -> exists s', add_simple_process f id s = Done s' /\ s_data s' = s_data s) /\
  (first_use id os <> None -> add_simple_process f id s = Raised s).
Proof. exact @registry_add. Qed.
Print Assumptions C53_register.

Theorem C53_run : forall (N : NumOps) (W : Type) os w0 (s0 : species N W) w s f id dt,
  fresh s0 -> history os (w0, s0) (w, s) -> first_use id os = Some (Some f) ->
  do_simple_process id dt (w, s) =
  let d := s_data s in
  match f w (d_pos d) (d_mom d) (d_fld d) (d_opt d) (d_flag d) (s_mass s) (s_charge s) dt with
  | Done (w', (p, m, o, g)) => Done (w', with_data s (mkD p m (d_fld d) o g))
  | Raised (w', (p, m, o, g)) => Raised (w', with_data s (mkD p m (d_fld d) o g))
  | Undef => Undef
  end.
Proof. exact @registry_run. Qed.
Print Assumptions C53_run.

Theorem C53_all : forall (N : NumOps) (W : Type) os w0 (s0 : species N W) w s, fresh s0 -> history os (w0, s0) (w, s) ->
  exists ids, StronglySorted Z.lt ids /\ (forall id, In id ids <-> first_use id os <> None) /\
    forall dt, do_all_simple_processes dt (w, s) = one_by_one (fun id => do_simple_process id dt) ids (w, s).
Proof. exact @registry_all. Qed.
Print Assumptions C53_all.

(** finding: an unknown ID raises, leaves the particles alone, but is lost for good
    and makes every later do_all_simple_processes fail *)
Theorem C53_unknown_refuted : forall (N : NumOps) (W : Type) os w0 (s0 : species N W) w s id dt,
  fresh s0 -> history os (w0, s0) (w, s) -> first_use id os = None ->
  exists s1, do_simple_process id dt (w, s) = Raised (w, s1) /\ s_data s1 = s_data s /\
  forall os' w2 s2, history os' (w, s1) (w2, s2) ->
    (forall f, add_simple_process f id s2 = Raised s2) /\ (forall dt', do_simple_process id dt' (w2, s2) = Raised (w2, s2)) /\
    forall dt' x, do_all_simple_processes dt' (w2, s2) <> Done x.
Proof. exact @registry_unknown. Qed.
Print Assumptions C53_unknown_refuted.

Example C53_nonvacuous : forall (N : NumOps) (f g : simple_process N unit), exists s,
  history [ORegister f 5; ORegister g 2; ORegister g 5; OSimple 9 n_one] (tt, photons_new) (tt, s) /\
  let os := [ORegister f 5; ORegister g 2; ORegister g 5; OSimple 9 n_one] in
  first_use 5 os = Some (Some f) /\ first_use 2 os = Some (Some g) /\ first_use 9 os = Some None /\ first_use 1 os = None.
Proof.
  intros. eexists. split.
  - eapply h_cons; [left; reflexivity|]. eapply h_cons; [left; reflexivity|]. eapply h_cons; [right; reflexivity|].
    eapply h_cons; [right; reflexivity|]. apply h_nil.
  - repeat split; reflexivity.
Qed.

(** ** C54 *)
Local Open Scope R_scope.
Theorem C54_midpoint : forall tg (W : Type) (s : species (RX tg) W) m q dt rs,
  s_kind s = Leptons -> s_pusher s = None -> s_mass s = Fin m -> s_charge s = Fin q -> 0 < m ->
  s_data s = data_of (map (FP tg) rs) -> (Z.of_nat (length rs) < 2 ^ 31)%Z ->
  exists rs', push_momenta (Fin dt : num (RX tg)) s = Done (with_data s (data_of (map (FP tg) rs'))) /\
    Forall2 (fun r r' => exists p', midpoint (q * dt / (2 * m)) (r_p r) (r_e r) (r_b r) p' /\
                           r' = mkR (r_x r) p' (r_e r) (r_b r) (r_opt r) (r_flag r)) rs rs'.
Proof. exact boris_species. Qed.
Print Assumptions C54_midpoint.

Theorem C54_unique : forall beta p E B p1 p2, midpoint beta p E B p1 -> midpoint beta p E B p2 -> p1 = p2.
Proof. exact midpoint_unique. Qed.
Print Assumptions C54_unique.

(** only the electric field changes the energy *)
Theorem C54_energy : forall beta p E B p', midpoint beta p E B p' ->
  (gamma_of p' * gamma_of p' - gamma_of p * gamma_of p = 2 * beta * dot3 E (add3 p' p)) /\
  (E = zero3 -> norm3 p' = norm3 p).
Proof. exact midpoint_gamma. Qed.
Print Assumptions C54_energy.

(** without electric field the step with -dt undoes the step with dt; finding: not in
    general *)
Theorem C54_reverse : forall beta p B p', midpoint beta p zero3 B p' -> midpoint (- beta) p' zero3 B p.
Proof. exact midpoint_reverse. Qed.
Print Assumptions C54_reverse.

Theorem C54_reverse_refuted : exists beta p E B p', midpoint beta p E B p' /\ ~ midpoint (- beta) p' E B p.
Proof. exact midpoint_irreversible. Qed.
Print Assumptions C54_reverse_refuted.

Example C54_nonvacuous : forall tg, exists s : species (RX tg) unit,
  s_kind s = Leptons /\ s_pusher s = None /\ s_mass s = Fin 1 /\ s_charge s = Fin (-1) /\
  s_data s = data_of (map (FP tg) [mkR zero3 (mk3 1 2 3) (mk3 1 0 0) (mk3 0 0 1) (Fin 0) false]).
Proof.
  intros. exists (mkS Leptons (Fin 1 : num (RX tg)) (Fin (-1)) (data_of (map (FP tg) [mkR zero3 (mk3 1 2 3) (mk3 1 0 0) (mk3 0 0 1) (Fin 0) false])) [] [] None).
  repeat split; reflexivity.
Qed.

(** ** C55 *)
Theorem C55_photons : forall tg (W : Type) (s : species (RX tg) W) dt rs,
  s_kind s = Photons -> s_data s = data_of (map (FP tg) rs) -> Forall (fun r => r_p r <> zero3) rs ->
  (Z.of_nat (length rs) < 2 ^ 31)%Z ->
  exists rs', push_positions (Fin dt : num (RX tg)) s = Done (with_data s (data_of (map (FP tg) rs'))) /\
    Forall2 (fun r r' => exists x', r' = mkR x' (r_p r) (r_e r) (r_b r) (r_opt r) (r_flag r) /\
                           sub3 x' (r_x r) = scale3 dt (unit3 (r_p r)) /\ norm3 (sub3 x' (r_x r)) = Rabs dt) rs rs'.
Proof. exact photons_species. Qed.
Print Assumptions C55_photons.

Theorem C55_leptons : forall tg (W : Type) (s : species (RX tg) W) dt rs,
  s_kind s = Leptons -> s_data s = data_of (map (FP tg) rs) -> (Z.of_nat (length rs) < 2 ^ 31)%Z ->
  exists rs', push_positions (Fin dt : num (RX tg)) s = Done (with_data s (data_of (map (FP tg) rs'))) /\
    Forall2 (fun r r' => exists x', r' = mkR x' (r_p r) (r_e r) (r_b r) (r_opt r) (r_flag r) /\
                           sub3 x' (r_x r) = scale3 (dt / gamma_of (r_p r)) (r_p r) /\
                           (dt <> 0 -> norm3 (sub3 x' (r_x r)) < Rabs dt)) rs rs'.
Proof. exact leptons_species. Qed.
Print Assumptions C55_leptons.

(** finding: a photon without momentum loses its position *)
Theorem C55_zero_momentum_refuted : forall tg (W : Type) (s : species (RX tg) W) dt r,
  s_kind s = Photons -> s_data s = data_of [FP tg r] -> r_p r = zero3 -> dt <> 0 ->
  push_positions (Fin dt : num (RX tg)) s =
  Done (with_data s (data_of [@mkP (RX tg) (V3 (NaN : num (RX tg)) NaN NaN) (F3 tg (r_p r)) (F3 tg (r_e r)) (F3 tg (r_b r)) (r_opt r) (r_flag r)])).
Proof. exact zero_photon_species. Qed.
Print Assumptions C55_zero_momentum_refuted.

Example C55_nonvacuous : forall tg, exists s : species (RX tg) unit, let r := mkR zero3 (mk3 3 4 0) zero3 zero3 (Fin 0) false in
  s_kind s = Photons /\ s_data s = data_of (map (FP tg) [r]) /\ Forall (fun r => r_p r <> zero3) [r].
Proof.
  intros. exists (with_data photons_new (data_of (map (FP tg) [mkR zero3 (mk3 3 4 0) zero3 zero3 (Fin 0) false]))). cbn zeta. split; [reflexivity|]. split; [reflexivity|].
  constructor; [|constructor]. cbn. intros H. apply (f_equal x3) in H. cbn in H. lra.
Qed.
Local Close Scope R_scope.

(** ** C56 *)
(** one step of the time loop *)
Theorem C56_step : forall (N : NumOps) (U : Units N) (Orc : Oracles N) (G : Rng N) em dt t eng ph el po x,
  (Z.of_nat (length ph) < 2 ^ 31)%Z -> (Z.of_nat (length el) < 2 ^ 31)%Z -> (Z.of_nat (length po) < 2 ^ 31)%Z ->
  main_step G em dt t (state_of U Orc G eng ph el po) = Ret x ->
  exists qs ph' ne np eng',
    Forall2 (photon_step U Orc G eng em dt t) ph qs /\
    Permutation ph' (filter (fun q => negb (q_flag q)) qs) /\
    born U G eng (filter q_flag qs) ne np eng' /\
    x = state_of U Orc G eng' ph' (map (lepton_step em dt t (- n_one)%N) el ++ ne) (map (lepton_step em dt t n_one) po ++ np).
Proof. exact @main_step_spec. Qed.
Print Assumptions C56_step.

(** the number of particles after any number of steps *)
Theorem C56_counts : forall (N : NumOps) (U : Units N) (Orc : Oracles N) (G : Rng N) eng n seed dt steps w ph,
  (Z.of_nat n < 2 ^ 31)%Z -> test_BW U Orc G eng n seed dt steps = Ret (w, ph) ->
  exists a b, get_num_particles ph = Ret a /\ get_num_particles (w_ele w) = Ret b /\ get_num_particles (w_pos w) = Ret b /\ (a + b = Z.of_nat n)%Z.
Proof. exact @test_BW_counts. Qed.
Print Assumptions C56_counts.

(** a run on binary64 in which one of two photons turns into a pair *)
Definition toy_libm : Libm b64 := Build_Libm b64 (fun x => x) (fun x => x) (fun x _ => x) (fun x => x) (fun x => x).
Definition toy_oracles : Oracles (B64 toy_libm) :=
  {| o_quad_a_b := fun f a (b : num (B64 toy_libm)) => f a; o_quad_a_inf := fun f a => f a; o_k_v := fun a b => b; o_root := fun f a b => a |}.
Definition toy_rng : Rng (B64 toy_libm) :=
  {| rng_state := nat; rng_seed := fun _ => O; rng_unf := fun s a b => ((b - (b - a) / n_of_Z (3 + Z.of_nat s))%N, S s);
     rng_exp := fun s l => (match s with O => n_lit 1 (-30) | _ => n_lit 1 10 end, S s) |}.
Definition toy_engine : bw_engine toy_rng := mk_bw (n_lit 8 (-7) : num (B64 toy_libm)) (O : rng_state toy_rng) (bw_ctrl_default _)
  (mk1d [n_lit 1 (-2); n_lit 1000 0] [n_one; n_one] true)
  (mk2d [n_lit 1 (-2); n_lit 1000 0] [n_zero; n_lit 25 (-2); n_lit 5 (-1)] [n_zero; n_lit 5 (-1); n_one; n_zero; n_lit 5 (-1); n_one] true).
Example C56_nonvacuous : exists w ph, test_BW (units false) toy_oracles toy_rng toy_engine 2 0 (n_lit 1 (-2)) 2 = Ret (w, ph) /\
  get_num_particles ph = Ret 1%Z /\ get_num_particles (w_ele w) = Ret 1%Z.
Proof.
  assert (H : match test_BW (units false) toy_oracles toy_rng toy_engine 2 0 (n_lit 1 (-2)) 2 with
              | Ret (w, ph) => get_num_particles ph = Ret 1%Z /\ get_num_particles (w_ele w) = Ret 1%Z | _ => False end) by (vm_compute; auto).
  destruct (test_BW _ _ _ _ _ _ _ _) as [[w ph]| | |]; try contradiction. exists w, ph. auto.
Qed.

(** ** C60: where the pairs appear *)
(** every photon with an event is moved a second time before its pair is placed *)
Theorem C60_any_arithmetic : forall (N : NumOps) (U : Units N) (Orc : Oracles N) (G : Rng N) em dt t eng ph el po x,
  (Z.of_nat (length ph) < 2 ^ 31)%Z -> (Z.of_nat (length el) < 2 ^ 31)%Z -> (Z.of_nat (length po) < 2 ^ 31)%Z ->
  main_step G em dt t (state_of U Orc G eng ph el po) = Ret x ->
  exists eng' ph' ne np,
    x = state_of U Orc G eng' ph' (map (lepton_step em dt t (- n_one)%N) el ++ ne) (map (lepton_step em dt t n_one) po ++ np) /\
    Forall (created U Orc G eng em dt t ph) ne /\ Forall (created U Orc G eng em dt t ph) np.
Proof. exact @pairs_created. Qed.
Print Assumptions C60_any_arithmetic.

Theorem C60_place : forall tg (U : Units (RX tg)) (Orc : Oracles (RX tg)) (G : Rng (RX tg)) em dt t eng rs el po x,
  (Z.of_nat (length rs) < 2 ^ 31)%Z -> (Z.of_nat (length el) < 2 ^ 31)%Z -> (Z.of_nat (length po) < 2 ^ 31)%Z ->
  Forall (fun r => r_p r <> zero3) rs ->
  main_step G em (Fin dt) t (state_of U Orc G eng (map (FP tg) rs) el po) = Ret x ->
  exists eng' ph' ne np,
    x = state_of U Orc G eng' ph' (map (lepton_step em (Fin dt) t (- n_one)%N) el ++ ne) (map (lepton_step em (Fin dt) t n_one) po ++ np) /\
    Forall (appears tg U Orc G eng em dt t rs) ne /\ Forall (appears tg U Orc G eng em dt t rs) np.
Proof. exact pair_places. Qed.
Print Assumptions C60_place.

(** a step on binary64 in which a pair appears *)
Example C60_nonvacuous : exists ph x, let st := state_of (units false) toy_oracles toy_rng toy_engine ph [] [] in
  main_step toy_rng test_field (n_lit 1 (-2)) n_zero st = Ret x /\ get_num_particles (w_ele (fst x)) = Ret 1%Z.
Proof.
  pose (ph := [newborn (V3 n_zero n_zero n_zero) (V3 (n_lit 1000 0) (n_lit 4000 0) (n_lit 3000 0)) : part (B64 toy_libm)]). exists ph.
  assert (H : match main_step toy_rng test_field (n_lit 1 (-2)) n_zero (state_of (units false) toy_oracles toy_rng toy_engine ph [] []) with
              | Ret x => get_num_particles (w_ele (fst x)) = Ret 1%Z | _ => False end) by (vm_compute; auto).
  cbn zeta. destruct (main_step _ _ _ _ _) as [x| | |]; try contradiction. exists x. split; [reflexivity|exact H].
Qed.

(** ** C61: the generators of the test program *)
Theorem C61_same_stream : forall (N : NumOps) (U : Units N) (Orc : Oracles N) (G : Rng N) eng n seed w ph,
  setup U Orc G eng n seed = Ret (w, ph) ->
  be_rng (w_eng w) = be_rng eng /\
  forall k, (k < n)%nat -> nth_error (d_opt (s_data ph)) k =
    Some (fst (rng_exp G (Nat.iter k (fun s => snd (rng_exp G s n_one)) (be_rng (w_eng w))) n_one)).
Proof. exact @setup_streams. Qed.
Print Assumptions C61_same_stream.

Example C61_nonvacuous : exists w ph, setup (units false) toy_oracles toy_rng toy_engine 2 0 = Ret (w, ph).
Proof.
  assert (H : match setup (units false) toy_oracles toy_rng toy_engine 2 0 with Ret _ => True | _ => False end) by (vm_compute; auto).
  destruct (setup _ _ _ _ _ _) as [[w ph]| | |]; try contradiction. exists w, ph. reflexivity.
Qed.
