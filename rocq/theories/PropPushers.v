(** C68-C71: the particle pushers (src/particle_pushers). *)
From Coq Require Import ZArith Reals List Bool.
From Verif Require Import Cxx Num NumRX Fortran Pushers SpecPhys SpecPush PusherProofs PushFacts.
Import ListNotations.
Local Open Scope R_scope.

(** ** C68: the Boris pusher *)
(** any arithmetic: particles do not influence each other, in any of the pushers *)
Theorem C68_independent : forall (N : NumOps) (K : Consts N) q m dt which,
  particlewise (fun np ps fs => pxr_boris_push_u_3d K np ps fs q m dt) /\
  particlewise (fun np ps fs => pxr_epush_v np ps fs q m dt) /\
  particlewise (fun np ps fs => pxr_bpush_v np ps fs q m dt) /\
  particlewise (fun np ps fs => pxr_ebcancelpush3d K np ps fs q m dt which) /\
  particlewise (fun np ps fs => pxr_boris_push_rr_S09_u_3d K np ps fs q m dt) /\
  particlewise (fun np ps fs => pxr_boris_push_rr_B08_u_3d K np ps fs q m dt) /\
  particlewise (fun np ps fs => pxr_boris_push_rr_LL_u_3d K np ps fs q m dt) /\
  particlewise (fun np xs ps => pxr_pushxyz np xs ps dt) /\
  particlewise (fun np xs ps => pxr_push2dxz np xs ps dt).
Proof. exact all_particlewise. Qed.
Print Assumptions C68_independent.

(** any arithmetic: the cache-blocked routine gives the same result for every block size *)
Theorem C68_block_size : forall (N : NumOps) (K : Consts N) np ps fs q m dt lvect, (1 <= lvect)%Z ->
  pxr_boris_push_u_3d_block K np ps fs q m dt lvect = pxr_boris_push_u_3d K np ps fs q m dt.
Proof. exact (@boris_block). Qed.
Print Assumptions C68_block_size.

Theorem C68_boris_scheme : forall tg c mu e p q m dt, 0 < c -> m <> 0 ->
  every_particle tg
    (fun np ps fs => pxr_boris_push_u_3d (Constants tg c mu e p) np ps fs (Fin q : num (RX tg)) (Fin m : num (RX tg)) (Fin dt : num (RX tg)))
    (fun u g E B u' g' => boris_step c (q * dt / (2 * m)) u E B u' /\ g' = inv_gamma c u').
Proof. exact boris_follows. Qed.
Print Assumptions C68_boris_scheme.

(** the scheme leaves no freedom *)
Theorem C68_scheme_determines : forall c k u E B a b, boris_step c k u E B a -> boris_step c k u E B b -> a = b.
Proof. exact boris_step_unique. Qed.
Print Assumptions C68_scheme_determines.

Theorem C68_magnetic_field_does_no_work : forall tg c mu e p q m dt, 0 < c -> m <> 0 ->
  every_particle tg
    (fun np ps fs => pxr_boris_push_u_3d (Constants tg c mu e p) np ps fs (Fin q : num (RX tg)) (Fin m : num (RX tg)) (Fin dt : num (RX tg)))
    (fun u g E B u' g' => E = zero3 -> dot3 u' u' = dot3 u u /\ (g = inv_gamma c u -> g' = g)).
Proof. exact boris_magnetic. Qed.
Print Assumptions C68_magnetic_field_does_no_work.

Theorem C68_electric_field : forall tg c mu e p q m dt, 0 < c -> m <> 0 ->
  every_particle tg
    (fun np ps fs => pxr_boris_push_u_3d (Constants tg c mu e p) np ps fs (Fin q : num (RX tg)) (Fin m : num (RX tg)) (Fin dt : num (RX tg)))
    (fun u g E B u' g' => B = zero3 -> u' = add3 u (scale3 (q * dt / m) E)).
Proof. exact boris_electric. Qed.
Print Assumptions C68_electric_field.

Theorem C68_reversible : forall tg c mu e p q m dt, 0 < c -> m <> 0 ->
  every_particle tg
    (fun np ps fs =>
       do ps' <- pxr_boris_push_u_3d (Constants tg c mu e p) np ps fs (Fin q : num (RX tg)) (Fin m : num (RX tg)) (Fin dt : num (RX tg));
       pxr_boris_push_u_3d (Constants tg c mu e p) np ps' fs (Fin q : num (RX tg)) (Fin m : num (RX tg)) (Fin (- dt) : num (RX tg)))
    (fun u g E B u' g' => u' = u /\ (g = inv_gamma c u -> g' = g)).
Proof. exact boris_reversible. Qed.
Print Assumptions C68_reversible.

(** the split routines put together *)
Theorem C68_split : forall tg c mu e p q m dt, 0 < c -> m <> 0 ->
  forall (parts : list (R3 * R)) (fields : list (R3 * R3)), length parts = length fields ->
  let K := Constants tg c mu e p in
  let np := Z.of_nat (length parts) in let ps := map (Part tg) parts in let fs := map (Field tg) fields in
  let Q := Fin q : num (RX tg) in let M := Fin m : num (RX tg) in
  (do s1 <- pxr_epush_v np ps fs Q M (Fin (dt / 2) : num (RX tg));
   do s2 <- pxr_set_gamma K np s1;
   do s3 <- pxr_bpush_v np s2 fs Q M (Fin dt : num (RX tg));
   do s4 <- pxr_epush_v np s3 fs Q M (Fin (dt / 2) : num (RX tg));
   pxr_set_gamma K np s4) = pxr_boris_push_u_3d K np ps fs Q M (Fin dt : num (RX tg)).
Proof. exact boris_split. Qed.
Print Assumptions C68_split.

Example C68_nonvacuous : exists uL,
  boris_step 1 (1 * (1 / 2) / (2 * 1)) (mk3 1 2 3) (mk3 1 0 0) (mk3 0 0 0) uL /\ middle (mk3 1 2 3) uL <> zero3.
Proof. exact ex_push. Qed.

(** ** C69: the Vay pusher *)
(** the new state is the one and only solution of the implicit scheme, whatever the stored
    inverse Lorentz factor *)
Theorem C69_vay_scheme : forall tg c mu e p q m, 0 < c -> m <> 0 -> forall dt,
  every_particle tg
    (fun np ps fs => pxr_ebcancelpush3d (Constants tg c mu e p) np ps fs (Fin q : num (RX tg)) (Fin m : num (RX tg)) (Fin dt : num (RX tg)) 0%Z)
    (fun u g E B u' g' => forall w gw, vay_step c (q * dt / m) u g E B w gw <-> w = u' /\ gw = g').
Proof. exact vay_follows_x. Qed.
Print Assumptions C69_vay_scheme.

Theorem C69_fields_cancel : forall tg c mu e p q m dt, 0 < c -> m <> 0 ->
  every_particle tg
    (fun np ps fs => pxr_ebcancelpush3d (Constants tg c mu e p) np ps fs (Fin q : num (RX tg)) (Fin m : num (RX tg)) (Fin dt : num (RX tg)) 0%Z)
    (fun u g E B u' g' => g = inv_gamma c u -> add3 E (cross3 (scale3 g u) B) = zero3 -> u' = u /\ g' = g).
Proof. exact vay_cancel. Qed.
Print Assumptions C69_fields_cancel.

Theorem C69_reversible : forall tg c mu e p q m dt, 0 < c -> m <> 0 ->
  every_particle tg
    (fun np ps fs =>
       do ps' <- pxr_ebcancelpush3d (Constants tg c mu e p) np ps fs (Fin q : num (RX tg)) (Fin m : num (RX tg)) (Fin dt : num (RX tg)) 0%Z;
       pxr_ebcancelpush3d (Constants tg c mu e p) np ps' fs (Fin q : num (RX tg)) (Fin m : num (RX tg)) (Fin (- dt) : num (RX tg)) 0%Z)
    (fun u g E B u' g' => g = inv_gamma c u -> u' = u /\ g' = g).
Proof. exact vay_reversible. Qed.
Print Assumptions C69_reversible.

(** first and second half push make the full push *)
Theorem C69_two_halves : forall tg c mu e p q m dt, 0 < c -> m <> 0 ->
  forall (parts : list (R3 * R)) (fields : list (R3 * R3)), length parts = length fields ->
  let np := Z.of_nat (length parts) in let ps := map (Part tg) parts in let fs := map (Field tg) fields in
  let K := Constants tg c mu e p in
  let Q := Fin q : num (RX tg) in let M := Fin m : num (RX tg) in let D := Fin dt : num (RX tg) in
  (do s <- pxr_ebcancelpush3d K np ps fs Q M D 1%Z; pxr_ebcancelpush3d K np s fs Q M D 2%Z)
  = pxr_ebcancelpush3d K np ps fs Q M D 0%Z.
Proof. exact vay_halves. Qed.
Print Assumptions C69_two_halves.

Theorem C69_other_values : forall (N : NumOps) (K : Consts N) np ps fs q m dt which,
  (which <> 0 -> which <> 1 -> which <> 2 -> pxr_ebcancelpush3d K np ps fs q m dt which = Ret ps)%Z.
Proof. exact vay_other. Qed.
Print Assumptions C69_other_values.

Example C69_nonvacuous : let u := mk3 (3 / 4) 0 0 in let g := inv_gamma 1 u in
  g = 4 / 5 /\ add3 (mk3 0 (3 / 5) 0) (cross3 (scale3 g u) (mk3 0 0 1)) = zero3.
Proof. exact ex_drift. Qed.

(** ** C70: the pushers with radiation reaction; C68_independent extends them to arrays *)
Theorem C70_S09 : forall tg c mu e p q m dt, 0 < c -> m <> 0 -> forall u g E B uL,
  dt <> 0 -> q <> 0 -> mu <> 0 -> boris_step c (q * dt / (2 * m)) u E B uL ->
  let t0i := 6 * p * m * c / (mu * (q * q)) in
  t0i + 1 / (c * c) * inv_gamma c (middle u uL) * dot3 (middle u uL) (scale3 (1 / dt) (sub3 uL u)) <> 0 ->
  exists u', S09_step c q m dt t0i u uL B u' /\
    pxr_boris_push_rr_S09_u_3d (Constants tg c mu e p) 1 [Part tg (u, g)] [Field tg (E, B)]
      (Fin q : num (RX tg)) (Fin m : num (RX tg)) (Fin dt : num (RX tg)) = Ret [Part tg (u', inv_gamma c u')].
Proof. exact S09_formula. Qed.
Print Assumptions C70_S09.

Theorem C70_B08 : forall tg c mu e p q m dt, 0 < c -> m <> 0 -> forall u g E B uL,
  0 < e -> 0 < p -> boris_step c (q * dt / (2 * m)) u E B uL -> middle u uL <> zero3 ->
  let u' := sub3 uL (scale3 (B08_friction c e p q m dt E B (middle u uL)) (middle u uL)) in
  pxr_boris_push_rr_B08_u_3d (Constants tg c mu e p) 1 [Part tg (u, g)] [Field tg (E, B)]
    (Fin q : num (RX tg)) (Fin m : num (RX tg)) (Fin dt : num (RX tg)) = Ret [Part tg (u', inv_gamma c u')].
Proof. exact B08_formula. Qed.
Print Assumptions C70_B08.

Theorem C70_B08_brakes : forall c e p q m dt, 0 < c -> m <> 0 -> forall E B h,
  0 < e -> 0 < p -> 0 < m -> 0 <= dt -> 0 <= B08_friction c e p q m dt E B h.
Proof. exact B08_friction_nonneg. Qed.
Print Assumptions C70_B08_brakes.

Theorem C70_LL : forall tg c mu e p q m dt, 0 < c -> m <> 0 -> forall u g E0 B0 E B uL,
  dt <> 0 -> e <> 0 -> p <> 0 -> boris_step c (q * dt / (2 * m)) u E B uL ->
  let u' := add3 uL (scale3 (q * q * q * dt / (6 * p * e * (m * m) * (c * c * c))) (LL_force c q m dt E0 B0 E B (middle u uL))) in
  pxr_boris_push_rr_LL_u_3d (Constants tg c mu e p) 1 [Part tg (u, g)] [(Field tg (E0, B0), Field tg (E, B))]
    (Fin q : num (RX tg)) (Fin m : num (RX tg)) (Fin dt : num (RX tg)) = Ret [Part tg (u', inv_gamma c u')].
Proof. exact LL_formula. Qed.
Print Assumptions C70_LL.

Theorem C70_free_flight : forall tg c mu e p q m dt, 0 < c -> m <> 0 -> forall u g,
  0 < e -> 0 < p -> dt <> 0 -> q <> 0 -> mu <> 0 ->
  let K := Constants tg c mu e p in let O := Field tg (zero3, zero3) in
  let Q := Fin q : num (RX tg) in let M := Fin m : num (RX tg) in let D := Fin dt : num (RX tg) in
  pxr_boris_push_rr_S09_u_3d K 1 [Part tg (u, g)] [O] Q M D = Ret [Part tg (u, inv_gamma c u)] /\
  pxr_boris_push_rr_LL_u_3d K 1 [Part tg (u, g)] [(O, O)] Q M D = Ret [Part tg (u, inv_gamma c u)] /\
  (u <> zero3 -> pxr_boris_push_rr_B08_u_3d K 1 [Part tg (u, g)] [O] Q M D = Ret [Part tg (u, inv_gamma c u)]).
Proof. exact RR_free. Qed.
Print Assumptions C70_free_flight.

(** "a particle at rest stays finite" is false of B08: zero mean momentum gives NaN *)
Theorem C70_B08_at_rest_refuted : forall tg c mu e p q m dt, 0 < c -> m <> 0 -> forall u g E B uL,
  0 < e -> 0 < p -> boris_step c (q * dt / (2 * m)) u E B uL -> middle u uL = zero3 ->
  pxr_boris_push_rr_B08_u_3d (Constants tg c mu e p) 1 [Part tg (u, g)] [Field tg (E, B)]
    (Fin q : num (RX tg)) (Fin m : num (RX tg)) (Fin dt : num (RX tg)) = Ret [@Mom (RX tg) NaN NaN NaN NaN].
Proof. exact B08_stuck. Qed.
Print Assumptions C70_B08_at_rest_refuted.

Example C70_nonvacuous : boris_step 1 (1 * (1 / 2) / (2 * 1)) zero3 zero3 (mk3 0 0 5) zero3 /\ middle zero3 zero3 = zero3.
Proof. exact ex_rest. Qed.

(** ** C71: positions and kinetic energy *)
Theorem C71_slower_than_light : forall tg c dt, 0 < c -> forall u x, dt <> 0 ->
  exists x', pxr_pushxyz 1 [Place tg x] [Part tg (u, inv_gamma c u)] (Fin dt : num (RX tg)) = Ret [Place tg x'] /\
    sub3 x' x = scale3 dt (scale3 (inv_gamma c u) u) /\ dot3 (sub3 x' x) (sub3 x' x) < (c * dt) * (c * dt).
Proof. exact push_speed. Qed.
Print Assumptions C71_slower_than_light.

Theorem C71_push_2d : forall tg dt u g x, pxr_push2dxz 1 [Place tg x] [Part tg (u, g)] (Fin dt : num (RX tg))
  = Ret [Place tg (mk3 (x3 x + g * dt * x3 u) (y3 x) (z3 x + g * dt * z3 u))].
Proof. exact push2d_alone. Qed.
Print Assumptions C71_push_2d.

Theorem C71_energy : forall tg c mu e p (gs : list R) mass weight, (forall g, In g gs -> g <> 0) ->
  compute_kin_energy_vector (Constants tg c mu e p) (Z.of_nat (length gs)) (map (fun g => Fin g : num (RX tg)) gs)
    (Fin mass : num (RX tg)) (Fin weight : num (RX tg))
  = Ret (Fin (fold_right Rplus 0 (map (fun g => (1 / g - 1) * (mass * (c * c) * weight)) gs))).
Proof. exact kin_energy. Qed.
Print Assumptions C71_energy.

Theorem C71_energy_nonnegative : forall tg c mu e p (gs : list R) mass weight,
  (forall g, In g gs -> 0 < g <= 1) -> 0 <= mass * weight ->
  exists w, compute_kin_energy_vector (Constants tg c mu e p) (Z.of_nat (length gs)) (map (fun g => Fin g : num (RX tg)) gs)
    (Fin mass : num (RX tg)) (Fin weight : num (RX tg)) = Ret (Fin w) /\ 0 <= w.
Proof. exact energy_nonneg. Qed.
Print Assumptions C71_energy_nonnegative.

Theorem C71_magnetic_push_keeps_energy : forall tg c mu e p q m dt, 0 < c -> m <> 0 ->
  forall (parts : list (R3 * R)) (fields : list (R3 * R3)) mass weight, length parts = length fields ->
  (forall u g, In (u, g) parts -> g = inv_gamma c u) -> (forall E B, In (E, B) fields -> E = zero3) ->
  let np := Z.of_nat (length parts) in let K := Constants tg c mu e p in
  exists ps', pxr_boris_push_u_3d K np (map (Part tg) parts) (map (Field tg) fields)
      (Fin q : num (RX tg)) (Fin m : num (RX tg)) (Fin dt : num (RX tg)) = Ret ps' /\
    compute_kin_energy_vector K np (map gi ps') mass weight
    = compute_kin_energy_vector K np (map gi (map (Part tg) parts)) mass weight.
Proof. exact magnetic_energy. Qed.
Print Assumptions C71_magnetic_push_keeps_energy.

Example C71_nonvacuous : inv_gamma 1 (mk3 (3 / 4) 0 0) = 4 / 5.
Proof. exact (proj1 ex_drift). Qed.
