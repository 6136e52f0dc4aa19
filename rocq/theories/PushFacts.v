(** Final form of the pusher facts (proofs only). *)
From Coq Require Import ZArith Reals List Bool Lia Lra Psatz.
From Verif Require Import Cxx Num NumRX Fortran Pushers SpecPhys SpecPush CxxLemmas RXLemmas FortranLemmas ChiProofs PusherProofs.
Import ListNotations.
Local Open Scope R_scope.

Ltac r3f := apply r3_ext; unfold rotR, add3, sub3, cross3, scale3, dot3, zero3; cbn [x3 y3 z3].

Lemma all_particlewise (N : NumOps) (K : Consts N) q m dt which :
  particlewise (fun np ps fs => pxr_boris_push_u_3d K np ps fs q m dt) /\
  particlewise (fun np ps fs => pxr_epush_v np ps fs q m dt) /\
  particlewise (fun np ps fs => pxr_bpush_v np ps fs q m dt) /\
  particlewise (fun np ps fs => pxr_ebcancelpush3d K np ps fs q m dt which) /\
  particlewise (fun np ps fs => pxr_boris_push_rr_S09_u_3d K np ps fs q m dt) /\
  particlewise (fun np ps fs => pxr_boris_push_rr_B08_u_3d K np ps fs q m dt) /\
  particlewise (fun np ps fs => pxr_boris_push_rr_LL_u_3d K np ps fs q m dt) /\
  particlewise (fun np xs ps => pxr_pushxyz np xs ps dt) /\
  particlewise (fun np xs ps => pxr_push2dxz np xs ps dt).
Proof.
  repeat split; try apply particlewise_for.
  unfold pxr_ebcancelpush3d. destruct (which =? 0)%Z; [apply particlewise_for|].
  destruct (which =? 1)%Z; [apply particlewise_for|]. destruct (which =? 2)%Z; [apply particlewise_for|].
  intros ps fs H. exists ps. split; [reflexivity|]. split; [reflexivity|]. intros i p f H1 H2. exists p. auto.
Qed.

Lemma vay_other (N : NumOps) (K : Consts N) np ps fs q m dt which : (which <> 0 -> which <> 1 -> which <> 2 ->
  pxr_ebcancelpush3d K np ps fs q m dt which = Ret ps)%Z.
Proof.
  intros H0 H1 H2. unfold pxr_ebcancelpush3d. apply Z.eqb_neq in H0, H1, H2. now rewrite H0, H1, H2.
Qed.

Section X.
Variable tg : R -> R.
Variables c mu e p q m dt : R.
Hypothesis Hc : 0 < c.
Hypothesis Hm : m <> 0.
Notation K := (Constants tg c mu e p).
Notation k := (q * dt / (2 * m)).
Notation Q := (Fin q : num (RX tg)). Notation M := (Fin m : num (RX tg)). Notation D := (Fin dt : num (RX tg)).

Lemma lorentz_only u E B uL : boris_step c k u E B uL -> uL = lorentz c k u E B.
Proof. intros H. apply (boris_step_unique c k u E B); [exact H|]. apply (proj1 (borisR_step c k E B u 0)). Qed.

Lemma lorentz_free u : boris_step c k u zero3 zero3 u.
Proof. exists u, u. repeat split; r3f; ring. Qed.

Lemma B08_formula u g E B uL : 0 < e -> 0 < p -> boris_step c k u E B uL -> middle u uL <> zero3 ->
  let u' := sub3 uL (scale3 (B08_friction c e p q m dt E B (middle u uL)) (middle u uL)) in
  pxr_boris_push_rr_B08_u_3d K 1 [Part tg (u, g)] [Field tg (E, B)] Q M D = Ret [Part tg (u', inv_gamma c u')].
Proof. intros He Hp HL Hh. rewrite (lorentz_only _ _ _ _ HL) in *. now apply B08_alone. Qed.

Lemma B08_friction_nonneg E B h : 0 < e -> 0 < p -> 0 < m -> 0 <= dt -> 0 <= B08_friction c e p q m dt E B h.
Proof.
  intros He Hp Hm' Hdt. unfold B08_friction. apply Rmult_le_pos; [|apply dot3_nonneg].
  assert (Hg := inv_gamma_pos c h Hc).
  apply Rmult_le_pos; [|left; apply Rinv_0_lt_compat; repeat (apply Rmult_lt_0_compat; try lra)].
  apply Rmult_le_pos; [|exact Hdt]. apply Rmult_le_pos; [lra|].
  replace (q * q * q * q) with ((q * q) * (q * q)) by ring. nra.
Qed.

Lemma B08_stuck u g E B uL : 0 < e -> 0 < p -> boris_step c k u E B uL -> middle u uL = zero3 ->
  pxr_boris_push_rr_B08_u_3d K 1 [Part tg (u, g)] [Field tg (E, B)] Q M D = Ret [@Mom (RX tg) NaN NaN NaN NaN].
Proof. intros He Hp HL Hh. rewrite (lorentz_only _ _ _ _ HL) in *. now apply B08_rest. Qed.

Lemma S09_formula u g E B uL : dt <> 0 -> q <> 0 -> mu <> 0 -> boris_step c k u E B uL ->
  let t0i := 6 * p * m * c / (mu * (q * q)) in
  t0i + 1 / (c * c) * inv_gamma c (middle u uL) * dot3 (middle u uL) (scale3 (1 / dt) (sub3 uL u)) <> 0 ->
  exists u', S09_step c q m dt t0i u uL B u' /\
  pxr_boris_push_rr_S09_u_3d K 1 [Part tg (u, g)] [Field tg (E, B)] Q M D = Ret [Part tg (u', inv_gamma c u')].
Proof. intros H1 H2 H3 HL t0i Hd. rewrite (lorentz_only _ _ _ _ HL) in *. now apply S09_alone. Qed.

Lemma LL_formula u g E0 B0 E B uL : dt <> 0 -> e <> 0 -> p <> 0 -> boris_step c k u E B uL ->
  let u' := add3 uL (scale3 (q * q * q * dt / (6 * p * e * (m * m) * (c * c * c))) (LL_force c q m dt E0 B0 E B (middle u uL))) in
  pxr_boris_push_rr_LL_u_3d K 1 [Part tg (u, g)] [(Field tg (E0, B0), Field tg (E, B))] Q M D = Ret [Part tg (u', inv_gamma c u')].
Proof. intros H1 H2 H3 HL. rewrite (lorentz_only _ _ _ _ HL) in *. now apply LL_alone. Qed.

Lemma middle_same u : middle u u = u.
Proof. unfold middle. r3f; field. Qed.

Lemma RR_free u g : 0 < e -> 0 < p -> dt <> 0 -> q <> 0 -> mu <> 0 ->
  let O := Field tg (zero3, zero3) in
  pxr_boris_push_rr_S09_u_3d K 1 [Part tg (u, g)] [O] Q M D = Ret [Part tg (u, inv_gamma c u)] /\
  pxr_boris_push_rr_LL_u_3d K 1 [Part tg (u, g)] [(O, O)] Q M D = Ret [Part tg (u, inv_gamma c u)] /\
  (u <> zero3 -> pxr_boris_push_rr_B08_u_3d K 1 [Part tg (u, g)] [O] Q M D = Ret [Part tg (u, inv_gamma c u)]).
Proof.
  intros He Hp Hdt Hq Hmu O. subst O. assert (HL := lorentz_free u). split; [|split].
  - assert (Z : sub3 u u = zero3) by (r3f; ring).
    destruct (S09_formula u g zero3 zero3 u Hdt Hq Hmu HL) as (u' & S & E).
    { rewrite Z. replace (dot3 _ (scale3 _ zero3)) with 0 by (unfold dot3, scale3; cbn; ring).
      rewrite Rmult_0_r, Rplus_0_r. unfold Rdiv. repeat apply Rmult_integral_contrapositive_currified; try lra; try assumption.
      apply Rinv_neq_0_compat. repeat apply Rmult_integral_contrapositive_currified; assumption. }
    replace u' with u in E; [exact E|]. symmetry. unfold S09_step in S. cbv zeta in S. rewrite S. unfold S09_dv. cbv zeta. rewrite Z.
    set (h := middle u u). set (x := inv_gamma c h).
    replace (dot3 h (scale3 (1 / dt) zero3)) with 0 by (unfold dot3, scale3; cbn; ring).
    r3f; ring.
  - rewrite (LL_formula u g zero3 zero3 zero3 zero3 u Hdt ltac:(lra) ltac:(lra) HL). cbv zeta.
    set (h := middle u u). set (u' := add3 u _). replace u' with u; [reflexivity|].
    unfold u', LL_force. cbv zeta. r3f; ring.
  - intros Hu. rewrite (B08_formula u g zero3 zero3 u He Hp HL) by now rewrite middle_same. cbv zeta.
    set (u' := sub3 u _). replace u' with u; [reflexivity|].
    unfold u', B08_friction. cbv zeta. set (h := middle u u).
    assert (Hh : dot3 h h <> 0). { unfold h. rewrite middle_same. intros H. now apply dot3_zero in H. }
    unfold Rdiv at 2. replace (dot3 zero3 h) with 0 by (unfold dot3; cbn; ring).
    r3f; ring.
Qed.

Lemma push_speed u x : dt <> 0 -> exists x', pxr_pushxyz 1 [Place tg x] [Part tg (u, inv_gamma c u)] D = Ret [Place tg x'] /\
  sub3 x' x = scale3 dt (scale3 (inv_gamma c u) u) /\ dot3 (sub3 x' x) (sub3 x' x) < (c * dt) * (c * dt).
Proof.
  intros Hdt. eexists. split; [apply pushxyz_alone|]. set (x' := add3 x _).
  assert (E : sub3 x' x = scale3 dt (scale3 (inv_gamma c u) u)) by (unfold x'; r3f; ring).
  split; [exact E|]. rewrite E. assert (H := speed_lt c u Hc). cbv zeta in H. set (v := scale3 (inv_gamma c u) u) in *.
  replace (dot3 (scale3 dt v) (scale3 dt v)) with (dt * dt * dot3 v v) by (unfold dot3, scale3; cbn; ring).
  assert (0 < dt * dt) by nra. nra.
Qed.

Lemma energy_nonneg (gs : list R) mass weight : (forall g, In g gs -> 0 < g <= 1) -> 0 <= mass * weight ->
  exists w, compute_kin_energy_vector K (Z.of_nat (length gs)) (map (fun g => Fin g : num (RX tg)) gs) (Fin mass : num (RX tg)) (Fin weight : num (RX tg))
    = Ret (Fin w) /\ 0 <= w.
Proof.
  intros Hg Hw. eexists. split; [apply kin_energy|].
  - intros g H. specialize (Hg g H). lra.
  - induction gs as [|g gs IH]; cbn [map fold_right]; [lra|].
    apply Rplus_le_le_0_compat; [|apply IH; intros; apply Hg; now right].
    destruct (Hg g (or_introl eq_refl)) as [H1 H2]. apply Rmult_le_pos.
    + assert (1 <= 1 / g); [|lra]. apply Rmult_le_reg_r with g; [lra|]. replace (1 / g * g) with 1 by (field; lra). lra.
    + replace (mass * (c * c) * weight) with (c * c * (mass * weight)) by ring. apply Rmult_le_pos; nra.
Qed.

Lemma magnetic_energy (parts : list (R3 * R)) (fields : list (R3 * R3)) mass weight : length parts = length fields ->
  (forall u g, In (u, g) parts -> g = inv_gamma c u) -> (forall E B, In (E, B) fields -> E = zero3) ->
  let np := Z.of_nat (length parts) in
  exists ps', pxr_boris_push_u_3d K np (map (Part tg) parts) (map (Field tg) fields) Q M D = Ret ps' /\
    compute_kin_energy_vector K np (map gi ps') mass weight
    = compute_kin_energy_vector K np (map gi (map (Part tg) parts)) mass weight.
Proof.
  intros Hl Hg HE np. destruct (boris_magnetic tg c mu e p q m dt Hc Hm parts fields Hl) as (parts' & E1 & L & H).
  exists (map (Part tg) parts'). split; [exact E1|]. f_equal. rewrite !map_map.
  assert (X : forall l l' : list (R3 * R), length l' = length l ->
    (forall i a b, nth_error l i = Some a -> nth_error l' i = Some b -> snd b = snd a) ->
    map (fun a => gi (Part tg a)) l' = map (fun a => gi (Part tg a)) l).
  { induction l as [|[u g] l IH]; intros [|[u' g'] l'] EL Hi; try discriminate; [reflexivity|].
    cbn [map]. f_equal; [|apply IH; [now injection EL|intros i; exact (Hi (S i))]].
    cbn [Part gi]. f_equal. exact (Hi O (u, g) (u', g') eq_refl eq_refl). }
  apply X; [exact L|]. intros i [u g] [u' g'] H1 H2. cbn [snd].
  destruct (nth_error fields i) as [[E B]|] eqn:H3.
  - apply (proj2 (H i u g E B u' g' H1 H3 H2 (HE E B (nth_error_In _ _ H3)))). apply Hg. now apply nth_error_In in H1.
  - exfalso. apply nth_error_None in H3. assert (nth_error parts i <> None) by congruence. apply nth_error_Some in H0. lia.
Qed.
End X.

(** concrete cases *)
Lemma ex_push : exists uL, boris_step 1 (1 * (1 / 2) / (2 * 1)) (mk3 1 2 3) (mk3 1 0 0) (mk3 0 0 0) uL /\ middle (mk3 1 2 3) uL <> zero3.
Proof.
  exists (mk3 (1 + 1 / 2) 2 3). split.
  - exists (mk3 (1 + 1 / 4) 2 3), (mk3 (1 + 1 / 4) 2 3). split; [|split]; r3f; field.
  - unfold middle, add3, scale3, zero3. cbn [x3 y3 z3]. intros H. injection H. intros. lra.
Qed.

Lemma ex_rest : boris_step 1 (1 * (1 / 2) / (2 * 1)) zero3 zero3 (mk3 0 0 5) zero3 /\ middle zero3 zero3 = zero3.
Proof. split; [exists zero3, zero3; split; [|split]; r3f; ring|unfold middle; r3f; field]. Qed.

Lemma ex_drift : let u := mk3 (3 / 4) 0 0 in let g := inv_gamma 1 u in
  g = 4 / 5 /\ add3 (mk3 0 (3 / 5) 0) (cross3 (scale3 g u) (mk3 0 0 1)) = zero3.
Proof.
  assert (E : inv_gamma 1 (mk3 (3 / 4) 0 0) = 4 / 5).
  { unfold inv_gamma, dot3. cbn [x3 y3 z3].
    replace (1 + (3 / 4 * (3 / 4) + 0 * 0 + 0 * 0) / (1 * 1)) with ((5 / 4) * (5 / 4)) by field.
    rewrite sqrt_square by lra. field. }
  cbv zeta. rewrite E. split; [reflexivity|]. r3f; field.
Qed.
