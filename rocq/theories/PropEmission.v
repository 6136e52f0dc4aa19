(** Properties C43-C45, C58, C59: photon emission of the quantum synchrotron
    engine (src/multi_physics/QED/src/quantum_sync_engine.hpp).
    [qs_generate x p E B weight sampling] is generate_photons_and_update_momentum:
    photons with their weights, the updated momentum, the engine afterwards. *)
From Coq Require Import ZArith Reals List Bool Lra Lia.
From Flocq Require Import Core BinarySingleNaN.
From Verif Require Import Cxx Num NumRX NumIEEE Utilities LookupTables VecFun Units ChiFun Oracles OmpFor BreitWheeler QuantumSync.
From Verif Require Import RXLemmas Spec SpecPhys SpecQED UtilitiesProofs ChiProofs OmpProofs PairProofs EmissionProofs EmissionIEEE.
Import ListNotations.
Local Open Scope R_scope.

(** *** C43 *)
Theorem C43_momentum_conserved : forall tg si (G : Rng (RX tg)) (x : qs_engine G) p E B w sampling a b n np v chi,
  qc_tem_min (qe_ctrl x) = Fin a -> qc_tem_max (qe_ctrl x) = Fin b -> emission_table (qe_cum x) a b n np v ->
  unit_rng G -> (0 < sampling)%Z ->
  chi_lepton (units si) (F3 tg p) (F3 tg E) (F3 tg B) (qe_lambda x) = Fin chi -> 0 < chi -> p <> zero3 ->
  exists phs pf x' ks, qs_generate (units si) G x (F3 tg p) (F3 tg E) (F3 tg B) (Fin w) sampling = Ret (phs, F3 tg pf, x') /\
    zlen phs = sampling /\
    Forall2 (fun q k => q = (F3 tg k, Fin (w / IZR sampling)) /\ exists s, 0 < s /\ k = scale3 s p) phs ks /\
    add3 (scale3 w pf) (sum3 (map (scale3 (w / IZR sampling)) ks)) = scale3 w p.
Proof. exact emission_conserves. Qed.
Print Assumptions C43_momentum_conserved.

(** every table whatever its contents, every generator, every field: as soon as
    the call returns photons whose momenta are numbers *)
Theorem C43_any_table : forall tg (U : Units (RX tg)) (G : Rng (RX tg)) (x x' : qs_engine G) p e b weight sampling phs pf ks, (0 < sampling)%Z ->
  qs_generate U G x (F3 tg p) e b weight sampling = Ret (phs, pf, x') -> map fst phs = map (F3 tg) ks ->
  pf = F3 tg (sub3 p (scale3 (/ IZR sampling) (sum3 ks))).
Proof. exact qs_generate_conserves. Qed.
Print Assumptions C43_any_table.

(** *** C44 *)
(** every photon is parallel to the lepton and carries the share f of its kinetic
    energy, 0 < f <= 1; the lepton keeps its direction *)
Theorem C44_fractions_and_direction : forall tg si (G : Rng (RX tg)) (x : qs_engine G) p E B weight sampling a b n np v chi,
  qc_tem_min (qe_ctrl x) = Fin a -> qc_tem_max (qe_ctrl x) = Fin b -> emission_table (qe_cum x) a b n np v ->
  unit_rng G -> (0 < sampling)%Z ->
  chi_lepton (units si) (F3 tg p) (F3 tg E) (F3 tg B) (qe_lambda x) = Fin chi -> 0 < chi -> p <> zero3 ->
  exists phs pf x' fs L, qs_generate (units si) G x (F3 tg p) (F3 tg E) (F3 tg B) weight sampling = Ret (phs, F3 tg pf, x') /\
    fraction_at a b n np v chi L /\
    Forall2 (fun u f => 0 < f <= 1 /\ exists r, u = Fin r /\ emitted_fraction np L r f) (fst (draw_unf G (Z.to_nat sampling) (qe_rng x))) fs /\
    Forall2 (fun q f => exists k, fst q = F3 tg k /\ unit3 k = unit3 p /\
               norm3 k * nu_c si = f * ((lorentz (nu_m si) (nu_c si) p - 1) * (nu_m si * nu_c si * nu_c si))) phs fs /\
    exists q, 0 < q < 1 /\ pf = scale3 q p.
Proof. exact emission_fractions. Qed.
Print Assumptions C44_fractions_and_direction.

(** the tables the engine generates are of this kind, for every root finder that
    returns a number of the sign of the guess *)
Theorem C44_generated_tables : forall tg (Orc : Oracles (RX tg)) (c : qs_ctrl (RX tg)) garbage a b n np,
  emit_ctrl c a b n np -> root_keeps_sign Orc ->
  exists t, qs_cumulative_table Orc c garbage = Ret t /\ t2_init t = true /\
  exists v, emission_table t a b n np v.
Proof. exact generated_emission_table. Qed.
Print Assumptions C44_generated_tables.

(** the hypotheses hold for a generated table, a generator and a lepton *)
Definition keep_oracles tg : Oracles (RX tg) :=
  Build_Oracles (RX tg) (fun _ a b => x_sub b a) (fun _ _ => Fin 1) (fun _ _ => Fin 1) (fun _ g _ => g).
Definition third_rng tg : Rng (RX tg) := Build_Rng (RX tg) unit (fun _ => tt) (fun s _ _ => (Fin (1 / 3), s)) (fun s _ => (Fin 1, s)).

Example C43_nonvacuous : forall tg, exists (x : qs_engine (third_rng tg)) a b n np v p E B chi,
  qs_cumulative_table (keep_oracles tg) (qe_ctrl x) (Fin 0) = Ret (qe_cum x) /\
  qc_tem_min (qe_ctrl x) = Fin a /\ qc_tem_max (qe_ctrl x) = Fin b /\ emission_table (qe_cum x) a b n np v /\
  unit_rng (third_rng tg) /\
  chi_lepton (units false) (F3 tg p) (F3 tg E) (F3 tg B) (qe_lambda x) = Fin chi /\ 0 < chi /\ p <> zero3.
Proof.
  intros tg. set (c := mk_qs_ctrl (RX tg) (Fin 0) (Fin 1) (Fin 2) 2 (Fin 1) (Fin 100) 3 4).
  assert (Hc : emit_ctrl c 1 100 3 4). { unfold emit_ctrl, c. cbn. repeat split; try lra; lia. }
  assert (HO : root_keeps_sign (keep_oracles tg)). { intros f g Hg. exists g. split; [exact Hg|reflexivity]. }
  destruct (C44_generated_tables tg (keep_oracles tg) c (Fin 0) 1 100 3 4 Hc HO) as (t & Et & _ & v & Hv).
  destruct (chi_lepton_rest_frame tg) as (p & E & bb & chi & _ & _ & Hchi & Hpos & _).
  exists (@mk_qs (RX tg) (third_rng tg) (Fin 1) tt c lookup_1d_empty t), 1, 100, 3%nat, 4%nat, v, p, E, zero3, chi.
  split; [exact Et|]. split; [reflexivity|]. split; [reflexivity|]. split; [exact Hv|].
  split. { intros s. exists (1 / 3), s. split; [reflexivity|lra]. }
  split; [exact Hchi|]. split; [exact Hpos|]. intros ->. rewrite (chi_lepton_zero tg) in Hchi. injection Hchi as <-. lra.
Qed.

(** *** C45 *)
(** exact arithmetic, every table: the column read is the floor of
    (number of intervals) * u and has a right neighbour; no other column is read *)
Theorem C45_exact : forall tg (t : lookup_2d (RX tg)) chi lc g mec n3 r,
  (2 <= length (t2_y t))%nat -> (zlen (t2_y t) < 2 ^ 31)%Z -> 0 <= r < 1 ->
  exists k, (S k < length (t2_y t))%nat /\ INR k <= INR (length (t2_y t) - 1) * r < INR k + 1 /\
  exists q : num (RX tg) -> num (RX tg) -> vec3 (RX tg),
  @qs_one_photon (RX tg) chi lc g mec n3 t (Fin r)
  = (do l <- interp2_linear_first_equispaced t (n_log lc) (Z.of_nat k);
     do r <- interp2_linear_first_equispaced t (n_log lc) (Z.of_nat k + 1);
     Ret (q l r)).
Proof. exact one_photon_columns_exact. Qed.
Print Assumptions C45_exact.

(** IEEE arithmetic of every format (binary64: prec = 53, emax = 1024; binary32:
    prec = 24, emax = 128), every mathematical library, every table with at most
    2^prec intervals, every finite u below one *)
Theorem C45_ieee : forall prec emax (Hp : Prec_gt_0 prec) (He : Prec_lt_emax prec emax), (3 <= emax)%Z ->
  forall (lm : Libm (binary_float prec emax)) (t : lookup_2d (IEEE prec emax Hp He lm)) chi lc g mec n3 (u : binary_float prec emax),
  (2 <= length (t2_y t))%nat -> (zlen (t2_y t) - 1 <= 2 ^ prec)%Z -> (zlen (t2_y t) < 2 ^ 31)%Z -> is_finite u = true -> 0 <= B2R u < 1 ->
  let k := Zfloor (round radix2 (SpecFloat.fexp prec emax) ZnearestE (IZR (zlen (t2_y t) - 1) * B2R u)) in
  (0 <= k < zlen (t2_y t) - 1)%Z /\
  exists q : num _ -> num _ -> vec3 _,
  @qs_one_photon (IEEE prec emax Hp He lm) chi lc g mec n3 t u
  = (do l <- interp2_linear_first_equispaced t (n_log lc) k;
     do r <- interp2_linear_first_equispaced t (n_log lc) (k + 1);
     Ret (q l r)).
Proof. exact one_photon_columns. Qed.
Print Assumptions C45_ieee.

(** the bound u < 1 is needed: at u = 1, which std::uniform_real_distribution<float>
    is known to return, every table is read behind its end *)
Theorem C45_one_refuted : forall prec emax (Hp : Prec_gt_0 prec) (He : Prec_lt_emax prec emax), (3 <= emax)%Z ->
  forall (lm : Libm (binary_float prec emax)) (t : lookup_2d (IEEE prec emax Hp He lm)) chi lc g mec n3,
  (2 <= length (t2_y t))%nat -> (zlen (t2_y t) - 1 <= 2 ^ prec)%Z -> (zlen (t2_y t) < 2 ^ 31)%Z ->
  @qs_one_photon (IEEE prec emax Hp He lm) chi lc g mec n3 t (ieee_of_Z prec emax Hp He 1) = UB.
Proof. exact one_photon_at_one. Qed.
Print Assumptions C45_one_refuted.

(** the largest double below one on a table of 7 intervals *)
Example C45_nonvacuous : exists u : b64, is_finite u = true /\ 0 <= B2R u < 1 /\
  ieee_floor_size 53 1024 (@Bmult 53 1024 prec53 emax1024 mode_NE (ieee_of_Z 53 1024 prec53 emax1024 7) u) = Some 6%Z.
Proof.
  exists (@Bpred 53 1024 prec53 emax1024 (ieee_of_Z 53 1024 prec53 emax1024 1)). split; [vm_compute; reflexivity|]. split; [|vm_compute; reflexivity].
  set (u := @Bpred _ _ _ _ _). assert (E : B2SF u = SpecFloat.S754_finite false 9007199254740991 (-53)) by (vm_compute; reflexivity).
  destruct u as [s|s| |s m e H]; cbn [B2SF] in E; try discriminate E. injection E as -> -> ->.
  cbn [B2R cond_Zopp]. unfold F2R. cbn [Fnum Fexp]. change (bpow radix2 (-53)) with (/ 9007199254740992). lra.
Qed.

(** *** C58 *)
(** energies in units of m c^2: momentum is conserved, so energy is not *)
Theorem C58_energy_created : forall tg si (G : Rng (RX tg)) (x : qs_engine G) p E B weight sampling a b n np v chi,
  qc_tem_min (qe_ctrl x) = Fin a -> qc_tem_max (qe_ctrl x) = Fin b -> emission_table (qe_cum x) a b n np v ->
  unit_rng G -> (0 < sampling)%Z ->
  chi_lepton (units si) (F3 tg p) (F3 tg E) (F3 tg B) (qe_lambda x) = Fin chi -> 0 < chi -> p <> zero3 ->
  let mc := nu_m si * nu_c si in let gamma := lorentz (nu_m si) (nu_c si) in
  exists phs pf x' ks, qs_generate (units si) G x (F3 tg p) (F3 tg E) (F3 tg B) weight sampling = Ret (phs, F3 tg pf, x') /\
    map fst phs = map (F3 tg) ks /\
    gamma p < gamma pf + sumR (map norm3 ks) / IZR sampling / mc < gamma p + 1.
Proof. exact emission_energy. Qed.
Print Assumptions C58_energy_created.
(** hypotheses: C43_nonvacuous *)

(** *** C59 *)
Theorem C59_counts_weights_draws : forall (N : NumOps) (U : Units N) (G : Rng N) (x x' : qs_engine G) p e b weight sampling phs pf, (0 <= sampling)%Z ->
  qs_generate U G x p e b weight sampling = Ret (phs, pf, x') ->
  zlen phs = sampling /\
  (forall q, In q phs -> snd q = (weight / n_of_Z sampling)%N) /\
  qe_rng x' = nth_state G (Z.to_nat sampling) (qe_rng x) /\
  qe_lambda x' = qe_lambda x /\ qe_ctrl x' = qe_ctrl x /\ qe_KK x' = qe_KK x /\ qe_cum x' = qe_cum x.
Proof. exact @qs_generate_count. Qed.
Print Assumptions C59_counts_weights_draws.

Theorem C59_weights_add_up : forall tg U (G : Rng (RX tg)) (x x' : qs_engine G) p e b w sampling phs pf, (0 < sampling)%Z ->
  qs_generate U G x p e b (Fin w) sampling = Ret (phs, pf, x') -> sum_weights (map snd phs) = Fin w.
Proof. exact qs_generate_weight_sum. Qed.
Print Assumptions C59_weights_add_up.

Theorem C59_sampling_zero : forall (N : NumOps) (U : Units N) (G : Rng N) (x : qs_engine G) p e b weight,
  exists x', qs_generate U G x p e b weight 0 = Ret ([], p, x') /\ qe_rng x' = qe_rng x.
Proof. exact @qs_generate_zero. Qed.
Print Assumptions C59_sampling_zero.

Example C59_nonvacuous : forall tg, exists (x : qs_engine (third_rng tg)) p e b phs pf x',
  qs_generate (units false) (third_rng tg) x p e b (Fin 1) 5 = Ret (phs, pf, x').
Proof.
  intros tg. destruct (C43_nonvacuous tg) as (x & a & b & n & np & v & p & E & B & chi & _ & H1 & H2 & H3 & H4 & H5 & H6 & H7).
  destruct (C43_momentum_conserved tg false (third_rng tg) x p E B 1 5 a b n np v chi H1 H2 H3 H4 ltac:(lia) H5 H6 H7) as (phs & pf & x' & ks & H & _).
  do 7 eexists. exact H.
Qed.
