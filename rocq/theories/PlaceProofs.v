(** Where the pairs of the test program appear. *)
From Coq Require Import ZArith Reals List Bool Permutation Lia Lra.
From Verif Require Import Cxx Num NumRX CxxLemmas LookupTables VecFun SpecPhys ChiProofs Units Oracles BreitWheeler TestProgram TestMain SpecSpecies SpeciesProofs SpeciesHistory SpecMotion MotionProofs SpecMain MainProofs.
Import ListNotations.
Local Open Scope R_scope.

Lemma born_places {N : NumOps} (U : Units N) (G : Rng N) eng qs ne np eng' : born U G eng qs ne np eng' ->
  Forall (fun e => exists q, In q qs /\ q_x e = q_x q) ne /\ Forall (fun e => exists q, In q qs /\ q_x e = q_x q) np.
Proof.
  induction 1 as [|eng eng1 eng2 q qs pe we pp wp els pos Hg Hb [IH1 IH2]]; split; constructor.
  - exists q. split; [now left|reflexivity].
  - eapply Forall_impl; [|exact IH1]. cbn. intros e (q' & H & E). exists q'. auto.
  - exists q. split; [now left|reflexivity].
  - eapply Forall_impl; [|exact IH2]. cbn. intros e (q' & H & E). exists q'. auto.
Qed.

Lemma move_twice tg dt d x p : p <> zero3 ->
  move (@p0_phot (RX tg)) (Fin d) (move (@p0_phot (RX tg)) (Fin dt) (F3 tg x) (F3 tg p)) (F3 tg p) = F3 tg (add3 x (scale3 (dt + d) (unit3 p))).
Proof. intros H. rewrite !move_phot_F by exact H. f_equal. apply r3_ext; cbn; ring. Qed.

Lemma Forall2_In_r {A B} (R : A -> B -> Prop) l l' b : Forall2 R l l' -> In b l' -> exists a, In a l /\ R a b.
Proof. induction 1; intros []; [subst; eauto using in_eq|]. destruct IHForall2 as (a & Ha & Hr); auto. exists a. split; [now right|auto]. Qed.

Lemma pairs_created {N : NumOps} (U : Units N) (Orc : Oracles N) (G : Rng N) em dt t eng ph el po x :
  (Z.of_nat (length ph) < 2 ^ 31)%Z -> (Z.of_nat (length el) < 2 ^ 31)%Z -> (Z.of_nat (length po) < 2 ^ 31)%Z ->
  main_step G em dt t (state_of U Orc G eng ph el po) = Ret x ->
  exists eng' ph' ne np,
    x = state_of U Orc G eng' ph' (map (lepton_step em dt t (- n_one)%N) el ++ ne) (map (lepton_step em dt t n_one) po ++ np) /\
    Forall (created U Orc G eng em dt t ph) ne /\ Forall (created U Orc G eng em dt t ph) np.
Proof.
  intros L1 L2 L3 H. apply main_step_spec in H as (qs & ph' & ne & np & eng' & HQ & _ & HB & ->); try assumption.
  exists eng', ph', ne, np. split; [reflexivity|].
  assert (A : forall e, (exists q, In q (filter (@q_flag N) qs) /\ q_x e = q_x q) -> created U Orc G eng em dt t ph e).
  { intros e (q & Hq & Ex). apply filter_In in Hq as [Hq Hf]. destruct (Forall2_In_r _ _ _ _ HQ Hq) as (p & Hp & Hs).
    unfold photon_step in Hs. unfold created. destruct (em (q_x p) t) as [ee bb] eqn:Eem. destruct Hs as (ev & dtp & o & Hev & ->). cbn [q_flag q_x] in *. subst ev.
    exists p, dtp, o. split; [exact Hp|]. rewrite Eem. split; [exact Hev|]. exact Ex. }
  destruct (born_places _ _ _ _ _ _ _ HB) as [B1 B2]. split; (eapply Forall_impl; [|eassumption]); intros e He; apply A, He.
Qed.

Lemma pair_places tg (U : Units (RX tg)) (Orc : Oracles (RX tg)) (G : Rng (RX tg)) em dt t eng rs el po x :
  (Z.of_nat (length rs) < 2 ^ 31)%Z -> (Z.of_nat (length el) < 2 ^ 31)%Z -> (Z.of_nat (length po) < 2 ^ 31)%Z ->
  Forall (fun r => r_p r <> zero3) rs ->
  main_step G em (Fin dt) t (state_of U Orc G eng (map (FP tg) rs) el po) = Ret x ->
  exists eng' ph' ne np,
    x = state_of U Orc G eng' ph' (map (lepton_step em (Fin dt) t (- n_one)%N) el ++ ne) (map (lepton_step em (Fin dt) t n_one) po ++ np) /\
    Forall (appears tg U Orc G eng em dt t rs) ne /\ Forall (appears tg U Orc G eng em dt t rs) np.
Proof.
  intros L1 L2 L3 HP H. apply pairs_created in H as (eng' & ph' & ne & np & -> & H1 & H2); try (rewrite ?map_length; assumption).
  exists eng', ph', ne, np. split; [reflexivity|].
  assert (A : forall e, created U Orc G eng em (Fin dt) t (map (FP tg) rs) e -> appears tg U Orc G eng em dt t rs e).
  { intros e (p & dtp & o & Hp & He & Ex). apply in_map_iff in Hp as (r & <- & Hr). cbn [FP q_x q_p q_opt] in *.
    exists r, dtp, o. split; [exact Hr|]. split; [exact He|]. intros d ->. rewrite Ex. apply move_twice.
    rewrite Forall_forall in HP. auto. }
  split; (eapply Forall_impl; [|eassumption]); intros e He; apply A, He.
Qed.
