(** Proofs about histories of the field solver, and its symmetries. *)
From Coq Require Import ZArith Reals List Bool Lia Lra.
From Verif Require Import Cxx Num NumRX Fortran Grid Pushers Yee SpecYee SpecSolver CxxLemmas RXLemmas FortranLemmas GridLemmas YeeReal YeeProofs YeePush YeeDiv YeePush2 YeeFacts.
Import ListNotations.
Local Open Scope R_scope.

Section X.
Context {tg : R -> R}.
Notation N := (RX tg).
Notation gridX := (grid (num N)).
Notation fieldX := (field (num N)).

Lemma cells_in S q p : well_set S q -> in_box cells_lo (cells_hi S) p = true -> in_box (alo S) (ahi S) p = true.
Proof.
  intros (G & _) I. destruct p as [[j k] l]. unfold cells_lo, cells_hi, alo, ahi in *. rewrite in_box_iff in *.
  destruct (second_order S); cbn iota zeta in G; lia.
Qed.

Lemma guards_real S q F F' f : well_set S q -> @is_field tg S F f -> guards_changed S F F' ->
  exists f', is_field S F' f' /\ forall p, in_box cells_lo (cells_hi S) p = true ->
    comp_x f' p = comp_x f p /\ comp_y f' p = comp_y f p /\ comp_z f' p = comp_z f p.
Proof.
  intros W (Fx & Fy & Fz) ((f' & F'x & F'y & F'z) & A). exists f'. split; [split; [exact F'x | split; [exact F'y | exact F'z]]|].
  intros p I. pose proof (cells_in S q p W I) as I'. destruct (A p I) as (A1 & A2 & A3).
  destruct Fx as (_ & _ & Vx), Fy as (_ & _ & Vy), Fz as (_ & _ & Vz).
  destruct F'x as (_ & _ & V'x), F'y as (_ & _ & V'y), F'z as (_ & _ & V'z).
  rewrite Vx, V'x in A1 by exact I'. rewrite Vy, V'y in A2 by exact I'. rewrite Vz, V'z in A3 by exact I'.
  injection A1 as A1. injection A2 as A2. injection A3 as A3. auto.
Qed.

Lemma div_fwd_agree s (a b p : idx) (f f' : rfield) :
  reaches (fun d => ist s - half_order s d)%Z (half_order s) a b p -> (0 <= ist s <= 1)%Z ->
  (forall q, in_box a b q = true -> comp_x f' q = comp_x f q /\ comp_y f' q = comp_y f q /\ comp_z f' q = comp_z f q) ->
  div (fwd s) f' p = div (fwd s) f p.
Proof.
  intros Re Hi U. rewrite (div_fwd_update s a b p f f' (RField (fun _ => 0) (fun _ => 0) (fun _ => 0)) 0 Re Hi).
  - lra.
  - intros r I. destruct (U r I) as (-> & -> & ->). repeat split; lra.
Qed.
Lemma div_bwd_agree s (a b p : idx) (f f' : rfield) :
  reaches (fun d => - half_order s d)%Z (fun d => half_order s d - ist s)%Z a b p -> (0 <= ist s <= 1)%Z ->
  (forall q, in_box a b q = true -> comp_x f' q = comp_x f q /\ comp_y f' q = comp_y f q /\ comp_z f' q = comp_z f q) ->
  div (bwd s) f' p = div (bwd s) f p.
Proof.
  intros Re Hi U. rewrite (div_bwd_update s a b p f f' (RField (fun _ => 0) (fun _ => 0) (fun _ => 0)) 0 Re Hi).
  - lra.
  - intros r I. destruct (U r I) as (-> & -> & ->). repeat split; lra.
Qed.

Theorem history S q c mu s0 s1 : well_set S q -> c <> 0 -> mu <> 0 -> @fsteps tg S q c mu s0 s1 ->
  forall E0 B0 rho0 E1 B1 rho1 e0 b0, s0 = (E0, B0, rho0) -> s1 = (E1, B1, rho1) -> is_field S E0 e0 -> is_field S B0 b0 ->
  exists e1 b1, is_field S E1 e1 /\ is_field S B1 b1 /\
   (forall p, inner_fwd S q p -> div (fwd (formulas S q)) b1 p = div (fwd (formulas S q)) b0 p) /\
   (forall p, inner_bwd S q p ->
     div (bwd (formulas S q)) e1 p - rho1 p * (mu * c ^ 2) = div (bwd (formulas S q)) e0 p - rho0 p * (mu * c ^ 2)).
Proof.
  intros W Hc Hm H. induction H as [s | s1 s2 s3 H IH St]; intros E0 B0 rho0 E1 B1 rho1 e0 b0 -> Q FE FB.
  - injection Q as <- <- <-. exists e0, b0. auto.
  - inversion St as [E B B' rho P Q1 Q2 | E B J E' j rho rho' FJ P C Q1 Q2 | E B E' B' rho GE GB Q1 Q2]; subst.
    + symmetry in Q2. injection Q2 as -> -> ->.
      destruct (IH E0 B0 rho0 _ _ _ e0 b0 eq_refl eq_refl FE FB) as (e1 & b1 & F1 & F2 & D1 & D2).
      destruct (push_bfield_div S q _ _ e1 b1 W F1 F2) as (B'' & b' & P' & F2' & D').
      rewrite P in P'. injection P' as <-. exists e1, b'. split; [exact F1|]. split; [exact F2'|]. split.
      * intros p I. rewrite D' by apply I. apply D1; exact I.
      * exact D2.
    + symmetry in Q2. injection Q2 as -> -> ->.
      destruct (IH E0 B0 rho0 _ _ _ e0 b0 eq_refl eq_refl FE FB) as (e1 & b1 & F1 & F2 & D1 & D2).
      destruct (push_efield_div c mu S q _ _ _ e1 b1 j W F1 F2 FJ) as (E'' & e' & P' & F1' & D').
      rewrite P in P'. injection P' as <-. exists e', b1. split; [exact F1'|]. split; [exact F2|]. split; [exact D1|].
      intros p I. rewrite D' by apply I. rewrite C. rewrite <- D2 by exact I. ring.
    + symmetry in Q2. injection Q2 as -> -> ->.
      destruct (IH E0 B0 rho0 _ _ _ e0 b0 eq_refl eq_refl FE FB) as (e1 & b1 & F1 & F2 & D1 & D2).
      destruct (guards_real S q _ _ e1 W F1 GE) as (e' & F1' & A1).
      destruct (guards_real S q _ _ b1 W F2 GB) as (b' & F2' & A2).
      exists e', b'. split; [exact F1'|]. split; [exact F2'|]. split.
      * intros p I. rewrite <- D1 by exact I. eapply div_fwd_agree; [apply I | apply ist_formulas | exact A2].
      * intros p I. rewrite <- D2 by exact I. f_equal. eapply div_bwd_agree; [apply I | apply ist_formulas | exact A1].
Qed.

Corollary history_b S q c mu E0 B0 rho0 E1 B1 rho1 e0 b0 :
  well_set S q -> c <> 0 -> mu <> 0 -> @fsteps tg S q c mu (E0, B0, rho0) (E1, B1, rho1) -> is_field S E0 e0 -> is_field S B0 b0 ->
  exists b1, is_field S B1 b1 /\ forall p, inner_fwd S q p -> div (fwd (formulas S q)) b1 p = div (fwd (formulas S q)) b0 p.
Proof.
  intros W Hc Hm H FE FB. destruct (history S q c mu _ _ W Hc Hm H E0 B0 rho0 E1 B1 rho1 e0 b0 eq_refl eq_refl FE FB) as (e1 & b1 & _ & V & K & _).
  exists b1. split; [exact V | exact K].
Qed.
Corollary history_e S q c mu E0 B0 rho0 E1 B1 rho1 e0 b0 :
  well_set S q -> c <> 0 -> mu <> 0 -> @fsteps tg S q c mu (E0, B0, rho0) (E1, B1, rho1) -> is_field S E0 e0 -> is_field S B0 b0 ->
  exists e1, is_field S E1 e1 /\ forall p, inner_bwd S q p ->
    div (bwd (formulas S q)) e1 p - rho1 p * (mu * c ^ 2) = div (bwd (formulas S q)) e0 p - rho0 p * (mu * c ^ 2).
Proof.
  intros W Hc Hm H FE FB. destruct (history S q c mu _ _ W Hc Hm H E0 B0 rho0 E1 B1 rho1 e0 b0 eq_refl eq_refl FE FB) as (e1 & b1 & V & _ & _ & K).
  exists e1. split; [exact V | exact K].
Qed.
Corollary history_gauss S q c mu E0 B0 rho0 E1 B1 rho1 e0 b0 :
  well_set S q -> c <> 0 -> mu <> 0 -> @fsteps tg S q c mu (E0, B0, rho0) (E1, B1, rho1) -> is_field S E0 e0 -> is_field S B0 b0 ->
  (forall p, inner_bwd S q p -> div (bwd (formulas S q)) e0 p = rho0 p * (mu * c ^ 2)) ->
  exists e1, is_field S E1 e1 /\ forall p, inner_bwd S q p -> div (bwd (formulas S q)) e1 p = rho1 p * (mu * c ^ 2).
Proof.
  intros W Hc Hm H FE FB G. destruct (history_e S q c mu E0 B0 rho0 E1 B1 rho1 e0 b0 W Hc Hm H FE FB) as (e1 & V & K).
  exists e1. split; [exact V|]. intros p I. specialize (K p I). rewrite (G p I) in K. lra.
Qed.

(** ** running backwards *)
Lemma well_set_back S q : well_set S q -> well_set S (backwards q).
Proof. intros H. exact H. Qed.

Lemma is_grid_ext (g : gridX) L H r r' : is_grid g L H r -> (forall p, in_box L H p = true -> r' p = r p) -> is_grid g L H r'.
Proof. intros (A & B & C) E. repeat split; [exact A | exact B |]. intros p I. rewrite E by exact I. apply C; exact I. Qed.
Lemma is_field_ext S (F : fieldX) f f' : is_field S F f ->
  (forall p, in_box (alo S) (ahi S) p = true -> comp_x f' p = comp_x f p /\ comp_y f' p = comp_y f p /\ comp_z f' p = comp_z f p) -> is_field S F f'.
Proof.
  intros (A & B & C) E. split; [|split].
  - eapply is_grid_ext; [exact A|]. intros p I. apply (E p I).
  - eapply is_grid_ext; [exact B|]. intros p I. apply (E p I).
  - eapply is_grid_ext; [exact C|]. intros p I. apply (E p I).
Qed.

(** every point, with the cut formulas *)
Definition b_new (S : Sizes) (q : rsteps) (e b : rfield) : rfield :=
  if second_order S then b3_new S (rdt q / 2 / rdx q) (rdt q / 2 / rdy q) (rdt q / 2 / rdz q) e b
  else bn_new S (map (fun x => rdt q / 2 / rdx q * x) (rcx q)) (map (fun x => rdt q / 2 / rdy q * x) (rcy q)) (map (fun x => rdt q / 2 / rdz q * x) (rcz q)) e b.
Definition e_new (c mu : R) (S : Sizes) (q : rsteps) (e b j : rfield) : rfield :=
  if second_order S then e3_new S (c * c * mu * rdt q) (c * c * rdt q / rdx q) (c * c * rdt q / rdy q) (c * c * rdt q / rdz q) e b j
  else en_new S (c * c * mu * rdt q) (map (fun x => c * c * rdt q / rdx q * x) (rcx q)) (map (fun x => c * c * rdt q / rdy q * x) (rcy q)) (map (fun x => c * c * rdt q / rdz q * x) (rcz q)) e b j.

Theorem push_bfield_new S q E B e b : well_set S q -> is_field S E e -> is_field S B b ->
  exists B', push_bfield S (steps_of q) E B = Ret B' /\ @is_field tg S B' (b_new S q e b).
Proof.
  intros (G & (Hx & Hy & Hz) & W) FE FB. unfold push_bfield, b_new. fold (second_order S).
  cbn [dt dx dy dz xcoeffs ycoeffs zcoeffs steps_of]. rewrite !half_over by assumption.
  destruct (second_order S) eqn:O; cbn iota zeta in G.
  - apply bvec_real; [unfold fits1; lia | assumption | assumption].
  - destruct (W eq_refl) as (Lx & Ly & Lz).
    rewrite (map_coef (rdt q / 2 / rdx q) (rcx q)), (map_coef (rdt q / 2 / rdy q) (rcy q)), (map_coef (rdt q / 2 / rdz q) (rcz q)) by reflexivity.
    apply bvec_norder_real; [unfold fits; lia | unfold lens; rewrite !zlen_map'; auto | assumption | assumption].
Qed.
Theorem push_efield_new c mu S q E B J e b j_ : well_set S q -> is_field S E e -> is_field S B b -> is_field S J j_ ->
  exists E', push_efield (consts_of c mu) S (steps_of q) E B J = Ret E' /\ @is_field tg S E' (e_new c mu S q e b j_).
Proof.
  intros (G & (Hx & Hy & Hz) & W) FE FB FJ. unfold push_efield, e_new. fold (second_order S).
  cbn [dt dx dy dz xcoeffs ycoeffs zcoeffs steps_of clight mu0 consts_of]. rewrite !c2_over by assumption.
  change (@n_mul N (@n_mul N (@sq N (Fin c : num N)) (Fin mu : num N)) (Fin (rdt q) : num N)) with (Fin (c * c * mu * rdt q) : num N).
  destruct (second_order S) eqn:O; cbn iota zeta in G.
  - apply evec_real; [unfold fits1; lia | assumption | assumption | assumption].
  - destruct (W eq_refl) as (Lx & Ly & Lz).
    rewrite (map_coef (c * c * rdt q / rdx q) (rcx q)), (map_coef (c * c * rdt q / rdy q) (rcy q)), (map_coef (c * c * rdt q / rdz q) (rcz q)) by reflexivity.
    apply evec_norder_real; [unfold fits; lia | unfold lens; rewrite !zlen_map'; auto | assumption | assumption | assumption].
Qed.

Lemma upd_point lo hi f b p v : (in_box lo hi p = true -> f p = v) -> (in_box lo hi p = false -> b p = v) -> upd lo hi f b p = v.
Proof. unfold upd. destruct (in_box lo hi p); auto. Qed.

Ltac unroll := unfold b_new, e_new, b3_new, e3_new, bn_new, en_new, backwards;
  cbn [rdt rdx rdy rdz rcx rcy rcz comp_x comp_y comp_z]; unfold upd.

Lemma b_new_back S q e b p : comp_x (b_new S (backwards q) e (b_new S q e b)) p = comp_x b p /\
  comp_y (b_new S (backwards q) e (b_new S q e b)) p = comp_y b p /\ comp_z (b_new S (backwards q) e (b_new S q e b)) p = comp_z b p.
Proof.
  unroll. destruct (second_order S); cbn [comp_x comp_y comp_z]; (destruct (in_box (slo S) (shi S) p); [|auto]);
    rewrite ?tfwd_scaled; repeat split; unfold Rdiv; ring.
Qed.
Lemma e_new_back c mu S q e b j p : comp_x (e_new c mu S (backwards q) (e_new c mu S q e b j) b j) p = comp_x e p /\
  comp_y (e_new c mu S (backwards q) (e_new c mu S q e b j) b j) p = comp_y e p /\
  comp_z (e_new c mu S (backwards q) (e_new c mu S q e b j) b j) p = comp_z e p.
Proof.
  unroll. destruct (second_order S); cbn [comp_x comp_y comp_z]; (destruct (in_box (slo S) (shi S) p); [|auto]);
    rewrite ?tbwd_scaled; repeat split; unfold Rdiv; ring.
Qed.

Theorem reverse_b S q E B e b : well_set S q -> is_field S E e -> is_field S B b ->
  exists B' B'', push_bfield S (steps_of q) E B = Ret B' /\ push_bfield S (steps_of (backwards q)) E B' = Ret B'' /\ @is_field tg S B'' b.
Proof.
  intros W FE FB. destruct (push_bfield_new S q E B e b W FE FB) as (B' & P & V).
  destruct (push_bfield_new S (backwards q) E B' e _ (well_set_back S q W) FE V) as (B'' & P' & V').
  exists B', B''. split; [exact P|]. split; [exact P'|]. eapply is_field_ext; [exact V'|]. intros p _.
  destruct (b_new_back S q e b p) as (-> & -> & ->). auto.
Qed.
Theorem reverse_e c mu S q E B J e b j : well_set S q -> is_field S E e -> is_field S B b -> is_field S J j ->
  exists E' E'', push_efield (consts_of c mu) S (steps_of q) E B J = Ret E' /\
    push_efield (consts_of c mu) S (steps_of (backwards q)) E' B J = Ret E'' /\ @is_field tg S E'' e.
Proof.
  intros W FE FB FJ. destruct (push_efield_new c mu S q E B J e b j W FE FB FJ) as (E' & P & V).
  destruct (push_efield_new c mu S (backwards q) E' B J _ b j (well_set_back S q W) V FB FJ) as (E'' & P' & V').
  exists E', E''. split; [exact P|]. split; [exact P'|]. eapply is_field_ext; [exact V'|]. intros p _.
  destruct (e_new_back c mu S q e b j p) as (-> & -> & ->). auto.
Qed.

(** ** superposition *)
Lemma tfwd_lin n w t d x y f g p : tfwd n w t d (fun r => x * f r + y * g r) p = x * tfwd n w t d f p + y * tfwd n w t d g p.
Proof. unfold tfwd. rewrite !Sum_rsum, <- !rsum_scal, <- rsum_plus. apply rsum_ext. intros i _. ring. Qed.
Lemma tbwd_lin n w t d x y f g p : tbwd n w t d (fun r => x * f r + y * g r) p = x * tbwd n w t d f p + y * tbwd n w t d g p.
Proof. unfold tbwd. rewrite !Sum_rsum, <- !rsum_scal, <- rsum_plus. apply rsum_ext. intros i _. ring. Qed.

Lemma b_new_lin S q x y e1 e2 b1 b2 p :
  comp_x (b_new S q (comb x y e1 e2) (comb x y b1 b2)) p = comp_x (comb x y (b_new S q e1 b1) (b_new S q e2 b2)) p /\
  comp_y (b_new S q (comb x y e1 e2) (comb x y b1 b2)) p = comp_y (comb x y (b_new S q e1 b1) (b_new S q e2 b2)) p /\
  comp_z (b_new S q (comb x y e1 e2) (comb x y b1 b2)) p = comp_z (comb x y (b_new S q e1 b1) (b_new S q e2 b2)) p.
Proof.
  unfold comb. unroll. destruct (second_order S); cbn [comp_x comp_y comp_z]; (destruct (in_box (slo S) (shi S) p); [|auto]);
    rewrite ?tfwd_lin; repeat split; ring.
Qed.
Lemma e_new_lin c mu S q x y e1 e2 b1 b2 j1 j2 p :
  comp_x (e_new c mu S q (comb x y e1 e2) (comb x y b1 b2) (comb x y j1 j2)) p = comp_x (comb x y (e_new c mu S q e1 b1 j1) (e_new c mu S q e2 b2 j2)) p /\
  comp_y (e_new c mu S q (comb x y e1 e2) (comb x y b1 b2) (comb x y j1 j2)) p = comp_y (comb x y (e_new c mu S q e1 b1 j1) (e_new c mu S q e2 b2 j2)) p /\
  comp_z (e_new c mu S q (comb x y e1 e2) (comb x y b1 b2) (comb x y j1 j2)) p = comp_z (comb x y (e_new c mu S q e1 b1 j1) (e_new c mu S q e2 b2 j2)) p.
Proof.
  unfold comb. unroll. destruct (second_order S); cbn [comp_x comp_y comp_z]; (destruct (in_box (slo S) (shi S) p); [|auto]);
    rewrite ?tbwd_lin; repeat split; ring.
Qed.

Theorem superposition_b S q x y E B e1 b1 e2 b2 E1 B1 E2 B2 : well_set S q ->
  is_field S E1 e1 -> is_field S B1 b1 -> is_field S E2 e2 -> is_field S B2 b2 ->
  is_field S E (comb x y e1 e2) -> is_field S B (comb x y b1 b2) ->
  exists B1' B2' B' b1' b2', push_bfield S (steps_of q) E1 B1 = Ret B1' /\ push_bfield S (steps_of q) E2 B2 = Ret B2' /\
    push_bfield S (steps_of q) E B = Ret B' /\ @is_field tg S B1' b1' /\ @is_field tg S B2' b2' /\ @is_field tg S B' (comb x y b1' b2').
Proof.
  intros W F1 G1 F2 G2 F G.
  destruct (push_bfield_new S q E1 B1 e1 b1 W F1 G1) as (B1' & P1 & V1).
  destruct (push_bfield_new S q E2 B2 e2 b2 W F2 G2) as (B2' & P2 & V2).
  destruct (push_bfield_new S q E B _ _ W F G) as (B' & P & V).
  exists B1', B2', B', (b_new S q e1 b1), (b_new S q e2 b2). repeat (split; [assumption|]).
  eapply is_field_ext; [exact V|]. intros p _. destruct (b_new_lin S q x y e1 e2 b1 b2 p) as (-> & -> & ->). auto.
Qed.
Theorem superposition_e c mu S q x y E B J e1 b1 j1 e2 b2 j2 E1 B1 J1 E2 B2 J2 : well_set S q ->
  is_field S E1 e1 -> is_field S B1 b1 -> is_field S J1 j1 -> is_field S E2 e2 -> is_field S B2 b2 -> is_field S J2 j2 ->
  is_field S E (comb x y e1 e2) -> is_field S B (comb x y b1 b2) -> is_field S J (comb x y j1 j2) ->
  exists E1' E2' E' e1' e2', push_efield (consts_of c mu) S (steps_of q) E1 B1 J1 = Ret E1' /\
    push_efield (consts_of c mu) S (steps_of q) E2 B2 J2 = Ret E2' /\
    push_efield (consts_of c mu) S (steps_of q) E B J = Ret E' /\ @is_field tg S E1' e1' /\ @is_field tg S E2' e2' /\ @is_field tg S E' (comb x y e1' e2').
Proof.
  intros W F1 G1 H1 F2 G2 H2 F G H.
  destruct (push_efield_new c mu S q E1 B1 J1 e1 b1 j1 W F1 G1 H1) as (E1' & P1 & V1).
  destruct (push_efield_new c mu S q E2 B2 J2 e2 b2 j2 W F2 G2 H2) as (E2' & P2 & V2).
  destruct (push_efield_new c mu S q E B J _ _ _ W F G H) as (E' & P & V).
  exists E1', E2', E', (e_new c mu S q e1 b1 j1), (e_new c mu S q e2 b2 j2). repeat (split; [assumption|]).
  eapply is_field_ext; [exact V|]. intros p _. destruct (e_new_lin c mu S q x y e1 e2 b1 b2 j1 j2 p) as (-> & -> & ->). auto.
Qed.

(** ** uniform fields *)
Lemma tfwd_const n w t d x p : tfwd n w t d (fun _ => x) p = 0.
Proof. unfold tfwd. rewrite Sum_rsum. rewrite <- (rsum_0 (zrange 1 n)). apply rsum_ext. intros; ring. Qed.
Lemma tbwd_const n w t d x p : tbwd n w t d (fun _ => x) p = 0.
Proof. unfold tbwd. rewrite Sum_rsum. rewrite <- (rsum_0 (zrange 1 n)). apply rsum_ext. intros; ring. Qed.

Theorem uniform_b S q x y z E B b : well_set S q -> is_field S E (uniform x y z) -> is_field S B b ->
  exists B', push_bfield S (steps_of q) E B = Ret B' /\ @is_field tg S B' b.
Proof.
  intros W FE FB. destruct (push_bfield_new S q E B _ b W FE FB) as (B' & P & V).
  exists B'. split; [exact P|]. eapply is_field_ext; [exact V|]. intros p _.
  unfold uniform. unroll. destruct (second_order S); cbn [comp_x comp_y comp_z]; (destruct (in_box (slo S) (shi S) p); [|auto]);
    rewrite ?tfwd_const; repeat split; ring.
Qed.
Theorem uniform_e c mu S q x y z E B J e : well_set S q -> is_field S E e -> is_field S B (uniform x y z) -> is_field S J (uniform 0 0 0) ->
  exists E', push_efield (consts_of c mu) S (steps_of q) E B J = Ret E' /\ @is_field tg S E' e.
Proof.
  intros W FE FB FJ. destruct (push_efield_new c mu S q E B J e _ _ W FE FB FJ) as (E' & P & V).
  exists E'. split; [exact P|]. eapply is_field_ext; [exact V|]. intros p _.
  unfold uniform. unroll. destruct (second_order S); cbn [comp_x comp_y comp_z]; (destruct (in_box (slo S) (shi S) p); [|auto]);
    rewrite ?tbwd_const; repeat split; ring.
Qed.

(** ** two and three dimensions *)
Lemma fwd_any_flat s d f : (forall j k k' l, f (j, k, l) = f (j, k', l) :> R) -> d = AY -> forall p, fwd s d f p = 0.
Proof.
  intros F -> [[j k] l]. unfold fwd. rewrite Sum_rsum, <- (rsum_0 (zrange 1 (half_order s AY))). apply rsum_ext. intros i _.
  cbn [shift]. rewrite (F j (k + i)%Z (k + (ist s - i))%Z l). ring.
Qed.
Lemma bwd_any_flat s d f : (forall j k k' l, f (j, k, l) = f (j, k', l) :> R) -> d = AY -> forall p, bwd s d f p = 0.
Proof.
  intros F -> [[j k] l]. unfold bwd. rewrite Sum_rsum, <- (rsum_0 (zrange 1 (half_order s AY))). apply rsum_ext. intros i _.
  cbn [shift]. rewrite (F j (k + (i - ist s))%Z (k + - i)%Z l). ring.
Qed.

Theorem plane_b S q E B e b : well_set S q -> well_set_2d S q -> second_order S = true -> (0 <= ny S)%Z ->
  is_field S E e -> is_field S B b -> flat e ->
  exists B3 B2 b3 b2, push_bfield S (steps_of q) E B = Ret B3 /\ push_bfield_2d S 0 (steps_of q) E B = Ret B2 /\
    @is_field tg S B3 b3 /\ @is_field tg S B2 b2 /\
    forall j l, comp_x b3 (j, 0, l)%Z = comp_x b2 (j, 0, l)%Z /\ comp_y b3 (j, 0, l)%Z = comp_y b2 (j, 0, l)%Z /\ comp_z b3 (j, 0, l)%Z = comp_z b2 (j, 0, l)%Z.
Proof.
  intros W W2 O Hn FE FB Fl.
  destruct (push_bfield_real S q E B e b W FE FB) as (B3 & b3 & P3 & V3 & U3 & O3).
  destruct (push_bfield_2d_real S q E B e b W2 FE FB) as (B2 & b2 & P2 & V2 & U2 & O2).
  exists B3, B2, b3, b2. repeat (split; [assumption|]). intros j l.
  assert (O' : second_order_2d S = true).
  { unfold second_order in O. unfold second_order_2d. rewrite !andb_true_iff in O. rewrite andb_true_iff. tauto. }
  assert (K : in_box (slo S) (shi S) (j, 0, l)%Z = in_box (slo2 S 0) (shi2 S 0) (j, 0, l)%Z).
  { apply eq_true_iff_eq. unfold slo, shi, slo2, shi2. rewrite !in_box_iff. destruct W as (G & _). destruct (second_order S); cbn iota zeta in G; lia. }
  destruct (in_box (slo2 S 0) (shi2 S 0) (j, 0, l)%Z) eqn:I.
  - specialize (U2 _ I). specialize (U3 (j, 0, l)%Z). unfold full_lo, full_hi in U3. rewrite O in U3. specialize (U3 K).
    cbv zeta in U2, U3. destruct U2 as (-> & -> & ->), U3 as (-> & -> & ->).
    unfold formulas, formulas_2d. rewrite O, O'. unfold curl. cbn [comp_x comp_y comp_z].
    rewrite !(fwd_any_flat _ AY) by (try reflexivity; intros; apply Fl).
    rewrite !fwd_one_x, !fwd_one_z, !fwd_yee. destruct W as (_ & (Hx & Hy & Hz) & _). repeat split; field; auto.
  - specialize (O2 _ I). specialize (O3 _ K). destruct O2 as (-> & -> & ->), O3 as (-> & -> & ->). auto.
Qed.
Theorem plane_e c mu S q E B J e b j_ : well_set S q -> well_set_2d S q -> second_order S = true -> (0 <= ny S)%Z ->
  is_field S E e -> is_field S B b -> is_field S J j_ -> flat b ->
  exists E3 E2 e3 e2, push_efield (consts_of c mu) S (steps_of q) E B J = Ret E3 /\ push_efield_2d (consts_of c mu) S 0 (steps_of q) E B J = Ret E2 /\
    @is_field tg S E3 e3 /\ @is_field tg S E2 e2 /\
    forall j l, comp_x e3 (j, 0, l)%Z = comp_x e2 (j, 0, l)%Z /\ comp_y e3 (j, 0, l)%Z = comp_y e2 (j, 0, l)%Z /\ comp_z e3 (j, 0, l)%Z = comp_z e2 (j, 0, l)%Z.
Proof.
  intros W W2 O Hn FE FB FJ Fl.
  destruct (push_efield_real c mu S q E B J e b j_ W FE FB FJ) as (E3 & e3 & P3 & V3 & U3 & O3).
  destruct (push_efield_2d_real c mu S q E B J e b j_ W2 FE FB FJ) as (E2 & e2 & P2 & V2 & U2 & O2).
  exists E3, E2, e3, e2. repeat (split; [assumption|]). intros j l.
  assert (O' : second_order_2d S = true).
  { unfold second_order in O. unfold second_order_2d. rewrite !andb_true_iff in O. rewrite andb_true_iff. tauto. }
  assert (K : in_box (slo S) (shi S) (j, 0, l)%Z = in_box (slo2 S 0) (shi2 S 0) (j, 0, l)%Z).
  { apply eq_true_iff_eq. unfold slo, shi, slo2, shi2. rewrite !in_box_iff. destruct W as (G & _). destruct (second_order S); cbn iota zeta in G; lia. }
  destruct (in_box (slo2 S 0) (shi2 S 0) (j, 0, l)%Z) eqn:I.
  - specialize (U2 _ I). specialize (U3 (j, 0, l)%Z). unfold full_lo, full_hi in U3. rewrite O in U3. specialize (U3 K).
    cbv zeta in U2, U3. destruct U2 as (-> & -> & ->), U3 as (-> & -> & ->).
    unfold formulas, formulas_2d. rewrite O, O'. unfold curl. cbn [comp_x comp_y comp_z].
    rewrite !(bwd_any_flat _ AY) by (try reflexivity; intros; apply Fl).
    rewrite !bwd_one_x, !bwd_one_z, !bwd_yee. destruct W as (_ & (Hx & Hy & Hz) & _). repeat split; field; auto.
  - specialize (O2 _ I). specialize (O3 _ K). destruct O2 as (-> & -> & ->), O3 as (-> & -> & ->). auto.
Qed.
End X.

(** ** any arithmetic: out of bounds, and order two of the general solver *)
Local Open Scope Z_scope.
Section G.
Context {N : NumOps}.
Notation fieldN := (field (num N)).

Lemma loop_ub lo hi body (g : grid (num N)) p : ok_body body -> in_box lo hi p = true ->
  run (map snd (body p)) (gat g p) = UB -> loop3 lo hi body g = UB.
Proof.
  intros K I R.
  assert (C : Forall clean (flat_map body (box lo hi))).
  { rewrite Forall_forall. intros s Hs. apply in_flat_map in Hs. destruct Hs as (q & _ & Hs). apply (K q s Hs). }
  destruct (exec_clean _ C g) as [(g' & E)|E]; [|exact E].
  destruct (loop3_sound lo hi body g g' (ok_local _ K) E) as (_ & _ & F).
  destruct (F p) as [F1 _]. rewrite (F1 I) in R. discriminate.
Qed.
Lemma loop_out lo hi body (g : grid (num N)) p s : ok_body body -> In s (body p) -> in_box lo hi p = true ->
  in_box (glo g) (ghi g) p = false -> loop3 lo hi body g = UB.
Proof.
  intros K Hs I O.
  assert (C : Forall clean (flat_map body (box lo hi))).
  { rewrite Forall_forall. intros t Ht. apply in_flat_map in Ht. destruct Ht as (q & _ & Ht). apply (K q t Ht). }
  destruct (exec_clean _ C g) as [(g' & E)|E]; [|exact E].
  apply exec_sound in E. destruct E as (_ & _ & B & _). rewrite <- (proj1 (K p s Hs)) in O. rewrite B in O; [discriminate|].
  apply in_flat_map. exists p. split; [apply in_box_box; exact I | exact Hs].
Qed.
Lemma loop_cl lo hi body (g : grid (num N)) : ok_body body -> cl (loop3 lo hi body g).
Proof.
  intros K. assert (C : Forall clean (flat_map body (box lo hi))).
  { rewrite Forall_forall. intros t Ht. apply in_flat_map in Ht. destruct Ht as (q & _ & Ht). apply (K q t Ht). }
  destruct (exec_clean _ C g) as [(g' & E)|E]; [left; exists g'; exact E | right; exact E].
Qed.

Lemma cl_ub {A B} (m : out A) : cl m -> (do x <- m; UB) = (UB : out B).
Proof. intros [(y & ->)| ->]; reflexivity. Qed.
Lemma get_out (g : grid (num N)) p : in_box (glo g) (ghi g) p = false -> get3 g p = UB.
Proof. unfold get3. intros ->. reflexivity. Qed.
Lemma diff_out1 (g : grid (num N)) p q : in_box (glo g) (ghi g) p = false -> diff g p q = UB.
Proof. intros H. unfold diff. rewrite get_out by exact H. reflexivity. Qed.
Lemma diff_out2 (g : grid (num N)) p q : in_box (glo g) (ghi g) q = false -> diff g p q = UB.
Proof. intros H. unfold diff. destruct (cl_get3 g p) as [(x & ->)| ->]; [|reflexivity]. cbn. rewrite get_out by exact H. reflexivity. Qed.

Lemma out_iff lo hi p : in_box lo hi p = false <-> ~ in_box lo hi p = true.
Proof. destruct (in_box lo hi p); split; intros; congruence. Qed.
Ltac boxes := unfold slo, shi, slo2, shi2, alo, ahi in *; rewrite ?out_iff, ?in_box_iff in *; lia.

(** second order needs one guard cell more than the updated region *)
Theorem guards_b S T (E B : fieldN) : second_order S = true -> nonempty S -> sized S E ->
  nxs S = nxguard S \/ nys S = nyguard S \/ nzs S = nzguard S -> push_bfield S T E B = UB.
Proof.
  intros O (Nx & Ny & Nz) ((Ex & Ex') & (Ey & Ey') & (Ez & Ez')) H.
  unfold push_bfield. fold (second_order S). rewrite O. unfold pxrpush_em3d_bvec.
  pose (p := shi S). assert (I : in_box (slo S) (shi S) p = true) by (subst p; boxes).
  destruct (loop_cl (slo S) (shi S) (b3_bx E (n_lit 5 (-1) * dt T / dy T)%N (n_lit 5 (-1) * dt T / dz T)%N) (fx B) (ok_b3_bx _ _ _)) as [(g & Eg)|Eg]; rewrite Eg; [|reflexivity]. cbn [bind].
  destruct H as [H|[H|H]].
  - rewrite (loop_ub _ _ _ _ p (ok_b3_by _ _ _) I); [reflexivity|].
    subst p. unfold shi. cbn [b3_by map snd run]. rewrite diff_out1; [reflexivity|]. rewrite Ez, Ez'. boxes.
  - exfalso. pose proof (loop_ub _ _ _ (fx B) p (ok_b3_bx E (n_lit 5 (-1) * dt T / dy T)%N (n_lit 5 (-1) * dt T / dz T)%N) I) as U.
    rewrite Eg in U. discriminate U. subst p. unfold shi. cbn [b3_bx map snd run]. rewrite diff_out1; [reflexivity|]. rewrite Ez, Ez'. boxes.
  - exfalso. pose proof (loop_ub _ _ _ (fx B) p (ok_b3_bx E (n_lit 5 (-1) * dt T / dy T)%N (n_lit 5 (-1) * dt T / dz T)%N) I) as U.
    rewrite Eg in U. discriminate U. subst p. unfold shi. cbn [b3_bx map snd run].
    destruct (cl_diff (fz E) (nx S + nxs S, ny S + nys S + 1, nz S + nzs S)%Z (nx S + nxs S, ny S + nys S, nz S + nzs S)%Z) as [(y & ->)| ->]; [|reflexivity]. cbn [bind].
    rewrite diff_out1; [reflexivity|]. rewrite Ey, Ey'. boxes.
Qed.
Theorem guards_e K S T (E B J : fieldN) : second_order S = true -> nonempty S -> sized S B ->
  nxs S = nxguard S \/ nys S = nyguard S \/ nzs S = nzguard S -> push_efield K S T E B J = UB.
Proof.
  intros O (Nx & Ny & Nz) ((Ex & Ex') & (Ey & Ey') & (Ez & Ez')) H.
  cbv beta delta [push_efield]. fold (second_order S). rewrite O. cbv zeta. unfold pxrpush_em3d_evec.
  set (md := (sq (clight K) * mu0 K * dt T)%N). set (cx := (sq (clight K) * dt T / dx T)%N).
  set (cy := (sq (clight K) * dt T / dy T)%N). set (cz := (sq (clight K) * dt T / dz T)%N).
  pose (p := slo S). assert (I : in_box (slo S) (shi S) p = true) by (subst p; boxes).
  destruct (loop_cl (slo S) (shi S) (e3_ex B J md cy cz) (fx E) (ok_e3_ex _ _ _ _ _)) as [(g & Eg)|Eg]; rewrite Eg; [|reflexivity]. cbn [bind].
  destruct H as [H|[H|H]].
  - rewrite (loop_ub _ _ _ _ p (ok_e3_ey _ _ _ _ _) I); [reflexivity|].
    subst p. unfold slo. cbn [e3_ey map snd run]. rewrite diff_out2; [reflexivity|]. rewrite Ez, Ez'. boxes.
  - exfalso. pose proof (loop_ub _ _ _ (fx E) p (ok_e3_ex B J md cy cz) I) as U.
    rewrite Eg in U. discriminate U. subst p. unfold slo. cbn [e3_ex map snd run]. rewrite diff_out2; [reflexivity|]. rewrite Ez, Ez'. boxes.
  - exfalso. pose proof (loop_ub _ _ _ (fx E) p (ok_e3_ex B J md cy cz) I) as U.
    rewrite Eg in U. discriminate U. subst p. unfold slo. cbn [e3_ex map snd run].
    destruct (cl_diff (fz B) (- nxs S, - nys S, - nzs S)%Z (- nxs S, - nys S - 1, - nzs S)%Z) as [(y & ->)| ->]; [|reflexivity]. cbn [bind].
    rewrite diff_out2; [reflexivity|]. rewrite Ey, Ey'. boxes.
Qed.

(** two dimensions, any order: the undefined private k *)
Theorem private_k_e K S k T (E B J : fieldN) : second_order_2d S = false -> 0 <= nx S + 2 * nxs S -> 0 <= nz S + 2 * nzs S -> sized S E ->
  ~ (- nyguard S <= k <= ny S + nyguard S) -> push_efield_2d K S k T E B J = UB.
Proof.
  intros O Nx Nz ((Ex & Ex') & _ & _) H.
  cbv beta delta [push_efield_2d]. fold (second_order_2d S). rewrite O. cbv zeta. unfold pxrpush_em2d_evec_norder.
  rewrite (loop_out (slo2 S k) (shi2 S k) _ (fx E) (slo2 S k) (cur_term (fx J) (mu0 K * sq (clight K) * dt T)%N (slo2 S k)) (ok_en2_ex _ _ _ _ _)); [reflexivity | | |].
  - unfold slo2. cbn [en2_ex]. left. reflexivity.
  - boxes.
  - rewrite Ex, Ex'. boxes.
Qed.
Lemma stmts_first p n f : 1 <= n -> In (p, f 1) (@stmts N p n f).
Proof. intros H. unfold stmts. apply in_map_iff. exists 1. split; [reflexivity|]. apply in_zrange. lia. Qed.
Theorem private_k_b S k T (E B : fieldN) : second_order_2d S = false -> 0 <= nx S + 2 * nxs S -> 0 <= nz S + 2 * nzs S -> sized S B ->
  2 <= norderz S -> ~ (- nyguard S <= k <= ny S + nyguard S) -> push_bfield_2d S k T E B = UB.
Proof.
  intros O Nx Nz ((Ex & Ex') & _ & _) Hz H.
  unfold push_bfield_2d. fold (second_order_2d S). rewrite O. unfold pxrpush_em2d_bvec_norder.
  rewrite (loop_out (slo2 S k) (shi2 S k) _ (fx B) (slo2 S k) (slo2 S k, plus_term (map (fun c => n_lit 5 (-1) * dt T / dz T * c)%N (zcoeffs T)) (fy E) 1 (- nxs S, k, - nzs S + 1)%Z (- nxs S, k, - nzs S - 1 + stagger (l_nodalgrid S))%Z) (ok_bn2_bx _ _ _)); [reflexivity | | |].
  - unfold slo2. cbn [bn2_bx]. cbv zeta.
    apply (stmts_first (- nxs S, k, - nzs S)%Z (norderz S ÷ 2) (fun i => plus_term _ (fy E) i (- nxs S, k, - nzs S + i)%Z (- nxs S, k, - nzs S - i + stagger (l_nodalgrid S))%Z)).
    apply (Z.quot_le_mono 2 (norderz S) 2); lia.
  - boxes.
  - rewrite Ex, Ex'. boxes.
Qed.

(** two dimensions, any order: the formulas are not cut at the end of the array *)
Lemma run_ub_first f fs (x : num N) : f x = UB -> run (f :: fs) x = UB.
Proof. cbn. intros ->. reflexivity. Qed.
Lemma run_cl fs (x : num N) : (forall f y, In f fs -> cl (f y)) -> cl (run fs x).
Proof.
  revert x. induction fs as [|f fs IH]; intros x H; [apply cl_ret|]. cbn. apply cl_bind; [apply H; left; reflexivity|].
  intros y. apply IH. intros; apply H; right; assumption.
Qed.
Lemma run_ub_in fs f : In f fs -> (forall y, f y = UB) -> (forall g y, In g fs -> cl (g y)) -> forall x : num N, run fs x = UB.
Proof.
  induction fs as [|g fs IH]; [intros []|]. intros [->|I] U C x; cbn.
  - rewrite U. reflexivity.
  - destruct (C g x (or_introl eq_refl)) as [(y & ->)| ->]; [|reflexivity]. cbn. apply IH; auto. intros; apply C; right; assumption.
Qed.
Theorem guards_2d_b S T (E B : fieldN) : second_order_2d S = false -> 0 <= nx S + 2 * nxs S -> 0 <= nz S + 2 * nzs S -> sized S E ->
  nzs S = nzguard S -> 2 <= norderz S -> push_bfield_2d S 0 T E B = UB.
Proof.
  intros O Nx Nz (_ & (Ey & Ey') & _) H Hz.
  unfold push_bfield_2d. fold (second_order_2d S). rewrite O. unfold pxrpush_em2d_bvec_norder.
  set (c := map _ (zcoeffs T)).
  rewrite (loop_ub (slo2 S 0) (shi2 S 0) _ (fx B) (shi2 S 0) (ok_bn2_bx S E c)); [reflexivity | boxes |].
  apply (run_ub_in _ (plus_term c (fy E) 1 (nx S + nxs S, 0, nz S + nzs S + 1)%Z (nx S + nxs S, 0, nz S + nzs S - 1 + stagger (l_nodalgrid S))%Z)).
  - apply in_map_iff. eexists. split; [|unfold shi2; cbn [bn2_bx]; cbv zeta;
      apply (stmts_first (nx S + nxs S, 0, nz S + nzs S)%Z (norderz S ÷ 2) (fun i => plus_term c (fy E) i (nx S + nxs S, 0, nz S + nzs S + i)%Z (nx S + nxs S, 0, nz S + nzs S - i + stagger (l_nodalgrid S))%Z));
      apply (Z.quot_le_mono 2 (norderz S) 2); lia]. reflexivity.
  - intros y. unfold plus_term. destruct (cl_get1 c 1) as [(w & ->)| ->]; [|reflexivity]. cbn [bind]. rewrite diff_out1; [reflexivity|]. rewrite Ey, Ey'. boxes.
  - intros g y I. apply in_map_iff in I. destruct I as (s & <- & I). apply (ok_bn2_bx S E c _ s I).
Qed.

(** ** the general routine with order two does the same operations as the routine of order two *)
Lemma loop_same lo hi b1 b2 (g : grid (num N)) : ok_body b1 -> ok_body b2 ->
  (forall p, in_box lo hi p = true -> in_box (glo g) (ghi g) p = true /\ forall x, run (map snd (b1 p)) x = run (map snd (b2 p)) x) ->
  match loop3 lo hi b1 g, loop3 lo hi b2 g with
  | Ret h, Ret h' => same_grid h h' | UB, UB => True | _, _ => False end.
Proof.
  intros K1 K2 H.
  assert (Q : forall b1 b2, ok_body b1 -> ok_body b2 ->
    (forall p, in_box lo hi p = true -> in_box (glo g) (ghi g) p = true /\ forall x, run (map snd (b1 p)) x = run (map snd (b2 p)) x) ->
    forall h, loop3 lo hi b1 g = Ret h -> exists h', loop3 lo hi b2 g = Ret h' /\ same_grid h h').
  { clear. intros b1 b2 K1 K2 H h E. destruct (loop3_sound lo hi b1 g h (ok_local _ K1) E) as (A & B & C).
    destruct (loop3_complete lo hi b2 g (gat h) (ok_local _ K2)) as (h' & E' & A' & B' & C').
    - intros p I. destruct (H p I) as [I' Rn]. split; [exact I'|]. rewrite <- Rn. apply C. exact I.
    - exists h'. split; [exact E'|]. repeat split; [congruence | congruence |]. intros p _. rewrite C'.
      destruct (in_box lo hi p) eqn:I; [reflexivity|]. apply C. exact I. }
  destruct (loop_cl lo hi b1 g K1) as [(h & E)|E], (loop_cl lo hi b2 g K2) as [(h' & E')|E']; rewrite E, E'.
  - destruct (Q b1 b2 K1 K2 H h E) as (h2 & E2 & SG). rewrite E' in E2. injection E2 as <-. exact SG.
  - destruct (Q b1 b2 K1 K2 H h E) as (h2 & E2 & _). congruence.
  - destruct (Q b2 b1 K2 K1 (fun p I => conj (proj1 (H p I)) (fun x => eq_sym (proj2 (H p I) x))) h' E') as (h2 & E2 & _). congruence.
  - exact Logic.I.
Qed.

Lemma stmts_1 p (f : Z -> num N -> out (num N)) : stmts p 1 f = [(p, f 1)].
Proof. reflexivity. Qed.
Lemma terms_1 norder n g k : norder = 2 -> 0 < k + g -> 0 < n - k + g -> terms norder n g k = 1.
Proof. intros -> H1 H2. unfold terms. change (2 ÷ 2) with 1. lia. Qed.
Theorem order_two_b S (E B : fieldN) cx cy cz : second_order S = true -> l_nodalgrid S = false -> sized S B ->
  nxs S < nxguard S -> nys S < nyguard S -> nzs S < nzguard S ->
  same_field_out (pxrpush_em3d_bvec_norder S E B [cx] [cy] [cz])
    (pxrpush_em3d_bvec (slo S) (shi S) (slo S) (shi S) (slo S) (shi S) E B cx cy cz).
Proof.
  intros O Nn ((X & X') & (Y & Y') & (Z_ & Z')) Hx Hy Hz. unfold second_order in O. rewrite !andb_true_iff, !Z.eqb_eq in O.
  destruct O as ((Ox & Oy) & Oz). unfold pxrpush_em3d_bvec_norder, pxrpush_em3d_bvec.
  assert (Tx : forall j k l, in_box (slo S) (shi S) (j, k, l) = true -> terms (norderx S) (nx S) (nxguard S) j = 1).
  { intros j k l I. apply terms_1; [exact Ox | boxes | boxes]. }
  assert (Ty : forall j k l, in_box (slo S) (shi S) (j, k, l) = true -> terms (nordery S) (ny S) (nyguard S) k = 1).
  { intros j k l I. apply terms_1; [exact Oy | boxes | boxes]. }
  assert (Tz : forall j k l, in_box (slo S) (shi S) (j, k, l) = true -> terms (norderz S) (nz S) (nzguard S) l = 1).
  { intros j k l I. apply terms_1; [exact Oz | boxes | boxes]. }
  assert (Lx : forall p, in_box (slo S) (shi S) p = true -> in_box (alo S) (ahi S) p = true).
  { intros [[j k] l] I. boxes. }
  assert (Dv : forall (g : grid (num N)) a b c d, a = c -> b = d -> diff g a b = diff g c d) by (intros; subst; reflexivity).
  assert (Bx : forall p, in_box (slo S) (shi S) p = true -> forall x, run (map snd (bn_bx S E [cy] [cz] p)) x = run (map snd (b3_bx E cy cz p)) x).
  { intros [[j k] l] I x. cbv beta delta [bn_bx] iota zeta. rewrite (Ty _ _ _ I), (Tz _ _ _ I), !stmts_1, Nn. cbn [app map snd run b3_bx stagger].
    unfold minus_term, plus_term. cbn [get1]. change (get1 [cy] 1) with (Ret cy). change (get1 [cz] 1) with (Ret cz). cbn [bind].
    replace (k - 1 + 1) with k by lia. replace (l - 1 + 1) with l by lia.
    destruct (cl_diff (fz E) (j, k + 1, l) (j, k, l)) as [(u & ->)| ->]; [|reflexivity]. cbn [bind].
    destruct (cl_diff (fy E) (j, k, l + 1) (j, k, l)) as [(v & ->)| ->]; reflexivity. }
  assert (By : forall p, in_box (slo S) (shi S) p = true -> forall x, run (map snd (bn_by S E [cx] [cz] p)) x = run (map snd (b3_by E cx cz p)) x).
  { intros [[j k] l] I x. cbv beta delta [bn_by] iota zeta. rewrite (Tx _ _ _ I), (Tz _ _ _ I), !stmts_1, Nn. cbn [app map snd run b3_by stagger].
    unfold minus_term, plus_term. change (get1 [cx] 1) with (Ret cx). change (get1 [cz] 1) with (Ret cz). cbn [bind].
    replace (j - 1 + 1) with j by lia. replace (l - 1 + 1) with l by lia.
    destruct (cl_diff (fz E) (j + 1, k, l) (j, k, l)) as [(u & ->)| ->]; [|reflexivity]. cbn [bind].
    destruct (cl_diff (fx E) (j, k, l + 1) (j, k, l)) as [(v & ->)| ->]; reflexivity. }
  assert (Bz : forall p, in_box (slo S) (shi S) p = true -> forall x, run (map snd (bn_bz S E [cx] [cy] p)) x = run (map snd (b3_bz E cx cy p)) x).
  { intros [[j k] l] I x. cbv beta delta [bn_bz] iota zeta. rewrite (Tx _ _ _ I), (Ty _ _ _ I), !stmts_1, Nn. cbn [app map snd run b3_bz stagger].
    unfold minus_term, plus_term. change (get1 [cx] 1) with (Ret cx). change (get1 [cy] 1) with (Ret cy). cbn [bind].
    replace (j - 1 + 1) with j by lia. replace (k - 1 + 1) with k by lia.
    destruct (cl_diff (fy E) (j + 1, k, l) (j, k, l)) as [(u & ->)| ->]; [|reflexivity]. cbn [bind].
    destruct (cl_diff (fx E) (j, k + 1, l) (j, k, l)) as [(v & ->)| ->]; reflexivity. }
  pose proof (loop_same (slo S) (shi S) _ _ (fx B) (ok_bn_bx S E [cy] [cz]) (ok_b3_bx E cy cz)) as Qx.
  pose proof (loop_same (slo S) (shi S) _ _ (fy B) (ok_bn_by S E [cx] [cz]) (ok_b3_by E cx cz)) as Qy.
  pose proof (loop_same (slo S) (shi S) _ _ (fz B) (ok_bn_bz S E [cx] [cy]) (ok_b3_bz E cx cy)) as Qz.
  rewrite X, X' in Qx. rewrite Y, Y' in Qy. rewrite Z_, Z' in Qz.
  specialize (Qx (fun p I => conj (Lx p I) (Bx p I))). specialize (Qy (fun p I => conj (Lx p I) (By p I))). specialize (Qz (fun p I => conj (Lx p I) (Bz p I))).
  destruct (loop3 (slo S) (shi S) (bn_bx S E [cy] [cz]) (fx B)), (loop3 (slo S) (shi S) (b3_bx E cy cz) (fx B)); try contradiction; cbn [bind]; [|exact Logic.I].
  destruct (loop3 (slo S) (shi S) (bn_by S E [cx] [cz]) (fy B)), (loop3 (slo S) (shi S) (b3_by E cx cz) (fy B)); try contradiction; cbn [bind]; [|exact Logic.I].
  destruct (loop3 (slo S) (shi S) (bn_bz S E [cx] [cy]) (fz B)), (loop3 (slo S) (shi S) (b3_bz E cx cy) (fz B)); try contradiction; cbn [bind]; [|exact Logic.I].
  cbn. auto.
Qed.

(** ** what a push leaves alone *)
Lemma seq_frame lo hi bx by_ bz (F F' : fieldN) : ok_body bx -> ok_body by_ -> ok_body bz ->
  seq3 (lo, hi, bx) (lo, hi, by_) (lo, hi, bz) F = Ret F' ->
  (glo (fx F') = glo (fx F) /\ ghi (fx F') = ghi (fx F)) /\ (glo (fy F') = glo (fy F) /\ ghi (fy F') = ghi (fy F)) /\ (glo (fz F') = glo (fz F) /\ ghi (fz F') = ghi (fz F)) /\
  forall p, in_box lo hi p = false -> gat (fx F') p = gat (fx F) p /\ gat (fy F') p = gat (fy F) p /\ gat (fz F') p = gat (fz F) p.
Proof.
  intros Kx Ky Kz. unfold seq3. cbn [fst snd].
  destruct (loop3 lo hi bx (fx F)) eqn:Ex; cbn [bind]; try discriminate.
  destruct (loop3 lo hi by_ (fy F)) eqn:Ey; cbn [bind]; try discriminate.
  destruct (loop3 lo hi bz (fz F)) eqn:Ez; cbn [bind]; try discriminate.
  intros H. injection H as <-. cbn [fx fy fz].
  destruct (loop_frame _ _ _ _ _ Kx Ex) as (? & ? & Cx), (loop_frame _ _ _ _ _ Ky Ey) as (? & ? & Cy), (loop_frame _ _ _ _ _ Kz Ez) as (? & ? & Cz).
  repeat split; auto.
Qed.
Theorem frame_b S T (E B B' : fieldN) : push_bfield S T E B = Ret B' -> untouched (slo S) (shi S) B B'.
Proof.
  unfold push_bfield. destruct (_ && _ && _); intros H; (eapply seq_frame; [| | |exact H]).
  - apply ok_b3_bx. - apply ok_b3_by. - apply ok_b3_bz. - apply ok_bn_bx. - apply ok_bn_by. - apply ok_bn_bz.
Qed.
Theorem frame_e K S T (E B J E' : fieldN) : push_efield K S T E B J = Ret E' -> untouched (slo S) (shi S) E E'.
Proof.
  unfold push_efield. destruct (_ && _ && _); intros H; (eapply seq_frame; [| | |exact H]).
  - apply ok_e3_ex. - apply ok_e3_ey. - apply ok_e3_ez. - apply ok_en_ex. - apply ok_en_ey. - apply ok_en_ez.
Qed.
End G.
