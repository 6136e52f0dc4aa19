(** Proofs: the field solver of a run on several processes computes the fields of the whole periodic grid. *)
From Coq Require Import ZArith Reals List Bool Lia Lra.
From Verif Require Import Cxx Num NumRX Fortran FortranNum Grid Pushers Yee Deposit Tiles DepositTiles CurrentTiles SpecYee SpecSolver SpecDeposit SpecTiles SpecDepositTiles SpecCurrentTiles.
From Verif Require Import CxxLemmas GridLemmas YeeReal YeeDiv.
From Verif Require Import PartBC FieldBC SpecFieldBC FieldBCProofs SpecWhole SpecWholeCurrent WholeProofs WholeCurrentProofs SpecParallelField.
Import ListNotations.
Local Open Scope R_scope.

Section L.
Variables (L : layout) (U : setup).
Hypotheses (HL : sound_layout L) (HP : periodic L) (HF : fitting L U).
Notation np := (l_procs L).
Notation sz := (sizes_at L U).
Notation q := (u_steps U).

(** ** periodic functions *)
Lemma repeats_mul f d k p : repeats L f -> f (shift d (k * all_cells L (dir_of d)) p) = f p.
Proof.
  intros Hf. set (n := all_cells L (dir_of d)) in *.
  assert (Hn : forall m p, f (shift d (Z.of_nat m * n) p) = f p).
  { induction m as [|m IH]; intros p'; [change (Z.of_nat 0 * n)%Z with 0%Z; rewrite shift_0; reflexivity|].
    replace (Z.of_nat (S m) * n)%Z with (Z.of_nat m * n + n)%Z by lia. rewrite <- shift_shift. unfold n at 1. rewrite (Hf d). apply IH. }
  destruct (Z.le_gt_cases 0 k) as [H|H].
  - rewrite <- (Z2Nat.id k) by lia. apply Hn.
  - rewrite <- (Hn (Z.to_nat (- k))). rewrite shift_shift. replace (k * n + Z.of_nat (Z.to_nat (- k)) * n)%Z with 0%Z by (rewrite Z2Nat.id by lia; lia).
    rewrite shift_0. reflexivity.
Qed.
Lemma repeats_mod f p p' : repeats L f -> (forall a, comp a p mod all_cells L a = comp a p' mod all_cells L a)%Z -> f p = f p'.
Proof.
  intros Hf H. assert (K : forall a, exists k : Z, (comp a p' = comp a p + k * all_cells L a)%Z).
  { intros a. pose proof (cells_pos L HL a) as Pa. exists (comp a p' / all_cells L a - comp a p / all_cells L a)%Z.
    pose proof (Z.div_mod (comp a p) (all_cells L a) ltac:(lia)). pose proof (Z.div_mod (comp a p') (all_cells L a) ltac:(lia)). specialize (H a). nia. }
  destruct (K DirX) as (k1 & K1), (K DirY) as (k2 & K2), (K DirZ) as (k3 & K3).
  rewrite <- (repeats_mul f AX k1 p Hf), <- (repeats_mul f AY k2 _ Hf), <- (repeats_mul f AZ k3 _ Hf).
  destruct p as [[p1 p2] p3], p' as [[p1' p2'] p3']. cbn [comp dir_of shift] in *. subst. reflexivity.
Qed.

(** ** one process *)
Lemma point_shift d n r p : point_of L (r, shift d n p) = shift d n (point_of L (r, p)).
Proof.
  destruct p as [[p1 p2] p3], d; unfold point_of; cbn [fst snd comp shift]; (apply (f_equal2 pair); [apply (f_equal2 pair)|]); lia.
Qed.
Definition here (r : idx) (f : rfield) : rfield :=
  RField (fun p => comp_x f (point_of L (r, p))) (fun p => comp_y f (point_of L (r, p))) (fun p => comp_z f (point_of L (r, p))).
Lemma fwd_here s d f r p : fwd s d (fun p => f (point_of L (r, p))) p = fwd s d f (point_of L (r, p)).
Proof. unfold fwd, Sum. f_equal. apply map_ext. intros i. rewrite !point_shift. reflexivity. Qed.
Lemma bwd_here s d f r p : bwd s d (fun p => f (point_of L (r, p))) p = bwd s d f (point_of L (r, p)).
Proof. unfold bwd, Sum. f_equal. apply map_ext. intros i. rewrite !point_shift. reflexivity. Qed.

Lemma sz_second r : second_order (sz r) = all_second U.
Proof. unfold second_order, all_second, sizes_at. destruct (local_cells L r) as [[? ?] ?], (l_guards L) as [[? ?] ?], (u_extra U) as [[? ?] ?], (u_order U) as [[? ?] ?]. reflexivity. Qed.
Lemma sz_formulas r : formulas (sz r) q = diffs U.
Proof.
  unfold formulas, diffs. rewrite sz_second. destruct (all_second U); [reflexivity|].
  unfold sizes_at. destruct (local_cells L r) as [[? ?] ?], (l_guards L) as [[? ?] ?], (u_extra U) as [[? ?] ?], (u_order U) as [[? ?] ?]. reflexivity.
Qed.
Lemma sz_bounds r : alo (sz r) = (- comp DirX (l_guards L), - comp DirY (l_guards L), - comp DirZ (l_guards L))%Z /\
  ahi (sz r) = (comp DirX (local_cells L r) + comp DirX (l_guards L), comp DirY (local_cells L r) + comp DirY (l_guards L), comp DirZ (local_cells L r) + comp DirZ (l_guards L))%Z.
Proof. unfold sizes_at. destruct (local_cells L r) as [[? ?] ?], (l_guards L) as [[? ?] ?], (u_extra U) as [[? ?] ?], (u_order U) as [[? ?] ?]. split; reflexivity. Qed.
Lemma sz_set r : well_set (sz r) q.
Proof.
  destruct HF as (H1 & H2 & H3). split; [|split; [exact H1|]].
  - rewrite sz_second. pose proof (H3 DirX) as X. pose proof (H3 DirY) as Y. pose proof (H3 DirZ) as Z.
    unfold sizes_at. destruct (local_cells L r) as [[? ?] ?], (l_guards L) as [[? ?] ?], (u_extra U) as [[? ?] ?], (u_order U) as [[? ?] ?]. cbn in *. lia.
  - rewrite sz_second. intros O. specialize (H2 O).
    unfold sizes_at. destruct (local_cells L r) as [[? ?] ?], (l_guards L) as [[? ?] ?], (u_extra U) as [[? ?] ?], (u_order U) as [[? ?] ?]. exact H2.
Qed.
Lemma sz_full r p : (forall a, 0 <= comp a p <= comp a (local_cells L r))%Z -> in_box (full_lo (sz r)) (full_hi (sz r)) p = true.
Proof.
  intros H. destruct HF as (_ & _ & H3). pose proof (H3 DirX) as X. pose proof (H3 DirY) as Y. pose proof (H3 DirZ) as Z.
  pose proof (H DirX) as Px. pose proof (H DirY) as Py. pose proof (H DirZ) as Pz. clear H H3.
  unfold full_lo, full_hi. rewrite sz_second. unfold slo, shi, sizes_at.
  destruct (local_cells L r) as [[? ?] ?], (l_guards L) as [[? ?] ?], (u_extra U) as [[? ?] ?], (u_order U) as [[? ?] ?], p as [[? ?] ?].
  destruct (all_second U); cbn in *; apply in_box_iff; lia.
Qed.
Lemma right_sz r (G : grid (num FRX)) : right_bounds L r G <-> glo G = alo (sz r) /\ ghi G = ahi (sz r).
Proof.
  unfold right_bounds, alo, ahi, sizes_at. destruct (local_cells L r) as [[? ?] ?], (l_guards L) as [[? ?] ?], (u_extra U) as [[? ?] ?], (u_order U) as [[? ?] ?]. reflexivity.
Qed.
Lemma node_sz r p : In r (processes np) -> in_box (alo (sz r)) (ahi (sz r)) p = true <-> In (r, p) (nodes L).
Proof.
  intros Hr. rewrite in_nodes. unfold is_node, FieldBCWorld.inside. cbn [fst snd]. destruct (sz_bounds r) as (A & B). rewrite A, B.
  destruct p as [[p1 p2] p3]. rewrite in_box_iff. split.
  - intros H. split; [exact Hr|]. intros a. destruct a; cbn [comp] in *; lia.
  - intros (_ & H). pose proof (H DirX). pose proof (H DirY). pose proof (H DirZ). cbn [comp] in *. lia.
Qed.
Lemma carrying_field F f r : In r (processes np) -> carrying L F f -> is_field (tg := fun x => x) (sz r) (F r) (here r f).
Proof.
  intros Hr H. split; [|split].
  all: [> destruct (H AX) as (B & V)|destruct (H AY) as (B & V)|destruct (H AZ) as (B & V)]; pose proof (proj1 (right_sz r _) (B r Hr)) as (B1 & B2);
    (split; [exact B1|]; split; [exact B2|]); intros p Ip; apply (node_sz r p Hr) in Ip; exact (V (r, p) Ip).
Qed.
Lemma field_carrying F f r : is_field (tg := fun x => x) (sz r) (F r) f -> forall d, right_bounds L r (array d (F r)) /\
  forall p, in_box (alo (sz r)) (ahi (sz r)) p = true -> gat (array d (F r)) p = Fin (SpecDeposit.comp d f p).
Proof.
  intros ((A1 & A2 & A3) & (B1 & B2 & B3) & (C1 & C2 & C3)) d. destruct d; cbn [array SpecDeposit.comp]; (split; [apply right_sz; split; assumption|assumption]).
Qed.

(** ** the exchange *)
Lemma own_range u : responsible L u = true -> forall a, (0 <= comp a (snd u) < comp a (local_cells L (fst u)))%Z.
Proof.
  intros H a. unfold responsible in H. rewrite on_axes_iff in H. specialize (H a). rewrite (HP a), FieldBCWorld.comp_n in *. cbn [andb] in H. rewrite orb_false_r in H.
  apply andb_true_iff in H. destruct H as (H1 & H2). apply Z.leb_le in H1. apply Z.ltb_lt in H2. lia.
Qed.
Lemma same_mod u u' a : same_node L u u' = true -> (comp a (point_of L u) mod all_cells L a = comp a (point_of L u') mod all_cells L a)%Z.
Proof.
  intros H. unfold same_node in H. rewrite on_axes_iff in H. specialize (H a). apply Z.eqb_eq in H. unfold place in H. rewrite (HP a) in H. cbn zeta in H.
  unfold all_cells. destruct a; exact H.
Qed.
Lemma exchange_carries blocking F F' f : exchanged L blocking F F' -> repeating L f ->
  (forall d r, In r (processes np) -> right_bounds L r (array d (F r))) ->
  (forall d u, In u (nodes L) -> responsible L u = true -> gat (array d (F (fst u))) (snd u) = Fin (SpecDeposit.comp d f (point_of L u))) ->
  carrying L F' f.
Proof.
  intros X Hf HB HV d. destruct (X d) as (T & S' & HT & HR & HA).
  set (F0 := fun r => PState (array d (F r)) (T r)) in *.
  assert (H0 : right_start L F0) by (intros r Hr; split; [apply (HB d r Hr)|apply (HT r Hr)]).
  destruct (guard_exchange L blocking F0 HL H0) as (F1 & R1 & B1 & V1). 
  assert (E1 : forall r, In r (processes np) -> F1 r = S' r).
  { intros r Hr. assert (E : start L F1 = start L S') by congruence. unfold start in E.
    pose proof (ext_in_map E r Hr) as Er. cbn beta in Er. congruence. }
  split.
  - intros r Hr. cbn beta. rewrite (HA r Hr), <- (E1 r Hr). apply (B1 r Hr).
  - intros u Hu. cbn beta. pose proof (proj1 (proj1 (in_nodes L u) Hu)) as Hr. rewrite (HA _ Hr), <- (E1 _ Hr). destruct (V1 u Hu) as ((y & Hy & Ry & Sy) & V).
    etransitivity; [exact (V y Hy Ry Sy)|]. unfold value, F0. cbn [arr]. rewrite (HV d y Hy Ry). f_equal. apply repeats_mod; [apply Hf|].
    intros a. symmetry. apply same_mod. exact Sy.
Qed.
Lemma exchange_possible blocking F : (forall d r, In r (processes np) -> right_bounds L r (array d (F r))) -> exists F', exchanged L blocking F F'.
Proof.
  intros HB. assert (HT : forall r, right_types L r (fun _ => None)) by (intros r k a t _ E; discriminate E).
  assert (X : forall d, exists S', field_bc np (local_cells L) (l_guards L) blocking (l_absorbing L) (start L (fun r => PState (array d (F r)) (fun _ => None))) = Ret (start L S')).
  { intros d. destruct (guard_exchange L blocking (fun r => PState (array d (F r)) (fun _ => None)) HL) as (F1 & R1 & _); [|exists F1; exact R1].
    intros r Hr. split; [apply (HB d r Hr)|apply HT]. }
  destruct (X AX) as (S1 & R1), (X AY) as (S2 & R2), (X AZ) as (S3 & R3).
  exists (fun r => Field3 (arr (S1 r)) (arr (S2 r)) (arr (S3 r))).
  intros d. exists (fun _ _ => None). destruct d; [exists S1|exists S2|exists S3]; (split; [intros r _; apply HT|]; split; [assumption|reflexivity]).
Qed.

(** ** the pushes *)
Lemma fwd_repeats s d f : repeats L f -> repeats L (fwd s d f).
Proof.
  intros Hf d' p. unfold fwd, Sum. f_equal. apply map_ext. intros i.
  assert (E : forall n, f (shift d n (shift d' (all_cells L (dir_of d')) p)) = f (shift d n p)).
  { intros n. rewrite <- (Hf d' (shift d n p)). f_equal. destruct p as [[p1 p2] p3], d, d'; cbn [shift]; (apply (f_equal2 pair); [apply (f_equal2 pair)|]); lia. }
  rewrite !E. reflexivity.
Qed.
Lemma bwd_repeats s d f : repeats L f -> repeats L (bwd s d f).
Proof.
  intros Hf d' p. unfold bwd, Sum. f_equal. apply map_ext. intros i.
  assert (E : forall n, f (shift d n (shift d' (all_cells L (dir_of d')) p)) = f (shift d n p)).
  { intros n. rewrite <- (Hf d' (shift d n p)). f_equal. destruct p as [[p1 p2] p3], d, d'; cbn [shift]; (apply (f_equal2 pair); [apply (f_equal2 pair)|]); lia. }
  rewrite !E. reflexivity.
Qed.
Lemma curl_fwd_repeats s f : repeating L f -> repeating L (curl (fwd s) f).
Proof.
  intros Hf d d' p. pose proof (Hf AX) as X. pose proof (Hf AY) as Y. pose proof (Hf AZ) as Z. cbn [SpecDeposit.comp] in X, Y, Z.
  destruct d; cbn [SpecDeposit.comp curl comp_x comp_y comp_z]; rewrite !(fwd_repeats s _ _ X d' p) || idtac;
    repeat match goal with H : repeats L ?f |- context [fwd ?s ?d ?f (shift d' _ p)] => rewrite (fwd_repeats s d f H d' p) end; reflexivity.
Qed.
Lemma curl_bwd_repeats s f : repeating L f -> repeating L (curl (bwd s) f).
Proof.
  intros Hf d d' p. pose proof (Hf AX) as X. pose proof (Hf AY) as Y. pose proof (Hf AZ) as Z. cbn [SpecDeposit.comp] in X, Y, Z.
  destruct d; cbn [SpecDeposit.comp curl comp_x comp_y comp_z];
    repeat match goal with H : repeats L ?f |- context [bwd ?s ?d ?f (shift d' _ p)] => rewrite (bwd_repeats s d f H d' p) end; reflexivity.
Qed.
Lemma b_after_repeats e b : repeating L e -> repeating L b -> repeating L (b_after U e b).
Proof.
  intros He Hb d d' p. pose proof (curl_fwd_repeats (diffs U) e He d d' p) as C. pose proof (Hb d d' p) as B.
  destruct d; cbn [SpecDeposit.comp b_after comp_x comp_y comp_z] in *; rewrite B, C; reflexivity.
Qed.
Lemma e_after_repeats e b j : repeating L e -> repeating L b -> repeating L j -> repeating L (e_after U e b j).
Proof.
  intros He Hb Hj d d' p. pose proof (curl_bwd_repeats (diffs U) b Hb d d' p) as C. pose proof (He d d' p) as E. pose proof (Hj d d' p) as J.
  destruct d; cbn [SpecDeposit.comp e_after comp_x comp_y comp_z] in *; rewrite E, C, J; reflexivity.
Qed.
Lemma whole_step_repeats j eb : repeating L j -> repeating L (fst eb) -> repeating L (snd eb) -> repeating L (fst (whole_step U j eb)) /\ repeating L (snd (whole_step U j eb)).
Proof.
  intros Hj He Hb. unfold whole_step. cbn [fst snd].
  assert (E2 : repeating L (e_after U (fst eb) (b_after U (fst eb) (snd eb)) j)) by (apply e_after_repeats; [assumption|apply b_after_repeats; assumption|assumption]).
  split; [exact E2|]. apply b_after_repeats; [exact E2|apply b_after_repeats; assumption].
Qed.

Lemma own_full u : responsible L u = true -> in_box (full_lo (sz (fst u))) (full_hi (sz (fst u))) (snd u) = true.
Proof. intros Ru. apply sz_full. intros a. pose proof (own_range u Ru a). lia. Qed.

Lemma push_b_proc E B e b r : In r (processes np) -> carrying L E e -> carrying L B b ->
  exists B1, push_bfield (N := FRX) (sz r) (steps_of q) (E r) (B r) = Ret B1 /\ (forall d, right_bounds L r (array d B1)) /\
    forall d p, In (r, p) (nodes L) -> responsible L (r, p) = true -> gat (array d B1) p = Fin (SpecDeposit.comp d (b_after U e b) (point_of L (r, p))).
Proof.
  intros Hr HE HB.
  destruct (push_bfield_real (tg := fun x => x) (sz r) q (E r) (B r) (here r e) (here r b) (sz_set r) (carrying_field E e r Hr HE) (carrying_field B b r Hr HB)) as (B1 & b1 & R1 & F1 & V1 & _).
  exists B1. split; [exact R1|]. pose proof (field_carrying (fun _ => B1) b1 r F1) as FC. split; [intros d; apply (FC d)|].
  intros d p Ip Rp. destruct (FC d) as (_ & V). refine (eq_trans (V p (proj2 (node_sz r p Hr) Ip)) _). f_equal.
  destruct (V1 p (own_full (r, p) Rp)) as (X & Y & Z). rewrite sz_formulas in X, Y, Z.
  destruct d; cbn [SpecDeposit.comp b_after comp_x comp_y comp_z]; [rewrite X|rewrite Y|rewrite Z]; unfold here, curl; cbn [comp_x comp_y comp_z]; rewrite !fwd_here; reflexivity.
Qed.
Lemma push_e_proc E B J e b j r : In r (processes np) -> carrying L E e -> carrying L B b -> carrying L J j ->
  exists E1, push_efield (N := FRX) (consts_of (u_c U) (u_mu U)) (sz r) (steps_of q) (E r) (B r) (J r) = Ret E1 /\ (forall d, right_bounds L r (array d E1)) /\
    forall d p, In (r, p) (nodes L) -> responsible L (r, p) = true -> gat (array d E1) p = Fin (SpecDeposit.comp d (e_after U e b j) (point_of L (r, p))).
Proof.
  intros Hr HE HB HJ.
  destruct (push_efield_real (tg := fun x => x) (u_c U) (u_mu U) (sz r) q (E r) (B r) (J r) (here r e) (here r b) (here r j) (sz_set r) (carrying_field E e r Hr HE) (carrying_field B b r Hr HB)
    (carrying_field J j r Hr HJ)) as (E1 & e1 & R1 & F1 & V1 & _).
  exists E1. split; [exact R1|]. pose proof (field_carrying (fun _ => E1) e1 r F1) as FC. split; [intros d; apply (FC d)|].
  intros d p Ip Rp. destruct (FC d) as (_ & V). refine (eq_trans (V p (proj2 (node_sz r p Hr) Ip)) _). f_equal.
  destruct (V1 p (own_full (r, p) Rp)) as (X & Y & Z). rewrite sz_formulas in X, Y, Z.
  destruct d; cbn [SpecDeposit.comp e_after comp_x comp_y comp_z]; [rewrite X|rewrite Y|rewrite Z]; unfold here, curl; cbn [comp_x comp_y comp_z]; rewrite !bwd_here; reflexivity.
Qed.
Theorem pushed_b_carries blocking E B B' e b : repeating L e -> repeating L b -> carrying L E e -> carrying L B b -> pushed_b L U blocking E B B' -> carrying L B' (b_after U e b).
Proof.
  intros He Hb HE HB (B1 & R1 & X). apply (exchange_carries blocking B1 B' _ X (b_after_repeats e b He Hb)).
  - intros d r Hr. destruct (push_b_proc E B e b r Hr HE HB) as (B2 & R2 & K & _). rewrite (R1 r Hr) in R2. injection R2 as <-. apply K.
  - intros d [r p] Iu Ru. pose proof (proj1 (proj1 (in_nodes L _) Iu)) as Hr. cbn [fst snd] in *. destruct (push_b_proc E B e b r Hr HE HB) as (B2 & R2 & _ & V).
    rewrite (R1 r Hr) in R2. injection R2 as <-. apply V; assumption.
Qed.
Theorem pushed_e_carries blocking E B J E' e b j : repeating L e -> repeating L b -> repeating L j -> carrying L E e -> carrying L B b -> carrying L J j ->
  pushed_e L U blocking E B J E' -> carrying L E' (e_after U e b j).
Proof.
  intros He Hb Hj HE HB HJ (E1 & R1 & X). apply (exchange_carries blocking E1 E' _ X (e_after_repeats e b j He Hb Hj)).
  - intros d r Hr. destruct (push_e_proc E B J e b j r Hr HE HB HJ) as (E2 & R2 & K & _). rewrite (R1 r Hr) in R2. injection R2 as <-. apply K.
  - intros d [r p] Iu Ru. pose proof (proj1 (proj1 (in_nodes L _) Iu)) as Hr. cbn [fst snd] in *. destruct (push_e_proc E B J e b j r Hr HE HB HJ) as (E2 & R2 & _ & V).
    rewrite (R1 r Hr) in R2. injection R2 as <-. apply V; assumption.
Qed.
Theorem pushed_b_possible blocking E B e b : carrying L E e -> carrying L B b -> exists B', pushed_b L U blocking E B B'.
Proof.
  intros HE HB. destruct (finite_choice (fun r B1 => push_bfield (N := FRX) (sz r) (steps_of q) (E r) (B r) = Ret B1 /\ forall d, right_bounds L r (array d B1)) (E (0, 0, 0)%Z) (processes np)) as (B1 & H1).
  { intros r Hr. destruct (push_b_proc E B e b r Hr HE HB) as (B1 & R1 & K & _). exists B1. split; assumption. }
  destruct (exchange_possible blocking B1) as (B' & X); [intros d r Hr; apply (H1 r Hr)|]. exists B', B1. split; [intros r Hr; apply (H1 r Hr)|exact X].
Qed.
Theorem pushed_e_possible blocking E B J e b j : carrying L E e -> carrying L B b -> carrying L J j -> exists E', pushed_e L U blocking E B J E'.
Proof.
  intros HE HB HJ. destruct (finite_choice (fun r E1 => push_efield (N := FRX) (consts_of (u_c U) (u_mu U)) (sz r) (steps_of q) (E r) (B r) (J r) = Ret E1 /\ forall d, right_bounds L r (array d E1)) (E (0, 0, 0)%Z) (processes np)) as (E1 & H1).
  { intros r Hr. destruct (push_e_proc E B J e b j r Hr HE HB HJ) as (E1 & R1 & K & _). exists E1. split; assumption. }
  destruct (exchange_possible blocking E1) as (E' & X); [intros d r Hr; apply (H1 r Hr)|]. exists E', E1. split; [intros r Hr; apply (H1 r Hr)|exact X].
Qed.

(** ** time steps *)
Theorem step_carries blocking J E B E' B' e b j : repeating L e -> repeating L b -> repeating L j -> carrying L E e -> carrying L B b -> carrying L J j ->
  field_step L U blocking J E B E' B' -> carrying L E' (fst (whole_step U j (e, b))) /\ carrying L B' (snd (whole_step U j (e, b))).
Proof.
  intros He Hb Hj HE HB HJ (B1 & P1 & P2 & P3). unfold whole_step. cbn [fst snd].
  pose proof (pushed_b_carries _ _ _ _ _ _ He Hb HE HB P1) as C1. pose proof (b_after_repeats e b He Hb) as Hb1.
  pose proof (pushed_e_carries _ _ _ _ _ _ _ _ He Hb1 Hj HE C1 HJ P2) as C2. pose proof (e_after_repeats e _ j He Hb1 Hj) as He2.
  split; [exact C2|]. exact (pushed_b_carries _ _ _ _ _ _ He2 Hb1 C2 C1 P3).
Qed.
Theorem run_carries blocking Js E B E' B' : field_run L U blocking Js E B E' B' -> forall js e b, repeating L e -> repeating L b -> carrying L E e -> carrying L B b ->
  Forall2 (fun J j => carrying L J j /\ repeating L j) Js js ->
  carrying L E' (fst (whole_run U js (e, b))) /\ carrying L B' (snd (whole_run U js (e, b))).
Proof.
  induction 1 as [E B|J Js E B E1 B1 E2 B2 St Rn IH]; intros js e b He Hb HE HB HJ; inversion HJ as [|J0 j Js0 js' (Cj & Pj) HJ']; subst.
  - split; assumption.
  - destruct (step_carries _ _ _ _ _ _ _ _ _ He Hb Pj HE HB Cj St) as (C1 & C2). destruct (whole_step_repeats j (e, b) Pj He Hb) as (P1 & P2).
    unfold whole_run. cbn [fold_left]. specialize (IH js' _ _ P1 P2 C1 C2 HJ'). rewrite <- surjective_pairing in IH. exact IH.
Qed.
Theorem run_possible blocking Js : forall js E B e b, repeating L e -> repeating L b -> carrying L E e -> carrying L B b ->
  Forall2 (fun J j => carrying L J j /\ repeating L j) Js js -> exists E' B', field_run L U blocking Js E B E' B'.
Proof.
  induction Js as [|J Js IH]; intros js E B e b He Hb HE HB HJ; inversion HJ as [|J0 j Js0 js' (Cj & Pj) HJ']; subst; [exists E, B; constructor|].
  destruct (pushed_b_possible blocking E B e b HE HB) as (B1 & P1). pose proof (pushed_b_carries _ _ _ _ _ _ He Hb HE HB P1) as C1. pose proof (b_after_repeats e b He Hb) as Hb1.
  destruct (pushed_e_possible blocking E B1 J _ _ _ HE C1 Cj) as (E2 & P2). pose proof (pushed_e_carries _ _ _ _ _ _ _ _ He Hb1 Pj HE C1 Cj P2) as C2. pose proof (e_after_repeats e _ j He Hb1 Pj) as He2.
  destruct (pushed_b_possible blocking E2 B1 _ _ C2 C1) as (B3 & P3). pose proof (pushed_b_carries _ _ _ _ _ _ He2 Hb1 C2 C1 P3) as C3.
  destruct (IH js' E2 B3 _ _ He2 (b_after_repeats _ _ He2 Hb1) C2 C3 HJ') as (E' & B' & R'). exists E', B'. econstructor; [|exact R']. exists B1. auto.
Qed.

End L.
