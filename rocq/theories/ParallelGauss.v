(** Proofs: the cut among processes cannot be seen in the fields, and Gauss's law in a run on several processes. *)
From Coq Require Import ZArith Reals List Bool Lia Lra Permutation FunctionalExtensionality.
From Verif Require Import Cxx Num NumRX Fortran FortranNum Grid Pushers Yee Deposit Tiles DepositTiles CurrentTiles SpecYee SpecSolver SpecDeposit SpecCurrent SpecTiles SpecDepositTiles SpecCurrentTiles.
From Verif Require Import CxxLemmas GridLemmas YeeReal YeeDiv Sums EskFacts SpecFlux.
From Verif Require Import PartBC FieldBC SpecFieldBC FieldBCProofs SpecWhole SpecWholeCurrent WholeProofs WholeCurrentProofs WholeContinuity SpecParallelField ParallelField.
Import ListNotations.
Local Open Scope R_scope.

Lemma same_run U U' js eb : same_solver U U' -> whole_run U js eb = whole_run U' js eb.
Proof.
  destruct U as [o x n q c m], U' as [o' x' n' q' c' m']. intros (A & B & C & D & E). cbn in A, B, C, D, E. subst. reflexivity.
Qed.
Lemma stands_mod L L' u u' a : sound_layout L -> periodic L -> same_whole L L' -> stands_for L u (point_of L' u') = true ->
  (comp a (point_of L u) mod all_cells L a = comp a (point_of L' u') mod all_cells L a)%Z.
Proof.
  intros HL HP SW E. unfold stands_for in E. rewrite on_axes_iff in E. specialize (E a). cbn zeta in E. rewrite (HP a) in E. apply Z.eqb_eq in E.
  pose proof (cells_pos L HL a). set (n := all_cells L a) in *. set (x := comp a (point_of L u)) in *. set (y := comp a (point_of L' u')) in *. clearbody n x y.
  apply Z.mod_divide in E; [|lia]. destruct E as (k & E). replace y with (x + k * n)%Z by lia. symmetry. apply Z_mod_plus_full.
Qed.
Theorem field_decomposition : forall L L' U U' blocking blocking' Js Js' js E B E' B' E1 B1 E1' B1' e b,
  sound_layout L -> periodic L -> fitting L U -> sound_layout L' -> periodic L' -> fitting L' U' -> same_whole L L' -> same_solver U U' ->
  repeating L e -> repeating L b ->
  carrying L E e -> carrying L B b -> Forall2 (fun J j => carrying L J j /\ repeating L j) Js js ->
  carrying L' E' e -> carrying L' B' b -> Forall2 (fun J j => carrying L' J j) Js' js ->
  field_run L U blocking Js E B E1 B1 -> field_run L' U' blocking' Js' E' B' E1' B1' ->
  forall d u u', In u (nodes L) -> In u' (nodes L') -> stands_for L u (point_of L' u') = true ->
    gat (array d (E1 (fst u))) (snd u) = gat (array d (E1' (fst u'))) (snd u') /\ gat (array d (B1 (fst u))) (snd u) = gat (array d (B1' (fst u'))) (snd u').
Proof.
  intros L L' U U' blocking blocking' Js Js' js E B E' B' E1 B1 E1' B1' e b HL HP HF HL' HP' HF' SW SU He Hb HE HB HJ HE' HB' HJ' R R' d u u' Hu Hu' St.
  assert (RR : forall f, repeats L f -> repeats L' f) by (intros f Hf d' p; rewrite <- (proj1 (SW (dir_of d'))); apply Hf).
  destruct (run_carries L U HL HP HF blocking Js E B E1 B1 R js e b He Hb HE HB HJ) as (CE & CB).
  assert (HJ2 : Forall2 (fun J j => carrying L' J j /\ repeating L' j) Js' js).
  { clear - HJ HJ' RR. revert Js HJ. induction HJ' as [|J' j Js' js C _ IH]; intros Js HJ; [constructor|]. inversion HJ as [|J j0 Js0 js0 (C0 & P0) HJ0]; subst.
    constructor; [split; [exact C|intros d; apply RR, P0]|]. exact (IH _ HJ0). }
  destruct (run_carries L' U' HL' HP' HF' blocking' Js' E' B' E1' B1' R' js e b (fun d => RR _ (He d)) (fun d => RR _ (Hb d)) HE' HB' HJ2) as (CE' & CB').
  rewrite <- (same_run U U' js (e, b) SU) in CE', CB'.
  assert (P : repeating L (fst (whole_run U js (e, b))) /\ repeating L (snd (whole_run U js (e, b)))).
  { clear - HJ He Hb. revert e b He Hb. induction HJ as [|J j Js js (C & P) _ IH]; intros e b He Hb; [split; assumption|].
    unfold whole_run. cbn [fold_left]. destruct (whole_step_repeats L U j (e, b) P He Hb) as (P1 & P2). specialize (IH _ _ P1 P2). rewrite <- surjective_pairing in IH. exact IH. }
  assert (M : forall f, repeats L f -> f (point_of L u) = f (point_of L' u')) by (intros f Hf; apply (repeats_mod L HL f _ _ Hf); intros a; now apply stands_mod).
  split.
  - refine (eq_trans (proj2 (CE d) u Hu) _). refine (eq_trans _ (eq_sym (proj2 (CE' d) u' Hu'))). f_equal. apply M, (proj1 P).
  - refine (eq_trans (proj2 (CB d) u Hu) _). refine (eq_trans _ (eq_sym (proj2 (CB' d) u' Hu'))). f_equal. apply M, (proj2 P).
Qed.

(** ** divergences *)
Lemma bwd_sub s d f g p : bwd s d (fun p => f p - g p) p = bwd s d f p - bwd s d g p. Proof. apply dif_sub. Qed.
Lemma bwd_lin s d f g k p : bwd s d (fun p => f p + k * g p) p = bwd s d f p + k * bwd s d g p. Proof. apply dif_lin. Qed.
Lemma fwd_lin s d f g k p : fwd s d (fun p => f p + k * g p) p = fwd s d f p + k * fwd s d g p. Proof. apply dif_lin. Qed.
Lemma bwd_scal s d g k p : bwd s d (fun p => k * g p) p = k * bwd s d g p.
Proof. rewrite !bwd_dif. unfold dif. rewrite <- rsum_scal. apply rsum_ext. intros i _. ring. Qed.
Lemma fwd_scal s d g k p : fwd s d (fun p => k * g p) p = k * fwd s d g p.
Proof. rewrite !fwd_dif. unfold dif. rewrite <- rsum_scal. apply rsum_ext. intros i _. ring. Qed.
Lemma fwd_sub s d f g p : fwd s d (fun p => f p - g p) p = fwd s d f p - fwd s d g p. Proof. apply dif_sub. Qed.
Lemma div_e_after U e b j p : div (bwd (diffs U)) (e_after U e b j) p = div (bwd (diffs U)) e p - u_c U ^ 2 * u_mu U * rdt (u_steps U) * div (bwd (diffs U)) j p.
Proof.
  pose proof (div_curl_bwd (diffs U) b p) as Z. unfold div in Z at 1. unfold div, e_after. cbn [comp_x comp_y comp_z] in *.
  rewrite !bwd_lin, !bwd_sub, !bwd_scal.
  set (c1 := bwd (diffs U) AX (comp_x (curl (bwd (diffs U)) b)) p) in *. set (c2 := bwd (diffs U) AY (comp_y (curl (bwd (diffs U)) b)) p) in *. set (c3 := bwd (diffs U) AZ (comp_z (curl (bwd (diffs U)) b)) p) in *.
  replace c3 with (- c1 - c2) by lra. ring.
Qed.
Lemma div_b_after U e b p : div (fwd (diffs U)) (b_after U e b) p = div (fwd (diffs U)) b p.
Proof.
  pose proof (div_curl_fwd (diffs U) e p) as Z. unfold div in Z at 1. unfold div, b_after. cbn [comp_x comp_y comp_z] in *.
  rewrite !fwd_sub, !fwd_scal.
  set (c1 := fwd (diffs U) AX (comp_x (curl (fwd (diffs U)) e)) p) in *. set (c2 := fwd (diffs U) AY (comp_y (curl (fwd (diffs U)) e)) p) in *. set (c3 := fwd (diffs U) AZ (comp_z (curl (fwd (diffs U)) e)) p) in *.
  replace c3 with (- c1 - c2) by lra. ring.
Qed.

Section Run.
Variables (L : layout) (W : dir -> waxis) (U : setup) (K : Consts FRX) (optimised blocking : bool) (threads : Z).
Hypotheses (HL : sound_layout L) (HP : periodic L) (HF : fitting L U) (HW : sound_parts L W) (Hn : no_race L W threads) (Hc : light (u_c U) K)
  (Ht : short_time W (u_c U) (rdt (u_steps U))) (Hg : roomy_parts L W).
Notation dt := (rdt (u_steps U)).
Notation far := (Z.max (FieldBC.comp DirX (l_guards L)) (Z.max (FieldBC.comp DirY (l_guards L)) (FieldBC.comp DirZ (l_guards L))) + 1)%Z.
Notation dens ss := (density_of (w_orders W) (w_cells W) (charges L W ss)).
Lemma far_enough : (3 <= far)%Z /\ forall a, (comp a (l_guards L) < far)%Z.
Proof.
  split; [|intros a; destruct a; lia]. pose proof (Hg DirX) as G. assert (0 <= w_o (W DirX))%Z by (destruct HW as (_ & HW2); destruct (HL DirX) as (Hp & _); specialize (HW2 DirX 0%Z ltac:(lia)); destruct HW2 as (_ & _ & _ & Ho); cbn in Ho; lia).
  assert (0 <= w_o (W DirX) ÷ 2)%Z by (apply Z.quot_pos; lia). lia.
Qed.
Lemma folded_point m f u : folded L m f u = folded L m f ((0, 0, 0)%Z, point_of L u).
Proof. unfold folded. reflexivity. Qed.
Lemma folded_repeats m f : repeats L (fun p => folded L m f ((0, 0, 0)%Z, p)).
Proof.
  intros d p. unfold folded. apply (f_equal (fun l => sumR (map f l))). apply filter_ext. intros P. unfold stands_for.
  assert (E : forall a, ((comp a P - comp a (point_of L ((0, 0, 0), shift d (all_cells L (dir_of d)) p))) mod all_cells L a = (comp a P - comp a (point_of L ((0, 0, 0), p))) mod all_cells L a)%Z).
  { intros a. rewrite point_shift. match goal with |- ((_ - comp a (shift _ _ ?y)) mod _ = _)%Z => set (o := y); change ((comp a P - comp a (shift d (all_cells L (dir_of d)) o)) mod all_cells L a = (comp a P - comp a o) mod all_cells L a)%Z end. clearbody o.
    assert (C : (comp a (shift d (all_cells L (dir_of d)) o) = comp a o \/ a = dir_of d /\ comp a (shift d (all_cells L (dir_of d)) o) = comp a o + 1 * all_cells L a)%Z)
      by (destruct o as [[o1 o2] o3], d, a; cbn [comp shift dir_of]; first [left; reflexivity | right; split; [reflexivity|lia]]).
    destruct C as [-> | (_ & ->)]; [reflexivity|]. replace (comp a P - (comp a o + 1 * all_cells L a))%Z with (comp a P - comp a o + (-1) * all_cells L a)%Z by ring. apply Z_mod_plus_full. }
  unfold on_axes. cbn zeta. rewrite !(HP _), !E. reflexivity.
Qed.

Notation good := (holding L W).
(** the currents on the whole grid *)
Definition whole_j (m : Z) (ss : idx -> list rspecies) : rfield :=
  RField (fun p => folded L m (current_of (w_orders W) (w_cells W) dt (charges L W ss) AX) ((0, 0, 0)%Z, p)) (fun p => folded L m (current_of (w_orders W) (w_cells W) dt (charges L W ss) AY) ((0, 0, 0)%Z, p))
         (fun p => folded L m (current_of (w_orders W) (w_cells W) dt (charges L W ss) AZ) ((0, 0, 0)%Z, p)).
Lemma whole_j_comp m ss d p : SpecDeposit.comp d (whole_j m ss) p = folded L m (current_of (w_orders W) (w_cells W) dt (charges L W ss) d) ((0, 0, 0)%Z, p).
Proof. destruct d; reflexivity. Qed.
Lemma whole_j_repeats m ss : repeating L (whole_j m ss).
Proof. intros d d' p. rewrite !whole_j_comp. apply folded_repeats. Qed.
Lemma whole_j_carried m ss J0 J T : (forall a, (comp a (l_guards L) < m)%Z) -> well_placed L W ss -> slow_charges (u_c U) (charges L W ss) -> currents_deposited L W K optimised threads dt ss J0 ->
  (forall d r, In r (processes (l_procs L)) -> right_types L r (T d r)) ->
  (forall d, exists S', current_summed L blocking J0 T d = Ret (start L S') /\ forall r, In r (processes (l_procs L)) -> array d (J r) = arr (S' r)) -> carrying L J (whole_j m ss).
Proof.
  intros Hm H1 Hsl DJ HT SJ.
  destruct (whole_currents L W ss K optimised (u_c U) dt HL HW H1 Hc Ht Hg Hsl threads blocking J0 T Hn (fun _ => HP) HT DJ) as (jn & Hj & Bal).
  intros d. destruct (SJ d) as (S' & R1 & A). destruct (Hj d) as (F' & R2 & B2 & V). rewrite R1 in R2.
  assert (E1 : forall r, In r (processes (l_procs L)) -> S' r = F' r).
  { intros r Hr. assert (Es : start L S' = start L F') by congruence. unfold start in Es. pose proof (ext_in_map Es r Hr) as Er. cbn beta in Er. congruence. }
  split.
  - intros r Hr. cbn beta. rewrite (A r Hr), (E1 r Hr). apply (B2 r Hr).
  - intros u Hu. cbn beta. pose proof (proj1 (proj1 (in_nodes L u) Hu)) as Hr. rewrite (A _ Hr), (E1 _ Hr). refine (eq_trans (V u Hu) _). f_equal. rewrite whole_j_comp, !(proj2 (Bal m _ Hm)). apply folded_point.
Qed.
Lemma step_whole m s s' e b : (forall a, (comp a (l_guards L) < m)%Z) -> good s e b -> pic_step L W U K optimised blocking threads s s' ->
  good s' (fst (whole_step U (whole_j m (fst (fst s'))) (e, b))) (snd (whole_step U (whole_j m (fst (fst s'))) (e, b))).
Proof.
  destruct s as [[ss0 E] B], s' as [[ss E'] B']. intros Hm (H0 & He & Hb & HE & HB) (H1 & Hsl & Hp & J0 & J & T & DJ & HT & SJ & St). cbn [fst].
  pose proof (whole_j_repeats m ss) as Pj. pose proof (whole_j_carried m ss J0 J T Hm H1 Hsl DJ HT SJ) as Cj.
  destruct (step_carries L U HL HP HF blocking J E B E' B' e b _ He Hb Pj HE HB Cj St) as (CE & CB).
  destruct (whole_step_repeats L U _ (e, b) Pj He Hb) as (PE & PB). exact (conj H1 (conj PE (conj PB (conj CE CB)))).
Qed.
Lemma run_whole m l s s' : (forall a, (comp a (l_guards L) < m)%Z) -> pic_run L W U K optimised blocking threads l s s' -> forall e b, good s e b ->
  good s' (fst (whole_run U (map (whole_j m) l) (e, b))) (snd (whole_run U (map (whole_j m) l) (e, b))).
Proof.
  intros Hm R. induction R as [s|l s1 s2 s3 St R IH]; intros e b G; [exact G|].
  specialize (IH _ _ (step_whole m s1 s2 e b Hm G St)). rewrite <- surjective_pairing in IH. exact IH.
Qed.
Lemma step_good s s' e b : good s e b -> pic_step L W U K optimised blocking threads s s' -> exists e' b', good s' e' b' /\
  (forall p, div (fwd (diffs U)) b' p = div (fwd (diffs U)) b p) /\
  (same_grid W U -> forall p, gauss L W U (fst (fst s')) e' p = gauss L W U (fst (fst s)) e p).
Proof.
  intros G St. destruct far_enough as (M3 & Hm). pose proof (step_whole far s s' e b Hm G St) as G'. 
  destruct s as [[ss0 E] B], s' as [[ss E'] B']. destruct G as (H0 & He & Hb & HE & HB), St as (H1 & Hsl & Hp & J0 & J & T & DJ & HT & SJ & St). cbn [fst] in *. set (j := whole_j far ss) in *.
  destruct (whole_currents L W ss K optimised (u_c U) dt HL HW H1 Hc Ht Hg Hsl threads blocking J0 T Hn (fun _ => HP) HT DJ) as (jn & Hj & Bal).
  eexists _, _. split; [exact G'|]. split.
  - intros p. unfold whole_step. cbn [fst snd]. rewrite !div_b_after. reflexivity.
  - intros (O2 & Dx & Dy & Dz) p. unfold whole_step, gauss. cbn [fst snd]. rewrite div_e_after.
    assert (Ds : diffs U = yee (w_d (W DirX)) (w_d (W DirY)) (w_d (W DirZ))) by (unfold diffs; rewrite O2, Dx, Dy, Dz; reflexivity).
    destruct (Bal far ((0, 0, 0)%Z, p) Hm) as (Bp & _). unfold balanced in Bp. rewrite !(proj2 (Bal far _ Hm)) in Bp.
    rewrite <- (wrap_density L W HL HW far _ _ _ M3 (charge_near L W HL HW ss0 H0) (fun b => before_near L W HL HW ss H1 (u_c U) dt b Ht Hsl) Hp) in Bp.
    change (whole_rho L W ss p) with (folded L far (dens ss) ((0, 0, 0)%Z, p)). change (whole_rho L W ss0 p) with (folded L far (dens ss0) ((0, 0, 0)%Z, p)).
    assert (Dj : dt * div (bwd (diffs U)) j p = - (folded L far (dens ss) ((0, 0, 0)%Z, p) - folded L far (dens ss0) ((0, 0, 0)%Z, p))).
    { rewrite Ds. unfold div. rewrite !bwd_yee. destruct Ht as (Tp & _).
      assert (Bq : (folded L far (dens ss) ((0, 0, 0)%Z, p) - folded L far (dens ss0) ((0, 0, 0)%Z, p)) / dt +
        ((comp_x j p - comp_x j (shift AX (-1) p)) / w_d (W DirX) + (comp_y j p - comp_y j (shift AY (-1) p)) / w_d (W DirY) + (comp_z j p - comp_z j (shift AZ (-1) p)) / w_d (W DirZ)) = 0) by exact Bp.
      match type of Bq with (?a / _ + ?b = 0) => assert (Q : dt * b = - a) by (apply (Rmult_eq_reg_l (/ dt)); [|apply Rinv_neq_0_compat; lra]; rewrite <- Rmult_assoc, Rinv_l, Rmult_1_l by lra; unfold Rdiv in Bq; lra) end.
      rewrite <- Q. unfold Rdiv. ring. }
    match goal with |- ?d - ?k * ?m * ?t * ?j - _ = _ => replace (d - k * m * t * j) with (d - k * m * (t * j)) by ring end. rewrite Dj. ring.
Qed.
Theorem run_gauss l s s' : pic_run L W U K optimised blocking threads l s s' -> forall e b, good s e b -> exists e' b', good s' e' b' /\
  (forall p, div (fwd (diffs U)) b' p = div (fwd (diffs U)) b p) /\
  (same_grid W U -> forall p, gauss L W U (fst (fst s')) e' p = gauss L W U (fst (fst s)) e p).
Proof.
  intros R. induction R as [s|l s1 s2 s3 St R IH]; intros e b G; [exists e, b; auto|]. 
  destruct (step_good s1 s2 e b G St) as (e2 & b2 & G2 & B2 & D2). destruct (IH e2 b2 G2) as (e3 & b3 & G3 & B3 & D3).
  exists e3, b3. split; [exact G3|]. split; [intros p; rewrite B3; apply B2|]. intros S p. rewrite (D3 S). apply (D2 S).
Qed.
Theorem step_possible ss0 ss E B e b : good (ss0, E, B) e b -> well_placed L W ss -> slow_charges (u_c U) (charges L W ss) ->
  same_particles L W (charges L W ss0) (charges_before dt (charges L W ss)) ->
  (exists J0, currents_deposited L W K optimised threads dt ss J0) -> exists E' B', pic_step L W U K optimised blocking threads (ss0, E, B) (ss, E', B').
Proof.
  intros (H0 & He & Hb & HE & HB) H1 Hsl Hp (J0 & DJ). set (T := fun (_ : axis) (_ : idx) (_ : Z) => @None dtype).
  assert (HT : forall d r, In r (processes (l_procs L)) -> right_types L r (T d r)) by (intros d r _ k a t _ X; discriminate X).
  destruct (whole_currents L W ss K optimised (u_c U) dt HL HW H1 Hc Ht Hg Hsl threads blocking J0 T Hn (fun _ => HP) HT DJ) as (jn & Hj & Bal).
  destruct far_enough as (M3 & Hm).
  destruct (Hj AX) as (F1 & R1 & B1 & V1), (Hj AY) as (F2 & R2 & B2 & V2), (Hj AZ) as (F3 & R3 & B3 & V3).
  set (J := fun r => Field3 (arr (F1 r)) (arr (F2 r)) (arr (F3 r))).
  assert (SJ : forall d, exists S', current_summed L blocking J0 T d = Ret (start L S') /\ forall r, In r (processes (l_procs L)) -> array d (J r) = arr (S' r))
    by (intros d; destruct d; [exists F1|exists F2|exists F3]; (split; [assumption|reflexivity])).
  pose proof (whole_j_repeats far ss) as Pj. pose proof (whole_j_carried far ss J0 J T Hm H1 Hsl DJ HT SJ) as Cj.
  destruct (run_possible L U HL HP HF blocking [J] [whole_j far ss] E B e b He Hb HE HB (Forall2_cons _ _ (conj Cj Pj) (Forall2_nil _))) as (E' & B' & R).
  exists E', B'. inversion R as [|? ? ? ? E1 B1' ? ? St Rn]; subst. inversion Rn; subst. split; [exact H1|]. split; [exact Hsl|]. split; [exact Hp|]. exists J0, J, T. split; [exact DJ|]. split; [exact HT|]. split; [exact SJ|exact St].
Qed.
End Run.

(** ** two cuts *)
Lemma whole_j_same L L' W W' U U' m ss ss' : same_whole L L' -> same_axes W W' -> same_solver U U' -> Permutation (charges L W ss) (charges L' W' ss') -> whole_j L W U m ss = whole_j L' W' U' m ss'.
Proof.
  intros SW SA SU P.
  assert (Eo : w_orders W = w_orders W') by (unfold w_orders; rewrite !(proj2 (proj2 (SA _))); reflexivity).
  assert (Ec : w_cells W = w_cells W') by (unfold w_cells; rewrite !(proj1 (SA _)), !(proj1 (proj2 (SA _))); reflexivity).
  assert (Et : u_steps U = u_steps U') by apply SU.
  assert (Ef : forall d p, folded L m (current_of (w_orders W) (w_cells W) (rdt (u_steps U)) (charges L W ss) d) ((0, 0, 0)%Z, p) = folded L' m (current_of (w_orders W') (w_cells W') (rdt (u_steps U')) (charges L' W' ss') d) ((0, 0, 0)%Z, p)).
  { intros d p. unfold folded. rewrite Eo, Ec, Et.
    assert (Ea : around L m = around L' m) by (unfold around; rewrite !(proj1 (SW _)); reflexivity).
    assert (Es : filter (stands_for L ((0, 0, 0)%Z, p)) (around L m) = filter (stands_for L' ((0, 0, 0)%Z, p)) (around L' m)).
    { rewrite Ea. apply filter_ext. intros Q. unfold stands_for, on_axes. cbn zeta. rewrite !(proj1 (SW _)), !(proj2 (SW _)). reflexivity. }
    rewrite Es. apply sumR_ext. intros Q _. unfold current_of. apply sumR_perm. now apply Permutation_map. }
  unfold whole_j. f_equal; apply functional_extensionality; intros p; apply Ef.
Qed.
Theorem run_decomposition : forall L L' W W' U U' K K' optimised optimised' blocking blocking' n n' l l' s s' ss1 E1 B1 ss1' E1' B1' e b,
  run_set L W U K n -> run_set L' W' U' K' n' -> same_whole L L' -> same_axes W W' -> same_solver U U' ->
  holding L W s e b -> holding L' W' s' e b ->
  pic_run L W U K optimised blocking n l s (ss1, E1, B1) -> pic_run L' W' U' K' optimised' blocking' n' l' s' (ss1', E1', B1') ->
  Forall2 (fun ss ss' => Permutation (charges L W ss) (charges L' W' ss')) l l' ->
  forall d u u', In u (nodes L) -> In u' (nodes L') -> stands_for L u (point_of L' u') = true ->
    gat (array d (E1 (fst u))) (snd u) = gat (array d (E1' (fst u'))) (snd u') /\ gat (array d (B1 (fst u))) (snd u) = gat (array d (B1' (fst u'))) (snd u').
Proof.
  intros L L' W W' U U' K K' optimised optimised' blocking blocking' n n' l l' s s' ss1 E1 B1 ss1' E1' B1' e b (HL & HP & HF & HW & Hn & Hc & Ht & Hg) (HL' & HP' & HF' & HW' & Hn' & Hc' & Ht' & Hg') SW SA SU G G' R R' Pl d u u' Hu Hu' St.
  assert (Em : exists m, (forall a, comp a (l_guards L) < m)%Z /\ (forall a, comp a (l_guards L') < m)%Z).
  { destruct (l_guards L) as [[g1 g2] g3], (l_guards L') as [[h1 h2] h3]. exists (Z.max (Z.max g1 (Z.max g2 g3)) (Z.max h1 (Z.max h2 h3)) + 1)%Z. split; intros a; destruct a; cbn [comp]; lia. }
  destruct Em as (m & Hm & Hm').
  destruct (run_whole L W U K optimised blocking n HL HP HF HW Hn Hc Ht Hg m l s _ Hm R e b G) as (_ & PE & PB & CE & CB).
  destruct (run_whole L' W' U' K' optimised' blocking' n' HL' HP' HF' HW' Hn' Hc' Ht' Hg' m l' s' _ Hm' R' e b G') as (_ & _ & _ & CE' & CB').
  assert (Ej : map (whole_j L W U m) l = map (whole_j L' W' U' m) l').
  { clear - Pl SW SA SU. induction Pl as [|ss ss' l l' P _ IH]; [reflexivity|]. cbn [map]. rewrite IH. f_equal. now apply whole_j_same. }
  rewrite <- Ej, <- (same_run U U' _ (e, b) SU) in CE', CB'.
  assert (M : forall f, repeats L f -> f (point_of L u) = f (point_of L' u')) by (intros f Hf; apply (repeats_mod L HL f _ _ Hf); intros a; now apply stands_mod).
  split.
  - refine (eq_trans (proj2 (CE d) u Hu) _). refine (eq_trans _ (eq_sym (proj2 (CE' d) u' Hu'))). f_equal. apply M, PE.
  - refine (eq_trans (proj2 (CB d) u Hu) _). refine (eq_trans _ (eq_sym (proj2 (CB' d) u' Hu'))). f_equal. apply M, PB.
Qed.
