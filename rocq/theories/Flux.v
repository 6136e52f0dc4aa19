(** Proofs about the closed form of the current. *)
From Coq Require Import ZArith Reals List Bool Lia Lra Permutation.
From Verif Require Import Cxx CxxLemmas Num NumRX Fortran FortranNum Grid GridLemmas SpecYee YeeReal SpecDeposit Splines Sums DepositProofs DepositMore EskCore EskProofs EskFacts SpecCurrent SpecTiles SpecDepositTiles DepositTilesReal SpecFlux.
Import ListNotations.
Local Open Scope R_scope.

Lemma spline_far n u i : (1 <= n <= 3)%Z -> 2 <= Rabs (u - IZR i) -> spline n u i = 0.
Proof.
  intros Hn H. assert (n = 1 \/ n = 2 \/ n = 3)%Z as [->|[->| ->]] by lia; unfold spline; set (t := Rabs (u - IZR i)) in *; clearbody t.
  - apply Rmax_left. lra.
  - destruct (Rle_dec t (1 / 2)); [lra|]. destruct (Rle_dec t (3 / 2)); [lra|reflexivity].
  - destruct (Rle_dec t 1); [lra|]. destruct (Rle_dec t 2); [|reflexivity]. assert (t = 2) as -> by lra. lra.
Qed.
Definition sized (o : orders) : Prop := forall d, (1 <= order_on o d <= 3)%Z.
Lemma put_node d i p : node_on d (put d i p) = i. Proof. destruct p as [[j k] l], d; reflexivity. Qed.
Lemma put_put d i j p : put d i (put d j p) = put d i p. Proof. destruct p as [[a b] c], d; reflexivity. Qed.
Lemma put_same d p : put d (node_on d p) p = p. Proof. destruct p as [[a b] c], d; reflexivity. Qed.
Lemma shift_put d k p : shift d k p = put d (node_on d p + k)%Z p. Proof. destruct p as [[a b] c], d; reflexivity. Qed.
Lemma inflow_far o g d a b p : sized o -> (node_on d p < behind g d a b)%Z -> inflow o g d a b p = 0.
Proof.
  intros O H. unfold behind in H.
  assert (Far : forall e, (node_on d p < Int_part (unit_on g d e) - 3)%Z -> spline (order_on o d) (unit_on g d e) (node_on d p) = 0).
  { intros e He. apply spline_far; [apply O|]. destruct (base_Int_part (unit_on g d e)) as (B1 & B2). assert (H1 : (node_on d p + 4 <= Int_part (unit_on g d e))%Z) by lia. apply IZR_le in H1. rewrite plus_IZR in H1. rewrite Rabs_right; lra. }
  pose proof (Far a ltac:(lia)) as Fa. pose proof (Far b ltac:(lia)) as Fb. destruct p as [[j k] l], d; cbn [node_on unit_on order_on] in Fa, Fb; unfold inflow; rewrite Fa, Fb; ring.
Qed.
Lemma flux_from o g d a b p L : sized o -> (L <= behind g d a b)%Z -> flux o g d a b p = rsum (zrange L (node_on d p)) (fun i => inflow o g d a b (put d i p)).
Proof.
  intros O H. unfold flux. rewrite <- rsum_sumR. destruct (Z_lt_le_dec (node_on d p) (behind g d a b - 1)) as [G|G].
  - rewrite (zrange_nil (behind g d a b)) by lia. symmetry. apply rsum_zero. intros i Hi. apply in_zrange in Hi. apply inflow_far; [exact O|]. rewrite put_node. lia.
  - rewrite (zrange_split L (behind g d a b - 1)) by lia. rewrite rsum_app, (rsum_zero (zrange L _)); [rewrite Rplus_0_l; do 2 f_equal; lia|]. intros i Hi. apply in_zrange in Hi. apply inflow_far; [exact O|]. rewrite put_node. lia.
Qed.
Lemma rsum_tele (f : Z -> R) L : forall n, (L <= n + 1)%Z -> rsum (zrange L n) (fun i => f i - f (i - 1)%Z) = f n - f (L - 1)%Z.
Proof.
  intros n H. assert (E : exists k : nat, n = (L - 1 + Z.of_nat k)%Z) by (exists (Z.to_nat (n - L + 1)); lia). destruct E as (k & ->). clear H. induction k as [|k IH].
  - rewrite zrange_nil by lia. cbn [rsum]. rewrite Z.add_0_r. unfold rsum. cbn. lra.
  - replace (L - 1 + Z.of_nat (S k))%Z with (L - 1 + Z.of_nat k + 1)%Z by lia. rewrite zrange_snoc by lia. rewrite rsum_sumR, map_app, sumR_app, <- rsum_sumR, IH. unfold sumR. cbn [map fold_right]. replace (L - 1 + Z.of_nat k + 1 - 1)%Z with (L - 1 + Z.of_nat k)%Z by lia. lra.
Qed.
(** a field that is zero far away and has the right differences *)
Theorem flux_unique {B} o g d (h : idx -> R) (k : B -> R) (nw ol : B -> rpart) (l : list B) lo : sized o ->
  (forall p, h p - h (shift d (-1) p) = sumR (map (fun b => k b * inflow o g d (nw b) (ol b) p) l)) -> (forall p, (node_on d p < lo)%Z -> h p = 0) ->
  forall p, h p = sumR (map (fun b => k b * flux o g d (nw b) (ol b) p) l).
Proof.
  intros O D Z0 p.
  assert (EL : exists L, (L <= lo)%Z /\ (L <= node_on d p)%Z /\ forall b, In b l -> (L <= behind g d (nw b) (ol b))%Z).
  { clear D. induction l as [|b l IH]; [exists (Z.min lo (node_on d p)); split; [lia|]; split; [lia|intros b []]|]. destruct IH as (L & L1 & L2 & L3). exists (Z.min L (behind g d (nw b) (ol b))). split; [lia|]. split; [lia|].
    intros b' [<-|I]; [lia|]. specialize (L3 b' I). lia. }
  destruct EL as (L & L1 & L2 & L3).
  pose proof (rsum_tele (fun i => h (put d i p)) L (node_on d p) ltac:(lia)) as T. cbv beta in T. rewrite put_same, (Z0 (put d (L - 1) p)) in T by (rewrite put_node; lia).
  rewrite Rminus_0_r in T. rewrite <- T.
  rewrite (sumR_ext _ (fun b => rsum (zrange L (node_on d p)) (fun i => k b * inflow o g d (nw b) (ol b) (put d i p)))).
  2:{ intros b Ib. rewrite (flux_from o g d (nw b) (ol b) p L O (L3 b Ib)), !rsum_sumR, sumR_scal. reflexivity. }
  rewrite (sumR_ext _ (fun b => sumR (map (fun i => k b * inflow o g d (nw b) (ol b) (put d i p)) (zrange L (node_on d p))))) by (intros b _; apply rsum_sumR).
  rewrite (sumR_swap (fun b i => k b * inflow o g d (nw b) (ol b) (put d i p))), rsum_sumR. apply sumR_ext. intros i _.
  rewrite <- (D (put d i p)), shift_put, put_node, put_put. reflexivity.
Qed.
(** the grid moved by whole cells *)
Lemma inflow_moved o g g' e d a b p : sized o -> (forall d c, unit_on g' d c = unit_on g d c - IZR (node_on d e)) ->
  inflow o g' d a b p = inflow o g d a b (let '(i, j, k) := p in let '(e1, e2, e3) := e in (i + e1, j + e2, k + e3)%Z).
Proof.
  intros O U. pose proof (U AX a) as A1. pose proof (U AY a) as A2. pose proof (U AZ a) as A3. pose proof (U AX b) as B1. pose proof (U AY b) as B2. pose proof (U AZ b) as B3.
  pose proof (O AX) as O1. pose proof (O AY) as O2. pose proof (O AZ) as O3. destruct p as [[i j] k], e as [[e1 e2] e3]. cbn [unit_on node_on order_on] in *. unfold inflow. rewrite A1, A2, A3, B1, B2, B3.
  assert (S : forall n u i m, (1 <= n <= 3)%Z -> spline n (u - IZR m) i = spline n u (i + m)) by (intros n u i0 m Hn; rewrite <- (spline_shift n u (i0 + m) m Hn); f_equal; lia).
  rewrite !S by assumption. reflexivity.
Qed.
Lemma flux_moved o g g' e d a b p : sized o -> (forall d c, unit_on g' d c = unit_on g d c - IZR (node_on d e)) ->
  flux o g' d a b p = flux o g d a b (let '(i, j, k) := p in let '(e1, e2, e3) := e in (i + e1, j + e2, k + e3)%Z).
Proof.
  intros O U. set (q := let '(i, j, k) := p in _). set (L := Z.min (behind g' d a b) (behind g d a b - node_on d e)%Z).
  rewrite (flux_from o g' d a b p L O ltac:(unfold L; lia)), (flux_from o g d a b q (L + node_on d e) O ltac:(unfold L; lia)).
  assert (Eq : node_on d q = (node_on d p + node_on d e)%Z) by (unfold q; destruct p as [[i j] k], e as [[e1 e2] e3], d; reflexivity). rewrite Eq, rsum_shift, !rsum_sumR. apply sumR_ext. intros i _.
  rewrite (inflow_moved o g g' e d a b _ O U). f_equal. unfold q. destruct p as [[i1 i2] i3], e as [[e1 e2] e3], d; reflexivity.
Qed.
Lemma current_of_app o g dt cs cs' d p : current_of o g dt (cs ++ cs') d p = current_of o g dt cs d p + current_of o g dt cs' d p.
Proof. unfold current_of. now rewrite map_app, sumR_app. Qed.
Lemma current_moved o g g' e dt cs d p : sized o -> (forall d c, unit_on g' d c = unit_on g d c - IZR (node_on d e)) -> face g' d = face g d ->
  current_of o g' dt cs d p = current_of o g dt cs d (let '(i, j, k) := p in let '(e1, e2, e3) := e in (i + e1, j + e2, k + e3)%Z).
Proof. intros O U Ef. unfold current_of. apply sumR_ext. intros b _. rewrite Ef. f_equal. now apply flux_moved. Qed.
Lemma current_perm o g dt cs cs' d p : Permutation cs cs' -> current_of o g dt cs d p = current_of o g dt cs' d p.
Proof. intros H. unfold current_of. apply sum_perm. now apply Permutation_map. Qed.
(** the routines *)
Lemma box_below d lo hi p : (node_on d p < node_on d lo)%Z -> in_box lo hi p = false.
Proof. intros H. apply not_true_is_false. intros E. destruct lo as [[a1 a2] a3], hi as [[b1 b2] b3], p as [[i j] k]. apply in_box_iff in E. destruct d; cbn [node_on] in H; lia. Qed.
Lemma current_flux o g q dt lo hi ps m : sized o -> current o g q dt lo hi (moves dt ps) m -> forall d p, comp d m p = current_of o g dt (map (pair q) ps) d p.
Proof.
  intros O [D Z0 _] d p. unfold current_of. rewrite map_map. cbn [fst snd].
  apply (flux_unique o g d (comp d m) (fun a => q * rw a / (dt * face g d)) (fun a => a) (before_move dt) ps (node_on d (lo d)) O).
  - intros p'. rewrite D. unfold moves. rewrite map_map. reflexivity.
  - intros p' Hp. apply Z0. now apply (box_below d).
Qed.
Theorem fixed_flux n g q dt ps J J' lo hi j : fixed_order n -> proper g -> dt <> 0 -> holds J lo hi j ->
  current_fixed n g q dt ps J = Ret J' ->
  exists c, holds J' lo hi (plus_field j c) /\ within lo hi c /\
    continuous g dt (density (same_order n) g q (map (before_move dt) ps)) (density (same_order n) g q ps) c /\
    forall d p, comp d c p = current_of (same_order n) g dt (map (pair q) ps) d p.
Proof.
  intros O P T H E. destruct (fixed_sound n g q dt ps J J' lo hi j O P T H E) as (c & C & H'). exists c. split; [exact H'|]. split; [exact (cu_out _ _ _ _ _ _ _ _ C)|].
  assert (S : sized (same_order n)) by (intros d; destruct O, d; cbn; lia). split; [|exact (current_flux _ _ _ _ _ _ _ _ S C)].
  rewrite <- (moves_fst dt ps) at 2. rewrite <- (moves_snd dt ps). apply (cont_of _ _ _ _ lo hi); try assumption.
  intros a I. unfold moves in I. apply in_map_iff in I. destruct I as (b & <- & _). reflexivity.
Qed.
Theorem n_flux K cl o g q dt ps J J' lo hi j : light cl K -> sized o -> proper g -> dt <> 0 -> holds J lo hi j ->
  current_n K o true false g q dt ps J = Ret J' ->
  exists c, holds J' lo hi (plus_field j c) /\ within lo hi c /\
    continuous g dt (density o g q (map (before_move dt) ps)) (density o g q ps) c /\
    forall d p, comp d c p = current_of o g dt (map (pair q) ps) d p.
Proof.
  intros Ek S P T H E. assert (O : known o) by (pose proof (S AX); pose proof (S AY); pose proof (S AZ); unfold known; cbn [order_on] in *; lia).
  destruct (n_sound K cl o true false g q dt ps J J' lo hi j Ek O P T H E) as (c & C & H').
  change (smoves true false g dt (head_weight ps) ps) with (moves dt ps) in C. exists c. split; [exact H'|]. split; [exact (cu_out _ _ _ _ _ _ _ _ C)|]. split; [|exact (current_flux _ _ _ _ _ _ _ _ S C)].
  rewrite <- (moves_fst dt ps) at 2. rewrite <- (moves_snd dt ps). apply (cont_of _ _ _ _ lo hi); try assumption.
  intros a I. unfold moves in I. apply in_map_iff in I. destruct I as (b & <- & _). reflexivity.
Qed.
