(** Examples and counterexamples for the exchange of guard cells and the summation over the processes. *)
From Coq Require Import ZArith List Bool Lia Permutation Reals Lra.
From Verif Require Import Cxx CxxLemmas Num NumRX Fortran FortranNum Grid GridLemmas PartBC PartBCProofs PartBCReal FieldBC SpecFieldBC FieldBCAxis FieldBCMemory FieldBCWorld FieldBCProofs FieldBCSum FieldBCReal.
Import ListNotations.
Local Open Scope Z_scope.

(** an array with the bounds of process r *)
Definition local_array {A} (L : layout) (v : node -> A) (r : idx) : grid A :=
  let '(g1, g2, g3) := l_guards L in let '(n1, n2, n3) := local_cells L r in
  Grid (- g1, - g2, - g3) (n1 + g1, n2 + g2, n3 + g3) (fun p => v (r, p)).
Definition fresh {A} (L : layout) (v : node -> A) (r : idx) : pstate A := PState (local_array L v r) (fun _ => None).
Lemma local_array_bounds {A} L (v : node -> A) r : right_bounds L r (local_array L v r).
Proof. unfold right_bounds, local_array. destruct (l_guards L) as [[? ?] ?], (local_cells L r) as [[? ?] ?]. split; reflexivity. Qed.
Lemma local_array_value {A} L (v : node -> A) x T : value (fun r => PState (local_array L v r) T) x = v x.
Proof. destruct x as [r p]. unfold value, local_array. destruct (l_guards L) as [[? ?] ?]. cbn [fst snd arr]. destruct (local_cells L r) as [[? ?] ?]. reflexivity. Qed.
Lemma fresh_start {A} L (v : node -> A) : right_start L (fresh L v).
Proof. intros r Hr. split; [apply local_array_bounds|]. intros k a t _ E. discriminate E. Qed.

(** two processes with 4 and 5 cells along x, one along y, three along z; x absorbing, or not *)
Definition eg_layout (absorbing : bool) : layout :=
  Layout (2, 1, 3) (fun a c => match a with DirX => 4 + c | DirY => 3 | DirZ => 3 end) (2, 1, 2) (fun a => match a with DirX => absorbing | _ => false end).
Lemma eg_sound b : sound_layout (eg_layout b).
Proof. intros a. destruct a; cbv [comp l_procs l_guards l_cells eg_layout]; repeat split; try lia; intros c Hc; lia. Qed.
(** an upper guard node of the second process along x, and the node of the first one that it stands for *)
Lemma eg_copies :
  In ((1, 0, 2), (6, 1, -1)) (nodes (eg_layout false)) /\ In ((0, 0, 1), (1, 1, 2)) (nodes (eg_layout false)) /\
  responsible (eg_layout false) ((0, 0, 1), (1, 1, 2)) = true /\ same_node (eg_layout false) ((1, 0, 2), (6, 1, -1)) ((0, 0, 1), (1, 1, 2)) = true /\
  same_node (eg_layout true) ((1, 0, 2), (6, 1, -1)) ((0, 0, 1), (1, 1, 2)) = false /\ responsible (eg_layout true) ((1, 0, 2), (6, 1, 2)) = true.
Proof.
  split; [|split; [|vm_compute; repeat split]]; apply in_nodes; (split; [apply processes_comp; intros a; destruct a; cbn; lia|]); intros a; destruct a; cbn; lia.
Qed.

(** *** Different numbers of guard cells *)
Definition one_process (h : Z) (ab : dir -> bool) : layout := Layout (1, 1, 1) (fun _ _ => 2) (h, h, h) ab.
Definition all_periodic : dir -> bool := fun _ => false.
Lemma one_sound h ab : h = 0 \/ h = 1 -> sound_layout (one_process h ab).
Proof. intros H a. destruct a; cbn; repeat split; try lia; intros c Hc; lia. Qed.
Definition mark (x : node) : Z := let '(_, (i, j, k)) := x in 1 + (i mod 2) + 10 * (j mod 2) + 100 * (k mod 2) + (if (0 <=? i) && (i <? 2) && ((0 <=? j) && (j <? 2)) && ((0 <=? k) && (k <? 2)) then 0 else 1000).

(** the second array has the types that were made for the first *)
Definition then_bc (h1 h2 : Z) (blocking : bool) : out (world Z) :=
  do w <- field_bc (1, 1, 1) (fun _ => (2, 2, 2)) (h1, h1, h1) blocking all_periodic (start (one_process h1 all_periodic) (fresh (one_process h1 all_periodic) mark));
  do st <- process w (0, 0, 0);
  field_bc (1, 1, 1) (fun _ => (2, 2, 2)) (h2, h2, h2) blocking all_periodic (start (one_process h2 all_periodic) (fun r => PState (local_array (one_process h2 all_periodic) mark r) (types st))).
Definition is_ub {A} (o : out A) : bool := match o with UB => true | _ => false end.
Lemma smaller_then_larger : is_ub (then_bc 0 1 true) = true.
Proof. vm_compute. reflexivity. Qed.
Lemma larger_then_smaller b : is_ub (then_bc 1 0 b) = true.
Proof. destruct b; vm_compute; reflexivity. Qed.
Lemma smaller_then_larger_nb : (match then_bc 0 1 false with Ret w => match process w (0, 0, 0) with Ret st => negb (gat (arr st) (-1, 0, 2) =? mark ((0, 0, 0), (1, 0, 0))) | _ => false end | _ => false end) = true.
Proof. vm_compute. reflexivity. Qed.

Lemma two_arrays_ok h1 h2 blocking : h1 = 0 \/ h1 = 1 -> h2 = 0 \/ h2 = 1 ->
  exists F1', two_arrays (one_process h1 all_periodic) (one_process h2 all_periodic) blocking (fresh (one_process h1 all_periodic) mark) (local_array (one_process h2 all_periodic) mark) F1' /\
    second (one_process h1 all_periodic) (one_process h2 all_periodic) blocking (local_array (one_process h2 all_periodic) mark) F1' = then_bc h1 h2 blocking.
Proof.
  intros H1 H2. destruct (guard_exchange (one_process h1 all_periodic) blocking (fresh (one_process h1 all_periodic) mark) (one_sound h1 _ H1) (fresh_start _ _)) as (F1' & E & R & _).
  exists F1'. split.
  - unfold two_arrays. split; [now apply one_sound|]. split; [now apply one_sound|]. repeat (split; [reflexivity|]). split; [apply fresh_start|]. split; [intros; apply local_array_bounds|exact E].
  - unfold then_bc. change (field_bc (1, 1, 1) (fun _ => (2, 2, 2)) (h1, h1, h1) blocking all_periodic (start (one_process h1 all_periodic) (fresh (one_process h1 all_periodic) mark)))
      with (field_bc (l_procs (one_process h1 all_periodic)) (local_cells (one_process h1 all_periodic)) (l_guards (one_process h1 all_periodic)) blocking (l_absorbing (one_process h1 all_periodic)) (start (one_process h1 all_periodic) (fresh (one_process h1 all_periodic) mark))).
    rewrite E. cbn [bind]. assert (X : process (start (one_process h1 all_periodic) F1') (0, 0, 0) = Ret (F1' (0, 0, 0))) by reflexivity. rewrite X. cbn [bind]. reflexivity.
Qed.

Lemma guard_numbers_refuted :
  (exists L1 L2 F1 G F1', (forall a, comp a (l_guards L1) < comp a (l_guards L2)) /\ two_arrays L1 L2 true F1 G F1' /\ second L1 L2 true G F1' = UB) /\
  (forall blocking, exists L1 L2 F1 G F1', (forall a, comp a (l_guards L2) < comp a (l_guards L1)) /\ two_arrays L1 L2 blocking F1 G F1' /\ second L1 L2 blocking G F1' = UB) /\
  (exists L1 L2 F1 G F1' w st x y, two_arrays L1 L2 false F1 G F1' /\ second L1 L2 false G F1' = Ret w /\ process w (fst x) = Ret st /\
    In x (nodes L2) /\ In y (nodes L2) /\ responsible L2 y = true /\ same_node L2 x y = true /\ gat (arr st) (snd x) <> gat (G (fst y)) (snd y)).
Proof.
  split; [|split].
  - destruct (two_arrays_ok 0 1 true) as (F1' & H & E); [now left|now right|]. do 5 eexists. split; [|split; [exact H|]]; [intros a; destruct a; reflexivity|]. rewrite E. pose proof smaller_then_larger as X. destruct (then_bc 0 1 true); (discriminate || reflexivity).
  - intros b. destruct (two_arrays_ok 1 0 b) as (F1' & H & E); [now right|now left|]. do 5 eexists. split; [|split; [exact H|]]; [intros a; destruct a; reflexivity|]. rewrite E. pose proof (larger_then_smaller b) as X. destruct (then_bc 1 0 b); (discriminate || reflexivity).
  - destruct (two_arrays_ok 0 1 false) as (F1' & H & E); [now left|now right|]. pose proof smaller_then_larger_nb as X. destruct (then_bc 0 1 false) as [w| | |] eqn:Ew; try discriminate X.
    destruct (process w (0, 0, 0)) as [st| | |] eqn:Es; try discriminate X. apply negb_true_iff, Z.eqb_neq in X.
    exists (one_process 0 all_periodic), (one_process 1 all_periodic). do 3 eexists. exists w, st, ((0, 0, 0), (-1, 0, 2)), ((0, 0, 0), (1, 0, 0)). split; [exact H|]. split; [exact E|]. split; [exact Es|].
    split; [apply in_nodes; split; [apply processes_comp; intros a; destruct a; cbn; lia|intros a; destruct a; cbn; lia]|]. split; [apply in_nodes; split; [apply processes_comp; intros a; destruct a; cbn; lia|intros a; destruct a; cbn; lia]|]. split; [reflexivity|]. split; [reflexivity|]. exact X.
Qed.

(** *** Absorbing boundaries and the blocking summation *)
Lemma own_responsible L x : own_node L x = true -> responsible L x = true.
Proof.
  unfold own_node, responsible. rewrite !on_axes_iff. intros H a. specialize (H a). rewrite H. reflexivity.
Qed.
Lemma blocking_wraps (L : layout) (F : idx -> pstate (num FRX)) (f : node -> R) : sound_layout L -> right_start L F -> (forall x, In x (nodes L) -> value F x = Fin (f x)) ->
  exists F', charge_bcs (l_procs L) (local_cells L) (l_guards L) true (l_absorbing L) (start L F) = Ret (start L F') /\
    forall x, In x (nodes L) -> own_node L x = true -> value F' x = Fin (total (map f (filter (same_node (as_periodic L) x) (nodes L)))).
Proof.
  intros HL H HF. destruct (start_inv L F H) as (HI & HT).
  pose (P := as_periodic L). assert (HP : sound_layout P) by exact HL. assert (HI' : Inv P F) by exact HI. assert (HT' : good_types P F) by exact HT.
  assert (HF' : finite P F f) by (intros x Hx; apply HF; now apply in_nodes).
  destruct (sum_axis_ok P HP 7 DirX F HI' HT' eq_refl) as (F1' & F1 & E1 & I1 & T1 & A1 & B1). destruct (blocking_summed P HP DirX F f F1' F1 eq_refl HF' A1 B1) as (fX & HX & SX).
  destruct (sum_axis_ok P HP 8 DirY F1 I1 T1 eq_refl) as (F2' & F2 & E2 & I2 & T2 & A2 & B2). destruct (blocking_summed P HP DirY F1 fX F2' F2 eq_refl HX A2 B2) as (fY & HY & SY).
  destruct (sum_axis_ok P HP 9 DirZ F2 I2 T2 eq_refl) as (F3' & F3 & E3 & I3 & T3 & A3 & B3). destruct (blocking_summed P HP DirZ F2 fY F3' F3 eq_refl HY A3 B3) as (fZ & HZ & SZ).
  destruct (field_bc_ok L HL true F3 I3 T3) as (F4 & E4 & I4 & T4 & V4).
  exists F4. split.
  - unfold charge_bcs, summation_bcs. change (start L F) with (start P F). change (l_procs L) with (l_procs P) at 1 2 3. change (local_cells L) with (local_cells P) at 1 2 3. change (l_guards L) with (l_guards P) at 1 2 3.
    rewrite E1. cbn [bind]. rewrite E2. cbn [bind]. rewrite E3. cbn [bind]. exact E4.
  - intros x Hx Ho. apply in_nodes in Hx. assert (Hx' : is_node P x) by exact Hx. rewrite V4 by exact Hx.
    assert (Eo : own3 L x = x) by (apply (own3_unique L HL); [exact Hx|exact Hx|now apply own_responsible|apply same_iff; reflexivity]).
    rewrite Eo. rewrite HZ by exact Hx'. f_equal. assert (Ro : responsible P x = true) by (apply own_responsible; exact Ho). rewrite (summed3 P HP f fX fY fZ x SX SY SZ Hx' Ro).
    apply (total_perm _ _ (Permutation_map f (copies3_all P HP x Hx' Ro))).
Qed.

Definition absorbing_x : dir -> bool := fun a => match a with DirX => true | _ => false end.
Definition spot (x : node) : R := if idx_eqb (snd x) (3, 0, 0) then 1%R else 0%R.
(** a charge beyond the upper absorbing boundary is added to the other end of the grid *)
Lemma absorbing_blocking_refuted : exists L (F : idx -> pstate (num FRX)) f (F' : idx -> pstate (num FRX)) x, sound_layout L /\ right_start L F /\ (forall y, In y (nodes L) -> value F y = Fin (f y)) /\
  charge_bcs (l_procs L) (local_cells L) (l_guards L) true (l_absorbing L) (start L F) = Ret (start L F') /\
  l_absorbing L DirX = true /\ In x (nodes L) /\ comp DirX (snd x) = 1 /\
  (forall y, In y (nodes L) -> comp DirX (snd y) <= 2 -> f y = 0%R) /\ total (map f (filter (same_node L x) (nodes L))) = 0%R /\ value F' x = Fin 1.
Proof.
  pose (L := one_process 1 absorbing_x). assert (HL : sound_layout L) by (apply one_sound; now right).
  assert (V : forall y, In y (nodes L) -> value (fresh L (fun y => Fin (spot y) : num FRX)) y = Fin (spot y)) by (intros y _; exact (local_array_value L (fun y => Fin (spot y) : num FRX) y (fun _ => None))).
  destruct (blocking_wraps L (fresh L (fun y => Fin (spot y) : num FRX)) spot HL (fresh_start _ _) V) as (F' & E & W).
  assert (Hx : In ((0, 0, 0), (1, 0, 0)) (nodes L)) by (apply in_nodes; split; [apply processes_comp; intros a; destruct a; cbn; lia|intros a; destruct a; cbn; lia]).
  exists L, (fresh L (fun y => Fin (spot y) : num FRX)), spot, F', ((0, 0, 0), (1, 0, 0)). split; [exact HL|]. split; [apply fresh_start|]. split; [exact V|]. split; [exact E|]. split; [reflexivity|]. split; [exact Hx|]. split; [reflexivity|]. split; [|split].
  - intros [r [[i j] k]] _ Hi. cbn [comp snd] in Hi. unfold spot. cbn [snd idx_eqb]. replace (i =? 3) with false by lia. reflexivity.
  - assert (Z0 : forall l, (forall y, In y l -> spot y = 0%R) -> total (map spot l) = 0%R) by (induction l as [|y l IH]; intros Hl; [reflexivity|]; cbn; rewrite (Hl y) by (now left); unfold total in IH; rewrite IH by (intros; apply Hl; now right); lra).
    apply Z0. intros y Hy. apply filter_In in Hy. destruct Hy as (Ny & Sy). rewrite same_iff in Sy. specialize (Sy DirX). apply in_nodes in Ny. destruct y as [[[a b] c] [[i j] k]]. destruct Ny as (Hr & _). apply processes_comp with (a := DirX) in Hr. cbn in Hr.
    assert (a = 0) by lia. subst a. cbn in Sy. unfold spot. cbn [snd idx_eqb]. replace (i =? 3) with false by lia. reflexivity.
  - rewrite W by (exact Hx || reflexivity). f_equal.
    assert (Ef : exists l, l = filter (same_node (as_periodic L) ((0, 0, 0), (1, 0, 0))) (nodes L)) by (eexists; reflexivity). destruct Ef as (l & Ef). rewrite <- Ef. vm_compute in Ef. subst l.
    unfold spot, total. cbn [map fold_right snd idx_eqb Z.eqb Pos.eqb andb]. lra.
Qed.

(** *** Further facts for the theorems *)
Lemma one_responsible L x y : sound_layout L -> In x (nodes L) -> In y (nodes L) -> responsible L x = true -> responsible L y = true -> same_node L x y = true -> x = y.
Proof. intros HL Hx Hy. apply in_nodes in Hx. apply in_nodes in Hy. now apply responsible_unique. Qed.
Lemma eg_summation : sound_layout (eg_layout false) /\ right_start (eg_layout false) (fresh (eg_layout false) (fun y => Fin (spot y) : num FRX)) /\
  (forall a, l_absorbing (eg_layout false) a = false) /\
  (forall x, In x (nodes (eg_layout false)) -> value (fresh (eg_layout false) (fun y => Fin (spot y) : num FRX)) x = Fin (spot x)).
Proof.
  split; [apply eg_sound|]. split; [apply fresh_start|]. split; [intros a; destruct a; reflexivity|].
  intros x _. exact (local_array_value (eg_layout false) (fun y => Fin (spot y) : num FRX) x (fun _ => None)).
Qed.
Lemma same_guards L blocking F1 G F1' : two_arrays L L blocking F1 G F1' ->
  exists F2, second L L blocking G F1' = Ret (start L F2) /\
    forall x y, In x (nodes L) -> In y (nodes L) -> responsible L y = true -> same_node L x y = true -> value F2 x = gat (G (fst y)) (snd y).
Proof.
  intros (HL & _ & _ & _ & _ & H1 & HG & E). destruct (guard_exchange L blocking F1 HL H1) as (F & E' & R & _). rewrite E in E'. injection E' as E'.
  assert (Ef : forall r, In r (processes (l_procs L)) -> F1' r = F r).
  { intros r Hr. unfold start in E'. pose proof (ext_in_map E' r Hr) as X. now injection X. }
  destruct (guard_exchange L blocking (fun r => PState (G r) (types (F1' r))) HL) as (F2 & E2 & _ & V).
  - intros r Hr. split; [now apply HG|]. cbn [types]. rewrite (Ef r Hr). now apply R.
  - exists F2. split; [exact E2|]. intros x y Hx Hy Ry S. destruct (V x Hx) as (_ & W). now apply W.
Qed.
Lemma eg_same_guards blocking : exists L F1 G F1', two_arrays L L blocking F1 G F1' /\ forall a, 0 < comp a (l_guards L).
Proof.
  destruct (two_arrays_ok 1 1 blocking) as (F1' & H & _); [now right|now right|]. do 4 eexists. split; [exact H|]. intros a; destruct a; reflexivity.
Qed.
