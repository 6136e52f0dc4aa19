(** The currents of a run on several processes: proofs. *)
From Coq Require Import ZArith Reals List Bool Lia Lra Permutation.
From Verif Require Import Cxx CxxLemmas Num NumRX Fortran FortranNum Grid GridLemmas Pushers Yee Deposit Esirkepov Tiles DepositTiles CurrentTiles SpecYee YeeReal SpecDeposit SpecCurrent Splines Sums DepositProofs DepositMore EskCore SpecTiles SpecDepositTiles SpecCurrentTiles DepositTilesProofs DepositTilesReal CurrentTilesProofs SpecFlux Flux.
From Verif Require Import PartBC PartBCProofs PartBCReal FieldBC SpecFieldBC FieldBCAxis FieldBCMemory FieldBCWorld FieldBCProofs FieldBCSum FieldBCReal SpecWhole WholeProofs SpecWholeCurrent.
Import ListNotations.
Local Open Scope R_scope.

Lemma finite_choice {B} (P : idx -> B -> Prop) (b0 : B) l : (forall q, In q l -> exists b, P q b) -> exists f, forall q, In q l -> P q (f q).
Proof.
  induction l as [|q l IH]; intros H; [exists (fun _ => b0); intros q []|]. destruct IH as (f & Hf); [intros; apply H; now right|]. destruct (H q (or_introl eq_refl)) as (b & Hb).
  exists (fun q' => if idx_eqb q' q then b else f q'). intros q' Iq. destruct (idx_eqb q' q) eqn:E; [apply idx_eqb_eq in E; now subst q'|].
  apply Hf. destruct Iq as [<-|Iq]; [rewrite idx_eqb_refl in E; discriminate|exact Iq].
Qed.
Definition sub3' (P m : idx) : idx := map3 Z.sub P m.
Lemma sub_add P m : add3 (sub3' P m) m = P.
Proof. destruct P as [[i j] k], m as [[a b] c]. unfold add3, sub3', map3. apply (f_equal2 pair); [apply (f_equal2 pair)|]; lia. Qed.
Lemma add_sub p m : sub3' (add3 p m) m = p.
Proof. destruct p as [[i j] k], m as [[a b] c]. unfold add3, sub3', map3. apply (f_equal2 pair); [apply (f_equal2 pair)|]; lia. Qed.
Lemma shift_sub' d n P m : sub3' (shift d n P) m = shift d n (sub3' P m).
Proof. destruct P as [[i j] k], m as [[a b] c], d; unfold sub3', map3, shift; (apply (f_equal2 pair); [apply (f_equal2 pair)|]); lia. Qed.
Lemma shift_shift d n n' P : shift d n (shift d n' P) = shift d (n' + n) P.
Proof. destruct P as [[i j] k], d; unfold shift; (apply (f_equal2 pair); [apply (f_equal2 pair)|]); lia. Qed.
Lemma shift_0 d P : shift d 0 P = P.
Proof. destruct P as [[i j] k], d; unfold shift; (apply (f_equal2 pair); [apply (f_equal2 pair)|]); lia. Qed.
Lemma shift_add3 d n P : shift d n P = add3 P (match d with AX => (n, 0, 0) | AY => (0, n, 0) | AZ => (0, 0, n) end)%Z.
Proof. destruct P as [[i j] k], d; unfold add3, map3, shift; (apply (f_equal2 pair); [apply (f_equal2 pair)|]); lia. Qed.

Section Fold.
Variables (L : layout) (W : dir -> waxis).
Hypotheses (HL : sound_layout L) (HW : sound_parts L W).
Local Notation x := (part_x L W). Local Notation y := (part_y L W). Local Notation z := (part_z L W).
Local Notation np := (l_procs L).
Definition whole_lo (m : Z) : idx := (- m, - m, - m)%Z.
Definition whole_hi (m : Z) : idx := (all_cells L DirX + m, all_cells L DirY + m, all_cells L DirZ + m)%Z.
Lemma folded_box m f u : folded L m f u = sum_box (whole_lo m) (whole_hi m) (fun P => if stands_for L u P then f P else 0).
Proof. unfold folded. now rewrite sum_filter. Qed.
Definition whole_box (r : idx) (P : idx) : bool := in_box (add3 (lo_of L W r) (base L r)) (add3 (hi_of L W r) (base L r)) P.
Lemma whole_box_local r P : whole_box r P = in_box (lo_of L W r) (hi_of L W r) (sub3' P (base L r)).
Proof.
  unfold whole_box, lo_of, hi_of, first_node, last_node, base, add3, sub3', map3. destruct P as [[i j] k]. apply eq_true_iff_eq. rewrite !in_box_iff. lia.
Qed.
Lemma whole_box_around r m P : (forall a, comp a (l_guards L) <= m)%Z -> In r (processes np) -> whole_box r P = true -> in_box (whole_lo m) (whole_hi m) P = true.
Proof.
  intros Hm Hr. pose proof (proj1 (processes_comp _ _) Hr) as Hc. pose proof (before_range L HL DirX _ (Hc DirX)). pose proof (before_range L HL DirY _ (Hc DirY)). pose proof (before_range L HL DirZ _ (Hc DirZ)).
  pose proof (Hm DirX). pose proof (Hm DirY). pose proof (Hm DirZ). unfold whole_box, lo_of, hi_of, first_node, last_node, base, add3, map3, whole_lo, whole_hi. cbn [p_n p_ng part_axis part_x part_y part_z].
  destruct P as [[i j] k]. rewrite !in_box_iff. lia.
Qed.
Lemma process_fold u m r (phi : idx -> R) : (forall a, comp a (l_guards L) <= m)%Z -> In r (processes np) -> (forall P, whole_box r P = false -> phi P = 0) ->
  sumR (map (fun p => if same_node L u (r, p) then phi (add3 p (base L r)) else 0) (local_nodes L r)) =
  sumR (map (fun P => if stands_for L u P then phi P else 0) (around L m)).
Proof.
  intros Hm Hr Hp. rewrite (local_box L W). unfold around. fold (sum_box (lo_of L W r) (hi_of L W r) (fun p => if same_node L u (r, p) then phi (add3 p (base L r)) else 0)).
  fold (sum_box (- m, - m, - m)%Z (all_cells L DirX + m, all_cells L DirY + m, all_cells L DirZ + m)%Z (fun P => if stands_for L u P then phi P else 0)).
  rewrite (sum_box_ext' _ _ _ (fun p => if stands_for L u (add3 p (base L r)) then phi (add3 p (base L r)) else 0)) by (intros p _; rewrite (same_stands L HL); reflexivity).
  rewrite <- (sum_box_shift (lo_of L W r) (hi_of L W r) (base L r) (fun P => if stands_for L u P then phi P else 0)). symmetry. pose proof (proj1 (processes_comp _ _) Hr) as Hc.
  pose proof (before_range L HL DirX _ (Hc DirX)). pose proof (before_range L HL DirY _ (Hc DirY)). pose proof (before_range L HL DirZ _ (Hc DirZ)).
  pose proof (Hm DirX). pose proof (Hm DirY). pose proof (Hm DirZ). pose proof (sens L W HW DirX r Hr) as SX. pose proof (sens L W HW DirY r Hr) as SY. pose proof (sens L W HW DirZ r Hr) as SZ. unfold sensible in SX, SY, SZ. cbn [p_n p_ng part_axis] in SX, SY, SZ.
  assert (Out : forall P, whole_box r P = false -> (if stands_for L u P then phi P else 0) = 0) by (intros P HP; destruct (stands_for L u P); [now apply Hp|reflexivity]).
  unfold whole_box, lo_of, hi_of, first_node, last_node, base, add3, map3 in *. cbn [p_n p_ng part_axis part_x part_y part_z] in *.
  apply sum_box_window; try lia. exact Out.
Qed.
Theorem nodes_fold u m (f : node -> R) (phi : idx -> idx -> R) : (forall a, comp a (l_guards L) <= m)%Z ->
  (forall r P, In r (processes np) -> whole_box r P = false -> phi r P = 0) -> (forall r p, In r (processes np) -> f (r, p) = phi r (add3 p (base L r))) ->
  total (map f (filter (same_node L u) (nodes L))) = folded L m (fun P => sumR (map (fun r => phi r P) (processes np))) u.
Proof.
  intros Hm Hp Hf. unfold folded. rewrite total_sumR, sum_filter, sum_filter. unfold nodes. rewrite sumR_flat.
  rewrite (sumR_ext _ (fun r => sumR (map (fun P => if stands_for L u P then phi r P else 0) (around L m))) (processes np)).
  - rewrite (sumR_swap (fun r P => if stands_for L u P then phi r P else 0)). apply sumR_ext. intros P _. destruct (stands_for L u P); [reflexivity|]. apply sumR_0.
  - intros r Hr. rewrite map_map. rewrite <- (process_fold u m r (phi r) Hm Hr (fun P => Hp r P Hr)). apply sumR_ext. intros p _. now rewrite Hf.
Qed.
Lemma stands_before d u P : stands_for L (node_before d u) P = stands_for L u (shift d 1 P).
Proof.
  unfold stands_for, on_axes, point_of, node_before. destruct u as [r [[i j] k]], P as [[a b] e]. destruct d; cbn [shift fst snd comp];
  apply f_equal2; try (apply f_equal2); try reflexivity;
  match goal with |- context [l_absorbing L ?a] => destruct (l_absorbing L a) end; try (apply eq_true_iff_eq; rewrite !Z.eqb_eq; lia);
  match goal with |- (?s mod _ =? 0)%Z = (?t mod _ =? 0)%Z => replace s with t by lia; reflexivity end.
Qed.
Lemma fold_before m d u (phi : idx -> R) : (0 <= m)%Z -> (forall P, in_box (whole_lo m) (whole_hi m) P = false -> phi P = 0) ->
  folded L m phi (node_before d u) = folded L (m + 1) (fun P => phi (shift d (-1) P)) u.
Proof.
  intros Hm Hp. rewrite !folded_box. pose proof (cells_pos L HL DirX). pose proof (cells_pos L HL DirY). pose proof (cells_pos L HL DirZ).
  set (e := (match d with AX => (1, 0, 0) | AY => (0, 1, 0) | AZ => (0, 0, 1) end)%Z).
  transitivity (sum_box (add3 (whole_lo m) e) (add3 (whole_hi m) e) (fun P => if stands_for L u P then phi (shift d (-1) P) else 0)).
  - rewrite sum_box_shift. apply sum_box_ext'. intros P _. unfold e. rewrite <- shift_add3, stands_before, shift_shift. change (1 + -1)%Z with 0%Z. now rewrite shift_0.
  - symmetry. assert (Out : forall P, in_box (add3 (whole_lo m) e) (add3 (whole_hi m) e) P = false -> (if stands_for L u P then phi (shift d (-1) P) else 0) = 0).
    { intros P HP. destruct (stands_for L u P); [|reflexivity]. apply Hp. apply not_true_is_false. intros E. apply Bool.diff_true_false. rewrite <- HP. symmetry. revert E.
      unfold e, whole_lo, whole_hi, add3, map3. destruct P as [[i j] k], d; unfold shift; rewrite !in_box_iff; lia. }
    unfold e, whole_lo, whole_hi, add3, map3 in *. destruct d; apply sum_box_window; try lia; exact Out.
Qed.
Lemma folded_ext m f h u : (forall P, f P = h P) -> folded L m f u = folded L m h u.
Proof. intros H. unfold folded. apply sumR_ext. auto. Qed.
Lemma folded_0 m u : folded L m (fun _ => 0) u = 0. Proof. apply sumR_0. Qed.
Lemma folded_scal m k f u : folded L m (fun P => k * f P) u = k * folded L m f u. Proof. apply sumR_scal. Qed.
Lemma folded_plus m f h u : folded L m (fun P => f P + h P) u = folded L m f u + folded L m h u. Proof. apply sumR_plus. Qed.
Lemma folded_minus m f h u : folded L m (fun P => f P - h P) u = folded L m f u - folded L m h u. Proof. apply sumR_minus. Qed.
End Fold.

(** ** deposition and summation *)
Section Run.
Variables (L : layout) (W : dir -> waxis) (ss : idx -> list rspecies) (K : Consts FRX) (optimised : bool) (c dt : R).
Hypotheses (HL : sound_layout L) (HW : sound_parts L W) (Hss : well_placed L W ss) (Hc : light c K) (Ht : short_time W c dt) (Hg : roomy_parts L W) (Hsl : slow_charges c (charges L W ss)).
Local Notation x := (part_x L W). Local Notation y := (part_y L W). Local Notation z := (part_z L W).
Local Notation np := (l_procs L).
(** only the species that are deposited count *)
Definition only (s : rspecies) : rspecies := if rs_depos s then s else RSpecies false (rs_q s) (fun _ => []).
Lemma only_step (f : current_routine FRX) d t m q s st : jspecies_step f d t m q (jspecies_of (only s)) st = jspecies_step f d t m q (jspecies_of s) st.
Proof. unfold only, jspecies_step. destruct (rs_depos s) eqn:E; [reflexivity|]. cbn [j_depos jspecies_of rs_depos]. now rewrite E. Qed.
Lemma only_loop (f : current_routine FRX) d t m q l : forall st, for_each (jspecies_step f d t m q) (map jspecies_of (map only l)) st = for_each (jspecies_step f d t m q) (map jspecies_of l) st.
Proof. induction l as [|s l IH]; intros st; [reflexivity|]. cbn [map for_each]. rewrite only_step. destruct (jspecies_step f d t m q (jspecies_of s) st); cbn [bind]; auto. Qed.
Lemma only_filter l : filter rs_depos (map only l) = filter rs_depos l.
Proof. induction l as [|s l IH]; [reflexivity|]. cbn [map filter]. unfold only at 1 2. destruct (rs_depos s) eqn:E; cbn [rs_depos]; rewrite ?E, IH; reflexivity. Qed.
Lemma only_outcome n f d t mesh tiles l J (r : out (field (num FRX))) : currents_outcome n f d t mesh tiles (map jspecies_of l) J r -> currents_outcome n f d t mesh tiles (map jspecies_of (map only l)) J r.
Proof.
  unfold currents_outcome, tile_currents.
  assert (E : forallb (fun q => match for_each (jspecies_step f d t (mesh q) q) (map jspecies_of (map only l)) (Field3 (tile_zero (mesh q)) (tile_zero (mesh q)) (tile_zero (mesh q)), false) with Ret _ => true | _ => false end) tiles =
              forallb (fun q => match for_each (jspecies_step f d t (mesh q) q) (map jspecies_of l) (Field3 (tile_zero (mesh q)) (tile_zero (mesh q)) (tile_zero (mesh q)), false) with Ret _ => true | _ => false end) tiles).
  { clear. induction tiles as [|q qs IH]; [reflexivity|]. cbn [forallb]. now rewrite only_loop, IH. }
  rewrite E. clear E. destruct (forallb _ tiles); [|exact (fun h => h)]. intros (arrs & r1 & r2 & r3 & Ea & R). exists arrs, r1, r2, r3. split; [|exact R]. intros q Iq. rewrite only_loop. now apply Ea.
Qed.
Lemma only_density xx yy zz l p : all_density xx yy zz (map only l) p = all_density xx yy zz l p.
Proof. unfold all_density. now rewrite only_filter. Qed.
Lemma only_earlier xx yy zz l p : all_density xx yy zz (map (earlier dt) (map only l)) p = all_density xx yy zz (map (earlier dt) l) p.
Proof.
  unfold all_density.
  assert (E : filter rs_depos (map (earlier dt) (map only l)) = filter rs_depos (map (earlier dt) l)); [|now rewrite E].
  induction l as [|s l IH]; [reflexivity|]. cbn [map filter]. unfold only at 1 2. destruct (rs_depos s) eqn:E; cbn [earlier rs_depos]; rewrite ?E, IH; reflexivity.
Qed.
Lemma only_placed r : In r (processes np) -> in_tiles (x r) (y r) (z r) (map only (ss r)).
Proof.
  intros Hr s i j k a Is Iq Ia. apply in_map_iff in Is. destruct Is as (s0 & <- & Is). apply (Hss r Hr s0 i j k a Is Iq). unfold only in Ia. destruct (rs_depos s0); [exact Ia|destruct Ia].
Qed.
Lemma only_slow r : In r (processes np) -> all_slower c (x r) (y r) (z r) (map only (ss r)).
Proof.
  intros Hr s q a Is Iq Ia. apply in_map_iff in Is. destruct Is as (s0 & <- & Is). unfold only in Ia. destruct (rs_depos s0) eqn:E; [|destruct Ia]. apply (Hsl (rs_q s0, a)).
  unfold charges. apply in_flat_map. exists r. split; [exact Hr|]. apply in_flat_map. exists s0. split; [apply filter_In; now split|]. apply in_map_iff. exists a. split; [reflexivity|]. apply in_flat_map. now exists q.
Qed.
Lemma part_short r : short_step c dt (x r) (y r) (z r).
Proof. destruct Ht as (T & C & A). split; [exact T|]. split; [exact C|]. split; [exact (A DirX)|]. split; [exact (A DirY)|exact (A DirZ)]. Qed.
Lemma before_eq : charges_before dt (charges L W ss) = charges L W (fun r => map (earlier dt) (ss r)).
Proof.
  unfold charges_before, charges. rewrite !flat_map_concat_map, concat_map, map_map. apply (f_equal (@concat _)). apply map_ext. intros r.
  rewrite !flat_map_concat_map, concat_map, map_map. apply (f_equal (@concat _)). induction (ss r) as [|s l IH]; [reflexivity|]. cbn [map filter earlier rs_depos]. destruct (rs_depos s); [|exact IH]. cbn [map]. rewrite <- IH. apply f_equal2; [|reflexivity].
  cbn [rs_q rs_parts earlier]. clear IH. induction (tiles_of (x r) (y r) (z r)) as [|q qs IHq]; [reflexivity|]. cbn [flat_map]. rewrite !map_app, IHq, !map_map. reflexivity.
Qed.
Lemma zero_holds r : holds (zero_arrays L r) (every (lo_of L W r)) (every (hi_of L W r)) zero_field.
Proof. intros d. destruct d; exact (zero_real L W r). Qed.
Lemma proc_currents n J r : no_race L W n -> currents_deposited L W K optimised n dt ss J -> In r (processes np) ->
  exists m, holds (J r) (every (lo_of L W r)) (every (hi_of L W r)) m /\ within (every (lo_of L W r)) (every (hi_of L W r)) m /\
    continuous (cells_of (x r) (y r) (z r)) dt (all_density (x r) (y r) (z r) (map (earlier dt) (ss r))) (all_density (x r) (y r) (z r) (ss r)) m /\ forall d p, SpecDeposit.comp d m p = current_of (w_orders W) (cells_of (x r) (y r) (z r)) dt (proc_charges (x r) (y r) (z r) (ss r)) d p.
Proof.
  intros Hn D Hr. specialize (D r Hr).
  assert (Hn' : (n <= 1)%Z \/ one_cut (x r) (y r) (z r)) by (destruct Hn as [Hn'|Hn']; [now left|right; exact (Hn' r Hr)]).
  apply only_outcome in D.
  destruct (currents_real (x r) (y r) (z r) (sens L W HW DirX r Hr) (sens L W HW DirY r Hr) (sens L W HW DirZ r Hr) (step_pos L W HW DirX) (step_pos L W HW DirY) (step_pos L W HW DirZ) K optimised c dt Hc (part_short r) (Hg DirX) (Hg DirY) (Hg DirZ)
    (map only (ss r)) (only_placed r Hr) (only_slow r Hr) n _ _ _ (zero_holds r) Hn' D) as (J' & m & E & V & Wi & Co & Fl).
  injection E as ->. exists m. split; [apply (holds_ext _ _ _ _ _ V); intros d p; rewrite comp_plus; destruct d; cbn; lra|]. split; [exact Wi|]. split.
  - apply (cont_ext _ _ _ _ _ _ _ Co); intros p; [apply only_earlier|apply only_density].
  - intros d p. rewrite Fl. unfold proc_charges. now rewrite only_filter.
Qed.

Lemma part_flow r cs d P : In r (processes np) -> current_of (w_orders W) (cells_of (x r) (y r) (z r)) dt cs d (sub3' P (base L r)) = current_of (w_orders W) (w_cells W) dt cs d P.
Proof.
  intros Hr. pose proof (step_pos L W HW DirX). pose proof (step_pos L W HW DirY). pose proof (step_pos L W HW DirZ).
  rewrite (current_moved (w_orders W) (w_cells W) (cells_of (x r) (y r) (z r)) (base L r)).
  - f_equal. destruct P as [[a b] e], (base L r) as [[m1 m2] m3]. unfold sub3', map3. (apply (f_equal2 pair); [apply (f_equal2 pair)|]); lia.
  - intros d'. destruct (HL DirX) as (HX & _). destruct (HL DirY) as (HY & _). destruct (HL DirZ) as (HZ & _). destruct HW as (_ & H2). pose proof (H2 DirX 0%Z ltac:(lia)) as (_ & _ & _ & A1). pose proof (H2 DirY 0%Z ltac:(lia)) as (_ & _ & _ & A2). pose proof (H2 DirZ 0%Z ltac:(lia)) as (_ & _ & _ & A3).
    cbn [p_o part_axis] in A1, A2, A3. destruct d'; cbn; lia.
  - intros d' e. unfold base. destruct d'; cbn [node_on unit_on]; unfold unit_x, unit_y, unit_z; cbn [ox oy oz hx hy hz cells_of w_cells part_x part_y part_z part_axis p_lo p_d]; field; lra.
  - now destruct d.
Qed.
Lemma charges_sum d P : current_of (w_orders W) (w_cells W) dt (charges L W ss) d P = sumR (map (fun r => current_of (w_orders W) (w_cells W) dt (proc_charges (x r) (y r) (z r) (ss r)) d P) (processes np)).
Proof. unfold current_of, charges. rewrite sumR_flat. reflexivity. Qed.

Section Summed.
Variables (n : Z) (blocking : bool) (J : idx -> field (num FRX)) (T : axis -> idx -> Z -> option dtype).
Hypotheses (Hn : no_race L W n) (Hb : blocking = true -> forall a, l_absorbing L a = false) (HT : forall d r, In r (processes np) -> right_types L r (T d r)) (HD : currents_deposited L W K optimised n dt ss J).
Local Notation Dc := SpecDeposit.comp.
Theorem whole_currents : exists j, (forall d, exists F', current_summed L blocking J T d = Ret (start L F') /\ right_start L F' /\ forall u, In u (nodes L) -> value F' u = Fin (j d u)) /\
  forall m u, (forall a, comp a (l_guards L) < m)%Z ->
    balanced W dt (folded L m (density_of (w_orders W) (w_cells W) (charges_before dt (charges L W ss)))) (folded L m (density_of (w_orders W) (w_cells W) (charges L W ss))) j u /\
    forall d, j d u = folded L m (current_of (w_orders W) (w_cells W) dt (charges L W ss) d) u.
Proof.
  destruct (finite_choice (fun r m => holds (J r) (every (lo_of L W r)) (every (hi_of L W r)) m /\ within (every (lo_of L W r)) (every (hi_of L W r)) m /\
    continuous (cells_of (x r) (y r) (z r)) dt (all_density (x r) (y r) (z r) (map (earlier dt) (ss r))) (all_density (x r) (y r) (z r) (ss r)) m /\ forall d p, SpecDeposit.comp d m p = current_of (w_orders W) (cells_of (x r) (y r) (z r)) dt (proc_charges (x r) (y r) (z r) (ss r)) d p) zero_field (processes np)) as (v & Hv).
  { intros r Hr. exact (proc_currents n J r Hn HD Hr). }
  set (loc := fun d (u : node) => Dc d (v (fst u)) (snd u)).
  exists (fun d u => total (map (loc d) (filter (same_node L u) (nodes L)))). split.
  - intros d. unfold current_summed, summed. destruct (summation L blocking (fun r => PState (array d (J r)) (T d r)) (loc d) HL) as (F' & E & R & V).
    + intros r Hr. destruct (Hv r Hr) as (H & _). destruct (H d) as (A & B & _). split; [now apply (bounds_right L W)|exact (HT d r Hr)].
    + exact Hb.
    + intros u Hu. apply in_nodes in Hu. destruct u as [r p], Hu as (Hr & Hp). cbn [fst snd] in Hr, Hp. apply inside_local in Hp. rewrite (local_box L W) in Hp.
      destruct (Hv r Hr) as (H & _). destruct (H d) as (_ & _ & V). apply V. now apply in_box_box.
    + exists F'. split; [exact E|]. split; [exact R|exact V].
  - intros m' u Hm. set (m := (m' - 1)%Z). replace m' with (m + 1)%Z in * by (unfold m; lia). clearbody m. clear m'.
    assert (Hm0 : forall a, (comp a (l_guards L) <= m)%Z) by (intros a; specialize (Hm a); lia).
    assert (Mp : (0 <= m)%Z) by (specialize (Hm0 DirX); pose proof (Hg DirX); assert (0 <= w_o (W DirX))%Z by (destruct HW as (_ & HW2); destruct (HL DirX) as (Hp & _); specialize (HW2 DirX 0%Z ltac:(lia)); destruct HW2 as (_ & _ & _ & Ho); cbn in Ho; lia);
      assert (0 <= w_o (W DirX) ÷ 2)%Z by (apply Z.quot_pos; lia); lia).
    set (phi := fun d (r P : idx) => Dc d (v r) (sub3' P (base L r))).
    set (Phi := fun d P => sumR (map (fun r => phi d r P) (processes np))).
    assert (Z0 : forall d r P, In r (processes np) -> whole_box L W r P = false -> phi d r P = 0).
    { intros d r P Hr HP. destruct (Hv r Hr) as (_ & Wi & _). apply (Wi d). unfold every. now rewrite <- whole_box_local. }
    assert (Eq : forall d w m1, (forall a, comp a (l_guards L) <= m1)%Z -> total (map (loc d) (filter (same_node L w) (nodes L))) = folded L m1 (Phi d) w).
    { intros d w m1 Hm1. apply (nodes_fold L W HL HW w m1 (loc d) (phi d) Hm1); [exact (Z0 d)|]. intros r p Hr. unfold loc, phi. cbn [fst snd]. now rewrite add_sub. }
    assert (Zo : forall d P, in_box (whole_lo m) (whole_hi L m) P = false -> Phi d P = 0).
    { intros d P HP. unfold Phi. rewrite (sumR_ext _ (fun _ => 0)); [apply sumR_0|]. intros r Hr. apply Z0; [exact Hr|]. apply not_true_is_false. intros E. rewrite (whole_box_around L W HL r m P Hm0 Hr E) in HP. discriminate. }
    unfold balanced. split.
    2:{ intros d. rewrite (Eq d u (m + 1)%Z) by (intros a; specialize (Hm0 a); lia). apply folded_ext. intros P. unfold Phi. rewrite charges_sum. apply sumR_ext. intros r Hr. unfold phi. destruct (Hv r Hr) as (_ & _ & _ & Fl). rewrite Fl. apply part_flow; exact Hr. }
    rewrite !(Eq _ (node_before _ u) m Hm0). rewrite !(fold_before L HL m _ u _ Mp (Zo _)). rewrite !(Eq _ u (m + 1)%Z) by (intros a; specialize (Hm0 a); lia).
    unfold Rdiv. rewrite <- !folded_minus, !(Rmult_comm _ (/ _)), <- !folded_scal, <- !folded_plus.
    rewrite (folded_ext L (m + 1) _ (fun _ => 0)); [apply folded_0|]. intros P.
    rewrite before_eq. rewrite !(density_of_parts L W). unfold Phi. rewrite <- !sumR_minus, <- !sumR_scal, <- !sumR_plus. rewrite (sumR_ext _ (fun _ => 0)); [apply sumR_0|]. intros r Hr.
    destruct (Hv r Hr) as (_ & _ & Co & _). specialize (Co (sub3' P (base L r))). unfold div in Co. rewrite !bwd_yee in Co.
    rewrite (all_density_proc L W HW (fun r => map (earlier dt) (ss r)) r _ Hr), (all_density_proc L W HW ss r _ Hr), sub_add in Co. cbn [hx hy hz cells_of part_x part_y part_z part_axis p_d] in Co.
    unfold phi. rewrite !shift_sub'. cbn [SpecDeposit.comp]. rewrite <- Co. unfold Rdiv. ring.
Qed.
End Summed.
Theorem currents_possible n : (1 <= n)%Z -> (forall r s q a, In r (processes np) -> In s (ss r) -> In q (tiles_of (x r) (y r) (z r)) -> In a (rs_parts s q) -> slower c a) -> exists J, currents_deposited L W K optimised n dt ss J.
Proof.
  intros Hn Hall.
  destruct (finite_choice (fun r J => tile_current K optimised n dt (x r) (y r) (z r) (ss r) (zero_arrays L r) (Ret J)) (zero_arrays L (0, 0, 0)%Z) (processes np)) as (J & HJ).
  - intros r Hr. exact (currents_exist (x r) (y r) (z r) (sens L W HW DirX r Hr) (sens L W HW DirY r Hr) (sens L W HW DirZ r Hr) (step_pos L W HW DirX) (step_pos L W HW DirY) (step_pos L W HW DirZ) K optimised c dt Hc (part_short r) (Hg DirX) (Hg DirY) (Hg DirZ)
      (ss r) (Hss r Hr) (fun s q a => Hall r s q a Hr) n _ _ Hn (zero_holds r)).
  - exists J. exact HJ.
Qed.
End Run.
