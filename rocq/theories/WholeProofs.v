(** The charge density of a run on several processes: proofs. *)
From Coq Require Import ZArith Reals List Bool Lia Lra Permutation.
From Verif Require Import Cxx CxxLemmas Num NumRX Fortran FortranNum Grid GridLemmas Pushers Deposit Tiles DepositTiles SpecYee YeeReal SpecDeposit Splines Sums DepositProofs DepositMore SpecTiles SpecDepositTiles DepositTilesProofs DepositTilesReal.
From Verif Require Import PartBC PartBCProofs PartBCReal FieldBC SpecFieldBC FieldBCAxis FieldBCMemory FieldBCWorld FieldBCProofs FieldBCSum FieldBCReal SpecWhole.
Import ListNotations.
Local Open Scope R_scope.

(** ** sums *)
Lemma sum_box_ext' lo hi (f h : idx -> R) : (forall p, in_box lo hi p = true -> f p = h p) -> sum_box lo hi f = sum_box lo hi h.
Proof. intros H. unfold sum_box. apply sumR_ext. intros p Ip. apply H. now apply in_box_box. Qed.
Lemma sum_box_window a1 a2 a3 b1 b2 b3 c1 c2 c3 d1 d2 d3 (f : idx -> R) :
  (a1 <= c1 /\ c1 <= d1 + 1 /\ d1 <= b1)%Z -> (a2 <= c2 /\ c2 <= d2 + 1 /\ d2 <= b2)%Z -> (a3 <= c3 /\ c3 <= d3 + 1 /\ d3 <= b3)%Z ->
  (forall p, in_box (c1, c2, c3) (d1, d2, d3) p = false -> f p = 0) -> sum_box (a1, a2, a3) (b1, b2, b3) f = sum_box (c1, c2, c3) (d1, d2, d3) f.
Proof.
  intros H1 H2 H3 H.
  assert (Z0 : forall i j k, ~ (c1 <= i <= d1 /\ c2 <= j <= d2 /\ c3 <= k <= d3)%Z -> f (i, j, k) = 0).
  { intros i j k Hn. apply H. apply not_true_is_false. intros E. apply in_box_iff in E. lia. }
  rewrite !sum_box_iter. rewrite (rsum_window a3 b3 c3 d3) by (try lia; intros k Hk; apply rsum_zero; intros j _; apply rsum_zero; intros i _; apply Z0; lia).
  apply rsum_ext. intros k _. rewrite (rsum_window a2 b2 c2 d2) by (try lia; intros j Hj; apply rsum_zero; intros i _; apply Z0; lia).
  apply rsum_ext. intros j _. apply rsum_window; try lia. intros i Hi. apply Z0. lia.
Qed.
Definition add3 (p m : idx) : idx := map3 Z.add p m.
Lemma sum_box_shift lo hi m (f : idx -> R) : sum_box (add3 lo m) (add3 hi m) f = sum_box lo hi (fun p => f (add3 p m)).
Proof.
  destruct lo as [[a1 a2] a3], hi as [[b1 b2] b3], m as [[m1 m2] m3]. unfold add3, map3. rewrite !sum_box_iter.
  rewrite rsum_shift. apply rsum_ext. intros k _. rewrite rsum_shift. apply rsum_ext. intros j _. rewrite rsum_shift. reflexivity.
Qed.
Lemma total_sumR l : total l = sumR l. Proof. reflexivity. Qed.
Lemma sum_filter {A} (f : A -> R) b l : sumR (map f (filter b l)) = sumR (map (fun a => if b a then f a else 0) l).
Proof. unfold sumR. induction l as [|a l IH]; [reflexivity|]. cbn [filter map fold_right]. destruct (b a); cbn [map fold_right]; rewrite IH; lra. Qed.

Section Whole.
Variables (L : layout) (W : dir -> waxis).
Hypotheses (HL : sound_layout L) (HW : sound_parts L W).
Local Notation x := (part_x L W). Local Notation y := (part_y L W). Local Notation z := (part_z L W).
Local Notation np := (l_procs L).
Definition base (r : idx) : idx :=
  (cells_before (l_cells L DirX) (comp DirX r), cells_before (l_cells L DirY) (comp DirY r), cells_before (l_cells L DirZ) (comp DirZ r)).
Lemma sens a r : In r (processes np) -> sensible (part_axis L W a (comp a r)).
Proof. intros Hr. apply HW. now apply processes_comp. Qed.
Lemma step_pos a : 0 < w_d (W a). Proof. apply HW. Qed.

Lemma proc_density r Q ps p : In r (processes np) ->
  density (orders_of (x r) (y r) (z r)) (cells_of (x r) (y r) (z r)) Q ps p = density (w_orders W) (w_cells W) Q ps (add3 p (base r)).
Proof.
  intros Hr. unfold density. apply sumR_ext. intros e _. change (SpecDeposit.volume (cells_of (x r) (y r) (z r))) with (SpecDeposit.volume (w_cells W)). f_equal.
  destruct p as [[i j] k]. unfold share, add3, map3, base. pose proof (step_pos DirX). pose proof (step_pos DirY). pose proof (step_pos DirZ).
  pose proof (proj2 (proj2 (proj2 (sens DirX r Hr)))). pose proof (proj2 (proj2 (proj2 (sens DirY r Hr)))). pose proof (proj2 (proj2 (proj2 (sens DirZ r Hr)))). cbn [p_o part_axis] in *.
  cbn [orders_of onx ony onz part_x part_y part_z part_axis p_o w_orders].
  set (cx := cells_before (l_cells L DirX) (comp DirX r)). set (cy := cells_before (l_cells L DirY) (comp DirY r)). set (cz := cells_before (l_cells L DirZ) (comp DirZ r)).
  assert (E1 : unit_x (cells_of (x r) (y r) (z r)) (rpx e) = unit_x (w_cells W) (rpx e) - IZR cx) by (unfold unit_x; cbn; fold cx; field; lra).
  assert (E2 : unit_y (cells_of (x r) (y r) (z r)) (rpy e) = unit_y (w_cells W) (rpy e) - IZR cy) by (unfold unit_y; cbn; fold cy; field; lra).
  assert (E3 : unit_z (cells_of (x r) (y r) (z r)) (rpz e) = unit_z (w_cells W) (rpz e) - IZR cz) by (unfold unit_z; cbn; fold cz; field; lra).
  rewrite E1, E2, E3. replace i with (i + cx - cx)%Z at 1 by lia. replace j with (j + cy - cy)%Z at 1 by lia. replace k with (k + cz - cz)%Z at 1 by lia.
  rewrite !spline_shift by assumption. reflexivity.
Qed.

Variable ss : idx -> list rspecies.
Hypothesis Hss : well_placed L W ss.
Definition proc_part (r P : idx) : R :=
  sumR (map (fun s => density (w_orders W) (w_cells W) (rs_q s) (flat_map (rs_parts s) (tiles_of (x r) (y r) (z r))) P) (filter rs_depos (ss r))).
Lemma all_density_proc r p : In r (processes np) -> all_density (x r) (y r) (z r) (ss r) p = proc_part r (add3 p (base r)).
Proof. intros Hr. unfold all_density, proc_part. apply sumR_ext. intros s _. now apply proc_density. Qed.
Lemma density_of_parts P : density_of (w_orders W) (w_cells W) (charges L W ss) P = sumR (map (fun r => proc_part r P) (processes np)).
Proof.
  unfold density_of, charges, proc_part. rewrite sumR_flat. apply sumR_ext. intros r _. rewrite sumR_flat. apply sumR_ext. intros s _. rewrite map_map. reflexivity.
Qed.
Definition lo_of (r : idx) : idx := first_node (x r) (y r) (z r).
Definition hi_of (r : idx) : idx := last_node (x r) (y r) (z r).
Lemma local_box r : local_nodes L r = box (lo_of r) (hi_of r).
Proof.
  unfold local_nodes, lo_of, hi_of, first_node, last_node, part_x, part_y, part_z, part_axis, local_cells. cbn [p_ng p_n].
  destruct (l_guards L) as [[g1 g2] g3]. cbn [comp]. f_equal. f_equal; [f_equal|]; lia.
Qed.
Lemma all_density_out r p : In r (processes np) -> in_box (lo_of r) (hi_of r) p = false -> all_density (x r) (y r) (z r) (ss r) p = 0.
Proof.
  intros Hr Hp. unfold all_density. rewrite (sumR_ext _ (fun _ => 0)); [apply sumR_0|]. intros s Is. apply filter_In in Is. unfold density. rewrite (sumR_ext _ (fun _ => 0)); [apply sumR_0|]. intros a Ia.
  apply in_flat_map in Ia. destruct Ia as ([[i j] k] & Iq & Ia). destruct (Hss r Hr s i j k a (proj1 Is) Iq Ia) as (A & B & C).
  pose proof (sens DirX r Hr) as SX. pose proof (sens DirY r Hr) as SY. pose proof (sens DirZ r Hr) as SZ.
  apply (in_tiles_of (fin_axis (x r)) (fin_axis (y r)) (fin_axis (z r))) in Iq. destruct Iq as (I1 & I2 & I3).
  destruct (fits3_place (orders_of (x r) (y r) (z r)) (cells_of (x r) (y r) (z r)) 1 (lo_of r) (hi_of r) a) as (P & Al).
  - apply known_o; assumption.
  - unfold lo_of, hi_of, moderate, first_node, last_node. destruct SX as (? & ? & ? & ?), SY as (? & ? & ? & ?), SZ as (? & ? & ? & ?).
    change (part_axis L W DirX (comp DirX r)) with (x r) in *. change (part_axis L W DirY (comp DirY r)) with (y r) in *. change (part_axis L W DirZ (comp DirZ r)) with (z r) in *. lia.
  - split; [|split]; [exact (axis_global (x r) i _ SX (step_pos DirX) I1 A)|exact (axis_global (y r) j _ SY (step_pos DirY) I2 B)|exact (axis_global (z r) k _ SZ (step_pos DirZ) I3 C)].
  - destruct (Req_EM_T (share (orders_of (x r) (y r) (z r)) (cells_of (x r) (y r) (z r)) (rpx a) (rpy a) (rpz a) p) 0) as [E|E]; [rewrite E; lra|].
    rewrite (receives_in _ _ _ _ _ _ _ P Al E) in Hp. discriminate.
Qed.
Lemma before_range a c : (0 <= c < comp a np)%Z -> (0 <= cells_before (l_cells L a) c /\ cells_before (l_cells L a) c + l_cells L a c <= all_cells L a)%Z.
Proof.
  intros H. destruct (HL a) as (H1 & H2 & H3). split; [exact (before_ge _ _ _ H1 H2 H3 c ltac:(lia))|exact (before_cell _ _ _ H2 H3 c H)].
Qed.
Lemma cells_pos a : (0 < all_cells L a)%Z.
Proof. destruct (HL a) as (H1 & H2 & H3). pose proof (tot_pos _ _ _ H1 H2 H3). unfold all_cells. lia. Qed.
Lemma same_stands u r p : same_node L u (r, p) = stands_for L u (add3 p (base r)).
Proof.
  unfold same_node, stands_for, on_axes. cbn [fst snd].
  assert (A : forall a, comp a (add3 p (base r)) = (cells_before (l_cells L a) (comp a r) + comp a p)%Z).
  { intros a. destruct p as [[i j] k]. unfold add3, map3, base. destruct a; cbn [comp]; lia. }
  assert (B : forall a, (place L a (comp a (fst u)) (comp a (snd u)) =? place L a (comp a r) (comp a p))%Z =
    (let i := (cells_before (l_cells L a) (comp a (fst u)) + comp a (snd u))%Z in
     if l_absorbing L a then (comp a (add3 p (base r)) =? i)%Z else ((comp a (add3 p (base r)) - i) mod all_cells L a =? 0)%Z)).
  { intros a. rewrite A. cbv zeta. unfold place. fold (all_cells L a). set (i := (cells_before (l_cells L a) (comp a (fst u)) + comp a (snd u))%Z). set (j := (cells_before (l_cells L a) (comp a r) + comp a p)%Z).
    destruct (l_absorbing L a); [apply Z.eqb_sym|]. pose proof (cells_pos a) as N0. apply eq_true_iff_eq. rewrite !Z.eqb_eq. clear - N0.
    split; intros H; [rewrite Zminus_mod, H, Z.sub_diag; reflexivity|]. apply Z.mod_divide in H; [|lia]. destruct H as (q & Hq). replace j with (i + q * all_cells L a)%Z by lia. rewrite Z.mod_add by lia. reflexivity. }
  rewrite !B. reflexivity.
Qed.
Lemma one_process_sum u m r : (forall a, comp a (l_guards L) <= m)%Z -> In r (processes np) ->
  sumR (map (fun p => if same_node L u (r, p) then all_density (x r) (y r) (z r) (ss r) p else 0) (local_nodes L r)) =
  sumR (map (fun P => if stands_for L u P then proc_part r P else 0) (around L m)).
Proof.
  intros Hm Hr. rewrite local_box. unfold around. fold (sum_box (lo_of r) (hi_of r) (fun p => if same_node L u (r, p) then all_density (x r) (y r) (z r) (ss r) p else 0)).
  fold (sum_box (- m, - m, - m)%Z (all_cells L DirX + m, all_cells L DirY + m, all_cells L DirZ + m)%Z (fun P => if stands_for L u P then proc_part r P else 0)).
  rewrite (sum_box_ext' _ _ _ (fun p => if stands_for L u (add3 p (base r)) then proc_part r (add3 p (base r)) else 0)) by (intros p _; rewrite same_stands, all_density_proc by exact Hr; reflexivity).
  rewrite <- (sum_box_shift (lo_of r) (hi_of r) (base r) (fun P => if stands_for L u P then proc_part r P else 0)). symmetry. pose proof (proj1 (processes_comp _ _) Hr) as Hc.
  pose proof (before_range DirX _ (Hc DirX)). pose proof (before_range DirY _ (Hc DirY)). pose proof (before_range DirZ _ (Hc DirZ)).
  pose proof (Hm DirX). pose proof (Hm DirY). pose proof (Hm DirZ). pose proof (sens DirX r Hr) as SX. pose proof (sens DirY r Hr) as SY. pose proof (sens DirZ r Hr) as SZ. unfold sensible in SX, SY, SZ. cbn [p_n p_ng part_axis] in SX, SY, SZ.
  assert (Out : forall P, in_box (add3 (lo_of r) (base r)) (add3 (hi_of r) (base r)) P = false -> (if stands_for L u P then proc_part r P else 0) = 0).
  { intros P HP. destruct (stands_for L u P); [|reflexivity]. set (p := map3 Z.sub P (base r)). assert (EP : P = add3 p (base r)).
    { unfold p, add3. destruct P as [[i j] k]. unfold map3, base. f_equal; [f_equal|]; lia. }
    rewrite EP, <- all_density_proc by exact Hr. apply all_density_out; [exact Hr|]. apply not_true_is_false. intros E. apply (eq_true_false_abs _ (refl_equal true)). rewrite <- HP. symmetry. clear HP.
    rewrite EP. clear EP. clearbody p. clear - E. unfold lo_of, hi_of, first_node, last_node, base, add3, map3 in *. destruct p as [[i j] k]. apply in_box_iff in E. apply in_box_iff. lia. }
  unfold lo_of, hi_of, first_node, last_node, base, add3, map3 in *. cbn [p_n p_ng part_axis part_x part_y part_z] in *.
  apply sum_box_window; try lia. exact Out.
Qed.

Theorem nodes_sum u m (f : node -> R) : (forall a, comp a (l_guards L) <= m)%Z ->
  (forall r p, In r (processes np) -> In p (local_nodes L r) -> f (r, p) = all_density (x r) (y r) (z r) (ss r) p) ->
  total (map f (filter (same_node L u) (nodes L))) = sumR (map (density_of (w_orders W) (w_cells W) (charges L W ss)) (filter (stands_for L u) (around L m))).
Proof.
  intros Hm Hf. rewrite total_sumR, sum_filter, sum_filter. unfold nodes. rewrite sumR_flat.
  rewrite (sumR_ext _ (fun r => sumR (map (fun P => if stands_for L u P then proc_part r P else 0) (around L m))) (processes np)).
  - rewrite (sumR_swap (fun r P => if stands_for L u P then proc_part r P else 0)). apply sumR_ext. intros P _. rewrite density_of_parts. destruct (stands_for L u P); [reflexivity|]. apply sumR_0.
  - intros r Hr. rewrite map_map. rewrite <- (one_process_sum u m r Hm Hr). apply sumR_ext. intros p Hp. now rewrite Hf.
Qed.
End Whole.

(** ** deposition and summation *)
Section Run.
Variables (L : layout) (W : dir -> waxis) (ss : idx -> list rspecies) (f : charge_routine FRX).
Hypotheses (HL : sound_layout L) (HW : sound_parts L W) (Hss : well_placed L W ss) (Hf : routine_for (w_orders W) f).
Local Notation x := (part_x L W). Local Notation y := (part_y L W). Local Notation z := (part_z L W).
Local Notation np := (l_procs L).
Lemma zero_real r : isg (zero_array L r) (lo_of L W r) (hi_of L W r) (fun _ => 0).
Proof.
  assert (E : lo_of L W r = glo (zero_array L r) /\ hi_of L W r = ghi (zero_array L r)).
  { unfold zero_array, lo_of, hi_of, first_node, last_node, local_cells. cbn [p_n p_ng part_axis part_x part_y part_z]. destruct (l_guards L) as [[g1 g2] g3]. cbn [comp glo ghi].
    split; [reflexivity|]. f_equal; [f_equal|]; lia. }
  destruct E as (-> & ->). split; [reflexivity|]. split; [reflexivity|]. intros p _. unfold zero_array. destruct (l_guards L) as [[g1 g2] g3], (local_cells L r) as [[n1 n2] n3]. reflexivity.
Qed.
Lemma bounds_right r (G : grid (num FRX)) : glo G = lo_of L W r -> ghi G = hi_of L W r -> right_bounds L r G.
Proof.
  intros A B. unfold right_bounds. rewrite A, B. unfold lo_of, hi_of, first_node, last_node, local_cells. cbn [p_n p_ng part_axis part_x part_y part_z]. destruct (l_guards L) as [[g1 g2] g3]. cbn [comp].
  split; [reflexivity|]. f_equal; [f_equal|]; lia.
Qed.
Lemma deposited_real n G r : no_race L W n -> deposited L W n f ss G -> In r (processes np) ->
  isg (G r) (lo_of L W r) (hi_of L W r) (all_density (x r) (y r) (z r) (ss r)).
Proof.
  intros Hn D Hr. specialize (D r Hr).
  assert (Hn' : (n <= 1)%Z \/ one_cut (x r) (y r) (z r)) by (destruct Hn as [Hn'|Hn']; [now left|right; exact (Hn' r Hr)]).
  destruct (depose_real (x r) (y r) (z r) (sens L W HW DirX r Hr) (sens L W HW DirY r Hr) (sens L W HW DirZ r Hr) (step_pos L W HW DirX) (step_pos L W HW DirY) (step_pos L W HW DirZ) f Hf (ss r) (Hss r Hr) n _ _ _ (zero_real r) Hn' D) as (rho & E & V).
  injection E as ->. destruct V as (A & B & V). split; [exact A|]. split; [exact B|]. intros p Hp. rewrite (V p Hp). f_equal. lra.
Qed.
Theorem deposited_possible n : (1 <= n)%Z -> exists G, deposited L W n f ss G.
Proof.
  intros Hn.
  assert (E : forall l, (forall r, In r l -> In r (processes np)) -> exists G : idx -> grid (num FRX), forall r, In r l -> tile_deposition n f (x r) (y r) (z r) (ss r) (zero_array L r) (Ret (G r))).
  { induction l as [|r l IH]; intros Hl; [exists (zero_array L); intros r []|]. destruct IH as (G & HG); [intros; apply Hl; now right|].
    assert (Hr : In r (processes np)) by (apply Hl; now left).
    destruct (depose_exists (x r) (y r) (z r) (sens L W HW DirX r Hr) (sens L W HW DirY r Hr) (sens L W HW DirZ r Hr) (step_pos L W HW DirX) (step_pos L W HW DirY) (step_pos L W HW DirZ) f Hf (ss r) (Hss r Hr) n _ _ Hn (zero_real r)) as (rho & Hrho).
    exists (fun q => if idx_eqb q r then rho else G q). intros q Hq. destruct (idx_eqb q r) eqn:Eq; [apply idx_eqb_eq in Eq; subst q; exact Hrho|].
    apply HG. destruct Hq as [<-|Hq]; [rewrite idx_eqb_refl in Eq; discriminate|exact Hq]. }
  apply (E (processes np)). auto.
Qed.
Section Deposited.
Variables (n : Z) (blocking : bool) (G : idx -> grid (num FRX)) (T : idx -> Z -> option dtype).
Hypotheses (Hn : no_race L W n) (Hb : blocking = true -> forall a, l_absorbing L a = false) (HT : forall r, In r (processes np) -> right_types L r (T r)) (HD : deposited L W n f ss G).
Local Notation F := (fun r => PState (G r) (T r)).
Local Notation dens := (fun u : node => all_density (x (fst u)) (y (fst u)) (z (fst u)) (ss (fst u)) (snd u)).
Lemma deposited_start : right_start L F.
Proof. intros r Hr. destruct (deposited_real n G r Hn HD Hr) as (A & B & _). split; [now apply bounds_right|exact (HT r Hr)]. Qed.
Lemma deposited_values u : In u (nodes L) -> value F u = Fin (dens u).
Proof.
  intros Hu. apply in_nodes in Hu. destruct u as [r p], Hu as (Hr & Hp). cbn [fst snd] in Hr, Hp. apply inside_local in Hp. rewrite (local_box L W) in Hp. destruct (deposited_real n G r Hn HD Hr) as (_ & _ & V).
  apply V. now apply in_box_box.
Qed.
Theorem whole_density m : (forall a, comp a (l_guards L) <= m)%Z ->
  exists F', summed L blocking G T = Ret (start L F') /\ right_start L F' /\
    forall u, In u (nodes L) -> value F' u = Fin (sumR (map (density_of (w_orders W) (w_cells W) (charges L W ss)) (filter (stands_for L u) (around L m)))).
Proof.
  intros Hm. destruct (summation L blocking F dens HL deposited_start Hb deposited_values) as (F' & E & R & V). exists F'. split; [exact E|]. split; [exact R|]. intros u Hu. rewrite (V u Hu). f_equal.
  apply (nodes_sum L W HL HW ss Hss u m _ Hm). intros r p _ _. reflexivity.
Qed.
Theorem whole_charge : exists F' f', summed L blocking G T = Ret (start L F') /\ (forall u, In u (nodes L) -> value F' u = Fin (f' u)) /\
  w_d (W DirX) * w_d (W DirY) * w_d (W DirZ) * total (map f' (filter (responsible L) (nodes L))) = sumR (map (fun c => fst c * rw (snd c)) (charges L W ss)).
Proof.
  destruct (charge_conserved L blocking F dens HL deposited_start Hb deposited_values) as (F' & f' & E & V & S). exists F', f'. split; [exact E|]. split; [exact V|]. rewrite S.
  rewrite total_sumR. unfold nodes, charges. rewrite !sumR_flat, <- sumR_scal. apply sumR_ext. intros r Hr. rewrite map_map, (local_box L W). cbn [fst snd].
  pose proof (total_charge (x r) (y r) (z r) (sens L W HW DirX r Hr) (sens L W HW DirY r Hr) (sens L W HW DirZ r Hr) (step_pos L W HW DirX) (step_pos L W HW DirY) (step_pos L W HW DirZ) (ss r) (Hss r Hr) (fun _ => 0)) as C.
  unfold sum_box in C. rewrite sumR_0, Rmult_0_r, Rplus_0_l in C.
  transitivity (SpecDeposit.volume (cells_of (x r) (y r) (z r)) * sumR (map (all_density (x r) (y r) (z r) (ss r)) (box (lo_of L W r) (hi_of L W r)))); [reflexivity|].
  rewrite <- (sumR_ext (fun p => 0 + all_density (x r) (y r) (z r) (ss r) p) (all_density (x r) (y r) (z r) (ss r))) by (intros; lra). refine (eq_trans C _).
  rewrite sumR_flat. apply sumR_ext. intros s _. rewrite map_map. cbn [fst snd]. now rewrite sumR_scal.
Qed.
End Deposited.
End Run.

(** ** the decomposition cannot be seen *)
Lemma stands_same L L' u u' P : sound_layout L -> same_whole L L' -> stands_for L u (point_of L' u') = true -> stands_for L u P = stands_for L' u' P.
Proof.
  intros HL S H. unfold stands_for, on_axes in *. cbv zeta in *.
  assert (A : forall a, (if l_absorbing L a then (comp a (point_of L' u') =? comp a (point_of L u))%Z else ((comp a (point_of L' u') - comp a (point_of L u)) mod all_cells L a =? 0)%Z) = true ->
    (if l_absorbing L a then (comp a P =? comp a (point_of L u))%Z else ((comp a P - comp a (point_of L u)) mod all_cells L a =? 0)%Z) =
    (if l_absorbing L' a then (comp a P =? comp a (point_of L' u'))%Z else ((comp a P - comp a (point_of L' u')) mod all_cells L' a =? 0)%Z)).
  { intros a. destruct (S a) as (E1 & E2). rewrite <- E1, <- E2. pose proof (cells_pos L HL a) as N0. destruct (l_absorbing L a); intros H1; apply Z.eqb_eq in H1; [now rewrite H1|].
    apply Z.mod_divide in H1; [|lia]. destruct H1 as (q & Hq). replace (comp a P - comp a (point_of L u))%Z with (comp a P - comp a (point_of L' u') + q * all_cells L a)%Z by lia. now rewrite Z.mod_add by lia. }
  apply andb_true_iff in H. destruct H as (H & H3). apply andb_true_iff in H. destruct H as (H1 & H2). now rewrite (A DirX H1), (A DirY H2), (A DirZ H3).
Qed.
Lemma density_perm o g cs cs' P : Permutation cs cs' -> density_of o g cs P = density_of o g cs' P.
Proof. intros H. unfold density_of. apply sum_perm. now apply Permutation_map. Qed.

Theorem decomposition : forall L W L' W' ss ss' f f' n n' blocking blocking' G G' T T' w w',
  sound_layout L -> sound_parts L W -> well_placed L W ss -> routine_for (w_orders W) f -> no_race L W n -> (blocking = true -> forall a, l_absorbing L a = false) ->
  (forall r, In r (processes (l_procs L)) -> right_types L r (T r)) -> deposited L W n f ss G -> summed L blocking G T = Ret (start L w) ->
  sound_layout L' -> sound_parts L' W' -> well_placed L' W' ss' -> routine_for (w_orders W') f' -> no_race L' W' n' -> (blocking' = true -> forall a, l_absorbing L' a = false) ->
  (forall r, In r (processes (l_procs L')) -> right_types L' r (T' r)) -> deposited L' W' n' f' ss' G' -> summed L' blocking' G' T' = Ret (start L' w') ->
  same_whole L L' -> same_axes W W' -> Permutation (charges L W ss) (charges L' W' ss') ->
  forall u u', In u (nodes L) -> In u' (nodes L') -> stands_for L u (point_of L' u') = true -> value w u = value w' u'.
Proof.
  intros L W L' W' ss ss' f f' n n' blocking blocking' G G' T T' w w' HL HW Hs Hf Hn Hb HT HD HS HL' HW' Hs' Hf' Hn' Hb' HT' HD' HS' SW SA P u u' Hu Hu' E.
  destruct (l_guards L) as [[g1 g2] g3] eqn:Eg. destruct (l_guards L') as [[h1 h2] h3] eqn:Eh.
  set (m := (Z.max g1 (Z.max g2 (Z.max g3 (Z.max h1 (Z.max h2 h3)))))%Z).
  destruct (whole_density L W ss f HL HW Hs Hf n blocking G T Hn Hb HT HD m) as (F1 & E1 & _ & V1); [intros a; rewrite Eg; destruct a; cbn [comp]; unfold m; lia|].
  destruct (whole_density L' W' ss' f' HL' HW' Hs' Hf' n' blocking' G' T' Hn' Hb' HT' HD' m) as (F2 & E2 & _ & V2); [intros a; rewrite Eh; destruct a; cbn [comp]; unfold m; lia|].
  assert (Same : forall M (A B : idx -> pstate (num FRX)), @start (num FRX) M A = start M B -> forall u, In u (nodes M) -> value A u = value B u).
  { intros M A B EAB v Hv. apply in_nodes in Hv. destruct Hv as (Hv & _). unfold start in EAB. unfold value. revert EAB Hv. induction (processes (l_procs M)) as [|q l IH]; intros EAB Hv; [destruct Hv|].
    cbn [map] in EAB. injection EAB as E0 EAB. destruct Hv as [->|Hv]; [now rewrite E0|now apply IH]. }
  assert (Ew : start L w = start L F1) by congruence. assert (Ew' : start L' w' = start L' F2) by congruence.
  rewrite (Same L w F1 Ew u Hu), (Same L' w' F2 Ew' u' Hu'), (V1 u Hu), (V2 u' Hu'). f_equal.
  assert (EW : w_orders W = w_orders W' /\ w_cells W = w_cells W').
  { unfold w_orders, w_cells. destruct (SA DirX) as (-> & -> & ->), (SA DirY) as (-> & -> & ->), (SA DirZ) as (-> & -> & ->). split; reflexivity. }
  destruct EW as (-> & ->). assert (Ea : around L m = around L' m) by (unfold around; destruct (SW DirX) as (-> & _), (SW DirY) as (-> & _), (SW DirZ) as (-> & _); reflexivity).
  rewrite Ea. rewrite (filter_ext _ _ (fun P => stands_same L L' u u' P HL SW E)). apply sumR_ext. intros Q _. now apply density_perm.
Qed.
