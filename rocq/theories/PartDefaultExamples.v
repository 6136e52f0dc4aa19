(** The default exchange of the particles: the theorem for both arithmetics, kinds of boundaries, and computed cases. *)
From Coq Require Import ZArith Reals List Bool Permutation Lia Lra.
From Verif Require Import Cxx CxxLemmas Num NumRX RXLemmas NumIEEE Fortran FortranLemmas FortranNum Grid GridLemmas Deposit Tiles Exchange TilesProofs TilesExchange TilesReal SpecTiles TilesFacts TilesDomain TilesBoth TilesExamples PartBC SpecPartBC PartBCProofs PartBCTile PartBCGlobal PartBCReal PartBCExamples PartDefault SpecPartDefault PartDefaultProofs PartDefaultRank PartDefaultGlobal PartDefaultReal.
Import ListNotations.
Local Open Scope Z_scope.

Lemma both_default N M : arithmetic N -> M < 2 ^ 31 -> forall npid bs n1 n2 n3 D B W (A : idx -> idx -> list (part N)) n0, 0 <= npid -> 1 <= bs -> 1 <= n1 -> 1 <= n2 -> 1 <= n3 ->
  let np := (n1, n2, n3) in placeable_all np D B n0 W A M -> arrivals_have_edge_tile np D B n0 W A ->
  2 * zlen (world np D A) + 1 <= M -> zlen (world np D A) * (npid + 7) + 1 < 2 ^ 31 ->
  exists T' A', (forall r, In r (processes np) ->
     particle_bcs_tiles_and_mpi at_once bs npid np D B W r = Ret (T' r, snd (W r) + zlen (to_arrive np D B n0 W A r)) /\
     contents M (D r) (T' r) (A' r) /\ (forall q, In q (all_tiles (D r)) -> same_extents (gat (fst (W r)) q) (gat (T' r) q)) /\
     forall q, In q (all_tiles (D r)) -> Permutation (A' r q) (to_tile (D r) (B r) (n0 r) (fst (W r)) (A r) q ++ filter (has_default_target D n0 r q) (to_arrive np D B n0 W A r))) /\
  Permutation (world np D A') (to_exist np D B n0 W A).
Proof.
  intros HN HM npid bs n1 n2 n3 D B W A n0 Hpid Hbs H1 H2 H3 np HC HT HR HI. assert (Hs : grid_size np) by (cbn; lia).
  pose proof (default_rank M npid bs (sizes_ok N M HN HM) Hpid Hbs np D B n0 W A Hs HC HT HR HI) as X.
  pose (Q := fun (r : idx) (F : grid (tile N) * (idx -> list (part N))) => particle_bcs_tiles_and_mpi at_once bs npid np D B W r = Ret (fst F, snd (W r) + zlen (to_arrive np D B n0 W A r)) /\
     contents M (D r) (fst F) (snd F) /\ (forall q, In q (all_tiles (D r)) -> same_extents (gat (fst (W r)) q) (gat (fst F) q)) /\
     (forall q, In q (all_tiles (D r)) -> Permutation (snd F q) (to_tile (D r) (B r) (n0 r) (fst (W r)) (A r) q ++ filter (has_default_target D n0 r q) (to_arrive np D B n0 W A r))) /\
     Permutation (all_particles (D r) (snd F)) (flat_map (to_tile (D r) (B r) (n0 r) (fst (W r)) (A r)) (all_tiles (D r)) ++ to_arrive np D B n0 W A r)).
  assert (Y : exists F, forall r, In r (processes np) -> Q r (F r)).
  { apply (choice_list (fst (W (0, 0, 0)), A (0, 0, 0)) Q). intros r Hr. destruct (X r Hr) as (T' & A' & H). now exists (T', A'). }
  destruct Y as (F & Y). exists (fun r => fst (F r)), (fun r => snd (F r)). split.
  - intros r Hr. destruct (Y r Hr) as (E & C & S & P & _). split; [exact E|]. split; [exact C|]. split; [exact S|exact P].
  - rewrite (exist_split M np D B n0 W A Hs HC). unfold world. apply flat_map_perm_in. intros r Hr. now destruct (Y r Hr) as (_ & _ & _ & _ & ?).
Qed.

(** *** Kinds of boundaries *)
(** other than for reflecting boundaries both routines do the same in one direction *)
Lemma kinds_same t (B : bnd FRX) a (p : part FRX) x l h : b_plo (b_axis B a) = Fin l -> b_phi (b_axis B a) = Fin h -> (l <= h)%R -> pos a p = Fin x ->
  b_klo (b_axis B a) <> 2 -> b_khi (b_axis B a) <> 2 -> default_axis t B a p = bc_axis t B a p.
Proof.
  intros El Eh Hlh Ep K1 K2. unfold default_axis, bc_axis. rewrite El, Eh, Ep.
  change (@n_lt FRX (Fin x) (Fin l)) with (Rltb x l). change (@n_le FRX (Fin h) (Fin x)) with (Rleb h x).
  destruct (Rltb_spec x l) as [H|H].
  - rewrite (Rleb_false h x) by lra. destruct (b_atlo _); [|reflexivity]. destruct (b_klo _) as [|[[?|?|]|[?|?|]|]|?]; congruence || reflexivity.
  - destruct (Rleb h x); [|reflexivity]. destruct (b_athi _); [|reflexivity]. destruct (b_khi _) as [|[[?|?|]|[?|?|]|]|?]; congruence || reflexivity.
Qed.
(** a reflecting boundary lets the particles through, to the other side of the domain *)
Lemma reflect_default g t (B : bnd FRX) a (p : part FRX) x : good_gaxis g ->
  b_axis B a = kind_axis g 2 2 0 0 0 -> pos a p = Fin x -> (x < g_lo g)%R ->
  default_axis t B a p = Goes (set_pos a (Fin (x + (g_hi g - g_lo g)) : num FRX) p) (-1).
Proof.
  intros Hg EB Ep Hx. rewrite kind_axis_eq in EB by exact Hg. unfold default_axis. rewrite EB, Ep. unfold part_axis.
  cbn [b_plo b_phi b_atlo b_athi b_klo b_khi b_len Z.eqb Pos.eqb orb]. rewrite left_0 by exact Hg. now rewrite lt_true by exact Hx.
Qed.
Lemma fate_absorb t (B : bnd FRX) (p : part FRX) : default_axis t B DirX p = Gone -> default_fate t B p = Drop.
Proof. intros E. unfold default_fate. now rewrite E. Qed.
(** absorbing boundaries, in each of the three directions *)
Lemma between_goes t (B : bnd FRX) a (p : part FRX) l h x : b_plo (b_axis B a) = Fin l -> b_phi (b_axis B a) = Fin h -> pos a p = Fin x -> (l <= x < h)%R -> default_axis t B a p = Goes p 0.
Proof. intros El Eh Ep H. unfold default_axis. rewrite El, Eh, Ep. rewrite lt_false, le_false by lra. reflexivity. Qed.
Lemma absorbed_gone t (B : bnd FRX) a (p : part FRX) l h x : b_plo (b_axis B a) = Fin l -> b_phi (b_axis B a) = Fin h -> (l <= h)%R -> pos a p = Fin x ->
  ((x < l)%R /\ b_atlo (b_axis B a) = true /\ b_klo (b_axis B a) = 1) \/ ((h <= x)%R /\ b_athi (b_axis B a) = true /\ b_khi (b_axis B a) = 1) -> default_axis t B a p = Gone.
Proof.
  intros El Eh Hlh Ep [(H & A & K)|(H & A & K)]; unfold default_axis; rewrite El, Eh, Ep.
  - rewrite lt_true by lra. now rewrite A, K.
  - rewrite lt_false, le_true by lra. now rewrite A, K.
Qed.
Lemma absorbed_any t (B : bnd FRX) a (p : part FRX) l h x :
  (forall a', b_plo (b_axis B a') = Fin (l a') /\ b_phi (b_axis B a') = Fin (h a') /\ (l a' <= h a')%R /\ pos a' p = Fin (x a')) ->
  (forall a', a' <> a -> (l a' <= x a' < h a')%R) ->
  ((x a < l a)%R /\ b_atlo (b_axis B a) = true /\ b_klo (b_axis B a) = 1) \/ ((h a <= x a)%R /\ b_athi (b_axis B a) = true /\ b_khi (b_axis B a) = 1) ->
  default_fate t B p = Drop.
Proof.
  intros H Ho Ha. destruct (H a) as (E1 & E2 & E3 & E4). pose proof (absorbed_gone t B a p _ _ _ E1 E2 E3 E4 Ha) as G.
  assert (O : forall a', a' <> a -> default_axis t B a' p = Goes p 0) by (intros a' N; destruct (H a') as (F1 & F2 & _ & F4); exact (between_goes t B a' p _ _ _ F1 F2 F4 (Ho a' N))).
  unfold default_fate. destruct a; [now rewrite G|rewrite (O DirX) by discriminate; now rewrite G|rewrite (O DirX), (O DirY) by discriminate; now rewrite G].
Qed.

(** with an absorbing boundary one cell inside of the domain the particles between it and the end of the domain are not removed *)
Definition ab_axes : ageo FRX * bax FRX := @process_axis FRX 1 0 (Fin 1%R) (Fin 0%R) (Fin 0%R) (Fin 16%R) 16 2 2 0 0 7.
Definition ab_D : dom FRX := Dom (fst ab_axes) (axis_of (rank_axis eg_y 0)) (axis_of (rank_axis eg_y 0)).
Definition ab_B : bnd FRX := Bnd (snd ab_axes) (periodic_axis eg_y 0) (periodic_axis eg_y 0).
Lemma ab_not_removed : let p := fp (1 / 2) 1 1 in let T := eg_T (0, 0, 0) in
  outside ab_D p = true /\ bc_particle (gat T (1, 1, 1)) ab_B p = Drop /\ forall n0, lot_of ab_D ab_B n0 T (1, 1, 1) p = InTile (1, 1, 1) p.
Proof.
  intros p T. destruct eg_ends as (E0 & E1 & E2 & Y0 & Y1 & Dx & Dy).
  assert (Eb : snd ab_axes = kind_axis eg_x 1 0 1 0 0) by reflexivity.
  assert (Ep : b_plo (snd ab_axes) = (Fin (0 + 1)%R : num FRX)).
  { rewrite Eb, kind_axis_eq by exact eg_x_good. unfold part_axis. cbn [b_plo Z.eqb Pos.eqb orb]. change ((Fin (g_lo eg_x) : num FRX) + Fin 1%R)%N with (Fin (0 + 1)%R : num FRX).
    change (0 + 1) with 1. rewrite E0, E1. rewrite le_true, lt_true by lra. reflexivity. }
  assert (Ea : ag_plo (fst ab_axes) = b_plo (snd ab_axes)) by reflexivity.
  split; [|split].
  - unfold outside, outside_axis. cbn [ab_D dX p fp px]. rewrite Ea, Ep. rewrite lt_true by lra. reflexivity.
  - unfold bc_particle. rewrite (absorb_low eg_x 1 0 (gat T (1, 1, 1)) ab_B DirX p (1 / 2)); [reflexivity|exact eg_x_good|change (0 + 1) with 1; rewrite E0, E1; cbn [g_lo eg_x]; lra|exact Eb|reflexivity|cbn [g_lo eg_x]; lra].
  - intros n0. unfold lot_of. replace (inside (gat T (1, 1, 1)) p) with true; [reflexivity|]. symmetry. unfold inside. cbn [T eg_T gat t_x t_y t_z p fp px py pz].
    assert (Hy : inside_axis (tile_of (rank_axis eg_y 0) 1) (Fin 1%R : num FRX) = true).
    { apply (inside_real (rank_axis eg_y 0) 1 1); [cbn; lia|]. unfold left_of, right_of. rewrite rank_hi. cbn [rank_axis ra_lo ra_d ra_n ra_nt]. change (0 + 1) with 1. rewrite Y0, Y1, Dy.
      change (cut (g_n eg_y) (g_np eg_y) 1 - cut (g_n eg_y) (g_np eg_y) 0 + 1) with 5. cbn. lra. }
    rewrite Hy, !andb_true_r. apply (inside_real (rank_axis eg_x 0) 1 (1 / 2)); [cbn; lia|]. unfold left_of, right_of. rewrite rank_hi. cbn [rank_axis ra_lo ra_d ra_n ra_nt]. change (0 + 1) with 1. rewrite E0, E1, Dx.
    change (cut (g_n eg_x) (g_np eg_x) 1 - cut (g_n eg_x) (g_np eg_x) 0 + 1) with 9. cbn. lra.
Qed.

(** *** A single tile in a direction *)
Lemma single_tile gx gy gz a b c M T A (p : part FRX) x y z : good_gaxis gx -> good_gaxis gy -> good_gaxis gz -> In (a, b, c) (processes (g_procs gx gy gz)) ->
  contents M (rank_dom gx gy gz (a, b, c)) T A -> rank_tiles gx gy gz (a, b, c) T ->
  ag_nt (dX (rank_dom gx gy gz (a, b, c))) = 1 -> px p = Fin x -> py p = Fin y -> pz p = Fin z ->
  (g_left gx a - g_d gx / 2 <= x < g_left gx a)%R -> (g_left gy b <= y < g_left gy (b + 1))%R -> (g_left gz c <= z < g_left gz (c + 1))%R ->
  exists q, In q (all_tiles (rank_dom gx gy gz (a, b, c))) /\ outside (rank_dom gx gy gz (a, b, c)) p = true /\
    forall n0, lot_of (rank_dom gx gy gz (a, b, c)) (rank_bnd gx gy gz (a, b, c)) n0 T q p = InTile q p.
Proof.
  intros Hgx Hgy Hgz Hr C (L & _) H1 Ex Ey Ez Hx Hy Hz. pose proof Hr as Hr'. apply in_processes in Hr'. cbn [g_procs] in Hr'. destruct Hr' as (Ha & Hb & Hc).
  pose proof (rank_good gx Hgx a Ha) as Gx. pose proof (rank_good gy Hgy b Hb) as Gy. pose proof (rank_good gz Hgz c Hc) as Gz.
  destruct (partition_fact (rank_axis gy b) y Gy ltac:(rewrite rank_hi; exact Hy)) as (j & Hj & Ij & _).
  destruct (partition_fact (rank_axis gz c) z Gz ltac:(rewrite rank_hi; exact Hz)) as (k & Hk & Ik & _).
  cbn [rank_dom dom_of dX axis_of ag_nt] in H1.
  assert (Hq : In (1, j, k) (all_tiles (dom_of (rank_axis gx a) (rank_axis gy b) (rank_axis gz c)))) by (apply tile_box; lia).
  exists (1, j, k). split; [exact Hq|]. split.
  - unfold outside, outside_axis. rewrite Ex. cbn [rank_dom dom_of dX axis_of ag_plo rank_axis ra_plo]. rewrite lt_true by lra. reflexivity.
  - intros n0. unfold lot_of. replace (inside (gat T (1, j, k)) p) with true; [reflexivity|]. symmetry. unfold inside.
    destruct (layout _ _ _ M T A C L 1 j k Hq) as (-> & -> & ->). rewrite Ex, Ey, Ez, Ij, Ik, !andb_true_r.
    apply (inside_real (rank_axis gx a) 1 x); [lia|]. unfold left_of, right_of. rewrite H1, rank_hi. cbn [Z.eqb Pos.eqb rank_axis ra_lo ra_d].
    change ((1 - 1) * _)%Z with 0%Z. pose proof (left_wide gx Hgx a). pose proof (g_d_pos gx Hgx). lra.
Qed.

Definition ei_T : grid (tile FRX) := Grid (1, 1, 1) (1, 1, 1) (fun q => let '(i, j, k) := q in
  Tile (tile_of (rank_axis eg_y 0) i) (tile_of (rank_axis eg_y 0) j) (tile_of (rank_axis eg_y 0) k) true true 0 4 (repeat None 4) 0).
Lemma ei_state : contents 100 (rank_dom eg_y eg_y eg_y (0, 0, 0)) ei_T (fun _ => []) /\ rank_tiles eg_y eg_y eg_y (0, 0, 0) ei_T /\
  ag_nt (dX (rank_dom eg_y eg_y eg_y (0, 0, 0))) = 1 /\ (g_left eg_y 0 - g_d eg_y / 2 <= -1 / 4 < g_left eg_y 0)%R /\ (g_left eg_y 0 <= 1 < g_left eg_y (0 + 1))%R.
Proof.
  destruct eg_ends as (_ & _ & _ & Y0 & Y1 & _ & Dy). change (0 + 1) with 1. rewrite Y0, Y1, Dy. split; [|split; [|split; [reflexivity|lra]]].
  - split; [reflexivity|]. split; [reflexivity|]. intros [[i j] k] _. split; [|cbn; lia]. split; [reflexivity|]. split; [reflexivity|]. split; [reflexivity|]. now exists (repeat None 4).
  - split; [intros i j k t _; now split|]. intros i j k Hq. change (all_tiles _) with [(1, 1, 1)] in Hq. destruct Hq as [Hq|[]]. injection Hq as <- <- <-. split; [intros _; tauto|reflexivity].
Qed.

(** *** A state with two processes and several tiles in each direction *)
Definition eh_y : gaxis := GAxis 0 8 8 1 2.
Lemma eh_y_good : good_gaxis eh_y. Proof. unfold good_gaxis. cbn. repeat split; lra || lia. Qed.
Definition eh_A (r q : idx) : list (part FRX) :=
  if idx_eqb r (0, 0, 0) && idx_eqb q (1, 1, 1) then [fp (-1 / 4) 1 (-1 / 4); fp 4 1 2]
  else if idx_eqb r (1, 0, 0) && idx_eqb q (2, 2, 2) then [fp (65 / 4) 6 (33 / 4)] else [].
Definition eh_T (r : idx) : grid (tile FRX) := let '(a, b, c) := r in Grid (1, 1, 1) (2, 2, 2) (fun q => let '(i, j, k) := q in
  Tile (tile_of (rank_axis eg_x a) i) (tile_of (rank_axis eh_y b) j) (tile_of (rank_axis eh_y c) k) true true (zlen (eh_A r q)) 4 (map Some (eh_A r q) ++ repeat None (4 - length (eh_A r q))) 0).
Definition eh_W (r : idx) : grid (tile FRX) * Z := (eh_T r, if idx_eqb r (0, 0, 0) then 2 else 1).
Notation eh_P := (processes (g_procs eg_x eh_y eh_y)).
Lemma eh_procs : eh_P = [(0, 0, 0); (1, 0, 0)]. Proof. reflexivity. Qed.
Lemma eh_tiles r : In r eh_P -> all_tiles (rank_dom eg_x eh_y eh_y r) = box (1, 1, 1) (2, 2, 2).
Proof. rewrite eh_procs. intros [<-|[<-|[]]]; reflexivity. Qed.
Lemma eh_ends : g_left eh_y 0 = 0%R /\ g_left eh_y 1 = 8%R /\ g_d eh_y = 1%R.
Proof.
  repeat split; unfold g_left, g_d; cbn [g_n g_np g_lo g_hi eh_y]; try lra.
  - change (cut 8 1 0) with 0. lra.
  - change (cut 8 1 1) with 8. lra.
Qed.
Lemma eh_one_cell r : In r eh_P -> all_one_cell eg_x eh_y eh_y r (eh_A r).
Proof.
  destruct eg_ends as (E0 & E1 & E2 & _ & _ & Dx & _). destruct eh_ends as (Y0 & Y1 & Dy).
  assert (Hy : forall i v, (i = 1 /\ (-1 < v < 4)%R) \/ (i = 2 /\ (5 < v < 9)%R) -> one_cell (rank_axis eh_y 0) i (Fin v : num FRX)).
  { intros i v Hv. exists (left_of (rank_axis eh_y 0) i), (right_of (rank_axis eh_y 0) i), v.
    destruct (tile_extents (rank_axis eh_y 0) i) as (-> & R & _). split; [reflexivity|]. split; [apply R; cbn; lia|]. split; [reflexivity|].
    rewrite rank_hi. unfold left_of, right_of. rewrite rank_hi. cbn [rank_axis ra_lo ra_d ra_n ra_nt]. change (0 + 1) with 1. rewrite Y0, Y1, Dy. change (cut (g_n eh_y) (g_np eh_y) 1 - cut (g_n eh_y) (g_np eh_y) 0 + 1) with 9.
    destruct Hv as [(-> & Hv)|(-> & Hv)]; cbn; lra. }
  rewrite eh_procs. intros Hr. destruct r as [[a b] c]. intros i j k p Hq Hp. unfold eh_A in Hp. destruct (idx_eqb (a, b, c) (0, 0, 0) && idx_eqb (i, j, k) (1, 1, 1))%bool eqn:Ea.
  - apply andb_true_iff in Ea. destruct Ea as (Ea & Eq). apply idx_eqb_eq in Ea. apply idx_eqb_eq in Eq. injection Ea as -> -> ->. injection Eq as -> -> ->.
    assert (Hc : exists x z, p = fp x 1 z /\ (-1 < x <= 4)%R /\ (-1 < z < 4)%R) by (destruct Hp as [<-|[<-|[]]]; do 2 eexists; (split; [reflexivity|lra])).
    destruct Hc as (x & z & -> & Hx & Hz). cbn [fp px py pz]. split; [|split; apply Hy; left; split; lia || lra].
    exists (left_of (rank_axis eg_x 0) 1), (right_of (rank_axis eg_x 0) 1), x.
    destruct (tile_extents (rank_axis eg_x 0) 1) as (-> & R & _). split; [reflexivity|]. split; [apply R; cbn; lia|]. split; [reflexivity|].
    rewrite rank_hi. unfold left_of, right_of. rewrite rank_hi. cbn [rank_axis ra_lo ra_d ra_n ra_nt]. change (0 + 1) with 1. rewrite E0, E1, Dx. change (cut (g_n eg_x) (g_np eg_x) 1 - cut (g_n eg_x) (g_np eg_x) 0 + 1) with 9. cbn. lra.
  - destruct (idx_eqb (a, b, c) (1, 0, 0) && idx_eqb (i, j, k) (2, 2, 2))%bool eqn:Eb; [|destruct Hp].
    apply andb_true_iff in Eb. destruct Eb as (Eb & Eq). apply idx_eqb_eq in Eb. apply idx_eqb_eq in Eq. injection Eb as -> -> ->. injection Eq as -> -> ->.
    destruct Hp as [<-|[]]. cbn [fp px py pz]. split; [|split; apply Hy; right; split; lia || lra].
    exists (left_of (rank_axis eg_x 1) 2), (right_of (rank_axis eg_x 1) 2), (65 / 4)%R.
    destruct (tile_extents (rank_axis eg_x 1) 2) as (-> & R & _). split; [reflexivity|]. split; [apply R; cbn; lia|]. split; [reflexivity|].
    rewrite rank_hi. unfold left_of, right_of. rewrite rank_hi. cbn [rank_axis ra_lo ra_d ra_n ra_nt]. change (1 + 1) with 2. rewrite E1, E2, Dx. change (cut (g_n eg_x) (g_np eg_x) 2 - cut (g_n eg_x) (g_np eg_x) 1 + 1) with 9. cbn. lra.
Qed.
Lemma eh_state r : In r eh_P -> contents 100 (rank_dom eg_x eh_y eh_y r) (fst (eh_W r)) (eh_A r) /\ rank_tiles eg_x eh_y eh_y r (fst (eh_W r)) /\ all_one_cell eg_x eh_y eh_y r (eh_A r).
Proof.
  intros Hr. split; [|split; [|now apply eh_one_cell]].
  - destruct r as [[a b] c]. split; [reflexivity|]. split.
    + rewrite eh_procs in Hr. destruct Hr as [E|[E|[]]]; injection E as <- <- <-; reflexivity.
    + intros [[i j] k] _. cbn [fst eh_W eh_T gat]. split; [|cbn; lia]. split; [reflexivity|]. split; [reflexivity|]. split; [|now eexists]. cbn [t_max t_arr].
      unfold eh_A. destruct (_ && _)%bool; [reflexivity|]. now destruct (_ && _)%bool.
  - pose proof (eh_tiles r Hr) as Et. pose proof Hr as Hr'. rewrite eh_procs in Hr'. destruct r as [[a b] c]. split; [intros i j k t _; now split|].
    intros i j k Hq. rewrite Et in Hq. apply in_box_box, in_box_iff in Hq. split; [intros _|reflexivity].
    destruct Hr' as [E|[E|[]]]; injection E as <- <- <-; change (ag_nt (dX _)) with 2; lia.
Qed.
Lemma eh_several r : In r eh_P -> several_tiles (rank_dom eg_x eh_y eh_y r).
Proof. rewrite eh_procs. intros [<-|[<-|[]]]; cbn; unfold several_tiles; cbn; lia. Qed.
Lemma eh_world : zlen (world (g_procs eg_x eh_y eh_y) (rank_dom eg_x eh_y eh_y) eh_A) = 3. Proof. reflexivity. Qed.

(** *** binary64 *)
Section B64.
Variable lm : Libm b64.
Notation N := (F64 lm).
Notation P := (2, 1, 1).
Definition placed (kx : Z) (r q : idx) (p : part N) : bool :=
  inside (gat (mp_T lm r) q) p || (if outside (mp_D lm kx r) p then true else match default_target (mp_D lm kx r) (mp_n0 r) p with Ret q => in_box (1, 1, 1) P q | _ => false end).
Lemma mp_placeable kx : kx = 0 \/ kx = 1 \/ kx = 2 -> placeable_all P (mp_D lm kx) (mp_B lm kx) mp_n0 (mp_W lm) (mp_A lm) 100.
Proof.
  intros Hk r Hr. destruct (mp_consistent lm kx r Hr) as (C & F & _). split; [exact C|]. split; [exact F|]. pose proof (mp_tiles lm kx r Hr) as Et. rewrite mp_procs in Hr. split.
  - destruct Hk as [-> |[-> | ->]], Hr as [<-|[<-|[]]]; now repeat split.
  - intros q p Hq Hp Hi. split.
    + intros Ho. rewrite Et in Hq |- *. change [(1, 1, 1); (2, 1, 1)] with (box (1, 1, 1) (2, 1, 1)).
      assert (X : forallb (fun r => forallb (fun q => forallb (placed kx r q) (mp_A lm r q)) [(1, 1, 1); (2, 1, 1)]) [(0, 0, 0); (1, 0, 0)] = true) by (destruct Hk as [-> |[-> | ->]]; now vm_compute).
      rewrite forallb_forall in X. specialize (X r Hr). rewrite forallb_forall in X. specialize (X q Hq). rewrite forallb_forall in X. specialize (X p Hp). unfold placed in X.
      cbn [fst mp_W] in Hi. rewrite Hi, Ho in X. cbn [orb] in X. destruct (default_target _ _ p) as [s| | |]; try discriminate. exists s. split; [reflexivity|]. now apply in_box_box.
    + intros _. cbn [fst mp_W]. destruct r as [[a b] c], q as [[i j] k]. reflexivity.
Qed.
Definition edge (kx : Z) (r : idx) (p : part N) : bool := match default_target (mp_D lm kx r) (mp_n0 r) p with Ret q => in_box (1, 1, 1) P q | _ => false end.
Lemma mp_edge kx : kx = 0 \/ kx = 1 \/ kx = 2 -> arrivals_have_edge_tile P (mp_D lm kx) (mp_B lm kx) mp_n0 (mp_W lm) (mp_A lm).
Proof.
  intros Hk r p Hr Hp. assert (X : forallb (fun r => forallb (edge kx r) (to_arrive P (mp_D lm kx) (mp_B lm kx) mp_n0 (mp_W lm) (mp_A lm) r)) (processes P) = true) by (destruct Hk as [-> |[-> | ->]]; now vm_compute).
  rewrite forallb_forall in X. specialize (X r Hr). rewrite forallb_forall in X. specialize (X p Hp). unfold edge in X. destruct (default_target _ _ p) as [q| | |]; try discriminate. exists q. split; [reflexivity|].
  split; [rewrite (mp_tiles lm kx r Hr); change [(1, 1, 1); (2, 1, 1)] with (box (1, 1, 1) (2, 1, 1)); now apply in_box_box|]. cbn [fst mp_W]. destruct r as [[a b] c], q as [[i j] k]. reflexivity.
Qed.
Definition default_run (late : idx -> nat -> nat) (kx : Z) := map (fun r => mp_show lm (particle_bcs_tiles_and_mpi late 1 1 P (mp_D lm kx) (mp_B lm kx) (mp_W lm) r)) (processes P).
(** the same particles in the same tiles as after the exchange between the processes of the other routine, but other counts *)
Lemma mp_default : default_run at_once 0 =
  [Ret ([[Some [Some 2; Some 2; Some 2]; Some [Some 0; Some 1; Some 0]]; []], 3);
   Ret ([[]; [Some [Some 15; Some 1; Some 1]; Some [Some 15; Some 1; Some 2]]], 3)].
Proof. now vm_compute. Qed.
(** absorbing boundaries *)
Lemma mp_default_absorbing : default_run at_once 1 =
  [Ret ([[Some [Some 2; Some 2; Some 2]]; [Some [Some 16; Some 1; Some 0]]], 3);
   Ret ([[]; [Some [Some 15; Some 1; Some 1]]], 2)].
Proof. now vm_compute. Qed.
(** the counts are read one iteration too late *)
Lemma mp_late : default_run (fun _ _ => 1%nat) 0 = [Throw; UB].
Proof. now vm_compute. Qed.
Lemma mp_counts : placeable_all P (mp_D lm 0) (mp_B lm 0) mp_n0 (mp_W lm) (mp_A lm) 100 /\
  (forall r, In r (processes P) -> snd (mp_W lm r) = zlen (all_particles (mp_D lm 0 r) (mp_A lm r))) /\ default_run at_once 0 =
  [Ret ([[Some [Some 2; Some 2; Some 2]; Some [Some 0; Some 1; Some 0]]; []], 3);
   Ret ([[]; [Some [Some 15; Some 1; Some 1]; Some [Some 15; Some 1; Some 2]]], 3)].
Proof. split; [apply mp_placeable; auto|]. split; [|exact mp_default]. rewrite mp_procs. intros r [<-|[<-|[]]]; reflexivity. Qed.
Lemma mp_late_counts : placeable_all P (mp_D lm 0) (mp_B lm 0) mp_n0 (mp_W lm) (mp_A lm) 100 /\
  arrivals_have_edge_tile P (mp_D lm 0) (mp_B lm 0) mp_n0 (mp_W lm) (mp_A lm) /\ default_run (fun _ _ => 1%nat) 0 = [Throw; UB].
Proof. split; [apply mp_placeable; auto|]. split; [apply mp_edge; auto|exact mp_late]. Qed.
End B64.
