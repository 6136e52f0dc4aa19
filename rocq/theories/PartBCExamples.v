(** Concrete cases for the theorems about the boundary conditions of the particles, and those that fail. *)
From Coq Require Import ZArith Reals List Bool Permutation Lia Lra.
From Verif Require Import LoadBalance Cxx CxxLemmas Num NumRX NumIEEE RXLemmas Fortran FortranLemmas FortranNum Grid GridLemmas Deposit Tiles Exchange TilesProofs TilesExchange TilesReal SpecTiles TilesFacts TilesDomain TilesBoth TilesExamples PartBC SpecPartBC PartBCProofs PartBCTile PartBCGlobal PartBCReal.
Import ListNotations.
Local Open Scope Z_scope.

(** *** All processes at once *)
Lemma both_mpi N M : arithmetic N -> M < 2 ^ 31 -> forall npid n1 n2 n3 D B W (A : idx -> idx -> list (part N)) n0, 0 <= npid -> 1 <= n1 -> 1 <= n2 -> 1 <= n3 ->
  consistent (n1, n2, n3) D W A M npid n0 -> arrivals_have_tile (n1, n2, n3) D B W A n0 ->
  2 * zlen (world (n1, n2, n3) D A) + 1 <= M -> zlen (world (n1, n2, n3) D A) * (npid + 7) + 1 < 2 ^ 31 ->
  exists T' A', (forall r, In r (processes (n1, n2, n3)) ->
     particle_bcs_mpi_blocking npid (n1, n2, n3) D B W r = Ret (T' r, snd (W r) + zlen (all_particles (D r) (A' r)) - zlen (all_particles (D r) (A r))) /\
     contents M (D r) (T' r) (A' r) /\ (forall q, In q (all_tiles (D r)) -> same_extents (gat (fst (W r)) q) (gat (T' r) q)) /\
     forall q, In q (all_tiles (D r)) -> Permutation (A' r q) (staying (B r) (fst (W r)) (A r) q ++ filter (has_target D r q n0) (arriving (n1, n2, n3) D B W A r))) /\
  Permutation (world (n1, n2, n3) D A') (survivors (n1, n2, n3) D B W A).
Proof.
  intros HN HM npid n1 n2 n3 D B W A n0 Hpid H1 H2 H3 HC HT HR HI. set (np := (n1, n2, n3)) in *. assert (Hs : grid_size np) by (cbn; lia).
  pose proof (rank_fact npid M (sizes_ok N M HN HM) Hpid np D B W A n0 Hs HC HT HR HI) as X.
  pose (Q := fun (r : idx) (F : grid (tile N) * (idx -> list (part N))) => particle_bcs_mpi_blocking npid np D B W r = Ret (fst F, snd (W r) + zlen (all_particles (D r) (snd F)) - zlen (all_particles (D r) (A r))) /\
     contents M (D r) (fst F) (snd F) /\ (forall q, In q (all_tiles (D r)) -> same_extents (gat (fst (W r)) q) (gat (fst F) q)) /\
     (forall q, In q (all_tiles (D r)) -> Permutation (snd F q) (staying (B r) (fst (W r)) (A r) q ++ filter (has_target D r q n0) (arriving np D B W A r))) /\
     Permutation (all_particles (D r) (snd F)) (stays_at D B W A r ++ arriving np D B W A r)).
  assert (Y : exists F, forall r, In r (processes np) -> Q r (F r)).
  { apply (choice_list (fst (W (0, 0, 0)), A (0, 0, 0)) Q). intros r Hr. destruct (X r Hr) as (T' & A' & H). now exists (T', A'). }
  destruct Y as (F & Y). exists (fun r => fst (F r)), (fun r => snd (F r)). split.
  - intros r Hr. destruct (Y r Hr) as (E & C & S & P & _). now split; [|split; [|split]].
  - rewrite (survivors_split np D B W A Hs). unfold world. apply flat_map_perm_in. intros r Hr. now destruct (Y r Hr) as (_ & _ & _ & _ & ?).
Qed.

(** *** The split *)
Lemma split_fact n np : 1 <= np -> 0 <= n -> exists first last : Z -> Z,
  regular_split n np = Ret (map (fun c => Some (first c)) (zrange 0 (np - 1)), map (fun c => Some (last c)) (zrange 0 (np - 1))) /\
  first 0 = 0 /\ last (np - 1) = n - 1 /\ (forall c, 0 <= c < np - 1 -> first (c + 1) = last c + 1) /\
  forall c, 0 <= c < np -> n / np <= last c - first c + 1 <= n / np + 1.
Proof.
  intros Hp Hn. exists (cut n np), (last_cell n np). split; [now apply split_ok|]. unfold last_cell. split; [now apply cut_0|].
  split; [replace (np - 1 + 1) with np by lia; now rewrite cut_np|]. split; [intros c _; lia|].
  intros c Hc. rewrite cut_step by assumption. destruct (c <? _); lia.
Qed.
(** the local numbers of cells computed from the split add up *)
Lemma dims_fact n np : 1 <= np -> 0 <= n -> exists firsts lasts dims,
  regular_split n np = Ret (map Some firsts, map Some lasts) /\ zlen firsts = np /\ zlen lasts = np /\
  mapM (compute_currproc_array_dimensions firsts lasts) (zrange 0 (np - 1)) = Ret dims /\
  fold_right Z.add 0 dims = n /\ forall d, In d dims -> n / np <= d <= n / np + 1.
Proof.
  intros Hp Hn. exists (map (cut n np) (zrange 0 (np - 1))), (map (last_cell n np) (zrange 0 (np - 1))), (map (fun c => cut n np (c + 1) - cut n np c) (zrange 0 (np - 1))).
  split; [rewrite split_ok by assumption; unfold upto; now rewrite !map_map|]. rewrite !zlen_map, zlen_zrange by lia. split; [lia|]. split; [lia|]. split; [|split].
  - assert (X : forall l, (forall c, In c l -> 0 <= c < np) -> mapM (compute_currproc_array_dimensions (map (cut n np) (zrange 0 (np - 1))) (map (last_cell n np) (zrange 0 (np - 1)))) l = Ret (map (fun c => cut n np (c + 1) - cut n np c) l)).
    { induction l as [|c l IH]; intros H; [reflexivity|]. cbn [mapM map]. 
      assert (Z : forall f : Z -> Z, zget (map f (zrange 0 (np - 1))) c = Ret (f c)).
      { intros f. pose proof (H c (or_introl eq_refl)) as Hc. apply zget_ok; [lia|]. unfold zrange, zseq. rewrite !nth_error_map, (fun l n H => @nth_error_nth' _ l n O H) by (rewrite seq_length; lia). rewrite seq_nth by lia. cbn [option_map]. f_equal. f_equal. lia. }
      unfold compute_currproc_array_dimensions at 1. rewrite !Z. cbn [bind]. rewrite IH by (intros d Hd; apply H; now right). cbn [bind]. unfold last_cell. do 2 f_equal. lia. }
    apply X. intros c Hc. apply in_zrange in Hc. lia.
  - assert (X : forall k : nat, Z.of_nat k <= np -> fold_right Z.add 0 (map (fun c => cut n np (c + 1) - cut n np c) (zrange 0 (Z.of_nat k - 1))) = cut n np (Z.of_nat k)).
    { induction k as [|k IH]; intros Hk; [cbn; now rewrite cut_0|]. replace (Z.of_nat (S k) - 1) with (Z.of_nat k - 1 + 1) by lia. rewrite zrange_snoc by lia. rewrite map_app, fold_right_app. cbn [map fold_right].
      assert (Y : forall l a, fold_right Z.add a l = fold_right Z.add 0 l + a) by (induction l as [|b l IHl]; intros a; cbn; [lia|rewrite IHl; lia]).
      rewrite Y, IH by lia. replace (Z.of_nat k - 1 + 1) with (Z.of_nat k) by lia. replace (Z.of_nat (S k)) with (Z.of_nat k + 1) by lia. lia. }
    specialize (X (Z.to_nat np) ltac:(lia)). rewrite Z2Nat.id in X by lia. rewrite X. now apply cut_np.
  - intros d Hd. apply in_map_iff in Hd. destruct Hd as (c & <- & _). rewrite cut_step by assumption. destruct (c <? _); lia.
Qed.
Lemma split_run : regular_split 10 4 = Ret ([Some 0; Some 2; Some 4; Some 7], [Some 1; Some 3; Some 6; Some 9]).
Proof. now vm_compute. Qed.
(** the cells of process c are what [rank_axis] takes for it *)
Lemma setup_fact g c offlo offhi : good_gaxis g -> 0 <= c < g_np g -> exists cmin cmax,
  (exists firsts lasts, regular_split (g_n g) (g_np g) = Ret (firsts, lasts) /\ get1 firsts (c + 1) = Ret (Some cmin) /\ get1 lasts (c + 1) = Ret (Some cmax)) /\
  @process_axis FRX 0 0 offlo offhi (Fin (g_lo g)) (Fin (g_hi g)) (g_n g) (g_np g) (g_nt g) c cmin cmax = (axis_of (rank_axis g c), periodic_axis g c) /\
  good_axis (rank_axis g c) /\ g_left g 0 = g_lo g /\ g_left g (g_np g) = g_hi g /\ (g_left g c + g_d g <= g_left g (c + 1))%R.
Proof.
  intros Hg Hc. pose proof Hg as (_ & Hn & _). exists (cut (g_n g) (g_np g) c), (cut (g_n g) (g_np g) (c + 1) - 1). split; [|split; [|split; [|split; [|split]]]].
  - exists (upto (cut (g_n g) (g_np g)) (g_np g)), (upto (last_cell (g_n g) (g_np g)) (g_np g)). split; [apply split_ok; lia|].
    assert (X : forall f, get1 (upto f (g_np g)) (c + 1) = Ret (Some (f c))).
    { intros f. replace (g_np g) with (c + (g_np g - c)) by lia. remember (Z.to_nat (g_np g - c - 1)) as m eqn:Em. replace (c + (g_np g - c)) with (c + 1 + Z.of_nat m) by lia. clear Em.
      assert (Y : exists l, upto f (c + 1 + Z.of_nat m) = upto f c ++ Some (f c) :: l).
      { induction m as [|m (l & IH)]; [exists []; rewrite Z.add_0_r; rewrite upto_S by lia; reflexivity|].
        replace (c + 1 + Z.of_nat (S m)) with (c + 1 + Z.of_nat m + 1) by lia. rewrite upto_S by lia. rewrite IH, <- app_assoc. cbn [app]. now eexists. }
      destruct Y as (l & ->). apply get1_here. rewrite upto_len by lia. lia. }
    rewrite !X. split; reflexivity.
  - now apply process_axis_real.
  - now apply rank_good.
  - now apply left_0.
  - now apply left_np.
  - now apply left_wide.
Qed.

(** *** Exact arithmetic: two processes in x, with two tiles each *)
Definition eg_x : gaxis := GAxis 0 16 16 2 2.
Definition eg_y : gaxis := GAxis 0 4 4 1 1.
Lemma eg_x_good : good_gaxis eg_x. Proof. unfold good_gaxis. cbn. repeat split; lra || lia. Qed.
Lemma eg_y_good : good_gaxis eg_y. Proof. unfold good_gaxis. cbn. repeat split; lra || lia. Qed.
(** a particle has left the tile, another one has left the whole domain through an edge of it *)
Definition eg_A (r q : idx) : list (part FRX) :=
  if idx_eqb r (0, 0, 0) && idx_eqb q (1, 1, 1) then [fp 4 1 2]
  else if idx_eqb r (1, 0, 0) && idx_eqb q (2, 1, 1) then [fp (33 / 2) 1 (-1 / 4); fp 15 1 1] else [].
Definition eg_T (r : idx) : grid (tile FRX) := let '(a, b, c) := r in Grid (1, 1, 1) (2, 1, 1) (fun q => let '(i, j, k) := q in
  Tile (tile_of (rank_axis eg_x a) i) (tile_of (rank_axis eg_y b) j) (tile_of (rank_axis eg_y c) k) true true (zlen (eg_A r q)) 4 (map Some (eg_A r q) ++ repeat None (4 - length (eg_A r q))) 0).
Definition eg_W (r : idx) : grid (tile FRX) * Z := (eg_T r, if idx_eqb r (0, 0, 0) then 1 else 2).
Notation eg_P := (processes (g_procs eg_x eg_y eg_y)).
Lemma eg_procs : eg_P = [(0, 0, 0); (1, 0, 0)]. Proof. reflexivity. Qed.
Lemma eg_tiles r : In r eg_P -> all_tiles (rank_dom eg_x eg_y eg_y r) = [(1, 1, 1); (2, 1, 1)].
Proof. rewrite eg_procs. intros [<-|[<-|[]]]; reflexivity. Qed.
Lemma eg_left c v : IZR (cut 16 2 c) = v -> g_left eg_x c = v.
Proof. intros E. unfold g_left, g_d. cbn [g_n g_np g_lo g_hi eg_x]. rewrite E. lra. Qed.
Lemma eg_ends : g_left eg_x 0 = 0%R /\ g_left eg_x 1 = 8%R /\ g_left eg_x 2 = 16%R /\ g_left eg_y 0 = 0%R /\ g_left eg_y 1 = 4%R /\ g_d eg_x = 1%R /\ g_d eg_y = 1%R.
Proof.
  rewrite (eg_left 0 0), (eg_left 1 8), (eg_left 2 16) by reflexivity.
  repeat split; unfold g_left, g_d; cbn [g_n g_np g_lo g_hi eg_x eg_y]; try lra.
  - change (cut 4 1 0) with 0. lra.
  - change (cut 4 1 1) with 4. lra.
Qed.
Lemma eg_world : zlen (world (g_procs eg_x eg_y eg_y) (rank_dom eg_x eg_y eg_y) eg_A) = 3.
Proof. reflexivity. Qed.
Lemma eg_pid r q p : In r eg_P -> In q (all_tiles (rank_dom eg_x eg_y eg_y r)) -> In p (eg_A r q) -> zlen (ppid p) = 1.
Proof.
  intros _ _. unfold eg_A. destruct (_ && _)%bool; [intros [<-|[]]; reflexivity|]. destruct (_ && _)%bool; [intros [<-|[<-|[]]]; reflexivity|intros []].
Qed.
Lemma eg_one_cell r : In r eg_P -> all_one_cell eg_x eg_y eg_y r (eg_A r).
Proof.
  destruct eg_ends as (E0 & E1 & E2 & Y0 & Y1 & Dx & Dy).
  assert (Hy : forall v, (-1 / 2 < v < 4)%R -> one_cell (rank_axis eg_y 0) 1 (Fin v : num FRX)).
  { intros v Hv. exists (left_of (rank_axis eg_y 0) 1), (right_of (rank_axis eg_y 0) 1), v.
    destruct (tile_extents (rank_axis eg_y 0) 1) as (-> & R & _). split; [reflexivity|]. split; [apply R; cbn; lia|]. split; [reflexivity|].
    rewrite rank_hi. unfold left_of, right_of, ra_hi. cbn [rank_axis ra_lo ra_d ra_n ra_nt]. change (0 + 1) with 1. rewrite Y0, Y1, Dy. change (cut (g_n eg_y) (g_np eg_y) 1 - cut (g_n eg_y) (g_np eg_y) 0 + 1) with 5. cbn. lra. }
  rewrite eg_procs. intros [<-|[<-|[]]] i j k p Hq.
  - rewrite eg_tiles in Hq by (now left). destruct Hq as [Hq|[Hq|[]]]; injection Hq as <- <- <-; cbn [eg_A idx_eqb Z.eqb Pos.eqb andb]; [intros [<-|[]]|intros []].
    cbn [fp px py pz]. split; [|split; apply Hy; lra].
    exists (left_of (rank_axis eg_x 0) 1), (right_of (rank_axis eg_x 0) 1), 4%R.
    destruct (tile_extents (rank_axis eg_x 0) 1) as (-> & R & _). split; [reflexivity|]. split; [apply R; cbn; lia|]. split; [reflexivity|].
    rewrite rank_hi. unfold left_of, right_of, ra_hi. cbn [rank_axis ra_lo ra_d ra_n ra_nt]. change (0 + 1) with 1. rewrite E0, E1, Dx. change (cut (g_n eg_x) (g_np eg_x) 1 - cut (g_n eg_x) (g_np eg_x) 0 + 1) with 9. cbn. lra.
  - rewrite eg_tiles in Hq by (now right; left). destruct Hq as [Hq|[Hq|[]]]; injection Hq as <- <- <-; cbn [eg_A idx_eqb Z.eqb Pos.eqb andb]; [intros []|].
    intros Hp. assert (Hc : exists x z, p = fp x 1 z /\ (15 <= x <= 33 / 2)%R /\ (-1 / 4 <= z <= 1)%R).
    { destruct Hp as [<-|[<-|[]]]; do 2 eexists; (split; [reflexivity|lra]). }
    destruct Hc as (x & z & -> & Hx & Hz). cbn [fp px py pz]. split; [|split; apply Hy; lra].
    exists (left_of (rank_axis eg_x 1) 2), (right_of (rank_axis eg_x 1) 2), x.
    destruct (tile_extents (rank_axis eg_x 1) 2) as (-> & R & _). split; [reflexivity|]. split; [apply R; cbn; lia|]. split; [reflexivity|].
    rewrite rank_hi. unfold left_of, right_of, ra_hi. cbn [rank_axis ra_lo ra_d ra_n ra_nt]. change (1 + 1) with 2. rewrite E1, E2, Dx. change (cut (g_n eg_x) (g_np eg_x) 2 - cut (g_n eg_x) (g_np eg_x) 1 + 1) with 9. cbn. lra.
Qed.
Lemma eg_state r : In r eg_P -> contents 100 (rank_dom eg_x eg_y eg_y r) (fst (eg_W r)) (eg_A r) /\ rank_tiles eg_x eg_y eg_y r (fst (eg_W r)) /\ all_one_cell eg_x eg_y eg_y r (eg_A r).
Proof.
  intros Hr. split; [|split; [|now apply eg_one_cell]].
  - pose proof (eg_tiles r Hr) as Et. destruct r as [[a b] c]. split; [reflexivity|]. split.
    + rewrite eg_procs in Hr. destruct Hr as [E|[E|[]]]; injection E as <- <- <-; reflexivity.
    + intros [[i j] k] _. cbn [fst eg_W eg_T gat]. split; [|cbn; lia]. split; [reflexivity|]. split; [reflexivity|]. split; [|now eexists]. cbn [t_max t_arr].
      unfold eg_A. destruct (_ && _)%bool; [reflexivity|]. now destruct (_ && _)%bool.
  - pose proof (eg_tiles r Hr) as Et. destruct r as [[a b] c]. split; [intros i j k t _; now split|].
    intros i j k Hq. rewrite Et in Hq. destruct Hq as [Hq|[Hq|[]]]; injection Hq as <- <- <-; (split; [intros _; tauto|reflexivity]).
Qed.

(** *** The other kinds of boundaries, one direction, exact arithmetic *)
Lemma kind_axis_eq g klo khi offlo offhi c : good_gaxis g -> kind_axis g klo khi offlo offhi c =
  @part_axis FRX klo khi (Fin offlo) (Fin offhi) (Fin (g_lo g)) (Fin (g_hi g)) (Fin (g_left g c)) (Fin (g_left g (c + 1))) (Fin (g_d g)) (c =? 0) (c =? g_np g - 1).
Proof.
  intros (_ & H2 & _). assert (Hn0 : IZR (g_n g) <> 0%R) by (apply not_0_IZR; lia).
  assert (Ed : (((Fin (g_hi g) : num FRX) - Fin (g_lo g)) / n_of_Z (g_n g))%N = (Fin (g_d g) : num FRX)).
  { change (x_div (Fin (g_hi g - g_lo g)) (Fin (IZR (g_n g))) = Fin (g_d g)). now rewrite x_div_fin. }
  unfold kind_axis, process_axis. rewrite Ed. cbn [snd]. replace (cut (g_n g) (g_np g) (c + 1) - 1 + 1) with (cut (g_n g) (g_np g) (c + 1)) by lia. reflexivity.
Qed.
Lemma lt_true x y : (x < y)%R -> @n_lt FRX (Fin x) (Fin y) = true.
Proof. intros H. now apply (Rltb_true x y). Qed.
Lemma lt_false x y : (y <= x)%R -> @n_lt FRX (Fin x) (Fin y) = false.
Proof. intros H. now apply (Rltb_false x y). Qed.
Lemma le_true x y : (x <= y)%R -> @n_le FRX (Fin x) (Fin y) = true.
Proof. intros H. now apply (Rleb_true x y). Qed.
Lemma le_false x y : (y < x)%R -> @n_le FRX (Fin x) (Fin y) = false.
Proof. intros H. now apply (Rleb_false x y). Qed.

(** the lower boundary, o above the end of the domain, absorbs the particles below it *)
Lemma absorb_low g o c t (B : bnd FRX) a (p : part FRX) x : good_gaxis g -> (g_left g c <= g_lo g + o < g_left g (c + 1))%R ->
  b_axis B a = kind_axis g 1 0 o 0 c -> pos a p = Fin x -> (x < g_lo g + o)%R -> bc_axis t B a p = Gone.
Proof.
  intros Hg Hc EB Ep Hx. rewrite kind_axis_eq in EB by exact Hg. unfold bc_axis. rewrite EB, Ep. unfold part_axis. cbn [b_plo b_phi b_atlo b_athi b_klo b_khi Z.eqb Pos.eqb orb].
  change ((Fin (g_lo g) : num FRX) + Fin o)%N with (Fin (g_lo g + o) : num FRX).
  rewrite (le_true (g_left g c) (g_lo g + o)), (lt_true (g_lo g + o)) by lra. cbn [andb]. now rewrite lt_true by exact Hx.
Qed.
(** the upper boundary does so if it is inside of the domain, *)
Lemma absorb_high g o c t (B : bnd FRX) a (p : part FRX) x : good_gaxis g -> (g_left g c <= g_hi g + o < g_left g (c + 1))%R ->
  b_axis B a = kind_axis g 0 1 0 o c -> pos a p = Fin x -> (g_hi g + o <= x)%R -> bc_axis t B a p = Gone.
Proof.
  intros Hg Hc EB Ep Hx. rewrite kind_axis_eq in EB by exact Hg. unfold bc_axis. rewrite EB, Ep. unfold part_axis. cbn [b_plo b_phi b_atlo b_athi b_klo b_khi Z.eqb Pos.eqb orb].
  change ((Fin (g_hi g) : num FRX) + Fin o)%N with (Fin (g_hi g + o) : num FRX).
  rewrite (le_true (g_left g c) (g_hi g + o)), (lt_true (g_hi g + o)) by lra. cbn [andb]. rewrite lt_false by lra. now rewrite le_true by exact Hx.
Qed.
(** but not with an offset of zero: the particles go on to the next process *)
Lemma high_zero g k c t (B : bnd FRX) a (p : part FRX) x : good_gaxis g -> 0 <= c < g_np g -> k = 1 \/ k = 3 ->
  b_axis B a = kind_axis g 0 k 0 0 c -> pos a p = Fin x -> (g_left g (c + 1) <= x)%R -> bc_axis t B a p = Goes p 1.
Proof.
  intros Hg Hc Hk EB Ep Hx. rewrite kind_axis_eq in EB by exact Hg. pose proof (left_mono g Hg (c + 1) (g_np g) ltac:(lia)) as M1. rewrite left_np in M1 by exact Hg.
  pose proof (left_mono g Hg c (c + 1) ltac:(lia)) as M0.
  unfold bc_axis. rewrite EB, Ep. unfold part_axis. change ((Fin (g_hi g) : num FRX) + Fin 0%R)%N with (Fin (g_hi g + 0) : num FRX).
  destruct Hk as [-> | ->]; cbn [b_plo b_phi b_atlo b_athi b_klo b_khi Z.eqb Pos.eqb orb];
    rewrite (lt_false (g_hi g + 0)) by lra; rewrite andb_false_r; rewrite lt_false by lra; now rewrite le_true by exact Hx.
Qed.
(** reflection *)
Lemma reflect_low g t (B : bnd FRX) a (p : part FRX) x : good_gaxis g ->
  b_axis B a = kind_axis g 2 2 0 0 0 -> pos a p = Fin x -> (g_lo g - g_d g < x < g_lo g)%R ->
  bc_axis t B a p = Goes (flip a (set_pos a (Fin (x + g_d g) : num FRX) p)) 0 /\ (g_lo g <= x + g_d g < g_left g 1)%R.
Proof.
  intros Hg EB Ep Hx. rewrite kind_axis_eq in EB by exact Hg. pose proof (left_wide g Hg 0) as W0. rewrite left_0 in W0 by exact Hg. change (0 + 1) with 1 in W0.
  split; [|lra]. unfold bc_axis. rewrite EB, Ep. unfold part_axis. cbn [b_plo b_phi b_atlo b_athi b_klo b_khi Z.eqb Pos.eqb orb]. rewrite left_0 by exact Hg.
  rewrite lt_true by lra. change (0 + 1) with 1. rewrite le_false by lra. reflexivity.
Qed.
Lemma reflect_high g t (B : bnd FRX) a (p : part FRX) x : good_gaxis g ->
  b_axis B a = kind_axis g 2 2 0 0 (g_np g - 1) -> pos a p = Fin x -> (g_hi g <= x < g_hi g + g_d g)%R ->
  bc_axis t B a p = Goes (flip a (set_pos a (Fin (x - g_d g) : num FRX) p)) 0 /\ (g_left g (g_np g - 1) <= x - g_d g < g_hi g)%R.
Proof.
  intros Hg EB Ep Hx. rewrite kind_axis_eq in EB by exact Hg. pose proof (left_wide g Hg (g_np g - 1)) as W0. replace (g_np g - 1 + 1) with (g_np g) in * by lia. rewrite left_np in * by exact Hg.
  pose proof (g_d_pos g Hg) as Dp. split; [|lra]. unfold bc_axis. rewrite EB, Ep. unfold part_axis. cbn [b_plo b_phi b_atlo b_athi b_klo b_khi Z.eqb Pos.eqb orb].
  rewrite lt_false by lra. rewrite le_true by lra. rewrite Z.eqb_refl. reflexivity.
Qed.
(** reinjection at the lower boundary: at rest, inside of the tile *)
Lemma clamp_inside (T : taxis FRX) (b : bax FRX) x l r d : ta_min T = Fin l -> ta_max T = Fin r -> b_d b = Fin d -> (0 < d)%R -> (l + d <= r)%R ->
  exists v, fmin (fmax (Fin x : num FRX) (ta_min T + n_lit 5 (-1) * b_d b)%N) (ta_max T - n_lit 5 (-1) * b_d b)%N = Fin v /\ (l + d / 2 <= v <= r - d / 2)%R.
Proof.
  intros -> -> -> Hd Hw. 
  assert (Eh : @n_lit FRX 5 (-1) = (Fin (/ 2)%R : num FRX)).
  { cbn. apply (f_equal Fin). lra. }
  rewrite Eh. change (((Fin l : num FRX) + (Fin (/ 2)%R : num FRX) * Fin d)%N) with (Fin (l + / 2 * d)%R : num FRX). change (((Fin r : num FRX) - (Fin (/ 2)%R : num FRX) * Fin d)%N) with (Fin (r - / 2 * d)%R : num FRX).
  unfold fmin, fmax. change (@n_lt FRX (Fin x) (Fin (l + / 2 * d))) with (Rltb x (l + / 2 * d)). destruct (Rltb_spec x (l + / 2 * d)).
  - change (@n_lt FRX (Fin (r - / 2 * d)) (Fin (l + / 2 * d))) with (Rltb (r - / 2 * d) (l + / 2 * d)). destruct (Rltb_spec (r - / 2 * d) (l + / 2 * d)); eexists; (split; [reflexivity|lra]).
  - change (@n_lt FRX (Fin (r - / 2 * d)) (Fin x)) with (Rltb (r - / 2 * d) x). destruct (Rltb_spec (r - / 2 * d) x); eexists; (split; [reflexivity|lra]).
Qed.
Lemma reinject_inside t (B : bnd FRX) p : finite p -> wide_tile t B -> inside t (reinject t B p) = true /\ pux (reinject t B p) = Fin 0%R /\ puy (reinject t B p) = Fin 0%R /\ puz (reinject t B p) = Fin 0%R.
Proof.
  intros (x & y & z & Ex & Ey & Ez) Hw. split; [|repeat split; unfold reinject; cbn [pux puy puz]; cbn; apply (f_equal Fin); lra].
  destruct (Hw _ _ (or_introl eq_refl)) as (lx & rx & dx & Lx & Rx & Dx & Px & Wx).
  destruct (Hw _ _ (or_intror (or_introl eq_refl))) as (ly & ry & dy & Ly & Ry & Dy & Py & Wy).
  destruct (Hw _ _ (or_intror (or_intror (or_introl eq_refl)))) as (lz & rz & dz & Lz & Rz & Dz & Pz & Wz).
  destruct (clamp_inside _ _ x lx rx dx Lx Rx Dx Px Wx) as (vx & Vx & Hx). destruct (clamp_inside _ _ y ly ry dy Ly Ry Dy Py Wy) as (vy & Vy & Hy). destruct (clamp_inside _ _ z lz rz dz Lz Rz Dz Pz Wz) as (vz & Vz & Hz).
  unfold inside, reinject. cbn [px py pz]. rewrite Ex, Ey, Ez, Vx, Vy, Vz. unfold inside_axis. rewrite Lx, Rx, Ly, Ry, Lz, Rz.
  rewrite !le_true, !lt_true by lra. reflexivity.
Qed.
Lemma reinject_low g c o t (B : bnd FRX) a (p : part FRX) x : good_gaxis g -> (g_left g c <= g_lo g + o < g_left g (c + 1))%R ->
  b_axis B a = kind_axis g 3 0 o 0 c -> finite p -> pos a p = Fin x -> (x < g_lo g + o)%R -> wide_tile t B ->
  exists p', bc_axis t B a p = Stays p' /\ inside t p' = true /\ pux p' = Fin 0%R /\ puy p' = Fin 0%R /\ puz p' = Fin 0%R.
Proof.
  intros Hg Hc EB Hf Ep Hx Hw. rewrite kind_axis_eq in EB by exact Hg.
  exists (reinject t B (set_pos a (@n_lit FRX 2 0 * (Fin (g_lo g + o) : num FRX) - pos a p)%N p)). split.
  - unfold bc_axis. rewrite EB, Ep. unfold part_axis. cbn [b_plo b_phi b_atlo b_athi b_klo b_khi b_glo Z.eqb Pos.eqb orb].
    change ((Fin (g_lo g) : num FRX) + Fin o)%N with (Fin (g_lo g + o) : num FRX).
    rewrite (le_true (g_left g c) (g_lo g + o)), (lt_true (g_lo g + o)) by lra. cbn [andb]. rewrite lt_true by exact Hx. reflexivity.
  - apply reinject_inside; [|exact Hw]. rewrite Ep. destruct Hf as (x0 & y & z & Ex & Ey & Ez).
    assert (E : exists v, (@n_lit FRX 2 0 * (Fin (g_lo g + o) : num FRX) - (Fin x : num FRX))%N = (Fin v : num FRX)) by (eexists; reflexivity). destruct E as (v & ->).
    destruct a; [exists v, y, z|exists x0, v, z|exists x0, y, v]; cbn; tauto.
Qed.
Lemma kinds_case : let B := Bnd (kind_axis eg_x 3 0 0 0 0) (periodic_axis eg_y 0) (periodic_axis eg_y 0) in
  wide_tile (gat (eg_T (0, 0, 0)) (1, 1, 1)) B /\ finite (fp (-1 / 2) 1 1) /\ (g_left eg_x 0 <= g_lo eg_x + 0 < g_left eg_x (0 + 1))%R /\
  (g_left eg_x 1 <= g_hi eg_x + -1 < g_left eg_x (1 + 1))%R /\ (g_lo eg_x - g_d eg_x < -1 / 2 < g_lo eg_x + 0)%R.
Proof.
  destruct eg_ends as (E0 & E1 & E2 & Y0 & Y1 & Dx & Dy). intros B. split; [|split; [|change (0 + 1) with 1; change (1 + 1) with 2; rewrite E0, E1, E2, Dx; cbn [g_lo g_hi eg_x]; repeat split; lra]].
  - assert (Hx : forall i, i = 1 -> exists l r, ta_min (tile_of (rank_axis eg_x 0) i) = Fin l /\ ta_max (tile_of (rank_axis eg_x 0) i) = Fin r /\ (l + 1 <= r)%R).
    { intros i ->. exists (left_of (rank_axis eg_x 0) 1), (right_of (rank_axis eg_x 0) 1). destruct (tile_extents (rank_axis eg_x 0) 1) as (-> & R & _). split; [reflexivity|]. split; [apply R; cbn; lia|].
      unfold left_of, right_of, ra_hi. cbn [rank_axis ra_lo ra_d ra_n ra_nt]. rewrite E0, Dx. change (cut (g_n eg_x) (g_np eg_x) (0 + 1) - cut (g_n eg_x) (g_np eg_x) 0 + 1) with 9. cbn. lra. }
    assert (Hy : exists l r, ta_min (tile_of (rank_axis eg_y 0) 1) = Fin l /\ ta_max (tile_of (rank_axis eg_y 0) 1) = Fin r /\ (l + 1 <= r)%R).
    { exists (left_of (rank_axis eg_y 0) 1), (right_of (rank_axis eg_y 0) 1). destruct (tile_extents (rank_axis eg_y 0) 1) as (-> & R & _). split; [reflexivity|]. split; [apply R; cbn; lia|].
      unfold left_of, right_of, ra_hi. cbn [rank_axis ra_lo ra_d ra_n ra_nt]. rewrite Y0, Dy. change (cut (g_n eg_y) (g_np eg_y) (0 + 1) - cut (g_n eg_y) (g_np eg_y) 0 + 1) with 5. cbn. lra. }
    destruct (Hx 1 eq_refl) as (lx & rx & Lx & Rx & Wx). destruct Hy as (ly & ry & Ly & Ry & Wy).
    assert (Bd : b_d (bX B) = (Fin 1%R : num FRX)) by (subst B; cbn [bX]; rewrite kind_axis_eq by exact eg_x_good; cbn [part_axis b_d]; now rewrite Dx).
    assert (Bd' : b_d (periodic_axis eg_y 0) = (Fin 1%R : num FRX)) by (cbn [periodic_axis b_d]; now rewrite Dy).
    intros T b [E|[E|[E|[]]]]; injection E as <- <-; [exists lx, rx, 1%R|exists ly, ry, 1%R|exists ly, ry, 1%R]; repeat split; try assumption; lra.
  - now exists (-1 / 2)%R, 1%R, 1%R.
Qed.

(** *** binary64: two processes in x with two tiles each, computed *)
Section B64.
Variable lm : Libm b64.
Notation N := (F64 lm).
Notation bz := (bz lm).
Notation bp := (bp lm).
(** kinds kx at both ends in x, periodic in y and z *)
Definition mx (kx c : Z) : ageo N * bax N := process_axis kx kx (bz 0) (bz 0) (bz 0) (bz 16) 16 2 2 c (8 * c) (8 * c + 7).
Definition my : ageo N * bax N := process_axis 0 0 (bz 0) (bz 0) (bz 0) (bz 4) 4 1 1 0 0 3.
Definition mp_D (kx : Z) (r : idx) : dom N := let '(a, _, _) := r in Dom (fst (mx kx a)) (fst my) (fst my).
Definition mp_B (kx : Z) (r : idx) : bnd N := let '(a, _, _) := r in Bnd (snd (mx kx a)) (snd my) (snd my).
Definition mp_A (r q : idx) : list (part N) :=
  if idx_eqb r (0, 0, 0) && idx_eqb q (1, 1, 1) then [bp (-1) 1 2; bp 2 2 2]
  else if idx_eqb r (1, 0, 0) && idx_eqb q (2, 1, 1) then [bp 16 1 4; bp 15 1 1] else [].
Definition mp_T (r : idx) : grid (tile N) := let '(a, b, c) := r in Grid (1, 1, 1) (2, 1, 1) (fun q => let '(i, j, k) := q in
  let ax := tile_axis (bz 1) (bz (8 * a)) (bz (8 * a + 8)) 9 2 i in let ay := tile_axis (bz 1) (bz 0) (bz 4) 5 1 1 in
  Tile ax ay ay true true (zlen (mp_A r q)) 4 (map Some (mp_A r q) ++ repeat None (4 - length (mp_A r q))) 0).
Definition mp_W (r : idx) : grid (tile N) * Z := (mp_T r, 2).
Definition mp_n0 (r : idx) : idx := (4, 5, 5).
Notation P := (2, 1, 1).
Lemma mp_procs : processes P = [(0, 0, 0); (1, 0, 0)]. Proof. reflexivity. Qed.
Lemma mp_tiles kx r : In r (processes P) -> all_tiles (mp_D kx r) = [(1, 1, 1); (2, 1, 1)].
Proof. rewrite mp_procs. intros [<-|[<-|[]]]; reflexivity. Qed.
Lemma mp_consistent kx : consistent P (mp_D kx) mp_W mp_A 100 1 mp_n0.
Proof.
  intros r Hr. rewrite mp_procs in Hr. split; [|split].
  - destruct r as [[a b] c]. split; [reflexivity|]. split; [destruct Hr as [E|[E|[]]]; injection E as <- <- <-; reflexivity|]. intros [[i j] k] _. cbn [mp_W mp_T fst gat]. split; [|cbn; lia].
    split; [reflexivity|]. split; [reflexivity|]. split; [|now eexists]. cbn [t_max t_arr]. unfold mp_A. destruct (_ && _)%bool; [reflexivity|]. now destruct (_ && _)%bool.
  - destruct Hr as [<-|[<-|[]]]; reflexivity.
  - intros q p _. unfold mp_A. destruct (_ && _)%bool; [intros [<-|[<-|[]]]; reflexivity|]. destruct (_ && _)%bool; [intros [<-|[<-|[]]]; reflexivity|intros []].
Qed.
Lemma mp_room kx : 2 * zlen (world P (mp_D kx) mp_A) + 1 <= 100 /\ zlen (world P (mp_D kx) mp_A) * (1 + 7) + 1 < 2 ^ 31.
Proof. change (zlen (world P (mp_D kx) mp_A)) with 4. lia. Qed.
Definition has_tile (kx : Z) (r : idx) (p : part N) : bool :=
  match target (mp_D kx r) (mp_n0 r) p with Ret q => in_box (1, 1, 1) (2, 1, 1) q | _ => false end.
Lemma mp_arrivals_of kx : forallb (fun r => forallb (has_tile kx r) (arriving P (mp_D kx) (mp_B kx) mp_W mp_A r)) (processes P) = true ->
  arrivals_have_tile P (mp_D kx) (mp_B kx) mp_W mp_A mp_n0.
Proof.
  intros H r p Hr Hp. rewrite forallb_forall in H. specialize (H r Hr). rewrite forallb_forall in H. specialize (H p Hp). unfold has_tile in H.
  destruct (target _ _ p) as [q| | |] eqn:E; try discriminate. exists q. split; [reflexivity|]. rewrite (mp_tiles kx r Hr).
  change [(1, 1, 1); (2, 1, 1)] with (box (1, 1, 1) (2, 1, 1)). now apply in_box_box.
Qed.
Lemma mp_arrivals : arrivals_have_tile P (mp_D 0) (mp_B 0) mp_W mp_A mp_n0.
Proof. apply mp_arrivals_of. now vm_compute. Qed.
Definition mp_show (o : out (grid (tile N) * Z)) := do s <- o; Ret (map (fun q => show lm (gat (fst s) q)) [(1, 1, 1); (2, 1, 1)], snd s).
(** two particles change sides, one of them also goes around in z *)
Lemma mp_run : map (fun r => mp_show (particle_bcs_mpi_blocking 1 P (mp_D 0) (mp_B 0) mp_W r)) (processes P) =
  [Ret ([[Some [Some 2; Some 2; Some 2]; Some [Some 0; Some 1; Some 0]]; []], 2);
   Ret ([[]; [Some [Some 15; Some 1; Some 1]; Some [Some 15; Some 1; Some 2]]], 2)].
Proof. now vm_compute. Qed.
(** absorbing boundaries: the particle below the domain is removed, that above it is sent to the other process *)
Lemma mp_absorbing : map (fun r => mp_show (particle_bcs_mpi_blocking 1 P (mp_D 1) (mp_B 1) mp_W r)) (processes P) =
  [Ret ([[Some [Some 2; Some 2; Some 2]]; [Some [Some 16; Some 1; Some 0]]], 2);
   Ret ([[]; [Some [Some 15; Some 1; Some 1]]], 1)].
Proof. now vm_compute. Qed.

(** a particle slightly below the domain comes to its upper end, which is outside of it *)
Definition tiny : part N := Part (n_lit (-1) (-20)) (bz 1) (bz 1) (bz 1) (bz 0) (bz 0) (bz 1) [bz 2].
Lemma tiny_wrap : exists t p', t = gat (mp_T (0, 0, 0)) (1, 1, 1) /\ bc_particle t (mp_B 0 (0, 0, 0)) tiny = Leave p' (-1, 0, 0) /\
  outside (mp_D 0 (neighbour P (0, 0, 0) (-1, 0, 0))) p' = true.
Proof.
  assert (H : match bc_particle (gat (mp_T (0, 0, 0)) (1, 1, 1)) (mp_B 0 (0, 0, 0)) tiny with
    | Leave p' d => idx_eqb d (-1, 0, 0) && outside (mp_D 0 (neighbour P (0, 0, 0) (-1, 0, 0))) p' | _ => false end = true) by now vm_compute.
  exists (gat (mp_T (0, 0, 0)) (1, 1, 1)). destruct (bc_particle _ _ tiny) as [|p'|p' d]; try discriminate H. apply andb_true_iff in H. destruct H as (Hd & Ho). apply idx_eqb_eq in Hd. subst d.
  exists p'. split; [reflexivity|]. split; [reflexivity|exact Ho].
Qed.
End B64.
