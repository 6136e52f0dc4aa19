(** The split among the processes, and the periodic boundary conditions in exact arithmetic. *)
From Coq Require Import ZArith Reals List Bool Permutation Lia Lra.
From Verif Require Import Cxx CxxLemmas Num NumRX RXLemmas Fortran FortranLemmas FortranNum Grid GridLemmas Deposit Tiles Exchange TilesProofs TilesExchange TilesReal SpecTiles TilesFacts TilesDomain TilesBoth PartBC SpecPartBC PartBCProofs PartBCTile PartBCGlobal.
Import ListNotations.
Local Open Scope Z_scope.
Local Opaque directions.

(** *** The split *)
Section Split.
Variables n np : Z.
Hypothesis Hnp : 1 <= np.
Hypothesis Hn : 0 <= n.
Lemma cut_0 : cut n np 0 = 0.
Proof. unfold cut. pose proof (Z.mod_pos_bound n np ltac:(lia)). nia. Qed.
Lemma cut_np : cut n np np = n.
Proof. unfold cut. pose proof (Z.mod_pos_bound n np ltac:(lia)). pose proof (Z.div_mod n np ltac:(lia)). nia. Qed.
Lemma cut_step c : cut n np (c + 1) = cut n np c + (if c <? np - n mod np then n / np else n / np + 1).
Proof. unfold cut. pose proof (Z.mod_pos_bound n np ltac:(lia)). destruct (Z.ltb_spec c (np - n mod np)); nia. Qed.
Lemma cut_mono a b : a <= b -> cut n np a <= cut n np b.
Proof.
  intros H. unfold cut. assert (0 <= n / np) by (apply Z.div_pos; lia). nia.
Qed.

Lemma zlen_zrange a b : a <= b + 1 -> zlen (zrange a b) = b - a + 1.
Proof. intros H. unfold zrange. rewrite zlen_map. unfold zlen. rewrite zseq_length. lia. Qed.
Definition upto (f : Z -> Z) (k : Z) : list (option Z) := map (fun c => Some (f c)) (zrange 0 (k - 1)).
Lemma upto_S f k : 0 <= k -> upto f (k + 1) = upto f k ++ [Some (f k)].
Proof. intros H. unfold upto. replace (k + 1 - 1) with ((k - 1) + 1) by lia. rewrite zrange_snoc by lia. rewrite map_app. cbn [map]. do 4 f_equal. lia. Qed.
Lemma upto_len f k : 0 <= k -> zlen (upto f k) = k.
Proof. intros H. unfold upto. rewrite zlen_map, zlen_zrange by lia. lia. Qed.
Definition blank (k : Z) : list (option Z) := repeat None (Z.to_nat (np - k)).
Lemma blank_S k : k < np -> blank k = None :: blank (k + 1).
Proof. intros H. unfold blank. replace (Z.to_nat (np - k)) with (S (Z.to_nat (np - (k + 1)))) by lia. reflexivity. Qed.
Definition last_cell (c : Z) : Z := cut n np (c + 1) - 1.
Definition known (k : Z) : cells := (upto (cut n np) k ++ blank k, upto last_cell k ++ blank k).
Lemma next_known w k : 1 <= k < np -> last_cell k = cut n np k + w -> next_cells w (k + 1) (known k) = Ret (known (k + 1)).
Proof.
  intros Hk Hw. unfold next_cells, known. cbn [fst snd].
  replace (upto last_cell k) with (upto last_cell (k - 1) ++ [Some (last_cell (k - 1))]) by (rewrite <- upto_S by lia; f_equal; lia).
  rewrite <- app_assoc. cbn [app]. rewrite get1_here by (rewrite upto_len; lia). cbn [bind].
  rewrite blank_S by lia. rewrite set1_here by (rewrite upto_len; lia). cbn [bind]. rewrite get1_here by (rewrite upto_len; lia). cbn [bind].
  change (upto last_cell (k - 1) ++ Some (last_cell (k - 1)) :: None :: blank (k + 1)) with (upto last_cell (k - 1) ++ [Some (last_cell (k - 1))] ++ None :: blank (k + 1)).
  rewrite app_assoc, <- upto_S by lia. replace (k - 1 + 1) with k by lia. rewrite set1_here by (rewrite upto_len; lia). cbn [bind].
  rewrite !upto_S by lia. rewrite <- !app_assoc. cbn [app].
  replace (last_cell (k - 1) + 1) with (cut n np k) by (unfold last_cell; replace (k - 1 + 1) with k by lia; lia). now rewrite Hw.
Qed.
Lemma split_ok : regular_split n np = Ret (upto (cut n np) np, upto last_cell np).
Proof.
  unfold regular_split. destruct (Z.eqb_spec np 0); [lia|]. pose proof (Z.mod_pos_bound n np ltac:(lia)) as Hm. pose proof (Z.div_mod n np ltac:(lia)) as Hd.
  rewrite Z.quot_div_nonneg by lia. set (nx0 := n / np) in *.
  replace (if nx0 * np =? n then np else (nx0 + 1) * np - n) with (np - n mod np) by (destruct (Z.eqb_spec (nx0 * np) n); nia).
  set (nxp := np - n mod np) in *.
  replace (repeat None (Z.to_nat np)) with (None :: blank 1) by (unfold blank; replace (Z.to_nat np) with (S (Z.to_nat (np - 1))) by lia; reflexivity).
  change (None :: blank 1) with ([] ++ None :: blank 1). rewrite !set1_here by reflexivity. cbn [bind].
  assert (S1 : forall c, last_cell c = cut n np c + (if c <? nxp then nx0 - 1 else nx0)).
  { intros c. unfold last_cell. rewrite cut_step. fold nxp nx0. destruct (c <? nxp); lia. }
  assert (Init : ([] ++ Some 0 :: blank 1, [] ++ Some (nx0 - 1) :: blank 1) = known 1).
  { unfold known. assert (U : forall f, upto f 1 = [Some (f 0)]) by reflexivity. rewrite !U, S1, cut_0. destruct (Z.ltb_spec 0 nxp); [|lia]. reflexivity. }
  rewrite Init.
  destruct (do_range_inv (fun i s => s = known (i - 1)) (next_cells (nx0 - 1)) 2 nxp (known 1)) as (s & -> & ->); [lia|reflexivity| |].
  { intros j s Hj ->. exists (known j). replace (j + 1 - 1) with j by lia. split; [|reflexivity]. replace j with (j - 1 + 1) at 1 by lia. rewrite next_known; [f_equal; f_equal; lia|lia|].
    rewrite S1. destruct (Z.ltb_spec (j - 1) nxp); lia. }
  cbn [bind]. replace (nxp + 1 - 1) with nxp by lia.
  destruct (do_range_inv (fun i s => s = known (i - 1)) (next_cells nx0) (nxp + 1) np (known nxp)) as (s & -> & ->); [lia|f_equal; lia| |].
  { intros j s Hj ->. exists (known j). replace (j + 1 - 1) with j by lia. split; [|reflexivity]. replace j with (j - 1 + 1) at 1 by lia. rewrite next_known; [f_equal; f_equal; lia|lia|].
    rewrite S1. destruct (Z.ltb_spec (j - 1) nxp); lia. }
  unfold known, blank. replace (np + 1 - 1) with np by lia. rewrite Z.sub_diag. cbn [Z.to_nat repeat]. now rewrite !app_nil_r.
Qed.
End Split.

(** *** One direction *)
Section Axis.
Variable g : gaxis.
Hypothesis Hg : good_gaxis g.
Notation C := (cut (g_n g) (g_np g)).
Local Open Scope R_scope.

Lemma g_d_pos : 0 < g_d g.
Proof. destruct Hg as (H1 & H2 & _). unfold g_d. apply Rdiv_lt_0_compat; [lra|]. apply IZR_lt. lia. Qed.
Lemma left_0 : g_left g 0 = g_lo g.
Proof. destruct Hg as (_ & H2 & _). unfold g_left. rewrite cut_0 by lia. lra. Qed.
Lemma left_np : g_left g (g_np g) = g_hi g.
Proof. destruct Hg as (_ & H2 & _). unfold g_left. rewrite cut_np by lia. unfold g_d. assert (IZR (g_n g) <> 0) by (apply not_0_IZR; lia). field. assumption. Qed.
Lemma cut_wide c : (C c + 1 <= C (c + 1))%Z.
Proof.
  destruct Hg as (_ & H2 & _). rewrite cut_step by lia. assert (1 <= g_n g / g_np g)%Z by (apply Z.div_le_lower_bound; lia). destruct (c <? _)%Z; lia.
Qed.
Lemma left_wide c : g_left g c + g_d g <= g_left g (c + 1).
Proof.
  unfold g_left. pose proof (cut_wide c) as H. apply IZR_le in H. rewrite plus_IZR in H. pose proof g_d_pos. nra.
Qed.
Lemma left_mono a b : (a <= b)%Z -> g_left g a <= g_left g b.
Proof.
  intros H. destruct Hg as (_ & H2 & _). pose proof (cut_mono (g_n g) (g_np g) ltac:(lia) ltac:(lia) a b H) as X. apply IZR_le in X. unfold g_left. pose proof g_d_pos. nra.
Qed.
Lemma rank_hi c : ra_hi (rank_axis g c) = g_left g (c + 1).
Proof. unfold ra_hi. cbn [ra_lo ra_n ra_d rank_axis]. unfold g_left. replace (C (c + 1) - C c + 1 - 1)%Z with (C (c + 1) - C c)%Z by lia. rewrite minus_IZR. lra. Qed.
Lemma rank_good c : (0 <= c < g_np g)%Z -> good_axis (rank_axis g c).
Proof.
  intros Hc. pose proof Hg as (_ & H2 & H3 & H4). unfold good_axis. rewrite rank_hi. cbn [ra_d ra_n ra_nt ra_lo ra_plo ra_phi rank_axis].
  pose proof (cut_wide c). pose proof (cut_mono (g_n g) (g_np g) ltac:(lia) ltac:(lia) 0 c ltac:(lia)) as M1.
  pose proof (cut_mono (g_n g) (g_np g) ltac:(lia) ltac:(lia) (c + 1) (g_np g) ltac:(lia)) as M2. rewrite cut_0 in M1 by lia. rewrite cut_np in M2 by lia.
  split; [apply g_d_pos|]. split; [lia|]. split; [exact H4|]. split; apply Rle_refl.
Qed.
Lemma process_axis_real c offlo offhi : @process_axis FRX 0 0 offlo offhi (Fin (g_lo g)) (Fin (g_hi g)) (g_n g) (g_np g) (g_nt g) c (C c) (C (c + 1) - 1)
  = (axis_of (rank_axis g c), periodic_axis g c).
Proof.
  destruct Hg as (_ & H2 & _). assert (Hn0 : IZR (g_n g) <> 0) by (apply not_0_IZR; lia).
  assert (Ed : (((Fin (g_hi g) : num FRX) - Fin (g_lo g)) / n_of_Z (g_n g))%N = (Fin (g_d g) : num FRX)).
  { change (x_div (Fin (g_hi g - g_lo g)) (Fin (IZR (g_n g))) = Fin (g_d g)). now rewrite x_div_fin. }
  unfold process_axis. rewrite Ed. cbn [part_axis Z.eqb orb b_plo b_phi].
  replace (C (c + 1) - 1 + 1)%Z with (C (c + 1)) by lia. reflexivity.
Qed.

Lemma wrap_fin x : exists v, wrap_axis g (Fin x) = Fin v.
Proof. unfold wrap_axis. destruct (Rlt_dec _ _); [eauto|]. destruct (Rle_dec _ _); eauto. Qed.
Lemma set_pos_same a (p : part FRX) : set_pos a (pos a p) p = p.
Proof. destruct p, a; reflexivity. Qed.
Lemma set_pos_twice a v w (p : part FRX) : set_pos a v (set_pos a w p) = set_pos a v p.
Proof. destruct p, a; reflexivity. Qed.

Lemma bc_periodic c (t : tile FRX) (B : bnd FRX) a (p : part FRX) x : (0 <= c < g_np g)%Z -> b_axis B a = periodic_axis g c -> pos a p = Fin x -> g_left g c - g_d g < x < g_left g (c + 1) + g_d g ->
  exists b v, bc_axis t B a p = Goes (set_pos a (Fin v : num FRX) p) b /\ wrap_axis g (Fin x) = Fin v /\
    (b = 0%Z -> v = x /\ g_left g c <= x < g_left g (c + 1)) /\
    g_left g ((c + b) mod g_np g) <= v < g_left g ((c + b) mod g_np g + 1).
Proof.
  intros Hc EB Ep Hx.
  assert (E : bc_axis t B a p = let lower : moved FRX := if Rltb x (g_left g c) then if (c =? 0)%Z then Goes (set_pos a (Fin (x + (g_hi g - g_lo g)) : num FRX) p) (-1) else Goes p (-1) else Goes p 0 in
     match lower with Goes p0 _ => if Rleb (g_left g (c + 1)) x then if (c =? g_np g - 1)%Z then Goes (set_pos a (Fin (x - (g_hi g - g_lo g)) : num FRX) p0) 1 else Goes p0 1 else lower | _ => lower end).
  { unfold bc_axis. rewrite EB, Ep. reflexivity. }
  rewrite E. clear E. cbv zeta.
  pose proof (left_wide c) as W0. pose proof g_d_pos as Dp. pose proof left_0 as L0. pose proof left_np as Ln.
  pose proof (left_mono 0 c ltac:(lia)) as M0. pose proof (left_mono (c + 1) (g_np g) ltac:(lia)) as M1.
  destruct (Rltb_spec x (g_left g c)) as [Hlt|Hge].
  - assert (Hu : Rleb (g_left g (c + 1)) x = false) by (apply Rleb_false; lra).
    destruct (Z.eqb_spec c 0) as [->|Hc0].
    + rewrite Hu. exists (-1)%Z, (x + (g_hi g - g_lo g)). split; [reflexivity|].
      split; [unfold wrap_axis; destruct (Rlt_dec x (g_lo g)); [reflexivity|lra]|]. split; [discriminate|].
      replace ((0 + -1) mod g_np g)%Z with (g_np g - 1)%Z by (apply Z.mod_unique with (-1)%Z; lia).
      replace (g_np g - 1 + 1)%Z with (g_np g) by lia. rewrite Ln. pose proof (left_wide (g_np g - 1)) as W1. replace (g_np g - 1 + 1)%Z with (g_np g) in W1 by lia. lra.
    + rewrite Hu. exists (-1)%Z, x. pose proof (left_wide (c - 1)) as W1. replace (c - 1 + 1)%Z with c in W1 by lia. pose proof (left_mono 0 (c - 1) ltac:(lia)) as M2.
      split; [rewrite <- Ep, set_pos_same; reflexivity|].
      split; [unfold wrap_axis; destruct (Rlt_dec x (g_lo g)); [lra|]; destruct (Rle_dec (g_hi g) x); [lra|reflexivity]|]. split; [discriminate|].
      replace ((c + -1) mod g_np g)%Z with (c - 1)%Z by (symmetry; apply Z.mod_small; lia). replace (c - 1 + 1)%Z with c by lia. lra.
  - destruct (Rleb_spec (g_left g (c + 1)) x) as [Hu|Hu].
    + destruct (Z.eqb_spec c (g_np g - 1)) as [Ec|Hcn].
      * exists 1%Z, (x - (g_hi g - g_lo g)). replace (c + 1)%Z with (g_np g) in * by lia. split; [reflexivity|].
        split; [unfold wrap_axis; destruct (Rlt_dec x (g_lo g)); [lra|]; destruct (Rle_dec (g_hi g) x); [reflexivity|lra]|]. split; [discriminate|].
        rewrite Z.mod_same by lia. rewrite L0. pose proof (left_wide 0) as W1. rewrite L0 in W1. lra.
      * exists 1%Z, x. pose proof (left_wide (c + 1)) as W1. pose proof (left_mono (c + 1 + 1) (g_np g) ltac:(lia)) as M2.
        split; [rewrite <- Ep, set_pos_same; reflexivity|].
        split; [unfold wrap_axis; destruct (Rlt_dec x (g_lo g)); [lra|]; destruct (Rle_dec (g_hi g) x); [lra|reflexivity]|]. split; [discriminate|].
        rewrite Z.mod_small by lia. lra.
    + exists 0%Z, x. split; [rewrite <- Ep, set_pos_same; reflexivity|].
      split; [unfold wrap_axis; destruct (Rlt_dec x (g_lo g)); [lra|]; destruct (Rle_dec (g_hi g) x); [lra|reflexivity]|]. split; [intros _; lra|].
      rewrite Z.add_0_r, Z.mod_small by lia. lra.
Qed.

(** a position less than a cell away from a tile: outside of the domain only for the first and the last tile *)
Lemma one_cell_reach c i x : (0 <= c < g_np g)%Z -> (1 <= i <= ntiles (ra_n (rank_axis g c)) (g_nt g))%Z -> one_cell (rank_axis g c) i x ->
  exists v, x = Fin v /\ g_left g c - g_d g < v < g_left g (c + 1) + g_d g /\
   (v < g_left g c -> i = 1%Z) /\ (g_left g (c + 1) <= v -> i = ntiles (ra_n (rank_axis g c)) (g_nt g)).
Proof.
  intros Hc Hi (l & r & v & El & Er & -> & Hv & Hr). pose proof (rank_good c Hc) as Hs. exists v. split; [reflexivity|].
  destruct (tile_extents (rank_axis g c) i) as (E1 & E2 & _). specialize (E2 Hi). rewrite El in E1. rewrite Er in E2. injection E1 as ->. injection E2 as ->.
  pose proof (rank_hi c) as Hh. pose proof g_d_pos as Dp. set (s := rank_axis g c) in *. change (ra_d s) with (g_d g) in *.
  pose proof (mul_d_le s Hs) as MD. change (ra_d s) with (g_d g) in MD. assert (Lo : ra_lo s = g_left g c) by reflexivity.
  change (g_nt g) with (ra_nt s) in *.
  unfold left_of, right_of in Hv. rewrite Lo, Hh in Hv, Hr. change (ra_d s) with (g_d g) in Hv.
  split; [exact Hr|]. clear Hr.
  destruct (nt_cases s Hs) as [(E & _)|(E & E4 & En & _)].
  - rewrite E in *. assert (i = 1)%Z by lia. subst i. rewrite Z.eqb_refl in Hv. change ((1 - 1) * (ra_n s ÷ ra_nt s))%Z with 0%Z in Hv. split; intros; reflexivity.
  - set (nt := ntiles (ra_n s) (ra_nt s)) in *. set (n0 := (ra_n s ÷ ra_nt s)%Z) in *.
    assert (Hhi : g_left g (c + 1) = g_left g c + IZR (ra_n s - 1) * g_d g) by (rewrite <- Hh; reflexivity).
    destruct (Z.eqb_spec i nt) as [->|Hin].
    + pose proof (MD 4%Z ((nt - 1) * n0)%Z ltac:(nia)). split; [lra|reflexivity].
    + pose proof (MD (i * n0 + 4)%Z (ra_n s) ltac:(nia)) as X1. rewrite plus_IZR in X1. rewrite minus_IZR in Hhi.
      destruct (Z.eqb_spec i 1) as [->|Hi1].
      * split; [reflexivity|]. lra.
      * pose proof (MD 4%Z ((i - 1) * n0)%Z ltac:(nia)) as X2. split; lra.
Qed.
End Axis.

(** *** Three directions *)
Section World.
Variables gx gy gz : gaxis.
Hypothesis Hgx : good_gaxis gx.
Hypothesis Hgy : good_gaxis gy.
Hypothesis Hgz : good_gaxis gz.
Notation np := (g_procs gx gy gz).
Notation DD := (rank_dom gx gy gz).
Notation BB := (rank_bnd gx gy gz).
Notation wr := (wrap gx gy gz).

Lemma procs_size : grid_size np.
Proof. destruct Hgx as (_ & ? & _), Hgy as (_ & ? & _), Hgz as (_ & ? & _). unfold grid_size, g_procs. lia. Qed.

Definition reach (g : gaxis) (c : Z) (x : num FRX) : Prop := exists v, x = Fin v /\ (g_left g c - g_d g < v < g_left g (c + 1) + g_d g)%R.
Definition near (r : idx) (p : part FRX) : Prop := let '(a, b, c) := r in reach gx a (px p) /\ reach gy b (py p) /\ reach gz c (pz p).

Lemma inside_rank a b c (p : part FRX) x y z : px p = Fin x -> py p = Fin y -> pz p = Fin z ->
  (g_left gx a <= x < g_left gx (a + 1))%R -> (g_left gy b <= y < g_left gy (b + 1))%R -> (g_left gz c <= z < g_left gz (c + 1))%R -> outside (DD (a, b, c)) p = false.
Proof.
  intros Ex Ey Ez Hx Hy Hz. unfold outside, outside_axis. rewrite Ex, Ey, Ez. cbn [rank_dom dom_of dX dY dZ axis_of ag_plo ag_phi rank_axis ra_plo ra_phi].
  assert (X : forall l h v, (l <= v < h)%R -> (@n_lt FRX (Fin v) (Fin l) || @n_le FRX (Fin h) (Fin v))%bool = false).
  { intros l h v H. change ((Rltb v l || Rleb h v)%bool = false). rewrite (Rltb_false v l) by lra. rewrite (Rleb_false h v) by lra. reflexivity. }
  now rewrite !X by assumption.
Qed.

Lemma particle_periodic r t (p : part FRX) : In r (processes np) -> near r p ->
  (bc_particle t (BB r) p = Keep p /\ wr p = p /\ outside (DD r) p = false) \/
  exists d, bc_particle t (BB r) p = Leave (wr p) d /\ outside (DD (neighbour np r d)) (wr p) = false /\ finite (wr p) /\ outside (DD r) p = true.
Proof.
  destruct r as [[a b] c]. intros Hr ((x & Ex & Hx) & (y & Ey & Hy) & (z & Ez & Hz)). apply in_processes in Hr. cbn [g_procs] in Hr. destruct Hr as (Ha & Hb & Hc).
  destruct (bc_periodic gx Hgx a t (BB (a, b, c)) DirX p x Ha eq_refl Ex Hx) as (bx & vx & E1 & W1 & S1 & R1).
  set (p1 := set_pos DirX (Fin vx : num FRX) p) in *.
  destruct (bc_periodic gy Hgy b t (BB (a, b, c)) DirY p1 y Hb eq_refl Ey Hy) as (by_ & vy & E2 & W2 & S2 & R2).
  set (p2 := set_pos DirY (Fin vy : num FRX) p1) in *.
  destruct (bc_periodic gz Hgz c t (BB (a, b, c)) DirZ p2 z Hc eq_refl Ez Hz) as (bz & vz & E3 & W3 & S3 & R3).
  set (p3 := set_pos DirZ (Fin vz : num FRX) p2) in *.
  assert (Ep : p3 = wr p). { subst p3 p2 p1. unfold wrap. rewrite Ex, Ey, Ez, W1, W2, W3. destruct p; reflexivity. }
  unfold bc_particle. rewrite E1, E2, E3. destruct (Z.ltb_spec 0 (Z.abs bx + Z.abs by_ + Z.abs bz)) as [Hd|Hd].
  - right. exists (bx, by_, bz). split; [now rewrite Ep|]. split; [|split].
    + cbn [neighbour g_procs]. rewrite <- Ep. eapply inside_rank; try reflexivity; assumption.
    + rewrite <- Ep. now exists vx, vy, vz.
    + destruct (outside (DD (a, b, c)) p) eqn:Eo; [reflexivity|exfalso].
      unfold outside in Eo. apply orb_false_iff in Eo. destruct Eo as (Eo & Oz). apply orb_false_iff in Eo. destruct Eo as (Ox & Oy).
      rewrite Ex in Ox. rewrite Ey in Oy. rewrite Ez in Oz. cbn [rank_dom dX dY dZ dom_of] in *. apply outside_axis_false in Ox, Oy, Oz. cbn [ra_plo ra_phi rank_axis] in *.
      assert (K : forall g k (B : bnd FRX) dd (q : part FRX) u, good_gaxis g -> 0 <= k < g_np g -> b_axis B dd = periodic_axis g k -> pos dd q = Fin u -> (g_left g k <= u < g_left g (k + 1))%R ->
         bc_axis t B dd q = Goes q 0).
      { intros g k B dd q u Hg Hk EB Eq Hu. unfold bc_axis. rewrite EB, Eq. change (@n_lt FRX (Fin u) (b_plo (periodic_axis g k))) with (Rltb u (g_left g k)).
        change (@n_le FRX (b_phi (periodic_axis g k)) (Fin u)) with (Rleb (g_left g (k + 1)) u). rewrite (Rltb_false _ _) by lra. cbv iota zeta. now rewrite (Rleb_false _ _) by lra. }
      rewrite (K gx a (BB (a, b, c)) DirX p x Hgx Ha eq_refl Ex Ox) in E1. rewrite (K gy b (BB (a, b, c)) DirY p1 y Hgy Hb eq_refl Ey Oy) in E2. rewrite (K gz c (BB (a, b, c)) DirZ p2 z Hgz Hc eq_refl Ez Oz) in E3.
      injection E1 as _ E1. injection E2 as _ E2. injection E3 as _ E3. subst. cbn in Hd. lia.
  - left. destruct (S1 ltac:(lia)) as (-> & I1). destruct (S2 ltac:(lia)) as (-> & I2). destruct (S3 ltac:(lia)) as (-> & I3).
    assert (Epp : p3 = p) by (subst p3 p2 p1; rewrite <- Ex; rewrite <- Ey, <- Ez; destruct p; reflexivity).
    split; [now rewrite Epp|]. split; [now rewrite <- Ep|]. eapply inside_rank; eassumption.
Qed.

(** a state between the exchange of the tiles and that of the processes *)
Definition between (r : idx) (T : grid (tile FRX)) (A : idx -> list (part FRX)) : Prop :=
  forall q p, In q (all_tiles (DD r)) -> In p (A q) -> finite p /\ near r p /\ (outside (DD r) p = false -> inside (gat T q) p = true) /\ (outside (DD r) p = true -> t_bound (gat T q) = true).
Definition rank_first (r : idx) : idx := let '(a, b, c) := r in n0_of (rank_axis gx a) (rank_axis gy b) (rank_axis gz c).

Lemma map_flat {X Y} (f : X -> Y) (g : X -> list Y) l : (forall x, In x l -> g x = [f x]) -> flat_map g l = map f l.
Proof. induction l as [|x l IH]; intros H; [reflexivity|]. cbn. rewrite H by (now left). cbn. f_equal. apply IH. intros y Hy. apply H. now right. Qed.
Lemma map_id_in {X} (f : X -> X) l : (forall x, In x l -> f x = x) -> map f l = l.
Proof. intros H. rewrite <- (map_id l) at 2. apply map_ext_in. exact H. Qed.
Lemma map_flat_map {X Y Z} (f : Y -> Z) (g : X -> list Y) l : map f (flat_map g l) = flat_map (fun x => map f (g x)) l.
Proof. induction l as [|x l IH]; [reflexivity|]. cbn. now rewrite map_app, IH. Qed.

Lemma choice_list {Y} (y0 : Y) (P : idx -> Y -> Prop) l : (forall r, In r l -> exists y, P r y) -> exists f, forall r, In r l -> P r (f r).
Proof.
  induction l as [|q l IH]; intros H; [exists (fun _ => y0); intros r []|].
  destruct IH as (f & Hf); [intros r Hr; apply H; now right|]. destruct (H q (or_introl eq_refl)) as (y & Hy).
  exists (fun r => if idx_eqb r q then y else f r). intros r Hr. destruct (idx_eqb r q) eqn:E; [apply idx_eqb_eq in E; now subst|].
  destruct Hr as [<-|Hr]; [rewrite idx_eqb_refl in E; discriminate|now apply Hf].
Qed.

Section Mid.
Variables (npid M : Z) (W : idx -> grid (tile FRX) * Z) (A : idx -> idx -> list (part FRX)).
Hypothesis HM : M < 2 ^ 31.
Hypothesis Hpid : 0 <= npid.
Hypothesis HP : forall r q p, In r (processes np) -> In q (all_tiles (DD r)) -> In p (A r q) -> zlen (ppid p) = npid.
Hypothesis HR : 2 * zlen (world np DD A) + 1 <= M.
Hypothesis HI : zlen (world np DD A) * (npid + 7) + 1 < 2 ^ 31.
Hypothesis HC : forall r, In r (processes np) -> contents M (DD r) (fst (W r)) (A r) /\ rank_tiles gx gy gz r (fst (W r)).
Hypothesis HB : forall r, In r (processes np) -> between r (fst (W r)) (A r).

Lemma mid_consistent : consistent np DD W A M npid rank_first.
Proof.
  intros r Hr. destruct (HC r Hr) as (C & L). split; [exact C|]. split; [|intros q p; now apply HP].
  destruct r as [[a b] c]. destruct L as (L & _). apply in_processes in Hr. cbn [g_procs] in Hr. destruct Hr as (Ha & Hb & Hc). cbn [rank_first].
  eapply first_tile_real; [apply rank_good; eassumption..|exact C|exact L].
Qed.
Lemma mid_place r (p : part FRX) : In r (processes np) -> finite p -> outside (DD r) p = false ->
  exists q, target (DD r) (rank_first r) p = Ret q /\ In q (all_tiles (DD r)) /\ inside (gat (fst (W r)) q) p = true.
Proof.
  intros Hr. destruct (HC r Hr) as (C & L). destruct r as [[a b] c]. destruct L as (L & _). apply in_processes in Hr. cbn [g_procs] in Hr. destruct Hr as (Ha & Hb & Hc). cbn [rank_first rank_dom] in *.
  eapply target_real; [apply rank_good; eassumption..|exact C|exact L].
Qed.
Lemma mid_staying r q p : In r (processes np) -> In q (all_tiles (DD r)) -> In p (staying (BB r) (fst (W r)) (A r) q) -> In p (A r q) /\ outside (DD r) p = false.
Proof.
  intros Hr Hq. unfold staying. destruct (t_bound _) eqn:Eb.
  - rewrite in_flat_map. intros (p0 & Hp & Hin). destruct (HB r Hr q p0 Hq Hp) as (_ & Hn & _).
    destruct (particle_periodic r (gat (fst (W r)) q) p0 Hr Hn) as [(E & _ & O)|(d & E & _)]; rewrite E in Hin; [destruct Hin as [<-|[]]; tauto|contradiction].
  - intros Hp. split; [exact Hp|]. destruct (HB r Hr q p Hq Hp) as (_ & _ & _ & H). destruct (outside _ p); [rewrite H in Eb by reflexivity; discriminate|reflexivity].
Qed.
Lemma mid_arriving r p : In r (processes np) -> In p (arriving np DD BB W A r) -> finite p /\ outside (DD r) p = false.
Proof.
  intros Hr. unfold arriving. rewrite in_flat_map. intros (d & Hd & Hin). apply in_flat_map in Hin. destruct Hin as (q & Hq & Hin).
  pose proof (neighbour_in np r (opposite d) procs_size) as Hs. pose proof (neighbour_back np r d procs_size Hr) as Hnb. set (s := neighbour np r (opposite d)) in *.
  unfold leaving in Hin. destruct (t_bound _); [|contradiction]. apply in_flat_map in Hin. destruct Hin as (p0 & Hp & Hin).
  destruct (HB s Hs q p0 Hq Hp) as (_ & Hn & _). destruct (particle_periodic s (gat (fst (W s)) q) p0 Hs Hn) as [(E & _)|(d' & E & O & F & _)]; rewrite E in Hin; [contradiction|].
  destruct (idx_eqb d' d) eqn:Ed; [|contradiction]. apply idx_eqb_eq in Ed. subst d'. destruct Hin as [<-|[]]. rewrite Hnb in O. tauto.
Qed.
Lemma mid_targets : arrivals_have_tile np DD BB W A rank_first.
Proof.
  intros r p Hr Hp. destruct (mid_arriving r p Hr Hp) as (F & O). destruct (mid_place r p Hr F O) as (q & E & Hq & _). now exists q.
Qed.
Lemma mid_survivors : survivors np DD BB W A = map wr (world np DD A).
Proof.
  unfold survivors, world, all_particles. rewrite map_flat_map. apply flat_map_ext_in. intros r Hr. rewrite map_flat_map. apply flat_map_ext_in. intros q Hq.
  unfold surviving. destruct (t_bound _) eqn:Eb.
  - apply map_flat. intros p Hp. destruct (HB r Hr q p Hq Hp) as (_ & Hn & _). destruct (particle_periodic r (gat (fst (W r)) q) p Hr Hn) as [(E & Ew & _)|(d & E & _)]; rewrite E; [now rewrite Ew|reflexivity].
  - symmetry. apply map_id_in. intros p Hp. destruct (HB r Hr q p Hq Hp) as (_ & Hn & _ & H). destruct (particle_periodic r (gat (fst (W r)) q) p Hr Hn) as [(_ & E & _)|(d & _ & _ & _ & O)]; [exact E|].
    rewrite (H O) in Eb. discriminate.
Qed.
Theorem mid_fact : exists T' A', 
  (forall r, In r (processes np) -> particle_bcs_mpi_blocking npid np DD BB W r = Ret (T' r, snd (W r) + zlen (all_particles (DD r) (A' r)) - zlen (all_particles (DD r) (A r))) /\
     contents M (DD r) (T' r) (A' r) /\ rank_tiles gx gy gz r (T' r) /\
     forall q p, In q (all_tiles (DD r)) -> In p (A' r q) -> outside (DD r) p = false /\ inside (gat (T' r) q) p = true) /\
  Permutation (world np DD A') (map wr (world np DD A)).
Proof.
  pose proof (zlen_nonneg (world np DD A)) as Zn.
  pose proof (rank_fact npid M (sizes_ok FRX M (or_introl eq_refl) HM) Hpid np DD BB W A rank_first procs_size mid_consistent mid_targets HR HI) as X.
  pose (Q := fun (r : idx) (F : grid (tile FRX) * (idx -> list (part FRX))) => particle_bcs_mpi_blocking npid np DD BB W r = Ret (fst F, snd (W r) + zlen (all_particles (DD r) (snd F)) - zlen (all_particles (DD r) (A r))) /\
     contents M (DD r) (fst F) (snd F) /\ (forall q, In q (all_tiles (DD r)) -> same_extents (gat (fst (W r)) q) (gat (fst F) q)) /\
     (forall q, In q (all_tiles (DD r)) -> Permutation (snd F q) (staying (BB r) (fst (W r)) (A r) q ++ filter (has_target DD r q rank_first) (arriving np DD BB W A r))) /\
     Permutation (all_particles (DD r) (snd F)) (stays_at DD BB W A r ++ arriving np DD BB W A r)).
  assert (Y : exists F, forall r, In r (processes np) -> Q r (F r)).
  { apply (choice_list (fst (W (0, 0, 0)), A (0, 0, 0)) Q). intros r Hr. destruct (X r Hr) as (T' & A' & H). now exists (T', A'). }
  destruct Y as (F & Y). exists (fun r => fst (F r)), (fun r => snd (F r)). split.
  - intros r Hr. destruct (Y r Hr) as (E & C & S & P & _). split; [exact E|]. split; [exact C|]. split.
    + destruct (HC r Hr) as (C0 & L). destruct r as [[a b] c]. destruct L as (L & Lb). pose proof C as (C1 & C2 & _). split.
      * intros i j k t Hin. subst t. rewrite C1, C2 in Hin. destruct (S (i, j, k) Hin) as (-> & -> & -> & _). apply L. destruct C0 as (-> & -> & _). exact Hin.
      * intros i j k Hin. destruct (S (i, j, k) Hin) as (_ & _ & _ & ->). now apply Lb.
    + intros q p Hq Hp. apply (Permutation_in _ (P q Hq)) in Hp. rewrite (inside_same (gat (fst (W r)) q)) by (exact (S q Hq)).
      apply in_app_iff in Hp. destruct Hp as [Hp|Hp].
      * destruct (mid_staying r q p Hr Hq Hp) as (Hp' & O). split; [exact O|]. destruct (HB r Hr q p Hq Hp') as (_ & _ & H & _). now apply H.
      * apply filter_In in Hp. destruct Hp as (Hp & Ht). destruct (mid_arriving r p Hr Hp) as (Ff & O). split; [exact O|]. destruct (mid_place r p Hr Ff O) as (q' & E' & _ & I).
        unfold has_target in Ht. rewrite E' in Ht. apply idx_eqb_eq in Ht. now subst q'.
  - rewrite <- mid_survivors. rewrite survivors_split; [|exact procs_size]. unfold world. apply flat_map_perm_in. intros r Hr. now destruct (Y r Hr) as (_ & _ & _ & _ & ?).
Qed.
End Mid.

Variables (npid M : Z) (W : idx -> grid (tile FRX) * Z) (A : idx -> idx -> list (part FRX)).
Hypothesis HM : M < 2 ^ 31.
Hypothesis Hpid : 0 <= npid.
Hypothesis HP : forall r q p, In r (processes np) -> In q (all_tiles (DD r)) -> In p (A r q) -> zlen (ppid p) = npid.
Hypothesis HR : 2 * zlen (world np DD A) + 1 <= M.
Hypothesis HI : zlen (world np DD A) * (npid + 7) + 1 < 2 ^ 31.

(** *** The exchange between the tiles first *)
Hypothesis HC : forall r, In r (processes np) -> contents M (DD r) (fst (W r)) (A r) /\ rank_tiles gx gy gz r (fst (W r)) /\ all_one_cell gx gy gz r (A r).

(** what the exchange between the tiles of process r does *)
Definition exchanged (r : idx) (T1 : grid (tile FRX)) (A1 : idx -> list (part FRX)) : Prop :=
  contents M (DD r) T1 A1 /\ (forall q, In q (all_tiles (DD r)) -> same_extents (gat (fst (W r)) q) (gat T1 q)) /\
  Permutation (all_particles (DD r) A1) (all_particles (DD r) (A r)) /\ in_place (DD r) (A r) A1 T1.

Lemma cell_facts r q p : In r (processes np) -> In q (all_tiles (DD r)) -> In p (A r q) ->
  finite p /\ near r p /\ (outside (DD r) p = true -> t_bound (gat (fst (W r)) q) = true).
Proof.
  intros Hr Hq Hp. destruct (HC r Hr) as (C & L & H1). destruct r as [[a b] c], q as [[i j] k]. pose proof Hr as Hr'. apply in_processes in Hr'. cbn [g_procs] in Hr'. destruct Hr' as (Ha & Hb & Hc).
  destruct (H1 i j k p Hq Hp) as (Ox & Oy & Oz). pose proof Hq as Hq'. cbn [rank_dom] in Hq'. apply tile_box in Hq'. destruct Hq' as (Hi & Hj & Hk).
  destruct (one_cell_reach gx Hgx a i (px p) Ha Hi Ox) as (x & Ex & Rx & Lx & Ux).
  destruct (one_cell_reach gy Hgy b j (py p) Hb Hj Oy) as (y & Ey & Ry & Ly & Uy).
  destruct (one_cell_reach gz Hgz c k (pz p) Hc Hk Oz) as (z & Ez & Rz & Lz & Uz).
  split; [now exists x, y, z|]. split; [repeat split; [now exists x|now exists y|now exists z]|]. intros O. destruct L as (_ & L). apply L; [exact Hq|].
  cbn [rank_dom dom_of dX dY dZ axis_of ag_nt rank_axis ra_n ra_nt]. cbn [rank_axis ra_n] in Ux, Uy, Uz.
  destruct (Rlt_dec x (g_left gx a)) as [G|G]; [now rewrite (Lx G); left|]. destruct (Rle_dec (g_left gx (a + 1)) x) as [G1|G1]; [right; left; now apply Ux|].
  destruct (Rlt_dec y (g_left gy b)) as [G2|G2]; [now rewrite (Ly G2); right; right; left|]. destruct (Rle_dec (g_left gy (b + 1)) y) as [G3|G3]; [right; right; right; left; now apply Uy|].
  destruct (Rlt_dec z (g_left gz c)) as [G4|G4]; [now rewrite (Lz G4); right; right; right; right; left|]. destruct (Rle_dec (g_left gz (c + 1)) z) as [G5|G5]; [right; right; right; right; right; now apply Uz|].
  rewrite (inside_rank a b c p x y z Ex Ey Ez) in O; [discriminate|lra|lra|lra].
Qed.
Lemma in_all r q p (A1 : idx -> list (part FRX)) : In q (all_tiles (DD r)) -> In p (A1 q) -> Permutation (all_particles (DD r) A1) (all_particles (DD r) (A r)) ->
  exists q0, In q0 (all_tiles (DD r)) /\ In p (A r q0).
Proof.
  intros Hq Hp P. assert (Hin : In p (all_particles (DD r) A1)) by (apply in_flat_map; now exists q). apply (Permutation_in _ P) in Hin. apply in_flat_map in Hin. exact Hin.
Qed.
Lemma after_tiles (T1 : idx -> grid (tile FRX)) (A1 : idx -> idx -> list (part FRX)) : (forall r, In r (processes np) -> exchanged r (T1 r) (A1 r)) ->
  exists T' A', 
  (forall r, In r (processes np) -> particle_bcs_mpi_blocking npid np DD BB (fun s => (T1 s, snd (W s))) r = Ret (T' r, snd (W r) + zlen (all_particles (DD r) (A' r)) - zlen (all_particles (DD r) (A r))) /\
     contents M (DD r) (T' r) (A' r) /\ rank_tiles gx gy gz r (T' r) /\
     forall q p, In q (all_tiles (DD r)) -> In p (A' r q) -> outside (DD r) p = false /\ inside (gat (T' r) q) p = true) /\
  Permutation (world np DD A') (map wr (world np DD A)).
Proof.
  intros H. assert (PW : Permutation (world np DD A1) (world np DD A)).
  { unfold world. apply flat_map_perm_in. intros r Hr. now destruct (H r Hr) as (_ & _ & P & _). }
  destruct (mid_fact npid M (fun s => (T1 s, snd (W s))) A1 HM Hpid) as (T' & A' & X & P).
  - intros r q p Hr Hq Hp. destruct (H r Hr) as (_ & _ & P & _). destruct (in_all r q p (A1 r) Hq Hp P) as (q0 & Hq0 & Hp0). now apply (HP r q0 p).
  - now rewrite (zlen_perm _ _ PW).
  - now rewrite (zlen_perm _ _ PW).
  - intros r Hr. cbn [fst]. destruct (H r Hr) as (C & S & _). split; [exact C|]. destruct (HC r Hr) as (C0 & L & _). destruct r as [[a b] c]. destruct L as (L & Lb). pose proof C as (C1 & C2 & _). split.
    + intros i j k t Hin. subst t. rewrite C1, C2 in Hin. destruct (S (i, j, k) Hin) as (-> & -> & -> & _). apply L. destruct C0 as (-> & -> & _). exact Hin.
    + intros i j k Hin. destruct (S (i, j, k) Hin) as (_ & _ & _ & ->). now apply Lb.
  - intros r Hr q p Hq Hp. cbn [fst]. destruct (H r Hr) as (_ & S & P & I). destruct (in_all r q p (A1 r) Hq Hp P) as (q0 & Hq0 & Hp0).
    destruct (cell_facts r q0 p Hr Hq0 Hp0) as (F & Nr & _). split; [exact F|]. split; [exact Nr|]. destruct (I q p Hq Hp) as (I1 & I2). split; [exact I1|].
    intros O. specialize (I2 O). destruct (cell_facts r q p Hr Hq I2) as (_ & _ & K). destruct (S q Hq) as (_ & _ & _ & ->). now apply K.
  - exists T', A'. split; [|now rewrite P; apply Permutation_map]. intros r Hr. destruct (X r Hr) as (E & Y). split; [|exact Y]. cbn [fst snd] in E. rewrite E.
    destruct (H r Hr) as (_ & _ & P1 & _). now rewrite (zlen_perm _ _ P1).
Qed.

Lemma rank_room r : In r (processes np) -> 2 * zlen (all_particles (DD r) (A r)) + 1 <= M.
Proof. intros Hr. pose proof (flat_map_piece (fun r => all_particles (DD r) (A r)) (processes np) r Hr) as X. cbv beta in X. unfold world in HR. lia. Qed.

Theorem periodic_serial : exists T1, (forall r, In r (processes np) -> particle_bcs_tiles (DD r) (fst (W r)) = Ret (T1 r)) /\
  exists T' A', 
  (forall r, In r (processes np) -> particle_bcs_mpi_blocking npid np DD BB (fun s => (T1 s, snd (W s))) r = Ret (T' r, snd (W r) + zlen (all_particles (DD r) (A' r)) - zlen (all_particles (DD r) (A r))) /\
     contents M (DD r) (T' r) (A' r) /\ rank_tiles gx gy gz r (T' r) /\
     forall q p, In q (all_tiles (DD r)) -> In p (A' r q) -> outside (DD r) p = false /\ inside (gat (T' r) q) p = true) /\
  Permutation (world np DD A') (map wr (world np DD A)).
Proof.
  assert (Y : exists F : idx -> grid (tile FRX) * (idx -> list (part FRX)), forall r, In r (processes np) -> (fun r F => particle_bcs_tiles (DD r) (fst (W r)) = Ret (fst F) /\ exchanged r (fst F) (snd F)) r (F r)).
  { apply (choice_list (fst (W (0, 0, 0)), A (0, 0, 0)) (fun r F => particle_bcs_tiles (DD r) (fst (W r)) = Ret (fst F) /\ exchanged r (fst F) (snd F))). intros r Hr. pose proof (rank_room r Hr) as Rm. pose proof (fun q p => cell_facts r q p Hr) as CF.
    destruct (HC r Hr) as (C & L & _). destruct r as [[a b] c]. destruct L as (L & _). pose proof Hr as Hr'. apply in_processes in Hr'. cbn [g_procs] in Hr'. destruct Hr' as (Ha & Hb & Hc).
    cbn [rank_dom] in *. pose proof (rank_good gx Hgx a Ha) as Gx. pose proof (rank_good gy Hgy b Hb) as Gy. pose proof (rank_good gz Hgz c Hc) as Gz.
    assert (Ff : forall q p, In q (all_tiles (dom_of (rank_axis gx a) (rank_axis gy b) (rank_axis gz c))) -> In p (A (a, b, c) q) -> finite p) by (intros q p Hq Hp; now destruct (CF q p Hq Hp)).
    destruct (serial_fact M (sizes_ok FRX M (or_introl eq_refl) HM) _ (fst (W (a, b, c))) (A (a, b, c)) (n0_of (rank_axis gx a) (rank_axis gy b) (rank_axis gz c)) C Rm) as (T1 & A1 & E & C1 & S & P & X).
    - now apply (exist_real _ _ _ Gx Gy Gz M).
    - now apply (first_tile_real _ _ _ Gx Gy Gz M _ (A (a, b, c))).
    - exists (T1, A1). cbn [fst snd]. split; [exact E|]. split; [exact C1|]. split; [exact S|]. split; [exact P|]. now apply (expected_place _ _ _ Gx Gy Gz M (fst (W (a, b, c)))). }
  destruct Y as (F & Y). exists (fun r => fst (F r)). split; [intros r Hr; now destruct (Y r Hr)|].
  apply (after_tiles (fun r => fst (F r)) (fun r => snd (F r))). intros r Hr. now destruct (Y r Hr).
Qed.

Theorem periodic_omp : (forall r, In r (processes np) -> (exists res, particle_bcs_tiles_openmp (DD r) (fst (W r)) res) /\
    forall res, particle_bcs_tiles_openmp (DD r) (fst (W r)) res -> exists T1, res = Ret T1) /\
  forall T1, (forall r, In r (processes np) -> particle_bcs_tiles_openmp (DD r) (fst (W r)) (Ret (T1 r))) ->
  exists T' A',
  (forall r, In r (processes np) -> particle_bcs_mpi_blocking npid np DD BB (fun s => (T1 s, snd (W s))) r = Ret (T' r, snd (W r) + zlen (all_particles (DD r) (A' r)) - zlen (all_particles (DD r) (A r))) /\
     contents M (DD r) (T' r) (A' r) /\ rank_tiles gx gy gz r (T' r) /\
     forall q p, In q (all_tiles (DD r)) -> In p (A' r q) -> outside (DD r) p = false /\ inside (gat (T' r) q) p = true) /\
  Permutation (world np DD A') (map wr (world np DD A)).
Proof.
  assert (K : forall r, In r (processes np) -> (exists res, particle_bcs_tiles_openmp (DD r) (fst (W r)) res) /\
    exists A1, forall res, particle_bcs_tiles_openmp (DD r) (fst (W r)) res -> exists T1, res = Ret T1 /\ exchanged r T1 A1).
  { intros r Hr. pose proof (rank_room r Hr) as Rm. pose proof (fun q p => cell_facts r q p Hr) as CF. unfold exchanged.
    destruct (HC r Hr) as (C & L & O1). destruct r as [[a b] c]. destruct L as (L & _). pose proof Hr as Hr'. apply in_processes in Hr'. cbn [g_procs] in Hr'. destruct Hr' as (Ha & Hb & Hc).
    cbn [rank_dom all_one_cell] in *. pose proof (rank_good gx Hgx a Ha) as Gx. pose proof (rank_good gy Hgy b Hb) as Gy. pose proof (rank_good gz Hgz c Hc) as Gz.
    assert (Ff : forall q p, In q (all_tiles (dom_of (rank_axis gx a) (rank_axis gy b) (rank_axis gz c))) -> In p (A (a, b, c) q) -> finite p) by (intros q p Hq Hp; now destruct (CF q p Hq Hp)).
    assert (Cl : all_close (rank_axis gx a) (rank_axis gy b) (rank_axis gz c) (A (a, b, c))).
    { assert (Y : forall s i x, good_axis s -> one_cell s i x -> close s i x).
      { intros s i x (Dp & _) (l & r & v & El & Er & Ev & Hv & _). exists l, r, v. repeat split; try assumption; lra. }
      intros i j k p Hq Hp. destruct (O1 i j k p Hq Hp) as (X1 & X2 & X3). repeat split; now apply Y. }
    pose proof (adjacent_real _ _ _ Gx Gy Gz M _ _ C L Ff Cl) as Adj. pose proof (exist_real _ _ _ Gx Gy Gz M _ _ C L Ff) as Ex.
    pose proof (first_tile_real _ _ _ Gx Gy Gz M _ _ C L) as Fi.
    destruct (both_omp FRX M (or_introl eq_refl) HM _ _ _ _ C Rm Adj Fi) as (X1 & A1 & X & P & R).
    split; [exact X1|]. exists A1. intros res Hres. destruct (R res Hres) as (T1 & -> & C1 & S). exists T1. split; [reflexivity|]. split; [exact C1|]. split; [exact S|]. split; [exact P|].
    now apply (expected_place _ _ _ Gx Gy Gz M (fst (W (a, b, c)))). }
  split.
  - intros r Hr. destruct (K r Hr) as (X1 & A1 & X). split; [exact X1|]. intros res Hres. destruct (X res Hres) as (T1 & -> & _). now exists T1.
  - intros T1 HT1. assert (Y : exists F, forall r, In r (processes np) -> (fun r A1 => exchanged r (T1 r) A1) r (F r)).
    { apply (choice_list (A (0, 0, 0)) (fun r A1 => exchanged r (T1 r) A1)). intros r Hr. destruct (K r Hr) as (_ & A1 & X). exists A1. destruct (X _ (HT1 r Hr)) as (T & E & H). injection E as ->. exact H. }
    destruct Y as (F & Y). now apply (after_tiles T1 F).
Qed.
End World.
