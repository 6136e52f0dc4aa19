(** The default exchange of the particles in a periodic domain, in exact arithmetic. *)
From Coq Require Import ZArith Reals List Bool Permutation Lia Lra.
From Verif Require Import Cxx CxxLemmas Num NumRX RXLemmas Fortran FortranLemmas FortranNum Grid GridLemmas Deposit Tiles Exchange TilesProofs TilesExchange TilesReal SpecTiles TilesFacts TilesDomain TilesBoth PartBC SpecPartBC PartBCProofs PartBCTile PartBCGlobal PartBCReal PartDefault SpecPartDefault PartDefaultProofs PartDefaultRank PartDefaultGlobal.
Import ListNotations.
Local Open Scope Z_scope.
Local Opaque directions.

(** *** The tile of a position *)
Lemma default_index_eq s x : good_axis s -> default_index (axis_of s) (ta_n (tile_of s 1)) (Fin x : num FRX) = tile_index (axis_of s) (ta_n (tile_of s 1)) (Fin x : num FRX).
Proof.
  intros Hs. destruct (tile_extents s 1) as (_ & _ & ->). rewrite (tile_index_eq s Hs). pose proof (pos_n0 s Hs) as Hp.
  unfold default_index. cbn [ag_lo ag_d ag_nt axis_of].
  change (@n_of_Z FRX (first_n s)) with (Fin (IZR (first_n s)) : num FRX).
  change (@n_mul FRX (Fin (IZR (first_n s))) (Fin (ra_d s))) with (Fin (IZR (first_n s) * ra_d s) : num FRX).
  change (@n_of_Z FRX 1) with (Fin 1 : num FRX). change (@n_div FRX) with x_div. rewrite x_div_fin by lra.
  assert (Eh : (@n_lit FRX 5 (-1)) = (Fin (1 / 2) : num FRX)) by (cbn; f_equal; lra). rewrite Eh.
  match goal with |- bind (floor64 ?a) _ = bind (floor64 ?b) _ => replace a with b; [reflexivity|] end.
  change (Fin ((x - ra_lo s + ra_d s / 2) / (IZR (first_n s) * ra_d s)) = Fin ((x - ra_lo s + ra_d s * (1 / 2)) * (1 / (IZR (first_n s) * ra_d s)))). f_equal.
  set (k := (IZR (first_n s) * ra_d s)%R) in *. clearbody k. field. lra.
Qed.

Section Axis.
Variable g : gaxis.
Hypothesis Hg : good_gaxis g.
Local Open Scope R_scope.

(** with two tiles or more the tiles are inside of the domain *)
Lemma inside_local c i x : (0 <= c < g_np g)%Z -> (2 <= ntiles (ra_n (rank_axis g c)) (g_nt g))%Z -> (1 <= i <= ntiles (ra_n (rank_axis g c)) (g_nt g))%Z ->
  inside_axis (tile_of (rank_axis g c) i) (Fin x : num FRX) = true -> g_left g c <= x < g_left g (c + 1) /\
  ((x < g_left g c + g_d g -> i = 1%Z) /\ (g_left g (c + 1) - g_d g <= x -> i = ntiles (ra_n (rank_axis g c)) (g_nt g))).
Proof.
  intros Hc H2 Hi Hin. pose proof (rank_good g Hg c Hc) as Hs. pose proof (rank_hi g c) as Hh. pose proof (g_d_pos g Hg) as Dp. set (s := rank_axis g c) in *. change (ra_d s) with (g_d g) in *.
  pose proof (mul_d_le s Hs) as MD. change (ra_d s) with (g_d g) in MD. assert (Lo : ra_lo s = g_left g c) by reflexivity. change (g_nt g) with (ra_nt s) in *.
  apply (inside_real s i x Hi) in Hin. unfold left_of, right_of in Hin. rewrite Lo, Hh in Hin. change (ra_d s) with (g_d g) in Hin.
  destruct (nt_cases s Hs) as [(E & _)|(E & E4 & En & _)]; [lia|].
  set (nt := ntiles (ra_n s) (ra_nt s)) in *. set (n0 := (ra_n s ÷ ra_nt s)%Z) in *.
  assert (Hhi : g_left g (c + 1) = g_left g c + IZR (ra_n s - 1) * g_d g) by (rewrite <- Hh; reflexivity). rewrite minus_IZR in Hhi.
  destruct (Z.eqb_spec i nt) as [->|Hin'].
  - pose proof (MD 4%Z ((nt - 1) * n0)%Z ltac:(nia)). split; [lra|]. split; [intros; lra|reflexivity].
  - pose proof (MD (i * n0 + 4)%Z (ra_n s) ltac:(nia)) as X1. rewrite plus_IZR in X1.
    destruct (Z.eqb_spec i 1) as [->|Hi1].
    + split; [lra|]. split; [reflexivity|intros; lra].
    + pose proof (MD 4%Z ((i - 1) * n0)%Z ltac:(nia)) as X2. split; [lra|]. split; intros; lra.
Qed.

Lemma default_periodic c (t : tile FRX) (B : bnd FRX) a (p : part FRX) x : (0 <= c < g_np g)%Z -> b_axis B a = periodic_axis g c -> pos a p = Fin x -> default_axis t B a p = bc_axis t B a p.
Proof.
  intros Hc EB Ep. pose proof (left_wide g Hg c) as W0. pose proof (g_d_pos g Hg) as Dp.
  assert (E : bc_axis t B a p = let lower : moved FRX := if Rltb x (g_left g c) then if (c =? 0)%Z then Goes (set_pos a (Fin (x + (g_hi g - g_lo g)) : num FRX) p) (-1) else Goes p (-1) else Goes p 0 in
     match lower with Goes p0 _ => if Rleb (g_left g (c + 1)) x then if (c =? g_np g - 1)%Z then Goes (set_pos a (Fin (x - (g_hi g - g_lo g)) : num FRX) p0) 1 else Goes p0 1 else lower | _ => lower end).
  { unfold bc_axis. rewrite EB, Ep. reflexivity. }
  assert (E' : default_axis t B a p = if Rltb x (g_left g c) then if (c =? 0)%Z then Goes (set_pos a (Fin (x + (g_hi g - g_lo g)) : num FRX) p) (-1) else Goes p (-1)
     else if Rleb (g_left g (c + 1)) x then if (c =? g_np g - 1)%Z then Goes (set_pos a (Fin (x - (g_hi g - g_lo g)) : num FRX) p) 1 else Goes p 1 else Goes p 0).
  { unfold default_axis. rewrite EB, Ep. reflexivity. }
  rewrite E, E'. cbv zeta. destruct (Rltb_spec x (g_left g c)) as [H|H].
  - rewrite (Rleb_false (g_left g (c + 1)) x) by lra. now destruct (c =? 0)%Z.
  - destruct (Rleb (g_left g (c + 1)) x); [|reflexivity]. now destruct (c =? g_np g - 1)%Z.
Qed.
(** where a particle that changes the process comes in *)
Lemma entry c x : (0 <= c < g_np g)%Z -> g_left g c - g_d g < x < g_left g (c + 1) + g_d g -> (x < g_left g c \/ g_left g (c + 1) <= x) ->
  forall c' v, (0 <= c' < g_np g)%Z -> wrap_axis g (Fin x) = Fin v -> g_left g c' <= v < g_left g (c' + 1) -> v < g_left g c' + g_d g \/ g_left g (c' + 1) - g_d g <= v.
Proof.
  intros Hc Hx Ho c' v Hc' Ew Hv. pose proof (left_0 g Hg) as L0. pose proof (left_np g Hg) as Ln. pose proof (g_d_pos g Hg) as Dp.
  assert (Mono : forall a b, (a <= b)%Z -> g_left g a <= g_left g b) by (intros; now apply left_mono).
  unfold wrap_axis in Ew. destruct (Rlt_dec x (g_lo g)) as [H1|H1]; [|destruct (Rle_dec (g_hi g) x) as [H2|H2]]; injection Ew as <-.
  - right. assert (c = 0)%Z. { destruct (Z.eq_dec c 0) as [|Hn]; [assumption|exfalso]. pose proof (left_wide g Hg 0) as W0. pose proof (Mono (0 + 1)%Z c ltac:(lia)). lra. }
    subst c. assert (c' + 1 <= g_np g)%Z by lia. pose proof (Mono (c' + 1)%Z (g_np g) ltac:(lia)). lra.
  - left. assert (c = g_np g - 1)%Z. { destruct (Z.eq_dec c (g_np g - 1)) as [|Hn]; [assumption|exfalso]. pose proof (left_wide g Hg (c + 1)) as W0. pose proof (Mono (c + 1 + 1)%Z (g_np g) ltac:(lia)). lra. }
    replace (c + 1)%Z with (g_np g) in Hx by lia. pose proof (Mono 0%Z c' ltac:(lia)). lra.
  - destruct Ho as [Ho|Ho].
    + right. destruct (Z_lt_le_dec c' c) as [Hl|Hl]; [|pose proof (Mono c c' Hl); lra]. pose proof (Mono (c' + 1)%Z c ltac:(lia)). lra.
    + left. destruct (Z_le_gt_dec c' c) as [Hl|Hl]; [pose proof (Mono (c' + 1)%Z (c + 1)%Z ltac:(lia)); lra|]. pose proof (Mono (c + 1)%Z c' ltac:(lia)). lra.
Qed.
End Axis.

(** *** Three directions *)
Section World.
Variables gx gy gz : gaxis.
Hypothesis Hgx : good_gaxis gx.
Hypothesis Hgy : good_gaxis gy.
Hypothesis Hgz : good_gaxis gz.
Notation np := (g_procs gx gy gz).
Notation DD := (rank_dom gx gy gz).
Notation BB := (rank_bnd gx gy gz).
Notation wr := (wrap gx gy gz).
Notation first := (rank_first gx gy gz).

Lemma fate_same r t (p p' : part FRX) d : In r (processes np) -> near gx gy gz r p -> bc_particle t (BB r) p = Leave p' d -> default_fate t (BB r) p = Leave p' d.
Proof.
  destruct r as [[a b] c]. intros Hr ((x & Ex & Hx) & (y & Ey & Hy) & (z & Ez & Hz)). apply in_processes in Hr. cbn [g_procs] in Hr. destruct Hr as (Ha & Hb & Hc).
  destruct (bc_periodic gx Hgx a t (BB (a, b, c)) DirX p x Ha eq_refl Ex Hx) as (bx & vx & E1 & _).
  set (p1 := set_pos DirX (Fin vx : num FRX) p) in *.
  destruct (bc_periodic gy Hgy b t (BB (a, b, c)) DirY p1 y Hb eq_refl Ey Hy) as (by_ & vy & E2 & _).
  set (p2 := set_pos DirY (Fin vy : num FRX) p1) in *.
  destruct (bc_periodic gz Hgz c t (BB (a, b, c)) DirZ p2 z Hc eq_refl Ez Hz) as (bz & vz & E3 & _).
  unfold bc_particle, default_fate. rewrite (default_periodic gx Hgx a t (BB (a, b, c)) DirX p x Ha eq_refl Ex), E1.
  rewrite (default_periodic gy Hgy b t (BB (a, b, c)) DirY p1 y Hb eq_refl Ey), E2.
  rewrite (default_periodic gz Hgz c t (BB (a, b, c)) DirZ p2 z Hc eq_refl Ez), E3. destruct (_ <? _); [auto|discriminate].
Qed.

Variables (npid bs M : Z) (W : idx -> grid (tile FRX) * Z) (A : idx -> idx -> list (part FRX)).
Hypothesis HM : M < 2 ^ 31.
Hypothesis Hpid : 0 <= npid.
Hypothesis Hbs : 1 <= bs.
Hypothesis HR : 2 * zlen (world np DD A) + 1 <= M.
Hypothesis HI : zlen (world np DD A) * (npid + 7) + 1 < 2 ^ 31.
Hypothesis HC : forall r, In r (processes np) -> contents M (DD r) (fst (W r)) (A r) /\ rank_tiles gx gy gz r (fst (W r)) /\ all_one_cell gx gy gz r (A r).
Hypothesis HS : forall r, In r (processes np) -> several_tiles (DD r).

Lemma rank_goods a b c : In (a, b, c) (processes np) -> good_axis (rank_axis gx a) /\ good_axis (rank_axis gy b) /\ good_axis (rank_axis gz c) /\ 0 <= a < g_np gx /\ 0 <= b < g_np gy /\ 0 <= c < g_np gz.
Proof.
  intros Hr. apply in_processes in Hr. cbn [g_procs] in Hr. destruct Hr as (Ha & Hb & Hc). split; [now apply rank_good|]. split; [now apply rank_good|]. split; [now apply rank_good|]. now split.
Qed.
Lemma target_default r (p : part FRX) : In r (processes np) -> finite p -> default_target (DD r) (first r) p = target (DD r) (first r) p.
Proof.
  destruct r as [[a b] c]. intros Hr (x & y & z & Ex & Ey & Ez). destruct (rank_goods a b c Hr) as (Gx & Gy & Gz & _).
  unfold default_target, target, rank_first, n0_of. cbn [rank_dom dom_of dX dY dZ]. rewrite Ex, Ey, Ez, !default_index_eq by assumption. reflexivity.
Qed.
Lemma place_default r (p : part FRX) : In r (processes np) -> finite p -> outside (DD r) p = false ->
  exists q, default_target (DD r) (first r) p = Ret q /\ In q (all_tiles (DD r)) /\ inside (gat (fst (W r)) q) p = true.
Proof.
  intros Hr Hf Ho. rewrite (target_default r p Hr Hf). destruct (HC r Hr) as (C & L & _). destruct r as [[a b] c]. destruct L as (L & _).
  destruct (rank_goods a b c Hr) as (Gx & Gy & Gz & _). cbn [rank_first rank_dom] in *. eapply target_real; eassumption.
Qed.
(** a particle inside of a tile is in the local domain; it is at most one cell from the edge only in a tile at the edge *)
Lemma in_tile r q (p : part FRX) : In r (processes np) -> In q (all_tiles (DD r)) -> finite p -> inside (gat (fst (W r)) q) p = true ->
  outside (DD r) p = false /\ forall a b c x y z, r = (a, b, c) -> px p = Fin x -> py p = Fin y -> pz p = Fin z ->
   ((x < g_left gx a + g_d gx \/ g_left gx (a + 1) - g_d gx <= x) \/ (y < g_left gy b + g_d gy \/ g_left gy (b + 1) - g_d gy <= y) \/ (z < g_left gz c + g_d gz \/ g_left gz (c + 1) - g_d gz <= z))%R ->
   t_bound (gat (fst (W r)) q) = true.
Proof.
  intros Hr Hq (x & y & z & Ex & Ey & Ez) Hin. destruct (HC r Hr) as (C & L & _). pose proof (HS r Hr) as S2. destruct r as [[a b] c], q as [[i j] k]. destruct L as (L & Lb).
  destruct (rank_goods a b c Hr) as (Gx & Gy & Gz & Ha & Hb & Hc). pose proof (layout _ _ _ M _ _ C L i j k Hq) as (T1 & T2 & T3).
  pose proof Hq as Hq'. cbn [rank_dom] in Hq'. apply tile_box in Hq'. destruct Hq' as (Hi & Hj & Hk).
  unfold inside in Hin. rewrite T1, T2, T3, Ex, Ey, Ez in Hin. apply andb_prop in Hin. destruct Hin as (Hin & Iz). apply andb_prop in Hin. destruct Hin as (Ix & Iy).
  destruct S2 as (Sx & Sy & Sz). cbn [rank_dom dom_of dX dY dZ axis_of ag_nt] in Sx, Sy, Sz.
  destruct (inside_local gx Hgx a i x Ha Sx Hi Ix) as (Rx & Lx & Ux).
  destruct (inside_local gy Hgy b j y Hb Sy Hj Iy) as (Ry & Ly & Uy).
  destruct (inside_local gz Hgz c k z Hc Sz Hk Iz) as (Rz & Lz & Uz).
  split; [eapply inside_rank; eassumption|].
  intros a' b' c' x' y' z' E Ex' Ey' Ez' H. injection E as <- <- <-. rewrite Ex in Ex'. rewrite Ey in Ey'. rewrite Ez in Ez'. injection Ex' as <-. injection Ey' as <-. injection Ez' as <-.
  apply Lb; [exact Hq|]. cbn [rank_dom dom_of dX dY dZ axis_of ag_nt rank_axis ra_n ra_nt]. cbn [rank_axis ra_n] in Ux, Uy, Uz.
  destruct H as [[H|H]|[[H|H]|[H|H]]]; [rewrite (Lx H)|rewrite (Ux H)|rewrite (Ly H)|rewrite (Uy H)|rewrite (Lz H)|rewrite (Uz H)]; tauto.
Qed.
Lemma lot_periodic r q p : In r (processes np) -> In q (all_tiles (DD r)) -> In p (A r q) ->
  (exists q', lot_of (DD r) (BB r) (first r) (fst (W r)) q p = InTile q' p /\ In q' (all_tiles (DD r)) /\ inside (gat (fst (W r)) q') p = true /\ wr p = p /\ outside (DD r) p = false) \/
  (exists d q', lot_of (DD r) (BB r) (first r) (fst (W r)) q p = Sent d (wr p) /\ finite (wr p) /\ let r' := neighbour np r d in
     default_target (DD r') (first r') (wr p) = Ret q' /\ In q' (all_tiles (DD r')) /\ outside (DD r') (wr p) = false /\ inside (gat (fst (W r')) q') (wr p) = true /\ t_bound (gat (fst (W r')) q') = true).
Proof.
  intros Hr Hq Hp. destruct (cell_facts gx gy gz Hgx Hgy Hgz M W A HC r q p Hr Hq Hp) as (Hf & Hn & Hb). unfold lot_of.
  destruct (inside (gat (fst (W r)) q) p) eqn:Ei.
  { left. exists q. destruct (in_tile r q p Hr Hq Hf Ei) as (Ho & _). split; [reflexivity|]. split; [exact Hq|]. split; [exact Ei|]. split; [|exact Ho].
    destruct (particle_periodic gx gy gz Hgx Hgy Hgz r (gat (fst (W r)) q) p Hr Hn) as [(_ & E & _)|(d & _ & _ & _ & O)]; [exact E|congruence]. }
  destruct (outside (DD r) p) eqn:Eo.
  - right. destruct (particle_periodic gx gy gz Hgx Hgy Hgz r (gat (fst (W r)) q) p Hr Hn) as [(_ & _ & O)|(d & E & O & F & _)]; [congruence|].
    rewrite (fate_same r _ p _ _ Hr Hn E). pose proof (neighbour_in np r d (procs_size gx gy gz Hgx Hgy Hgz)) as Hr'. set (r' := neighbour np r d) in *.
    destruct (place_default r' (wr p) Hr' F O) as (q' & Et & Hq' & I'). exists d, q'. split; [reflexivity|]. split; [exact F|]. cbv zeta. fold r'. clearbody r'. split; [exact Et|]. split; [exact Hq'|]. split; [exact O|]. split; [exact I'|].
    destruct (in_tile r' q' (wr p) Hr' Hq' F I') as (_ & K). destruct r as [[a b] c]. destruct r' as [[a' b'] c']. destruct Hn as ((x & Ex & Hx) & (y & Ey & Hy) & (z & Ez & Hz)).
    destruct (rank_goods a b c Hr) as (_ & _ & _ & Ha & Hb' & Hc). destruct (rank_goods a' b' c' Hr') as (_ & _ & _ & Ha' & Hb'' & Hc').
    destruct F as (vx & vy & vz & Vx & Vy & Vz). cbn [wrap px py pz] in Vx, Vy, Vz. rewrite Ex in Vx. rewrite Ey in Vy. rewrite Ez in Vz.
    apply (K a' b' c' vx vy vz eq_refl); [cbn; now rewrite Ex|cbn; now rewrite Ey|cbn; now rewrite Ez|].
    unfold outside in O. apply orb_false_iff in O. destruct O as (O & Oz). apply orb_false_iff in O. destruct O as (Ox & Oy).
    cbn [wrap px py pz rank_dom dom_of dX dY dZ] in Ox, Oy, Oz. rewrite Ex, Vx in Ox. rewrite Ey, Vy in Oy. rewrite Ez, Vz in Oz. apply outside_axis_false in Ox. apply outside_axis_false in Oy. apply outside_axis_false in Oz.
    cbn [rank_axis ra_plo ra_phi] in Ox, Oy, Oz.
    destruct (Rlt_dec x (g_left gx a)) as [G|G]; [left; eapply (entry gx Hgx a x); eauto; now left|]. destruct (Rle_dec (g_left gx (a + 1)) x) as [G1|G1]; [left; eapply (entry gx Hgx a x); eauto; now right|].
    destruct (Rlt_dec y (g_left gy b)) as [G2|G2]; [right; left; eapply (entry gy Hgy b y); eauto; now left|]. destruct (Rle_dec (g_left gy (b + 1)) y) as [G3|G3]; [right; left; eapply (entry gy Hgy b y); eauto; now right|].
    destruct (Rlt_dec z (g_left gz c)) as [G4|G4]; [right; right; eapply (entry gz Hgz c z); eauto; now left|]. destruct (Rle_dec (g_left gz (c + 1)) z) as [G5|G5]; [right; right; eapply (entry gz Hgz c z); eauto; now right|].
    rewrite (inside_rank gx gy gz a b c p x y z Ex Ey Ez) in Eo; [discriminate|lra|lra|lra].
  - left. destruct (place_default r p Hr Hf Eo) as (q' & Et & Hq' & I'). rewrite Et. exists q'. split; [reflexivity|]. split; [exact Hq'|]. split; [exact I'|]. split; [|reflexivity].
    destruct (particle_periodic gx gy gz Hgx Hgy Hgz r (gat (fst (W r)) q) p Hr Hn) as [(_ & E & _)|(d & _ & _ & _ & O)]; [exact E|congruence].
Qed.

Lemma periodic_placeable : placeable_all np DD BB first W A M.
Proof.
  intros r Hr. destruct (HC r Hr) as (C & L & _). split; [exact C|]. split; [|split].
  - destruct r as [[a b] c]. destruct L as (L & _). destruct (rank_goods a b c Hr) as (Gx & Gy & Gz & _). cbn [rank_first]. eapply first_tile_real; eassumption.
  - destruct r as [[a b] c]. now repeat split.
  - intros q p Hq Hp _. destruct (cell_facts gx gy gz Hgx Hgy Hgz M W A HC r q p Hr Hq Hp) as (Hf & _ & Hb). split; [|exact Hb].
    intros Ho. destruct (place_default r p Hr Hf Ho) as (q' & Et & Hq' & _). now exists q'.
Qed.
Lemma arrive_periodic r p : In r (processes np) -> In p (to_arrive np DD BB first W A r) -> exists q, default_target (DD r) (first r) p = Ret q /\ In q (all_tiles (DD r)) /\
   outside (DD r) p = false /\ inside (gat (fst (W r)) q) p = true /\ t_bound (gat (fst (W r)) q) = true.
Proof.
  intros Hr. unfold to_arrive. rewrite in_flat_map. intros (d & Hd & Hin). pose proof (neighbour_in np r (opposite d) (procs_size gx gy gz Hgx Hgy Hgz)) as Hs.
  pose proof (neighbour_back np r d (procs_size gx gy gz Hgx Hgy Hgz) Hr) as Hnb. set (s := neighbour np r (opposite d)) in *.
  unfold to_send in Hin. apply in_flat_map in Hin. destruct Hin as (q & Hq & Hin). apply in_flat_map in Hin. destruct Hin as (p0 & Hp & Hin).
  destruct (lot_periodic s q p0 Hs Hq Hp) as [(q' & E & _)|(e & q' & E & _ & X)]; rewrite E in Hin; [contradiction|].
  destruct (idx_eqb e d) eqn:Ed; [|contradiction]. apply idx_eqb_eq in Ed. subst e. destruct Hin as [<-|[]]. cbv zeta in X. rewrite Hnb in X. now exists q'.
Qed.
Lemma periodic_edge : arrivals_have_edge_tile np DD BB first W A.
Proof. intros r p Hr Hp. destruct (arrive_periodic r p Hr Hp) as (q & E & Hq & _ & _ & Hb). now exists q. Qed.
Lemma periodic_exist : to_exist np DD BB first W A = map wr (world np DD A).
Proof.
  unfold to_exist, world, all_particles, to_survive. rewrite map_flat_map. apply flat_map_ext_in. intros r Hr. rewrite map_flat_map. apply flat_map_ext_in. intros q Hq.
  apply PartBCReal.map_flat. intros p Hp. destruct (lot_periodic r q p Hr Hq Hp) as [(q' & E & _ & _ & Ew & _)|(d & q' & E & _)]; rewrite E; [now rewrite Ew|reflexivity].
Qed.
Theorem default_periodic_fact : exists T' A',
  (forall r, In r (processes np) -> particle_bcs_tiles_and_mpi at_once bs npid np DD BB W r = Ret (T' r, snd (W r) + zlen (to_arrive np DD BB first W A r)) /\
     contents M (DD r) (T' r) (A' r) /\ rank_tiles gx gy gz r (T' r) /\
     forall q p, In q (all_tiles (DD r)) -> In p (A' r q) -> outside (DD r) p = false /\ inside (gat (T' r) q) p = true) /\
  Permutation (world np DD A') (map wr (world np DD A)).
Proof.
  pose proof (default_rank M npid bs (sizes_ok FRX M (or_introl eq_refl) HM) Hpid Hbs np DD BB first W A (procs_size gx gy gz Hgx Hgy Hgz) periodic_placeable periodic_edge HR HI) as X.
  pose (Q := fun (r : idx) (F : grid (tile FRX) * (idx -> list (part FRX))) => particle_bcs_tiles_and_mpi at_once bs npid np DD BB W r = Ret (fst F, snd (W r) + zlen (to_arrive np DD BB first W A r)) /\
     contents M (DD r) (fst F) (snd F) /\ (forall q, In q (all_tiles (DD r)) -> same_extents (gat (fst (W r)) q) (gat (fst F) q)) /\
     (forall q, In q (all_tiles (DD r)) -> Permutation (snd F q) (to_tile (DD r) (BB r) (first r) (fst (W r)) (A r) q ++ filter (has_default_target DD first r q) (to_arrive np DD BB first W A r))) /\
     Permutation (all_particles (DD r) (snd F)) (flat_map (to_tile (DD r) (BB r) (first r) (fst (W r)) (A r)) (all_tiles (DD r)) ++ to_arrive np DD BB first W A r)).
  assert (Y : exists F, forall r, In r (processes np) -> Q r (F r)).
  { apply (choice_list (fst (W (0, 0, 0)), A (0, 0, 0)) Q). intros r Hr. destruct (X r Hr) as (T' & A' & H). now exists (T', A'). }
  destruct Y as (F & Y). exists (fun r => fst (F r)), (fun r => snd (F r)). split.
  - intros r Hr. destruct (Y r Hr) as (E & C & S & P & _). split; [exact E|]. split; [exact C|]. split.
    + destruct (HC r Hr) as (C0 & L & _). destruct r as [[a b] c]. destruct L as (L & Lb). pose proof C as (C1 & C2 & _). split.
      * intros i j k t Hin. subst t. rewrite C1, C2 in Hin. destruct (S (i, j, k) Hin) as (-> & -> & -> & _). apply L. destruct C0 as (-> & -> & _). exact Hin.
      * intros i j k Hin. destruct (S (i, j, k) Hin) as (_ & _ & _ & ->). now apply Lb.
    + intros q p Hq Hp. apply (Permutation_in _ (P q Hq)) in Hp. rewrite (inside_same (gat (fst (W r)) q)) by (exact (S q Hq)).
      apply in_app_iff in Hp. destruct Hp as [Hp|Hp].
      * unfold to_tile in Hp. apply in_flat_map in Hp. destruct Hp as (q0 & Hq0 & Hp). apply in_flat_map in Hp. destruct Hp as (p0 & Hp0 & Hp).
        destruct (lot_periodic r q0 p0 Hr Hq0 Hp0) as [(q' & E' & _ & I & _ & O)|(d & q' & E' & _)]; rewrite E' in Hp; [|contradiction].
        destruct (idx_eqb q' q) eqn:Eq; [|contradiction]. apply idx_eqb_eq in Eq. subst q'. destruct Hp as [<-|[]]. now split.
      * apply filter_In in Hp. destruct Hp as (Hp & Ht). destruct (arrive_periodic r p Hr Hp) as (q' & Et & _ & O & I & _). unfold has_default_target in Ht. rewrite Et in Ht. apply idx_eqb_eq in Ht. subst q'. now split.
  - rewrite <- periodic_exist. rewrite (exist_split M np DD BB first W A (procs_size gx gy gz Hgx Hgy Hgz) periodic_placeable). unfold world. apply flat_map_perm_in. intros r Hr. now destruct (Y r Hr) as (_ & _ & _ & _ & ?).
Qed.
End World.
