(** Proofs about PartDefault.v: all processes. *)
From Coq Require Import ZArith List Bool Permutation Lia.
From Verif Require Import Cxx CxxLemmas Num Fortran FortranLemmas FortranNum Grid GridLemmas Deposit Tiles Exchange TilesProofs TilesExchange SpecTiles TilesFacts TilesBoth TilesDomain PartBC SpecPartBC PartBCProofs PartBCTile PartBCGlobal PartDefault SpecPartDefault PartDefaultProofs PartDefaultRank.
Import ListNotations.
Local Open Scope Z_scope.
Local Opaque directions.

(** *** The particles that arrive *)
Section Take.
Context {N : FNum} (M : Z) (HM : sizes_exact N M) (D : dom N) (n0 : idx) (ps : list (part N)).
Notation tiles := (all_tiles D).
Definition goes_here (q : idx) (p : part N) : bool := match default_target D n0 p with Ret s => idx_eqb s q | _ => false end.
Hypothesis Hps : forall p, In p ps -> exists q, default_target D n0 p = Ret q.

Lemma take_list q l : (forall p, In p l -> In p ps) -> forall t old, holds M t old -> 2 * (zlen old + zlen l) + 1 <= M ->
  exists t', for_each (fun o t => match o with None => UB | Some p => do r <- default_target D n0 p; if idx_eqb r q then take_particle t p else Ret t end) (map Some l) t = Ret t' /\
    holds M t' (old ++ filter (goes_here q) l) /\ same_place t t'.
Proof.
  induction l as [|p l IH]; intros Hl t old Ht HR.
  - exists t. split; [reflexivity|]. cbn [filter]. rewrite app_nil_r. split; [exact Ht|now repeat split].
  - rewrite zlen_cons in HR. pose proof (zlen_nonneg l) as Hz. cbn [map for_each]. destruct (Hps p (Hl p (or_introl eq_refl))) as (r & E). rewrite E. cbn [bind filter].
    unfold goes_here at 1. rewrite E. destruct (idx_eqb r q).
    + unfold take_particle. pose proof Ht as (Ha & _). rewrite Ha. destruct (add_holds M HM t old p Ht) as (t1 & E1 & H1 & P1); [lia|]. rewrite E1. cbn [bind].
      destruct (IH (fun x Hx => Hl x (or_intror Hx)) t1 (old ++ [p]) H1) as (t2 & E2 & H2 & P2).
      { rewrite zlen_app. change (zlen [p]) with 1. lia. }
      exists t2. split; [exact E2|]. rewrite <- app_assoc in H2. split; [exact H2|]. destruct P1 as (a1 & a2 & a3 & a4), P2 as (b1 & b2 & b3 & b4). repeat split; congruence.
    + cbn [bind]. apply IH; [intros x Hx; apply Hl; now right|exact Ht|lia].
Qed.

Lemma take_tiles T0 : glo T0 = (1, 1, 1) -> ghi T0 = (ag_nt (dX D), ag_nt (dY D), ag_nt (dZ D)) -> forall qs T A, NoDup qs -> (forall q, In q qs -> In q tiles) -> rep M D T0 T A ->
  (forall q, In q qs -> 2 * (zlen (A q) + zlen ps) + 1 <= M) ->
  exists T' A', for_each (take_tile D n0 (map Some ps)) qs T = Ret T' /\ rep M D T0 T' A' /\
    (forall q, In q qs -> A' q = A q ++ (if t_bound (gat T0 q) then filter (goes_here q) ps else [])) /\ forall q, ~ In q qs -> A' q = A q.
Proof.
  intros T0lo T0hi. induction qs as [|q qs IH]; intros T A ND Hqs HT HR.
  - exists T, A. split; [reflexivity|]. split; [exact HT|]. split; [intros q []|reflexivity].
  - inversion ND as [|? ? Hn ND']; subst. assert (Hq : In q tiles) by (apply Hqs; now left). cbn [for_each].
    pose proof HT as (_ & _ & HT'). destruct (HT' q Hq) as (Hh & Hpl). assert (Eb : t_bound (gat T q) = t_bound (gat T0 q)) by (destruct Hpl as (_ & _ & _ & X); congruence).
    assert (X : exists T1, take_tile D n0 (map Some ps) q T = Ret T1 /\ rep M D T0 T1 (upd A q (A q ++ (if t_bound (gat T0 q) then filter (goes_here q) ps else [])))).
    { unfold take_tile. rewrite (rep_get M D T0 T0lo T0hi T A q HT Hq). cbn [bind]. rewrite Eb. destruct (t_bound (gat T0 q)); cbn [negb].
      - destruct (take_list q ps (fun p H => H) (gat T q) (A q) Hh (HR q (or_introl eq_refl))) as (t' & E & H1 & P1). rewrite E. cbn [bind].
        destruct (rep_set M D T0 T0lo T0hi T A q t' _ HT Hq H1 P1) as (T1 & E1 & HT1 & _). exists T1. now split.
      - exists T. split; [reflexivity|]. rewrite app_nil_r. split; [apply HT|]. split; [apply HT|]. intros s Hs. destruct (idx_dec q s) as [<-|Dn]; [rewrite upd_same; now apply HT'|rewrite upd_other by exact Dn; now apply HT']. }
    destruct X as (T1 & -> & HT1). cbn [bind].
    set (A1 := upd A q (A q ++ (if t_bound (gat T0 q) then filter (goes_here q) ps else []))) in *.
    destruct (IH T1 A1 ND') as (T2 & A2 & E2 & HT2 & G1 & G2).
    { intros s Hs. apply Hqs. now right. }
    { exact HT1. }
    { intros s Hs. unfold A1. rewrite upd_other by congruence. apply HR. now right. }
    exists T2, A2. split; [exact E2|]. split; [exact HT2|]. split.
    + intros s [<-|Hs]; [rewrite G2 by exact Hn; apply upd_same|]. rewrite G1 by exact Hs. unfold A1. now rewrite upd_other by congruence.
    + intros s Hs. rewrite G2 by (intros X; apply Hs; now right). unfold A1. rewrite upd_other; [reflexivity|]. intros ->. apply Hs. now left.
Qed.
End Take.

(** *** One process: what stays and what is sent *)
Section Split.
Context {N : FNum} (M : Z) (D : dom N) (B : bnd N) (n0 : idx) (T : grid (tile N)) (A : idx -> list (part N)).
Hypothesis HA : agree D B.
Hypothesis HP : placeable D B n0 T A.
Notation tiles := (all_tiles D).
Lemma once {Y} (x : idx) (y : Y) l : NoDup l -> In x l -> flat_map (fun d => if idx_eqb x d then [y] else []) l = [y].
Proof.
  intros ND Hx. rewrite (only_here _ x l ND Hx); [now rewrite idx_eqb_refl|]. intros q _ Hq. rewrite (proj2 (idx_eqb_neq x q)); [reflexivity|congruence].
Qed.
Lemma lot_real q p : In q tiles -> In p (A q) -> match lot_of D B n0 T q p with InTile r _ => In r tiles | Sent d _ => In d directions | Removed => True end.
Proof.
  intros Hq Hp. unfold lot_of. destruct (inside (gat T q) p) eqn:Ei; [exact Hq|]. destruct (HP q p Hq Hp Ei) as (H1 & H2). destruct (outside D p) eqn:Eo.
  - destruct (default_fate (gat T q) B p) eqn:Ef; [exact I|exact Hq|]. exact (fate_direction D B HA _ _ _ _ Eo Ef).
  - destruct (H1 eq_refl) as (r & -> & Hr). exact Hr.
Qed.
Lemma survive_split_default : Permutation (to_survive D B n0 T A) (flat_map (to_tile D B n0 T A) tiles ++ flat_map (to_send D B n0 T A) directions).
Proof.
  unfold to_survive, to_tile, to_send.
  rewrite (flat_map_swap (fun r q => flat_map (fun p => match lot_of D B n0 T q p with InTile s p' => if idx_eqb s r then [p'] else [] | _ => [] end) (A q))).
  rewrite (flat_map_swap (fun d q => flat_map (fun p => match lot_of D B n0 T q p with Sent e p' => if idx_eqb e d then [p'] else [] | _ => [] end) (A q))).
  rewrite <- flat_map_two. apply flat_map_perm_in. intros q Hq.
  rewrite (flat_map_swap (fun r p => match lot_of D B n0 T q p with InTile s p' => if idx_eqb s r then [p'] else [] | _ => [] end)).
  rewrite (flat_map_swap (fun d p => match lot_of D B n0 T q p with Sent e p' => if idx_eqb e d then [p'] else [] | _ => [] end)).
  rewrite <- flat_map_two. apply flat_map_perm_in. intros p Hp. pose proof (lot_real q p Hq Hp) as X. destruct (lot_of D B n0 T q p).
  - now rewrite !flat_nil.
  - rewrite flat_nil, app_nil_r, once; [reflexivity|apply NoDup_box|exact X].
  - rewrite flat_nil, once; [reflexivity|apply NoDup_directions|exact X].
Qed.
Lemma survive_le_default : zlen (to_survive D B n0 T A) <= zlen (all_particles D A).
Proof.
  unfold to_survive, all_particles. apply flat_map_le. intros q _. induction (A q) as [|p l IH]; [reflexivity|]. cbn [flat_map]. rewrite zlen_app, zlen_cons.
  destruct (lot_of D B n0 T q p); (change (zlen (@nil (part N))) with 0 || (change (zlen [p0]) with 1)); lia.
Qed.
End Split.

(** *** All processes *)
Section Global.
Context {N : FNum} (M npid bs : Z) (HM : sizes_exact N M) (Hnpid : 0 <= npid) (Hbs : 1 <= bs).
Variables (np : idx) (D : idx -> dom N) (B : idx -> bnd N) (n0 : idx -> idx) (W : idx -> grid (tile N) * Z) (A : idx -> idx -> list (part N)).
Hypothesis Hnp : grid_size np.
Hypothesis HC : placeable_all np D B n0 W A M.
Hypothesis HT : arrivals_have_edge_tile np D B n0 W A.
Hypothesis HR : 2 * zlen (world np D A) + 1 <= M.
Hypothesis HI : zlen (world np D A) * (npid + 7) + 1 < 2 ^ 31.
Notation P := (processes np).
Notation send s d := (to_send (D s) (B s) (n0 s) (fst (W s)) (A s) d).
Notation tile_list r := (to_tile (D r) (B r) (n0 r) (fst (W r)) (A r)).
Notation arrive := (to_arrive np D B n0 W A).

Lemma exist_split : Permutation (to_exist np D B n0 W A) (flat_map (fun r => flat_map (tile_list r) (all_tiles (D r)) ++ arrive r) P).
Proof.
  unfold to_exist. transitivity (flat_map (fun r => flat_map (tile_list r) (all_tiles (D r)) ++ flat_map (fun d => send r d) directions) P).
  - apply flat_map_perm_in. intros r Hr. destruct (HC r Hr) as (_ & _ & HA & HP). now apply survive_split_default.
  - rewrite !flat_map_two. apply Permutation_app_head. unfold to_arrive.
    rewrite (flat_map_swap (fun r d => send r d)), (flat_map_swap (fun r d => send (neighbour np r (opposite d)) d)).
    apply flat_map_perm_in. intros d _. rewrite <- (flat_map_perm (fun s => send s d) _ _ (sources np d Hnp)).
    rewrite flat_map_concat_map, flat_map_concat_map, map_map. reflexivity.
Qed.
Lemma exist_le : zlen (to_exist np D B n0 W A) <= zlen (world np D A).
Proof. unfold to_exist, world. apply flat_map_le. intros r _. apply survive_le_default. Qed.
Lemma default_room r : In r P -> zlen (flat_map (tile_list r) (all_tiles (D r))) + zlen (arrive r) <= zlen (world np D A).
Proof.
  intros Hr. rewrite <- zlen_app. etransitivity; [apply (flat_map_piece (fun r => flat_map (tile_list r) (all_tiles (D r)) ++ arrive r)); exact Hr|].
  rewrite <- (zlen_perm _ _ exist_split). apply exist_le.
Qed.
Lemma local_rank_default r : In r P -> exists T' A' (ms : idx -> list (part N)), default_local bs (D r) (B r) (fst (W r)) = Ret (T', map (fun d => map Some (ms d)) directions) /\ contents M (D r) T' A' /\
  (forall q, In q (all_tiles (D r)) -> same_extents (gat (fst (W r)) q) (gat T' q)) /\
  (forall q, In q (all_tiles (D r)) -> Permutation (A' q) (tile_list r q)) /\ forall d, In d directions -> Permutation (ms d) (send r d).
Proof.
  intros Hr. destruct (HC r Hr) as (X1 & X2 & X3 & X4). apply (local_ok M HM); try assumption.
  pose proof (flat_map_piece (fun r => all_particles (D r) (A r)) P r Hr) as X. unfold world in HR. cbv beta in X. lia.
Qed.

Lemma target_perm r ps : In r P -> (forall p, In p ps -> exists q, default_target (D r) (n0 r) p = Ret q /\ In q (all_tiles (D r))) ->
  Permutation (flat_map (fun q => filter (has_default_target D n0 r q) ps) (all_tiles (D r))) ps.
Proof.
  intros Hr H. transitivity (flat_map (fun q => flat_map (fun p => if has_default_target D n0 r q p then [p] else []) ps) (all_tiles (D r))).
  { apply flat_map_perm_in. intros q _. clear. induction ps as [|p ps IH]; [reflexivity|]. cbn [filter flat_map]. destruct (has_default_target D n0 r q p); cbn [app]; [now constructor|exact IH]. }
  rewrite (flat_map_swap (fun q p => if has_default_target D n0 r q p then [p] else [])).
  transitivity (flat_map (fun p => [p]) ps); [|clear; induction ps as [|p ps IH]; [reflexivity|cbn; now constructor]].
  apply flat_map_perm_in. intros p Hp. destruct (H p Hp) as (q & E & Hq). unfold has_default_target. rewrite E. rewrite once; [reflexivity|apply NoDup_box|exact Hq].
Qed.

Theorem default_rank r : In r P -> exists T' A', particle_bcs_tiles_and_mpi at_once bs npid np D B W r = Ret (T', snd (W r) + zlen (arrive r)) /\
  contents M (D r) T' A' /\ (forall q, In q (all_tiles (D r)) -> same_extents (gat (fst (W r)) q) (gat T' q)) /\
  (forall q, In q (all_tiles (D r)) -> Permutation (A' q) (tile_list r q ++ filter (has_default_target D n0 r q) (arrive r))) /\
  Permutation (all_particles (D r) A') (flat_map (tile_list r) (all_tiles (D r)) ++ arrive r).
Proof.
  intros Hr. unfold particle_bcs_tiles_and_mpi. destruct (local_rank_default r Hr) as (T1 & A1 & ms1 & E1 & HC1 & S1 & P1 & _). rewrite E1. cbn [bind fst].
  assert (X : forall d, In d directions -> exists m, let s := neighbour np r (opposite d) in let i := index_of d directions in
     (do l <- default_local bs (D s) (B s) (fst (W s)); do m <- get1 (snd l) (Z.of_nat i + 1);
      default_receive npid (count_read (map (fun m => zlen m) (snd l)) i (at_once s i)) m) = Ret (map Some m) /\ Permutation m (send s d)).
  { intros d Hd. cbv zeta. pose proof (neighbour_in np r (opposite d) Hnp) as Hs. set (s := neighbour np r (opposite d)) in *.
    destruct (local_rank_default s Hs) as (Ts & As & ms & Es & _ & _ & _ & Ps). rewrite Es. cbn [bind snd]. exists (ms d). split; [|now apply Ps].
    pose proof (index_nth directions d Hd) as Hi. assert (Hlt : (index_of d directions < length directions)%nat) by (apply nth_error_Some; congruence).
    unfold get1. replace (Z.of_nat (index_of d directions) + 1 - 1) with (Z.of_nat (index_of d directions)) by lia. 
    rewrite (zget_ok _ _ (map Some (ms d))); [|lia|rewrite Nat2Z.id; apply (map_nth_error (fun d => map Some (ms d)) _ _ Hi)]. cbn [bind].
    unfold default_receive. rewrite zlen_map. rewrite (zlen_perm _ _ (Ps d Hd)).
    assert (Hle : zlen (send s d) <= zlen (world np D A)).
    { etransitivity; [|apply exist_le]. unfold to_exist. etransitivity; [|apply (flat_map_piece (fun r => to_survive (D r) (B r) (n0 r) (fst (W r)) (A r)) P s Hs)]. cbv beta.
      destruct (HC s Hs) as (_ & _ & HA & HP). rewrite (zlen_perm _ _ (survive_split_default (D s) (B s) (n0 s) (fst (W s)) (A s) HA HP)), zlen_app.
      pose proof (zlen_nonneg (flat_map (tile_list s) (all_tiles (D s)))). pose proof (flat_map_piece (to_send (D s) (B s) (n0 s) (fst (W s)) (A s)) directions d Hd). lia. }
    pose proof (zlen_nonneg (send s d)). unfold int32. replace (_ && _)%bool with true by (symmetry; apply andb_true_intro; split; [apply Z.leb_le|apply Z.ltb_lt]; nia). cbn [bind].
    assert (Ec : count_read (map (fun m => zlen m) (map (fun d0 => map Some (ms d0)) directions)) (index_of d directions) (at_once s (index_of d directions)) = zlen (send s d)).
    { unfold count_read, at_once. rewrite map_map, map_length, Nat.add_0_r, Nat.min_l by lia. apply nth_error_nth.
      rewrite (map_nth_error (fun d => zlen (map Some (ms d))) _ _ Hi). f_equal. now rewrite zlen_map, (zlen_perm _ _ (Ps d Hd)). }
    rewrite Ec, Z.eqb_refl. reflexivity. }
  assert (Y : forall l, (forall d, In d l -> In d directions) -> exists ms, mapM (fun d => let s := neighbour np r (opposite d) in let i := index_of d directions in
     do l <- default_local bs (D s) (B s) (fst (W s)); do m <- get1 (snd l) (Z.of_nat i + 1);
      default_receive npid (count_read (map (fun m => zlen m) (snd l)) i (at_once s i)) m) l = Ret (map (map Some) ms) /\
     Permutation (concat ms) (flat_map (fun d => send (neighbour np r (opposite d)) d) l)).
  { induction l as [|d l IH]; intros Hl.
    - exists []. split; reflexivity.
    - destruct (X d (Hl d (or_introl eq_refl))) as (m & Em & Pm). destruct (IH (fun e He => Hl e (or_intror He))) as (ms & Ems & Pms). exists (m :: ms).
      cbn [mapM]. cbv zeta in Em, Ems |- *. rewrite Em. cbn [bind]. rewrite Ems. cbn [bind map concat flat_map]. split; [reflexivity|]. now rewrite Pm, Pms. }
  specialize (Y directions (fun d H => H)). change (flat_map (fun d => send (neighbour np r (opposite d)) d) directions) with (arrive r) in Y.
  destruct Y as (ms & Ems & Pms). cbv zeta in Ems. rewrite Ems. cbn [bind]. rewrite <- concat_map.
  destruct (HC r Hr) as (HC0 & Hf & HA & HP). pose proof HC1 as (C1 & C2 & _).
  assert (Hb1 : forall q, In q (all_tiles (D r)) -> t_bound (gat T1 q) = t_bound (gat (fst (W r)) q)).
  { intros q Hq. destruct (S1 q Hq) as (_ & _ & _ & Xb). congruence. }
  assert (L1 : Permutation (all_particles (D r) A1) (flat_map (tile_list r) (all_tiles (D r)))) by (apply flat_map_perm_in; exact P1).
  pose proof (default_room r Hr) as Hroom. rewrite <- (zlen_perm _ _ L1), <- (zlen_perm _ _ Pms) in Hroom.
  assert (Q : exists T' A', default_part4 (D r) (map Some (concat ms)) (T1, snd (W r)) = Ret (T', snd (W r) + zlen (arrive r)) /\ contents M (D r) T' A' /\
     (forall q, In q (all_tiles (D r)) -> same_extents (gat T1 q) (gat T' q)) /\
     forall q, In q (all_tiles (D r)) -> Permutation (A' q) (A1 q ++ filter (has_default_target D n0 r q) (arrive r))).
  { unfold default_part4. rewrite zlen_map, <- (zlen_perm _ _ Pms). destruct (Z.ltb_spec 0 (zlen (concat ms))) as [Hz|Hz].
    - cbn [fst snd]. rewrite (first_same M D r (fst (W r)) T1 A1 (A r) (n0 r) HC0 HC1 S1 Hf). cbn [bind].
      assert (Hin : forall p, In p (concat ms) -> In p (arrive r)) by (intros p; apply Permutation_in; exact Pms).
      destruct (take_tiles M HM (D r) (n0 r) (concat ms)) with (T0 := T1) (qs := all_tiles (D r)) (T := T1) (A := A1) as (T' & A' & E & HT' & G & _).
      + intros p Hp. destruct (HT r p Hr (Hin p Hp)) as (q & Eq & _). now exists q.
      + exact C1.
      + exact C2.
      + apply NoDup_box.
      + auto.
      + exact (contents_rep M (D r) T1 A1 HC1).
      + intros q Hq. pose proof (flat_map_piece A1 (all_tiles (D r)) q Hq) as Z1. unfold all_particles in Hroom. lia.
      + rewrite E. cbn [bind]. exists T', A'. split; [reflexivity|]. destruct (rep_contents M (D r) T1 A1 HC1 T' A' HT') as (HC' & S'). split; [exact HC'|]. split; [exact S'|].
        intros q Hq. rewrite (G q Hq). apply Permutation_app_head. rewrite Hb1 by exact Hq. destruct (t_bound (gat (fst (W r)) q)) eqn:Eb.
        * apply perm_filter. exact Pms.
        * assert (Z1 : forall p, In p (arrive r) -> has_default_target D n0 r q p = false).
          { intros p Hp. destruct (HT r p Hr Hp) as (s & Es & _ & Hb). unfold has_default_target. rewrite Es. apply idx_eqb_neq. congruence. }
          clear - Z1. induction (arrive r) as [|p l IH]; [reflexivity|]. cbn [filter]. rewrite (Z1 p) by now left. apply IH. intros x Hx. apply Z1. now right.
    - assert (E0 : concat ms = []) by (destruct (concat ms); [reflexivity|unfold zlen in Hz; cbn in Hz; lia]). exists T1, A1. rewrite E0 in *. change (zlen []) with 0. cbn [fst snd].
      split; [do 2 f_equal; lia|]. split; [exact HC1|]. split; [intros q Hq; now repeat split|]. intros q Hq. apply Permutation_nil in Pms. rewrite Pms. cbn [filter]. now rewrite app_nil_r. }
  destruct Q as (T' & A' & E & HC' & S' & F'). exists T', A'. split; [exact E|]. split; [exact HC'|]. split; [|split].
  - intros q Hq. destruct (S1 q Hq) as (a1 & a2 & a3 & a4), (S' q Hq) as (b1 & b2 & b3 & b4). repeat split; congruence.
  - intros q Hq. rewrite F' by exact Hq. apply Permutation_app_tail. now apply P1.
  - rewrite <- L1. unfold all_particles. rewrite (flat_map_perm_in A' (fun q => A1 q ++ filter (has_default_target D n0 r q) (arrive r)) _ F'), flat_map_two. apply Permutation_app_head.
    apply target_perm; [exact Hr|]. intros p Hp. destruct (HT r p Hr Hp) as (q & Eq & Hq & _). now exists q.
Qed.
End Global.
