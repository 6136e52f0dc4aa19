(** One tile, and one process before the exchange of the messages. *)
From Coq Require Import ZArith List Bool Permutation Lia.
From Verif Require Import Cxx CxxLemmas Num Fortran FortranLemmas Grid GridLemmas Deposit Tiles Exchange TilesProofs TilesExchange SpecTiles TilesFacts TilesDomain PartBC SpecPartBC PartBCProofs.
Import ListNotations.
Local Open Scope Z_scope.

Section Tile.
Context {N : FNum} (npid : Z).
Hypothesis Hpid : 0 <= npid.

Lemma flip_pid a (p : part N) : ppid (flip a p) = ppid p. Proof. now destruct a. Qed.
Lemma set_pos_pid a v (p : part N) : ppid (set_pos a v p) = ppid p. Proof. now destruct a. Qed.
Lemma bc_axis_pid t (B : bnd N) a p : match bc_axis t B a p with Goes p' b => ppid p' = ppid p /\ -1 <= b <= 1 | Stays p' => ppid p' = ppid p | Gone => True end.
Proof.
  unfold bc_axis. set (b := b_axis B a). set (x := pos a p).
  assert (G : forall lower : moved N, match lower with Goes p' b => ppid p' = ppid p /\ -1 <= b <= 1 | Stays p' => ppid p' = ppid p | Gone => True end ->
    match (match lower with
  | Goes p0 _ => if (b_phi b <=? x)%N then if b_athi b then
          match b_khi b with 1%Z => Gone | 2%Z => Goes (flip a (set_pos a (x - b_d b)%N p0)) 0
          | 3%Z => Stays (reinject t B (set_pos a (n_lit 2 0 * b_ghi b - pos a p0)%N p0))
          | _ => Goes (set_pos a (x - b_len b)%N p0) 1 end
        else Goes p0 1 else lower
  | _ => lower end) with Goes p' b => ppid p' = ppid p /\ -1 <= b <= 1 | Stays p' => ppid p' = ppid p | Gone => True end).
  { intros [p0 b0|p0|]; [|auto|auto]. intros (E & Hb). destruct (_ <=? _)%N; [|now split]. destruct (b_athi b); [|split; [exact E|lia]].
    destruct (b_khi b) as [|[[q|q|]|[q|q|]|]|q];
    cbn [ppid reinject]; rewrite ?flip_pid, ?set_pos_pid; try (split; [exact E|lia]); auto. }
  apply G. destruct (_ <? _)%N; [|split; [reflexivity|lia]]. destruct (b_atlo b); [|split; [reflexivity|lia]].
  destruct (b_klo b) as [|[[q|q|]|[q|q|]|]|q];
    cbn [ppid reinject]; rewrite ?flip_pid, ?set_pos_pid; try (split; [reflexivity|lia]); auto.
Qed.
Lemma in_directions d : In d directions <-> in_box (-1, -1, -1) (1, 1, 1) d = true /\ d <> (0, 0, 0).
Proof.
  unfold directions. rewrite filter_In, in_box_box. rewrite negb_true_iff, idx_eqb_neq. reflexivity.
Qed.
Lemma bc_particle_pid t (B : bnd N) p : match bc_particle t B p with Drop => True | Keep p' => ppid p' = ppid p | Leave p' d => ppid p' = ppid p /\ In d directions end.
Proof.
  unfold bc_particle. pose proof (bc_axis_pid t B DirX p) as H1. destruct (bc_axis t B DirX p) as [p1 x|p1|]; [|exact H1|exact I].
  pose proof (bc_axis_pid t B DirY p1) as H2. destruct (bc_axis t B DirY p1) as [p2 y|p2|]; [|destruct H1; congruence|exact I].
  pose proof (bc_axis_pid t B DirZ p2) as H3. destruct (bc_axis t B DirZ p2) as [p3 z|p3|]; [|destruct H1, H2; congruence|exact I].
  destruct H1 as (E1 & B1), H2 as (E2 & B2), H3 as (E3 & B3). destruct (0 <? _) eqn:E; [|congruence]. split; [congruence|].
  apply in_directions. split; [apply in_box_iff; lia|]. apply Z.ltb_lt in E. intros [= -> -> ->]. cbn in E. lia.
Qed.

Variables (t : tile N) (B : bnd N).
Definition newp (p : part N) := match bc_particle t B p with Drop => p | Keep p' => p' | Leave p' _ => p' end.
Definition flag (p : part N) := match bc_particle t B p with Keep _ => true | _ => false end.
Definition stay (p : part N) := match bc_particle t B p with Keep p' => [p'] | _ => [] end.
Definition lv (d : idx) (p : part N) := match bc_particle t B p with Leave p' d' => if idx_eqb d' d then [p'] else [] | _ => [] end.

Lemma kept_stay ps : kept (map flag ps) (map newp ps) = flat_map stay ps.
Proof.
  unfold kept. induction ps as [|p ps IH]; [reflexivity|]. cbn [map combine filter fst flat_map]. unfold flag at 1, newp at 1, stay at 1.
  destruct (bc_particle t B p); cbn [map snd app]; now rewrite IH.
Qed.

Definition bufs_ok (bufs : grid (sbuf N)) (L : idx -> list (part N)) : Prop :=
  glo bufs = (-1, -1, -1) /\ ghi bufs = (1, 1, 1) /\ forall d, In d directions -> buf_ok npid (gat bufs d) (L d).

Lemma tile_loop todo : forall done_ junk bufs L, Forall (good_pid npid) todo -> bufs_ok bufs L ->
  (forall d, In d directions -> (zlen (L d) + zlen todo) * (npid + 7) + 1 < 2 ^ 31) ->
  exists bufs', do_loop (length todo) (zlen done_ + 1) (tile_particle npid t B)
      (map Some (map newp done_ ++ todo) ++ junk, map flag done_ ++ repeat true (length todo), bufs) =
    Ret (map Some (map newp (done_ ++ todo)) ++ junk, map flag (done_ ++ todo), bufs') /\ bufs_ok bufs' (fun d => L d ++ flat_map (lv d) todo).
Proof.
  induction todo as [|p todo IH]; intros dn junk bufs L Hg HB Hlt.
  - exists bufs. cbn [length repeat do_loop]. rewrite !app_nil_r. split; [reflexivity|]. destruct HB as (H1 & H2 & H3). split; [exact H1|]. split; [exact H2|].
    intros d Hd. cbn [flat_map]. rewrite app_nil_r. now apply H3.
  - inversion Hg as [|? ? Hp Hg']; subst. cbn [length repeat do_loop].
    assert (Step : exists bufs1, tile_particle npid t B (zlen dn + 1) (map Some (map newp dn ++ p :: todo) ++ junk, map flag dn ++ true :: repeat true (length todo), bufs) =
      Ret (map Some (map newp (dn ++ [p]) ++ todo) ++ junk, map flag (dn ++ [p]) ++ repeat true (length todo), bufs1) /\ bufs_ok bufs1 (fun d => L d ++ lv d p)).
    { unfold tile_particle. rewrite !map_app. cbn [map]. rewrite <- !app_assoc. cbn [app].
      rewrite (get1_here _ (Some p)) by now rewrite !zlen_map. cbn [bind].
      assert (HL : forall d, In d directions -> lv d p = [] -> buf_ok npid (gat bufs d) (L d ++ lv d p)).
      { intros d Hd ->. rewrite app_nil_r. now apply HB. }
      pose proof (bc_particle_pid t B p) as Hpp.
      destruct (bc_particle t B p) as [|p'|p' d] eqn:E.
      - assert (Xn : newp p = p) by (unfold newp; now rewrite E). assert (Xf : flag p = false) by (unfold flag; now rewrite E).
        rewrite set1_here by now rewrite zlen_map. cbn [bind]. exists bufs. split; [rewrite Xn, Xf; reflexivity|].
        destruct HB as (H1 & H2 & H3). split; [exact H1|]. split; [exact H2|]. intros d Hd. apply HL; [exact Hd|]. unfold lv. now rewrite E.
      - assert (Xn : newp p = p') by (unfold newp; now rewrite E). assert (Xf : flag p = true) by (unfold flag; now rewrite E).
        rewrite set1_here by now rewrite !zlen_map. cbn [bind]. exists bufs. split; [rewrite Xn, Xf; reflexivity|].
        destruct HB as (H1 & H2 & H3). split; [exact H1|]. split; [exact H2|]. intros d Hd. apply HL; [exact Hd|]. unfold lv. now rewrite E.
      - assert (Xn : newp p = p') by (unfold newp; now rewrite E). assert (Xf : flag p = false) by (unfold flag; now rewrite E).
        destruct Hpp as (Epid & Hd).
        rewrite set1_here by now rewrite !zlen_map. cbn [bind]. rewrite set1_here by now rewrite zlen_map. cbn [bind].
        destruct HB as (H1 & H2 & H3). pose proof (proj1 (in_directions d) Hd) as (Hbox & _). unfold get3. rewrite H1, H2, Hbox. cbn [bind].
        destruct (put_ok npid Hpid p' (gat bufs d) (L d) (H3 d Hd)) as (b' & -> & Hb').
        + unfold good_pid in *. congruence.
        + specialize (Hlt d Hd). rewrite zlen_cons in Hlt. pose proof (zlen_nonneg todo). nia.
        + cbn [bind]. unfold set3. rewrite H1, H2, Hbox. cbn [bind]. eexists. split; [rewrite Xn, Xf; reflexivity|].
          cbn [glo ghi gat]. split; [reflexivity|]. split; [reflexivity|]. intros e He. cbn [gat]. destruct (idx_eqb d e) eqn:Ee.
          * apply idx_eqb_eq in Ee. subst e. rewrite ?idx_eqb_refl. unfold lv. rewrite E, idx_eqb_refl. exact Hb'.
          * unfold lv. rewrite E, Ee, app_nil_r. try rewrite Ee. destruct (idx_eqb e d) eqn:Ee'; [apply idx_eqb_eq in Ee'; subst e; rewrite idx_eqb_refl in Ee; discriminate|]. now apply H3. }
    destruct Step as (bufs1 & -> & HB1). cbn [bind].
    destruct (IH (dn ++ [p]) junk bufs1 _ Hg' HB1) as (bufs' & E & HB').
    + intros d Hd. specialize (Hlt d Hd). rewrite zlen_cons in Hlt. rewrite zlen_app.
      assert (zlen (lv d p) <= 1). { unfold lv. destruct (bc_particle t B p) as [| |? d']; try (unfold zlen; cbn; lia). destruct (idx_eqb d' d); unfold zlen; cbn; lia. }
      nia.
    + exists bufs'. split.
      * replace (zlen dn + 1 + 1) with (zlen (dn ++ [p]) + 1) by (rewrite zlen_app; change (zlen [p]) with 1; lia).
        rewrite E. rewrite <- !app_assoc. reflexivity.
      * destruct HB' as (H1 & H2 & H3). split; [exact H1|]. split; [exact H2|]. intros d Hd. cbn [flat_map]. rewrite app_assoc. now apply H3.
Qed.
End Tile.

Section Process.
Context {N : FNum} (npid M : Z) (HM : sizes_exact N M).
Hypothesis Hpid : 0 <= npid.
Variables (D : dom N) (B : bnd N) (T0 : grid (tile N)) (A0 : idx -> list (part N)).

Lemma bc_same t t' p : same_extents t t' -> bc_particle t' B p = @bc_particle N t B p.
Proof.
  intros (E1 & E2 & E3 & _). unfold bc_particle, bc_axis, reinject. now rewrite E1, E2, E3.
Qed.

Lemma tile_ok q T A bufs L npart : contents M D T A -> In q (all_tiles D) -> Forall (good_pid npid) (A q) -> bufs_ok npid bufs L ->
  (forall d, In d directions -> (zlen (L d) + zlen (A q)) * (npid + 7) + 1 < 2 ^ 31) ->
  exists T' l bufs', bc_tile npid B q (T, npart, bufs) = Ret (T', npart - (zlen (A q) - zlen l), bufs') /\ contents M D T' (upd A q l) /\
    Permutation l (staying B T A q) /\ (forall s, In s (all_tiles D) -> same_extents (gat T s) (gat T' s)) /\ (forall s, s <> q -> gat T' s = gat T s) /\
    bufs_ok npid bufs' (fun d => L d ++ leaving B T A d q).
Proof.
  intros HC Hq Hg HB Hlt. pose proof HC as (E1 & E2 & H). destruct (H q Hq) as (Hs & Hm).
  pose proof (contents_rep M D T A HC) as Hrep.
  unfold bc_tile. rewrite (rep_get M D T E1 E2 T A q Hrep Hq). cbn [bind]. unfold staying, leaving. destruct (t_bound (gat T q)) eqn:Eb; cbn [negb].
  - pose proof Hs as (Hal & En & Ex & junk & Ea).
    destruct (tile_loop npid Hpid (gat T q) B (A q) [] junk bufs L Hg HB Hlt) as (bufs' & El & HB').
    cbn [map app] in El. unfold do_range. replace (Z.to_nat (t_np (gat T q) - 1 + 1)) with (length (A q)) by (rewrite En; unfold zlen; lia).
    replace (Z.to_nat (t_np (gat T q))) with (length (A q)) by (rewrite En; unfold zlen; lia).
    rewrite Ea. change 1 with (zlen (@nil (part N)) + 1). rewrite El. cbn [bind].
    set (t1 := set_arrays _ _ _ _ _).
    destruct (mask_fact M HM t1 (map (newp (gat T q) B) (A q)) (map (flag (gat T q) B) (A q)) npart) as (t' & np' & l & Em & Hs' & Hm' & Hp & Hl & Hn).
    + unfold t1, stores. cbn [t_alloc t_np t_max t_arr set_arrays]. rewrite zlen_map, <- En. split; [reflexivity|]. split; [reflexivity|]. split; [|now exists junk].
      rewrite Ex, Ea, !zlen_app, !zlen_map. reflexivity.
    + exact Hm.
    + now rewrite !zlen_map.
    + rewrite Em. cbn [bind fst snd].
      destruct (rep_set M D T E1 E2 T A q t' l Hrep Hq) as (T' & Es & Hrep' & Eg & Eo); [now apply stores_holds|exact Hp|].
      rewrite Es. cbn [bind]. exists T', l, bufs'. rewrite zlen_map in Hn. split; [now rewrite Hn|].
      destruct (rep_contents M D T A HC T' _ Hrep') as (C' & S'). split; [exact C'|]. split; [rewrite Hl, kept_stay; reflexivity|]. split; [exact S'|]. split; [exact Eo|exact HB'].
  - exists T, (A q), bufs. split; [f_equal; f_equal; f_equal; lia|]. split.
    + split; [exact E1|]. split; [exact E2|]. intros s Hs0. unfold upd. destruct (idx_eqb q s) eqn:E; [apply idx_eqb_eq in E; subst s|]; now apply H.
    + split; [reflexivity|]. split; [now repeat split|]. split; [reflexivity|]. destruct HB as (H1 & H2 & H3). split; [exact H1|]. split; [exact H2|].
      intros d Hd. rewrite app_nil_r. now apply H3.
Qed.

Lemma tiles_ok tl : NoDup tl -> (forall q, In q tl -> In q (all_tiles D)) -> forall T A bufs L npart, contents M D T A ->
  (forall q, In q tl -> Forall (good_pid npid) (A q)) -> bufs_ok npid bufs L ->
  (forall d, In d directions -> (zlen (L d) + zlen (flat_map A tl)) * (npid + 7) + 1 < 2 ^ 31) ->
  exists T' A' bufs', for_each (bc_tile npid B) tl (T, npart, bufs) = Ret (T', npart - (zlen (flat_map A tl) - zlen (flat_map A' tl)), bufs') /\
    contents M D T' A' /\ (forall s, In s (all_tiles D) -> same_extents (gat T s) (gat T' s)) /\
    (forall s, In s tl -> Permutation (A' s) (staying B T A s)) /\ (forall s, ~ In s tl -> A' s = A s) /\
    bufs_ok npid bufs' (fun d => L d ++ flat_map (leaving B T A d) tl).
Proof.
  induction tl as [|q tl IH]; intros Hnd Hin T A bufs L npart HC Hg HB Hlt.
  - exists T, A, bufs. cbn [for_each flat_map]. split; [f_equal; f_equal; f_equal; lia|]. split; [exact HC|]. split; [now repeat split|]. split; [easy|]. split; [reflexivity|].
    destruct HB as (H1 & H2 & H3). split; [exact H1|]. split; [exact H2|]. intros d Hd. rewrite app_nil_r. now apply H3.
  - inversion Hnd as [|? ? Hq Hnd']; subst. cbn [for_each flat_map].
    destruct (tile_ok q T A bufs L npart HC) as (T1 & l & bufs1 & E1 & HC1 & Hl & S1 & G1 & HB1); [apply Hin; now left|apply Hg; now left|exact HB| |].
    { intros d Hd. specialize (Hlt d Hd). cbn [flat_map] in Hlt. rewrite zlen_app in Hlt. pose proof (zlen_nonneg (flat_map A tl)). nia. }
    rewrite E1. cbn [bind].
    assert (Same : forall s, In s tl -> upd A q l s = A s) by (intros s Hs; apply upd_other; intros ->; contradiction).
    assert (FA : flat_map (upd A q l) tl = flat_map A tl) by (apply flat_map_ext_in; exact Same).
    assert (Lv : forall d s, In s tl -> leaving B T1 (upd A q l) d s = leaving B T A d s).
    { intros d s Hs. unfold leaving. rewrite Same by exact Hs. rewrite G1 by (intros ->; contradiction). reflexivity. }
    assert (St : forall s, In s tl -> staying B T1 (upd A q l) s = staying B T A s).
    { intros s Hs. unfold staying. rewrite Same by exact Hs. rewrite G1 by (intros ->; contradiction). reflexivity. }
    destruct (IH Hnd' (fun s Hs => Hin s (or_intror Hs)) T1 (upd A q l) bufs1 (fun d => L d ++ leaving B T A d q) (npart - (zlen (A q) - zlen l)) HC1) as (T' & A' & bufs' & E2 & HC2 & S2 & P2 & O2 & HB2).
    + intros s Hs. rewrite Same by exact Hs. apply Hg. now right.
    + exact HB1.
    + intros d Hd. rewrite FA. specialize (Hlt d Hd). cbn [flat_map] in Hlt. rewrite zlen_app in *.
      assert (zlen (leaving B T A d q) <= zlen (A q)).
      { unfold leaving. destruct (t_bound _); [|apply zlen_nonneg].
        generalize (A q). intros ps. induction ps as [|p ps IHp]; [reflexivity|]. cbn [flat_map]. rewrite zlen_app, zlen_cons.
        assert (zlen (match bc_particle (gat T q) B p with Leave p' d' => if idx_eqb d' d then [p'] else [] | _ => [] end) <= 1).
        { destruct (bc_particle (gat T q) B p) as [| |? d']; try (unfold zlen; cbn; lia). destruct (idx_eqb d' d); unfold zlen; cbn; lia. }
        lia. }
      pose proof (zlen_nonneg (flat_map A tl)). nia.
    + rewrite E2. exists T', A', bufs'. rewrite FA, (O2 q Hq), upd_same. split; [f_equal; f_equal; f_equal; rewrite !zlen_app; lia|].
      split; [exact HC2|]. split.
      { intros s Hs. destruct (S1 s Hs) as (a1 & a2 & a3 & a4), (S2 s Hs) as (b1 & b2 & b3 & b4). repeat split; congruence. }
      split.
      { intros s [<-|Hs]; [rewrite (O2 q Hq), upd_same; exact Hl|]. rewrite <- St by exact Hs. now apply P2. }
      split.
      { intros s Hs. rewrite O2 by (intros X; apply Hs; now right). apply upd_other. intros ->. apply Hs. now left. }
      destruct HB2 as (H1 & H2 & H3). split; [exact H1|]. split; [exact H2|]. intros d Hd. specialize (H3 d Hd). cbn beta in H3. rewrite <- app_assoc in H3.
      rewrite (flat_map_ext_in _ (leaving B T A d) tl) in H3 by (intros; now apply Lv). exact H3.
Qed.

Lemma local_ok T A npart : contents M D T A -> (forall q, In q (all_tiles D) -> Forall (good_pid npid) (A q)) ->
  zlen (all_particles D A) * (npid + 7) + 1 < 2 ^ 31 ->
  exists T' A' bufs', local_phase npid D B (T, npart) = Ret (T', npart - (zlen (all_particles D A) - zlen (all_particles D A')), bufs') /\
    contents M D T' A' /\ (forall s, In s (all_tiles D) -> same_extents (gat T s) (gat T' s)) /\
    (forall s, In s (all_tiles D) -> Permutation (A' s) (staying B T A s)) /\
    bufs_ok npid bufs' (fun d => flat_map (leaving B T A d) (all_tiles D)).
Proof.
  intros HC Hg Hlt. unfold local_phase. cbn [fst snd].
  destruct (tiles_ok (all_tiles D) (NoDup_box _ _) (fun q H => H) T A empty_bufs (fun _ => []) npart HC Hg) as (T' & A' & bufs' & E & HC' & S' & P' & _ & HB').
  - split; [reflexivity|]. split; [reflexivity|]. intros d _. split; [constructor|]. split; [reflexivity|]. split; [reflexivity|]. split; [reflexivity|]. now exists [None].
  - intros d _. change (zlen (@nil (part N))) with 0. exact Hlt.
  - exists T', A', bufs'. split; [exact E|]. split; [exact HC'|]. split; [exact S'|]. split; [exact P'|exact HB'].
Qed.
End Process.
