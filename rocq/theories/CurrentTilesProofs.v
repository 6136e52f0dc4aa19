(** Proofs about the current deposition on tiles. *)
From Coq Require Import ZArith Reals List Bool Lia Lra Permutation.
From Verif Require Import Cxx CxxLemmas Num NumRX Fortran FortranNum Grid GridLemmas Pushers Yee Deposit Esirkepov Tiles DepositTiles CurrentTiles SpecYee SpecTiles SpecDeposit SpecCurrent Sums
  DepositProofs DepositMore EskCore EskProofs EskFacts TilesReal SpecDepositTiles ThreadLemmas DepositTilesProofs DepositTilesReal SpecCurrentTiles SpecFlux Flux.
Import ListNotations.
Local Open Scope R_scope.
Local Notation F x := (Fin x : num FRX) (only parsing).

Section Tiles.
Variables x y z : paxis R.
Hypothesis (Hx : sensible x) (Hy : sensible y) (Hz : sensible z) (Dx : 0 < p_d x) (Dy : 0 < p_d y) (Dz : 0 < p_d z).
Local Notation o := (orders_of x y z).
Local Notation g := (cells_of x y z).
Local Notation X := (fin_axis x). Local Notation Y := (fin_axis y). Local Notation Zz := (fin_axis z).
Local Notation mesh := (mesh_of X Y Zz).
Local Notation tiles := (tiles_of x y z).
Local Notation tlo q := (glo (tile_zero (mesh q))). Local Notation thi q := (ghi (tile_zero (mesh q))).

(** ** what the four loops add, for any contents of the arrays of the tiles *)
Section Values.
Variables (arrs : idx -> grid (num FRX) * bool) (v : idx -> idx -> R).
Hypothesis Hv : forall q, In q tiles -> isg (fst (arrs q)) (tlo q) (thi q) (v q) /\ (snd (arrs q) = false -> forall p, v q p = 0) /\
  forall p, in_box (tlo q) (thi q) p = false -> v q p = 0.
Lemma values_bounds q : In q (tiles_of X Y Zz) -> glo (fst (arrs q)) = tlo q /\ ghi (fst (arrs q)) = thi q.
Proof. intros Iq. destruct (Hv q Iq) as ((A & B & _) & _). now split. Qed.
Definition value_pieces (ph : phase) (q : idx) : list (idx * R) := if snd (arrs q) then tile_pieces ph (mesh q) (v q) else [].
Lemma values_body ph l : (forall q, In q l -> In q tiles) -> flat_map (body_list X Y Zz arrs ph) l = map fin_up (flat_map (value_pieces ph) l).
Proof.
  intros H. rewrite !flat_map_concat_map, concat_map, map_map. apply (f_equal (@concat _)). apply map_ext_in. intros q Iq. specialize (H q Iq). unfold body_list, value_pieces.
  destruct (Hv q H) as (V & _). destruct (snd (arrs q)); [|reflexivity]. apply tile_list_real; [apply mesh_wide; auto using fin_sensible|exact V].
Qed.
Lemma shifted_box q p : in_box (tlo q) (thi q) (sub3 p (m_min (mesh q))) =
  let '(mi, mj, mk) := m_min (mesh q) in let '(c1, c2, c3) := m_cells (mesh q) in let '(g1, g2, g3) := m_g (mesh q) in
  in_box (mi - g1, mj - g2, mk - g3)%Z (mi + c1 + g1, mj + c2 + g2, mk + c3 + g3)%Z p.
Proof.
  unfold tile_zero. destruct (m_min (mesh q)) as [[mi mj] mk], (m_cells (mesh q)) as [[c1 c2] c3], (m_g (mesh q)) as [[g1 g2] g3], p as [[a b] c]. cbn [glo ghi sub3].
  apply eq_true_iff_eq. rewrite !in_box_iff. lia.
Qed.
Lemma values_tile q p : In q tiles -> hits (value_pieces Inner q) p + hits (value_pieces FaceX q) p + hits (value_pieces FaceY q) p + hits (value_pieces FaceZ q) p = v q (sub3 p (m_min (mesh q))).
Proof.
  intros Iq. destruct (Hv q Iq) as (V & U & S). unfold value_pieces. destruct (snd (arrs q)) eqn:Eu; [|rewrite (U eq_refl), !hits_nil; lra].
  rewrite four_phases by (apply mesh_wide; auto using fin_sensible). specialize (S (sub3 p (m_min (mesh q)))). rewrite shifted_box in S.
  destruct (m_min (mesh q)) as [[mi mj] mk], (m_cells (mesh q)) as [[c1 c2] c3], (m_g (mesh q)) as [[g1 g2] g3].
  destruct (in_box _ _ p) eqn:E; [reflexivity|]. symmetry. now apply S.
Qed.
Theorem values_real n (rho : grid (num FRX)) r out : isg rho (first_node x y z) (last_node x y z) r -> (n <= 1)%Z \/ one_cut x y z ->
  reduce_outcome n mesh arrs tiles rho out ->
  exists rho', out = Ret rho' /\ isg rho' (first_node x y z) (last_node x y z) (fun p => r p + sumR (map (fun q => v q (sub3 p (m_min (mesh q)))) tiles)).
Proof.
  intros (L & H & V) O R. apply (reduce_all X Y Zz Hx Hy Hz arrs values_bounds) in R; [|exact L|exact H|exact O].
  destruct R as (G' & l1 & l2 & l3 & l4 & -> & A & B & P1 & P2 & P3 & P4 & W). exists G'. split; [reflexivity|]. split; [rewrite <- L; exact A|]. split; [rewrite <- H; exact B|].
  intros p Hp. refine (eq_trans (W p) _). assert (Vp : @gat (num FRX) rho p = F (r p)) by exact (V p Hp). rewrite Vp.
  rewrite (values_body FaceZ l4), (values_body FaceY l3), (values_body FaceX l2), (values_body Inner l1) by (intros q; now apply Permutation_in). rewrite !apply_real. f_equal.
  rewrite !hits_flat. rewrite (sum_perm _ _ (Permutation_map _ P1)), (sum_perm _ _ (Permutation_map _ P2)), (sum_perm _ _ (Permutation_map _ P3)), (sum_perm _ _ (Permutation_map _ P4)).
  change (tiles_of X Y Zz) with tiles.
  rewrite (sumR_ext (fun q => v q (sub3 p (m_min (mesh q)))) (fun q => hits (value_pieces Inner q) p + hits (value_pieces FaceX q) p + hits (value_pieces FaceY q) p + hits (value_pieces FaceZ q) p) tiles) by (intros q Iq; symmetry; now apply values_tile).
  rewrite !sumR_plus. lra.
Qed.
Theorem values_exists n (rho : grid (num FRX)) r : (1 <= n)%Z -> isg rho (first_node x y z) (last_node x y z) r -> exists rho', reduce_outcome n mesh arrs tiles rho (Ret rho').
Proof. intros Hn (L & H & _). exact (reduce_exists X Y Zz Hx Hy Hz arrs values_bounds n rho Hn L H). Qed.
End Values.

(** ** one tile *)
Variables (K : Consts FRX) (optimised : bool) (c dt : R).
Hypotheses (Hc : light c K) (Hs : short_step c dt x y z) (Rx : roomy x) (Ry : roomy y) (Rz : roomy z).
Local Notation routine := (depose_jxjyjz K optimised (p_o x) (p_o y) (p_o z)).
Lemma move_unit cs d a : proper cs -> unit_on cs d a - unit_on cs d (before_move dt a) = speed d a * dt / width cs d.
Proof. intros (P1 & P2 & P3). destruct d; cbn [unit_on speed width before_move rpx rpy rpz]; unfold unit_x, unit_y, unit_z, back; field; assumption. Qed.
Lemma tile_width q d : width (tile_cells x y z q) d = match d with AX => p_d x | AY => p_d y | AZ => p_d z end.
Proof. destruct q as [[i j] k], d; reflexivity. Qed.
Lemma short d : 0 < c * dt /\ c * dt < match d with AX => p_d x | AY => p_d y | AZ => p_d z end /\ 0 < match d with AX => p_d x | AY => p_d y | AZ => p_d z end.
Proof. destruct Hs as (T & C & A1 & A2 & A3). assert (0 < c * dt) by (apply Rmult_lt_0_compat; assumption). destruct d; repeat split; assumption. Qed.
Lemma light_step q d : 0 <= c * dt / width (tile_cells x y z q) d < 1.
Proof.
  rewrite tile_width. destruct (short d) as (A & B & C). set (h := match d with AX => p_d x | AY => p_d y | AZ => p_d z end) in *. split.
  - apply Rmult_le_pos; [lra|]. left. now apply Rinv_0_lt_compat.
  - apply Rmult_lt_reg_r with h; [exact C|]. unfold Rdiv. rewrite Rmult_assoc, Rinv_l by lra. lra.
Qed.
Lemma slow_move q d a : slower c a -> Rabs (unit_on (tile_cells x y z q) d a - unit_on (tile_cells x y z q) d (before_move dt a)) <= c * dt / width (tile_cells x y z q) d.
Proof.
  intros S. rewrite move_unit by now apply tile_proper. rewrite tile_width. destruct (short d) as (A & B & C). destruct Hs as (T & Cp & _). set (h := match d with AX => p_d x | AY => p_d y | AZ => p_d z end) in *.
  unfold Rdiv. rewrite !Rabs_mult. rewrite (Rabs_pos_eq dt) by lra. rewrite (Rabs_pos_eq (/ h)) by (left; now apply Rinv_0_lt_compat).
  apply Rmult_le_compat_r; [left; now apply Rinv_0_lt_compat|]. apply Rmult_le_compat_r; [lra|]. apply S.
Qed.
Lemma fits_far (a : paxis R) i n u w : sensible a -> roomy a -> (1 <= i <= cut a)%Z -> n = p_o a -> - (1 / 2) <= u <= IZR (tcells a i) + 1 / 2 -> Rabs (u - w) < 1 -> fits n (- tguard a i) (tcells a i + tguard a i) w.
Proof.
  intros Ha Hr Hi -> H Hw. pose proof (axis_facts a Ha i Hi) as (_ & _ & _ & Hg & _). apply Rabs_def2 in Hw.
  assert (G : (p_o a ÷ 2 + 2 <= tguard a i)%Z).
  { unfold roomy in Hr. unfold tguard. destruct Ha as (_ & _ & _ & Ho). destruct (_ && _)%bool; [|exact Hr]. assert (p_o a = 1 \/ p_o a = 2 \/ p_o a = 3)%Z as [->|[->| ->]] by lia; vm_compute; discriminate. }
  unfold fits. split; [apply Rle_trans with (IZR (-2)); [apply IZR_le; lia|lra]|]. apply Rlt_le_trans with (IZR (tcells a i + 2)); [rewrite plus_IZR; lra|apply IZR_le; lia].
Qed.
Lemma before_fits q a : In q tiles -> in_tile x y z q a -> slower c a -> fits3 o (tile_cells x y z q) (tlo q) (thi q) (before_move dt a).
Proof.
  intros Iq It Sl. pose proof (fun d => Rle_lt_trans _ _ _ (slow_move q d a Sl) (proj2 (light_step q d))) as M.
  destruct q as [[i j] k], It as (A & B & C). apply (in_tiles_of X Y Zz) in Iq. destruct Iq as (I1 & I2 & I3).
  unfold tile_zero. destruct (mesh_nums X Y Zz i j k) as (_ & -> & ->). cbn [glo ghi].
  split; [|split].
  - apply (fits_far x i _ (unit_x (tile_cells x y z (i, j, k)) (rpx a))); auto; [apply slab_unit; auto|exact (M AX)].
  - apply (fits_far y j _ (unit_y (tile_cells x y z (i, j, k)) (rpy a))); auto; [apply slab_unit; auto|exact (M AY)].
  - apply (fits_far z k _ (unit_z (tile_cells x y z (i, j, k)) (rpz a))); auto; [apply slab_unit; auto|exact (M AZ)].
Qed.
Lemma proper_t q : proper (tile_cells x y z q). Proof. now apply tile_proper. Qed.
Lemma dt_pos : dt <> 0. Proof. destruct Hs; lra. Qed.
Definition tile_charges (q : idx) (l : list rspecies) : list (R * rpart) := flat_map (fun s => map (pair (rs_q s)) (rs_parts s q)) (filter rs_depos l).
Lemma sized_o : sized o.
Proof. destruct Hx as (_ & _ & _ & ?), Hy as (_ & _ & _ & ?), Hz as (_ & _ & _ & ?). intros d. destruct d; cbn; lia. Qed.
(** the routine called for a tile *)
Lemma routine_current q Q ps J j : In q tiles -> holds J (every (tlo q)) (every (thi q)) j -> (forall a, In a ps -> in_tile x y z q a /\ slower c a) ->
  exists J' m, routine (zlen ps) (map pos_of ps) (map mom_of ps) (map weight_of ps) (F Q) (geom_of (tile_cells x y z q)) (F dt) J = Ret J' /\
    holds J' (every (tlo q)) (every (thi q)) (plus_field j m) /\ within (every (tlo q)) (every (thi q)) m /\
    continuous (tile_cells x y z q) dt (density o (tile_cells x y z q) Q (map (before_move dt) ps)) (density o (tile_cells x y z q) Q ps) m /\
    forall d p, comp d m p = current_of o (tile_cells x y z q) dt (map (pair Q) ps) d p.
Proof.
  intros Iq HJ A. set (t := tile_cells x y z q) in *.
  assert (I : forall a, In a ps -> inside o t (every (tlo q)) (every (thi q)) a /\ inside o t (every (tlo q)) (every (thi q)) (before_move dt a)).
  { intros a Ia. destruct (A a Ia) as (It & Sl). split; intros d; (split; [unfold every; apply tile_moderate; auto|unfold every]); [apply tile_fits; auto|apply before_fits; auto]. }
  assert (Fixed : forall n, fixed_order n -> o = same_order n -> exists J' m, current_fixed n t Q dt ps J = Ret J' /\
    holds J' (every (tlo q)) (every (thi q)) (plus_field j m) /\ within (every (tlo q)) (every (thi q)) m /\ continuous t dt (density o t Q (map (before_move dt) ps)) (density o t Q ps) m /\ forall d p, comp d m p = current_of o t dt (map (pair Q) ps) d p).
  { intros n On En. destruct (fixed_inside n t Q dt ps J (every (tlo q)) (every (thi q)) j On (proper_t q) dt_pos HJ) as (J' & E).
    - intros a Ia. rewrite <- En. destruct (I a Ia) as (I1 & I2). split; [exact I1|]. split; [exact I2|]. intros d. destruct (A a Ia) as (_ & Sl). exact (Rle_lt_trans _ _ _ (slow_move q d a Sl) (proj2 (light_step q d))).
    - destruct (fixed_flux n t Q dt ps J J' _ _ j On (proper_t q) dt_pos HJ E) as (m & H1 & H2 & H3). exists J', m. split; [exact E|]. rewrite En. now split. }
  assert (Any : exists J' m, current_n K o true false t Q dt ps J = Ret J' /\
    holds J' (every (tlo q)) (every (thi q)) (plus_field j m) /\ within (every (tlo q)) (every (thi q)) m /\ continuous t dt (density o t Q (map (before_move dt) ps)) (density o t Q ps) m /\ forall d p, comp d m p = current_of o t dt (map (pair Q) ps) d p).
  { assert (Kn : known o) by now apply known_o.
    destruct (n_inside K c o true false t Q dt ps J (every (tlo q)) (every (thi q)) j Hc Kn (proper_t q) dt_pos HJ) as (J' & E).
    - intros d. pose proof (light_step q d). fold t in H. lra.
    - unfold seen. intros nw ol Io. assert (Io' : In (nw, ol) (map (fun a => (a, before_move dt a)) ps)).
      { clear - Io. revert Io. induction ps as [|a l IH]; [exact (fun h => h)|]. cbn [map combine]. intros [E|H]; [now left|right; now apply IH]. }
      apply in_map_iff in Io'. destruct Io' as (a & Ea & Ia). injection Ea as <- <-. destruct (I a Ia) as (I1 & I2). split; [exact I1|]. split; [exact I2|]. intros d. apply slow_move. now apply A.
    - destruct (n_flux K c o t Q dt ps J J' _ _ j Hc sized_o (proper_t q) dt_pos HJ E) as (m & H1 & H2 & H3). exists J', m. now split. }
  unfold depose_jxjyjz. destruct optimised; cbn [andb]; [|exact Any].
  destruct ((p_o x =? 1) && (p_o y =? 1) && (p_o z =? 1))%Z eqn:E1; [|destruct ((p_o x =? 2) && (p_o y =? 2) && (p_o z =? 2))%Z eqn:E2; [|destruct ((p_o x =? 3) && (p_o y =? 3) && (p_o z =? 3))%Z eqn:E3; [|exact Any]]].
  - apply (Fixed 1%Z); [constructor|]. rewrite !andb_true_iff, !Z.eqb_eq in E1. destruct E1 as ((A1 & A2) & A3). unfold orders_of, same_order. now rewrite A1, A2, A3.
  - apply (Fixed 2%Z); [constructor|]. rewrite !andb_true_iff, !Z.eqb_eq in E2. destruct E2 as ((A1 & A2) & A3). unfold orders_of, same_order. now rewrite A1, A2, A3.
  - apply (Fixed 3%Z); [constructor|]. rewrite !andb_true_iff, !Z.eqb_eq in E3. destruct E3 as ((A1 & A2) & A3). unfold orders_of, same_order. now rewrite A1, A2, A3.
Qed.

Lemma plus_zero j : plus_field j zero_field = RField (fun p => comp_x j p + 0) (fun p => comp_y j p + 0) (fun p => comp_z j p + 0). Proof. reflexivity. Qed.
Lemma holds_ext J lo hi j j' : holds J lo hi j -> (forall d p, comp d j p = comp d j' p) -> holds J lo hi j'.
Proof. intros H E d. apply (isg_ext _ _ _ _ _ (H d)). intros p _. apply E. Qed.
Lemma comp_plus d j m p : comp d (plus_field j m) p = comp d j p + comp d m p. Proof. now destruct d. Qed.
Lemma cont_zero t f h : (forall p, f p = h p) -> continuous t dt f h zero_field.
Proof. intros E p. rewrite E. unfold div. rewrite !bwd_yee. cbn [comp_x comp_y comp_z zero_field]. unfold Rdiv. ring. Qed.
Lemma cont_plus t f h f' h' m m' : continuous t dt f h m -> continuous t dt f' h' m' -> continuous t dt (fun p => f p + f' p) (fun p => h p + h' p) (plus_field m m').
Proof.
  intros A B p. specialize (A p). specialize (B p). unfold div in *. rewrite !bwd_yee in *. cbn [plus_field comp_x comp_y comp_z]. unfold Rdiv in *.
  match type of A with ?a = 0 => match type of B with ?b = 0 => transitivity (a + b); [ring|lra] end end.
Qed.
Lemma cont_ext t f h f' h' m : continuous t dt f h m -> (forall p, f p = f' p) -> (forall p, h p = h' p) -> continuous t dt f' h' m.
Proof. intros A E1 E2 p. rewrite <- E1, <- E2. apply A. Qed.

(** the loop on the species *)
Lemma species_currents q ss : In q tiles -> (forall s a, In s ss -> In a (rs_parts s q) -> in_tile x y z q a /\ slower c a) -> forall J b j,
  holds J (every (tlo q)) (every (thi q)) j ->
  exists J' m, for_each (jspecies_step routine (steps x y z) (F dt) (mesh q) q) (map jspecies_of ss) (J, b) = Ret (J', b || used q ss)%bool /\
    holds J' (every (tlo q)) (every (thi q)) (plus_field j m) /\ within (every (tlo q)) (every (thi q)) m /\
    continuous (tile_cells x y z q) dt (tile_density x y z (tile_cells x y z q) q (map (earlier dt) ss)) (tile_density x y z (tile_cells x y z q) q ss) m /\
    (forall d p, comp d m p = current_of o (tile_cells x y z q) dt (tile_charges q ss) d p) /\
    (used q ss = false -> m = zero_field).
Proof.
  intros Iq. induction ss as [|s ss IH]; intros It J b j H.
  - exists J, zero_field. cbn [map for_each used existsb]. rewrite orb_false_r. split; [reflexivity|]. split; [apply (holds_ext _ _ _ _ _ H); intros d p; rewrite comp_plus; destruct d; cbn; lra|].
    split; [intros d p _; now destruct d|]. split; [now apply cont_zero|]. split; [intros d p; now destruct d|reflexivity].
  - cbn [map for_each]. unfold jspecies_step at 1. cbn [j_depos jspecies_of j_parts j_q]. unfold used. cbn [existsb]. fold (used q ss).
    specialize (IH (fun s' e I1 I2 => It s' e (or_intror I1) I2)).
    pose proof (tile_density_cons x y z (tile_cells x y z q) q s ss) as Td. pose proof (tile_density_cons x y z (tile_cells x y z q) q (earlier dt s) (map (earlier dt) ss)) as Te. cbn [rs_depos rs_q rs_parts earlier] in Te.
    assert (Tc : tile_charges q (s :: ss) = (if rs_depos s then map (pair (rs_q s)) (rs_parts s q) else []) ++ tile_charges q ss) by (unfold tile_charges; cbn [filter]; destruct (rs_depos s); reflexivity).
    destruct (rs_depos s) eqn:Ed; cbn [negb andb].
    2:{ cbn [bind]. destruct (IH J b j H) as (J' & m & E & V & Wi & Co & Fl & Z0). exists J', m. split; [exact E|]. split; [exact V|]. split; [exact Wi|]. split; [|split; [intros d p; rewrite Fl, Tc; reflexivity|exact Z0]]. apply (cont_ext _ _ _ _ _ _ Co); intros p; [rewrite Te|rewrite Td]; lra. }
    rewrite zlen_map'. destruct (Z.eqb_spec (zlen (rs_parts s q)) 0) as [E0|E0]; cbn [negb].
    + cbn [bind orb]. destruct (IH J b j H) as (J' & m & E & V & Wi & Co & Fl & Z0). exists J', m. split; [exact E|]. split; [exact V|]. split; [exact Wi|].
      assert (Ep : rs_parts s q = []) by (destruct (rs_parts s q); [reflexivity|unfold zlen in E0; cbn [length] in E0; lia]). rewrite Ep in Td, Te, Tc. cbn [map] in Te, Tc. split; [|split; [intros d p; rewrite Fl, Tc; reflexivity|exact Z0]].
      apply (cont_ext _ _ _ _ _ _ Co); intros p; [rewrite Te|rewrite Td]; change (density o (tile_cells x y z q) (rs_q s) [] p) with 0; lra.
    + cbn [bind fst steps]. rewrite (tile_geom x y z q Iq), !map_map. cbn [fst snd].
      destruct (routine_current q (rs_q s) (rs_parts s q) J j Iq H) as (J1 & m1 & E1 & V1 & W1 & C1 & F1); [intros a Ia; apply (It s a); [now left|exact Ia]|].
      change (map (fun x0 : rpart => pos_of x0) (rs_parts s q)) with (map pos_of (rs_parts s q)). change (map (fun x0 : rpart => mom_of x0) (rs_parts s q)) with (map mom_of (rs_parts s q)).
      change (map (fun x0 : rpart => weight_of x0) (rs_parts s q)) with (map weight_of (rs_parts s q)). rewrite E1. cbn [bind].
      destruct (IH J1 true _ V1) as (J' & m & E & V & Wi & Co & Fl & Z0). exists J', (plus_field m1 m). split; [rewrite E; now rewrite orb_true_r|].
      split; [apply (holds_ext _ _ _ _ _ V); intros d p; rewrite !comp_plus; lra|].
      split; [intros d p Hp; rewrite comp_plus, (W1 d p Hp), (Wi d p Hp); lra|].
      split; [|split; [intros d p; rewrite comp_plus, F1, Fl, Tc, current_of_app; reflexivity|intros Hu; discriminate Hu]]. apply (cont_ext _ _ _ _ _ _ (cont_plus _ _ _ _ _ _ _ C1 Co)); intros p; [rewrite Te|rewrite Td]; reflexivity.
Qed.
Lemma tile_current_ok q ss : In q tiles -> (forall s a, In s ss -> In a (rs_parts s q) -> in_tile x y z q a /\ slower c a) ->
  exists J m, tile_currents routine (steps x y z) (F dt) (mesh q) q (map jspecies_of ss) = Ret (J, used q ss) /\
    holds J (every (tlo q)) (every (thi q)) m /\ within (every (tlo q)) (every (thi q)) m /\
    continuous (tile_cells x y z q) dt (tile_density x y z (tile_cells x y z q) q (map (earlier dt) ss)) (tile_density x y z (tile_cells x y z q) q ss) m /\
    (forall d p, comp d m p = current_of o (tile_cells x y z q) dt (tile_charges q ss) d p) /\
    (used q ss = false -> m = zero_field).
Proof.
  intros Iq It. destruct (species_currents q ss Iq It (Field3 (tile_zero (mesh q)) (tile_zero (mesh q)) (tile_zero (mesh q))) false zero_field) as (J & m & E & V & Wi & Co & Fl & Z0).
  { intros d. assert (Z1 : isg (tile_zero (mesh q)) (tlo q) (thi q) (fun _ => 0)).
    { split; [reflexivity|]. split; [reflexivity|]. intros p _. unfold tile_zero. destruct (m_cells (mesh q)) as [[? ?] ?], (m_g (mesh q)) as [[? ?] ?]. reflexivity. }
    destruct d; exact Z1. }
  exists J, m. split; [exact E|]. split; [apply (holds_ext _ _ _ _ _ V); intros d p; rewrite comp_plus; destruct d; cbn; lra|]. now split.
Qed.

(** ** all tiles *)
Variable ss : list rspecies.
Hypotheses (Hss : in_tiles x y z ss) (Hsl : all_slower c x y z ss).
Lemma its q s a : In q tiles -> In s ss -> In a (rs_parts s q) -> in_tile x y z q a /\ slower c a.
Proof. intros Iq Is Ia. split; [exact (its_tile x y z ss Hss q s a Iq Is Ia)|exact (Hsl s q a Is Iq Ia)]. Qed.
Lemma shift_sub d k p m : sub3 (shift d k p) m = shift d k (sub3 p m).
Proof. destruct p as [[a b] e], m as [[m1 m2] m3], d; cbn; (apply (f_equal2 pair); [apply (f_equal2 pair)|]); lia. Qed.
Lemma box_inside q p : In q tiles -> in_box (tlo q) (thi q) (sub3 p (m_min (mesh q))) = true -> in_box (first_node x y z) (last_node x y z) p = true.
Proof.
  destruct q as [[i j] k]. intros Iq. apply (in_tiles_of X Y Zz) in Iq. destruct Iq as (I1 & I2 & I3). rewrite shifted_box. destruct (mesh_nums X Y Zz i j k) as (-> & -> & ->).
  destruct p as [[a b] e]. unfold first_node, last_node. rewrite !in_box_iff.
  pose proof (axis_facts x Hx i I1). pose proof (axis_facts y Hy j I2). pose proof (axis_facts z Hz k I3).
  change (tmin X i) with (tmin x i). change (tmin Y j) with (tmin y j). change (tmin Zz k) with (tmin z k).
  change (tcells X i) with (tcells x i). change (tcells Y j) with (tcells y j). change (tcells Zz k) with (tcells z k).
  change (tguard X i) with (tguard x i). change (tguard Y j) with (tguard y j). change (tguard Zz k) with (tguard z k). lia.
Qed.
Definition sums_of (v : idx -> rfield) : rfield :=
  let s d p := sumR (map (fun q => comp d (v q) (sub3 p (m_min (mesh q)))) tiles) in RField (s AX) (s AY) (s AZ).
Lemma comp_sums v d p : comp d (sums_of v) p = sumR (map (fun q => comp d (v q) (sub3 p (m_min (mesh q)))) tiles). Proof. now destruct d. Qed.
Lemma choose_currents : exists v, forall q, In q tiles -> forall r, tile_currents routine (steps x y z) (F dt) (mesh q) q (map jspecies_of ss) = Ret r ->
  snd r = used q ss /\ holds (fst r) (every (tlo q)) (every (thi q)) (v q) /\ within (every (tlo q)) (every (thi q)) (v q) /\
  continuous (tile_cells x y z q) dt (tile_density x y z (tile_cells x y z q) q (map (earlier dt) ss)) (tile_density x y z (tile_cells x y z q) q ss) (v q) /\
  (forall d p, comp d (v q) p = current_of o (tile_cells x y z q) dt (tile_charges q ss) d p) /\
  (used q ss = false -> v q = zero_field).
Proof.
  assert (E : forall l, (forall q, In q l -> In q tiles) -> exists v, forall q, In q l -> forall r, tile_currents routine (steps x y z) (F dt) (mesh q) q (map jspecies_of ss) = Ret r ->
    snd r = used q ss /\ holds (fst r) (every (tlo q)) (every (thi q)) (v q) /\ within (every (tlo q)) (every (thi q)) (v q) /\
    continuous (tile_cells x y z q) dt (tile_density x y z (tile_cells x y z q) q (map (earlier dt) ss)) (tile_density x y z (tile_cells x y z q) q ss) (v q) /\
    (forall d p, comp d (v q) p = current_of o (tile_cells x y z q) dt (tile_charges q ss) d p) /\
    (used q ss = false -> v q = zero_field)).
  { induction l as [|q l IH]; intros Hl; [exists (fun _ => zero_field); intros q []|]. destruct IH as (v & Hv); [intros; apply Hl; now right|].
    assert (Iq : In q tiles) by (apply Hl; now left). destruct (tile_current_ok q ss Iq (fun s a => its q s a Iq)) as (J & m & E & V).
    exists (fun q' => if idx_eqb q' q then m else v q'). intros q' Iq' r Er. destruct (idx_eqb q' q) eqn:Eq.
    - apply idx_eqb_eq in Eq. subst q'. rewrite E in Er. injection Er as <-. cbn [fst snd]. now split.
    - apply Hv; [|exact Er]. destruct Iq' as [<-|Iq']; [rewrite idx_eqb_refl in Eq; discriminate|exact Iq']. }
  apply (E tiles). auto.
Qed.
Lemma currents_fine : forallb (fun q => match tile_currents routine (steps x y z) (F dt) (mesh q) q (map jspecies_of ss) with Ret _ => true | _ => false end) tiles = true.
Proof. apply forallb_forall. intros q Iq. destruct (tile_current_ok q ss Iq (fun s a => its q s a Iq)) as (J & m & -> & _). reflexivity. Qed.
Lemma earlier_all p : all_density x y z (map (earlier dt) ss) p = sumR (map (fun q => tile_density x y z g q (map (earlier dt) ss) p) tiles).
Proof. exact (all_density_tiles x y z (map (earlier dt) ss) p). Qed.

Lemma tile_flow q d p : In q tiles -> current_of o (tile_cells x y z q) dt (tile_charges q ss) d (sub3 p (m_min (mesh q))) = current_of o g dt (tile_charges q ss) d p.
Proof.
  intros Iq. rewrite (current_moved o g (tile_cells x y z q) (m_min (mesh q)) dt _ d _ sized_o).
  - f_equal. destruct p as [[a b] e], (m_min (mesh q)) as [[m1 m2] m3]. cbn [sub3]. (apply (f_equal2 pair); [apply (f_equal2 pair)|]); lia.
  - intros d' e. destruct q as [[i j] k]. destruct (mesh_nums X Y Zz i j k) as (-> & _). destruct d'; cbn [node_on unit_on]; unfold unit_x, unit_y, unit_z; cbn [tile_cells ox oy oz hx hy hz cells_of];
      [change (tmin X i) with (tmin x i)|change (tmin Y j) with (tmin y j)|change (tmin Zz k) with (tmin z k)]; field; lra.
  - now destruct q as [[i j] k], d.
Qed.
Lemma proc_sum d p : current_of o g dt (proc_charges x y z ss) d p = sumR (map (fun q => current_of o g dt (tile_charges q ss) d p) tiles).
Proof.
  unfold current_of, proc_charges, tile_charges. rewrite sumR_flat.
  rewrite (sumR_ext (fun q => sumR (map (fun b => fst b * rw (snd b) / (dt * face g d) * flux o g d (snd b) (before_move dt (snd b)) p) (flat_map (fun s => map (pair (rs_q s)) (rs_parts s q)) (filter rs_depos ss))))
    (fun q => sumR (map (fun s => sumR (map (fun b => fst b * rw (snd b) / (dt * face g d) * flux o g d (snd b) (before_move dt (snd b)) p) (map (pair (rs_q s)) (rs_parts s q)))) (filter rs_depos ss)))) by (intros q _; apply sumR_flat).
  rewrite (sumR_swap (fun q s => sumR (map (fun b => fst b * rw (snd b) / (dt * face g d) * flux o g d (snd b) (before_move dt (snd b)) p) (map (pair (rs_q s)) (rs_parts s q))))).
  apply sumR_ext. intros s _. rewrite map_map, sumR_flat. apply sumR_ext. intros q _. now rewrite map_map.
Qed.

Theorem currents_real n J j out : holds J (every (first_node x y z)) (every (last_node x y z)) j -> (n <= 1)%Z \/ one_cut x y z ->
  tile_current K optimised n dt x y z ss J out ->
  exists J' m, out = Ret J' /\ holds J' (every (first_node x y z)) (every (last_node x y z)) (plus_field j m) /\
    within (every (first_node x y z)) (every (last_node x y z)) m /\
    continuous g dt (all_density x y z (map (earlier dt) ss)) (all_density x y z ss) m /\
    forall d p, comp d m p = current_of o g dt (proc_charges x y z ss) d p.
Proof.
  intros H O D. unfold currents_outcome in D. rewrite currents_fine in D. destruct D as (arrs & r1 & r2 & r3 & Ea & R1 & R2 & R3 & ->). destruct choose_currents as (v & Hv).
  assert (V : forall d q, In q tiles -> isg (fst (one_of (array d) arrs q)) (tlo q) (thi q) (comp d (v q)) /\ (snd (one_of (array d) arrs q) = false -> forall p, comp d (v q) p = 0) /\
    forall p, in_box (tlo q) (thi q) p = false -> comp d (v q) p = 0).
  { intros d q Iq. destruct (Hv q Iq _ (Ea q Iq)) as (U & Ho & Wi & _ & _ & Z0). unfold one_of. cbn [fst snd]. split; [exact (Ho d)|]. split; [|exact (Wi d)]. rewrite U. intros Hu p. rewrite (Z0 Hu). now destruct d. }
  destruct (values_real (one_of (array AX) arrs) _ (V AX) n _ _ _ (H AX) O R1) as (G1 & -> & V1).
  destruct (values_real (one_of (array AY) arrs) _ (V AY) n _ _ _ (H AY) O R2) as (G2 & -> & V2).
  destruct (values_real (one_of (array AZ) arrs) _ (V AZ) n _ _ _ (H AZ) O R3) as (G3 & -> & V3). cbn [bind].
  exists (Field3 G1 G2 G3), (sums_of v). split; [reflexivity|]. split; [intros d; destruct d; [exact V1|exact V2|exact V3]|]. split; [|split].
  - intros d p Hp. unfold every in Hp. rewrite comp_sums, (sumR_ext _ (fun _ => 0)); [apply sumR_0|]. intros q Iq. apply (V d q Iq). apply not_true_is_false. intros E. rewrite (box_inside q p Iq E) in Hp. discriminate.
  - intros p. rewrite earlier_all, (all_density_tiles x y z ss p). unfold div. rewrite !bwd_yee. change (comp_x (sums_of v)) with (comp AX (sums_of v)). change (comp_y (sums_of v)) with (comp AY (sums_of v)). change (comp_z (sums_of v)) with (comp AZ (sums_of v)).
    rewrite !comp_sums. cbn [hx hy hz cells_of].
    rewrite <- (sumR_0 tiles). unfold Rdiv. rewrite <- !sumR_minus, Rmult_comm, <- !sumR_scal, <- !sumR_plus. apply sumR_ext. intros q Iq.
    destruct (Hv q Iq _ (Ea q Iq)) as (_ & _ & _ & Co & _ & _). specialize (Co (sub3 p (m_min (mesh q)))). unfold div in Co. rewrite !bwd_yee in Co. rewrite !shift_sub.
    assert (Ev : forall ss', tile_density x y z (tile_cells x y z q) q ss' (sub3 p (m_min (mesh q))) = tile_density x y z g q ss' p) by (intros ss'; unfold tile_density; apply sumR_ext; intros s _; now apply density_shift).
    rewrite !Ev in Co. destruct q as [[qi qj] qk]. cbn [hx hy hz tile_cells] in Co. cbn [comp]. rewrite <- Co. unfold Rdiv. ring.
  - intros d p. rewrite comp_sums, proc_sum. apply sumR_ext. intros q Iq. destruct (Hv q Iq _ (Ea q Iq)) as (_ & _ & _ & _ & Fl & _). rewrite Fl. now apply tile_flow.
Qed.
Theorem currents_exist n J j : (1 <= n)%Z -> holds J (every (first_node x y z)) (every (last_node x y z)) j -> exists J', tile_current K optimised n dt x y z ss J (Ret J').
Proof.
  intros Hn H. destruct choose_currents as (v & Hv).
  set (arrs := fun q => match tile_currents routine (steps x y z) (F dt) (mesh q) q (map jspecies_of ss) with Ret r => r | _ => (J, false) end).
  assert (Ea : forall q, In q tiles -> tile_currents routine (steps x y z) (F dt) (mesh q) q (map jspecies_of ss) = Ret (arrs q)).
  { intros q Iq. unfold arrs. destruct (tile_current_ok q ss Iq (fun s a => its q s a Iq)) as (J1 & m & -> & _). reflexivity. }
  assert (V : forall d q, In q tiles -> isg (fst (one_of (array d) arrs q)) (tlo q) (thi q) (comp d (v q)) /\ (snd (one_of (array d) arrs q) = false -> forall p, comp d (v q) p = 0) /\
    forall p, in_box (tlo q) (thi q) p = false -> comp d (v q) p = 0).
  { intros d q Iq. destruct (Hv q Iq _ (Ea q Iq)) as (U & Ho & Wi & _ & _ & Z0). unfold one_of. cbn [fst snd]. split; [exact (Ho d)|]. split; [|exact (Wi d)]. rewrite U. intros Hu p. rewrite (Z0 Hu). now destruct d. }
  destruct (values_exists (one_of (array AX) arrs) _ (V AX) n _ _ Hn (H AX)) as (G1 & R1). destruct (values_exists (one_of (array AY) arrs) _ (V AY) n _ _ Hn (H AY)) as (G2 & R2).
  destruct (values_exists (one_of (array AZ) arrs) _ (V AZ) n _ _ Hn (H AZ)) as (G3 & R3).
  exists (Field3 G1 G2 G3). unfold currents_outcome. rewrite currents_fine. exists arrs, (Ret G1), (Ret G2), (Ret G3). repeat split; assumption.
Qed.
End Tiles.
