(** The summation over the processes in exact arithmetic. *)
From Coq Require Import ZArith List Bool Lia Permutation Reals Lra.
From Verif Require Import Cxx CxxLemmas Num NumRX Fortran FortranNum Grid GridLemmas PartBC PartBCProofs PartBCReal FieldBC SpecFieldBC FieldBCAxis FieldBCMemory FieldBCWorld FieldBCProofs FieldBCSum.
Import ListNotations.
Local Open Scope Z_scope.

Lemma total_app l m : total (l ++ m) = (total l + total m)%R.
Proof. unfold total. induction l as [|x l IH]; cbn; [lra|]. rewrite IH. lra. Qed.
Lemma total_perm l m : Permutation l m -> total l = total m.
Proof. unfold total. induction 1; cbn; lra. Qed.
Lemma total_flat {X Y} (f : Y -> R) (h : X -> list Y) l : total (map f (flat_map h l)) = total (map (fun x => total (map f (h x))) l).
Proof. induction l as [|x l IH]; [reflexivity|]. cbn [flat_map map]. rewrite map_app, total_app, IH. reflexivity. Qed.

Section Sum.
Variable L : layout.
Hypothesis HL : sound_layout L.
Notation np := (l_procs L).
Notation g := (l_guards L).
Notation n := (local_cells L).
Notation world_of := (idx -> pstate (num FRX)).
Notation periodic := (fun _ : dir => false).
Notation held_at a x := (held1 (comp a np) (l_cells L a) (l_absorbing L a) (comp a (fst x)) (comp a (snd x))).
Notation range a := (range1 (comp a np) (l_cells L a) (comp a g)).

Definition copies (a : dir) (x : node) : list node :=
  map (fun ci => at_axis a x (fst ci) (snd ci)) (copies1 (comp a np) (l_cells L a) (comp a g) (l_absorbing L a) (comp a (fst x)) (comp a (snd x))).
Definition finite (F : world_of) (f : node -> R) : Prop := forall x, is_node L x -> value F x = Fin (f x).
Definition summed (a : dir) (f f' : node -> R) : Prop := forall x, is_node L x -> held_at a x = true -> f' x = total (map f (copies a x)).

Lemma fin_add x y : n_add (Fin x : num FRX) (Fin y) = Fin (x + y). Proof. reflexivity. Qed.
Lemma fin_zero : (n_lit 0 0 : num FRX) = Fin 0.
Proof. reflexivity. Qed.

Lemma copies_node a x y : is_node L x -> held_at a x = true -> In y (copies a x) -> is_node L y.
Proof.
  intros Hx Hh Hy. unfold copies in Hy. apply in_map_iff in Hy. destruct Hy as ([c i] & <- & Hy). destruct (Hax L HL a) as (H1 & H2 & H3).
  apply (copies_spec _ _ _ _ H1 H2 H3 _ _ _ _ (node_range L a x Hx) Hh) in Hy. apply at_axis_node; [exact Hx|apply Hy].
Qed.
Lemma copies_other a b x y : a <> b -> In y (copies a x) -> comp b (fst y) = comp b (fst x) /\ comp b (snd y) = comp b (snd x).
Proof.
  intros Hn Hy. unfold copies in Hy. apply in_map_iff in Hy. destruct Hy as ([c i] & <- & Hy). now apply at_axis_other.
Qed.

(** the values that the two neighbours send *)
Definition below (ab : dir -> bool) (a : dir) (f : node -> R) (r p : idx) : R :=
  match towards L ab a (-1) r with None => 0%R | Some q => f (q, set_comp a (comp a p + comp a (n q)) p) end.
Definition above (ab : dir -> bool) (a : dir) (f : node -> R) (r p : idx) : R :=
  match towards L ab a 1 r with None => 0%R | Some q => f (q, set_comp a (comp a p - comp a (n r)) p) end.
Lemma set_node a r p q i : inside L r p -> In q (processes np) -> (forall b, b <> a -> comp b q = comp b r) -> - comp a g <= i <= comp a (n q) + comp a g -> is_node L (q, set_comp a i p).
Proof.
  intros Hp Hq Hb Hi. split; [exact Hq|]. intros b. cbn [fst snd]. destruct (dir_dec a b) as [<-|Hn]; [rewrite comp_set; lia|]. rewrite comp_set_other by exact Hn. rewrite comp_n. rewrite Hb by congruence. rewrite <- comp_n. apply Hp.
Qed.
Lemma below_fin ab a F f r p : finite F f -> In r (processes np) -> inside L r p -> 0 <= comp a p <= comp a g -> from_below L ab a F r p = Fin (below ab a f r p).
Proof.
  intros HF Hr Hp Hi. unfold from_below, below. destruct (towards L ab a (-1) r) as [q|] eqn:E; [|apply fin_zero]. rewrite Z.sub_0_r. apply HF.
  pose proof (towards_in L HL _ _ _ _ _ Hr E) as Hq. apply (set_node a r); [exact Hp|exact Hq|exact (towards_axis L _ _ _ _ _ E)|]. pose proof (n_big L HL a q Hq). lia.
Qed.
Lemma above_fin ab a F f r p : finite F f -> In r (processes np) -> inside L r p -> comp a (n r) - comp a g <= comp a p <= comp a (n r) -> from_above L ab a F r p = Fin (above ab a f r p).
Proof.
  intros HF Hr Hp Hi. unfold from_above, above. destruct (towards L ab a 1 r) as [q|] eqn:E; [|apply fin_zero].
  replace (comp a p - (comp a (n r) - comp a g) + - comp a g) with (comp a p - comp a (n r)) by lia. apply HF.
  pose proof (towards_in L HL _ _ _ _ _ Hr E) as Hq. apply (set_node a r); [exact Hp|exact Hq|exact (towards_axis L _ _ _ _ _ E)|]. pose proof (n_big L HL a q Hq). pose proof (g_pos L HL a). lia.
Qed.

Definition in_low (a : dir) (p : idx) : bool := (0 <=? comp a p) && (comp a p <=? 0 + comp a g).
Definition in_high (a : dir) (r p : idx) : bool := (comp a (n r) - comp a g <=? comp a p) && (comp a p <=? comp a (n r) - comp a g + comp a g).
(** the sum over the copies in terms of the neighbours *)
Lemma copies_total a f r p : is_node L (r, p) -> held_at a (r, p) = true ->
  total (map f (copies a (r, p))) = (f (r, p) + (if in_low a p then below (l_absorbing L) a f r p else 0) + (if in_high a r p && negb (comp a p =? comp a (n r)) then above (l_absorbing L) a f r p else 0))%R.
Proof.
  intros Hx Hh. pose proof Hx as (Hr & Hp). cbn [fst snd] in Hr, Hp. unfold copies, copies1. cbn [fst snd]. cbn [map]. rewrite map_app. unfold at_axis at 1. cbn [fst snd]. rewrite !set_same.
  cbn [map]. unfold total at 1. cbn [fold_right]. fold (total (map f (map (fun ci => at_axis a (r, p) (fst ci) (snd ci)) (if (0 <=? comp a p) && (comp a p <=? comp a g) && negb (l_absorbing L a && (comp a r =? 0)) then [(prev (comp a np) (comp a r), comp a p + l_cells L a (prev (comp a np) (comp a r)))] else []) ++ map (fun ci => at_axis a (r, p) (fst ci) (snd ci)) (if (l_cells L a (comp a r) - comp a g <=? comp a p) && (comp a p <? l_cells L a (comp a r)) && negb (l_absorbing L a && (comp a r =? comp a np - 1)) then [(next (comp a np) (comp a r), comp a p - l_cells L a (comp a r))] else [])))).
  rewrite map_app, total_app. rewrite <- Rplus_assoc. f_equal; [f_equal|].
  - unfold in_low, below, towards. cbn [Z.eqb Pos.eqb]. change ((comp a r + -1) mod comp a np) with (prev (comp a np) (comp a r)). change (0 + comp a g) with (comp a g).
    destruct ((0 <=? comp a p) && (comp a p <=? comp a g)); [|reflexivity]. cbn [andb]. destruct (l_absorbing L a && (comp a r =? 0)); [reflexivity|]. cbn [negb map total fold_right]. unfold at_axis. cbn [fst snd]. rewrite comp_n, comp_set. lra.
  - unfold in_high, above, towards. cbn [Z.eqb Pos.eqb]. change ((comp a r + 1) mod comp a np) with (next (comp a np) (comp a r)). rewrite comp_n.
    replace ((l_cells L a (comp a r) - comp a g <=? comp a p) && (comp a p <=? l_cells L a (comp a r) - comp a g + comp a g) && negb (comp a p =? l_cells L a (comp a r))) with ((l_cells L a (comp a r) - comp a g <=? comp a p) && (comp a p <? l_cells L a (comp a r))) by lia.
    destruct ((l_cells L a (comp a r) - comp a g <=? comp a p) && (comp a p <? l_cells L a (comp a r))); [|reflexivity]. cbn [andb]. destruct (l_absorbing L a && (comp a r =? comp a np - 1)); [reflexivity|]. cbn [negb map total fold_right]. unfold at_axis. cbn [fst snd]. lra.
Qed.
(** the last node is only held at an absorbing boundary *)
Lemma held_last a r p : is_node L (r, p) -> held_at a (r, p) = true -> comp a p = comp a (n r) -> towards L (l_absorbing L) a 1 r = None.
Proof.
  intros Hx Hh E. destruct (Hax L HL a) as (H1 & H2 & H3). pose proof (held_cases _ _ _ _ H1 H2 H3 _ _ (node_range L a _ Hx) Hh) as C. cbn [fst snd] in C. rewrite E, comp_n in C.
  pose proof (proj1 Hx) as Hr. cbn in Hr. pose proof (n_big L HL a r Hr) as Hb. rewrite comp_n in Hb. pose proof (g_pos L HL a).
  destruct C as [C|[C|(C1 & C2 & C3)]]; [lia|lia|]. unfold towards. cbn [Z.eqb Pos.eqb]. rewrite C1, C2, Z.eqb_refl. reflexivity.
Qed.

Lemma nb_summed a F f F' : finite F f ->
  (forall r p, In r (processes np) -> inside L r p -> value F' (r, p) =
      plus_edge L a (comp a (n r) - comp a g) (plus_edge L a 0 (value F (r, p)) (from_below L (l_absorbing L) a F r p) p) (from_above L (l_absorbing L) a F r p) p) ->
  exists f', finite F' f' /\ summed a f f'.
Proof.
  intros HF HV.
  exists (fun x => (f x + (if in_low a (snd x) then below (l_absorbing L) a f (fst x) (snd x) else 0) + (if in_high a (fst x) (snd x) then above (l_absorbing L) a f (fst x) (snd x) else 0))%R).
  split.
  - intros [r p] Hx. pose proof Hx as (Hr & Hp). cbn [fst snd] in Hr, Hp. rewrite HV by assumption. cbn [fst snd]. rewrite (HF _ Hx). unfold plus_edge. fold (in_low a p). fold (in_high a r p).
    destruct (in_low a p) eqn:E1; destruct (in_high a r p) eqn:E2; unfold in_low, in_high in E1, E2; try rewrite (below_fin _ a F f r p HF Hr Hp) by lia; try rewrite (above_fin _ a F f r p HF Hr Hp) by lia; rewrite ?fin_add; f_equal; lra.
  - intros [r p] Hx Hh. cbn [fst snd]. rewrite (copies_total a f r p Hx Hh). f_equal. destruct (in_high a r p); [|reflexivity]. cbn [andb]. destruct (comp a p =? comp a (n r)) eqn:E; [|reflexivity]. cbn [negb].
    unfold above. apply Z.eqb_eq in E. now rewrite (held_last a r p Hx Hh E).
Qed.
Lemma blocking_summed a F f F1 F' : l_absorbing L a = false -> finite F f ->
  (forall r p, In r (processes np) -> inside L r p -> value F1 (r, p) = plus_edge L a 0 (value F (r, p)) (from_below L periodic a F r p) p) ->
  (forall r p, In r (processes np) -> inside L r p -> value F' (r, p) = plus_edge L a (comp a (n r) - comp a g) (value F1 (r, p)) (from_above L periodic a F1 r p) p) ->
  exists f', finite F' f' /\ summed a f f'.
Proof.
  intros Hab HF HV1 HV.
  set (f1 := fun x : node => (f x + (if in_low a (snd x) then below periodic a f (fst x) (snd x) else 0))%R).
  assert (HF1 : finite F1 f1).
  { intros [r p] Hx. pose proof Hx as (Hr & Hp). cbn [fst snd] in Hr, Hp. rewrite HV1 by assumption. rewrite (HF _ Hx). unfold plus_edge, f1. cbn [fst snd]. fold (in_low a p).
    destruct (in_low a p) eqn:E1; unfold in_low in E1; [rewrite (below_fin _ a F f r p HF Hr Hp) by lia; reflexivity|]. f_equal. lra. }
  exists (fun x => (f1 x + (if in_high a (fst x) (snd x) then above periodic a f1 (fst x) (snd x) else 0))%R). split.
  - intros [r p] Hx. pose proof Hx as (Hr & Hp). cbn [fst snd] in Hr, Hp. rewrite HV by assumption. cbn [fst snd]. rewrite (HF1 _ Hx). unfold plus_edge. fold (in_high a r p).
    destruct (in_high a r p) eqn:E2; unfold in_high in E2; [rewrite (above_fin _ a F1 f1 r p HF1 Hr Hp) by lia; reflexivity|]. f_equal. lra.
  - intros [r p] Hx Hh. cbn [fst snd]. rewrite (copies_total a f r p Hx Hh).
    assert (Eb : below (l_absorbing L) a f r p = below periodic a f r p) by (unfold below, towards; now rewrite Hab).
    rewrite Eb. unfold f1 at 1. cbn [fst snd]. f_equal. destruct (in_high a r p) eqn:E2; [|reflexivity]. cbn [andb]. destruct (comp a p =? comp a (n r)) eqn:E; cbn [negb].
    + apply Z.eqb_eq in E. pose proof (held_last a r p Hx Hh E) as X. unfold towards in X. rewrite Hab in X. discriminate.
    + unfold above, towards. rewrite Hab. cbn [andb]. unfold f1. cbn [fst snd]. unfold in_low, in_high in *. rewrite comp_set. replace (0 <=? comp a p - comp a (n r)) with false by lia. cbn [andb]. lra.
Qed.

(** *** All copies of a node *)
Definition copies3 (x : node) : list node := flat_map (copies DirX) (flat_map (copies DirY) (copies DirZ x)).
Lemma held_other a b x y : a <> b -> In y (copies a x) -> held_at b y = held_at b x.
Proof. intros Hn Hy. destruct (copies_other a b x y Hn Hy) as (-> & ->). reflexivity. Qed.
Lemma summed3 f fX fY fZ x : summed DirX f fX -> summed DirY fX fY -> summed DirZ fY fZ -> is_node L x -> responsible L x = true -> fZ x = total (map f (copies3 x)).
Proof.
  intros SX SY SZ Hx Hr. rewrite responsible_iff in Hr. unfold copies3. rewrite !total_flat. rewrite SZ by auto. f_equal. apply map_ext_in. intros z Hz.
  pose proof (copies_node DirZ x z Hx (Hr DirZ) Hz) as Nz. rewrite SY; [|exact Nz|rewrite (held_other DirZ DirY x z) by (assumption || discriminate); apply Hr]. f_equal. apply map_ext_in. intros y Hy.
  assert (HzY : held_at DirY z = true) by (rewrite (held_other DirZ DirY x z) by (assumption || discriminate); apply Hr).
  apply SX; [exact (copies_node DirY z y Nz HzY Hy)|]. rewrite (held_other DirY DirX z y), (held_other DirZ DirX x z) by (assumption || discriminate). apply Hr.
Qed.
Lemma in_copies a x y : is_node L x -> held_at a x = true ->
  (In y (copies a x) <-> is_node L y /\ place L a (comp a (fst y)) (comp a (snd y)) = place L a (comp a (fst x)) (comp a (snd x)) /\ forall b, b <> a -> comp b (fst y) = comp b (fst x) /\ comp b (snd y) = comp b (snd x)).
Proof.
  intros Hx Hh. destruct (Hax L HL a) as (H1 & H2 & H3). split.
  - intros Hy. split; [exact (copies_node a x y Hx Hh Hy)|]. split; [|intros b Hb; apply (copies_other a b x y); [congruence|exact Hy]].
    unfold copies in Hy. apply in_map_iff in Hy. destruct Hy as ([c i] & <- & Hy). apply (copies_spec _ _ _ _ H1 H2 H3 _ _ _ _ (node_range L a x Hx) Hh) in Hy. destruct (at_axis_here a x c i) as (E1 & E2). cbn [fst snd]. rewrite E1, E2. apply Hy.
  - intros (Ny & Ey & Oy). unfold copies. apply in_map_iff. exists (comp a (fst y), comp a (snd y)). cbn [fst snd]. split.
    + unfold at_axis. rewrite (surjective_pairing y) at 3. f_equal; apply idx_ext; intros b; (destruct (dir_dec a b) as [<-|Hn]; [now rewrite comp_set|rewrite comp_set_other by exact Hn; symmetry; apply Oy; congruence]).
    + apply (copies_spec _ _ _ _ H1 H2 H3 _ _ _ _ (node_range L a x Hx) Hh). split; [exact (node_range L a y Ny)|exact Ey].
Qed.
Lemma nodup_copies a x : is_node L x -> NoDup (copies a x).
Proof.
  intros Hx. destruct (Hax L HL a) as (H1 & H2 & H3). unfold copies. apply FinFun.Injective_map_NoDup; [|now apply (copies_nodup _ _ _ _ H1 H2 H3 _ _ (node_range L a x Hx))].
  intros [c i] [d j] E. cbn [fst snd] in E. destruct (at_axis_here a x c i) as (E1 & E2). destruct (at_axis_here a x d j) as (E3 & E4). congruence.
Qed.
Lemma in_copies3 x y : is_node L x -> responsible L x = true -> (In y (copies3 x) <-> is_node L y /\ same_node L x y = true).
Proof.
  intros Hx Hr. pose proof (proj1 (responsible_iff L x) Hr) as Hh. unfold copies3. rewrite in_flat_map. split.
  - intros (z & Hz & Hy). apply in_flat_map in Hz. destruct Hz as (u & Hu & Hz).
    apply (in_copies DirZ x u Hx (Hh DirZ)) in Hu. destruct Hu as (Nu & Pu & Ou).
    assert (Hu2 : held_at DirY u = true) by (destruct (Ou DirY ltac:(discriminate)) as (-> & ->); apply Hh).
    apply (in_copies DirY u z Nu Hu2) in Hz. destruct Hz as (Nz & Pz & Oz).
    assert (Hz2 : held_at DirX z = true) by (destruct (Oz DirX ltac:(discriminate)) as (-> & ->); destruct (Ou DirX ltac:(discriminate)) as (-> & ->); apply Hh).
    apply (in_copies DirX z y Nz Hz2) in Hy. destruct Hy as (Ny & Py & Oy). split; [exact Ny|]. apply same_iff. intros a. symmetry.
    destruct (Oz DirX ltac:(discriminate)) as (a1 & a2), (Ou DirX ltac:(discriminate)) as (a3 & a4), (Oy DirY ltac:(discriminate)) as (a5 & a6), (Ou DirY ltac:(discriminate)) as (a7 & a8), (Oy DirZ ltac:(discriminate)) as (a9 & b1), (Oz DirZ ltac:(discriminate)) as (b2 & b3).
    destruct a; unfold place in *.
    + rewrite a1, a2, a3, a4 in Py. exact Py.
    + rewrite a5, a6. rewrite a7, a8 in Pz. exact Pz.
    + rewrite a9, b1, b2, b3. exact Pu.
  - intros (Ny & S). rewrite same_iff in S.
    set (u := at_axis DirZ x (comp DirZ (fst y)) (comp DirZ (snd y))). set (z := at_axis DirY u (comp DirY (fst y)) (comp DirY (snd y))).
    assert (Nu : is_node L u) by (apply at_axis_node; [exact Hx|now apply (node_range L DirZ)]). assert (Nz : is_node L z) by (apply at_axis_node; [exact Nu|now apply (node_range L DirY)]).
    assert (Hu : In u (copies DirZ x)).
    { apply (in_copies DirZ x u Hx (Hh DirZ)). split; [exact Nu|]. split; [destruct (at_axis_here DirZ x (comp DirZ (fst y)) (comp DirZ (snd y))) as (E1 & E2); fold u in E1, E2; rewrite E1, E2; symmetry; apply (S DirZ)|]. intros b Hb. apply at_axis_other. congruence. }
    assert (Hu2 : held_at DirY u = true) by (rewrite (held_other DirZ DirY x u) by (assumption || discriminate); apply Hh).
    assert (Hz : In z (copies DirY u)).
    { apply (in_copies DirY u z Nu Hu2). split; [exact Nz|]. split; [|intros b Hb; apply at_axis_other; congruence]. destruct (at_axis_here DirY u (comp DirY (fst y)) (comp DirY (snd y))) as (E1 & E2). fold z in E1, E2. rewrite E1, E2.
      destruct (copies_other DirZ DirY x u ltac:(discriminate) Hu) as (-> & ->). symmetry. apply (S DirY). }
    assert (Hz2 : held_at DirX z = true) by (rewrite (held_other DirY DirX u z), (held_other DirZ DirX x u) by (assumption || discriminate); apply Hh).
    exists z. split; [apply in_flat_map; now exists u|]. apply (in_copies DirX z y Nz Hz2). split; [exact Ny|].
    destruct (copies_other DirZ DirX x u ltac:(discriminate) Hu) as (a1 & a2). destruct (copies_other DirY DirX u z ltac:(discriminate) Hz) as (a3 & a4). rewrite a3, a4, a1, a2. split; [symmetry; apply (S DirX)|].
    intros b Hb. destruct b; [congruence| |].
    + destruct (at_axis_here DirY u (comp DirY (fst y)) (comp DirY (snd y))) as (E1 & E2). fold z in E1, E2. now rewrite E1, E2.
    + destruct (copies_other DirY DirZ u z ltac:(discriminate) Hz) as (-> & ->). destruct (at_axis_here DirZ x (comp DirZ (fst y)) (comp DirZ (snd y))) as (E1 & E2). fold u in E1, E2. now rewrite E1, E2.
Qed.
Lemma nodup_copies3 x : is_node L x -> responsible L x = true -> NoDup (copies3 x).
Proof.
  intros Hx Hr. pose proof (proj1 (responsible_iff L x) Hr) as Hh.
  assert (NZ : forall u, In u (copies DirZ x) -> is_node L u /\ held_at DirY u = true /\ held_at DirX u = true).
  { intros u Hu. split; [exact (copies_node DirZ x u Hx (Hh DirZ) Hu)|]. rewrite !(held_other DirZ _ x u) by (assumption || discriminate). split; apply Hh. }
  assert (NY : forall z, In z (flat_map (copies DirY) (copies DirZ x)) -> is_node L z /\ held_at DirX z = true).
  { intros z Hz. apply in_flat_map in Hz. destruct Hz as (u & Hu & Hz). destruct (NZ u Hu) as (Nu & Hu1 & Hu2). split; [exact (copies_node DirY u z Nu Hu1 Hz)|]. now rewrite (held_other DirY DirX u z) by (assumption || discriminate). }
  unfold copies3. apply NoDup_flat_map.
  - apply NoDup_flat_map; [now apply nodup_copies|intros u Hu; apply nodup_copies; now apply NZ|].
    intros u v z Hu Hv Hzu Hzv. destruct (NZ u Hu) as (Nu & Hu1 & _), (NZ v Hv) as (Nv & Hv1 & _). destruct u as [u1 u2], v as [v1 v2].
    pose proof (copies_other DirY DirX _ _ ltac:(discriminate) Hzu) as X1. pose proof (copies_other DirY DirZ _ _ ltac:(discriminate) Hzu) as X2. pose proof (copies_other DirY DirX _ _ ltac:(discriminate) Hzv) as X3. pose proof (copies_other DirY DirZ _ _ ltac:(discriminate) Hzv) as X4.
    pose proof (copies_other DirZ DirY _ _ ltac:(discriminate) Hu) as X5. pose proof (copies_other DirZ DirY _ _ ltac:(discriminate) Hv) as X6. cbn [fst snd] in *.
    f_equal; apply idx_ext; intros a; destruct a; try (destruct X1, X2, X3, X4, X5, X6; congruence).
  - intros z Hz. apply nodup_copies. now apply NY.
  - intros u v z Hu Hv Hzu Hzv.
    pose proof (copies_other DirX DirY _ _ ltac:(discriminate) Hzu) as X1. pose proof (copies_other DirX DirZ _ _ ltac:(discriminate) Hzu) as X2. pose proof (copies_other DirX DirY _ _ ltac:(discriminate) Hzv) as X3. pose proof (copies_other DirX DirZ _ _ ltac:(discriminate) Hzv) as X4.
    apply in_flat_map in Hu. destruct Hu as (u' & Hu' & Hu). apply in_flat_map in Hv. destruct Hv as (v' & Hv' & Hv).
    pose proof (copies_other DirY DirX _ _ ltac:(discriminate) Hu) as X5. pose proof (copies_other DirY DirX _ _ ltac:(discriminate) Hv) as X6. pose proof (copies_other DirZ DirX _ _ ltac:(discriminate) Hu') as X7. pose proof (copies_other DirZ DirX _ _ ltac:(discriminate) Hv') as X8.
    destruct u as [u1 u2], v as [v1 v2]. cbn [fst snd] in *. f_equal; apply idx_ext; intros a; destruct a; try (destruct X1, X2, X3, X4, X5, X6, X7, X8; congruence).
Qed.
Lemma nodup_nodes : NoDup (nodes L).
Proof.
  unfold nodes. apply NoDup_flat_map.
  - unfold processes. destruct np as [[? ?] ?]. apply NoDup_box.
  - intros r Hr. apply FinFun.Injective_map_NoDup; [intros p q E; congruence|]. unfold local_nodes. destruct g as [[? ?] ?], (n r) as [[? ?] ?]. apply NoDup_box.
  - intros r s x Hr Hs H1 H2. apply in_map_iff in H1, H2. destruct H1 as (p & <- & _), H2 as (q & E & _). congruence.
Qed.
Lemma nodup_filter {X} (f : X -> bool) l : NoDup l -> NoDup (filter f l).
Proof. apply NoDup_filter. Qed.
Lemma copies3_all x : is_node L x -> responsible L x = true -> Permutation (copies3 x) (filter (same_node L x) (nodes L)).
Proof.
  intros Hx Hr. apply NoDup_Permutation; [now apply nodup_copies3|apply nodup_filter, nodup_nodes|]. intros y. rewrite filter_In, in_nodes. now apply in_copies3.
Qed.

Lemma charge_bcs_sum blocking (F : world_of) f : (blocking = true -> forall a, l_absorbing L a = false) -> Inv L F -> good_types L F -> finite F f ->
  exists F', charge_bcs np n g blocking (l_absorbing L) (start L F) = Ret (start L F') /\ Inv L F' /\ good_types L F' /\
    forall x, is_node L x -> value F' x = Fin (total (map f (filter (same_node L x) (nodes L)))).
Proof.
  intros Hab HI HT HF.
  assert (X : exists F3 fX fY fZ, Inv L F3 /\ good_types L F3 /\ finite F3 fZ /\ summed DirX f fX /\ summed DirY fX fY /\ summed DirZ fY fZ /\
    charge_bcs np n g blocking (l_absorbing L) (start L F) = field_bc np n g blocking (l_absorbing L) (start L F3)).
  { unfold charge_bcs. destruct blocking.
    - destruct (sum_axis_ok L HL 7 DirX F HI HT eq_refl) as (F1' & F1 & E1 & I1 & T1 & A1 & B1). destruct (blocking_summed DirX F f F1' F1 (Hab eq_refl _) HF A1 B1) as (fX & HX & SX).
      destruct (sum_axis_ok L HL 8 DirY F1 I1 T1 eq_refl) as (F2' & F2 & E2 & I2 & T2 & A2 & B2). destruct (blocking_summed DirY F1 fX F2' F2 (Hab eq_refl _) HX A2 B2) as (fY & HY & SY).
      destruct (sum_axis_ok L HL 9 DirZ F2 I2 T2 eq_refl) as (F3' & F3 & E3 & I3 & T3 & A3 & B3). destruct (blocking_summed DirZ F2 fY F3' F3 (Hab eq_refl _) HY A3 B3) as (fZ & HZ & SZ).
      exists F3, fX, fY, fZ. repeat (split; [assumption|]). unfold summation_bcs. rewrite E1. cbn [bind]. rewrite E2. cbn [bind]. rewrite E3. reflexivity.
    - destruct (sum_axis_nb_ok L HL (l_absorbing L) 10 DirX F HI HT eq_refl) as (F1 & E1 & I1 & T1 & A1). destruct (nb_summed DirX F f F1 HF A1) as (fX & HX & SX).
      destruct (sum_axis_nb_ok L HL (l_absorbing L) 11 DirY F1 I1 T1 eq_refl) as (F2 & E2 & I2 & T2 & A2). destruct (nb_summed DirY F1 fX F2 HX A2) as (fY & HY & SY).
      destruct (sum_axis_nb_ok L HL (l_absorbing L) 12 DirZ F2 I2 T2 eq_refl) as (F3 & E3 & I3 & T3 & A3). destruct (nb_summed DirZ F2 fY F3 HY A3) as (fZ & HZ & SZ).
      exists F3, fX, fY, fZ. repeat (split; [assumption|]). unfold summation_bcs_nonblocking. rewrite E1. cbn [bind]. rewrite E2. cbn [bind]. rewrite E3. reflexivity. }
  destruct X as (F3 & fX & fY & fZ & I3 & T3 & HZ & SX & SY & SZ & E). destruct (field_bc_ok L HL blocking F3 I3 T3) as (F4 & E4 & I4 & T4 & V4).
  exists F4. split; [now rewrite E|]. split; [exact I4|]. split; [exact T4|]. intros x Hx. rewrite V4 by exact Hx. destruct (own3_spec L HL x Hx) as (No & Ro & So). rewrite HZ by exact No. f_equal.
  rewrite (summed3 f fX fY fZ _ SX SY SZ No Ro). rewrite (total_perm _ _ (Permutation_map f (copies3_all _ No Ro))). f_equal. f_equal. apply filter_ext. intros y.
  apply eq_true_iff_eq. split; intros S; [exact (same_trans L _ _ _ So S)|]. rewrite same_sym in So. exact (same_trans L _ _ _ So S).
Qed.

(** every node has one responsible process *)
Lemma responsible_partition : Permutation (flat_map (fun x => filter (same_node L x) (nodes L)) (filter (responsible L) (nodes L))) (nodes L).
Proof.
  apply NoDup_Permutation.
  - apply NoDup_flat_map; [apply nodup_filter, nodup_nodes|intros; apply nodup_filter, nodup_nodes|]. intros x y z Hx Hy Hxz Hyz. apply filter_In in Hx, Hy, Hxz, Hyz.
    destruct Hx as (Nx & Rx), Hy as (Ny & Ry), Hxz as (Nz & Sx), Hyz as (_ & Sy). apply in_nodes in Nx, Ny. apply (responsible_unique L HL); try assumption. rewrite same_sym in Sy. exact (same_trans L _ _ _ Sx Sy).
  - apply nodup_nodes.
  - intros y. rewrite in_flat_map. split; [intros (x & _ & Hy); now apply filter_In in Hy|]. intros Hy. pose proof (proj1 (in_nodes L y) Hy) as Ny. destruct (own3_spec L HL y Ny) as (No & Ro & So).
    exists (own3 L y). split; apply filter_In; [split; [now apply in_nodes|exact Ro]|]. split; [exact Hy|]. now rewrite same_sym.
Qed.
Lemma total_conserved f : total (map (fun x => total (map f (filter (same_node L x) (nodes L)))) (filter (responsible L) (nodes L))) = total (map f (nodes L)).
Proof. rewrite <- total_flat. apply total_perm, Permutation_map, responsible_partition. Qed.
End Sum.

(** C113 *)
Lemma summation (L : layout) (blocking : bool) (F : idx -> pstate (num FRX)) (f : node -> R) : sound_layout L -> right_start L F ->
  (blocking = true -> forall a, l_absorbing L a = false) -> (forall x, In x (nodes L) -> value F x = Fin (f x)) ->
  exists F', charge_bcs (l_procs L) (local_cells L) (l_guards L) blocking (l_absorbing L) (start L F) = Ret (start L F') /\ right_start L F' /\
    forall x, In x (nodes L) -> value F' x = Fin (total (map f (filter (same_node L x) (nodes L)))).
Proof.
  intros HL H Hab HF. destruct (start_inv L F H) as (HI & HT). destruct (charge_bcs_sum L HL blocking F f Hab HI HT) as (F' & E & I & T & V); [intros x Hx; apply HF; now apply in_nodes|].
  exists F'. split; [exact E|]. split; [intros r Hr; split; [now apply I|now apply T]|]. intros x Hx. apply V. now apply in_nodes.
Qed.
Lemma charge_conserved (L : layout) (blocking : bool) (F : idx -> pstate (num FRX)) (f : node -> R) : sound_layout L -> right_start L F ->
  (blocking = true -> forall a, l_absorbing L a = false) -> (forall x, In x (nodes L) -> value F x = Fin (f x)) ->
  exists F' f', charge_bcs (l_procs L) (local_cells L) (l_guards L) blocking (l_absorbing L) (start L F) = Ret (start L F') /\
    (forall x, In x (nodes L) -> value F' x = Fin (f' x)) /\ total (map f' (filter (responsible L) (nodes L))) = total (map f (nodes L)).
Proof.
  intros HL H Hab HF. destruct (summation L blocking F f HL H Hab HF) as (F' & E & _ & V). exists F', (fun x => total (map f (filter (same_node L x) (nodes L)))). split; [exact E|]. split; [exact V|]. now apply total_conserved.
Qed.
