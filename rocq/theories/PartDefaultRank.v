(** Proofs about PartDefault.v: parts 1 and 2 on one process. *)
From Coq Require Import ZArith List Bool Permutation Lia.
From Verif Require Import Cxx CxxLemmas Num Fortran FortranLemmas Grid GridLemmas Deposit Tiles Exchange TilesProofs TilesExchange SpecTiles TilesFacts TilesDomain PartBC SpecPartBC PartBCProofs PartBCTile PartBCGlobal PartDefault SpecPartDefault PartDefaultProofs.
Import ListNotations.
Local Open Scope Z_scope.
Local Opaque directions.

Lemma only_here {Y} (F : idx -> list Y) r l : NoDup l -> In r l -> (forall q, In q l -> q <> r -> F q = []) -> flat_map F l = F r.
Proof.
  intros ND Hr H. destruct (in_split _ _ Hr) as (l1 & l2 & ->). apply NoDup_remove_2 in ND. rewrite flat_map_app. cbn [flat_map].
  rewrite (flat_map_ext_in F (fun _ => []) l1), (flat_map_ext_in F (fun _ => []) l2), !flat_nil, app_nil_r; [reflexivity| |];
   intros q Hq; apply H; try (apply in_app_iff; cbn; tauto); intros ->; apply ND, in_app_iff; tauto.
Qed.
Lemma filter_flat_map {X Y} (f : Y -> bool) (g : X -> list Y) l : filter f (flat_map g l) = flat_map (fun x => filter f (g x)) l.
Proof. induction l as [|a l IH]; [reflexivity|]. cbn [flat_map]. now rewrite filter_app, IH. Qed.
Lemma map_flat {A B C} (f : B -> C) (g : A -> list B) l : map f (flat_map g l) = flat_map (fun x => map f (g x)) l.
Proof. induction l as [|a l IH]; [reflexivity|]. cbn [flat_map]. now rewrite map_app, IH. Qed.

Lemma NoDup_colours {N} (D : dom N) : NoDup (flat_map (colour D) colours).
Proof.
  apply NoDup_flat_map; [apply NoDup_box|intros c _; apply NoDup_colour|].
  intros [[a b] c] [[a' b'] c'] [[j k] l] H H' Hx Hx'. apply in_colour in Hx. apply in_colour in Hx'. rewrite !in_steps3 in Hx, Hx'.
  unfold colours in H, H'. apply in_box_box, in_box_iff in H. apply in_box_box, in_box_iff in H'.
  destruct Hx as ((? & ? & ? & ?) & (? & ? & ? & ?) & (? & ? & ? & ?)), Hx' as ((? & ? & ? & ?) & (? & ? & ? & ?) & (? & ? & ? & ?)).
  assert (a = a') by lia. assert (b = b') by lia. assert (c = c') by lia. congruence.
Qed.
Lemma colours_all {N} (D : dom N) : Permutation (flat_map (colour D) colours) (all_tiles D).
Proof.
  apply NoDup_Permutation; [apply NoDup_colours|apply NoDup_box|]. intros q. rewrite in_flat_map. split.
  - intros (c & Hc & Hq). now apply colour_tiles with c.
  - intros Hq. destruct (tiles_colour D q Hq) as (c & Hc & H). now exists c.
Qed.

Section Rank.
Context {N : FNum} (M : Z) (HM : sizes_exact N M) (D : dom N) (B : bnd N) (n0 : idx) (T : grid (tile N)) (A : idx -> list (part N)) (bs : Z).
Hypothesis HC : contents M D T A.
Hypothesis HF : first_tile T = Ret n0.
Hypothesis HA : agree D B.
Hypothesis HP : placeable D B n0 T A.
Hypothesis HR : 2 * zlen (all_particles D A) + 1 <= M.
Hypothesis Hbs : 1 <= bs.
Notation tiles := (all_tiles D).

(** what the buffers contain after part 1 *)
Definition filled (F : grid (tbuf N)) (L : idx -> Z -> list (part N)) : Prop :=
  glo F = (1, 1, 1) /\ ghi F = (ag_nt (dX D), ag_nt (dY D), ag_nt (dZ D)) /\
  forall q, In q tiles -> if t_bound (gat T q) then bholds (gat F q) (L q) else forall j, L q j = [] /\ tb_np (gat F q) j = 0.

Lemma part1_ok : exists T' F c A' L, default_part1 bs D B T = Ret (T', F, c) /\ contents M D T' A' /\ (forall q, In q tiles -> same_extents (gat T q) (gat T' q)) /\
  (forall r, In r tiles -> Permutation (A' r) (to_tile D B n0 T A r)) /\ filled F L /\
  (forall q j, In q tiles -> 1 <= j <= 27 -> Permutation (L q j) (flat_map (lv D B n0 T q j) (A q))) /\
  forall j, 1 <= j <= 27 -> c j = zlen (flat_map (fun q => flat_map (lv D B n0 T q j) (A q)) tiles).
Proof.
  pose proof HC as (E1 & E2 & _).
  assert (S0 : stage M D B n0 T (zlen (all_particles D A)) A (T, no_tbufs D) (fun _ => None) A (fun _ _ => [])).
  { split; [exact (contents_rep M D T A HC)|]. split; [|split; [|split; [reflexivity|]]].
    - split; [reflexivity|]. split; [reflexivity|]. intros q _ j. reflexivity.
    - split; [discriminate|]. split; [|reflexivity]. intros q p Hq. unfold todo. rewrite firstn_all. intros Hp Hi. now apply HP.
    - intros q j _ _. unfold out_of, todo. rewrite firstn_all. reflexivity. }
  destruct (stage_tiles M HM D B n0 T E1 E2 HA (zlen (all_particles D A)) A bs HR Hbs (flat_map (colour D) colours) T (no_tbufs D) (fun _ => 0) _ A _ (NoDup_colours D)
     (fun q Hq => conj (Permutation_in q (colours_all D) Hq) eq_refl) S0) as (T' & F & c & A' & L & fr & E & (R & (F1 & F2 & F3) & _ & PS & PO) & G & _ & C).
  exists T', F, c, A', L. unfold default_part1. rewrite HF. cbn [bind]. split; [exact E|].
  assert (G' : forall q, In q tiles -> fr q = Some O) by (intros q Hq; apply G; symmetry in Hq || idtac; now apply (Permutation_in q (Permutation_sym (colours_all D)))).
  cbn [fst snd] in *. destruct (rep_contents M D T A HC T' A' R) as (HC' & HS'). split; [exact HC'|]. split; [exact HS'|]. split; [|split; [|split]].
  - intros r Hr. apply (perm_filter (fun x => idx_eqb (fst x) r)) in PS. apply (Permutation_map snd) in PS. unfold shares in PS.
    rewrite !filter_flat_map, !map_flat in PS.
    rewrite (only_here _ r) in PS.
    + etransitivity; [|etransitivity; [exact PS|]].
      * unfold share, todo. rewrite (G' r Hr). cbn [firstn flat_map skipn app]. clear. induction (A' r) as [|p l IH]; [reflexivity|]. cbn [map filter fst]. rewrite idx_eqb_refl. cbn [map snd]. now constructor.
      * unfold to_tile. apply flat_map_perm_in. intros q _. unfold share, todo. rewrite firstn_all, skipn_all. cbn [map]. rewrite app_nil_r, filter_flat_map, map_flat.
        apply flat_map_perm_in. intros p _. unfold tl. destruct (lot_of D B n0 T q p); try reflexivity. cbn [filter fst]. destruct (idx_eqb _ _); reflexivity.
    + apply NoDup_box.
    + exact Hr.
    + intros q Hq Dn. unfold share, todo. rewrite (G' q Hq). cbn [firstn flat_map skipn app]. clear - Dn. induction (A' q) as [|p l IH]; [reflexivity|]. cbn [map filter fst]. now rewrite (proj2 (idx_eqb_neq q r) Dn).
  - split; [exact F1|]. split; [exact F2|]. intros q Hq. specialize (F3 q Hq). rewrite (G' q Hq) in F3. exact F3.
  - intros q j Hq Hj. rewrite <- (PO q j Hq Hj). unfold out_of, todo. rewrite (G' q Hq). cbn [firstn flat_map]. now rewrite app_nil_r.
  - intros j Hj. rewrite C by exact Hj. unfold leaving. rewrite (zlen_perm _ _ (flat_map_perm _ _ _ (colours_all D))). reflexivity.
Qed.

(** the particles that go in direction d *)
Lemma to_send_lv d : In d directions -> to_send D B n0 T A d = flat_map (fun q => flat_map (lv D B n0 T q (slot d)) (A q)) tiles.
Proof.
  intros Hd. apply in_directions in Hd. destruct Hd as (Hd & _). unfold to_send. apply flat_map_ext_in. intros q _. apply flat_map_ext_in. intros p _.
  unfold lv. destruct (lot_of D B n0 T q p) as [| |e p'] eqn:E; try reflexivity.
  assert (He : in_box (-1, -1, -1) (1, 1, 1) e = true).
  { unfold lot_of in E. destruct (inside _ _); [discriminate|]. destruct (outside D p) eqn:Eo; [|now destruct (default_target D n0 p)].
    destruct (default_fate (gat T q) B p) eqn:Ef; try discriminate. injection E as <- <-. eapply fate_direction in Ef; [|exact HA|exact Eo]. now apply in_directions in Ef. }
  destruct (Z.eqb_spec (slot e) (slot d)) as [Es|Es].
  - apply slot_inj in Es; [|exact He|exact Hd]. subst e. now rewrite idx_eqb_refl.
  - rewrite (proj2 (idx_eqb_neq e d)); [reflexivity|]. congruence.
Qed.

Lemma maxval_ge c j : 1 <= j <= 27 -> c j <= maxval c.
Proof.
  intros Hj. unfold maxval. assert (H : In j (zrange 1 27)) by (apply in_zrange; lia). induction (zrange 1 27) as [|k l IH]; [destruct H|].
  cbn [fold_right]. destruct H as [->|H]; [lia|]. specialize (IH H). lia.
Qed.
Lemma send_ok F L j cap : filled F L -> 1 <= j <= 27 -> forall qs m, (forall q, In q qs -> In q tiles) ->
  zlen m + zlen (flat_map (fun q => L q j) qs) <= cap -> for_each (send_tile F cap j) qs m = Ret (m ++ map Some (flat_map (fun q => L q j) qs)).
Proof.
  intros (F1 & F2 & F3) Hj. induction qs as [|q qs IH]; intros m Hqs Hcap; [cbn; now rewrite app_nil_r|].
  cbn [for_each flat_map] in *. rewrite zlen_app in Hcap. pose proof (zlen_nonneg (L q j)). pose proof (zlen_nonneg (flat_map (fun q => L q j) qs)).
  assert (Hq : In q tiles) by (apply Hqs; now left).
  assert (X : send_tile F cap j q m = Ret (m ++ map Some (L q j))).
  { unfold send_tile, get3. assert (Hqb : in_box (1, 1, 1) (ag_nt (dX D), ag_nt (dY D), ag_nt (dZ D)) q = true) by (apply in_box_box; exact Hq).
    rewrite F1, F2, Hqb. cbn [bind]. specialize (F3 q Hq). destruct (t_bound (gat T q)).
    - destruct F3 as (n & En & F3). destruct (F3 j Hj) as (X1 & X2 & X3 & junk & X4). rewrite X1. destruct (Z.eqb_spec (zlen (L q j)) 0) as [E|E].
      + assert (E' : L q j = []) by (destruct (L q j); [reflexivity|unfold zlen in E; cbn in E; lia]). rewrite E'. cbn. now rewrite app_nil_r.
      + rewrite En, (proj2 (Z.leb_le _ n)) by lia. rewrite (proj2 (Z.leb_le _ cap)) by lia. cbn [andb]. rewrite X4. do 2 f_equal.
        rewrite firstn_app. replace (Z.to_nat (zlen (L q j))) with (length (map (@Some (part N)) (L q j))) by (rewrite map_length; unfold zlen; lia).
        now rewrite firstn_all, Nat.sub_diag, firstn_O, app_nil_r.
    - destruct (F3 j) as (X1 & X2). rewrite X1, X2. cbn. now rewrite app_nil_r. }
  rewrite X. cbn [bind]. rewrite IH.
  - now rewrite map_app, <- app_assoc.
  - intros r Hr. apply Hqs. now right.
  - rewrite zlen_app, zlen_map. lia.
Qed.

Lemma local_ok : exists T' A' (ms : idx -> list (part N)), default_local bs D B T = Ret (T', map (fun d => map Some (ms d)) directions) /\ contents M D T' A' /\
  (forall q, In q tiles -> same_extents (gat T q) (gat T' q)) /\
  (forall r, In r tiles -> Permutation (A' r) (to_tile D B n0 T A r)) /\ forall d, In d directions -> Permutation (ms d) (to_send D B n0 T A d).
Proof.
  destruct part1_ok as (T' & F & c & A' & L & E & HC' & HS & HT & HL & PL & PC). exists T', A', (fun d => flat_map (fun q => L q (slot d)) tiles).
  assert (Q : forall d, In d directions -> Permutation (flat_map (fun q => L q (slot d)) tiles) (to_send D B n0 T A d)).
  { intros d Hd. rewrite (to_send_lv d Hd). apply flat_map_perm_in. intros q Hq. apply PL; [exact Hq|]. apply in_directions in Hd. now apply slot_range. }
  unfold default_local. rewrite E. cbn [bind]. unfold default_part2. rewrite (mapM_rets _ (fun d => map Some (flat_map (fun q => L q (slot d)) tiles))).
  - cbn [bind]. split; [reflexivity|]. split; [exact HC'|]. split; [exact HS|]. split; [exact HT|exact Q].
  - intros d Hd. assert (Hj : 1 <= slot d <= 27) by (apply in_directions in Hd; now apply slot_range). unfold send_buffer.
    rewrite (send_ok F L (slot d) (maxval c) HL Hj tiles []); [reflexivity|auto|].
    change (zlen (@nil (option (part N)))) with 0. rewrite (zlen_perm _ _ (Q d Hd)), (to_send_lv d Hd), <- PC by exact Hj. pose proof (maxval_ge c (slot d) Hj). lia.
Qed.
End Rank.
