(** The facts about the tiles that the property files state. *)
From Coq Require Import ZArith Reals List Bool Permutation Lia Lra.
From Verif Require Import Cxx CxxLemmas Num NumRX Fortran FortranLemmas FortranNum Grid GridLemmas Deposit Tiles Exchange TilesProofs TilesExchange TilesReal SpecTiles.
Import ListNotations.
Local Open Scope Z_scope.

Lemma stores_holds {N} M (t : tile N) ps : stores t ps /\ t_max t <= M <-> holds M t ps.
Proof. unfold stores, holds. tauto. Qed.

(** *** Storage of one tile *)
Section Storage.
Context {N : FNum} (M : Z) (HM : sizes_exact N M).

Lemma add_fact t ps p : stores t ps -> t_max t <= M -> 2 * zlen ps + 1 <= M ->
  exists t', @add_to_tile N t p = Ret t' /\ stores t' (ps ++ [p]) /\ t_max t' <= M /\ same_extents t t'.
Proof.
  intros H1 H2 H3. destruct (add_holds M HM t ps p) as (t' & E & Hh & Hp); [now apply stores_holds|exact H3|].
  apply stores_holds in Hh. exists t'. tauto.
Qed.
Lemma rm_fact t l1 p l2 : stores t (l1 ++ p :: l2) -> t_max t <= M ->
  exists t', @rm_from_tile N t (zlen l1 + 1) = Ret t' /\ t_max t' <= M /\ same_extents t t' /\
    stores t' (l1 ++ match rev l2 with [] => [] | z :: r => z :: rev r end).
Proof.
  intros H1 H2. destruct (rm_holds M HM t l1 p l2) as (t' & E & Hh & Hp); [now apply stores_holds|].
  apply stores_holds in Hh. destruct Hh as (Hs & Hm). exists t'. split; [exact E|]. split; [exact Hm|]. split; [exact Hp|].
  destruct l2 as [|x l3 _] using rev_ind; [exact Hs|]. rewrite rot_snoc in Hs. rewrite rev_app_distr. cbn. now rewrite rev_involutive.
Qed.

(** removal by mask *)
Lemma mask_loop n : forall (mask : list bool) (t : tile N) (npart : Z) (l1 l2 : list (part N)) (A0 : list (part N)), holds M t (l1 ++ l2) -> length l1 = n -> firstn n A0 = l1 -> (n <= length mask)%nat ->
  exists (t' : tile N) (npart' : Z), do_down n (Z.of_nat n) (fun i (s : tile N * Z) => do m <- get1 mask i;
      if m then Ret s else do t <- @rm_from_tile N (fst s) i; Ret (t, snd s - 1)) (t, npart) = Ret (t', npart') /\
    same_place t t' /\ (exists l, holds M t' l /\ Permutation l (kept (firstn n mask) l1 ++ l2) /\
    npart' = npart - (zlen l1 - zlen (kept (firstn n mask) l1))).
Proof.
  induction n as [|n IH]; intros mask t npart l1 l2 A0 Hh Hl EA Hm.
  - destruct l1; [|discriminate]. exists t, npart. split; [reflexivity|]. split; [now repeat split|]. exists l2. split; [exact Hh|]. split; [reflexivity|].
    change (zlen (@nil (part N))) with 0. unfold kept. cbn. change (zlen (@nil (part N))) with 0. lia.
  - destruct l1 as [|p l3 _] using rev_ind; [discriminate|]. rewrite app_length in Hl. cbn [length] in Hl. assert (L3 : length l3 = n) by lia.
    assert (Lm : exists m0 b m1, mask = m0 ++ b :: m1 /\ length m0 = n).
    { destruct (nth_error mask n) as [b|] eqn:E; [|apply nth_error_None in E; lia]. destruct (nth_error_split _ _ E) as (m0 & m1 & -> & L). now exists m0, b, m1. }
    destruct Lm as (m0 & b & m1 & -> & Lm). cbn [do_down].
    replace (get1 (m0 ++ b :: m1) (Z.of_nat (S n))) with (Ret b : out bool).
    2:{ symmetry. unfold get1. apply zget_ok; [lia|]. replace (Z.to_nat (Z.of_nat (S n) - 1)) with n by lia. rewrite nth_error_app2 by lia. now rewrite Lm, Nat.sub_diag. }
    cbn [bind].
    assert (Fk : forall X : list (part N), length X = n -> firstn n (m0 ++ b :: m1) = m0 /\ kept (firstn (S n) (m0 ++ b :: m1)) (X ++ [p]) = kept m0 X ++ (if b then [p] else [])).
    { intros X LX. assert (F1 : firstn n (m0 ++ b :: m1) = m0).
      { rewrite firstn_app, Lm, Nat.sub_diag, firstn_O, app_nil_r. apply firstn_all2. lia. }
      split; [exact F1|].
      assert (F2 : firstn (S n) (m0 ++ b :: m1) = m0 ++ [b]).
      { rewrite firstn_app, Lm. replace (S n - n)%nat with 1%nat by lia. rewrite firstn_all2 by lia. reflexivity. }
      rewrite F2. unfold kept. clear -LX Lm. revert X LX. rewrite <- Lm. clear. induction m0 as [|c m0 IH]; intros [|x X] LX; try discriminate.
      - cbn. now destruct b.
      - cbn [app combine filter fst]. injection LX as LX. destruct c; cbn [map snd]; rewrite IH by exact LX; reflexivity. }
    destruct (Fk l3 L3) as (F1 & F2).
    assert (EA3 : firstn n A0 = l3).
    { transitivity (firstn n (firstn (S n) A0)); [rewrite firstn_firstn; now replace (Nat.min n (S n)) with n by lia|].
      rewrite EA. rewrite firstn_app. rewrite L3, Nat.sub_diag, firstn_O, app_nil_r. apply firstn_all2. lia. }
    rewrite <- app_assoc in Hh. cbn [app] in Hh.
    destruct b; cbn [bind].
    + destruct (IH (m0 ++ true :: m1) t npart l3 (p :: l2) A0 Hh L3 EA3 ltac:(lia)) as (t' & np' & E & Hp & l & H1 & H2 & H3).
      rewrite F1 in H2, H3. exists t', np'. replace (Z.of_nat (S n) - 1) with (Z.of_nat n) by lia. split; [exact E|]. split; [exact Hp|]. exists l. split; [exact H1|].
      rewrite F2, !zlen_app. split; [now rewrite <- app_assoc|]. change (zlen [p]) with 1. lia.
    + destruct (rm_holds M HM t l3 p l2 Hh) as (t1 & E1 & Hh1 & Hp1). unfold zlen in E1. rewrite L3 in E1. replace (Z.of_nat n + 1) with (Z.of_nat (S n)) in E1 by lia.
      cbn [fst snd]. rewrite E1. cbn [bind fst snd].
      destruct (IH (m0 ++ false :: m1) t1 (npart - 1) l3 (rot l2) A0 Hh1 L3 EA3 ltac:(lia)) as (t' & np' & E & Hp & l & H1 & H2 & H3).
      rewrite F1 in H2, H3. exists t', np'. replace (Z.of_nat (S n) - 1) with (Z.of_nat n) by lia. split; [exact E|].
      split; [destruct Hp1 as (? & ? & ? & ?), Hp as (? & ? & ? & ?); repeat split; congruence|]. exists l. split; [exact H1|].
      rewrite F2, app_nil_r, zlen_app. split; [rewrite H2; apply Permutation_app_head, rot_perm|]. change (zlen [p]) with 1. lia.
Qed.
Lemma mask_fact t ps mask npart : stores t ps -> t_max t <= M -> zlen mask = zlen ps ->
  exists t' npart' l, @rm_with_mask N mask t npart = Ret (t', npart') /\ stores t' l /\ t_max t' <= M /\ same_extents t t' /\
    Permutation l (kept mask ps) /\ npart' = npart - (zlen ps - zlen l).
Proof.
  intros H1 H2 H3. unfold rm_with_mask, do_range_down. pose proof H1 as (_ & En & _).
  replace (Z.to_nat (t_np t - 1 + 1)) with (length ps) by (rewrite En; unfold zlen; lia). rewrite En.
  destruct (mask_loop (length ps) mask t npart ps [] ps) as (t' & np' & E & Hp & l & Hh & HP & Hn).
  - rewrite app_nil_r. now apply stores_holds.
  - reflexivity.
  - apply firstn_all.
  - unfold zlen in H3. lia.
  - assert (Em : firstn (length ps) mask = mask) by (apply firstn_all2; unfold zlen in H3; lia). rewrite Em, app_nil_r in *.
    apply stores_holds in Hh. exists t', np', l. split; [exact E|]. split; [apply Hh|]. split; [apply Hh|]. split; [exact Hp|]. split; [exact HP|].
    unfold zlen in *. rewrite (Permutation_length HP). exact Hn.
Qed.

(** a group of particles *)
Lemma group_loop (g : list (part N)) k : forall arr ps0 junk done_, arr = map Some (ps0 ++ done_) ++ junk -> (length done_ + k = length g)%nat ->
  (k <= length junk)%nat -> firstn (length done_) g = done_ ->
  exists junk', do_loop k (zlen done_ + 1) (fun i a => do p <- get1 g i; set1 a (zlen ps0 + i) (Some p)) arr = Ret (map Some (ps0 ++ g) ++ junk') /\
    zlen (map (@Some (part N)) (ps0 ++ g) ++ junk') = zlen arr.
Proof.
  induction k as [|k IH]; intros arr ps0 junk dn Ea Hk Hj Hd.
  - exists junk. rewrite Nat.add_0_r in Hk. rewrite Hk, firstn_all in Hd. subst dn. cbn [do_loop]. split; [now rewrite Ea|now rewrite Ea].
  - cbn [do_loop]. destruct (nth_error g (length dn)) as [p|] eqn:E; [|apply nth_error_None in E; lia].
    replace (get1 g (zlen dn + 1)) with (Ret p : out (part N)).
    2:{ symmetry. unfold get1. apply zget_ok; [unfold zlen; lia|]. now replace (Z.to_nat (zlen dn + 1 - 1)) with (length dn) by (unfold zlen; lia). }
    cbn [bind]. destruct junk as [|o junk]; [cbn in Hj; lia|].
    rewrite set1_ok.
    2:{ rewrite Ea, zlen_app, zlen_map, zlen_app, zlen_cons. pose proof (zlen_nonneg ps0). pose proof (zlen_nonneg dn). pose proof (zlen_nonneg junk). lia. }
    replace (Z.to_nat (zlen ps0 + (zlen dn + 1) - 1)) with (length (map (@Some (part N)) (ps0 ++ dn))) by (rewrite map_length, app_length; unfold zlen; lia).
    rewrite Ea, lset_app_here. cbn [bind].
    destruct (IH (map Some (ps0 ++ dn) ++ Some p :: junk) ps0 junk (dn ++ [p])) as (junk' & E1 & E2).
    + rewrite app_assoc, (map_app _ (ps0 ++ dn)), <- app_assoc. reflexivity.
    + rewrite app_length. cbn [length]. lia.
    + cbn [length] in Hj. lia.
    + rewrite app_length. cbn [length]. destruct (nth_error_split _ _ E) as (a & b & -> & L).
      rewrite firstn_app, L. replace (length dn + 1 - length dn)%nat with 1%nat by lia. rewrite firstn_all2 by lia. cbn. f_equal.
      rewrite <- L, firstn_app, Nat.sub_diag, firstn_O, app_nil_r, firstn_all in Hd. exact Hd.
    + exists junk'. split; [|rewrite E2; rewrite !zlen_app, !zlen_cons; lia]. rewrite <- E1. f_equal. rewrite zlen_app. change (zlen [p]) with 1. lia.
Qed.
Lemma group_fact t ps g : stores t ps -> 2 * t_max t + 1 <= M ->
  (zlen ps + zlen g <= 2 * t_max t + 1 ->
     exists t', @add_group_to_tile N t g = Ret t' /\ stores t' (ps ++ g) /\ t_max t' <= M /\ same_extents t t') /\
  (2 * t_max t + 1 < zlen ps + zlen g -> @add_group_to_tile N t g = UB).
Proof.
  intros H1 H2. pose proof (zlen_nonneg ps) as Hp0. pose proof (zlen_nonneg g) as Hg0.
  assert (Hh : holds M t ps).
  { apply stores_holds. split; [exact H1|]. destruct H1 as (_ & _ & Em & _). pose proof (zlen_nonneg (t_arr t)). lia. }
  pose proof Hh as (Ha & (junk & E) & En & Em & Hm). pose proof (zlen_nonneg junk) as Hj0.
  assert (Emx : t_max t = zlen ps + zlen junk) by now rewrite Em, E, zlen_app, zlen_map.
  unfold add_group_to_tile. rewrite Ha, En.
  assert (Hmx : 0 <= t_max t) by lia.
  destruct (HM (t_max t) ltac:(lia)) as (_ & Enint).
  destruct (Z.ltb_spec (t_max t) (zlen ps + zlen g)) as [Hlt|Hge].
  - rewrite Enint. cbn [bind].
    destruct (resize_holds M t ps (2 * t_max t + 1) Hh ltac:(lia)) as (t1 & E1 & Hh1 & Hp1 & Hn1 & Hm1 & _). rewrite E1. cbn [bind].
    destruct Hh1 as (Ha1 & (junk1 & Ea1) & En1 & Em1 & _). assert (Ej1 : t_max t1 = zlen ps + zlen junk1) by now rewrite Em1, Ea1, zlen_app, zlen_map.
    split; intros Hc.
    + destruct (group_loop g (length g) (t_arr t1) ps junk1 []) as (junk' & El & Elen).
      * now rewrite app_nil_r.
      * reflexivity.
      * unfold zlen in *. lia.
      * reflexivity.
      * unfold do_range. replace (Z.to_nat (zlen g - 1 + 1)) with (length g) by (unfold zlen; lia). change (zlen [] + 1) with 1 in El. rewrite El. cbn [bind].
        eexists. split; [reflexivity|]. unfold stores, same_extents, set_arrays. cbn. rewrite zlen_app.
        split; [split; [reflexivity|]; split; [reflexivity|]; split; [rewrite Em1; now symmetry|now eexists]|]. split; [lia|]. exact Hp1.
    + (* the loop runs out of the array *)
      unfold do_range. replace (Z.to_nat (zlen g - 1 + 1)) with (length g) by (unfold zlen; lia).
      assert (X : forall k arr dn, zlen arr = t_max t1 -> (length dn + k = length g)%nat -> zlen ps + zlen dn <= t_max t1 ->
        do_loop k (zlen (dn : list (part N)) + 1) (fun i a => do p <- get1 g i; set1 a (zlen ps + i) (Some p)) arr = UB).
      { induction k as [|k IH]; intros arr dn L Hk Hle.
        - exfalso. unfold zlen in *. lia.
        - cbn [do_loop]. destruct (nth_error g (length dn)) as [p|] eqn:Eg; [|apply nth_error_None in Eg; lia].
          replace (get1 g (zlen dn + 1)) with (Ret p : out (part N)).
          2:{ symmetry. unfold get1. apply zget_ok; [unfold zlen; lia|]. now replace (Z.to_nat (zlen dn + 1 - 1)) with (length dn) by (unfold zlen; lia). }
          cbn [bind]. destruct (Z_le_dec (zlen ps + (zlen dn + 1)) (t_max t1)) as [Hle'|Hgt].
          + pose proof (zlen_nonneg dn). rewrite set1_ok by lia. cbn [bind]. specialize (IH (lset arr (Z.to_nat (zlen ps + (zlen dn + 1) - 1)) (Some p)) (dn ++ [p])).
            rewrite zlen_app in IH. change (zlen [p]) with 1 in IH. apply IH; [now rewrite zlen_lset|rewrite app_length; cbn [length]; lia|lia].
          + rewrite set1_ub by lia. reflexivity. }
      specialize (X (length g) (t_arr t1) []). change (zlen [] + 1) with 1 in X. rewrite X; [reflexivity|now symmetry|reflexivity|].
      change (zlen (@nil (part N))) with 0. pose proof (zlen_nonneg junk1). lia.
  - cbn [bind]. split; intros Hc; [|lia].
    destruct (group_loop g (length g) (t_arr t) ps junk []) as (junk' & El & Elen).
    + now rewrite app_nil_r.
    + reflexivity.
    + unfold zlen in *. lia.
    + reflexivity.
    + unfold do_range. replace (Z.to_nat (zlen g - 1 + 1)) with (length g) by (unfold zlen; lia). change (zlen [] + 1) with 1 in El. rewrite El. cbn [bind].
      eexists. split; [reflexivity|]. unfold stores, same_extents, set_arrays. cbn. rewrite zlen_app.
      split; [split; [reflexivity|]; split; [reflexivity|]; split; [rewrite Em; now symmetry|now eexists]|]. split; [lia|]. now repeat split.
Qed.
End Storage.

(** *** The colours *)
Lemma in_steps3 a hi x : In x (steps3 a hi) <-> exists i, 0 <= i /\ x = a + 3 * i /\ x <= hi.
Proof.
  unfold steps3. rewrite in_map_iff. split.
  - intros (i & <- & Hi). apply zseq_In in Hi. exists i. split; [lia|]. split; [reflexivity|].
    destruct (Z_le_dec 0 (hi - a + 3)) as [H|H].
    + rewrite Z.quot_div_nonneg in Hi by lia. pose proof (Z.mul_div_le (hi - a + 3) 3 ltac:(lia)). pose proof (Z.div_pos (hi - a + 3) 3 ltac:(lia) ltac:(lia)). lia.
    + pose proof (Z.quot_opp_l (-(hi - a + 3)) 3 ltac:(lia)) as E. rewrite Z.opp_involutive in E. rewrite E in Hi.
      pose proof (Z.quot_pos (-(hi - a + 3)) 3 ltac:(lia) ltac:(lia)). lia.
  - intros (i & Hi & -> & Hx). exists i. split; [reflexivity|]. apply zseq_In. rewrite Z.quot_div_nonneg by lia.
    pose proof (Z.mul_succ_div_gt (hi - a + 3) 3 ltac:(lia)). pose proof (Z.div_pos (hi - a + 3) 3 ltac:(lia) ltac:(lia)). lia.
Qed.
Lemma NoDup_steps3 a hi : NoDup (steps3 a hi).
Proof.
  unfold steps3. apply FinFun.Injective_map_NoDup; [intros x y H; lia|]. unfold zseq. apply FinFun.Injective_map_NoDup; [intros x y H; lia|apply seq_NoDup].
Qed.
Lemma in_colour {N} (D : dom N) a b c j k l : In (j, k, l) (colour D (a, b, c)) <->
  In j (steps3 a (ag_nt (dX D))) /\ In k (steps3 b (ag_nt (dY D))) /\ In l (steps3 c (ag_nt (dZ D))).
Proof.
  cbn [colour]. rewrite in_flat_map. split.
  - intros (l' & Hl & H). apply in_flat_map in H. destruct H as (k' & Hk & H). apply in_map_iff in H. destruct H as (j' & E & Hj). injection E as -> -> ->. tauto.
  - intros (Hj & Hk & Hl). exists l. split; [exact Hl|]. apply in_flat_map. exists k. split; [exact Hk|]. apply in_map_iff. now exists j.
Qed.
Lemma NoDup_colour {N} (D : dom N) c : NoDup (colour D c).
Proof.
  destruct c as [[a b] c]. cbn [colour]. apply NoDup_flat_map; [apply NoDup_steps3| |].
  - intros l Hl. apply NoDup_flat_map; [apply NoDup_steps3| |].
    + intros k Hk. apply FinFun.Injective_map_NoDup; [intros x y H; congruence|apply NoDup_steps3].
    + intros k k' x Hk Hk'. rewrite !in_map_iff. intros (j & <- & _) (j' & E & _). congruence.
  - intros l l' x Hl Hl'. rewrite !in_flat_map. intros (k & _ & H) (k' & _ & H'). apply in_map_iff in H, H'.
    destruct H as (j & <- & _), H' as (j' & E & _). congruence.
Qed.
Lemma colour_tiles {N} (D : dom N) c q : In c colours -> In q (colour D c) -> In q (all_tiles D).
Proof.
  intros Hc Hq. destruct c as [[a b] c], q as [[j k] l]. apply in_colour in Hq. rewrite !in_steps3 in Hq.
  unfold colours in Hc. apply in_box_box, in_box_iff in Hc. unfold all_tiles. apply in_box_box, in_box_iff.
  destruct Hq as ((? & ? & ? & ?) & (? & ? & ? & ?) & (? & ? & ? & ?)). lia.
Qed.
Lemma tiles_colour {N} (D : dom N) q : In q (all_tiles D) -> exists c, In c colours /\ In q (colour D c).
Proof.
  destruct q as [[j k] l]. intros H. unfold all_tiles in H. apply in_box_box, in_box_iff in H.
  assert (X : forall x hi, 1 <= x <= hi -> In x (steps3 ((x - 1) mod 3 + 1) hi) /\ 1 <= (x - 1) mod 3 + 1 <= 3).
  { intros x hi Hx. pose proof (Z.mod_pos_bound (x - 1) 3 ltac:(lia)). split; [|lia]. apply in_steps3. exists ((x - 1) / 3).
    pose proof (Z.div_mod (x - 1) 3 ltac:(lia)). pose proof (Z.div_pos (x - 1) 3 ltac:(lia) ltac:(lia)). lia. }
  destruct H as (H1 & H2 & H3). destruct (X j _ H1), (X k _ H2), (X l _ H3).
  exists ((j - 1) mod 3 + 1, (k - 1) mod 3 + 1, (l - 1) mod 3 + 1). split; [|now apply in_colour].
  unfold colours. apply in_box_box, in_box_iff. lia.
Qed.
Lemma apart_colour {N} (D : dom N) c : apart (colour D c).
Proof.
  destruct c as [[a b] c]. intros [[j k] l] [[j' k'] l'] [[x y] z] H H'. apply in_colour in H, H'. rewrite !in_steps3 in H, H'.
  destruct H as ((? & ? & ? & ?) & (? & ? & ? & ?) & (? & ? & ? & ?)), H' as ((? & ? & ? & ?) & (? & ? & ? & ?) & (? & ? & ? & ?)). cbn. intros.
  replace j' with j by lia. replace k' with k by lia. replace l' with l by lia. reflexivity.
Qed.

(** *** Exchange between the tiles *)
Section Exchange.
Context {N : FNum} (M : Z) (HM : sizes_exact N M) (D : dom N) (T : grid (tile N)) (A : idx -> list (part N)) (n0 : idx).
Hypothesis HC : contents M D T A.
Hypothesis HR : 2 * zlen (all_particles D A) + 1 <= M.
Hypothesis HX : targets_exist D n0 T A.
Notation B := (all_tiles D).
Notation st := (stays D T). Notation tg := (tgt D n0).

Lemma contents_rep : rep M D T T A.
Proof.
  destruct HC as (E1 & E2 & H). split; [reflexivity|]. split; [reflexivity|]. intros q Hq. split; [now apply stores_holds, H|now repeat split].
Qed.
Lemma rep_contents T' A' : rep M D T T' A' -> contents M D T' A' /\ forall q, In q B -> same_extents (gat T q) (gat T' q).
Proof.
  intros (E1 & E2 & H). destruct HC as (E1' & E2' & _). split; [|intros q Hq; apply (H q Hq)].
  split; [congruence|]. split; [congruence|]. intros q Hq. now apply stores_holds, H.
Qed.
Lemma exist_good : good M D n0 T A.
Proof.
  split; [exact HR|]. intros q p Hq Hp Hs. destruct (HX q p Hq Hp) as (r & E & Hr). unfold new_tile in E. unfold stays in Hs. rewrite Hs in E. now exists r.
Qed.
Lemma expected_arrivals r : expected D n0 T A r = arrivals st tg B A r.
Proof.
  unfold expected, arrivals. assert (X : forall l, (forall q, In q l -> In q B) ->
    flat_map (fun q => filter (goes_to D n0 T r q) (A q)) l = flat_map (fun q => filter (fun p => idx_eqb (goes st tg q p) r) (A q)) l).
  { induction l as [|q l IH]; intros H; [reflexivity|]. cbn [flat_map]. rewrite IH by (intros s Hs; apply H; now right). f_equal.
    apply filter_ext_in. intros p Hp. destruct (HX q p (H q (or_introl eq_refl)) Hp) as (s & E & _).
    unfold goes_to. rewrite E. unfold new_tile in E. unfold goes, stays, tgt. destruct (_ || _)%bool; [now injection E as <-|]. now rewrite E. }
  now apply X.
Qed.

Theorem serial_fact : first_tile T = Ret n0 ->
  exists T' A', particle_bcs_tiles D T = Ret T' /\ contents M D T' A' /\ (forall q, In q B -> same_extents (gat T q) (gat T' q)) /\
    Permutation (all_particles D A') (all_particles D A) /\ forall r, In r B -> Permutation (A' r) (expected D n0 T A r).
Proof.
  intros Hf. pose proof HC as (E1 & E2 & _).
  destruct (tiles_refine M HM D n0 T E1 E2 B (fun q H => H) T A contents_rep exist_good) as (T' & E & HT & HG & HP & HS).
  exists T'. eexists. unfold particle_bcs_tiles. rewrite Hf. cbn [bind]. split; [exact E|]. destruct (rep_contents _ _ HT) as (Hc & He).
  split; [exact Hc|]. split; [exact He|]. split.
  - apply Permutation_sym. apply (items_perm st tg B (NoDup_box _ _)). exact HP.
  - intros r Hr. rewrite expected_arrivals. apply (final st tg B (NoDup_box _ _)); [exact Hr|exact HP|]. intros q Hq. apply HS. now left.
Qed.

Hypothesis HN : targets_adjacent D n0 T A.
Lemma adjacent_near : near st tg B nbr A.
Proof.
  intros q p Hq Hp Hs. destruct (HN q p Hq Hp) as (r & E & _ & Hn). unfold new_tile in E. unfold stays in Hs. rewrite Hs in E.
  unfold tgt. rewrite E. destruct q as [[a b] c], r as [[j k] l]. exact Hn.
Qed.
Theorem omp_fact : first_tile T = Ret n0 ->
  exists A', (forall r, In r B -> Permutation (A' r) (expected D n0 T A r)) /\ Permutation (all_particles D A') (all_particles D A) /\
    forall res, particle_bcs_tiles_openmp D T res -> exists T', res = Ret T' /\ contents M D T' A' /\ forall q, In q B -> same_extents (gat T q) (gat T' q).
Proof.
  intros Hf. pose proof HC as (E1 & E2 & _).
  set (L := flat_map (colour D) colours).
  assert (HL : forall q, In q L -> In q B).
  { intros q Hq. apply in_flat_map in Hq. destruct Hq as (c & Hc & Hq). now apply colour_tiles with c. }
  destruct (tiles_refine M HM D n0 T E1 E2 L HL T A contents_rep exist_good) as (T' & E & HT & HG & HP & HS).
  exists (asweeps D n0 T L A). split; [|split].
  - intros r Hr. rewrite expected_arrivals. apply (final st tg B (NoDup_box _ _)); [exact Hr|exact HP|]. intros q Hq. apply HS. left.
    destruct (tiles_colour D q Hq) as (c & Hc & Hq'). apply in_flat_map. now exists c.
  - apply Permutation_sym. apply (items_perm st tg B (NoDup_box _ _)). exact HP.
  - intros res Hres. unfold particle_bcs_tiles_openmp in Hres. rewrite Hf in Hres.
    destruct (omp_same M HM D n0 T E1 E2 colours) with (T := T) (r := res) (A := A) as (T1 & A1 & -> & HT1 & EA).
    + intros c Hc. split; [apply NoDup_colour|]. split; [apply apart_colour|]. intros q. now apply colour_tiles.
    + exact Hres.
    + exact contents_rep.
    + exact exist_good.
    + exact adjacent_near.
    + exists T1. split; [reflexivity|]. destruct (rep_contents T1 A1 HT1) as ((C1 & C2 & C3) & He). split; [|exact He].
      split; [exact C1|]. split; [exact C2|]. intros q Hq. unfold L. rewrite <- EA. now apply C3.
Qed.
End Exchange.
