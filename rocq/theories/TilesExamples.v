(** Concrete cases for the theorems about the particle tiles. *)
From Coq Require Import ZArith Reals List Bool Permutation Lia Lra.
From Verif Require Import Cxx CxxLemmas Num NumRX NumIEEE RXLemmas Fortran FortranLemmas FortranNum Grid GridLemmas Deposit Tiles Exchange TilesProofs TilesExchange TilesReal SpecTiles TilesFacts TilesDomain TilesIEEE.
Import ListNotations.
Local Open Scope Z_scope.

(** *** The tiles made for a species *)
Lemma init_fact sx sy sz nppcell M : good_axis sx -> good_axis sy -> good_axis sz -> 0 <= nppcell -> 1 <= M -> ra_n sx * ra_n sy * ra_n sz * nppcell <= M ->
  exists T, @init_tiles FRX (Fin (ra_d sx)) (Fin (ra_d sy)) (Fin (ra_d sz)) (Fin (ra_lo sx)) (Fin (ra_hi sx)) (Fin (ra_lo sy)) (Fin (ra_hi sy))
      (Fin (ra_lo sz)) (Fin (ra_hi sz)) (ra_n sx) (ra_n sy) (ra_n sz) (ra_nt sx) (ra_nt sy) (ra_nt sz) nppcell = Ret T /\
    contents M (dom_of sx sy sz) T (fun _ => []) /\ laid_out sx sy sz T /\
    forall i j k, t_bound (gat T (i, j, k)) = true <->
      i = 1 \/ i = ntiles (ra_n sx) (ra_nt sx) \/ j = 1 \/ j = ntiles (ra_n sy) (ra_nt sy) \/ k = 1 \/ k = ntiles (ra_n sz) (ra_nt sz).
Proof.
  intros Hx Hy Hz Hc H1 HM. unfold init_tiles.
  assert (Z0 : forall s, good_axis s -> (ra_nt s =? 0) = false) by (intros s (_ & _ & ? & _); apply Z.eqb_neq; lia).
  rewrite (Z0 sx Hx), (Z0 sy Hy), (Z0 sz Hz). cbn [orb].
  eexists. split; [reflexivity|]. split; [|split].
  - split; [reflexivity|]. split; [reflexivity|]. intros [[i j] k] Hq. unfold all_tiles in Hq. apply in_box_box, in_box_iff in Hq.
    assert (Bn : forall s i, good_axis s -> 1 <= i <= ntiles (ra_n s) (ra_nt s) -> 1 <= ta_n (tile_of s i) <= ra_n s).
    { clear. intros s i Hs Hi. pose proof (nt_cases s Hs) as Hn. pose proof (nt_pos s Hs) as Hp. destruct Hs as (_ & Hn2 & Hn1 & _).
      assert (E : ta_n (tile_of s i) = if i =? ntiles (ra_n s) (ra_nt s) then ra_n s ÷ ra_nt s + (ra_n s - ra_n s ÷ ra_nt s * ntiles (ra_n s) (ra_nt s)) else ra_n s ÷ ra_nt s).
      { unfold tile_of, tile_axis. destruct (i =? _); [reflexivity|]. now destruct (i =? 1). }
      rewrite E. destruct Hn as [(En & _)|(? & ? & ? & _)].
      - rewrite En in *. replace (i =? 1) with true by (symmetry; apply Z.eqb_eq; lia). lia.
      - destruct (Z.eqb_spec i (ntiles (ra_n s) (ra_nt s))); nia. }
    cbn [dom_of dX dY dZ axis_of ag_nt] in Hq.
    pose proof (Bn sx i Hx ltac:(lia)) as Bx. pose proof (Bn sy j Hy ltac:(lia)) as By. pose proof (Bn sz k Hz ltac:(lia)) as Bz.
    cbn [gat]. fold (tile_of sx i) (tile_of sy j) (tile_of sz k).
    set (cap := Z.max ((ta_n (tile_of sx i) - 1) * (ta_n (tile_of sy j) - 1) * (ta_n (tile_of sz k) - 1) * nppcell) 1).
    assert (Hcap : 1 <= cap <= M).
    { unfold cap. split; [lia|]. apply Z.max_lub; [|exact H1]. eapply Z.le_trans; [|exact HM].
      apply Z.mul_le_mono_nonneg_r; [exact Hc|]. apply Z.mul_le_mono_nonneg; [apply Z.mul_nonneg_nonneg; lia| |lia|lia]. apply Z.mul_le_mono_nonneg; lia. }
    assert (El : zlen (repeat (@None (part FRX)) (Z.to_nat cap)) = cap) by (unfold zlen; rewrite repeat_length; lia).
    split; [|cbn; lia]. split; [reflexivity|]. split; [reflexivity|]. cbn [t_max t_arr]. split; [now symmetry|]. now eexists.
  - intros i j k t _. now split.
  - intros i j k. cbn [gat t_bound]. rewrite !orb_true_iff, !Z.eqb_eq. tauto.
Qed.

(** *** Exact arithmetic: 8 x 5 x 5 grid points, two tiles in x *)
Definition ex_x : raxis := RAxis 0 1 8 2 0 7.
Definition ex_y : raxis := RAxis 0 1 5 2 0 4.
Definition ex_D : dom FRX := dom_of ex_x ex_y ex_y.
Lemma ex_x_good : good_axis ex_x. Proof. unfold good_axis, ra_hi. cbn. change (8 - 1) with 7. repeat split; lra || lia. Qed.
Lemma ex_y_good : good_axis ex_y. Proof. unfold good_axis, ra_hi. cbn. change (5 - 1) with 4. repeat split; lra || lia. Qed.
Lemma ex_sizes : ntiles (ra_n ex_x) (ra_nt ex_x) = 2 /\ ra_n ex_x * ra_n ex_y * ra_n ex_y * 10 <= 2000.
Proof. split; [reflexivity|]. cbn. lia. Qed.
Definition fp (x y z : R) : part FRX := @Part FRX (Fin x) (Fin y) (Fin z) (Fin 1) (Fin 0) (Fin 0) (Fin 1) [Fin 2].
(** one particle has left its tile, one is in its tile, one has left the domain *)
Definition ex_ps : list (part FRX) := [fp 4 1 2; fp 1 1 2; fp (-1) 1 2].
Definition ex_A (q : idx) : list (part FRX) := if idx_eqb q (1, 1, 1) then ex_ps else [].
Definition ex_T : grid (tile FRX) := Grid (1, 1, 1) (2, 1, 1) (fun q => let '(i, j, k) := q in
  Tile (tile_of ex_x i) (tile_of ex_y j) (tile_of ex_y k) true true (zlen (ex_A q)) 4 (map Some (ex_A q) ++ repeat None (4 - length (ex_A q))) 0).
Lemma ex_contents : contents 100 ex_D ex_T ex_A.
Proof.
  split; [reflexivity|]. split; [reflexivity|]. intros [[i j] k] _. unfold ex_T. cbn [gat]. split; [|cbn; lia].
  split; [reflexivity|]. split; [reflexivity|]. split; [|now eexists]. cbn [t_max t_arr].
  unfold ex_A. now destruct (idx_eqb (i, j, k) (1, 1, 1)).
Qed.
Lemma ex_laid_out : laid_out ex_x ex_y ex_y ex_T.
Proof. intros i j k t _. now split. Qed.
Lemma ex_in q p : In p (ex_A q) -> q = (1, 1, 1) /\ (p = fp 4 1 2 \/ p = fp 1 1 2 \/ p = fp (-1) 1 2).
Proof.
  unfold ex_A. destruct (idx_eqb q (1, 1, 1)) eqn:E; [|intros []]. apply idx_eqb_eq in E. intros [<-|[<-|[<-|[]]]]; split; tauto.
Qed.
Lemma ex_finite q p : In q (all_tiles ex_D) -> In p (ex_A q) -> finite p.
Proof. intros _ Hp. apply ex_in in Hp. destruct Hp as (_ & [->|[->| ->]]); unfold finite, fp; cbn; eauto 6. Qed.
Lemma ex_room : 2 * zlen (all_particles ex_D ex_A) + 1 <= 100.
Proof. now vm_compute. Qed.
Lemma ex_close : all_close ex_x ex_y ex_y ex_A.
Proof.
  assert (Ex : ta_min (tile_of ex_x 1) = Fin 0%R /\ ta_max (tile_of ex_x 1) = Fin (0 + 3 * 1 + 1 / 2)%R).
  { unfold tile_of, tile_axis. rewrite x_div_two. split; reflexivity. }
  assert (Ey : ta_min (tile_of ex_y 1) = Fin (0 + 0 * 1 - 1 / 2)%R /\ ta_max (tile_of ex_y 1) = Fin (0 + 4 * 1)%R).
  { unfold tile_of, tile_axis. rewrite x_div_two. split; reflexivity. }
  intros i j k p _ Hp. apply ex_in in Hp. destruct Hp as (E & Hp). injection E as -> -> ->.
  assert (Hc : exists x : R, p = fp x 1 2 /\ (-1 <= x <= 4)%R).
  { destruct Hp as [->|[->| ->]]; [exists 4%R|exists 1%R|exists (-1)%R]; (split; [reflexivity|lra]). }
  destruct Hc as (x & -> & Hx). unfold close, fp. cbn [px py pz].
  destruct Ex as (-> & ->), Ey as (-> & ->). cbn [ra_d ex_x ex_y].
  split; [|split]; (do 3 eexists; repeat split; [lra|lra]).
Qed.

(** *** binary64: the same, computed *)
Section B64.
Variable lm : Libm b64.
Notation N := (F64 lm).
Definition bz (k : Z) : num N := n_of_Z k.
Definition bp (x y z : Z) : part N := Part (bz x) (bz y) (bz z) (bz 1) (bz 0) (bz 0) (bz 1) [bz 2].
Definition bg_D : dom N := Dom (AGeo (bz 0) (bz 1) 2 (bz 0) (bz 7)) (AGeo (bz 0) (bz 1) 1 (bz 0) (bz 4)) (AGeo (bz 0) (bz 1) 1 (bz 0) (bz 4)).
Definition bg_A (q : idx) : list (part N) := if idx_eqb q (1, 1, 1) then [bp 4 1 2; bp 1 1 2; bp (-1) 1 2] else [].
Definition bg_T : grid (tile N) := Grid (1, 1, 1) (2, 1, 1) (fun q => let '(i, j, k) := q in
  let ax := tile_axis (bz 1) (bz 0) (bz 7) 8 2 i in let ay := tile_axis (bz 1) (bz 0) (bz 4) 5 2 1 in
  Tile ax ay ay true true (zlen (bg_A q)) 4 (map Some (bg_A q) ++ repeat None (4 - length (bg_A q))) 0).
Lemma bg_contents : contents 100 bg_D bg_T bg_A.
Proof.
  split; [reflexivity|]. split; [reflexivity|]. intros [[i j] k] _. unfold bg_T. cbn [gat]. split; [|cbn; lia].
  split; [reflexivity|]. split; [reflexivity|]. split; [|now eexists]. cbn [t_max t_arr].
  unfold bg_A. now destruct (idx_eqb (i, j, k) (1, 1, 1)).
Qed.
Lemma bg_first : first_tile bg_T = Ret (4, 5, 5). Proof. now vm_compute. Qed.
Lemma bg_target : target bg_D (4, 5, 5) (bp 4 1 2) = Ret (2, 1, 1). Proof. now vm_compute. Qed.
Lemma bg_room : 2 * zlen (all_particles bg_D bg_A) + 1 <= 100. Proof. now vm_compute. Qed.
Lemma bg_in q p : In p (bg_A q) -> q = (1, 1, 1) /\ (p = bp 4 1 2 \/ p = bp 1 1 2 \/ p = bp (-1) 1 2).
Proof.
  unfold bg_A. destruct (idx_eqb q (1, 1, 1)) eqn:E; [|intros []]. apply idx_eqb_eq in E. intros [<-|[<-|[<-|[]]]]; split; tauto.
Qed.
Lemma bg_targets : targets_adjacent bg_D (4, 5, 5) bg_T bg_A.
Proof.
  intros q p _ Hp. apply bg_in in Hp. destruct Hp as (-> & [->|[->| ->]]).
  - exists (2, 1, 1). split; [now vm_compute|]. split; [vm_compute; tauto|lia].
  - exists (1, 1, 1). split; [now vm_compute|]. split; [vm_compute; tauto|lia].
  - exists (1, 1, 1). split; [now vm_compute|]. split; [vm_compute; tauto|lia].
Qed.
Lemma adjacent_exist {N0 : FNum} (D : dom N0) n0 T A : targets_adjacent D n0 T A -> targets_exist D n0 T A.
Proof. intros H q p Hq Hp. destruct (H q p Hq Hp) as (r & E & Hr & _). now exists r. Qed.
(** the stored particles of a tile, shown by the positions of their cells *)
Definition show (t : tile N) : list (option (list (option Z))) :=
  map (option_map (fun p => map (@f_floor N) [px p; py p; pz p])) (firstn (Z.to_nat (t_np t)) (t_arr t)).
(** what the serial exchange does with these particles *)
Lemma bg_run : (do T' <- particle_bcs_tiles bg_D bg_T; Ret (map (fun q => show (gat T' q)) [(1, 1, 1); (2, 1, 1)])) =
  Ret [[Some [Some (-1); Some 1; Some 2]; Some [Some 1; Some 1; Some 2]]; [Some [Some 4; Some 1; Some 2]]].
Proof. now vm_compute. Qed.

(** six particles into a tile with room for two *)
Definition small_tile : tile N := let a := TAxis 4 (bz 0) (bz 4) in Tile a a a true true 1 2 [Some (bp 1 1 1); None] 0.
Definition six : list (part N) := repeat (bp 2 2 2) 6.
Lemma small_stores : stores small_tile [bp 1 1 1].
Proof. split; [reflexivity|]. split; [reflexivity|]. split; [reflexivity|]. now exists [None]. Qed.
Lemma group_ub : stores small_tile [bp 1 1 1] /\ add_group_to_tile small_tile six = UB.
Proof.
  split; [exact small_stores|]. apply (group_fact 100 (sizes_b64 lm 100 ltac:(lia)) small_tile [bp 1 1 1] six small_stores); [cbn; lia|].
  change (zlen six) with 6. cbn. lia.
Qed.
Definition five : list (part N) := map (fun k => bp k 1 1) [1; 2; 3; 4; 5].
Definition full_tile : tile N := Tile (t_x small_tile) (t_y small_tile) (t_z small_tile) true true 5 5 (map Some five) 0.
Lemma full_stores : stores full_tile five.
Proof. split; [reflexivity|]. split; [reflexivity|]. split; [reflexivity|]. exists []. now rewrite app_nil_r. Qed.
Lemma full_room : t_max full_tile <= 100 /\ 2 * zlen five + 1 <= 100 /\ 100 < 2 ^ 31.
Proof. change (t_max full_tile) with 5. change (zlen five) with 5. lia. Qed.
Lemma small_sizes : t_max small_tile = 2 /\ zlen six = 6.
Proof. split; reflexivity. Qed.
Lemma both_kinds : arithmetic FRX /\ arithmetic N.
Proof. split; [now left|right; now exists lm]. Qed.
Lemma mask_run : (do s <- rm_with_mask [false; true; false; true; false] full_tile 9; Ret (show (fst s), snd s)) =
  Ret ([Some [Some 4; Some 1; Some 1]; Some [Some 2; Some 1; Some 1]], 6).
Proof. now vm_compute. Qed.
End B64.
