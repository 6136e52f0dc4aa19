(** Concrete cases for the theorems about the field solver. *)
From Coq Require Import ZArith Reals List Bool Lia Lra Permutation.
From Verif Require Import Cxx Num NumRX Fortran Grid Pushers Yee SpecYee SpecSolver GridLemmas YeeDiv YeeFacts YeeHist.
Import ListNotations.
Local Open Scope Z_scope.

(** 8 x 8 x 8 cells, three guard cells, order two *)
Definition S2 : Sizes := {| nx := 8; ny := 8; nz := 8; nxguard := 3; nyguard := 3; nzguard := 3;
  nxs := 2; nys := 2; nzs := 2; norderx := 2; nordery := 2; norderz := 2; l_nodalgrid := false |}.
(** order four *)
Definition S4 : Sizes := {| nx := 8; ny := 8; nz := 8; nxguard := 3; nyguard := 3; nzguard := 3;
  nxs := 3; nys := 3; nzs := 3; norderx := 4; nordery := 4; norderz := 4; l_nodalgrid := false |}.
(** order four in two dimensions, where one guard cell is updated *)
Definition S4p : Sizes := {| nx := 8; ny := 0; nz := 8; nxguard := 3; nyguard := 0; nzguard := 3;
  nxs := 1; nys := 0; nzs := 1; norderx := 4; nordery := 0; norderz := 4; l_nodalgrid := false |}.
Definition q4 : rsteps := {| rdt := 1 / 4; rdx := 1; rdy := 2; rdz := 1 / 2; rcx := [9 / 8; - (1 / 24)];
  rcy := [9 / 8; - (1 / 24)]; rcz := [9 / 8; - (1 / 24)] |}%R.
Definition wave : rfield := RField (fun p => let '(j, k, l) := p in IZR (j * k - l)) (fun p => let '(j, k, l) := p in IZR (l * l + 3 * j))
  (fun p => let '(j, k, l) := p in IZR (k * k * j)).
Definition hold {tg : R -> R} (S : Sizes) (f : rfield) : field (num (RX tg)) :=
  Field3 (Grid (alo S) (ahi S) (fun p => Fin (comp_x f p) : num (RX tg))) (Grid (alo S) (ahi S) (fun p => Fin (comp_y f p) : num (RX tg)))
         (Grid (alo S) (ahi S) (fun p => Fin (comp_z f p) : num (RX tg))).
Lemma hold_field tg S f : @is_field tg S (hold S f) f.
Proof. unfold is_field, is_grid, hold. cbn. repeat split. Qed.
Lemma hold_sized tg S f : sized S (@hold tg S f).
Proof. unfold sized, hold. cbn. repeat split. Qed.
Lemma well_S2 : well_set S2 q4.
Proof. split; [|split]; [cbn; lia | cbn; lra | cbn; discriminate]. Qed.
Lemma well_S4 : well_set S4 q4.
Proof. split; [|split]; [cbn; lia | cbn; lra |]. intros _. cbn. repeat split; reflexivity. Qed.
Lemma well_S4p : well_set_2d S4p q4.
Proof. split; [|split]; [cbn; lia | cbn; lra |]. intros _. cbn. repeat split; reflexivity. Qed.
Lemma well_S2p : well_set_2d S2 q4.
Proof. split; [|split]; [cbn; lia | cbn; lra |]. intros H; discriminate H. Qed.
Lemma axis_ends (P : Z -> Prop) a b : (forall m, In m (zrange a b) -> P m) -> forall m, a <= m <= b -> P m.
Proof. intros H m Hm. apply H. apply in_zrange. exact Hm. Qed.
Lemma inner_S2 : inner_fwd S2 q4 (4, 4, 4) /\ inner_bwd S2 q4 (4, 4, 4).
Proof.
  unfold inner_fwd, inner_bwd, interior_fwd, interior_bwd, reaches. cbn zeta.
  repeat split; intros d m; revert m; apply axis_ends; intros m Hm; destruct d; cbn in Hm; repeat (destruct Hm as [<-|Hm]; [reflexivity|]); destruct Hm.
Qed.
Lemma inner_S4 : inner_fwd S4 q4 (4, 4, 4) /\ inner_bwd S4 q4 (4, 4, 4).
Proof.
  unfold inner_fwd, inner_bwd, interior_fwd, interior_bwd, reaches. cbn zeta.
  repeat split; intros d m; revert m; apply axis_ends; intros m Hm; destruct d; cbn in Hm; repeat (destruct Hm as [<-|Hm]; [reflexivity|]); destruct Hm.
Qed.
Lemma inner_S4p : interior_fwd_2d S4p q4 (4, 0, 4) /\ interior_bwd_2d S4p q4 (4, 0, 4).
Proof.
  unfold interior_fwd_2d, interior_bwd_2d, reaches. cbn zeta.
  repeat split; intros d m; revert m; apply axis_ends; intros m Hm; destruct d; cbn in Hm; repeat (destruct Hm as [<-|Hm]; [reflexivity|]); destruct Hm.
Qed.

Lemma guard_S2 : guard1 S2.
Proof. unfold guard1. cbn. lia. Qed.

(** a history: a magnetic push, an electric push, new guard cells, a magnetic push *)
Definition moving : rfield := RField (fun p => let '(j, k, l) := p in IZR (j * j)) (fun _ => 1%R) (fun _ => 0%R).
Lemma a_history tg : exists E B, @fsteps tg S4 q4 1 1 (hold S4 wave, hold S4 wave, fun _ => 0%R)
    (E, B, fun p => (0 - rdt q4 * div (bwd (formulas S4 q4)) moving p)%R) /\
  (div (bwd (formulas S4 q4)) moving (4, 4, 4)%Z = 7)%R.
Proof.
  destruct (push_bfield_new (tg := tg) S4 q4 _ _ wave wave well_S4 (hold_field tg S4 wave) (hold_field tg S4 wave)) as (B1 & P1 & V1).
  destruct (push_efield_new (tg := tg) 1 1 S4 q4 _ B1 (hold S4 moving) wave _ moving well_S4 (hold_field tg S4 wave) V1 (hold_field tg S4 moving)) as (E1 & P2 & V2).
  destruct (push_bfield_new (tg := tg) S4 q4 _ _ _ _ well_S4 V2 V1) as (B2 & P3 & V3).
  exists E1, B2. split.
  - eapply fcons; [eapply fcons; [eapply fcons; [eapply fcons; [apply fnil|]|]|]|].
    + apply step_b. exact P1.
    + eapply step_e; [apply hold_field | exact P2 | intros p; reflexivity].
    + apply step_guards with (E' := E1) (B' := B1); (split; [eexists; eassumption | auto]).
    + apply step_b. exact P3.
  - unfold div, bwd, Sum.
    change (zrange 1 (half_order (formulas S4 q4) AX)) with [1; 2].
    change (zrange 1 (half_order (formulas S4 q4) AY)) with [1; 2].
    change (zrange 1 (half_order (formulas S4 q4) AZ)) with [1; 2].
    cbn -[Rdiv Rmult Rplus Rminus Ropp IZR]. unfold weight. cbn -[Rdiv Rmult Rplus Rminus Ropp IZR].
    change (Pos.to_nat 1) with 1%nat. cbn iota. lra.
Qed.

(** a schedule: three iterations on two threads, the first thread runs backwards *)
Section Schedule.
Context {N : NumOps}.
Definition E0 : field (num N) := let g := Grid (0, 0, 0) (3, 1, 1) (fun _ => n_lit 1 0) in Field3 g g g.
Definition bodyx : idx -> list (stmt (num N)) := b3_bx E0 (n_lit 2 0) (n_lit 3 0).
Lemma a_schedule : omp_execution (0, 0, 0) (2, 0, 0) bodyx (bodyx (2, 0, 0) ++ bodyx (1, 0, 0) ++ bodyx (0, 0, 0)).
Proof.
  exists [[(2, 0, 0); (0, 0, 0)]; [(1, 0, 0)]]. split.
  - cbn. apply perm_trans with [(0, 0, 0); (2, 0, 0); (1, 0, 0)]; [apply perm_swap|]. apply perm_skip. apply perm_swap.
  - cbn [map flat_map app]. change (bodyx (2, 0, 0) ++ bodyx (0, 0, 0) ++ []) with (hd (0,0,0, fun x => Ret x) (bodyx (2, 0, 0)) :: bodyx (0, 0, 0)).
    apply (il_step [] _ _ [_]). cbn [app].
    apply (il_step [bodyx (0, 0, 0)] _ [] []). cbn [app].
    apply (il_step [] _ [] [[]]). apply il_nil. repeat constructor.
Qed.
End Schedule.
