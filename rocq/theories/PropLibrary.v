(** C123, C124: the solver that other codes call (src/init_external.F90) and the divergence cleaning push
    (src/field_solvers/Maxwell/yee_solver/yee.F90:1452-1532). *)
From Coq Require Import ZArith Reals List Bool Lia Lra.
From Verif Require Import Cxx Num NumRX Fortran Grid Pushers Yee SpecYee SpecSolver SpecLibrary GridLemmas LibraryProofs CleaningProofs YeeExamples.
Import ListNotations.
Local Open Scope R_scope.
(** ** C123: one step of the library solver *)
(** the electric field is advanced with the magnetic field before the step, the magnetic field with the electric field after it;
    no access is out of bounds; the divergence of B does not change, the divergence of E changes by that of the current *)
Theorem C123_step : forall (tg : R -> R) S q, library_set S q -> forall E B J e b j_,
  is_field S E e -> is_field S B b -> is_field S J j_ ->
  let s := library_formulas q in
  exists E' B' e' b', solve_maxwell_fdtd_pxr S (library_steps q) E B J = Ret (E', B') /\ @is_field tg S E' e' /\ @is_field tg S B' b' /\
    (forall p, in_box (lib_lo S) (lib_hi S) p = true ->
      let r := curl (fwd s) b in let r' := curl (bwd s) e' in
      comp_x e' p = comp_x e p + rdt q * (comp_x r p - comp_x j_ p) /\
      comp_y e' p = comp_y e p + rdt q * (comp_y r p - comp_y j_ p) /\
      comp_z e' p = comp_z e p + rdt q * (comp_z r p - comp_z j_ p) /\
      comp_x b' p = comp_x b p - rdt q * comp_x r' p /\
      comp_y b' p = comp_y b p - rdt q * comp_y r' p /\
      comp_z b' p = comp_z b p - rdt q * comp_z r' p) /\
    (forall p, lib_inner S p ->
      div (bwd s) b' p = div (bwd s) b p /\ div (fwd s) e' p = div (fwd s) e p - rdt q * div (fwd s) j_ p).
Proof. exact (@library_step). Qed.
Print Assumptions C123_step.
Example C123_case : library_set S4 q4 /\ in_box (lib_lo S4) (lib_hi S4) (4, 4, 4)%Z = true /\ lib_inner S4 (4, 4, 4)%Z /\
  forall tg, @is_field tg S4 (hold S4 wave) wave.
Proof.
  split; [unfold library_set; cbn; repeat split; try reflexivity; lia|]. split; [reflexivity|]. split; [|intros; apply hold_field].
  intros d m H. assert (A : (Z.abs m <= 2)%Z) by (destruct d; exact H). change (lib_lo S4) with (-1, -1, -1)%Z. change (lib_hi S4) with (9, 9, 9)%Z.
  destruct d; cbn [shift]; rewrite in_box_iff; lia.
Qed.
(** ** C124: the divergence cleaning push *)
Theorem C124_update : forall (tg : R -> R) xlo xhi ylo yhi zlo zhi (E : field (num (RX tg))) (F : grid (num (RX tg))) L H LF HF e f kappa hx hy hz,
  holds_field E L H e -> is_grid F LF HF f -> hx <> 0 -> hy <> 0 -> hz <> 0 ->
  (forall p, in_box xlo xhi p = true -> in_box L H p = true /\ in_box LF HF p = true /\ in_box LF HF (shift AX 1 p) = true) ->
  (forall p, in_box ylo yhi p = true -> in_box L H p = true /\ in_box LF HF p = true /\ in_box LF HF (shift AY 1 p) = true) ->
  (forall p, in_box zlo zhi p = true -> in_box L H p = true /\ in_box LF HF p = true /\ in_box LF HF (shift AZ 1 p) = true) ->
  exists E' e', pxrpush_em3d_evec_f xlo xhi ylo yhi zlo zhi E F (Fin (kappa / hx) : num (RX tg)) (Fin (kappa / hy) : num (RX tg)) (Fin (kappa / hz) : num (RX tg)) = Ret E' /\
    holds_field E' L H e' /\
    let g := grad (fwd (yee hx hy hz)) f in
    (forall p, comp_x e' p = (if in_box xlo xhi p then comp_x e p + kappa * comp_x g p else comp_x e p) /\
               comp_y e' p = (if in_box ylo yhi p then comp_y e p + kappa * comp_y g p else comp_y e p) /\
               comp_z e' p = (if in_box zlo zhi p then comp_z e p + kappa * comp_z g p else comp_z e p)).
Proof. exact (@cleaning). Qed.
Print Assumptions C124_update.
(** the curl of E, and with it the next magnetic push, is not touched; the divergence changes by that of the gradient *)
Theorem C124_longitudinal : forall (tg : R -> R) lo hi (E : field (num (RX tg))) (F : grid (num (RX tg))) L H LF HF e f kappa hx hy hz,
  holds_field E L H e -> is_grid F LF HF f -> hx <> 0 -> hy <> 0 -> hz <> 0 ->
  (forall p, in_box lo hi p = true -> in_box L H p = true /\ in_box LF HF p = true /\ forall d, in_box LF HF (shift d 1 p) = true) ->
  let s := yee hx hy hz in
  exists E' e', pxrpush_em3d_evec_f lo hi lo hi lo hi E F (Fin (kappa / hx) : num (RX tg)) (Fin (kappa / hy) : num (RX tg)) (Fin (kappa / hz) : num (RX tg)) = Ret E' /\
    holds_field E' L H e' /\
    forall p,
      ((forall d, in_box lo hi p = true /\ in_box lo hi (shift d 1 p) = true) ->
        comp_x (curl (fwd s) e') p = comp_x (curl (fwd s) e) p /\ comp_y (curl (fwd s) e') p = comp_y (curl (fwd s) e) p /\
        comp_z (curl (fwd s) e') p = comp_z (curl (fwd s) e) p) /\
      ((forall d, in_box lo hi p = true /\ in_box lo hi (shift d (-1) p) = true) ->
        div (bwd s) e' p = div (bwd s) e p + kappa * div (bwd s) (grad (fwd s) f) p).
Proof. exact (@cleaning_longitudinal). Qed.
Print Assumptions C124_longitudinal.
Example C124_case : forall tg,
  @holds_field tg (hold S4 wave) (alo S4) (ahi S4) wave /\
  (forall p, in_box (slo S2) (shi S2) p = true -> in_box (alo S4) (ahi S4) p = true /\ in_box (alo S4) (ahi S4) p = true /\
     forall d, in_box (alo S4) (ahi S4) (shift d 1 p) = true) /\
  (forall d, in_box (slo S2) (shi S2) (4, 4, 4)%Z = true /\ in_box (slo S2) (shi S2) (shift d 1 (4, 4, 4)%Z) = true) /\
  (forall d, in_box (slo S2) (shi S2) (4, 4, 4)%Z = true /\ in_box (slo S2) (shi S2) (shift d (-1) (4, 4, 4)%Z) = true).
Proof.
  intros tg. split; [unfold holds_field, is_grid, hold; cbn; repeat split|]. split; [|split; intros []; split; reflexivity].
  change (slo S2) with (-2, -2, -2)%Z. change (shi S2) with (10, 10, 10)%Z. change (alo S4) with (-3, -3, -3)%Z. change (ahi S4) with (11, 11, 11)%Z.
  intros [[j k] l] I. rewrite in_box_iff in I.
  split; [rewrite in_box_iff; lia|]. split; [rewrite in_box_iff; lia|]. intros []; cbn [shift]; rewrite in_box_iff; lia.
Qed.
