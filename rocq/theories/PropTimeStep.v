(** C138: the time step chosen at the start of a run (src/submain.F90, initall). *)
From Coq Require Import ZArith Reals List Bool Lia Lra.
From Verif Require Import Cxx Num NumRX Fortran Grid SpecYee SpecCkc SpecTimeStep FdWeights TimeStep TimeStepProofs TimeStepOrders MaxwellWave.
Import ListNotations.
Local Open Scope R_scope.
(** no plane wave grows if dtcoef times the sum of the sizes of the coefficients is below 1; plane waves that the differences do not see
    (a uniform field) are left out: they may grow in proportion to time *)
Theorem C138_bounded : forall (tg : R -> R) co c hx hy hz cx cy cz W dt0, 0 < c -> 0 < hx -> 0 < hy -> 0 < hz -> 0 < co ->
  total cx <= W -> total cy <= W -> total cz <= W -> co * W < 1 ->
  exists dt, @time_step (RX tg) 3 false (Fin co) (Fin c) (Fin hx) (Fin hy) (Fin hz) dt0 = Fin dt /\ 0 < dt /\
  forall kx ky kz phi u, let S := any_order false hx hy hz cx cy cz in
  (exists p, laplacian S (plane_wave kx ky kz phi) p <> 0) -> wave_run S (c * dt) (one_wave kx ky kz phi u) ->
  exists M, forall n p, Rabs (one_wave kx ky kz phi u n p) <= M.
Proof. exact (@bounded3). Qed.
Print Assumptions C138_bounded.
(** the electric field of a run in vacuum, in differences of any order, is a run of the wave equation, component by component *)
Theorem C138_wave_equation : forall S c dt e b, em_run S c dt e b -> (forall p, div (bwd S) (e 0%nat) p = 0) ->
  forall sel : rfield -> idx -> R, In sel [comp_x; comp_y; comp_z] -> wave_run S (c * dt) (fun n => sel (e n)).
Proof. exact em_wave. Qed.
Print Assumptions C138_wave_equation.
Theorem C138_fields : forall (tg : R -> R) co c hx hy hz cx cy cz W dt0, 0 < c -> 0 < hx -> 0 < hy -> 0 < hz -> 0 < co ->
  total cx <= W -> total cy <= W -> total cz <= W -> co * W < 1 ->
  exists dt, @time_step (RX tg) 3 false (Fin co) (Fin c) (Fin hx) (Fin hy) (Fin hz) dt0 = Fin dt /\ 0 < dt /\
  forall e b (sel : rfield -> idx -> R) kx ky kz phi a0 a1, let S := any_order false hx hy hz cx cy cz in
  em_run S c dt e b -> (forall p, div (bwd S) (e 0%nat) p = 0) -> In sel [comp_x; comp_y; comp_z] ->
  (forall p, sel (e 0%nat) p = a0 * plane_wave kx ky kz phi p /\ sel (e 1%nat) p = a1 * plane_wave kx ky kz phi p) ->
  (exists p, laplacian S (plane_wave kx ky kz phi) p <> 0) ->
  exists M, forall n p, Rabs (sel (e n) p) <= M.
Proof. exact (@em_bounded). Qed.
Print Assumptions C138_fields.
(** there are such runs, for any step and wave in the plane of x and y *)
Example C138_fields_case : forall kx ky c dt, let S := any_order false 1 2 3 [9 / 8; -1 / 24] [9 / 8; -1 / 24] [1] in
  exists e b a1, em_run S c dt e b /\ (forall p, div (bwd S) (e 0%nat) p = 0) /\
  forall p, comp_z (e 0%nat) p = 1 * plane_wave kx ky 0 0 p /\ comp_z (e 1%nat) p = a1 * plane_wave kx ky 0 0 p.
Proof. intros kx ky c dt S. exact (em_case S kx ky c dt eq_refl). Qed.
(** in two dimensions nothing depends on y *)
Theorem C138_bounded_2d : forall (tg : R -> R) co c hx hy hz cx cy cz W dy dt0, 0 < c -> 0 < hx -> 0 < hz -> 0 < co ->
  total cx <= W -> total cz <= W -> co * W < 1 ->
  exists dt, @time_step (RX tg) 2 false (Fin co) (Fin c) (Fin hx) dy (Fin hz) dt0 = Fin dt /\ 0 < dt /\
  forall kx kz phi u, let S := any_order false hx hy hz cx cy cz in
  (exists p, laplacian S (plane_wave kx 0 kz phi) p <> 0) -> wave_run S (c * dt) (one_wave kx 0 kz phi u) ->
  exists M, forall n p, Rabs (one_wave kx 0 kz phi u n p) <= M.
Proof. exact (@bounded2). Qed.
Print Assumptions C138_bounded_2d.
(** and the bound is exact for coefficients of alternating sign *)
Theorem C138_grows : forall (tg : R -> R) co c hx hy hz cx cy cz w dt0, 0 < c -> 0 < hx -> 0 < hy -> 0 < hz -> 0 < co ->
  alternate cx -> alternate cy -> alternate cz -> 0 <= w -> w <= total cx -> w <= total cy -> w <= total cz -> 1 < co * w ->
  exists dt, @time_step (RX tg) 3 false (Fin co) (Fin c) (Fin hx) (Fin hy) (Fin hz) dt0 = Fin dt /\ 0 < dt /\
  let S := any_order false hx hy hz cx cy cz in
  exists kx ky kz u, wave_run S (c * dt) (one_wave kx ky kz 0 u) /\ forall M, exists n, M < Rabs (one_wave kx ky kz 0 u n (0, 0, 0)%Z).
Proof. exact (@grows3). Qed.
Print Assumptions C138_grows.
(** the default dtcoef suits the orders 2 and 4 *)
Theorem C138_default : forall (tg : R -> R) ox oy oz c hx hy hz dt0, In ox [2; 4]%Z -> In oy [2; 4]%Z -> In oz [2; 4]%Z ->
  0 < c -> 0 < hx -> 0 < hy -> 0 < hz ->
  exists cx cy cz dt, @init_stencil_coefficients (RX tg) ox oy oz false = Ret (map (fun r => Fin r) cx, map (fun r => Fin r) cy, map (fun r => Fin r) cz) /\
  @time_step (RX tg) 3 false default_dtcoef (Fin c) (Fin hx) (Fin hy) (Fin hz) dt0 = Fin dt /\ 0 < dt /\
  forall kx ky kz phi u, let S := any_order false hx hy hz cx cy cz in
  (exists p, laplacian S (plane_wave kx ky kz phi) p <> 0) -> wave_run S (c * dt) (one_wave kx ky kz phi u) ->
  exists M, forall n p, Rabs (one_wave kx ky kz phi u n p) <= M.
Proof. exact (@default_ok). Qed.
Print Assumptions C138_default.
(** dtcoef below 1 is not enough at order 4: the formula for dt does not look at the order *)
Theorem C138_order4_refuted : forall (tg : R -> R) co c hx hy hz dt0, 6 / 7 < co -> 0 < c -> 0 < hx -> 0 < hy -> 0 < hz ->
  exists cs dt, @init_stencil_coefficients (RX tg) 4 4 4 false = Ret (map (fun r => Fin r) cs, map (fun r => Fin r) cs, map (fun r => Fin r) cs) /\
  @time_step (RX tg) 3 false (Fin co) (Fin c) (Fin hx) (Fin hy) (Fin hz) dt0 = Fin dt /\ 0 < dt /\
  let S := any_order false hx hy hz cs cs cs in
  exists kx ky kz u, wave_run S (c * dt) (one_wave kx ky kz 0 u) /\ forall M, exists n, M < Rabs (one_wave kx ky kz 0 u n (0, 0, 0)%Z).
Proof. exact (@order4_grows). Qed.
Print Assumptions C138_order4_refuted.
(** with dtcoef up to 1 the step is within the limit of the Karkkainen solver, see C136 *)
Theorem C138_karkkainen : forall (tg : R -> R) co c hx hy hz dt0, 0 < c -> 0 < hx -> 0 < hy -> 0 < hz -> 0 < co <= 1 ->
  exists dt, @time_step (RX tg) 3 false (Fin co) (Fin c) (Fin hx) (Fin hy) (Fin hz) dt0 = Fin dt /\ 0 < c * dt < smallest hx hy hz.
Proof. exact (@ckc3). Qed.
Print Assumptions C138_karkkainen.
(** with the spectral solver light travels the smallest cell size, whatever dtcoef *)
Theorem C138_spectral : forall (tg : R -> R) co c hx hy hz dt0, 0 < c ->
  exists dt, @time_step (RX tg) 3 true co (Fin c) (Fin hx) (Fin hy) (Fin hz) dt0 = Fin dt /\ c * dt = smallest hx hy hz.
Proof. exact (@spectral3). Qed.
Print Assumptions C138_spectral.
Theorem C138_spectral_2d : forall (tg : R -> R) co c hx dy hz dt0, 0 < c ->
  exists dt, @time_step (RX tg) 2 true co (Fin c) (Fin hx) dy (Fin hz) dt0 = Fin dt /\ c * dt = smallest2 hx hz.
Proof. exact (@spectral2). Qed.
Print Assumptions C138_spectral_2d.
(** a run of the second order solver at dtcoef 1/2 that moves, and the wave it is about *)
Example C138_case : total [1] <= 1 /\ alternate [1] /\
  let S := any_order false 1 1 1 [1] [1] [1] in
  (exists p, laplacian S (plane_wave PI 0 0 0) p <> 0) /\ exists u, u 0%nat = 1 /\ wave_run S (1 / 2) (one_wave PI 0 0 0 u).
Proof.
  assert (Q : power (any_order false 1 1 1 [1] [1] [1]) PI 0 0 = 1).
  { rewrite power_series, !series_0, series_PI, total2; [field|]. intros i H. assert (i = 1)%Z as -> by (change (zlen [1]) with 1%Z in H; lia). cbn. lra. }
  split; [rewrite total2; lra|]. split; [intros i H; assert (i = 1)%Z as -> by (change (zlen [1]) with 1%Z in H; lia); cbn; lra|]. split.
  - exists (0, 0, 0)%Z. rewrite laplacian_wave by reflexivity. rewrite Q. unfold plane_wave. cbn [phase]. rewrite !Rmult_0_r, !Rplus_0_r, cos_0. lra.
  - exists (fun n => cos (INR n * (PI / 3))). split; [cbn; rewrite Rmult_0_l; apply cos_0|]. apply wave_amp; [reflexivity|]. intros n. rewrite Q, !plus_INR. cbn [INR].
    pose proof (form1 ((INR n + (1 + 1)) * (PI / 3)) (INR n * (PI / 3))) as F.
    replace (((INR n + (1 + 1)) * (PI / 3) - INR n * (PI / 3)) / 2) with (PI / 3) in F by field.
    replace (((INR n + (1 + 1)) * (PI / 3) + INR n * (PI / 3)) / 2) with ((INR n + 1) * (PI / 3)) in F by field.
    rewrite cos_PI3 in F. lra.
Qed.
