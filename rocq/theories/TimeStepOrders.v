(** The time step with the coefficients of FD_weights, and for the other solvers. *)
From Coq Require Import ZArith Reals List Bool Lia Lra.
From Verif Require Import Cxx Num NumRX Fortran Grid SpecYee SpecCkc SpecTimeStep FdWeights TimeStep CxxLemmas RXLemmas GridLemmas CkcProofs CkcWaves FdProofs TimeStepProofs.
Import ListNotations.
Local Open Scope R_scope.

Section T.
Context {tg : R -> R}.
Notation N := (RX tg).
Notation fin r := (Fin r : num N).
Lemma total2 : total [1] = 1.
Proof. cbv -[IZR Rplus Rmult Rminus Rdiv Ropp Rinv Rabs]. rewrite Rabs_pos_eq; lra. Qed.
Lemma total4 : total [9 / 8; -1 / 24] = 7 / 6.
Proof. cbv -[IZR Rplus Rmult Rminus Rdiv Ropp Rinv Rabs]. rewrite Rabs_pos_eq, Rabs_left1; lra. Qed.
Lemma alt4 : alternate [9 / 8; -1 / 24].
Proof. intros i H. assert (i = 1 \/ i = 2)%Z as [-> | ->] by (change (zlen [9 / 8; -1 / 24]) with 2%Z in H; lia); cbv -[IZR Rplus Rmult Rminus Rdiv Ropp Rinv Rle]; lra. Qed.
Lemma default_fin : @default_dtcoef N = fin (7 / 10).
Proof. apply fin_eq. cbn. lra. Qed.

Theorem default_ok ox oy oz c hx hy hz dt0 : In ox [2; 4]%Z -> In oy [2; 4]%Z -> In oz [2; 4]%Z -> 0 < c -> 0 < hx -> 0 < hy -> 0 < hz ->
  exists cx cy cz dt, @init_stencil_coefficients N ox oy oz false = Ret (map (fun r => fin r) cx, map (fun r => fin r) cy, map (fun r => fin r) cz) /\
  @time_step N 3 false default_dtcoef (fin c) (fin hx) (fin hy) (fin hz) dt0 = fin dt /\ 0 < dt /\
  forall kx ky kz phi u, let S := any_order false hx hy hz cx cy cz in
  (exists p, laplacian S (plane_wave kx ky kz phi) p <> 0) -> wave_run S (c * dt) (one_wave kx ky kz phi u) ->
  exists M, forall n p, Rabs (one_wave kx ky kz phi u n p) <= M.
Proof.
  assert (W : forall o, In o [2; 4]%Z -> exists cs, @fd_weights N o false = Ret (map (fun r => fin r) cs) /\ total cs <= 7 / 6).
  { intros o [<-|[<-|[]]]; [exists [1]; rewrite s2, total2 | exists [9 / 8; -1 / 24]; rewrite s4, total4]; (split; [reflexivity | lra]). }
  intros Hx Hy Hz Hc Px Py Pz. destruct (W ox Hx) as (cx & Ex & Wx), (W oy Hy) as (cy & Ey & Wy), (W oz Hz) as (cz & Ez & Wz).
  destruct (bounded3 (tg := tg) (7 / 10) c hx hy hz cx cy cz (7 / 6) dt0 Hc Px Py Pz ltac:(lra) Wx Wy Wz ltac:(lra)) as (dt & E & P & B).
  exists cx, cy, cz, dt. split; [unfold init_stencil_coefficients; rewrite Ex, Ey, Ez; reflexivity|]. rewrite default_fin. split; [exact E|]. split; [exact P | exact B].
Qed.
Theorem order4_grows co c hx hy hz dt0 : 6 / 7 < co -> 0 < c -> 0 < hx -> 0 < hy -> 0 < hz ->
  exists cs dt, @init_stencil_coefficients N 4 4 4 false = Ret (map (fun r => fin r) cs, map (fun r => fin r) cs, map (fun r => fin r) cs) /\
  @time_step N 3 false (fin co) (fin c) (fin hx) (fin hy) (fin hz) dt0 = fin dt /\ 0 < dt /\
  let S := any_order false hx hy hz cs cs cs in
  exists kx ky kz u, wave_run S (c * dt) (one_wave kx ky kz 0 u) /\ forall M, exists n, M < Rabs (one_wave kx ky kz 0 u n (0, 0, 0)%Z).
Proof.
  intros Hco Hc Px Py Pz.
  destruct (grows3 (tg := tg) co c hx hy hz [9 / 8; -1 / 24] [9 / 8; -1 / 24] [9 / 8; -1 / 24] (7 / 6) dt0) as (dt & E & P & B); try assumption; try exact alt4; try (rewrite total4; lra); try lra.
  exists [9 / 8; -1 / 24], dt. split; [unfold init_stencil_coefficients; rewrite s4; reflexivity|]. split; [exact E|]. split; [exact P | exact B].
Qed.

(** the other solvers *)
Lemma smaller_fin a b : smaller (fin a) (fin b) = fin (Rmin a b).
Proof. unfold smaller. cbn [n_lt RX x_lt]. unfold Rmin. destruct (Rltb_spec b a), (Rle_dec a b); try reflexivity; try lra. Qed.
Theorem spectral3 co c hx hy hz dt0 : 0 < c ->
  exists dt, @time_step N 3 true co (fin c) (fin hx) (fin hy) (fin hz) dt0 = fin dt /\ c * dt = smallest hx hy hz.
Proof.
  intros Hc. exists (Rmin (Rmin hx hy) hz / c). split.
  - unfold time_step. cbn [Z.eqb Pos.eqb]. rewrite !smaller_fin. apply div_fin. lra.
  - unfold smallest. rewrite Rmin_assoc. field. lra.
Qed.
Theorem spectral2 co c hx dy hz dt0 : 0 < c ->
  exists dt, @time_step N 2 true co (fin c) (fin hx) dy (fin hz) dt0 = fin dt /\ c * dt = smallest2 hx hz.
Proof.
  intros Hc. exists (Rmin hx hz / c). split.
  - unfold time_step. cbn [Z.eqb Pos.eqb]. rewrite !smaller_fin. apply div_fin. lra.
  - unfold smallest2. field. lra.
Qed.
Lemma below q h co c : 0 < h -> 0 < c -> 0 < co <= 1 -> (/ h) ^ 2 < q -> c * (co / (c * sqrt q)) < h.
Proof.
  intros Hh Hc Hco Hq. assert (Ip : 0 < / h) by (apply Rinv_0_lt_compat; exact Hh).
  assert (S1 : / h < sqrt q). { rewrite <- (sqrt_pow2 (/ h)) by lra. apply sqrt_lt_1; nra. }
  replace (c * (co / (c * sqrt q))) with (co / sqrt q) by (field; lra).
  apply (Rmult_lt_reg_r (sqrt q)); [lra|]. unfold Rdiv. rewrite Rmult_assoc, Rinv_l by lra.
  assert (1 < h * sqrt q). { rewrite <- (Rinv_r h) by lra. apply Rmult_lt_compat_l; assumption. } lra.
Qed.
Theorem ckc3 co c hx hy hz dt0 : 0 < c -> 0 < hx -> 0 < hy -> 0 < hz -> 0 < co <= 1 ->
  exists dt, @time_step N 3 false (fin co) (fin c) (fin hx) (fin hy) (fin hz) dt0 = fin dt /\ 0 < c * dt < smallest hx hy hz.
Proof.
  intros Hc Px Py Pz Hco. exists (co / (c * sqrt (inv2 hx hy hz))). split; [apply step3; assumption|].
  destruct (inv_sq hx Px) as [Ex Ix], (inv_sq hy Py) as [Ey Iy], (inv_sq hz Pz) as [Ez Iz].
  assert (Q : 0 < inv2 hx hy hz) by (unfold inv2; lra). pose proof (sqrt_lt_R0 _ Q) as Sp. split.
  - apply Rmult_lt_0_compat; [assumption|]. apply Rdiv_lt_0_compat; [lra | nra].
  - unfold smallest. repeat apply Rmin_glb_lt; apply below; try assumption; unfold inv2; lra.
Qed.
End T.
