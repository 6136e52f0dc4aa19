(** C135, C136: the Cole-Karkkainen-Cowan solver (src/field_solvers/Maxwell/karkkainen_solver/karkkainen.F90). *)
From Coq Require Import ZArith Reals List Bool Lia Lra.
From Verif Require Import Cxx Num NumRX Fortran Grid Pushers Yee SpecYee SpecSolver SpecLibrary Ckc SpecCkc YeeExamples CkcProofs CkcWaves Ckc2D CkcExamples.
Import ListNotations.
Local Open Scope R_scope.
(** ** C135: what the pushes compute *)
Theorem C135_update : forall (tg : R -> R) hx hy hz, 0 < hx -> 0 < hy -> 0 < hz ->
  forall xlo xhi ylo yhi zlo zhi (E B : field (num (RX tg))) LE HE L H e b dt,
  0 < dt -> holds_field E LE HE e -> holds_field B L H b ->
  (forall p, in_box xlo xhi p = true -> in_box L H p = true /\ forall q, uses AY p q \/ uses AZ p q -> in_box LE HE q = true) ->
  (forall p, in_box ylo yhi p = true -> in_box L H p = true /\ forall q, uses AX p q \/ uses AZ p q -> in_box LE HE q = true) ->
  (forall p, in_box zlo zhi p = true -> in_box L H p = true /\ forall q, uses AX p q \/ uses AY p q -> in_box LE HE q = true) ->
  exists B' b', pxrpush_em3d_bvec_ckc xlo xhi ylo yhi zlo zhi E B (Fin (dt / hx) : num (RX tg)) (Fin (dt / hy) : num (RX tg)) (Fin (dt / hz) : num (RX tg)) = Ret B' /\
    holds_field B' L H b' /\
    let c := curl (ckc hx hy hz) e in
    (forall p, comp_x b' p = (if in_box xlo xhi p then comp_x b p - dt * comp_x c p else comp_x b p) /\
               comp_y b' p = (if in_box ylo yhi p then comp_y b p - dt * comp_y c p else comp_y b p) /\
               comp_z b' p = (if in_box zlo zhi p then comp_z b p - dt * comp_z c p else comp_z b p)).
Proof. exact (@ckc_update). Qed.
Print Assumptions C135_update.
(** the divergence of B made of the same differences does not change *)
Theorem C135_divergence : forall (tg : R -> R) hx hy hz lo hi (E B : field (num (RX tg))) LE HE L H e b dt,
  0 < hx -> 0 < hy -> 0 < hz -> 0 < dt -> holds_field E LE HE e -> holds_field B L H b ->
  (forall p, in_box lo hi p = true -> in_box L H p = true /\ forall d q, uses d p q -> in_box LE HE q = true) ->
  exists B' b', pxrpush_em3d_bvec_ckc lo hi lo hi lo hi E B (Fin (dt / hx) : num (RX tg)) (Fin (dt / hy) : num (RX tg)) (Fin (dt / hz) : num (RX tg)) = Ret B' /\
    holds_field B' L H b' /\
    forall p, (forall d q, uses d p q -> in_box lo hi q = true) -> div (ckc hx hy hz) b' p = div (ckc hx hy hz) b p.
Proof. exact (@ckc_divergence). Qed.
Print Assumptions C135_divergence.
(** the divergence cleaning push adds a gradient made of these differences *)
Theorem C135_cleaning : forall (tg : R -> R) hx hy hz, 0 < hx -> 0 < hy -> 0 < hz ->
  forall xlo xhi ylo yhi zlo zhi (E : field (num (RX tg))) (F : grid (num (RX tg))) L H LF HF e f kappa,
  0 < kappa -> holds_field E L H e -> is_grid F LF HF f ->
  (forall p, in_box xlo xhi p = true -> in_box L H p = true /\ forall q, uses AX p q -> in_box LF HF q = true) ->
  (forall p, in_box ylo yhi p = true -> in_box L H p = true /\ forall q, uses AY p q -> in_box LF HF q = true) ->
  (forall p, in_box zlo zhi p = true -> in_box L H p = true /\ forall q, uses AZ p q -> in_box LF HF q = true) ->
  exists E' e', pxrpush_em3d_evec_f_ckc xlo xhi ylo yhi zlo zhi E F (Fin (kappa / hx) : num (RX tg)) (Fin (kappa / hy) : num (RX tg)) (Fin (kappa / hz) : num (RX tg)) = Ret E' /\
    holds_field E' L H e' /\
    let g := grad (ckc hx hy hz) f in
    (forall p, comp_x e' p = (if in_box xlo xhi p then comp_x e p + kappa * comp_x g p else comp_x e p) /\
               comp_y e' p = (if in_box ylo yhi p then comp_y e p + kappa * comp_y g p else comp_y e p) /\
               comp_z e' p = (if in_box zlo zhi p then comp_z e p + kappa * comp_z g p else comp_z e p)).
Proof. exact (@ckc_cleaning). Qed.
Print Assumptions C135_cleaning.
(** so the next magnetic push does not see it *)
Theorem C135_longitudinal : forall (tg : R -> R) hx hy hz lo hi (E : field (num (RX tg))) (F : grid (num (RX tg))) L H LF HF e f kappa,
  0 < hx -> 0 < hy -> 0 < hz -> 0 < kappa -> holds_field E L H e -> is_grid F LF HF f ->
  (forall p, in_box lo hi p = true -> in_box L H p = true /\ forall d q, uses d p q -> in_box LF HF q = true) ->
  exists E' e', pxrpush_em3d_evec_f_ckc lo hi lo hi lo hi E F (Fin (kappa / hx) : num (RX tg)) (Fin (kappa / hy) : num (RX tg)) (Fin (kappa / hz) : num (RX tg)) = Ret E' /\
    holds_field E' L H e' /\
    forall p, (forall d q, uses d p q -> in_box lo hi q = true) ->
      comp_x (curl (ckc hx hy hz) e') p = comp_x (curl (ckc hx hy hz) e) p /\
      comp_y (curl (ckc hx hy hz) e') p = comp_y (curl (ckc hx hy hz) e) p /\
      comp_z (curl (ckc hx hy hz) e') p = comp_z (curl (ckc hx hy hz) e) p.
Proof. exact (@ckc_longitudinal). Qed.
Print Assumptions C135_longitudinal.
(** two dimensions *)
Theorem C135_update_2d : forall (tg : R -> R) hx hz, 0 < hx -> 0 < hz ->
  forall xlo xhi ylo yhi zlo zhi (E B : field (num (RX tg))) LE HE L H e b dt,
  0 < dt -> holds_field E LE HE e -> holds_field B L H b ->
  (forall p, in_box xlo xhi p = true -> in_box L H p = true /\ forall q, uses2 AZ p q -> in_box LE HE q = true) ->
  (forall p, in_box ylo yhi p = true -> in_box L H p = true /\ forall q, uses2 AX p q \/ uses2 AZ p q -> in_box LE HE q = true) ->
  (forall p, in_box zlo zhi p = true -> in_box L H p = true /\ forall q, uses2 AX p q -> in_box LE HE q = true) ->
  exists B' b', pxrpush_em2d_bvec_ckc xlo xhi ylo yhi zlo zhi E B (Fin (dt / hx) : num (RX tg)) (Fin (dt / hz) : num (RX tg)) = Ret B' /\
    holds_field B' L H b' /\
    let c := curl (ckc2 hx hz) e in
    (forall p, comp_x b' p = (if in_box xlo xhi p then comp_x b p - dt * comp_x c p else comp_x b p) /\
               comp_y b' p = (if in_box ylo yhi p then comp_y b p - dt * comp_y c p else comp_y b p) /\
               comp_z b' p = (if in_box zlo zhi p then comp_z b p - dt * comp_z c p else comp_z b p)).
Proof. exact (@ckc2_update). Qed.
Print Assumptions C135_update_2d.
Theorem C135_divergence_2d : forall (tg : R -> R) hx hz lo hi (E B : field (num (RX tg))) LE HE L H e b dt,
  0 < hx -> 0 < hz -> 0 < dt -> holds_field E LE HE e -> holds_field B L H b ->
  (forall p, in_box lo hi p = true -> in_box L H p = true /\ forall d q, d <> AY -> uses2 d p q -> in_box LE HE q = true) ->
  exists B' b', pxrpush_em2d_bvec_ckc lo hi lo hi lo hi E B (Fin (dt / hx) : num (RX tg)) (Fin (dt / hz) : num (RX tg)) = Ret B' /\
    holds_field B' L H b' /\
    forall p, (forall d q, d <> AY -> uses2 d p q -> in_box lo hi q = true) -> div (ckc2 hx hz) b' p = div (ckc2 hx hz) b p.
Proof. exact (@ckc2_divergence). Qed.
Print Assumptions C135_divergence_2d.
Theorem C135_cleaning_2d : forall (tg : R -> R) hx hz, 0 < hx -> 0 < hz ->
  forall xlo xhi zlo zhi (E : field (num (RX tg))) (F : grid (num (RX tg))) L H LF HF e f kappa,
  0 < kappa -> holds_field E L H e -> is_grid F LF HF f ->
  (forall p, in_box xlo xhi p = true -> in_box L H p = true /\ forall q, uses2 AX p q -> in_box LF HF q = true) ->
  (forall p, in_box zlo zhi p = true -> in_box L H p = true /\ forall q, uses2 AZ p q -> in_box LF HF q = true) ->
  exists E' e', pxrpush_em2d_evec_f_ckc xlo xhi zlo zhi E F (Fin (kappa / hx) : num (RX tg)) (Fin (kappa / hz) : num (RX tg)) = Ret E' /\
    holds_field E' L H e' /\
    let g := grad (ckc2 hx hz) f in
    (forall p, comp_x e' p = (if in_box xlo xhi p then comp_x e p + kappa * comp_x g p else comp_x e p) /\
               comp_y e' p = comp_y e p /\
               comp_z e' p = (if in_box zlo zhi p then comp_z e p + kappa * comp_z g p else comp_z e p)).
Proof. exact (@ckc2_cleaning). Qed.
Print Assumptions C135_cleaning_2d.
(** arrays of 15 points per axis, of which the inner 13 are pushed *)
Example C135_case : forall tg,
  @holds_field tg (hold S4 wave) (alo S4) (ahi S4) wave /\
  (forall p, in_box in_lo in_hi p = true -> in_box (alo S4) (ahi S4) p = true /\ forall d q, uses d p q -> in_box (alo S4) (ahi S4) q = true) /\
  (forall d q, uses d (4, 4, 4)%Z q -> in_box in_lo in_hi q = true) /\
  @holds_field tg (hold S4p wave) (alo S4p) (ahi S4p) wave /\
  (forall p, in_box in_lo2 in_hi2 p = true -> in_box (alo S4p) (ahi S4p) p = true /\ forall d q, d <> AY -> uses2 d p q -> in_box (alo S4p) (ahi S4p) q = true) /\
  (forall d q, d <> AY -> uses2 d (4, 0, 4)%Z q -> in_box in_lo2 in_hi2 q = true).
Proof.
  intros tg. split; [apply holds_hold|]. split; [exact room|]. split; [exact middle|]. split; [apply holds_hold|]. split; [exact room2 | exact middle2].
Qed.
(** ** C136: waves *)
(** without charges the electric field obeys the wave equation of the scheme *)
Theorem C136_wave : forall hx hy hz c dt (e b : nat -> rfield), vacuum_run (ckc hx hy hz) hx hy hz c dt e b ->
  (forall p, div (bwd (yee hx hy hz)) (e 0%nat) p = 0) ->
  forall n p,
    comp_x (e (S (S n))) p - 2 * comp_x (e (S n)) p + comp_x (e n) p = (c * dt) ^ 2 * wave_op (ckc hx hy hz) hx hy hz (comp_x (e (S n))) p /\
    comp_y (e (S (S n))) p - 2 * comp_y (e (S n)) p + comp_y (e n) p = (c * dt) ^ 2 * wave_op (ckc hx hy hz) hx hy hz (comp_y (e (S n))) p /\
    comp_z (e (S (S n))) p - 2 * comp_z (e (S n)) p + comp_z (e n) p = (c * dt) ^ 2 * wave_op (ckc hx hy hz) hx hy hz (comp_z (e (S n))) p.
Proof. exact ckc_wave. Qed.
Print Assumptions C136_wave.
(** the scheme is stable exactly for time steps up to the smallest cell size over c *)
Theorem C136_stable : forall hx hy hz c dt kx ky kz, 0 < hx -> 0 < hy -> 0 < hz -> 0 <= c * dt <= smallest hx hy hz ->
  exists mu, 0 <= mu <= 4 /\ forall phi p, (c * dt) ^ 2 * wave_op (ckc hx hy hz) hx hy hz (plane_wave kx ky kz phi) p = - mu * plane_wave kx ky kz phi p.
Proof. exact ckc_stable. Qed.
Print Assumptions C136_stable.
Theorem C136_unstable : forall hx hy hz c dt, 0 < hx -> 0 < hy -> 0 < hz -> smallest hx hy hz < c * dt ->
  exists kx ky kz mu, 4 < mu /\ forall phi p, (c * dt) ^ 2 * wave_op (ckc hx hy hz) hx hy hz (plane_wave kx ky kz phi) p = - mu * plane_wave kx ky kz phi p.
Proof. exact ckc_unstable. Qed.
Print Assumptions C136_unstable.
Theorem C136_bounded : forall hx hy hz c dt e b kx ky kz phi a0 a1 (sel : rfield -> idx -> R),
  0 < hx -> 0 < hy -> 0 < hz -> 0 < c * dt < smallest hx hy hz ->
  sin (kx / 2) <> 0 \/ sin (ky / 2) <> 0 \/ sin (kz / 2) <> 0 ->
  vacuum_run (ckc hx hy hz) hx hy hz c dt e b -> (forall p, div (bwd (yee hx hy hz)) (e 0%nat) p = 0) ->
  In sel [comp_x; comp_y; comp_z] ->
  (forall p, sel (e 0%nat) p = a0 * plane_wave kx ky kz phi p /\ sel (e 1%nat) p = a1 * plane_wave kx ky kz phi p) ->
  exists M, forall n p, Rabs (sel (e n) p) <= M.
Proof. exact ckc_bounded. Qed.
Print Assumptions C136_bounded.
(** along an axis the scheme is the one of Yee *)
Theorem C136_along_axis : forall hx hy hz d f p (g : Z -> R) u v w,
  (forall j k l, f (j, k, l) = match d with AX => g j | AY => g k | AZ => g l end + u * IZR j + v * IZR k + w * IZR l) ->
  ckc hx hy hz d f p = fwd (yee hx hy hz) d f p.
Proof. exact ckc_plane. Qed.
Print Assumptions C136_along_axis.
Theorem C136_stable_2d : forall hx hz hy c dt kx ky kz, 0 < hx -> 0 < hz -> 0 <= c * dt <= smallest2 hx hz ->
  exists mu, 0 <= mu <= 4 /\ forall phi p, (c * dt) ^ 2 * wave_op (ckc2 hx hz) hx hy hz (plane_wave kx ky kz phi) p = - mu * plane_wave kx ky kz phi p.
Proof. exact ckc2_stable. Qed.
Print Assumptions C136_stable_2d.
(** a wave in the plane of x and y on cells of size 1, 2, 3 *)
Example C136_case : (0 < 1 * (1 / 2) < smallest 1 2 3) /\ sin (1 / 2) <> 0 /\
  exists e b a1, vacuum_run (ckc 1 2 3) 1 2 3 1 (1 / 2) e b /\ (forall p, div (bwd (yee 1 2 3)) (e 0%nat) p = 0) /\
  forall p, comp_z (e 0%nat) p = 1 * plane_wave 1 2 0 0 p /\ comp_z (e 1%nat) p = a1 * plane_wave 1 2 0 0 p.
Proof.
  split; [unfold smallest; split; [lra|]; repeat apply Rmin_case; lra|]. split; [|exact run_case].
  apply Rgt_not_eq. apply sin_gt_0; [lra|]. pose proof PI2_1. lra.
Qed.
