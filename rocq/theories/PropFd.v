(** C137: the coefficients of the finite difference solver (src/submain.F90, FD_weights). *)
From Coq Require Import ZArith Reals List Bool Lia Lra.
From Verif Require Import Cxx Num NumRX Fortran Grid SpecYee FdWeights SpecFd FdProofs.
Import ListNotations.
Local Open Scope R_scope.
(** Order 2h takes the values at 1 - h, ..., h around 1/2. The weights of the derivative are the derivatives at 1/2 of the polynomials
    lagrange (1-h) h i. What is computed leaves out the points after i + 1, and takes in h + 1 for the last coefficient. *)
Theorem C137_weights : forall (tg : R -> R) (h : Z) (nodal : bool), (1 <= h)%Z ->
  exists cs, @fd_weights (RX tg) (2 * h) nodal = Ret (map (fun r => Fin r) cs) /\ zlen cs = h /\
  forall i, (1 <= i <= h)%Z -> derivable_pt_lim (lagrange (1 - h) (i + 1) i) (if nodal then 0 else 1 / 2) (weight cs i).
Proof. exact (@weights_spec). Qed.
Print Assumptions C137_weights.
(** each axis gets the coefficients of its own order *)
Theorem C137_axes : forall (tg : R -> R) (hx hy hz : Z) (nodal : bool), (1 <= hx)%Z -> (1 <= hy)%Z -> (1 <= hz)%Z ->
  exists cx cy cz, @init_stencil_coefficients (RX tg) (2 * hx) (2 * hy) (2 * hz) nodal =
    Ret (map (fun r => Fin r) cx, map (fun r => Fin r) cy, map (fun r => Fin r) cz) /\
  Forall (fun hc => zlen (snd hc) = fst hc /\ forall i, (1 <= i <= fst hc)%Z ->
    derivable_pt_lim (lagrange (1 - fst hc) (i + 1) i) (if nodal then 0 else 1 / 2) (weight (snd hc) i)) [(hx, cx); (hy, cy); (hz, cz)].
Proof. exact (@axes_spec). Qed.
Print Assumptions C137_axes.
(** orders 2 and 4 of the staggered solver are right *)
Theorem C137_order2 : forall tg : R -> R, exists cs, @fd_weights (RX tg) 2 false = Ret (map (fun r => Fin r) cs) /\
  forall h, h <> 0 -> exact_to 2 (staggered cs h).
Proof. exact (@order2_ok). Qed.
Print Assumptions C137_order2.
Theorem C137_order4 : forall tg : R -> R, exists cs, @fd_weights (RX tg) 4 false = Ret (map (fun r => Fin r) cs) /\
  forall h, h <> 0 -> exact_to 4 (staggered cs h).
Proof. exact (@order4_ok). Qed.
Print Assumptions C137_order4.
(** order 6 is not: the derivative of y is 61/64 *)
Theorem C137_order6_refuted : forall tg : R -> R, exists cs, @fd_weights (RX tg) 6 false = Ret (map (fun r => Fin r) cs) /\
  forall h x, h <> 0 -> staggered cs h (fun y => y) x = 61 / 64.
Proof. exact (@order6_bad). Qed.
Print Assumptions C137_order6_refuted.
(** nor are the nodal ones: it is 4 at order 2, and 0 at order 4 *)
Theorem C137_nodal2_refuted : forall tg : R -> R, exists cs, @fd_weights (RX tg) 2 true = Ret (map (fun r => Fin r) cs) /\
  forall h x, h <> 0 -> nodal cs h (fun y => y) x = 4.
Proof. exact (@nodal2_bad). Qed.
Print Assumptions C137_nodal2_refuted.
Theorem C137_nodal4_refuted : forall tg : R -> R, exists cs, @fd_weights (RX tg) 4 true = Ret (map (fun r => Fin r) cs) /\
  forall h x, h <> 0 -> nodal cs h (fun y => y) x = 0.
Proof. exact (@nodal4_bad). Qed.
Print Assumptions C137_nodal4_refuted.
(** the derivatives that the first theorem speaks of, at order 6 *)
Example C137_case : lagrange (-2) 2 1 (1 / 2) = 15 / 32 /\ lagrange (-2) 3 1 (1 / 2) = 75 / 128 /\ lagrange (-2) 2 1 1 = 1 /\ lagrange (-2) 2 1 2 = 0.
Proof. unfold lagrange. cbv -[IZR Rplus Rmult Rminus Rdiv Ropp Rinv]. repeat split; field. Qed.
