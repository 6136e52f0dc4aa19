(** C139: the coefficients of the spectral solver's difference formulas (init_kspace_3D.F90, FD_weights_hvincenti). *)
From Coq Require Import ZArith Reals List Bool Lia Lra.
From Verif Require Import Cxx Num NumRX Fortran Grid SpecYee Hvincenti SpecFd HvProofs HvExact.
Import ListNotations.
Local Open Scope R_scope.
(** Order 2h takes the values at 1 - h, ..., h around 1/2 if staggered, and at -h, ..., h around 0 if not. The coefficient of point i is the
    derivative there of the polynomial that is 1 at i and 0 at the other points, for every order. *)
Theorem C139_weights : forall (tg : R -> R) (h : Z) (is_staggered : bool), (1 <= h)%Z ->
  exists cs, @fd_weights_hvincenti (RX tg) (2 * h) is_staggered = map (fun r => Fin r) cs /\ zlen cs = h /\
  forall i, (1 <= i <= h)%Z -> derivable_pt_lim (lagrange (if is_staggered then 1 - h else - h) h i) (if is_staggered then 1 / 2 else 0) (weight cs i).
Proof. exact (@hv_spec). Qed.
Print Assumptions C139_weights.
(** so the formula of order 2h gives the derivative of every polynomial up to degree 2h, everywhere and for every distance of the points *)
Theorem C139_exact : forall (tg : R -> R) (h : Z) (is_staggered : bool), (1 <= h)%Z ->
  exists cs, @fd_weights_hvincenti (RX tg) (2 * h) is_staggered = map (fun r => Fin r) cs /\
  forall d, d <> 0 -> exact_to (Z.to_nat (2 * h)) (if is_staggered then staggered cs d else nodal cs d).
Proof. exact hv_exact. Qed.
Print Assumptions C139_exact.
(** at order 6 the polynomial of point 1 is the one on all of -2, ..., 3 *)
Example C139_case : lagrange (-2) 3 1 (1 / 2) = 75 / 128 /\ lagrange (-2) 3 1 1 = 1 /\ lagrange (-2) 3 1 3 = 0 /\ lagrange (-3) 3 1 (-1) = 0.
Proof. unfold lagrange. cbv -[IZR Rplus Rmult Rminus Rdiv Ropp Rinv]. repeat split; field. Qed.
(** x^6 + 3 at order 6 on points 1/10 apart, where the other routine is wrong already for x *)
Example C139_exact_case : exists cs, @fd_weights_hvincenti (RX (fun x => x)) 6 true = map (fun r => Fin r) cs /\
  derivable_pt_lim (poly [3; 0; 0; 0; 0; 0; 1]) 2 (staggered cs (1 / 10) (poly [3; 0; 0; 0; 0; 0; 1]) 2) /\ poly [3; 0; 0; 0; 0; 0; 1] 2 = 67.
Proof.
  destruct (C139_exact (fun x => x) 3 true ltac:(lia)) as (cs & E & X). exists cs. split; [exact E|]. split; [|unfold poly; cbn; ring].
  apply (X (1 / 10)); [lra | cbn; lia].
Qed.
