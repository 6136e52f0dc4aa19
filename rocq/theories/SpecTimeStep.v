(** Specification vocabulary for the stability of the leapfrog scheme with the differences of the stencil S. *)
From Coq Require Import ZArith Reals List Bool.
From Verif Require Import Cxx Num NumRX Grid SpecYee SpecCkc.
Import ListNotations.
Local Open Scope R_scope.

(** the Laplacian made of the differences of S *)
Definition laplacian (S : stencil) (f : idx -> R) (p : idx) : R :=
  bwd S AX (fwd S AX f) p + bwd S AY (fwd S AY f) p + bwd S AZ (fwd S AZ f) p.
(** the wave equation in leapfrog steps; cdt is the distance light travels in a step *)
Definition wave_run (S : stencil) (cdt : R) (F : nat -> idx -> R) : Prop :=
  forall n p, F (n + 2)%nat p - 2 * F (n + 1)%nat p + F n p = cdt ^ 2 * laplacian S (F (n + 1)%nat) p.
(** a run that consists of multiples of one plane wave, of phase advance kx, ky, kz per cell *)
Definition one_wave (kx ky kz phi : R) (u : nat -> R) : nat -> idx -> R := fun n p => u n * plane_wave kx ky kz phi p.
(** the sum of the sizes of the coefficients *)
Definition total (cs : list R) : R := Sum (zlen cs) (fun i => Rabs (weight cs i)).
(** the signs of the coefficients alternate, and the first is not negative *)
Definition alternate (cs : list R) : Prop := forall i, (1 <= i <= zlen cs)%Z -> 0 <= (if Z.odd i then 1 else -1) * weight cs i.
(** a run of the scheme in vacuum: B is advanced with the curl of E, then E with the curl of B *)
Definition em_run (S : stencil) (c dt : R) (e b : nat -> rfield) : Prop :=
  forall n p,
    let r := curl (fwd S) (e n) in let s := curl (bwd S) (b (n + 1)%nat) in
    comp_x (b (n + 1)%nat) p = comp_x (b n) p - dt * comp_x r p /\
    comp_y (b (n + 1)%nat) p = comp_y (b n) p - dt * comp_y r p /\
    comp_z (b (n + 1)%nat) p = comp_z (b n) p - dt * comp_z r p /\
    comp_x (e (n + 1)%nat) p = comp_x (e n) p + c ^ 2 * dt * comp_x s p /\
    comp_y (e (n + 1)%nat) p = comp_y (e n) p + c ^ 2 * dt * comp_y s p /\
    comp_z (e (n + 1)%nat) p = comp_z (e n) p + c ^ 2 * dt * comp_z s p.
