(** Specification vocabulary for the current deposition on tiles. *)
From Coq Require Import ZArith Reals List Bool.
From Verif Require Import Cxx Num NumRX Fortran FortranNum Grid Pushers Yee Deposit Esirkepov Tiles DepositTiles CurrentTiles SpecYee SpecTiles SpecDeposit SpecCurrent SpecDepositTiles.
Import ListNotations.
Local Open Scope R_scope.

(** there are enough guard cells for a particle that comes from a cell outside *)
Definition roomy {A} (a : paxis A) : Prop := (p_o a ÷ 2 + 2 <= p_ng a)%Z.
(** a particle does not move faster than c *)
Definition slower (c : R) (a : rpart) : Prop := forall d, Rabs (speed d a) <= c.
Definition all_slower (c : R) (x y z : paxis R) (ss : list rspecies) : Prop := forall s q a, In s ss -> In q (tiles_of x y z) -> In a (rs_parts s q) -> slower c a.
(** light does not cross a cell in a time step *)
Definition short_step (c dt : R) (x y z : paxis R) : Prop := 0 < dt /\ 0 < c /\ c * dt < p_d x /\ c * dt < p_d y /\ c * dt < p_d z.
(** the species with the particles where they were a time dt before *)
Definition earlier (dt : R) (s : rspecies) : rspecies := RSpecies (rs_depos s) (rs_q s) (fun q => map (before_move dt) (rs_parts s q)).
Definition jspecies_of (s : rspecies) : jspecies FRX :=
  JSpecies (rs_depos s) (Fin (rs_q s) : num FRX) (fun q => map (fun a => (pos_of a, mom_of a, weight_of a)) (rs_parts s q)).
(** a possible result of the current deposition of a process with at most n threads *)
Notation tile_current K optimised n dt x y z ss J r :=
  (currents_outcome n (depose_jxjyjz K optimised (p_o x) (p_o y) (p_o z)) (steps x y z) (Fin dt : num FRX) (mesh_of (fin_axis x) (fin_axis y) (fin_axis z))
     (tiles_of x y z) (map jspecies_of ss) J r).
(** jx, jy and jz have the same bounds *)
Definition every {A} (a : A) (d : axis) : A := a.
