(** The current of a particle that moves on a straight path, in closed form. *)
From Coq Require Import ZArith Reals List.
From Verif Require Import Cxx Num Fortran Grid SpecYee SpecDeposit SpecTiles SpecDepositTiles.
Import ListNotations.
Local Open Scope R_scope.

(** coordinate of a node along an axis; the node with that coordinate replaced *)
Definition node_on (d : axis) (p : idx) : Z := let '(j, k, l) := p in match d with AX => j | AY => k | AZ => l end.
Definition put (d : axis) (i : Z) (p : idx) : idx := let '(j, k, l) := p in match d with AX => (i, k, l) | AY => (j, i, l) | AZ => (j, k, i) end.
(** area of the faces of a cell across an axis *)
Definition face (g : cells) (d : axis) : R := match d with AX => hy g * hz g | AY => hx g * hz g | AZ => hx g * hy g end.
(** a node on this side of a particle on its way from old to new *)
Definition behind (g : cells) (d : axis) (new old : rpart) : Z := (Z.min (Int_part (unit_on g d new)) (Int_part (unit_on g d old)) - 3)%Z.
(** the part of the particle that crosses the face between p and the next node along the axis: what the nodes up to p lose due
    to the motion along this axis *)
Definition flux (o : orders) (g : cells) (d : axis) (new old : rpart) (p : idx) : R :=
  sumR (map (fun i => inflow o g d new old (put d i p)) (zrange (behind g d new old) (node_on d p))).
(** current density of particles with their charges *)
Definition current_of (o : orders) (g : cells) (dt : R) (cs : list (R * rpart)) (d : axis) (p : idx) : R :=
  sumR (map (fun b => fst b * rw (snd b) / (dt * face g d) * flux o g d (snd b) (before_move dt (snd b)) p) cs).
(** all particles of a process with their charges *)
Definition proc_charges (x y z : paxis R) (ss : list rspecies) : list (R * rpart) :=
  flat_map (fun s => map (pair (rs_q s)) (flat_map (rs_parts s) (tiles_of x y z))) (filter rs_depos ss).
