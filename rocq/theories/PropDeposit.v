(** C76-C82: the charge deposition (src/particle_deposition/charge_deposition). *)
From Coq Require Import ZArith Reals List Bool Permutation.
From Verif Require Import Cxx Num NumRX Fortran FortranNum Grid Pushers Deposit SpecYee SpecSolver SpecDeposit SpecCurrent DepositProofs DepositMore YeeExamples DepositExamples.
Import ListNotations.
Local Open Scope R_scope.
(** ** C76: the density that is deposited *)
Theorem C76_density : forall o lw l4 g q ps rho rho' lo hi r,
  proper g -> real_grid rho lo hi r ->
  charge_call o lw l4 g q ps rho = Ret rho' -> real_grid rho' lo hi (fun p => r p + density o g q (seen lw l4 g ps) p).
Proof. exact (@charge_density). Qed.
Print Assumptions C76_density.
(** two dimensions; for order three see C82 *)
Theorem C76_density_2d : forall nx nz g q ps (rho rho' : grid (num FRX)) lo hi r,
  proper_2d g -> (0 <= nx <= 2)%Z -> (0 <= nz <= 2)%Z ->
  real_grid rho lo hi r -> charge_plane nx nz g q ps rho = Ret rho' -> real_grid rho' lo hi (fun p => r p + density_2d nx nz g q ps p).
Proof. exact (@density_2d_low). Qed.
Print Assumptions C76_density_2d.
Example C76_case : proper gc /\ proper_2d gc /\ real_grid zeros (alo S2) (ahi S2) (fun _ => 0) /\ real_grid plane plane_lo plane_hi (fun _ => 0) /\
  (forall o, known o -> exists rho', charge_call o true false gc (1 / 8) two zeros = Ret rho') /\
  (forall nx nz, (0 <= nx <= 3)%Z -> (0 <= nz <= 3)%Z -> exists rho', charge_plane nx nz gc (1 / 8) two plane = Ret rho').
Proof. exact (conj gc_proper (conj gc_proper_2d (conj zeros_grid (conj plane_grid (conj charge_case charge_2d_case))))). Qed.
(** ** C77: the total charge *)
Theorem C77_total_charge : forall o lw l4 g q ps rho rho' lo hi r r',
  proper g -> real_grid rho lo hi r ->
  charge_call o lw l4 g q ps rho = Ret rho' -> real_grid rho' lo hi r' ->
  volume g * sum_box lo hi r' = volume g * sum_box lo hi r + q * sumR (map rw (seen lw l4 g ps)).
Proof. exact (@charge_total). Qed.
Print Assumptions C77_total_charge.
(** two dimensions, up to order two *)
Theorem C77_total_charge_2d : forall nx nz g q ps (rho rho' : grid (num FRX)) lo hi r r',
  proper_2d g -> (0 <= nx <= 2)%Z -> (0 <= nz <= 2)%Z ->
  real_grid rho lo hi r -> charge_plane nx nz g q ps rho = Ret rho' -> real_grid rho' lo hi r' ->
  hx g * hz g * sum_box lo hi r' = hx g * hz g * sum_box lo hi r + q * sumR (map rw ps).
Proof. exact (@total_2d_low). Qed.
Print Assumptions C77_total_charge_2d.
(** C76_case shows calls that meet the hypotheses *)
Example C77_case : map rw (seen true false gc two) = [2; 3] /\ map rw (seen false false gc two) = [2; 2].
Proof. exact (conj eq_refl eq_refl). Qed.
(** ** C78: array bounds *)
Theorem C78_in_bounds : forall o lw l4 g q ps rho lo hi r,
  proper g -> known o -> moderate lo hi -> real_grid rho lo hi r ->
  (forall a, In a (seen lw l4 g ps) -> fits3 o g lo hi a) -> exists rho', charge_call o lw l4 g q ps rho = Ret rho'.
Proof. exact (@charge_inside). Qed.
Print Assumptions C78_in_bounds.
(** a particle too close to the end of the array is written out of bounds *)
Theorem C78_out_of_bounds : forall o lw l4 g q ps rho lo hi r a p,
  proper g -> real_grid rho lo hi r ->
  In a (seen lw l4 g ps) -> receives o g a p -> in_box lo hi p = false -> charge_call o lw l4 g q ps rho = UB.
Proof. exact (@charge_outside). Qed.
Print Assumptions C78_out_of_bounds.
(** not so for orders above three: elements of the arrays of weights are read that no one has set *)
Theorem C78_unknown_order_refuted : forall o lw l4 g q ps rho lo hi r,
  proper g -> real_grid rho lo hi r -> ps <> [] -> ~ known o ->
  charge_call o lw l4 g q ps rho = UB.
Proof. exact (@charge_unknown). Qed.
Print Assumptions C78_unknown_order_refuted.
Example C78_case : moderate (alo S2) (ahi S2) /\ (forall o a, known o -> In a (seen true false gc two) -> fits3 o gc (alo S2) (ahi S2) a) /\ ~ known order4.
Proof. split; [exact S2_moderate|]. split; [intros o a K I; apply near_fits; [exact K | apply near_two; exact I]|]. intros [[_ H] _]. apply H. reflexivity. Qed.
Example C78_outside_case : receives (same_order 1) gc {| rpx := 23 / 2; rpy := 9; rpz := 2; rux := 0; ruy := 0; ruz := 0; rgam := 1; rw := 1 |} (12, 4, 4)%Z /\
  in_box (alo S2) (ahi S2) (12, 4, 4)%Z = false.
Proof. exact over_the_edge. Qed.
(** ** C79: the first moment *)
(** from order one on, the centre of charge of the density is that of the particles *)
Theorem C79_centre_of_charge : forall o lw l4 g q ps rho rho' lo hi r r' d,
  proper g -> real_grid rho lo hi r ->
  charge_call o lw l4 g q ps rho = Ret rho' -> real_grid rho' lo hi r' -> (1 <= order_on o d)%Z ->
  volume g * sum_box lo hi (fun p => coord d p * r' p) =
  volume g * sum_box lo hi (fun p => coord d p * r p) + q * sumR (map (fun a => rw a * unit_on g d a) (seen lw l4 g ps)).
Proof. exact (@charge_moment). Qed.
Print Assumptions C79_centre_of_charge.
Example C79_case : forall d, (1 <= order_on (same_order 1) d)%Z.
Proof. intros []; discriminate. Qed.
(** ** C80: the optimised routines do what the general one does *)
(** in any arithmetic *)
Theorem C80_optimised_order_1 : forall (N : FNum) np xs ws q G (rho : grid (num N)),
  depose_rho_scalar_1_1_1 np xs ws q G rho = pxr_depose_rho_n np xs ws q G 1 1 1 true false rho.
Proof. exact (@scalar_1). Qed.
Print Assumptions C80_optimised_order_1.
Theorem C80_optimised_order_3 : forall (N : FNum) np xs ws q G (rho : grid (num N)),
  depose_rho_scalar_3_3_3 np xs ws q G rho = pxr_depose_rho_n np xs ws q G 3 3 3 true false rho.
Proof. exact (@scalar_3). Qed.
Print Assumptions C80_optimised_order_3.
(** in real numbers *)
Theorem C80_optimised_order_2 : forall g q ps (rho : grid (num FRX)),
  proper g ->
  depose_rho_scalar_2_2_2 (zlen ps) (map pos_of ps) (map weight_of ps) (real q) (geom_of g) rho =
  charge_call (same_order 2) true false g q ps rho.
Proof. exact (@scalar_2). Qed.
Print Assumptions C80_optimised_order_2.
Example C80_case : exists rho', charge_fixed 2 (zlen two) (map pos_of two) (map weight_of two) (real (1 / 8)) (geom_of gc) zeros = Ret rho'.
Proof. rewrite (charge_fixed_n 2 gc (1 / 8) two zeros order2 gc_proper). apply charge_case. repeat split; discriminate. Qed.
(** ** C81: order of the updates, sign, support *)
Theorem C81_any_order_of_updates : forall n g q ps rho lo hi r M,
  fixed_order n -> proper g -> real_grid rho lo hi r -> atomic_order n g q ps M ->
  same_outcome lo hi (charge_fixed n (zlen ps) (map pos_of ps) (map weight_of ps) (real q) (geom_of g) rho) (exec M rho).
Proof. exact (@atomic_any_order). Qed.
Print Assumptions C81_any_order_of_updates.
Theorem C81_sign : forall o g q ps p,
  0 < volume g -> 0 <= q -> (forall a, In a ps -> 0 <= rw a) -> 0 <= density o g q ps p.
Proof. exact (@density_sign). Qed.
Print Assumptions C81_sign.
Theorem C81_support : forall o g q ps j k l,
  known o -> density o g q ps (j, k, l) <> 0 ->
  exists a, In a ps /\ touches (onx o) (unit_x g (rpx a)) j /\ touches (ony o) (unit_y g (rpy a)) k /\ touches (onz o) (unit_z g (rpz a)) l.
Proof. exact (@density_local). Qed.
Print Assumptions C81_support.
Example C81_case : 0 < volume gc /\ forall n, fixed_order n -> exists updates, atomic_order n gc (1 / 8) two updates.
Proof. exact (conj gc_volume atomic_case). Qed.
(** ** C82: in two dimensions, order three, the deposited charge is too large *)
Theorem C82_total_charge_2d_refuted : forall nx nz g q ps (rho rho' : grid (num FRX)) lo hi r r',
  proper_2d g -> (nx = 3 \/ nz = 3)%Z ->
  real_grid rho lo hi r -> charge_plane nx nz g q ps rho = Ret rho' -> real_grid rho' lo hi r' ->
  0 < q -> (forall a, In a ps -> 0 < rw a) -> ps <> [] ->
  hx g * hz g * sum_box lo hi r + q * sumR (map rw ps) < hx g * hz g * sum_box lo hi r' <= hx g * hz g * sum_box lo hi r + (1 + 1 / 9000000) * (q * sumR (map rw ps)).
Proof. exact (@total_2d_high). Qed.
Print Assumptions C82_total_charge_2d_refuted.
Example C82_case : (0 < 1 / 8) /\ (forall a, In a two -> 0 < rw a) /\ two <> [] /\ exists rho', charge_plane 3 3 gc (1 / 8) two plane = Ret rho'.
Proof. exact (conj eighth_pos (conj two_heavy (conj two_some (charge_2d_case 3 3 (conj three_pos three_le) (conj three_pos three_le))))). Qed.
