(** C72-C75: the finite difference field solvers (src/field_solvers/Maxwell/yee_solver,
    maxwell_solver_manager.F90) and the divergence diagnostics (src/diags/diags.F90). *)
From Coq Require Import ZArith Reals List Bool.
From Verif Require Import Cxx Num NumRX Fortran Grid Pushers Yee SpecYee SpecSolver YeeProofs YeeDiv YeeFacts YeeHist YeeOmp YeeExamples.
Import ListNotations.
Local Open Scope R_scope.
(** ** C72: schedules, bounds, frame *)
Theorem C72_schedule_b : forall (N : NumOps) xlo xhi ylo yhi zlo zhi (E B : field (num N)) cx cy cz r,
  omp_outcome (xlo, xhi, b3_bx E cy cz) (ylo, yhi, b3_by E cx cz) (zlo, zhi, b3_bz E cx cy) B r ->
  same_field_out r (pxrpush_em3d_bvec xlo xhi ylo yhi zlo zhi E B cx cy cz).
Proof. exact (@omp_bvec). Qed.
Print Assumptions C72_schedule_b.
Theorem C72_schedule_e : forall (N : NumOps) xlo xhi ylo yhi zlo zhi (E B J : field (num N)) m cx cy cz r,
  omp_outcome (xlo, xhi, e3_ex B J m cy cz) (ylo, yhi, e3_ey B J m cx cz) (zlo, zhi, e3_ez B J m cx cy) E r ->
  same_field_out r (pxrpush_em3d_evec xlo xhi ylo yhi zlo zhi E B J m cx cy cz).
Proof. exact (@omp_evec). Qed.
Print Assumptions C72_schedule_e.
Theorem C72_schedule_b_any_order : forall (N : NumOps) S (E B : field (num N)) cx cy cz r,
  omp_outcome (slo S, shi S, bn_bx S E cy cz) (slo S, shi S, bn_by S E cx cz) (slo S, shi S, bn_bz S E cx cy) B r ->
  same_field_out r (pxrpush_em3d_bvec_norder S E B cx cy cz).
Proof. exact (@omp_bvec_norder). Qed.
Print Assumptions C72_schedule_b_any_order.
Theorem C72_schedule_e_any_order : forall (N : NumOps) S (E B J : field (num N)) m cx cy cz r,
  omp_outcome (slo S, shi S, en_ex S B J m cy cz) (slo S, shi S, en_ey S B J m cx cz) (slo S, shi S, en_ez S B J m cx cy) E r ->
  same_field_out r (pxrpush_em3d_evec_norder S E B J m cx cy cz).
Proof. exact (@omp_evec_norder). Qed.
Print Assumptions C72_schedule_e_any_order.
Theorem C72_schedule_b_2d : forall (N : NumOps) xlo xhi ylo yhi zlo zhi (E B : field (num N)) cx cz r,
  omp_outcome (xlo, xhi, b2_bx E cz) (ylo, yhi, b2_by E cx cz) (zlo, zhi, b2_bz E cx) B r ->
  same_field_out r (pxrpush_em2d_bvec xlo xhi ylo yhi zlo zhi E B cx cz).
Proof. exact (@omp_bvec_2d). Qed.
Print Assumptions C72_schedule_b_2d.
Theorem C72_schedule_e_2d : forall (N : NumOps) xlo xhi ylo yhi zlo zhi (E B J : field (num N)) m cx cz r,
  omp_outcome (xlo, xhi, e2_ex B J m cz) (ylo, yhi, e2_ey B J m cx cz) (zlo, zhi, e2_ez B J m cx) E r ->
  same_field_out r (pxrpush_em2d_evec xlo xhi ylo yhi zlo zhi E B J m cx cz).
Proof. exact (@omp_evec_2d). Qed.
Print Assumptions C72_schedule_e_2d.
Theorem C72_schedule_b_any_order_2d : forall (N : NumOps) S k (E B : field (num N)) cx cz r,
  omp_outcome (slo2 S k, shi2 S k, bn2_bx S E cz) (slo2 S k, shi2 S k, bn2_by S E cx cz) (slo2 S k, shi2 S k, bn2_bz S E cx) B r ->
  same_field_out r (pxrpush_em2d_bvec_norder S k E B cx cz).
Proof. exact (@omp_bvec_norder_2d). Qed.
Print Assumptions C72_schedule_b_any_order_2d.
Theorem C72_schedule_e_any_order_2d : forall (N : NumOps) S k (E B J : field (num N)) m cx cz r,
  omp_outcome (slo2 S k, shi2 S k, en2_ex S B J m cz) (slo2 S k, shi2 S k, en2_ey S B J m cx cz) (slo2 S k, shi2 S k, en2_ez S B J m cx) E r ->
  same_field_out r (pxrpush_em2d_evec_norder S k E B J m cx cz).
Proof. exact (@omp_evec_norder_2d). Qed.
Print Assumptions C72_schedule_e_any_order_2d.
Theorem C72_schedule_cleaning : forall (N : NumOps) xlo xhi ylo yhi zlo zhi (E : field (num N)) F cx cy cz r,
  omp_outcome (xlo, xhi, f3_ex F cx) (ylo, yhi, f3_ey F cy) (zlo, zhi, f3_ez F cz) E r ->
  same_field_out r (pxrpush_em3d_evec_f xlo xhi ylo yhi zlo zhi E F cx cy cz).
Proof. exact (@omp_evec_f). Qed.
Print Assumptions C72_schedule_cleaning.
Example C72_schedule_case : forall N : NumOps,
  omp_execution (0, 0, 0)%Z (2, 0, 0)%Z (@bodyx N) (bodyx (2, 0, 0)%Z ++ bodyx (1, 0, 0)%Z ++ bodyx (0, 0, 0)%Z).
Proof. exact (@a_schedule). Qed.
(** nothing outside the updated region changes, in any arithmetic *)
Theorem C72_frame_b : forall (N : NumOps) S T (E B B' : field (num N)),
  push_bfield S T E B = Ret B' -> untouched (slo S) (shi S) B B'.
Proof. exact (@frame_b). Qed.
Print Assumptions C72_frame_b.
Theorem C72_frame_e : forall (N : NumOps) K S T (E B J E' : field (num N)),
  push_efield K S T E B J = Ret E' -> untouched (slo S) (shi S) E E'.
Proof. exact (@frame_e). Qed.
Print Assumptions C72_frame_e.
(** in bounds: C75_update_b and C75_update_e below show that with enough guard cells no access is out of bounds *)
(** Not so with as many guard cells as updated cells: order two reads one cell further *)
Theorem C72_guards_b_refuted : forall (N : NumOps) S T (E B : field (num N)),
  (second_order S = true -> nonempty S -> sized S E ->
  nxs S = nxguard S \/ nys S = nyguard S \/ nzs S = nzguard S -> push_bfield S T E B = UB)%Z.
Proof. exact (@guards_b). Qed.
Print Assumptions C72_guards_b_refuted.
Theorem C72_guards_e_refuted : forall (N : NumOps) K S T (E B J : field (num N)),
  (second_order S = true -> nonempty S -> sized S B ->
  nxs S = nxguard S \/ nys S = nyguard S \/ nzs S = nzguard S -> push_efield K S T E B J = UB)%Z.
Proof. exact (@guards_e). Qed.
Print Assumptions C72_guards_e_refuted.
(** the 2D routine of any order does not cut its sums at the end of the array *)
Theorem C72_guards_2d_refuted : forall (N : NumOps) S T (E B : field (num N)),
  (second_order_2d S = false -> 0 <= nx S + 2 * nxs S -> 0 <= nz S + 2 * nzs S -> sized S E ->
  nzs S = nzguard S -> 2 <= norderz S -> push_bfield_2d S 0 T E B = UB)%Z.
Proof. exact (@guards_2d_b). Qed.
Print Assumptions C72_guards_2d_refuted.
(** the 2D routines of any order use an index that is private and not set in the parallel region *)
Theorem C72_private_index_e_refuted : forall (N : NumOps) K S k T (E B J : field (num N)),
  (second_order_2d S = false -> 0 <= nx S + 2 * nxs S -> 0 <= nz S + 2 * nzs S -> sized S E ->
  ~ (- nyguard S <= k <= ny S + nyguard S) -> push_efield_2d K S k T E B J = UB)%Z.
Proof. exact (@private_k_e). Qed.
Print Assumptions C72_private_index_e_refuted.
Theorem C72_private_index_b_refuted : forall (N : NumOps) S k T (E B : field (num N)),
  (second_order_2d S = false -> 0 <= nx S + 2 * nxs S -> 0 <= nz S + 2 * nzs S -> sized S B ->
  2 <= norderz S -> ~ (- nyguard S <= k <= ny S + nyguard S) -> push_bfield_2d S k T E B = UB)%Z.
Proof. exact (@private_k_b). Qed.
Print Assumptions C72_private_index_b_refuted.
Definition S2g : Sizes := {| nx := 8; ny := 8; nz := 8; nxguard := 2; nyguard := 3; nzguard := 3;
  nxs := 2; nys := 2; nzs := 2; norderx := 2; nordery := 2; norderz := 2; l_nodalgrid := false |}%Z.
Example C72_refuted_case : second_order S2g = true /\ nonempty S2g /\ (forall tg, sized S2g (@hold tg S2g wave)) /\ nxs S2g = nxguard S2g.
Proof. split; [reflexivity|]. split; [repeat split; discriminate|]. split; [intros; apply hold_sized | reflexivity]. Qed.
Example C72_refuted_2d_case : second_order_2d S4 = false /\ nzs S4 = nzguard S4 /\ (2 <= norderz S4)%Z /\ ~ (- nyguard S4 <= 1000 <= ny S4 + nyguard S4)%Z.
Proof. repeat split; try reflexivity; try discriminate. cbn. intros [_ H]. apply H. reflexivity. Qed.
(** ** C73: the divergence of B *)
Theorem C73_div_b : forall (tg : R -> R) S q E B e b,
  well_set S q -> is_field S E e -> is_field S B b ->
  exists B' b', push_bfield S (steps_of q) E B = Ret B' /\ @is_field tg S B' b' /\
    forall p, interior_fwd S q p -> div (fwd (formulas S q)) b' p = div (fwd (formulas S q)) b p.
Proof. exact (@push_bfield_div). Qed.
Print Assumptions C73_div_b.
Theorem C73_div_b_2d : forall (tg : R -> R) S q E B e b,
  well_set_2d S q -> is_field S E e -> is_field S B b ->
  exists B' b', push_bfield_2d S 0 (steps_of q) E B = Ret B' /\ @is_field tg S B' b' /\
    forall p, interior_fwd_2d S q p -> div (fwd (formulas_2d S q)) b' p = div (fwd (formulas_2d S q)) b p.
Proof. exact (@push_bfield_2d_div). Qed.
Print Assumptions C73_div_b_2d.
(** the diagnostic computes this divergence for order two, except in the first layer of cells *)
Theorem C73_div_b_diagnostic : forall (tg : R -> R) S B b hx hy hz (d0 : grid (num (RX tg))) r0,
  guard1 S -> hx <> 0 -> hy <> 0 -> hz <> 0 ->
  is_field S B b -> is_grid d0 (alo S) (ahi S) r0 ->
  exists d1, calc_field_divB (nx S) (ny S) (nz S) B (Fin hx : num (RX tg)) (Fin hy : num (RX tg)) (Fin hz : num (RX tg)) d0 = Ret d1 /\
    is_grid d1 (alo S) (ahi S) (fun p => if in_box (1, 1, 1)%Z (nx S, ny S, nz S) p then div (fwd (yee hx hy hz)) b p else r0 p).
Proof. exact (@calc_field_divB_real). Qed.
Print Assumptions C73_div_b_diagnostic.
(** the whole history: any sequence of pushes and guard cell exchanges *)
Theorem C73_div_b_history : forall (tg : R -> R) S q c mu E0 B0 rho0 E1 B1 rho1 e0 b0,
  well_set S q -> c <> 0 -> mu <> 0 -> @fsteps tg S q c mu (E0, B0, rho0) (E1, B1, rho1) -> is_field S E0 e0 -> is_field S B0 b0 ->
  exists b1, is_field S B1 b1 /\ forall p, inner_fwd S q p -> div (fwd (formulas S q)) b1 p = div (fwd (formulas S q)) b0 p.
Proof. exact (@history_b). Qed.
Print Assumptions C73_div_b_history.

Example C73_case : well_set S2 q4 /\ well_set S4 q4 /\ well_set_2d S4p q4 /\ inner_fwd S2 q4 (4, 4, 4)%Z /\ inner_fwd S4 q4 (4, 4, 4)%Z /\
  interior_fwd_2d S4p q4 (4, 0, 4)%Z /\ guard1 S2 /\ forall tg, @is_field tg S4 (hold S4 wave) wave.
Proof. exact (conj well_S2 (conj well_S4 (conj well_S4p (conj (proj1 inner_S2) (conj (proj1 inner_S4) (conj (proj1 inner_S4p) (conj guard_S2 (fun tg => hold_field tg S4 wave)))))))). Qed.
(** ** C74: the divergence of E and Gauss's law *)
Theorem C74_div_e : forall (tg : R -> R) c mu S q E B J e b j_,
  well_set S q -> is_field S E e -> is_field S B b -> is_field S J j_ ->
  exists E' e', push_efield (consts_of c mu) S (steps_of q) E B J = Ret E' /\ @is_field tg S E' e' /\
    forall p, interior_bwd S q p ->
      div (bwd (formulas S q)) e' p = div (bwd (formulas S q)) e p - c ^ 2 * mu * rdt q * div (bwd (formulas S q)) j_ p.
Proof. exact (@push_efield_div). Qed.
Print Assumptions C74_div_e.
Theorem C74_div_e_2d : forall (tg : R -> R) c mu S q E B J e b j_,
  well_set_2d S q -> is_field S E e -> is_field S B b -> is_field S J j_ ->
  exists E' e', push_efield_2d (consts_of c mu) S 0 (steps_of q) E B J = Ret E' /\ @is_field tg S E' e' /\
    forall p, interior_bwd_2d S q p ->
      div (bwd (formulas_2d S q)) e' p = div (bwd (formulas_2d S q)) e p - c ^ 2 * mu * rdt q * div (bwd (formulas_2d S q)) j_ p.
Proof. exact (@push_efield_2d_div). Qed.
Print Assumptions C74_div_e_2d.
Theorem C74_div_e_diagnostic : forall (tg : R -> R) S E e hx hy hz (d0 : grid (num (RX tg))) r0,
  guard1 S -> hx <> 0 -> hy <> 0 -> hz <> 0 ->
  is_field S E e -> is_grid d0 (alo S) (ahi S) r0 ->
  exists d1, calc_field_div (nx S) (ny S) (nz S) E (Fin hx : num (RX tg)) (Fin hy : num (RX tg)) (Fin hz : num (RX tg)) d0 = Ret d1 /\
    is_grid d1 (alo S) (ahi S) (fun p => if in_box (0, 0, 0)%Z (nx S, ny S, nz S) p then div (bwd (yee hx hy hz)) e p else r0 p).
Proof. exact (@calc_field_div_real). Qed.
Print Assumptions C74_div_e_diagnostic.
(** The current deposited in each electric push satisfies the continuity equation ([step_e]);
    1 / eps0 = mu c^2 *)
Theorem C74_gauss_history : forall (tg : R -> R) S q c mu E0 B0 rho0 E1 B1 rho1 e0 b0,
  well_set S q -> c <> 0 -> mu <> 0 -> @fsteps tg S q c mu (E0, B0, rho0) (E1, B1, rho1) -> is_field S E0 e0 -> is_field S B0 b0 ->
  (forall p, inner_bwd S q p -> div (bwd (formulas S q)) e0 p = rho0 p * (mu * c ^ 2)) ->
  exists e1, is_field S E1 e1 /\ forall p, inner_bwd S q p -> div (bwd (formulas S q)) e1 p = rho1 p * (mu * c ^ 2).
Proof. exact (@history_gauss). Qed.
Print Assumptions C74_gauss_history.
Theorem C74_residual_history : forall (tg : R -> R) S q c mu E0 B0 rho0 E1 B1 rho1 e0 b0,
  well_set S q -> c <> 0 -> mu <> 0 -> @fsteps tg S q c mu (E0, B0, rho0) (E1, B1, rho1) -> is_field S E0 e0 -> is_field S B0 b0 ->
  exists e1, is_field S E1 e1 /\ forall p, inner_bwd S q p ->
    div (bwd (formulas S q)) e1 p - rho1 p * (mu * c ^ 2) = div (bwd (formulas S q)) e0 p - rho0 p * (mu * c ^ 2).
Proof. exact (@history_e). Qed.
Print Assumptions C74_residual_history.

Example C74_case : inner_bwd S2 q4 (4, 4, 4)%Z /\ inner_bwd S4 q4 (4, 4, 4)%Z /\ interior_bwd_2d S4p q4 (4, 0, 4)%Z /\
  forall tg, exists E B, @fsteps tg S4 q4 1 1 (hold S4 wave, hold S4 wave, fun _ => 0)
    (E, B, fun p => 0 - rdt q4 * div (bwd (formulas S4 q4)) moving p) /\ div (bwd (formulas S4 q4)) moving (4, 4, 4)%Z = 7.
Proof. exact (conj (proj2 inner_S2) (conj (proj2 inner_S4) (conj (proj2 inner_S4p) a_history))). Qed.
(** ** C75: the update *)
Theorem C75_update_b : forall (tg : R -> R) S q E B e b,
  well_set S q -> is_field S E e -> is_field S B b ->
  exists B' b', push_bfield S (steps_of q) E B = Ret B' /\ @is_field tg S B' b' /\
   (forall p, in_box (full_lo S) (full_hi S) p = true ->
     let r := curl (fwd (formulas S q)) e in
     comp_x b' p = comp_x b p - rdt q / 2 * comp_x r p /\
     comp_y b' p = comp_y b p - rdt q / 2 * comp_y r p /\
     comp_z b' p = comp_z b p - rdt q / 2 * comp_z r p) /\
   (forall p, in_box (slo S) (shi S) p = false ->
     comp_x b' p = comp_x b p /\ comp_y b' p = comp_y b p /\ comp_z b' p = comp_z b p).
Proof. exact (@push_bfield_real). Qed.
Print Assumptions C75_update_b.
Theorem C75_update_e : forall (tg : R -> R) c mu S q E B J e b j_,
  well_set S q -> is_field S E e -> is_field S B b -> is_field S J j_ ->
  exists E' e', push_efield (consts_of c mu) S (steps_of q) E B J = Ret E' /\ @is_field tg S E' e' /\
   (forall p, in_box (full_lo S) (full_hi S) p = true ->
     let r := curl (bwd (formulas S q)) b in
     comp_x e' p = comp_x e p + c ^ 2 * rdt q * (comp_x r p - mu * comp_x j_ p) /\
     comp_y e' p = comp_y e p + c ^ 2 * rdt q * (comp_y r p - mu * comp_y j_ p) /\
     comp_z e' p = comp_z e p + c ^ 2 * rdt q * (comp_z r p - mu * comp_z j_ p)) /\
   (forall p, in_box (slo S) (shi S) p = false ->
     comp_x e' p = comp_x e p /\ comp_y e' p = comp_y e p /\ comp_z e' p = comp_z e p).
Proof. exact (@push_efield_real). Qed.
Print Assumptions C75_update_e.
Theorem C75_update_b_2d : forall (tg : R -> R) S q E B e b,
  well_set_2d S q -> is_field S E e -> is_field S B b ->
  exists B' b', push_bfield_2d S 0 (steps_of q) E B = Ret B' /\ @is_field tg S B' b' /\
   (forall p, in_box (slo2 S 0) (shi2 S 0) p = true ->
     let r := curl (fwd (formulas_2d S q)) e in
     comp_x b' p = comp_x b p - rdt q / 2 * comp_x r p /\
     comp_y b' p = comp_y b p - rdt q / 2 * comp_y r p /\
     comp_z b' p = comp_z b p - rdt q / 2 * comp_z r p) /\
   (forall p, in_box (slo2 S 0) (shi2 S 0) p = false ->
     comp_x b' p = comp_x b p /\ comp_y b' p = comp_y b p /\ comp_z b' p = comp_z b p).
Proof. exact (@push_bfield_2d_real). Qed.
Print Assumptions C75_update_b_2d.
Theorem C75_update_e_2d : forall (tg : R -> R) c mu S q E B J e b j_,
  well_set_2d S q -> is_field S E e -> is_field S B b -> is_field S J j_ ->
  exists E' e', push_efield_2d (consts_of c mu) S 0 (steps_of q) E B J = Ret E' /\ @is_field tg S E' e' /\
   (forall p, in_box (slo2 S 0) (shi2 S 0) p = true ->
     let r := curl (bwd (formulas_2d S q)) b in
     comp_x e' p = comp_x e p + c ^ 2 * rdt q * (comp_x r p - mu * comp_x j_ p) /\
     comp_y e' p = comp_y e p + c ^ 2 * rdt q * (comp_y r p - mu * comp_y j_ p) /\
     comp_z e' p = comp_z e p + c ^ 2 * rdt q * (comp_z r p - mu * comp_z j_ p)) /\
   (forall p, in_box (slo2 S 0) (shi2 S 0) p = false ->
     comp_x e' p = comp_x e p /\ comp_y e' p = comp_y e p /\ comp_z e' p = comp_z e p).
Proof. exact (@push_efield_2d_real). Qed.
Print Assumptions C75_update_e_2d.
(** a field that does not vary along y evolves as in two dimensions *)
Theorem C75_plane_b : forall (tg : R -> R) S q E B e b,
  well_set S q -> well_set_2d S q -> second_order S = true -> (0 <= ny S)%Z ->
  is_field S E e -> is_field S B b -> flat e ->
  exists B3 B2 b3 b2, push_bfield S (steps_of q) E B = Ret B3 /\ push_bfield_2d S 0 (steps_of q) E B = Ret B2 /\
    @is_field tg S B3 b3 /\ @is_field tg S B2 b2 /\
    forall j l, comp_x b3 (j, 0, l)%Z = comp_x b2 (j, 0, l)%Z /\ comp_y b3 (j, 0, l)%Z = comp_y b2 (j, 0, l)%Z /\ comp_z b3 (j, 0, l)%Z = comp_z b2 (j, 0, l)%Z.
Proof. exact (@plane_b). Qed.
Print Assumptions C75_plane_b.
Theorem C75_plane_e : forall (tg : R -> R) c mu S q E B J e b j_,
  well_set S q -> well_set_2d S q -> second_order S = true -> (0 <= ny S)%Z ->
  is_field S E e -> is_field S B b -> is_field S J j_ -> flat b ->
  exists E3 E2 e3 e2, push_efield (consts_of c mu) S (steps_of q) E B J = Ret E3 /\ push_efield_2d (consts_of c mu) S 0 (steps_of q) E B J = Ret E2 /\
    @is_field tg S E3 e3 /\ @is_field tg S E2 e2 /\
    forall j l, comp_x e3 (j, 0, l)%Z = comp_x e2 (j, 0, l)%Z /\ comp_y e3 (j, 0, l)%Z = comp_y e2 (j, 0, l)%Z /\ comp_z e3 (j, 0, l)%Z = comp_z e2 (j, 0, l)%Z.
Proof. exact (@plane_e). Qed.
Print Assumptions C75_plane_e.
Theorem C75_reversible_b : forall (tg : R -> R) S q E B e b,
  well_set S q -> is_field S E e -> is_field S B b ->
  exists B' B'', push_bfield S (steps_of q) E B = Ret B' /\ push_bfield S (steps_of (backwards q)) E B' = Ret B'' /\ @is_field tg S B'' b.
Proof. exact (@reverse_b). Qed.
Print Assumptions C75_reversible_b.
Theorem C75_reversible_e : forall (tg : R -> R) c mu S q E B J e b j,
  well_set S q -> is_field S E e -> is_field S B b -> is_field S J j ->
  exists E' E'', push_efield (consts_of c mu) S (steps_of q) E B J = Ret E' /\
    push_efield (consts_of c mu) S (steps_of (backwards q)) E' B J = Ret E'' /\ @is_field tg S E'' e.
Proof. exact (@reverse_e). Qed.
Print Assumptions C75_reversible_e.
Theorem C75_superposition_b : forall (tg : R -> R) S q x y E B e1 b1 e2 b2 E1 B1 E2 B2,
  well_set S q ->
  is_field S E1 e1 -> is_field S B1 b1 -> is_field S E2 e2 -> is_field S B2 b2 ->
  is_field S E (comb x y e1 e2) -> is_field S B (comb x y b1 b2) ->
  exists B1' B2' B' b1' b2', push_bfield S (steps_of q) E1 B1 = Ret B1' /\ push_bfield S (steps_of q) E2 B2 = Ret B2' /\
    push_bfield S (steps_of q) E B = Ret B' /\ @is_field tg S B1' b1' /\ @is_field tg S B2' b2' /\ @is_field tg S B' (comb x y b1' b2').
Proof. exact (@superposition_b). Qed.
Print Assumptions C75_superposition_b.
Theorem C75_superposition_e : forall (tg : R -> R) c mu S q x y E B J e1 b1 j1 e2 b2 j2 E1 B1 J1 E2 B2 J2,
  well_set S q ->
  is_field S E1 e1 -> is_field S B1 b1 -> is_field S J1 j1 -> is_field S E2 e2 -> is_field S B2 b2 -> is_field S J2 j2 ->
  is_field S E (comb x y e1 e2) -> is_field S B (comb x y b1 b2) -> is_field S J (comb x y j1 j2) ->
  exists E1' E2' E' e1' e2', push_efield (consts_of c mu) S (steps_of q) E1 B1 J1 = Ret E1' /\
    push_efield (consts_of c mu) S (steps_of q) E2 B2 J2 = Ret E2' /\
    push_efield (consts_of c mu) S (steps_of q) E B J = Ret E' /\ @is_field tg S E1' e1' /\ @is_field tg S E2' e2' /\ @is_field tg S E' (comb x y e1' e2').
Proof. exact (@superposition_e). Qed.
Print Assumptions C75_superposition_e.
Theorem C75_uniform_b : forall (tg : R -> R) S q x y z E B b,
  well_set S q -> is_field S E (uniform x y z) -> is_field S B b ->
  exists B', push_bfield S (steps_of q) E B = Ret B' /\ @is_field tg S B' b.
Proof. exact (@uniform_b). Qed.
Print Assumptions C75_uniform_b.
Theorem C75_uniform_e : forall (tg : R -> R) c mu S q x y z E B J e,
  well_set S q -> is_field S E e -> is_field S B (uniform x y z) -> is_field S J (uniform 0 0 0) ->
  exists E', push_efield (consts_of c mu) S (steps_of q) E B J = Ret E' /\ @is_field tg S E' e.
Proof. exact (@uniform_e). Qed.
Print Assumptions C75_uniform_e.
(** any arithmetic: the routine of any order, run with order two, does what the routine of order two does *)
Theorem C75_order_two : forall (N : NumOps) S (E B : field (num N)) cx cy cz,
  (second_order S = true -> l_nodalgrid S = false -> sized S B ->
  nxs S < nxguard S -> nys S < nyguard S -> nzs S < nzguard S ->
  same_field_out (pxrpush_em3d_bvec_norder S E B [cx] [cy] [cz])
    (pxrpush_em3d_bvec (slo S) (shi S) (slo S) (shi S) (slo S) (shi S) E B cx cy cz))%Z.
Proof. exact (@order_two_b). Qed.
Print Assumptions C75_order_two.
Example C75_case : second_order S2 = true /\ well_set S2 q4 /\ well_set_2d S2 q4 /\ flat (uniform 1 2 3) /\
  (in_box (full_lo S4) (full_hi S4) (4, 4, 4)%Z = true /\ in_box (full_lo S4) (full_hi S4) (-3, 4, 4)%Z = false /\ in_box (slo S4) (shi S4) (-3, 4, 4)%Z = true).
Proof. split; [reflexivity|]. split; [exact well_S2|]. split; [exact well_S2p|]. split; [intros j k k' l; repeat split|]. repeat split. Qed.
