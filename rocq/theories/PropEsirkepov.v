(** C83-C89: the charge conserving current deposition (src/particle_deposition/current_deposition/esirkepov). *)
From Coq Require Import ZArith Reals List Bool Permutation.
From Verif Require Import Cxx Num NumRX Fortran FortranNum Grid Pushers Yee Deposit Esirkepov SpecYee SpecSolver SpecDeposit SpecCurrent EskProofs EskFacts YeeDiv YeeHist YeeExamples DepositExamples.
Import ListNotations.
Local Open Scope R_scope.
(** ** C83: the equation of continuity *)
Theorem C83_continuity : forall n g q dt ps J J' lo hi j,
  fixed_order n -> proper g -> dt <> 0 -> holds J lo hi j ->
  current_fixed n g q dt ps J = Ret J' ->
  exists c, holds J' lo hi (plus_field j c) /\ within lo hi c /\
    continuous g dt (density (same_order n) g q (map (before_move dt) ps)) (density (same_order n) g q ps) c.
Proof. exact (@fixed_continuity). Qed.
Print Assumptions C83_continuity.
Theorem C83_continuity_any_order : forall K cl o lw l4 g q dt ps J J' lo hi j,
  light cl K -> known o -> proper g -> dt <> 0 -> holds J lo hi j ->
  current_n K o lw l4 g q dt ps J = Ret J' ->
  exists c, holds J' lo hi (plus_field j c) /\ within lo hi c /\
    continuous g dt (density o g q (seen lw l4 g (map (before_move dt) ps))) (density o g q (seen lw l4 g ps)) c.
Proof. exact (@n_continuity). Qed.
Print Assumptions C83_continuity_any_order.
Example C83_case : proper gc /\ 1 / 4 <> 0 /\ holds (Field3 zeros zeros zeros) lo2 hi2 zero_field /\ light 1 K1 /\
  (forall n, fixed_order n -> exists J', current_fixed n gc (1 / 8) (1 / 4) two (Field3 zeros zeros zeros) = Ret J') /\
  (forall o, known o -> exists J', current_n K1 o true false gc (1 / 8) (1 / 4) two (Field3 zeros zeros zeros) = Ret J').
Proof. exact (conj gc_proper (conj quarter (conj zeros_holds (conj K1_light (conj current_case current_n_case))))). Qed.
(** ** C84: the total current *)
Theorem C84_total_current : forall n g q dt ps J J' lo hi j j' d,
  fixed_order n -> proper g -> dt <> 0 -> holds J lo hi j ->
  current_fixed n g q dt ps J = Ret J' -> holds J' lo hi j' ->
  volume g * sum_box (lo d) (hi d) (comp d j') = volume g * sum_box (lo d) (hi d) (comp d j) + q * sumR (map (fun a => rw a * speed d a) ps).
Proof. exact (@fixed_total). Qed.
Print Assumptions C84_total_current.
Theorem C84_total_current_any_order : forall K cl o l4 lw g q dt ps J J' lo hi j j' d,
  light cl K -> known o -> proper g -> dt <> 0 -> holds J lo hi j ->
  current_n K o lw l4 g q dt ps J = Ret J' -> holds J' lo hi j' -> (1 <= order_on o d)%Z ->
  volume g * sum_box (lo d) (hi d) (comp d j') = volume g * sum_box (lo d) (hi d) (comp d j) +
  q * sumR (map (fun a => rw (fst a) * ((unit_on g d (fst a) - unit_on g d (snd a)) * width g d / dt))
        (combine (seen lw l4 g ps) (seen lw l4 g (map (before_move dt) ps)))).
Proof. exact (@n_total). Qed.
Print Assumptions C84_total_current_any_order.
(** without symmetry: charge times weight times velocity *)
Theorem C84_total_current_plain : forall K cl o g q dt ps J J' lo hi j j' d,
  light cl K -> known o -> proper g -> dt <> 0 -> holds J lo hi j ->
  current_n K o true false g q dt ps J = Ret J' -> holds J' lo hi j' -> (1 <= order_on o d)%Z ->
  volume g * sum_box (lo d) (hi d) (comp d j') = volume g * sum_box (lo d) (hi d) (comp d j) + q * sumR (map (fun a => rw a * speed d a) ps).
Proof. exact (@n_total_plain). Qed.
Print Assumptions C84_total_current_plain.
(** C83_case shows calls that meet the hypotheses *)
Example C84_case : map (fun a => rw a * speed AX a) two = [2 * (1 / 2 * 1); 3 * (- (3 / 2) * (1 / 2))].
Proof. reflexivity. Qed.
(** ** C85: array bounds *)
Theorem C85_in_bounds : forall n g q dt ps J lo hi j,
  fixed_order n -> proper g -> dt <> 0 -> holds J lo hi j ->
  (forall a, In a ps -> inside (same_order n) g lo hi a /\ inside (same_order n) g lo hi (before_move dt a) /\ small_step g dt a) ->
  exists J', current_fixed n g q dt ps J = Ret J'.
Proof. exact (@fixed_inside). Qed.
Print Assumptions C85_in_bounds.
Theorem C85_in_bounds_any_order : forall K c o lw l4 g q dt ps J lo hi j,
  light c K -> known o -> proper g -> dt <> 0 -> holds J lo hi j ->
  (forall d, 0 <= c * dt / width g d <= 1000000000) ->
  (forall nw ol, In (nw, ol) (combine (seen lw l4 g ps) (seen lw l4 g (map (before_move dt) ps))) ->
     inside o g lo hi nw /\ inside o g lo hi ol /\ forall d, Rabs (unit_on g d nw - unit_on g d ol) <= c * dt / width g d) ->
  exists J', current_n K o lw l4 g q dt ps J = Ret J'.
Proof. exact (@n_inside). Qed.
Print Assumptions C85_in_bounds_any_order.
(** not so for a particle that moves by more than two cells *)
Theorem C85_too_fast_refuted : forall n g q dt ps J lo hi j a d,
  fixed_order n -> proper g -> dt <> 0 -> holds J lo hi j -> In a ps ->
  2 < Rabs (unit_on g d a - unit_on g d (before_move dt a)) -> current_fixed n g q dt ps J = UB.
Proof. exact (@fixed_too_far). Qed.
Print Assumptions C85_too_fast_refuted.
Example C85_case : (forall n a, fixed_order n -> In a two -> inside (same_order n) gc lo2 hi2 a /\ inside (same_order n) gc lo2 hi2 (before_move (1 / 4) a) /\ small_step gc (1 / 4) a) /\
  2 < Rabs (unit_on gc AX pf - unit_on gc AX (before_move (1 / 4) pf)) /\ (forall d, 0 <= 1 * (1 / 4) / width gc d <= 1000000000).
Proof. exact (conj two_inside (conj pf_far slow)). Qed.
(** ** C86: the optimised routines do what the general one does *)
Theorem C86_optimised : forall K c n g q dt ps J J',
  light c K -> fixed_order n -> proper g -> dt <> 0 -> (forall d, 0 <= c * dt / width g d <= 1000000000) ->
  current_fixed n g q dt ps J = Ret J' -> current_n K (same_order n) true false g q dt ps J = Ret J'.
Proof. exact (@fixed_is_n). Qed.
Print Assumptions C86_optimised.
Example C86_case : (forall d, 0 <= 1 * (1 / 4) / width gc d <= 1000000000) /\ exists J', current_fixed 3 gc (1 / 8) (1 / 4) two (Field3 zeros zeros zeros) = Ret J'.
Proof. exact (conj slow (current_case 3 order3)). Qed.
(** ** C87: scratch arrays and the order of the particles *)
(** in any arithmetic: the sums kept from particle to particle do not matter, so they can be private to a thread *)
Theorem C87_scratch_order_1 : forall (N : FNum) np xs ms ws (q : num N) G dt J c,
  depose_jxjyjz_esirkepov_1_1_1 np xs ms ws q G dt J = do s <- esk_all np (esk_particle_1 G dt q) xs ms ws (J, c); Ret (fst s).
Proof. exact (@scratch_1). Qed.
Print Assumptions C87_scratch_order_1.
Theorem C87_scratch_order_2 : forall (N : FNum) np xs ms ws (q : num N) G dt J c,
  depose_jxjyjz_esirkepov_2_2_2 np xs ms ws q G dt J = do s <- esk_all np (esk_particle 2 (-2) 2 G dt q) xs ms ws (J, c); Ret (fst s).
Proof. exact (@scratch_2). Qed.
Print Assumptions C87_scratch_order_2.
Theorem C87_scratch_order_3 : forall (N : FNum) np xs ms ws (q : num N) G dt J c,
  depose_jxjyjz_esirkepov_3_3_3 np xs ms ws q G dt J = do s <- esk_all np (esk_particle 3 (-2) 3 G dt q) xs ms ws (J, c); Ret (fst s).
Proof. exact (@scratch_3). Qed.
Print Assumptions C87_scratch_order_3.
Theorem C87_order_of_particles : forall n g q dt ps ps' J lo hi j,
  fixed_order n -> proper g -> dt <> 0 -> holds J lo hi j -> Permutation ps ps' ->
  match current_fixed n g q dt ps J, current_fixed n g q dt ps' J with
  | Ret J1, Ret J2 => exists f, holds J1 lo hi f /\ holds J2 lo hi f
  | UB, UB => True
  | _, _ => False
  end.
Proof. exact (@fixed_perm). Qed.
Print Assumptions C87_order_of_particles.
Example C87_case : Permutation two (rev two).
Proof. apply Permutation_rev. Qed.
(** ** C88: an order above three deposits no current, and no error is reported *)
Theorem C88_high_order_refuted : forall K cl o lw l4 g q dt ps J J' lo hi j,
  light cl K -> proper g -> dt <> 0 ->
  (0 <= onx o /\ 0 <= ony o /\ 0 <= onz o)%Z -> (4 <= onx o \/ 4 <= ony o \/ 4 <= onz o)%Z -> holds J lo hi j ->
  current_n K o lw l4 g q dt ps J = Ret J' -> holds J' lo hi j.
Proof. exact (@n_high). Qed.
Print Assumptions C88_high_order_refuted.
Example C88_case : (0 <= onx order4 /\ 0 <= ony order4 /\ 0 <= onz order4)%Z /\ (4 <= onx order4)%Z /\
  exists J', current_n K1 order4 true false gc (1 / 8) (1 / 4) [pa] (Field3 zeros zeros zeros) = Ret J'.
Proof. split; [repeat split; discriminate|]. split; [discriminate | exact high_case]. Qed.
(** ** C89: Gauss's law along a run *)
Theorem C89_residual : forall S t c mu n g q E0 B0 ps0 E1 B1 ps1 e0 b0,
  fixed_order n -> proper g -> rdt t <> 0 -> c <> 0 -> mu <> 0 ->
  second_order S = true -> rdx t = hx g -> rdy t = hy g -> rdz t = hz g -> well_set S t ->
  run S t c mu n g q (E0, B0, ps0) (E1, B1, ps1) -> is_field (tg := fun x => x) S E0 e0 -> is_field (tg := fun x => x) S B0 b0 ->
  exists e1, is_field (tg := fun x => x) S E1 e1 /\ forall p, inner_bwd S t p ->
    div (bwd (formulas S t)) e1 p - density (same_order n) g q ps1 p * (mu * c ^ 2) = div (bwd (formulas S t)) e0 p - density (same_order n) g q ps0 p * (mu * c ^ 2).
Proof. exact (@run_gauss). Qed.
Print Assumptions C89_residual.
(** with the density that the charge deposition computes *)
Theorem C89_gauss_law : forall S t c mu n g q E0 B0 ps0 E1 B1 ps1 e0 b0 r0 r1 rho0 rho1 z0 z1,
  fixed_order n -> proper g -> rdt t <> 0 -> c <> 0 -> mu <> 0 ->
  second_order S = true -> rdx t = hx g -> rdy t = hy g -> rdz t = hz g -> well_set S t ->
  run S t c mu n g q (E0, B0, ps0) (E1, B1, ps1) -> is_field (tg := fun x => x) S E0 e0 -> is_field (tg := fun x => x) S B0 b0 ->
  real_grid z0 (alo S) (ahi S) (fun _ => 0) -> charge_call (same_order n) true false g q ps0 z0 = Ret rho0 -> real_grid rho0 (alo S) (ahi S) r0 ->
  real_grid z1 (alo S) (ahi S) (fun _ => 0) -> charge_call (same_order n) true false g q ps1 z1 = Ret rho1 -> real_grid rho1 (alo S) (ahi S) r1 ->
  (forall p, inner_bwd S t p -> div (bwd (formulas S t)) e0 p = r0 p * (mu * c ^ 2)) ->
  exists e1, is_field (tg := fun x => x) S E1 e1 /\ forall p, inner_bwd S t p -> in_box (alo S) (ahi S) p = true -> div (bwd (formulas S t)) e1 p = r1 p * (mu * c ^ 2).
Proof. exact (@run_gauss_law). Qed.
Print Assumptions C89_gauss_law.
Example C89_case : second_order S2 = true /\ rdx q4 = hx gc /\ rdy q4 = hy gc /\ rdz q4 = hz gc /\ well_set S2 q4 /\ inner_bwd S2 q4 (4, 4, 4)%Z /\ in_box (alo S2) (ahi S2) (4, 4, 4)%Z = true /\
  (forall n, fixed_order n -> exists E B, run S2 q4 1 1 n gc (1 / 8) (hold S2 wave, hold S2 wave, two) (E, B, map moved two)).
Proof. exact run_setting. Qed.
