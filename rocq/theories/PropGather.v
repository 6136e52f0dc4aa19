(** C90-C99: the gathering of the fields at the particles (src/field_gathering). *)
From Coq Require Import ZArith Reals List Bool.
From Verif Require Import Cxx Num NumRX Fortran FortranNum Grid Pushers Deposit SpecPhys SpecYee SpecSolver SpecDeposit SpecCurrent YeeExamples DepositExamples Gather SpecGather GatherProofs GatherMore GatherFacts GatherExamples.
Import ListNotations.
Local Open Scope R_scope.

(** ** C90: what is gathered *)
(** to the fields vs of the particles are added the values of the grid weighted with the B-splines *)
Theorem C90_interpolation : forall s g E B QE QB ps vs lvect algo,
  proper_scheme s -> proper g -> stored E QE -> stored B QB -> length ps = length vs -> (1 <= lvect)%Z -> exact_choice algo (sc_order s) ->
  sized QE -> sized QB -> (forall a, In a ps -> all_inside s g QE QB a) ->
  gather_call s g E B ps vs lvect algo = Ret (map fld_of (map (fun av => add_eb (snd av) (fields_at s g QE QB (fst av))) (combine ps vs))).
Proof. exact (@call_ok). Qed.
Print Assumptions C90_interpolation.
Example C90_case : proper_scheme s3 /\ proper gc /\ stored (as_field wavy) (arr wavy) /\ length two = length had /\ exact_choice 0 (sc_order s3) /\ exact_choice 1 (sc_order s3) /\
  proper_scheme s21 /\ exact_choice 2 (sc_order s21) /\ sized (arr wavy) /\ (forall s a, proper_scheme s -> In a two -> all_inside s gc (arr wavy) (arr wavy) a).
Proof.
  exact (conj proper_s3 (conj gc_proper (conj (arr_stored wavy) (conj eq_refl (conj (proj1 exact_s3) (conj (proj2 exact_s3) (conj proper_s21 (conj exact_s21 (conj (arr_sized wavy) (fun s a => two_all_inside s wavy wavy a)))))))))).
Qed.

(** ** C91: fields that are affine functions of the position are gathered exactly *)
Theorem C91_affine_fields_exact : forall s g E B QE QB ps vs lvect algo,
  proper_scheme s -> proper g -> stored E QE -> stored B QB -> length ps = length vs -> (1 <= lvect)%Z -> exact_choice algo (sc_order s) ->
  sized QE -> sized QB -> (forall a, In a ps -> all_inside s g QE QB a) ->
  forall kE0 kE kB0 kB, affine_arrays s Electric g QE kE0 kE -> affine_arrays s Magnetic g QB kB0 kB ->
  gather_call s g E B ps vs lvect algo =
  Ret (map fld_of (map (fun av => add_eb (snd av) (of_axes (fun d => affine (kE0 d) (kE d) (at_axis (fst av))), of_axes (fun d => affine (kB0 d) (kB d) (at_axis (fst av))))) (combine ps vs))).
Proof. exact (@call_affine). Qed.
Print Assumptions C91_affine_fields_exact.
(** C90_case shows that the first hypotheses are met *)
Example C91_case : affine_arrays s3 Electric gc (arr (ramp s3 Electric)) kc kl /\ affine_arrays s3 Magnetic gc (arr (ramp s3 Magnetic)) kc kl /\ kl AX AY = 2 /\
  stored (as_field (ramp s3 Electric)) (arr (ramp s3 Electric)) /\ stored (as_field (ramp s3 Magnetic)) (arr (ramp s3 Magnetic)).
Proof. exact (conj (ramp_affine Electric) (conj (ramp_affine Magnetic) (conj eq_refl (conj (arr_stored _) (arr_stored _))))). Qed.

(** ** C92: the gathered fields lie between the smallest and the largest value on the grid *)
Theorem C92_no_overshoot : forall s g E B QE QB ps vs lvect algo,
  proper_scheme s -> proper g -> stored E QE -> stored B QB -> length ps = length vs -> (1 <= lvect)%Z -> exact_choice algo (sc_order s) ->
  sized QE -> sized QB -> (forall a, In a ps -> all_inside s g QE QB a) ->
  forall mE ME mB MB, bounded QE mE ME -> bounded QB mB MB ->
  exists us, gather_call s g E B ps vs lvect algo = Ret (map fld_of (map (fun vu => add_eb (fst vu) (snd vu)) (combine vs us))) /\ length us = length ps /\
    forall u, In u us -> between3 mE ME (fst u) /\ between3 mB MB (snd u).
Proof. exact (@call_bounded). Qed.
Print Assumptions C92_no_overshoot.
Example C92_case : bounded (arr (flat one_two)) (fun _ => 0) one_two /\ stored (as_field (flat one_two)) (arr (flat one_two)).
Proof. exact (conj flat_bounded (arr_stored _)). Qed.

(** ** C93: array bounds *)
(** C90_interpolation says that nothing goes wrong if the particles are far enough from the ends of the arrays; in any case: *)
Theorem C93_right_or_out_of_bounds : forall s g E B QE QB ps vs lvect algo,
  proper_scheme s -> proper g -> stored E QE -> stored B QB -> length ps = length vs -> (1 <= lvect)%Z -> exact_choice algo (sc_order s) ->
  gather_call s g E B ps vs lvect algo = Ret (map fld_of (map (fun av => add_eb (snd av) (fields_at s g QE QB (fst av))) (combine ps vs))) \/
  gather_call s g E B ps vs lvect algo = UB.
Proof. exact (@call_out). Qed.
Print Assumptions C93_right_or_out_of_bounds.
(** a value with a weight that is not in the array is read out of bounds *)
Theorem C93_out_of_bounds : forall s g E B QE QB ps vs lvect algo,
  proper_scheme s -> proper g -> stored E QE -> stored B QB -> length ps = length vs -> (1 <= lvect)%Z -> exact_choice algo (sc_order s) ->
  forall a q d p, In a ps -> node_weight s q d g a p <> 0 ->
  let Q := match q with Electric => QE | Magnetic => QB end in in_box (ar_lo Q d) (ar_hi Q d) p = false -> gather_call s g E B ps vs lvect algo = UB.
Proof. exact (@call_ub). Qed.
Print Assumptions C93_out_of_bounds.
Example C93_case : proper_scheme s1n /\ node_weight s1n Electric AX gc pe (12, 4, 4)%Z <> 0 /\ in_box (ar_lo (arr wavy) AX) (ar_hi (arr wavy) AX) (12, 4, 4)%Z = false.
Proof. exact (conj proper_s1n off_end). Qed.

(** ** C94: the algorithm and the block length make no difference *)
Theorem C94_algorithms_agree : forall s g E B QE QB ps vs lvect lvect' algo algo',
  proper_scheme s -> proper g -> stored E QE -> stored B QB -> length ps = length vs -> (1 <= lvect)%Z -> (1 <= lvect')%Z ->
  exact_choice algo (sc_order s) -> exact_choice algo' (sc_order s) ->
  gather_call s g E B ps vs lvect algo = gather_call s g E B ps vs lvect' algo'.
Proof. exact (@all_agree). Qed.
Print Assumptions C94_algorithms_agree.
Example C94_case : exact_choice 0 (sc_order s3) /\ exact_choice 1 (sc_order s3) /\
  gather_call s3 gc (as_field wavy) (as_field wavy) two had 64 0 = Ret (map fld_of (map (fun av => add_eb (snd av) (fields_at s3 gc (arr wavy) (arr wavy) (fst av))) (combine two had))).
Proof. exact (conj (proj1 exact_s3) (conj (proj2 exact_s3) gather_case)). Qed.

(** ** C95: the routine of arbitrary order *)
(** not so for algorithm 2 and for mixed orders: a uniform field is gathered too large with cubic splines, since the coefficients are single precision *)
Theorem C95_uniform_field_refuted : forall s g E B QE QB ps vs lvect algo e b,
  proper_scheme s -> proper g -> stored E QE -> stored B QB -> length ps = length vs -> generic_choice algo (sc_order s) ->
  sized QE -> sized QB -> (forall a, In a ps -> all_inside s g QE QB a) -> uniform QE e -> uniform QB b -> (forall d, 0 < e d /\ 0 < b d) ->
  exists us, gather_call s g E B ps vs lvect algo = Ret (map fld_of (map (fun vu => add_eb (fst vu) (snd vu)) (combine vs us))) /\ length us = length ps /\
    forall u, In u us -> forall d,
      (e d <= along (fst u) d <= (1 + 1 / 6000000) * e d /\ (cubic s Electric d -> e d < along (fst u) d)) /\
      (b d <= along (snd u) d <= (1 + 1 / 6000000) * b d /\ (cubic s Magnetic d -> b d < along (snd u) d)).
Proof. exact (@generic_uniform). Qed.
Print Assumptions C95_uniform_field_refuted.
Example C95_case : generic_choice 2 (sc_order s3) /\ cubic s3 Electric AX /\ cubic s3 Magnetic AZ /\ uniform (arr (flat one_two)) one_two /\ (forall d, 0 < one_two d).
Proof. exact (conj (proj1 generic_s3) (conj (proj1 (proj2 generic_s3)) (conj (proj2 (proj2 generic_s3)) flat_uniform))). Qed.

(** ** C96: orders other than one, two and three *)
(** such a call reads shape factors that no one has set *)
Theorem C96_unknown_order_refuted : forall (N : FNum) np xs (fs : list (fld N)) G nox noy noz E B l4 lower nodal lvect algo,
  (1 <= np)%Z -> (0 <= nox)%Z -> (0 <= noy)%Z -> (0 <= noz)%Z -> ~ (1 <= nox <= 3 /\ 1 <= noy <= 3 /\ 1 <= noz <= 3)%Z ->
  geteb3d_energy_conserving_generic np xs fs G nox noy noz E B l4 lower nodal lvect algo = UB.
Proof. exact (@unknown_order). Qed.
Print Assumptions C96_unknown_order_refuted.
(** the routine for the magnetic field alone leaves it out without an error *)
Theorem C96_no_magnetic_field_refuted : forall np (ps : list rpart) vs g nox noy noz B QB l4 lower nodal,
  proper g -> stored B QB -> length ps = length vs -> np = zlen ps -> ~ (1 <= nox <= 3 /\ 1 <= noy <= 3 /\ 1 <= noz <= 3)%Z ->
  pxr_getb3d_n np (map pos_of ps) (map fld_of vs) (geom_of g) nox noy noz B l4 lower nodal = Ret (map fld_of vs) \/
  pxr_getb3d_n np (map pos_of ps) (map fld_of vs) (geom_of g) nox noy noz B l4 lower nodal = UB.
Proof. exact (@unknown_order_b). Qed.
Print Assumptions C96_no_magnetic_field_refuted.
Example C96_case : pxr_getb3d_n 1 (map pos_of [pb]) (map fld_of [none]) (geom_of gc) 0 0 0 (as_field (flat one_two)) false false true = Ret (map fld_of [none]) /\ one_two AX = 1.
Proof. exact (conj zero_order_case eq_refl). Qed.

(** ** C97: gathering is the adjoint of the charge deposition *)
(** with the fields at the nodes, the total force on the particles is that of the field on the deposited charge *)
Theorem C97_force_on_charge : forall s g q E B QE QB ps us lvect algo rho rho' lo hi r d,
  proper_scheme s -> proper g -> sc_nodal s = true -> sc_lower s = false ->
  stored E QE -> stored B QB -> (1 <= lvect)%Z -> exact_choice algo (sc_order s) -> ar_lo QE d = lo -> ar_hi QE d = hi ->
  real_grid rho lo hi (fun _ => 0) -> charge_call (sc_order s) true false g q ps rho = Ret rho' -> real_grid rho' lo hi r ->
  gather_call s g E B ps (map (fun _ => none) ps) lvect algo = Ret (map fld_of us) ->
  sumR (map (fun au => q * rw (fst au) * along (fst (snd au)) d) (combine ps us)) = volume g * sum_box lo hi (fun p => r p * comp d (ar_at QE) p).
Proof. exact (@force_charge). Qed.
Print Assumptions C97_force_on_charge.
Example C97_case : proper_scheme s3n /\ exact_choice 0 (sc_order s3n) /\ sc_nodal s3n = true /\ sc_lower s3n = false /\ ar_lo (arr wavy) AX = alo S2 /\ real_grid zeros (alo S2) (ahi S2) (fun _ => 0) /\
  (exists rho', charge_call (sc_order s3n) true false gc (1 / 8) two zeros = Ret rho').
Proof. exact (conj proper_s3n (conj exact_s3n (conj eq_refl (conj eq_refl (conj eq_refl (conj zeros_grid (charge_case (sc_order s3n) known_s3n))))))). Qed.

(** ** C98: every particle for itself, in any arithmetic *)
Theorem C98_particles_independent : forall (N : FNum) G nox noy noz (E B : field (num N)) l4 lower nodal algo lvect lvect' xs fs fs',
  (1 <= lvect)%Z -> (1 <= lvect')%Z -> length xs = length fs ->
  (geteb3d_energy_conserving_generic (zlen xs) xs fs G nox noy noz E B l4 lower nodal lvect algo = Ret fs' <->
   length fs' = length fs /\ forall i x f f', nth_error xs i = Some x -> nth_error fs i = Some f -> nth_error fs' i = Some f' ->
     geteb3d_energy_conserving_generic 1 [x] [f] G nox noy noz E B l4 lower nodal lvect' algo = Ret [f']).
Proof. exact (@call_alone). Qed.
Print Assumptions C98_particles_independent.
(** C94_case shows a call that returns *)
Example C98_case : length (map pos_of two) = length (map fld_of had) /\ zlen (map pos_of two) = 2%Z.
Proof. exact (conj eq_refl eq_refl). Qed.

(** ** C99: the tiles *)
(** the particles of a tile get the fields of the whole grid, whatever the tile was given before *)
Theorem C99_tiles_transparent : forall s g E B QE QB ps vs m M ng lvect algo,
  proper_scheme s -> proper g -> stored E QE -> stored B QB -> covers QE m M ng -> covers QB m M ng ->
  moderate (minus_idx (0, 0, 0)%Z ng) (plus_idx (minus_idx M m) ng) -> length ps = length vs -> (1 <= lvect)%Z -> exact_choice algo (sc_order s) -> (forall a, In a ps -> in_tile s g m M ng a) ->
  gather_tile {| gt_min := m; gt_max := M; gt_guard := ng; gt_xmin := real (ox (tile_cells g m)); gt_ymin := real (oy (tile_cells g m)); gt_zmin := real (oz (tile_cells g m)); gt_pos := map pos_of ps; gt_fld := vs |}
    (real (hx g)) (real (hy g)) (real (hz g)) (onx (sc_order s)) (ony (sc_order s)) (onz (sc_order s)) E B (sc_lower s) (sc_nodal s) lvect algo =
  Ret {| gt_min := m; gt_max := M; gt_guard := ng; gt_xmin := real (ox (tile_cells g m)); gt_ymin := real (oy (tile_cells g m)); gt_zmin := real (oz (tile_cells g m)); gt_pos := map pos_of ps;
         gt_fld := map fld_of (map (fields_at s g QE QB) ps) |}.
Proof. exact (@tile_gather). Qed.
Print Assumptions C99_tiles_transparent.
Example C99_case : covers (arr wavy) tmin tmax tng /\ moderate (minus_idx (0, 0, 0)%Z tng) (plus_idx (minus_idx tmax tmin) tng) /\ (forall s a, proper_scheme s -> In a two -> in_tile s gc tmin tmax tng a).
Proof. exact (conj (tile_covers wavy) (conj tile_moderate two_in_tile)). Qed.
