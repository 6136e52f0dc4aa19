(** Model of src/multi_physics/QED/src/breit_wheeler_engine.hpp. *)
From Coq Require Import ZArith List Bool.
From Verif Require Import Cxx Num Utilities LookupTables VecFun Units ChiFun Oracles OmpFor.
Import ListNotations.
Local Open Scope Z_scope.

(** breit_wheeler_engine_ctrl.h:13-34 *)
Record bw_ctrl {N : NumOps} := mk_bw_ctrl {
  bc_chi_phot_min : num N;
  bc_tdndt_min : num N; bc_tdndt_max : num N; bc_tdndt_how_many : Z;
  bc_tpair_min : num N; bc_tpair_max : num N; bc_tpair_how_many : Z;
  bc_frac_how_many : Z }.
Arguments bw_ctrl : clear implicits.

(** qed_commons.h:171-203: default values *)
Definition bw_ctrl_default (N : NumOps) : bw_ctrl N := {|
  bc_chi_phot_min := n_lit 1 (-3);
  bc_tdndt_min := n_lit 1 (-1); bc_tdndt_max := n_lit 500 0; bc_tdndt_how_many := 50;
  bc_tpair_min := n_lit 1 (-2); bc_tpair_max := n_lit 500 0; bc_tpair_how_many := 50;
  bc_frac_how_many := 50 |}.

(** What [internal_evolve_opt_depth_and_determine_event] returns and writes to
    its reference arguments: (return value, opt_depth, has_event_happend, event_dt). *)
Record evolve_result {N : NumOps} := mk_ev {
  ev_ok : bool; ev_opt_depth : num N; ev_event : bool; ev_dt : num N }.
Arguments evolve_result : clear implicits.

(** One generated particle: momentum and weight. *)
Definition particle (N : NumOps) : Type := (vec3 N * num N)%type.

Section BW.
Context {N : NumOps} (U : Units N).

(** breit_wheeler_engine.hpp:303-306 internal_get_optical_depth *)
Definition get_optical_depth_unf (u : num N) : num N := (- (n_log (n_one - u)))%N.

(** breit_wheeler_engine.hpp:316-360 internal_interp_dN_dt *)
Definition bw_interp_dN_dt (energy chi : num N) (t : lookup_1d N) (c : bw_ctrl N)
    (lambda0 : num N) : out (num N) :=
  let lambda := si_lambda U lambda0 in
  if ((energy =? n_zero) || (chi =? n_zero))%N then Ret n_zero
  else
    let coeff := (u_pair_prod_coeff U * lambda * (n_one / (chi * energy)))%N in
    let a := erber_a in
    let b := erber_b in
    do TT <-
      (if (chi <=? bc_tdndt_min c)%N then
         Ret ((c_pi * a / (n_two * b)) * chi * chi * n_exp (- n_two * b / chi))%N
       else if (chi >=? bc_tdndt_max c)%N then
         let ccoeff := (n_tgamma (n_one / n_three) / n_two)%N in
         Ret (a * chi * ccoeff * n_pow (chi * n_two / b) (n_two / n_three))%N
       else
         do v <- interp_linear_equispaced t (n_log chi);
         Ret (n_exp v));
    Ret (coeff * TT)%N.

(** breit_wheeler_engine.hpp:411-417 (and 695-700): update of the optical depth *)
Definition evolve_with_rate (dndt dt opt : num N) : evolve_result N :=
  let opt' := (opt - dndt * dt)%N in
  if (opt' <? n_zero)%N
  then mk_ev N true opt' true (opt' / dndt + dt)%N
  else mk_ev N true opt' false n_zero.

(** breit_wheeler_engine.hpp:371-420 internal_evolve_opt_depth_and_determine_event *)
Definition bw_internal_evolve (p e b : vec3 N) (dt opt lambda0 : num N)
    (t : lookup_1d N) (c : bw_ctrl N) : out (evolve_result N) :=
  let lambda := si_lambda U lambda0 in
  let energy := (norm p * u_c U)%N in
  let chi := chi_photon U p e b lambda in
  if ((chi <=? bc_chi_phot_min c) || (energy <? n_two * (u_emass U * u_c U * u_c U)))%N
  then Ret (mk_ev N true opt false n_zero)
  else if t1_init t then
    do dndt <- bw_interp_dN_dt energy chi t c lambda;
    Ret (evolve_with_rate dndt dt opt)
  else Ret (mk_ev N false opt false n_zero).

(** breit_wheeler_engine.hpp:472-490: search of the first column whose
    cumulative probability exceeds [prob] *)
Fixpoint bw_search (t : lookup_2d N) (log_chi prob : num N) (fuel : nat) (first count : Z) : out Z :=
  match fuel with
  | O => OutOfFuel
  | S f =>
      if 0 <? count then
        let step := count / 2 in
        let it := first + step in
        do v <- interp2_linear_first_equispaced t log_chi it;
        if negb (prob <? n_exp v)%N
        then bw_search t log_chi prob f (it + 1) (count - (step + 1))
        else bw_search t log_chi prob f first step
      else Ret first
  end.

(** breit_wheeler_engine.hpp:465-533: one iteration of the sampling loop,
    given chi_phot, its clamped value and the kinematic quantities *)
Definition bw_one_pair (chi_phot tab_chi gamma_phot me_c new_weight : num N) (n_phot : vec3 N)
    (t : lookup_2d N) (u : num N) : out (particle N * particle N) :=
  let invert := (u >=? n_one / n_two)%N in
  let prob := if invert then (u - n_one / n_two)%N else u in
  do first <- bw_search t (n_log tab_chi) prob (S (length (t2_y t))) 0 (zlen (t2_y t));
  let upper := first in
  let lower := wrap64 (upper - 1) in
  do upper_frac <- vget (t2_y t) upper;
  do lower_frac <- vget (t2_y t) lower;
  do vu <- interp2_linear_first_equispaced t (n_log tab_chi) upper;
  let upper_prob := n_exp vu in
  do vl <- interp2_linear_first_equispaced t (n_log tab_chi) lower;
  let lower_prob := n_exp vl in
  let chi_ele_frac :=
    (lower_frac + (prob - lower_prob) * (upper_frac - lower_frac) / (upper_prob - lower_prob))%N in
  let chi_1 := (chi_ele_frac * chi_phot)%N in
  let chi_2 := (chi_phot - chi_1)%N in
  let chi_ele := if invert then chi_2 else chi_1 in
  let chi_pos := if invert then chi_1 else chi_2 in
  let coeff := ((gamma_phot - n_two) / chi_phot)%N in
  let cc_ele := (n_sqrt ((n_one + chi_ele * coeff) * (n_one + chi_ele * coeff) - n_one) * me_c)%N in
  let cc_pos := (n_sqrt ((n_one + chi_pos * coeff) * (n_one + chi_pos * coeff) - n_one) * me_c)%N in
  Ret ((vscale_l cc_ele n_phot, new_weight), (vscale_l cc_pos n_phot, new_weight)).

(** breit_wheeler_engine.hpp:458-462 (and quantum_sync_engine.hpp:451-455) *)
Definition clamp_chi (mn mx chi : num N) : num N :=
  if (chi <? mn)%N then mn else if (chi >? mx)%N then mx else chi.

(** breit_wheeler_engine.hpp:431-537 internal_generate_breit_wheeler_pairs.  The
    eight output arrays are returned as one list of (electron, positron); the
    input array of random numbers has [sampling] elements. *)
Definition bw_internal_generate (p e b : vec3 N) (weight : num N) (sampling : Z)
    (lambda : num N) (t : lookup_2d N) (c : bw_ctrl N) (us : list (num N))
    : out (list (particle N * particle N)) :=
  let chi_phot := chi_photon U p e b lambda in
  let new_weight := (weight / n_of_Z sampling)%N in
  let me_c := (u_emass U * u_c U)%N in
  let norm_phot := norm p in
  let n_phot := vdiv p norm_phot in
  let gamma_phot := (norm_phot / me_c)%N in
  let tab_chi := clamp_chi (bc_tpair_min c) (bc_tpair_max c) chi_phot in
  mapM (fun s => do u <- zget us s;
                 bw_one_pair chi_phot tab_chi gamma_phot me_c new_weight n_phot t u)
       (zseq (Z.to_nat sampling)).

(** The functions below the PXRMP_CORE_ONLY line need the oracles. *)
Variable Orc : Oracles N.

(** breit_wheeler_engine.hpp:926-930 compute_x *)
Definition bw_compute_x (chi_phot chi_ele : num N) : num N :=
  n_pow (chi_phot / (chi_ele * (chi_phot - chi_ele)))%N (n_two / n_three)%N.

(** breit_wheeler_engine.hpp:935-944 compute_inner_integral
    (qed_commons.h:203: special_func_big_arg = 1e20) *)
Definition bw_inner_integral (x : num N) : num N :=
  o_quad_a_inf Orc (fun s =>
    if (s >=? n_lit 1 20)%N then n_zero
    else (n_sqrt s * o_k_v Orc (n_one / n_three) (n_two * n_pow s (n_three / n_two) / n_three))%N) x.

(** breit_wheeler_engine.hpp:949-961 compute_TT_integrand *)
Definition bw_TT_integrand (chi_phot chi_ele : num N) : num N :=
  if ((chi_phot =? n_zero) || (chi_ele >=? chi_phot) || (chi_ele =? n_zero))%N then n_zero
  else
    let xx := bw_compute_x chi_phot chi_ele in
    let xx_3_2 := n_pow xx (n_three / n_two)%N in
    let div := (c_pi * n_sqrt n_three)%N in
    ((bw_inner_integral xx - (n_two - chi_phot * xx_3_2) *
       o_k_v Orc (n_two / n_three) ((n_two / n_three) * xx_3_2)) / div)%N.

(** breit_wheeler_engine.hpp:966-978 compute_TT_function *)
Definition bw_TT_function (chi_phot : num N) : num N :=
  o_quad_a_b Orc (fun chi_ele =>
    if ((chi_ele - chi_phot =? n_zero) || (chi_ele =? n_zero))%N then n_zero
    else bw_TT_integrand chi_phot chi_ele) n_zero chi_phot.

(** breit_wheeler_engine.hpp:620-629 compute_dN_dt *)
Definition bw_compute_dN_dt (lambda energy chi : num N) : num N :=
  if ((energy =? n_zero) || (chi =? n_zero))%N then n_zero
  else
    let coeff := (u_pair_prod_coeff U * lambda * (n_one / (chi * energy)))%N in
    (coeff * bw_TT_function chi)%N.

(** breit_wheeler_engine.hpp:634-656 compute_dN_dt_lookup_table *)
Definition bw_dN_dt_table (c : bw_ctrl N) : lookup_1d N :=
  let coords := generate_log_spaced_vec (bc_tdndt_min c) (bc_tdndt_max c) (bc_tdndt_how_many c) in
  let vals := map bw_TT_function coords in
  lookup_1d_make (map n_log coords) (map n_log vals).

(** breit_wheeler_engine.hpp:711-719 compute_cumulative_pair *)
Definition bw_cumulative_pair (chi_phot chi_part : num N) : num N :=
  let n := o_quad_a_b Orc (fun x => bw_TT_integrand chi_phot x) n_zero chi_part in
  (n / bw_TT_function chi_phot)%N.

(** breit_wheeler_engine.hpp:745-748: the inner loop of the table row; the
    iteration count uses the unsigned [frac_coords.size() - 1] *)
Fixpoint bw_row_inner (n : nat) (chi_phot : num N) (frac : list (num N)) (jj cc : Z)
    : out (list (write_op (num N)) * Z) :=
  match n with
  | O => Ret ([], cc)
  | S m =>
      do f <- vget frac jj;
      do '(ws, cc') <- bw_row_inner m chi_phot frac (jj + 1) (wrap64 (cc + 1));
      Ret ((cc, bw_cumulative_pair chi_phot (chi_phot * f)%N) :: ws, cc')
  end.

(** breit_wheeler_engine.hpp:741-750: the writes of iteration [ii] of the
    parallel loop.  [len] is the size of the shared vector: the first write is
    checked before the inner loop runs, as in the C++ order. *)
Definition bw_row_writes (chi_coords frac : list (num N)) (len : Z) (ii : Z)
    : out (list (write_op (num N))) :=
  do chi_phot <- vget chi_coords ii;
  let cc := wrap64 (ii * zlen frac) in
  if negb ((0 <=? to_int32 cc) && (to_int32 cc <? len)) then UB
  else
    do '(ws, cc') <- bw_row_inner (Z.to_nat (wrap64 (zlen frac - 1) - 1)) chi_phot frac 1 (wrap64 (cc + 1));
    Ret ((cc, n_zero) :: ws ++ [(cc', (n_one / n_two)%N)]).

(** breit_wheeler_engine.hpp:723-761 compute_cumulative_pair_table, with the
    iterations of the parallel loop executed in the order [order] *)
Fixpoint fill_rows (rows : Z -> out (list (write_op (num N)))) (order : list Z)
    (arr : list (num N)) : out (list (num N)) :=
  match order with
  | [] => Ret arr
  | ii :: t => do ws <- rows ii; do arr' <- apply_writes arr ws; fill_rows rows t arr'
  end.

(** [garbage]: the indeterminate initial content of [pair_vals]. *)
Definition bw_cumulative_table (c : bw_ctrl N) (garbage : num N) : out (lookup_2d N) :=
  let chi_coords := generate_log_spaced_vec (bc_tpair_min c) (bc_tpair_max c) (bc_tpair_how_many c) in
  let frac := generate_lin_spaced_vec n_zero (n_one / n_two)%N (bc_frac_how_many c) in
  let vals := repeat garbage (Z.to_nat (wrap64 (zlen chi_coords * zlen frac))) in
  do vals' <- fill_rows (bw_row_writes chi_coords frac (zlen vals)) (zseq (length chi_coords)) vals;
  Ret (lookup_2d_make (map n_log chi_coords) frac (map n_log vals')).

(** The engine object: breit_wheeler_engine.hpp:258-273 (members). *)
Variable G : Rng N.
Record bw_engine := mk_bw {
  be_lambda : num N;
  be_rng : rng_state G;
  be_ctrl : bw_ctrl N;
  be_TT : lookup_1d N;
  be_cum : lookup_2d N }.

(** breit_wheeler_engine.hpp:542-551 constructor *)
Definition bw_new (r : rng_state G) (lambda : num N) (c : bw_ctrl N) : bw_engine :=
  mk_bw (si_lambda U lambda) r c lookup_1d_empty lookup_2d_empty.

(** breit_wheeler_engine.hpp:555-559 copy constructor, 573-585 assignment *)
Definition bw_copy (x : bw_engine) : bw_engine :=
  mk_bw (be_lambda x) (be_rng x) (be_ctrl x) (be_TT x) (be_cum x).

(** breit_wheeler_engine.hpp:589-593 *)
Definition bw_get_lambda (x : bw_engine) : num N := be_lambda x.

(** breit_wheeler_engine.hpp:597-606: in SI the setter does nothing *)
Definition bw_set_lambda (x : bw_engine) (lambda : num N) : bw_engine :=
  if u_si U then x
  else mk_bw lambda (be_rng x) (be_ctrl x) (be_TT x) (be_cum x).

(** breit_wheeler_engine.hpp:611-615 get_optical_depth *)
Definition bw_get_optical_depth (x : bw_engine) : num N * bw_engine :=
  let '(v, r) := rng_exp G (be_rng x) n_one in
  (v, mk_bw (be_lambda x) r (be_ctrl x) (be_TT x) (be_cum x)).

(** breit_wheeler_engine.hpp:634-656 as an operation on the engine *)
Definition bw_make_dN_dt_table (x : bw_engine) : bw_engine :=
  mk_bw (be_lambda x) (be_rng x) (be_ctrl x) (bw_dN_dt_table (be_ctrl x)) (be_cum x).

(** breit_wheeler_engine.hpp:723-761 as an operation on the engine *)
Definition bw_make_cum_table (x : bw_engine) (garbage : num N) : out bw_engine :=
  do t <- bw_cumulative_table (be_ctrl x) garbage;
  Ret (mk_bw (be_lambda x) (be_rng x) (be_ctrl x) (be_TT x) t).

(** breit_wheeler_engine.hpp:661-667 interp_dN_dt *)
Definition bw_engine_interp_dN_dt (x : bw_engine) (energy chi : num N) : out (num N) :=
  bw_interp_dN_dt energy chi (be_TT x) (be_ctrl x) (be_lambda x).

(** breit_wheeler_engine.hpp:677-704 evolve_opt_depth_and_determine_event:
    (has_event_happend, event_dt, new optical depth).  When the table is missing
    the rate is computed directly. *)
Definition bw_evolve (x : bw_engine) (p e b : vec3 N) (dt opt : num N)
    : out (bool * num N * num N) :=
  do r <- bw_internal_evolve p e b dt opt (be_lambda x) (be_TT x) (be_ctrl x);
  if ev_ok r then Ret (ev_event r, ev_dt r, ev_opt_depth r)
  else
    let energy := (norm p * u_c U)%N in
    let chi := chi_photon U p e b (be_lambda x) in
    let dndt := bw_compute_dN_dt (be_lambda x) energy chi in
    let r2 := evolve_with_rate dndt dt (ev_opt_depth r) in
    Ret (ev_event r2, ev_dt r2, ev_opt_depth r2).

(** breit_wheeler_engine.hpp:781-820 generate_breit_wheeler_pairs: the lists of
    electrons and positrons, and the engine with the advanced generator *)
Definition bw_generate (x : bw_engine) (p e b : vec3 N) (weight : num N) (sampling : Z)
    : out (list (particle N) * list (particle N) * bw_engine) :=
  let '(us, r) := draw_unf G (Z.to_nat sampling) (be_rng x) in
  do prs <- bw_internal_generate p e b weight sampling (be_lambda x) (be_cum x) (be_ctrl x) us;
  Ret (map fst prs, map snd prs, mk_bw (be_lambda x) r (be_ctrl x) (be_TT x) (be_cum x)).

(** breit_wheeler_engine.hpp:873-918 export_innards and the constructor from
    innards: the clone reads the tables of the original through raw pointers.
    Simplification: the original stays alive and its tables unmodified. *)
Record bw_innards := {
  bi_ctrl : bw_ctrl N; bi_lambda : num N; bi_rng : rng_state G;
  bi_TT_coords_how_many : Z; bi_TT_coords : list (num N);
  bi_TT_data_how_many : Z; bi_TT_data : list (num N);
  bi_cum_1_how_many : Z; bi_cum_1 : list (num N);
  bi_cum_2_how_many : Z; bi_cum_2 : list (num N);
  bi_cum_data_how_many : Z; bi_cum_data : list (num N) }.

Definition bw_export_innards (x : bw_engine) : bw_innards := {|
  bi_ctrl := be_ctrl x; bi_lambda := be_lambda x; bi_rng := be_rng x;
  bi_TT_coords_how_many := zlen (t1_coords (be_TT x)); bi_TT_coords := t1_coords (be_TT x);
  bi_TT_data_how_many := zlen (t1_data (be_TT x)); bi_TT_data := t1_data (be_TT x);
  bi_cum_1_how_many := zlen (t2_x (be_cum x)); bi_cum_1 := t2_x (be_cum x);
  bi_cum_2_how_many := zlen (t2_y (be_cum x)); bi_cum_2 := t2_y (be_cum x);
  bi_cum_data_how_many := zlen (t2_data (be_cum x)); bi_cum_data := t2_data (be_cum x) |}.

Definition bw_of_innards (i : bw_innards) : bw_engine :=
  mk_bw (bi_lambda i) (bi_rng i) (bi_ctrl i)
    (lookup_1d_raw (bi_TT_coords_how_many i) (bi_TT_coords i) (bi_TT_data i))
    (lookup_2d_raw (bi_cum_1_how_many i) (bi_cum_1 i) (bi_cum_2_how_many i) (bi_cum_2 i) (bi_cum_data i)).

End BW.
Arguments mk_bw {N G}. Arguments be_lambda {N G}. Arguments be_rng {N G}.
Arguments be_ctrl {N G}. Arguments be_TT {N G}. Arguments be_cum {N G}.
Arguments bw_engine : clear implicits.
Arguments bw_engine {N}.
