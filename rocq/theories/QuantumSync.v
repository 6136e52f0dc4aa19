(** Model of src/multi_physics/QED/src/quantum_sync_engine.hpp. *)
From Coq Require Import ZArith List Bool.
From Verif Require Import Cxx Num Utilities LookupTables VecFun Units ChiFun Oracles OmpFor BreitWheeler.
Import ListNotations.
Local Open Scope Z_scope.

(** quantum_sync_engine_ctrl.h:14-35 *)
Record qs_ctrl {N : NumOps} := mk_qs_ctrl {
  qc_chi_part_min : num N;
  qc_tdndt_min : num N; qc_tdndt_max : num N; qc_tdndt_how_many : Z;
  qc_tem_min : num N; qc_tem_max : num N; qc_tem_how_many : Z;
  qc_prob_how_many : Z }.
Arguments qs_ctrl : clear implicits.

(** qed_commons.h:208-227: default values *)
Definition qs_ctrl_default (N : NumOps) : qs_ctrl N := {|
  qc_chi_part_min := n_lit 1 (-3);
  qc_tdndt_min := n_lit 1 (-3); qc_tdndt_max := n_lit 200 0; qc_tdndt_how_many := 64;
  qc_tem_min := n_lit 1 (-3); qc_tem_max := n_lit 200 0; qc_tem_how_many := 64;
  qc_prob_how_many := 256 |}.

Section QS.
Context {N : NumOps} (U : Units N).

(** quantum_sync_engine.hpp:304-307 internal_get_optical_depth *)
Definition qs_get_optical_depth_unf (u : num N) : num N := (- (n_log (n_one - u)))%N.

(** quantum_sync_engine.hpp:334-339: unlike the generator, the comparisons
    include equality *)
Definition qs_clamp_rate (c : qs_ctrl N) (chi : num N) : num N :=
  if (chi <=? qc_tdndt_min c)%N then qc_tdndt_min c
  else if (chi >=? qc_tdndt_max c)%N then qc_tdndt_max c
  else chi.

(** quantum_sync_engine.hpp:317-346 internal_interp_dN_dt (no SI guard on lambda) *)
Definition qs_interp_dN_dt (energy chi : num N) (t : lookup_1d N) (c : qs_ctrl N)
    (lambda : num N) : out (num N) :=
  if ((energy =? n_zero) || (chi =? n_zero))%N then Ret n_zero
  else
    let coeff := (u_qs_rate_coeff U * lambda * n_one / energy)%N in
    do v <- interp_linear_equispaced t (n_log (qs_clamp_rate c chi));
    Ret (coeff * n_exp v)%N.

(** quantum_sync_engine.hpp:358-407 internal_evolve_opt_depth_and_determine_event *)
Definition qs_internal_evolve (p e b : vec3 N) (dt opt lambda0 : num N)
    (t : lookup_1d N) (c : qs_ctrl N) : out (evolve_result N) :=
  let lambda := si_lambda U lambda0 in
  let energy := (norm p * u_c U)%N in
  let chi := chi_lepton U p e b lambda in
  if (chi <=? qc_chi_part_min c)%N then Ret (mk_ev N true opt false n_zero)
  else if t1_init t then
    do dndt <- qs_interp_dN_dt energy chi t c lambda;
    Ret (evolve_with_rate dndt dt opt)
  else Ret (mk_ev N false opt false n_zero).

(** quantum_sync_engine.hpp:460-479: momentum of one photon *)
Definition qs_one_photon (chi_part tab_chi gamma_part me_c : num N) (n_part : vec3 N)
    (t : lookup_2d N) (u : num N) : out (vec3 N) :=
  let prob := u in
  do il <- floor_size (n_of_Z (wrap64 (zlen (t2_y t) - 1)) * prob)%N;
  let ir := wrap64 (il + 1) in
  do prob_left <- vget (t2_y t) il;
  do prob_right <- vget (t2_y t) ir;
  do vl <- interp2_linear_first_equispaced t (n_log tab_chi) il;
  let left := n_exp vl in
  do vr <- interp2_linear_first_equispaced t (n_log tab_chi) ir;
  let right := n_exp vr in
  let frac := (left + (prob - prob_left) * (right - left) / (prob_right - prob_left))%N in
  let chi_phot := (frac * chi_part)%N in
  let gamma_phot := (chi_phot / chi_part * (gamma_part - n_one))%N in
  Ret (vscale_r (vscale_l gamma_phot n_part) me_c).

(** quantum_sync_engine.hpp:459-492: the sampling loop; [pp] is the momentum
    passed by reference *)
Fixpoint qs_loop (chi_part tab_chi gamma_part me_c new_weight one_over : num N) (n_part : vec3 N)
    (t : lookup_2d N) (us : list (num N)) (ss : list Z) (pp : vec3 N)
    : out (list (particle N) * vec3 N) :=
  match ss with
  | [] => Ret ([], pp)
  | s :: rest =>
      do u <- zget us s;
      do ph <- qs_one_photon chi_part tab_chi gamma_part me_c n_part t u;
      let pp' := V3 (vx pp - vx ph * one_over)%N (vy pp - vy ph * one_over)%N
                    (vz pp - vz ph * one_over)%N in
      do '(phs, pf) <- qs_loop chi_part tab_chi gamma_part me_c new_weight one_over n_part t us rest pp';
      Ret ((ph, new_weight) :: phs, pf)
  end.

(** quantum_sync_engine.hpp:419-495 internal_generate_photons_and_update_momentum:
    the photons and the updated momentum *)
Definition qs_internal_generate (p e b : vec3 N) (weight : num N) (sampling : Z)
    (lambda0 : num N) (t : lookup_2d N) (c : qs_ctrl N) (us : list (num N))
    : out (list (particle N) * vec3 N) :=
  let lambda := si_lambda U lambda0 in
  let chi_part := chi_lepton U p e b lambda in
  let new_weight := (weight / n_of_Z sampling)%N in
  let me_c := (u_emass U * u_c U)%N in
  let p2 := norm2 p in
  let norm_part := n_sqrt p2 in
  let n_part := vdiv p norm_part in
  let gamma_part := n_sqrt (n_one + p2 / me_c / me_c)%N in
  let tab_chi := clamp_chi (qc_tem_min c) (qc_tem_max c) chi_part in
  let one_over := (n_one / n_of_Z sampling)%N in
  qs_loop chi_part tab_chi gamma_part me_c new_weight one_over n_part t us
          (zseq (Z.to_nat sampling)) p.

Variable Orc : Oracles N.

(** quantum_sync_engine.hpp:892-896 compute_y *)
Definition qs_compute_y (chi_phot chi_ele : num N) : num N :=
  (n_two * chi_phot / (n_three * chi_ele * (chi_ele - chi_phot)))%N.

(** quantum_sync_engine.hpp:901-911 compute_inner_integral *)
Definition qs_inner_integral (y : num N) : num N :=
  let f := fun s => if (s >? n_lit 1 20)%N then n_zero else o_k_v Orc (n_five / n_three)%N s in
  (o_quad_a_b Orc f y (n_two * y) + o_quad_a_inf Orc f (n_two * y))%N.

(** quantum_sync_engine.hpp:915-930 compute_KK_integrand *)
Definition qs_KK_integrand (chi_part chi_phot : num N) : num N :=
  if ((chi_part =? n_zero) || (chi_phot >=? chi_part) || (chi_phot =? n_zero))%N then n_zero
  else
    let y := qs_compute_y chi_phot chi_part in
    let inner := qs_inner_integral y in
    let part_2 := ((n_three * chi_phot * y / n_two) * o_k_v Orc (n_two / n_three) y)%N in
    let coeff := ((n_one / chi_part) / (c_pi * n_sqrt n_three))%N in
    ((inner + part_2) * coeff)%N.

(** quantum_sync_engine.hpp:934-944 compute_KK_function *)
Definition qs_KK_function (chi_part : num N) : num N :=
  let f := fun chi_phot => qs_KK_integrand chi_part chi_phot in
  (o_quad_a_b Orc f n_zero (chi_part / n_two) + o_quad_a_b Orc f (chi_part / n_two) chi_part)%N.

(** quantum_sync_engine.hpp:564-574 compute_dN_dt *)
Definition qs_compute_dN_dt (lambda energy chi : num N) : num N :=
  if ((energy =? n_zero) || (chi =? n_zero))%N then n_zero
  else (u_qs_rate_coeff U * lambda * (n_one / energy) * qs_KK_function chi)%N.

(** quantum_sync_engine.hpp:579-601 compute_dN_dt_lookup_table *)
Definition qs_dN_dt_table (c : qs_ctrl N) : lookup_1d N :=
  let coords := generate_log_spaced_vec (qc_tdndt_min c) (qc_tdndt_max c) (qc_tdndt_how_many c) in
  let vals := map qs_KK_function coords in
  lookup_1d_make (map n_log coords) (map n_log vals).

(** quantum_sync_engine.hpp:655-672 compute_cumulative_phot_em *)
Definition qs_cumulative (chi_phot chi_part : num N) : num N :=
  let f := fun x => if ((chi_part - x =? n_zero) || (x =? n_zero))%N then n_zero
                    else qs_KK_integrand chi_part x in
  let n := (o_quad_a_b Orc f n_zero (chi_phot / n_two) + o_quad_a_b Orc f (chi_phot / n_two) chi_phot)%N in
  let kk := qs_KK_function chi_part in
  if (n >=? kk)%N then n_one else (n / kk)%N.

(** quantum_sync_engine.hpp:708-715: the function whose root is searched *)
Definition qs_root_fun (chi_part prob previous : num N) (first_one : bool) (lf : num N) : num N :=
  if (lf >=? n_zero)%N then n_one
  else if negb first_one && (lf <? previous)%N then n_one
  else (qs_cumulative (n_exp lf * chi_part) chi_part - prob)%N.

(** quantum_sync_engine.hpp:700-723: inner loop of a table row *)
Fixpoint qs_row_inner (n : nat) (chi_part : num N) (probs : list (num N)) (jj cc : Z)
    (guess previous : num N) (first_one : bool) : out (list (write_op (num N))) :=
  match n with
  | O => Ret []
  | S m =>
      do prob0 <- vget probs jj;
      do prob1 <- (if jj =? 0 then do p1 <- vget probs 1; Ret (p1 / n_ten)%N else Ret prob0);
      do prob <- (if jj =? wrap64 (zlen probs - 1) then
                    do q <- vget probs (wrap64 (zlen probs - 2));
                    Ret (n_one - (n_one - q) / n_ten)%N
                  else Ret prob1);
      let r := o_root Orc (qs_root_fun chi_part prob previous first_one) guess true in
      do ws <- qs_row_inner m chi_part probs (jj + 1) (wrap64 (cc + 1)) r r false;
      Ret ((cc, n_exp r) :: ws)
  end.

(** quantum_sync_engine.hpp:694-724: the writes of iteration [ii] *)
Definition qs_row_writes (chi_coords probs : list (num N)) (ii : Z) : out (list (write_op (num N))) :=
  do chi_part <- vget chi_coords ii;
  let cc := wrap64 (ii * zlen probs) in
  qs_row_inner (length probs) chi_part probs 0 cc (- n_ten)%N n_zero true.

(** quantum_sync_engine.hpp:678-737 compute_cumulative_phot_em_table *)
Definition qs_cumulative_table (c : qs_ctrl N) (garbage : num N) : out (lookup_2d N) :=
  let chi_coords := generate_log_spaced_vec (qc_tem_min c) (qc_tem_max c) (qc_tem_how_many c) in
  let probs := generate_lin_spaced_vec n_zero n_one (qc_prob_how_many c) in
  let vals := repeat garbage (Z.to_nat (wrap64 (zlen chi_coords * zlen probs))) in
  do vals' <- fill_rows (qs_row_writes chi_coords probs) (zseq (length chi_coords)) vals;
  Ret (lookup_2d_make (map n_log chi_coords) probs (map n_log vals')).

Variable G : Rng N.
(** quantum_sync_engine.hpp:260-275 (members) *)
Record qs_engine := mk_qs {
  qe_lambda : num N;
  qe_rng : rng_state G;
  qe_ctrl : qs_ctrl N;
  qe_KK : lookup_1d N;
  qe_cum : lookup_2d N }.

(** quantum_sync_engine.hpp:501-510 constructor *)
Definition qs_new (r : rng_state G) (lambda : num N) (c : qs_ctrl N) : qs_engine :=
  mk_qs (si_lambda U lambda) r c lookup_1d_empty lookup_2d_empty.
(** quantum_sync_engine.hpp:514-518 copy constructor *)
Definition qs_copy (x : qs_engine) : qs_engine :=
  mk_qs (qe_lambda x) (qe_rng x) (qe_ctrl x) (qe_KK x) (qe_cum x).
(** quantum_sync_engine.hpp:533-537 *)
Definition qs_get_lambda (x : qs_engine) : num N := qe_lambda x.
(** quantum_sync_engine.hpp:541-550 *)
Definition qs_set_lambda (x : qs_engine) (lambda : num N) : qs_engine :=
  if u_si U then x else mk_qs lambda (qe_rng x) (qe_ctrl x) (qe_KK x) (qe_cum x).
(** quantum_sync_engine.hpp:555-559 *)
Definition qs_get_optical_depth (x : qs_engine) : num N * qs_engine :=
  let '(v, r) := rng_exp G (qe_rng x) n_one in
  (v, mk_qs (qe_lambda x) r (qe_ctrl x) (qe_KK x) (qe_cum x)).
(** quantum_sync_engine.hpp:579-601 as an operation on the engine *)
Definition qs_make_dN_dt_table (x : qs_engine) : qs_engine :=
  mk_qs (qe_lambda x) (qe_rng x) (qe_ctrl x) (qs_dN_dt_table (qe_ctrl x)) (qe_cum x).
(** quantum_sync_engine.hpp:678-737 as an operation on the engine *)
Definition qs_make_cum_table (x : qs_engine) (garbage : num N) : out qs_engine :=
  do t <- qs_cumulative_table (qe_ctrl x) garbage;
  Ret (mk_qs (qe_lambda x) (qe_rng x) (qe_ctrl x) (qe_KK x) t).
(** quantum_sync_engine.hpp:606-611 interp_dN_dt *)
Definition qs_engine_interp_dN_dt (x : qs_engine) (energy chi : num N) : out (num N) :=
  qs_interp_dN_dt energy chi (qe_KK x) (qe_ctrl x) (qe_lambda x).

(** quantum_sync_engine.hpp:621-648 evolve_opt_depth_and_determine_event *)
Definition qs_evolve (x : qs_engine) (p e b : vec3 N) (dt opt : num N)
    : out (bool * num N * num N) :=
  do r <- qs_internal_evolve p e b dt opt (qe_lambda x) (qe_KK x) (qe_ctrl x);
  if ev_ok r then Ret (ev_event r, ev_dt r, ev_opt_depth r)
  else
    let energy := (norm p * u_c U)%N in
    let chi := chi_lepton U p e b (qe_lambda x) in
    let dndt := qs_compute_dN_dt (qe_lambda x) energy chi in
    let r2 := evolve_with_rate dndt dt (ev_opt_depth r) in
    Ret (ev_event r2, ev_dt r2, ev_opt_depth r2).

(** quantum_sync_engine.hpp:755-786 generate_photons_and_update_momentum *)
Definition qs_generate (x : qs_engine) (p e b : vec3 N) (weight : num N) (sampling : Z)
    : out (list (particle N) * vec3 N * qs_engine) :=
  let '(us, r) := draw_unf G (Z.to_nat sampling) (qe_rng x) in
  do '(phs, pf) <- qs_internal_generate p e b weight sampling (qe_lambda x) (qe_cum x) (qe_ctrl x) us;
  Ret (phs, pf, mk_qs (qe_lambda x) r (qe_ctrl x) (qe_KK x) (qe_cum x)).

(** quantum_sync_engine.hpp:839-884 export_innards followed by the constructor
    from innards (same simplification as for the Breit-Wheeler engine) *)
Definition qs_clone (x : qs_engine) : qs_engine :=
  mk_qs (qe_lambda x) (qe_rng x) (qe_ctrl x)
    (lookup_1d_raw (zlen (t1_coords (qe_KK x))) (t1_coords (qe_KK x)) (t1_data (qe_KK x)))
    (lookup_2d_raw (zlen (t2_x (qe_cum x))) (t2_x (qe_cum x))
                   (zlen (t2_y (qe_cum x))) (t2_y (qe_cum x)) (t2_data (qe_cum x))).

End QS.
Arguments mk_qs {N G}. Arguments qe_lambda {N G}. Arguments qe_rng {N G}.
Arguments qe_ctrl {N G}. Arguments qe_KK {N G}. Arguments qe_cum {N G}.
Arguments qs_engine : clear implicits.
Arguments qs_engine {N}.
