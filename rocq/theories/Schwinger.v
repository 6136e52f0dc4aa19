(** Model of src/multi_physics/QED/src/schwinger_pair_engine.hpp. The public
    wrappers generate_pairs_single/multiple (208-225, 267-283) call the internal
    functions with three arguments missing and cannot be instantiated; the
    internal (GPU) functions are modelled. *)
From Coq Require Import ZArith List Bool.
From Verif Require Import Cxx Num Utilities VecFun Units Oracles.
Import ListNotations.
Local Open Scope Z_scope.

Section Schwinger.
Context {N : NumOps} (U : Units N).

(** schwinger_pair_engine.hpp:352-391 internal_compute_schwinger_pair_production_rate *)
Definition sw_rate (ee bb : vec3 N) (lambda0 : num N) : num N :=
  let lambda := si_lambda U lambda0 in
  let c_ff := (n_one / (n_two * u_schwinger U * u_schwinger U))%N in
  let c_gg := (u_c U / u_schwinger U / u_schwinger U)%N in
  let ff := ((norm2 ee - (u_c U * u_c U) * norm2 bb) * c_ff)%N in
  let gg := (dot ee bb * c_gg)%N in
  let inner := n_sqrt (ff * ff + gg * gg)%N in
  let epsi := n_sqrt (inner + ff)%N in
  let eta := n_sqrt (inner - ff)%N in
  let coeff := (u_schwinger_coeff U * lambda * lambda * lambda * lambda)%N in
  if negb (epsi =? n_zero)%N && negb (eta =? n_zero)%N then
    (coeff * (epsi * eta * n_exp (- c_pi / epsi) / n_tanh (c_pi * eta / epsi)))%N
  else if (epsi =? n_zero)%N then n_zero
  else (coeff * (epsi * epsi * n_exp (- c_pi / epsi) / c_pi))%N.

(** schwinger_pair_engine.hpp:249-253, 306-310 *)
Definition sw_probability (ee bb : vec3 N) (dx dy dz dt lambda0 : num N) : num N :=
  let lambda := si_lambda U lambda0 in
  (sw_rate ee bb lambda * (dx * dy * dz) * dt)%N.

(** schwinger_pair_engine.hpp:231-258 internal_generate_pairs_single:
    (has_event_happend, weight) *)
Definition sw_single (ee bb : vec3 N) (dx dy dz dt lambda u : num N) : bool * num N :=
  let volume := (dx * dy * dz)%N in
  let probability := sw_probability ee bb dx dy dz dt lambda in
  ((u <? probability)%N, (n_one / volume)%N).

(** schwinger_pair_engine.hpp:288-315 internal_generate_pairs_multiple:
    (how_many, weight) *)
Definition sw_multiple (fuel : nat) (ee bb : vec3 N) (dx dy dz dt lambda u : num N) : out (Z * num N) :=
  let volume := (dx * dy * dz)%N in
  let probability := sw_probability ee bb dx dy dz dt lambda in
  do k <- poisson_distrib fuel probability u;
  Ret (k, (n_one / volume)%N).

Variable G : Rng N.
Record sw_engine := mk_sw { se_lambda : num N; se_rng : rng_state G }.

(** schwinger_pair_engine.hpp:153-163 constructor *)
Definition sw_new (r : rng_state G) (lambda : num N) : sw_engine := mk_sw (si_lambda U lambda) r.
(** schwinger_pair_engine.hpp:166-170 copy constructor *)
Definition sw_copy (x : sw_engine) : sw_engine := mk_sw (se_lambda x) (se_rng x).
(** schwinger_pair_engine.hpp:182-186 *)
Definition sw_get_lambda (x : sw_engine) : num N := se_lambda x.
(** schwinger_pair_engine.hpp:190-199 *)
Definition sw_set_lambda (x : sw_engine) (lambda : num N) : sw_engine :=
  if u_si U then x else mk_sw lambda (se_rng x).
(** schwinger_pair_engine.hpp:338-345 *)
Definition sw_engine_rate (x : sw_engine) (ee bb : vec3 N) : num N := sw_rate ee bb (se_lambda x).
(** schwinger_pair_engine.hpp:322-330 get_new_pair_position *)
Definition sw_new_position (x : sw_engine) : list (num N) * sw_engine :=
  let '(us, r) := draw_unf G 3 (se_rng x) in (us, mk_sw (se_lambda x) r).

End Schwinger.
Arguments mk_sw {N G}. Arguments se_lambda {N G}. Arguments se_rng {N G}.
Arguments sw_engine : clear implicits.
Arguments sw_engine {N}.
