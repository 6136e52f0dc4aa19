(** Model of src/multi_physics/QED/src/chi_functions.hpp. *)
From Coq Require Import ZArith.
From Verif Require Import Cxx Num VecFun Units.

Section Chi.
Context {N : NumOps} (U : Units N).
Local Open Scope num_scope.

(** chi_functions.hpp:51-81 [chi_photon] *)
Definition chi_photon (p em_e em_b : vec3 N) (lambda0 : num N) : num N :=
  let lambda := si_lambda U lambda0 in
  let norm_p := norm p in
  if norm_p =? n_lit 0 0 then n_lit 0 0
  else
    let p_unit := vdiv p norm_p in
    let em_eperp := vsub em_e (vscale_l (dot p_unit em_e) p_unit) in
    let mod_ := norm (vadd em_eperp (cross (vscale_r p_unit (u_c U)) em_b)) in
    let coeff := n_lit 1 0 / ((u_emass U * u_c U * u_schwinger U) * lambda) in
    mod_ * norm_p * coeff.

(** chi_functions.hpp:86-133 [chi_lepton] *)
Definition chi_lepton (p em_e em_b : vec3 N) (lambda0 : num N) : num N :=
  let lambda := si_lambda U lambda0 in
  let one := n_lit 1 0 in
  let norm_p2 := norm2 p in
  if norm_p2 =? n_lit 0 0 then n_lit 0 0
  else
    let norm_p := n_sqrt norm_p2 in
    let p_unit := vdiv p norm_p in
    let gamma_2 := one + (norm_p / (u_emass U * u_c U)) * (norm_p / (u_emass U * u_c U)) in
    let gamma := n_sqrt gamma_2 in
    let beta := n_sqrt (one - one / gamma_2) in
    let beta_vec := vscale_l beta p_unit in
    let beta_dot_e := dot beta_vec em_e in
    let beta_dot_e_2 := beta_dot_e * beta_dot_e in
    let e_plus_v_cross_b_2 := norm2 (vadd em_e (cross (vscale_r beta_vec (u_c U)) em_b)) in
    let coeff := n_lit 1 0 / (u_schwinger U * lambda) in
    gamma * n_sqrt (n_fabs (beta_dot_e_2 - e_plus_v_cross_b_2)) * coeff.

End Chi.
