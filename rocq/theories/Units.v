(** Constants of src/multi_physics/QED/src/qed_commons.h. *)
From Coq Require Import ZArith.
From Verif Require Import Cxx Num.

Section Consts.
Context {N : NumOps}.
Local Open Scope num_scope.

(** qed_commons.h:73-114, physical and mathematical constants (S.I.) *)
Definition c_pi : num N := n_lit 3141592653589793 (-15).
Definition electron_mass : num N := n_lit 910938356 (-39).
Definition elementary_charge : num N := n_lit 16021766208 (-29).
Definition light_speed : num N := n_lit 299792458 0.
Definition reduced_plank : num N := n_lit 1054571800 (-43).
Definition vacuum_permittivity : num N := n_lit 8854187817 (-21).
Definition fine_structure : num N := n_lit 72973525664 (-13).

Definition classical_electron_radius : num N :=
  elementary_charge * elementary_charge /
  (n_lit 4 0 * c_pi * vacuum_permittivity * electron_mass * light_speed * light_speed).
Definition schwinger_field : num N :=
  electron_mass * electron_mass * (light_speed * light_speed * light_speed) /
  (elementary_charge * reduced_plank).
Definition pair_prod_rate_coeff : num N :=
  fine_structure * electron_mass * light_speed * light_speed / reduced_plank.
Definition tau_e : num N := classical_electron_radius / light_speed.
Definition quantum_synchrotron_rate_coeff : num N :=
  fine_structure * fine_structure / tau_e.
Definition schwinger_pair_prod_coeff : num N :=
  elementary_charge * elementary_charge * schwinger_field * schwinger_field /
  (n_lit 4 0 * c_pi * c_pi * reduced_plank * reduced_plank * light_speed).

(** qed_commons.h:140-158: the constants the engines use, selected at compile
    time; [si = true] is PXRMP_WITH_SI_UNITS (the default),
    [si = false] is PXRMP_WITH_NORMALIZED_UNITS. *)
Record Units := {
  u_si : bool;
  u_c : num N;
  u_emass : num N;
  u_schwinger : num N;
  u_pair_prod_coeff : num N;
  u_qs_rate_coeff : num N;
  u_schwinger_coeff : num N }.

Definition units (si : bool) : Units :=
  if si then {|
    u_si := true;
    u_c := light_speed;
    u_emass := electron_mass;
    u_schwinger := schwinger_field;
    u_pair_prod_coeff := pair_prod_rate_coeff * electron_mass * light_speed * light_speed;
    u_qs_rate_coeff := quantum_synchrotron_rate_coeff * electron_mass * light_speed * light_speed;
    u_schwinger_coeff := schwinger_pair_prod_coeff |}
  else {|
    u_si := false;
    u_c := n_lit 1 0;
    u_emass := n_lit 1 0;
    u_schwinger := electron_mass * light_speed / (reduced_plank * n_lit 2 0 * c_pi);
    u_pair_prod_coeff := pair_prod_rate_coeff / (n_lit 2 0 * c_pi * light_speed);
    u_qs_rate_coeff := quantum_synchrotron_rate_coeff / (n_lit 2 0 * c_pi * light_speed);
    u_schwinger_coeff := schwinger_pair_prod_coeff /
      (n_lit 16 0 * c_pi * c_pi * c_pi * c_pi * light_speed) |}.

(** "#ifdef PXRMP_WITH_SI_UNITS  lambda = 1.0": the guard repeated in
    chi_functions.hpp:61-63, 96-98, breit_wheeler_engine.hpp:322-324, 383-385,
    548-550, quantum_sync_engine.hpp:370-372, 433-435, 507-509,
    schwinger_pair_engine.hpp:160-162, 245-247, 302-304, 360-362. *)
Definition si_lambda (U : Units) (lambda : num N) : num N :=
  if u_si U then n_lit 1 0 else lambda.

(** qed_commons.h:171-227: default parameters *)
Definition erber_a : num N := n_lit 16 (-2).
Definition erber_b : num N := n_lit 4 0 / n_lit 3 0.

End Consts.
Arguments Units : clear implicits.
