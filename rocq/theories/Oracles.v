(** External components the QED library calls, as parameters of the model:
    Boost quadrature, Bessel functions and root finder
    (src/multi_physics/QED/src/quadrature.hpp, special_functions.hpp,
    utilities.hpp:190-207) and the Mersenne twister behind rng_wrapper.hpp. *)
From Coq Require Import ZArith List.
From Verif Require Import Cxx Num.
Import ListNotations.

Record Oracles (N : NumOps) := {
  (** quad_a_b(f, a, b) *)
  o_quad_a_b : (num N -> num N) -> num N -> num N -> num N;
  (** quad_a_inf(f, a) *)
  o_quad_a_inf : (num N -> num N) -> num N -> num N;
  (** k_v(v, x), modified Bessel function of the second kind *)
  o_k_v : num N -> num N -> num N;
  (** bracket_and_solve_root(f, guess, rising) *)
  o_root : (num N -> num N) -> num N -> bool -> num N }.
Arguments o_quad_a_b {_}. Arguments o_quad_a_inf {_}.
Arguments o_k_v {_}. Arguments o_root {_}.

(** The random number wrapper (rng_wrapper.hpp:18-97): a state, a seeding
    function and two draws, each of which returns the new state. *)
Record Rng (N : NumOps) := {
  rng_state : Type;
  rng_seed : Z -> rng_state;
  rng_unf : rng_state -> num N -> num N -> num N * rng_state;
  rng_exp : rng_state -> num N -> num N * rng_state }.
Arguments rng_state {_}. Arguments rng_seed {_}.
Arguments rng_unf {_}. Arguments rng_exp {_}.

(** [for(auto& el: v) el = rng.unf(zero, one)]: breit_wheeler_engine.hpp:797-798,
    quantum_sync_engine.hpp:767-768, schwinger_pair_engine.hpp:327-328. *)
Fixpoint draw_unf {N} (G : Rng N) (n : nat) (s : rng_state G) : list (num N) * rng_state G :=
  match n with
  | O => ([], s)
  | S k =>
      let '(u, s1) := rng_unf G s n_zero n_one in
      let '(us, s2) := draw_unf G k s1 in
      (u :: us, s2)
  end.
