(** C116 and C117: the deposition of the charge on tiles. *)
From Coq Require Import ZArith Reals List Bool Lia Lra.
From Verif Require Import Cxx Num NumRX Fortran FortranNum Grid GridLemmas Pushers Deposit Tiles DepositTiles SpecTiles SpecDeposit SpecDepositTiles DepositTilesProofs DepositTilesReal DepositTilesExamples.
Import ListNotations.
Local Open Scope R_scope.

(** ** C116: with one thread the tiles cannot be seen in the result *)
Theorem C116_tiles_invisible : forall x y z f ss n rho r out,
  sensible x -> sensible y -> sensible z -> 0 < p_d x -> 0 < p_d y -> 0 < p_d z ->
  routine_for (orders_of x y z) f -> in_tiles x y z ss ->
  real_grid rho (first_node x y z) (last_node x y z) r ->
  (n <= 1)%Z \/ one_cut x y z ->
  tile_deposition n f x y z ss rho out ->
  exists rho', out = Ret rho' /\ real_grid rho' (first_node x y z) (last_node x y z) (fun p => r p + all_density x y z ss p).
Proof. intros x y z f ss n rho r out Hx Hy Hz Dx Dy Dz Hf Hs Hr Hn. exact (depose_real x y z Hx Hy Hz Dx Dy Dz f Hf ss Hs n rho r out Hr Hn). Qed.
Print Assumptions C116_tiles_invisible.

Theorem C116_possible : forall x y z f ss n rho r,
  sensible x -> sensible y -> sensible z -> 0 < p_d x -> 0 < p_d y -> 0 < p_d z ->
  routine_for (orders_of x y z) f -> in_tiles x y z ss ->
  real_grid rho (first_node x y z) (last_node x y z) r -> (1 <= n)%Z ->
  exists rho', tile_deposition n f x y z ss rho (Ret rho').
Proof. intros x y z f ss n rho r Hx Hy Hz Dx Dy Dz Hf Hs Hr Hn. exact (depose_exists x y z Hx Hy Hz Dx Dy Dz f Hf ss Hs n rho r Hn Hr). Qed.
Print Assumptions C116_possible.

(** no charge is lost at the borders of the tiles and of the process *)
Theorem C116_total_charge : forall x y z f ss n rho r out rho' r',
  sensible x -> sensible y -> sensible z -> 0 < p_d x -> 0 < p_d y -> 0 < p_d z ->
  routine_for (orders_of x y z) f -> in_tiles x y z ss ->
  real_grid rho (first_node x y z) (last_node x y z) r ->
  (n <= 1)%Z \/ one_cut x y z ->
  tile_deposition n f x y z ss rho out -> out = Ret rho' -> real_grid rho' (first_node x y z) (last_node x y z) r' ->
  let v := p_d x * p_d y * p_d z in
  v * sum_box (first_node x y z) (last_node x y z) r' =
  v * sum_box (first_node x y z) (last_node x y z) r +
  sumR (map (fun s => rs_q s * sumR (map rw (flat_map (rs_parts s) (tiles_of x y z)))) (filter rs_depos ss)).
Proof. exact deposited_total. Qed.
Print Assumptions C116_total_charge.

(** four tiles, two of them with a particle, one thread; two tiles along x, two threads *)
Example C116_case : (exists rho', tile_deposition 1 linear ax8 ax8 ax4 two_tiles (zero_rho ax8 ax8 ax4) (Ret rho')) /\
  (exists rho', tile_deposition 2 linear ax8 ax81 ax4 along_x (zero_rho ax8 ax81 ax4) (Ret rho')) /\
  one_cut ax8 ax81 ax4 /\ cut ax8 = 2%Z.
Proof.
  split; [|split; [|split; [exact along_cut|reflexivity]]].
  - apply (C116_possible ax8 ax8 ax4 linear two_tiles 1 _ (fun _ => 0)); try exact sens8; try exact sens4; try (cbn; lra); [apply linear_for; reflexivity|exact in_two|apply zero_rho_real|lia].
  - apply (C116_possible ax8 ax81 ax4 linear along_x 2 _ (fun _ => 0)); try exact sens8; try exact sens81; try exact sens4; try (cbn; lra); [apply linear_for; reflexivity|exact in_along|apply zero_rho_real|lia].
Qed.

(** ** C117: with more than one thread *)
(** C116 does not hold without its condition on the threads: charge can be lost *)
Theorem C117_threads_refuted : exists x y z f ss rho r rho',
  sensible x /\ sensible y /\ sensible z /\ 0 < p_d x /\ 0 < p_d y /\ 0 < p_d z /\
  routine_for (orders_of x y z) f /\ in_tiles x y z ss /\
  real_grid rho (first_node x y z) (last_node x y z) r /\
  tile_deposition 2 f x y z ss rho (Ret rho') /\
  ~ real_grid rho' (first_node x y z) (last_node x y z) (fun p => r p + all_density x y z ss p).
Proof. exact race_case. Qed.
Print Assumptions C117_threads_refuted.

(** whenever a node is beside a tile that has particles, all that other tiles add to this node from their x-sides can be lost *)
Theorem C117_lost : forall x y z f ss n rho r q p,
  sensible x -> sensible y -> sensible z -> 0 < p_d x -> 0 < p_d y -> 0 < p_d z ->
  routine_for (orders_of x y z) f -> in_tiles x y z ss ->
  real_grid rho (first_node x y z) (last_node x y z) r -> (2 <= n)%Z ->
  In q (tiles_of x y z) -> busy ss q -> beside (mesh_of (fin_axis x) (fin_axis y) (fin_axis z) q) p = true ->
  exists rho', tile_deposition n f x y z ss rho (Ret rho') /\
    real_grid rho' (first_node x y z) (last_node x y z)
      (fun p' => r p' + all_density x y z ss p' - (if idx_eqb p p' then neighbours_charge x y z ss q p else 0)).
Proof. intros x y z f ss n rho r q p Hx Hy Hz Dx Dy Dz Hf Hs Hr Hn. exact (depose_lost x y z Hx Hy Hz Dx Dy Dz f Hf ss Hs n rho r q p Hn Hr). Qed.
Print Assumptions C117_lost.
Example C117_lost_case : In (1, 1, 1)%Z (tiles_of ax8 ax8 ax4) /\ busy two_tiles (1, 1, 1)%Z /\
  beside (mesh_of (fin_axis ax8) (fin_axis ax8) (fin_axis ax4) (1, 1, 1)%Z) (4, 3, 1)%Z = true /\
  neighbours_charge ax8 ax8 ax4 two_tiles (1, 1, 1)%Z (4, 3, 1)%Z = 1 / 16.
Proof. exact (conj in_11 (conj busy_11 (conj beside_11 lost_value))). Qed.

(** cut along x only, in tiles that are wide enough: in any arithmetic the result does not depend on
    the number of threads or on the schedule *)
Theorem C117_deterministic : forall (N : FNum) (x y z : paxis (num N)) f d ss n n' (rho : grid (num N)) r r',
  sensible x -> sensible y -> sensible z -> routine_for (orders_of x y z) f ->
  glo rho = first_node x y z -> ghi rho = last_node x y z -> one_cut x y z ->
  depose_outcome n f d (mesh_of x y z) (tiles_of x y z) ss rho r ->
  depose_outcome n' f d (mesh_of x y z) (tiles_of x y z) ss rho r' ->
  (r = UB /\ r' = UB) \/ exists a b, r = Ret a /\ r' = Ret b /\ same_grid a b.
Proof. intros N x y z f d ss n n' rho r r' Hx Hy Hz Hf. exact (depose_unique x y z Hx Hy Hz (orders_of x y z) f d ss n n' rho r r' Hf). Qed.
Print Assumptions C117_deterministic.
