(** swap_particles: what it does. *)
From Coq Require Import ZArith List Bool Lia.
From Verif Require Import Cxx Num CxxLemmas LookupTables VecFun TestProgram SpecSpecies SpeciesProofs.
Import ListNotations.
Local Open Scope Z_scope.

Lemma zget_none {A} (l : list A) i : (forall k, i = Z.of_nat k -> (k < length l)%nat -> False) -> zget l i = UB.
Proof.
  intros H. destruct (zget l i) as [a| | |] eqn:E; auto.
  - apply zget_inv in E as (k & -> & E). exfalso. apply (H k eq_refl). apply nth_error_Some. congruence.
  - exfalso. unfold zget in E. repeat (destruct (_ : bool) in E; try discriminate); destruct (nth_error _ _); discriminate.
  - exfalso. unfold zget in E. repeat (destruct (_ : bool) in E; try discriminate); destruct (nth_error _ _); discriminate.
Qed.
Lemma swap_at_ok {A} (l : list A) i j a b : nth_error l i = Some a -> nth_error l j = Some b ->
  swap_at l (Z.of_nat i) (Z.of_nat j) = Ret (lset (lset l i b) j a).
Proof.
  intros Ha Hb. unfold swap_at.
  assert (Li : (i < length l)%nat) by (apply nth_error_Some; congruence).
  assert (Lj : (j < length l)%nat) by (apply nth_error_Some; congruence).
  pose proof (zget_map (fun x => x) l (Z.of_nat i) i a Ha eq_refl) as E1. rewrite map_id in E1. rewrite E1. cbn [bind].
  pose proof (zget_map (fun x => x) l (Z.of_nat j) j b Hb eq_refl) as E2. rewrite map_id in E2. rewrite E2. cbn [bind].
  pose proof (zset_map (fun x => x) l (Z.of_nat i) i a b Ha eq_refl) as E3. rewrite !map_id in E3. rewrite E3. cbn [bind].
  destruct (nth_error (lset l i b) j) as [c|] eqn:Ec.
  - pose proof (zset_map (fun x => x) (lset l i b) (Z.of_nat j) j c a Ec eq_refl) as E4. rewrite !map_id in E4. exact E4.
  - apply nth_error_None in Ec. rewrite lset_length in Ec. lia.
Qed.
Lemma swap_at_ub {A} (l : list A) i j :
  (forall a b, i = Z.of_nat a -> j = Z.of_nat b -> (a < length l)%nat -> (b < length l)%nat -> False) -> swap_at l i j = UB.
Proof.
  intros H. unfold swap_at. destruct (zget l i) as [a| | |] eqn:E1; try reflexivity.
  - cbn [bind]. apply zget_inv in E1 as (k & -> & E1). rewrite zget_none; [reflexivity|].
    intros k' -> L. apply (H k k' eq_refl eq_refl); [apply nth_error_Some; congruence|exact L].
  - exfalso. unfold zget in E1. repeat (destruct (_ : bool) in E1; try discriminate); destruct (nth_error _ _); discriminate.
  - exfalso. unfold zget in E1. repeat (destruct (_ : bool) in E1; try discriminate); destruct (nth_error _ _); discriminate.
Qed.

Section Swap.
Context {N : NumOps} {W : Type}.

Lemma swap_rows f (ps : list (part N)) i j : (i < 3)%nat -> (j < 3)%nat ->
  swap_at (rows3 f ps) (Z.of_nat i) (Z.of_nat j) =
  Ret [map (fun p => comp (f p) (transp i j 0)) ps; map (fun p => comp (f p) (transp i j 1)) ps; map (fun p => comp (f p) (transp i j 2)) ps].
Proof.
  intros Hi Hj. destruct i as [|[|[|i]]]; try lia; destruct j as [|[|[|j]]]; try lia; reflexivity.
Qed.

(** a list with another one's optical depths and flags *)
Definition mix (i j : nat) (ps qs : list (part N)) : list (part N) :=
  map (fun '(p, q) => mkP (exch i j (q_x p)) (exch i j (q_p p)) (q_e p) (q_b p) (q_opt q) (q_flag q)) (combine ps qs).
Lemma map_fst_combine {A B C} (f : A -> C) (l : list A) (l' : list B) : length l = length l' -> map (fun ab => f (fst ab)) (combine l l') = map f l.
Proof. revert l'. induction l as [|a l IH]; intros [|b l'] L; try discriminate; cbn; auto. rewrite IH by (cbn in L; lia). reflexivity. Qed.
Lemma map_snd_combine {A B C} (f : B -> C) (l : list A) (l' : list B) : length l = length l' -> map (fun ab => f (snd ab)) (combine l l') = map f l'.
Proof. revert l'. induction l as [|a l IH]; intros [|b l'] L; try discriminate; cbn; auto. rewrite IH by (cbn in L; lia). reflexivity. Qed.
Lemma nth_lset {A} (l : list A) n a k : nth_error (lset l n a) k = if Nat.eqb k n then (if Nat.ltb n (length l) then Some a else None) else nth_error l k.
Proof.
  revert n k. induction l as [|b l IH]; intros [|n] [|k]; cbn; auto.
  - now destruct (Nat.eqb k n).
  - rewrite IH. destruct (Nat.eqb k n); auto.
Qed.
Lemma nth_combine {A B} (l : list A) (l' : list B) k a b : nth_error l k = Some a -> nth_error l' k = Some b -> nth_error (combine l l') k = Some (a, b).
Proof. revert l' k. induction l as [|x l IH]; intros [|y l'] [|k]; cbn; try discriminate; [congruence|auto]. Qed.

Lemma swap_spec (s : species N W) ps i j : s_data s = data_of ps -> (i < 3)%nat -> (j < 3)%nat -> (i < length ps)%nat -> (j < length ps)%nat ->
  exists qs, swap_particles (Z.of_nat i) (Z.of_nat j) s = Done (with_data s (data_of qs)) /\ length qs = length ps /\
    forall k p q, nth_error ps k = Some p -> nth_error ps (transp i j k) = Some q ->
      nth_error qs k = Some (mkP (exch i j (q_x p)) (exch i j (q_p p)) (q_e p) (q_b p) (q_opt q) (q_flag q)).
Proof.
  intros Hs Hi Hj Li Lj.
  destruct (nth_error ps i) as [a|] eqn:Ha; [|apply nth_error_None in Ha; lia].
  destruct (nth_error ps j) as [b|] eqn:Hb; [|apply nth_error_None in Hb; lia].
  set (sw := lset (lset ps i b) j a). assert (Lsw : length ps = length sw) by (unfold sw; now rewrite !lset_length).
  exists (mix i j ps sw). split; [|split].
  - unfold swap_particles, on_data, swap_particles_data. rewrite Hs.
    assert (E1 : times 3 (fun '(p, m) => do p' <- swap_at p (Z.of_nat i) (Z.of_nat j); do m' <- swap_at m (Z.of_nat i) (Z.of_nat j); Ret (p', m'))
                   (d_pos (data_of ps), d_mom (data_of ps)) = Ret (rows3 q_x (mix i j ps sw), rows3 q_p (mix i j ps sw))).
    { assert (R : forall f, (forall p q, f (mkP (exch i j (q_x p)) (exch i j (q_p p)) (q_e p) (q_b p) (q_opt q) (q_flag q)) = exch i j (f p)) ->
                  rows3 f (mix i j ps sw) = [map (fun p => comp (f p) (transp i j 0)) ps; map (fun p => comp (f p) (transp i j 1)) ps; map (fun p => comp (f p) (transp i j 2)) ps]).
      { intros f Hf. unfold rows3, mix. rewrite !map_map.
        rewrite <- (map_fst_combine (fun p => comp (f p) (transp i j 0)) ps sw Lsw), <- (map_fst_combine (fun p => comp (f p) (transp i j 1)) ps sw Lsw), <- (map_fst_combine (fun p => comp (f p) (transp i j 2)) ps sw Lsw).
        f_equal; [|f_equal; [|f_equal]]; apply map_ext; intros [p q]; now rewrite Hf. }
      rewrite !R by reflexivity. clear R.
      cbn [data_of d_pos d_mom]. destruct i as [|[|[|i]]]; try lia; destruct j as [|[|[|j]]]; try lia; reflexivity. }
    rewrite E1. cbn [bind].
    assert (E2 : times 6 (fun f => swap_at f (Z.of_nat i) (Z.of_nat j)) (d_fld (data_of ps)) = Ret (d_fld (data_of (mix i j ps sw)))).
    { assert (R : forall f, (forall p q, f (mkP (exch i j (q_x p)) (exch i j (q_p p)) (q_e p) (q_b p) (q_opt q) (q_flag q)) = f p) ->
                  rows3 f (mix i j ps sw) = rows3 f ps).
      { intros f Hf. unfold rows3, mix. rewrite !map_map.
        rewrite <- (map_fst_combine (fun p => vx (f p)) ps sw Lsw), <- (map_fst_combine (fun p => vy (f p)) ps sw Lsw), <- (map_fst_combine (fun p => vz (f p)) ps sw Lsw).
        f_equal; [|f_equal; [|f_equal]]; apply map_ext; intros [p q]; now rewrite Hf. }
      cbn [data_of d_fld]. rewrite !R by reflexivity. clear R.
      destruct i as [|[|[|i]]]; try lia; destruct j as [|[|[|j]]]; try lia; reflexivity. }
    rewrite E2. cbn [bind].
    assert (EO : swap_at (d_opt (data_of ps)) (Z.of_nat i) (Z.of_nat j) = Ret (map q_opt (mix i j ps sw))).
    { cbn [data_of d_opt]. rewrite (swap_at_ok _ i j (q_opt a) (q_opt b)) by (rewrite nth_error_map; now rewrite ?Ha, ?Hb).
      rewrite <- !map_lset. fold sw. unfold mix. rewrite map_map, <- (map_snd_combine q_opt ps sw Lsw). f_equal. apply map_ext. now intros []. }
    rewrite EO. cbn [bind].
    assert (EF : swap_at (d_flag (data_of ps)) (Z.of_nat i) (Z.of_nat j) = Ret (map q_flag (mix i j ps sw))).
    { cbn [data_of d_flag]. rewrite (swap_at_ok _ i j (q_flag a) (q_flag b)) by (rewrite nth_error_map; now rewrite ?Ha, ?Hb).
      rewrite <- !map_lset. fold sw. unfold mix. rewrite map_map, <- (map_snd_combine q_flag ps sw Lsw). f_equal. apply map_ext. now intros []. }
    rewrite EF. reflexivity.
  - unfold mix. rewrite map_length, combine_length. lia.
  - intros k p q Hp Hq. unfold mix. rewrite nth_error_map, (nth_combine ps sw k p q); [reflexivity|exact Hp|].
    unfold sw. rewrite !nth_lset, lset_length. unfold transp in Hq.
    destruct (Nat.eqb_spec k j) as [->|Kj]; [|destruct (Nat.eqb_spec k i) as [->|Ki]].
    + destruct (Nat.eqb_spec j i) as [->|]; rewrite (proj2 (Nat.ltb_lt _ _)) by lia; congruence.
    + rewrite (proj2 (Nat.ltb_lt _ _)) by lia; congruence.
    + congruence.
Qed.

Lemma swap_ub (s : species N W) ps i j : s_data s = data_of ps ->
  ~ (0 <= i < 3 /\ 0 <= j < 3 /\ i < Z.of_nat (length ps) /\ j < Z.of_nat (length ps)) -> swap_particles i j s = Undef.
Proof.
  intros Hs H. unfold swap_particles, on_data, swap_particles_data. rewrite Hs.
  assert (D : (0 <= i < 3 /\ 0 <= j < 3) \/ ~ (0 <= i < 3 /\ 0 <= j < 3)) by lia. destruct D as [[Hi Hj]|D].
  - destruct (Z_of_nat_complete i) as [a ->]; [lia|]. destruct (Z_of_nat_complete j) as [b ->]; [lia|].
    assert (EO : swap_at (d_opt (data_of ps)) (Z.of_nat a) (Z.of_nat b) = UB).
    { apply swap_at_ub. cbn [data_of d_opt]. rewrite map_length. intros x y Hx Hy. lia. }
    rewrite EO. destruct a as [|[|[|a]]]; try lia; destruct b as [|[|[|b]]]; try lia; reflexivity.
  - cbn [times]. rewrite (swap_at_ub (d_pos (data_of ps))); [reflexivity|]. cbn. intros a b -> ->. lia.
Qed.
End Swap.
