(** Termination of [poisson_distrib] in IEEE arithmetic of any format, whatever
    the library exponential returns. *)
From Coq Require Import ZArith Reals List Bool Lia Lra.
From Flocq Require Import Core BinarySingleNaN.
From Verif Require Import Cxx Num NumIEEE Utilities.
Local Open Scope Z_scope.

Section T.
Variables (prec emax : Z).
Context (Hp : Prec_gt_0 prec) (He : Prec_lt_emax prec emax).
Notation bf := (binary_float prec emax).
Notation emn := (SpecFloat.emin prec emax).

(** position of a number in the order of the format *)
Definition rank_bound : Z := 2 ^ (emax - emn).
Definition rank (x : bf) : Z :=
  match x with
  | B754_nan => 0
  | B754_zero _ => 0
  | B754_infinity s => cond_Zopp s rank_bound
  | B754_finite s m e _ => cond_Zopp s (Zpos m * 2 ^ (e - emn))
  end.

Lemma emin_le_emax : emn <= emax.
Proof. unfold SpecFloat.emin. unfold Prec_gt_0, Prec_lt_emax in *. lia. Qed.

Lemma finite_exp m e : SpecFloat.bounded prec emax m e = true -> emn <= e.
Proof.
  intros H. apply andb_prop in H. destruct H as [H _].
  unfold SpecFloat.canonical_mantissa, SpecFloat.fexp in H. apply Zeq_bool_eq in H. lia.
Qed.

Lemma rank_B2R (x : bf) : is_finite x = true -> B2R x = (IZR (rank x) * bpow radix2 emn)%R.
Proof.
  destruct x as [s|s| |s m e H]; try discriminate; intros _; cbn [B2R rank].
  - now rewrite Rmult_0_l.
  - unfold F2R. cbn [Fnum Fexp]. pose proof (finite_exp m e H).
    replace (bpow radix2 e) with (IZR (2 ^ (e - emn)) * bpow radix2 emn)%R.
    + rewrite <- Rmult_assoc, <- mult_IZR. do 2 f_equal. destruct s; cbn [cond_Zopp]; lia.
    + change (2 ^ (e - emn))%Z with (Zpower radix2 (e - emn)). rewrite IZR_Zpower by lia.
      rewrite <- bpow_plus. f_equal. lia.
Qed.

Lemma rank_finite_bound (x : bf) : is_finite x = true -> - rank_bound < rank x < rank_bound.
Proof.
  intros Hf. pose proof (abs_B2R_lt_emax prec emax x) as Hb.
  rewrite (rank_B2R x Hf), Rabs_mult in Hb.
  rewrite (Rabs_pos_eq (bpow radix2 emn)) in Hb by apply bpow_ge_0.
  replace (bpow radix2 emax) with (IZR rank_bound * bpow radix2 emn)%R in Hb.
  - apply Rmult_lt_reg_r in Hb; [|apply bpow_gt_0]. rewrite <- abs_IZR in Hb. apply lt_IZR in Hb. lia.
  - unfold rank_bound. change (2 ^ (emax - emn))%Z with (Zpower radix2 (emax - emn)).
    pose proof emin_le_emax. rewrite IZR_Zpower by lia. rewrite <- bpow_plus. f_equal. lia.
Qed.

Lemma rank_bound_pos : 0 < rank_bound.
Proof. unfold rank_bound. apply Z.pow_pos_nonneg; [lia|]. pose proof emin_le_emax. lia. Qed.

Lemma rank_range (x : bf) : - rank_bound <= rank x <= rank_bound.
Proof.
  pose proof rank_bound_pos. destruct (is_finite x) eqn:E.
  - pose proof (rank_finite_bound x E). lia.
  - destruct x as [s|[]| |s m e Hm]; try discriminate; cbn; lia.
Qed.

(** not (b <= a), both numbers: strictly higher rank *)
Lemma not_le_rank (a b : bf) : is_nan a = false -> is_nan b = false -> Bleb b a = false -> rank a < rank b.
Proof.
  intros Na Nb H. pose proof rank_bound_pos.
  destruct (is_finite a) eqn:Fa; destruct (is_finite b) eqn:Fb.
  - rewrite (Bleb_correct prec emax b a Fb Fa) in H.
    destruct (Rle_bool_spec (B2R b) (B2R a)) as [|Hlt]; [discriminate|].
    rewrite (rank_B2R a Fa), (rank_B2R b Fb) in Hlt.
    apply Rmult_lt_reg_r in Hlt; [|apply bpow_gt_0]. now apply lt_IZR.
  - pose proof (rank_finite_bound a Fa).
    destruct b as [s|[]| |s m e Hm]; try discriminate; cbn in *; [|lia].
    destruct a as [s|[]| |s m e Hm]; try discriminate.
  - pose proof (rank_finite_bound b Fb).
    destruct a as [s|[]| |s m e Hm]; try discriminate; cbn in *; [lia|].
    destruct b as [s|[]| |s m e Hm]; try discriminate.
  - destruct a as [s|[]| |s m e Hm]; try discriminate; destruct b as [s'|[]| |s' m' e' Hm']; try discriminate; cbn; lia.
Qed.

Lemma Bltb_not_nan (a b : bf) : Bltb a b = true -> is_nan a = false /\ is_nan b = false.
Proof. destruct a as [s|[]| |[] m e Hm]; destruct b as [s'|[]| |[] m' e' Hm']; cbn; intros H; auto; discriminate. Qed.

Lemma poisson_loop_total (lm : Libm bf) (lambda u : bf) : forall n fuel k p s,
  rank_bound - rank s < Z.of_nat n -> (n < fuel)%nat ->
  exists r, @poisson_loop (IEEE prec emax Hp He lm) fuel lambda u k p s = Ret r /\ k <= r.
Proof.
  induction n as [|n IH]; intros fuel k p s Hn Hf.
  - pose proof (rank_range s). lia.
  - destruct fuel as [|fuel]; [lia|]. cbn [poisson_loop].
    destruct (n_lt (s : num (IEEE prec emax Hp He lm)) u) eqn:E; [|exists k; split; [reflexivity|lia]].
    cbn zeta. set (p' := n_div _ _). set (s' := @n_add (IEEE prec emax Hp He lm) s p').
    destruct (n_le s' s) eqn:E2; [exists (k + 1); split; [reflexivity|lia]|].
    cbn [n_lt n_le IEEE] in E, E2. destruct (Bltb_not_nan _ _ E) as [Ns _].
    destruct (is_nan s') eqn:Ns'.
    + destruct fuel as [|fuel]; [lia|]. cbn [poisson_loop].
      assert (E3 : n_lt (s' : num (IEEE prec emax Hp He lm)) u = false).
      { cbn [n_lt IEEE]. destruct (Bltb s' u) eqn:E4; [|reflexivity].
        destruct (Bltb_not_nan _ _ E4). congruence. }
      rewrite E3. exists (k + 1). split; [reflexivity|lia].
    + pose proof (not_le_rank s s' Ns Ns' E2).
      destruct (IH fuel (k + 1) p' s') as (r & Hr & Hk); [lia|lia|].
      exists r. split; [exact Hr|lia].
Qed.

Lemma poisson_total (lm : Libm bf) (lambda u : bf) :
  exists fuel0, forall fuel, (fuel0 <= fuel)%nat ->
    exists r, @poisson_distrib (IEEE prec emax Hp He lm) fuel lambda u = Ret r /\ 0 <= r.
Proof.
  exists (S (Z.to_nat (2 * rank_bound + 1))). intros fuel Hf. unfold poisson_distrib.
  apply poisson_loop_total with (n := Z.to_nat (2 * rank_bound + 1)); [|lia].
  match goal with |- _ - rank ?x < _ => pose proof (rank_range x) end. pose proof rank_bound_pos. lia.
Qed.
End T.

(** When exp(-lambda) underflows the sampler stops after one step. *)
Lemma poisson_underflow (lm : Libm b64) :
  lm_exp lm (@n_opp (B64 lm) (n_lit 1000 0)) = @n_lit (B64 lm) 0 0 ->
  @poisson_distrib (B64 lm) 2 (n_lit 1000 0) (n_lit 5 (-1)) = Ret 1.
Proof.
  intros H. unfold poisson_distrib.
  change (@n_exp (B64 lm)) with (lm_exp lm). rewrite H. vm_compute. reflexivity.
Qed.
