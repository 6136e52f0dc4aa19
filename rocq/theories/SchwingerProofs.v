(** Proofs about the Schwinger engine. *)
From Coq Require Import ZArith Reals List Bool Lia Lra.
From Verif Require Import Cxx Num NumRX Utilities VecFun Units Oracles Schwinger.
From Verif Require Import CxxLemmas RXLemmas Spec SpecPhys SpecQED SpecSchwinger UtilitiesProofs ChiProofs PairProofs.
Import ListNotations.
Local Open Scope R_scope.

Ltac phpos := repeat (first [apply Rmult_lt_0_compat | apply Rdiv_lt_0_compat | apply Rinv_0_lt_compat
  | apply ph_pi_pos | apply ph_m_pos | apply ph_e_pos | apply ph_c_pos | apply ph_hbar_pos
  | apply ph_eps0_pos | apply ph_alpha_pos | apply ph_Es_pos | lra]).

Lemma parallel_frame_unique c Es E B a b a' b' : 0 < Es -> parallel_frame c Es E B a b -> parallel_frame c Es E B a' b' -> a = a' /\ b = b'.
Proof.
  intros HE (A & Bp & H1 & H2) (A' & Bp' & H1' & H2'). assert (0 < Es * Es) by nra.
  assert (D : a * a - b * b = a' * a' - b' * b') by (apply Rmult_eq_reg_r with (Es * Es); lra).
  assert (P : a * b = a' * b') by (apply Rmult_eq_reg_r with (Es * Es); lra).
  assert (S : a * a + b * b = a' * a' + b' * b').
  { assert (Hs : (a * a + b * b) * (a * a + b * b) = (a' * a' + b' * b') * (a' * a' + b' * b')).
    { replace ((a * a + b * b) * (a * a + b * b)) with ((a * a - b * b) * (a * a - b * b) + 4 * ((a * b) * (a * b))) by ring.
      rewrite D, P. ring. }
    apply Rsqr_inj; unfold Rsqr; nra. }
  split; apply Rsqr_inj; unfold Rsqr; lra.
Qed.

Lemma parallel_frame_exists c Es E B : 0 < Es -> exists a b, parallel_frame c Es E B a b.
Proof.
  intros HE. assert (HE2 : 0 < Es * Es) by nra.
  set (F := inv1 c E B / (2 * (Es * Es))). set (G := inv2 c E B / (Es * Es)). set (i := sqrt (F * F + G * G)).
  assert (Hi : i * i = F * F + G * G) by (apply sqrt_sqrt; nra). assert (Hi0 : 0 <= i) by apply sqrt_pos.
  assert (HF : Rabs F <= i) by (rewrite <- sqrt_Rsqr_abs; apply sqrt_le_1; unfold Rsqr; nra).
  assert (HF' : - i <= F <= i) by (revert HF; unfold Rabs; destruct (Rcase_abs F); lra). clear HF; rename HF' into HF.
  exists (sqrt (i + F)), (sqrt (i - F)). split; [apply sqrt_pos|]. split; [apply sqrt_pos|].
  rewrite !sqrt_sqrt by lra. split; [unfold F; field; lra|]. rewrite <- sqrt_mult by lra.
  replace ((i + F) * (i - F)) with (Rsqr G) by (unfold Rsqr; nra). rewrite sqrt_Rsqr_abs.
  rewrite <- (Rabs_pos_eq (Es * Es)) by lra. rewrite <- Rabs_mult. f_equal. unfold G. field. lra.
Qed.

Lemma parallel_frame_formula c Es E B a b : 0 < Es -> parallel_frame c Es E B a b ->
  let F := inv1 c E B / (2 * Es * Es) in let G := inv2 c E B / Es / Es in let i := sqrt (F * F + G * G) in
  0 <= i + F /\ 0 <= i - F /\ sqrt (i + F) = a /\ sqrt (i - F) = b.
Proof.
  intros HE (A & Bp & H1 & H2). cbn zeta. assert (HE2 : 0 < Es * Es) by nra.
  assert (EF : inv1 c E B / (2 * Es * Es) = (a * a - b * b) / 2) by (rewrite <- H1; field; lra).
  assert (EG : inv2 c E B / Es / Es * (inv2 c E B / Es / Es) = (a * b) * (a * b)).
  { assert (inv2 c E B * inv2 c E B = (a * b * (Es * Es)) * (a * b * (Es * Es))).
    { rewrite H2. rewrite <- Rabs_mult. rewrite Rabs_pos_eq; [reflexivity|apply Rle_0_sqr]. }
    replace (inv2 c E B / Es / Es * (inv2 c E B / Es / Es)) with (inv2 c E B * inv2 c E B / (Es * Es) / (Es * Es)) by (field; lra).
    rewrite H. field. lra. }
  rewrite EF, EG. replace ((a * a - b * b) / 2 * ((a * a - b * b) / 2) + a * b * (a * b)) with (((a * a + b * b) / 2) * ((a * a + b * b) / 2)) by field.
  rewrite sqrt_square by nra. replace ((a * a + b * b) / 2 + (a * a - b * b) / 2) with (a * a) by field.
  replace ((a * a + b * b) / 2 - (a * a - b * b) / 2) with (b * b) by field. rewrite !sqrt_square by assumption. repeat split; nra.
Qed.

Lemma ph_pi_gt : 0 < ph_pi. Proof. apply ph_pi_pos. Qed.

Lemma tanh_pos x : 0 < x -> 0 < tanh x.
Proof.
  intros Hx. unfold tanh, sinh, cosh. pose proof (exp_pos x). pose proof (exp_pos (- x)).
  pose proof (exp_increasing (- x) x ltac:(lra)). apply Rmult_lt_0_compat; [lra|]. apply Rinv_0_lt_compat. lra.
Qed.

Lemma nu_sw_pos si : 0 < nu_sw si.
Proof. unfold nu_sw. destruct si; phpos. Qed.

Section V.
Variable tg : R -> R.
Notation N := (RX tg).

Lemma u_sw_val si : u_schwinger_coeff (units (N := N) si) = Fin (nu_sw si).
Proof.
  assert (E : @schwinger_pair_prod_coeff N = Fin (nu_sw true)).
  { unfold schwinger_pair_prod_coeff. rewrite (m_Es tg), (m_ec tg), (m_pi tg), (m_hbar tg), (m_c tg), !(flit tg). rewrite !(fmul tg).
    rewrite (fdiv tg) by phpos. reflexivity. }
  destruct si; [exact E|]. cbn [units u_schwinger_coeff]. rewrite E, (m_pi tg), (m_c tg), (flit tg), !(fmul tg).
  rewrite (fdiv tg) by phpos. reflexivity.
Qed.

Lemma tanh_div x y : 0 < y -> @n_div N (Fin x) (@n_tanh N (Fin y)) = Fin (x / tanh y).
Proof. intros Hy. cbn [n_tanh RX x_tanh]. pose proof (tanh_pos y Hy). now apply fdiv. Qed.

Lemma sw_rate_formula si E B lam a b : parallel_frame (nu_c si) (nu_Es si) E B a b ->
  sw_rate (units si) (F3 tg E) (F3 tg B) (Fin lam) = Fin (nu_sw si * nu_lambda si lam ^ 4 * pair_density a b).
Proof.
  intros Hab. pose proof (nu_Es_pos si) as HE. pose proof (nu_c_pos si) as Hc.
  destruct (parallel_frame_formula _ _ E B a b HE Hab) as (P1 & P2 & E1 & E2). cbn zeta in *. destruct Hab as (A & Bp & _ & _).
  unfold sw_rate. cbn zeta. rewrite si_lambda_val, u_c_val, u_Es_val, u_sw_val. unfold n_one, n_two, n_zero. rewrite !flit, !fmul.
  rewrite (fdiv tg 1) by nra. rewrite (fdiv tg (nu_c si)) by lra. rewrite (fdiv tg (nu_c si / nu_Es si)) by lra.
  rewrite !F3_norm2, F3_dot, !fmul, fsub, !fmul, fadd.
  set (Es := nu_Es si) in *. set (c := nu_c si) in *.
  replace ((dot3 E E - c * c * dot3 B B) * (1 / (2 * Es * Es))) with (inv1 c E B / (2 * Es * Es)) by (unfold inv1; field; lra).
  replace (dot3 E B * (c / Es / Es)) with (inv2 c E B / Es / Es) by (unfold inv2; field; lra).
  rewrite fsqrt by nra. rewrite fadd, fsub. rewrite !fsqrt by assumption. rewrite E1, E2.
  cbn [n_eq RX x_eq]. unfold pair_density.
  destruct (Req_EM_T a 0) as [Ea|Ea].
  - rewrite (Reqb_true a 0) by exact Ea. cbn [negb andb]. f_equal. ring.
  - rewrite (Reqb_false a 0) by exact Ea. cbn [negb andb]. rewrite m_pi. cbn [n_opp RX x_opp]. rewrite (fdiv tg (- ph_pi)) by lra.
    cbn [n_exp RX x_exp]. destruct (Req_EM_T b 0) as [Eb|Eb].
    + rewrite (Reqb_true b 0) by exact Eb. cbn [negb]. rewrite !fmul. rewrite fdiv by apply ph_pi_pos. rewrite fmul. f_equal. cbn [pow]. ring.
    + rewrite (Reqb_false b 0) by exact Eb. cbn [negb]. rewrite !fmul. rewrite (fdiv tg (ph_pi * b)) by lra.
      rewrite tanh_div. 2: { apply Rmult_lt_0_compat; [|apply Rinv_0_lt_compat; lra]. pose proof ph_pi_gt. nra. }
      rewrite fmul. f_equal. cbn [pow]. unfold Rdiv. ring.
Qed.

Lemma pair_density_nonneg a b : 0 <= a -> 0 <= b -> 0 <= pair_density a b.
Proof.
  intros Ha Hb. pose proof ph_pi_gt. unfold pair_density. destruct (Req_EM_T a 0); [lra|]. pose proof (exp_pos (- ph_pi / a)).
  destruct (Req_EM_T b 0).
  - apply Rmult_le_pos; [nra|apply Rlt_le, Rinv_0_lt_compat; lra].
  - assert (0 < tanh (ph_pi * b / a)) by (apply tanh_pos; apply Rmult_lt_0_compat; [nra|apply Rinv_0_lt_compat; lra]).
    apply Rmult_le_pos; [|apply Rlt_le, Rinv_0_lt_compat; lra]. apply Rmult_le_pos; nra.
Qed.

Lemma pair_density_pos a b : 0 < a -> 0 <= b -> 0 < pair_density a b.
Proof.
  intros Ha Hb. pose proof ph_pi_gt. unfold pair_density. destruct (Req_EM_T a 0); [lra|]. pose proof (exp_pos (- ph_pi / a)).
  destruct (Req_EM_T b 0).
  - apply Rmult_lt_0_compat; [apply Rmult_lt_0_compat; nra|apply Rinv_0_lt_compat; lra].
  - assert (0 < tanh (ph_pi * b / a)) by (apply tanh_pos; apply Rmult_lt_0_compat; [nra|apply Rinv_0_lt_compat; lra]).
    apply Rmult_lt_0_compat; [|apply Rinv_0_lt_compat; lra]. apply Rmult_lt_0_compat; nra.
Qed.

Lemma parallel_a_zero c Es E B a b : 0 < Es -> parallel_frame c Es E B a b -> (a = 0 <-> inv2 c E B = 0 /\ inv1 c E B <= 0).
Proof.
  intros HE (A & Bp & H1 & H2). assert (HE2 : 0 < Es * Es) by nra. split.
  - intros ->. split; [|nra]. destruct (Req_dec (inv2 c E B) 0); auto. apply Rabs_no_R0 in H. lra.
  - intros (Z2 & L1). rewrite Z2, Rabs_R0 in H2. destruct A as [A|]; [|auto]. exfalso.
    assert (b = 0). { apply Rmult_integral in H2 as [H2|H2]; [|lra]. apply Rmult_integral in H2 as [H2|H2]; lra. } subst b.
    assert (0 < a * a * (Es * Es)) by (apply Rmult_lt_0_compat; nra). lra.
Qed.

Lemma rate_facts si E B lam : 0 < lam ->
  exists r, sw_rate (units si) (F3 tg E) (F3 tg B) (Fin lam) = Fin r /\ 0 <= r /\
    (r = 0 <-> inv2 (nu_c si) E B = 0 /\ inv1 (nu_c si) E B <= 0).
Proof.
  intros Hl. destruct (parallel_frame_exists (nu_c si) (nu_Es si) E B (nu_Es_pos si)) as (a & b & Hab).
  pose proof (parallel_a_zero _ _ _ _ _ _ (nu_Es_pos si) Hab) as Hz.
  eexists. split; [apply sw_rate_formula; exact Hab|]. destruct Hab as (A & Bp & _ & _).
  assert (HK : 0 < nu_sw si * nu_lambda si lam ^ 4) by (apply Rmult_lt_0_compat; [apply nu_sw_pos|apply pow_lt; now apply nu_lambda_pos]).
  pose proof (pair_density_nonneg a b A Bp) as Hn. split; [nra|]. split.
  - intros H. apply Hz. destruct A as [A|]; [|auto]. exfalso. pose proof (pair_density_pos a b A Bp). nra.
  - intros H. apply Hz in H. rewrite H. unfold pair_density. destruct (Req_EM_T 0 0); [ring|lra].
Qed.

Lemma rate_invariants si E B E' B' lam : inv1 (nu_c si) E B = inv1 (nu_c si) E' B' ->
  Rabs (inv2 (nu_c si) E B) = Rabs (inv2 (nu_c si) E' B') ->
  sw_rate (units si) (F3 tg E) (F3 tg B) (Fin lam) = sw_rate (units si) (F3 tg E') (F3 tg B') (Fin lam).
Proof.
  intros H1 H2. destruct (parallel_frame_exists (nu_c si) (nu_Es si) E B (nu_Es_pos si)) as (a & b & Hab).
  rewrite (sw_rate_formula si E B lam a b Hab). symmetry. apply sw_rate_formula.
  destruct Hab as (A & Bp & H3 & H4). split; [exact A|]. split; [exact Bp|]. split; [lra|lra].
Qed.

Lemma inv1_boost c b E B : 0 < c -> b * b < 1 -> inv1 c (boost_E c b E B) (boost_B c b E B) = inv1 c E B.
Proof.
  intros Hc Hb. pose proof (boost_gamma_sq b Hb) as G. unfold inv1, boost_E, boost_B, dot3; cbn [x3 y3 z3].
  set (g := boost_gamma b) in *. destruct E as [ex ey ez], B as [bx by_ bz]; cbn [x3 y3 z3].
  replace (ex * ex + g * (ey - b * c * bz) * (g * (ey - b * c * bz)) + g * (ez + b * c * by_) * (g * (ez + b * c * by_)) -
    c * c * (bx * bx + g * (by_ + b / c * ez) * (g * (by_ + b / c * ez)) + g * (bz - b / c * ey) * (g * (bz - b / c * ey))))
   with (ex * ex - c * c * (bx * bx) + (g * g * (1 - b * b)) * (ey * ey + ez * ez - c * c * (by_ * by_ + bz * bz))) by (field; lra).
  rewrite G. ring.
Qed.

Lemma inv2_boost c b E B : 0 < c -> b * b < 1 -> inv2 c (boost_E c b E B) (boost_B c b E B) = inv2 c E B.
Proof.
  intros Hc Hb. pose proof (boost_gamma_sq b Hb) as G. unfold inv2, boost_E, boost_B, dot3; cbn [x3 y3 z3].
  set (g := boost_gamma b) in *. destruct E as [ex ey ez], B as [bx by_ bz]; cbn [x3 y3 z3].
  replace (c * (ex * bx + g * (ey - b * c * bz) * (g * (by_ + b / c * ez)) + g * (ez + b * c * by_) * (g * (bz - b / c * ey))))
   with (c * (ex * bx) + (g * g * (1 - b * b)) * (c * (ey * by_ + ez * bz))) by (field; lra).
  rewrite G. ring.
Qed.

Lemma rate_boost si b E B lam : b * b < 1 ->
  sw_rate (units si) (F3 tg (boost_E (nu_c si) b E B)) (F3 tg (boost_B (nu_c si) b E B)) (Fin lam) = sw_rate (units si) (F3 tg E) (F3 tg B) (Fin lam).
Proof. intros Hb. pose proof (nu_c_pos si). apply rate_invariants; [now apply inv1_boost|]. now rewrite inv2_boost. Qed.

Lemma rate_rotate si M E B lam :
  sw_rate (units si) (F3 tg (rotate M E)) (F3 tg (rotate M B)) (Fin lam) = sw_rate (units si) (F3 tg E) (F3 tg B) (Fin lam).
Proof. apply rate_invariants; unfold inv1, inv2; now rewrite !rotate_dot. Qed.
(** ** the b = 0 branch is the limit of the general one *)
Lemma tanh_deriv_0 : derivable_pt_lim tanh 0 1.
Proof.
  assert (Hc : cosh 0 = 1) by apply cosh_0. assert (Hs : sinh 0 = 0) by apply sinh_0.
  replace 1 with ((cosh 0 * cosh 0 - sinh 0 * sinh 0) / Rsqr (cosh 0)) by (rewrite Hc, Hs; unfold Rsqr; field).
  change tanh with (sinh / cosh)%F. apply derivable_pt_lim_div; [apply derivable_pt_lim_sinh|apply derivable_pt_lim_cosh|lra].
Qed.

Lemma density_continuous a : 0 < a -> forall eps, 0 < eps -> exists del, 0 < del /\
  forall b, 0 < b < del -> Rabs (pair_density a b - pair_density a 0) < eps.
Proof.
  intros Ha eps Heps. pose proof ph_pi_gt as Hpi. set (K := a * a * exp (- ph_pi / a) / ph_pi).
  assert (HK : 0 < K). { apply Rmult_lt_0_compat; [|apply Rinv_0_lt_compat; lra]. pose proof (exp_pos (- ph_pi / a)). apply Rmult_lt_0_compat; nra. }
  (* tanh h / h within e of 1 *)
  set (e := Rmin (1 / 2) (eps / (2 * K + 1))). assert (He : 0 < e).
  { apply Rmin_glb_lt; [lra|]. apply Rdiv_lt_0_compat; lra. }
  destruct (tanh_deriv_0 e He) as (d & Hd). set (del := pos d * a / ph_pi).
  assert (Hdel : 0 < del) by (apply Rdiv_lt_0_compat; [apply Rmult_lt_0_compat; [apply cond_pos|lra]|lra]).
  exists del. split; [exact Hdel|]. intros b Hb. set (h := ph_pi * b / a).
  assert (Hh : 0 < h) by (apply Rdiv_lt_0_compat; nra).
  assert (Hhd : h < d). { apply Rmult_lt_reg_r with (a / ph_pi); [apply Rdiv_lt_0_compat; lra|].
    replace (h * (a / ph_pi)) with b by (unfold h; field; lra). replace (d * (a / ph_pi)) with del by (unfold del; field; lra). lra. }
  specialize (Hd h ltac:(lra) ltac:(rewrite Rabs_pos_eq by lra; exact Hhd)). rewrite Rplus_0_l in Hd.
  replace (tanh 0) with 0 in Hd. 2: { unfold tanh. rewrite sinh_0. unfold Rdiv. ring. }
  rewrite Rminus_0_r in Hd. set (q := tanh h / h) in *.
  assert (Hq : 1 - e < q < 1 + e) by (apply Rabs_def2 in Hd; lra).
  assert (He1 : e <= 1 / 2) by apply Rmin_l. assert (He2 : e <= eps / (2 * K + 1)) by apply Rmin_r.
  assert (Eb : pair_density a b = K / q).
  { unfold pair_density. destruct (Req_EM_T a 0); [lra|]. destruct (Req_EM_T b 0); [lra|]. fold h.
    pose proof (tanh_pos h Hh). unfold K, q. replace b with (h * a / ph_pi) at 1 by (unfold h; field; lra). field. lra. }
  assert (E0 : pair_density a 0 = K).
  { unfold pair_density. destruct (Req_EM_T a 0); [lra|]. destruct (Req_EM_T 0 0); [reflexivity|lra]. }
  rewrite Eb, E0. assert (Hq0 : / 2 < q) by lra.
  replace (K / q - K) with (K * (1 - q) * / q) by (field; lra). rewrite !Rabs_mult, (Rabs_pos_eq K), (Rabs_pos_eq (/ q)) by (try lra; apply Rlt_le, Rinv_0_lt_compat; lra).
  assert (Hiq : / q < 2). { rewrite <- (Rinv_inv 2). apply Rinv_lt_contravar; [nra|exact Hq0]. }
  assert (Hiq0 : 0 < / q) by (apply Rinv_0_lt_compat; lra).
  assert (Ha1 : Rabs (1 - q) <= e) by (apply Rabs_le; lra).
  apply Rle_lt_trans with (K * e * 2).
  - apply Rmult_le_compat; try lra; [apply Rmult_le_pos; [lra|apply Rabs_pos]|]. apply Rmult_le_compat_l; lra.
  - apply Rle_lt_trans with (K * (eps / (2 * K + 1)) * 2).
    + apply Rmult_le_compat_r; [lra|]. apply Rmult_le_compat_l; lra.
    + apply Rmult_lt_reg_r with (2 * K + 1); [lra|]. replace (K * (eps / (2 * K + 1)) * 2 * (2 * K + 1)) with (2 * K * eps) by (field; lra). nra.
Qed.

(** ** pure electric fields: a = |E| / Es, b = 0 *)
Lemma parallel_electric c Es E : 0 < Es -> parallel_frame c Es E zero3 (norm3 E / Es) 0.
Proof.
  intros HE. pose proof (norm3_nonneg E). split; [apply Rmult_le_pos; [lra|apply Rlt_le, Rinv_0_lt_compat; lra]|]. split; [lra|].
  unfold inv1, inv2. replace (dot3 zero3 zero3) with 0 by (unfold dot3, zero3; cbn; ring). replace (dot3 E zero3) with 0 by (unfold dot3, zero3; cbn; ring).
  rewrite <- norm3_sq. split; [field; lra|]. rewrite !Rmult_0_r, Rmult_0_l, Rabs_R0. reflexivity.
Qed.

Lemma density_electric_increasing a a' : 0 < a < a' -> pair_density a 0 < pair_density a' 0.
Proof.
  intros H. pose proof ph_pi_gt as Hpi. unfold pair_density. destruct (Req_EM_T a 0); [lra|]. destruct (Req_EM_T a' 0); [lra|]. destruct (Req_EM_T 0 0); [|lra].
  assert (Hexp : exp (- ph_pi / a) < exp (- ph_pi / a')).
  { apply exp_increasing. assert (/ a' < / a) by (apply Rinv_lt_contravar; nra). unfold Rdiv. nra. }
  pose proof (exp_pos (- ph_pi / a)). unfold Rdiv. apply Rmult_lt_compat_r; [apply Rinv_0_lt_compat; lra|].
  apply Rmult_le_0_lt_compat; try nra.
Qed.

(** ** the two builds *)
Lemma sw_units lam lam' E B : 0 < lam ->
  exists r, sw_rate (units true) (F3 tg (scale3 lam E)) (F3 tg (scale3 lam B)) (Fin lam') = Fin r /\
  sw_rate (units false) (F3 tg (scale3 (/ E_ref lam) E)) (F3 tg (scale3 (ph_c / E_ref lam) B)) (Fin lam)
  = Fin (r * (lam ^ 4 / (16 * ph_pi * ph_pi * ph_pi * ph_pi * ph_c))).
Proof.
  intros Hl. assert (HR : 0 < E_ref lam) by (unfold E_ref; phpos).
  destruct (parallel_frame_exists (nu_c true) (nu_Es true) (scale3 lam E) (scale3 lam B) (nu_Es_pos true)) as (a & b & Hab).
  eexists. split; [apply sw_rate_formula; exact Hab|].
  assert (Hratio : nu_Es true = E_ref lam * lam * nu_Es false).
  { unfold nu_Es, E_ref, ph_Es. field. pose proof ph_pi_pos. pose proof ph_hbar_pos. pose proof ph_e_pos. lra. }
  rewrite (sw_rate_formula false _ _ lam a b).
  - f_equal. cbn [nu_lambda]. unfold nu_sw. field. pose proof ph_pi_pos. pose proof ph_hbar_pos. pose proof ph_c_pos. lra.
  - destruct Hab as (A & Bp & H1 & H2). split; [exact A|]. split; [exact Bp|].
    rewrite Hratio in H1, H2. set (k := nu_Es false) in *. set (L := E_ref lam) in *. cbn [nu_c] in *.
    assert (E1 : inv1 ph_c (scale3 lam E) (scale3 lam B) = (L * lam) * (L * lam) * inv1 1 (scale3 (/ L) E) (scale3 (ph_c / L) B)).
    { unfold inv1, dot3, scale3; cbn. field. lra. }
    assert (E2 : inv2 ph_c (scale3 lam E) (scale3 lam B) = (L * lam) * (L * lam) * inv2 1 (scale3 (/ L) E) (scale3 (ph_c / L) B)).
    { unfold inv2, dot3, scale3; cbn. field. lra. }
    assert (HLl : 0 < (L * lam) * (L * lam)) by (assert (0 < L * lam) by nra; nra).
    rewrite E1 in H1. rewrite E2, Rabs_mult, (Rabs_pos_eq _ (Rlt_le _ _ HLl)) in H2. split.
    + apply Rmult_eq_reg_l with ((L * lam) * (L * lam)); [|lra]. rewrite <- H1. ring.
    + apply Rmult_eq_reg_l with ((L * lam) * (L * lam)); [|lra]. rewrite <- H2. ring.
Qed.

Lemma sw_units_wrong lam lam' E : 0 < lam < 1 -> E <> zero3 -> exists r r',
  sw_rate (units true) (F3 tg E) (F3 tg zero3) (Fin lam') = Fin r /\
  sw_rate (units false) (F3 tg (scale3 (/ E_ref lam) E)) (F3 tg zero3) (Fin lam) = Fin r' /\
  r' < r * (lam ^ 4 / (16 * ph_pi * ph_pi * ph_pi * ph_pi * ph_c)).
Proof.
  intros Hl HE. destruct (sw_units lam lam' E zero3 (proj1 Hl)) as (r1 & R1 & R2).
  assert (Z1 : forall k, scale3 k zero3 = zero3) by (intros; unfold scale3, zero3; cbn; f_equal; ring).
  rewrite Z1 in R1, R2. pose proof (nu_Es_pos true) as HEs. pose proof (norm3_pos E HE) as Hn.
  rewrite (sw_rate_formula true _ _ _ _ _ (parallel_electric _ _ _ HEs)) in R1.
  exists (nu_sw true * nu_lambda true lam' ^ 4 * pair_density (norm3 E / nu_Es true) 0).
  eexists. split; [apply sw_rate_formula, parallel_electric, HEs|]. split; [exact R2|].
  injection R1 as <-. assert (HK : 0 < nu_sw true * nu_lambda true lam' ^ 4) by (cbn [nu_lambda]; pose proof (nu_sw_pos true); lra).
  apply Rmult_lt_compat_r.
  - apply Rdiv_lt_0_compat; [apply pow_lt; lra|phpos].
  - apply Rmult_lt_compat_l; [exact HK|]. apply density_electric_increasing.
    assert (norm3 (scale3 lam E) = lam * norm3 E).
    { unfold norm3. replace (dot3 (scale3 lam E) (scale3 lam E)) with ((lam * lam) * dot3 E E) by (unfold dot3, scale3; cbn; ring).
      rewrite sqrt_mult by (nra || apply dot3_nonneg). rewrite sqrt_square by lra. reflexivity. }
    rewrite H. pose proof (Rinv_0_lt_compat _ HEs). unfold Rdiv. assert (0 < lam * norm3 E) by (apply Rmult_lt_0_compat; lra). assert (0 < (1 - lam) * norm3 E) by (apply Rmult_lt_0_compat; lra).
    change ph_Es with (nu_Es true). split; [apply Rmult_lt_0_compat; lra|]. apply Rmult_lt_compat_r; lra.
Qed.

(** ** events *)
Lemma single_spec si E B dx dy dz dt lam u : 0 < lam -> 0 < dx -> 0 < dy -> 0 < dz ->
  exists r, sw_rate (units si) (F3 tg E) (F3 tg B) (Fin lam) = Fin r /\ 0 <= r /\
    exists ev, sw_single (units si) (F3 tg E) (F3 tg B) (Fin dx) (Fin dy) (Fin dz) (Fin dt) (Fin lam) (Fin u) = (ev, Fin (1 / (dx * dy * dz))) /\
    (ev = true <-> u < r * (dx * dy * dz) * dt).
Proof.
  intros Hl Hx Hy Hz. destruct (rate_facts si E B lam Hl) as (r & Er & Hr & _). exists r. split; [exact Er|]. split; [exact Hr|].
  assert (Hv : 0 < dx * dy * dz) by (apply Rmult_lt_0_compat; [nra|lra]).
  unfold sw_single, sw_probability. cbn zeta. rewrite si_lambda_val.
  assert (Er' : sw_rate (units si) (F3 tg E) (F3 tg B) (Fin (nu_lambda si lam)) = Fin r) by (rewrite <- Er; now destruct si).
  rewrite Er'. rewrite !fmul. unfold n_one. rewrite flit. rewrite fdiv by exact Hv.
  eexists. split; [reflexivity|]. cbn [n_lt RX x_lt]. unfold Rltb. destruct (Rlt_dec u (r * (dx * dy * dz) * dt)); intuition (try discriminate).
Qed.

Lemma multiple_spec si E B dx dy dz dt lam u : 0 < lam -> 0 < dx -> 0 < dy -> 0 < dz -> 0 <= dt -> 0 <= u < 1 ->
  exists r, sw_rate (units si) (F3 tg E) (F3 tg B) (Fin lam) = Fin r /\
    exists k fuel0, (forall fuel, (fuel0 <= fuel)%nat ->
       sw_multiple (units si) fuel (F3 tg E) (F3 tg B) (Fin dx) (Fin dy) (Fin dz) (Fin dt) (Fin lam) (Fin u) = Ret (Z.of_nat k, Fin (1 / (dx * dy * dz)))) /\
    u <= poisson_cdf (r * (dx * dy * dz) * dt) k /\ (forall i, (i < k)%nat -> poisson_cdf (r * (dx * dy * dz) * dt) i < u).
Proof.
  intros Hl Hx Hy Hz Ht Hu. destruct (rate_facts si E B lam Hl) as (r & Er & Hr & _). exists r. split; [exact Er|].
  assert (Hv : 0 < dx * dy * dz) by (apply Rmult_lt_0_compat; [nra|lra]).
  assert (Hp : 0 <= r * (dx * dy * dz) * dt) by (apply Rmult_le_pos; [nra|lra]).
  destruct (poisson_spec tg (r * (dx * dy * dz) * dt) u Hp Hu) as (k & f0 & Hk & K1 & K2). exists k, f0. split; [|auto].
  intros fuel Hf. unfold sw_multiple, sw_probability. cbn zeta. rewrite si_lambda_val.
  assert (Er' : sw_rate (units si) (F3 tg E) (F3 tg B) (Fin (nu_lambda si lam)) = Fin r) by (rewrite <- Er; now destruct si).
  rewrite Er'. rewrite !fmul. unfold n_one. rewrite flit. rewrite fdiv by exact Hv.
  etransitivity; [apply (f_equal (fun m => bind m _)); apply Hk, Hf|]. reflexivity.
Qed.

Lemma position_spec (G : Rng N) (x : sw_engine G) : unit_rng G -> exists a b c x',
  sw_new_position G x = ([Fin a; Fin b; Fin c], x') /\ 0 <= a < 1 /\ 0 <= b < 1 /\ 0 <= c < 1 /\
  se_rng x' = nth_state G 3 (se_rng x) /\ se_lambda x' = se_lambda x.
Proof.
  intros HG. unfold sw_new_position. cbn [draw_unf nth_state].
  destruct (HG (se_rng x)) as (a & s1 & E1 & H1). rewrite E1. destruct (HG s1) as (b & s2 & E2 & H2). cbn [snd]. rewrite E2.
  destruct (HG s2) as (c & s3 & E3 & H3). cbn [snd]. rewrite E3. exists a, b, c. eexists. split; [reflexivity|]. repeat split; try lra; reflexivity.
Qed.
End V.
