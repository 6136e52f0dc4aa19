(** Proofs about VecFun.v, Units.v and ChiFun.v over exact arithmetic. *)
From Coq Require Import ZArith Reals Lra Lia Bool Psatz.
From Verif Require Import Cxx Num NumRX VecFun Units ChiFun RXLemmas SpecPhys.
Local Open Scope R_scope.

(** a model vector holding three real numbers *)
Definition F3 (tg : R -> R) (a : R3) : vec3 (RX tg) := @V3 (RX tg) (Fin (x3 a)) (Fin (y3 a)) (Fin (z3 a)).

Lemma r3_ext a b : x3 a = x3 b -> y3 a = y3 b -> z3 a = z3 b -> a = b.
Proof. destruct a, b; cbn; congruence. Qed.

Ltac r3 := apply r3_ext; cbn.

Lemma dot3_nonneg a : 0 <= dot3 a a.
Proof. unfold dot3. nra. Qed.
Lemma dot3_zero a : dot3 a a = 0 -> a = zero3.
Proof. unfold dot3. intros H. r3; nra. Qed.
Lemma norm3_sq a : norm3 a * norm3 a = dot3 a a.
Proof. apply sqrt_sqrt, dot3_nonneg. Qed.
Lemma norm3_nonneg a : 0 <= norm3 a.
Proof. apply sqrt_pos. Qed.
Lemma norm3_zero a : norm3 a = 0 <-> a = zero3.
Proof.
  split.
  - intros H. apply dot3_zero. rewrite <- norm3_sq, H. ring.
  - intros ->. unfold norm3, dot3; cbn. replace (0 * 0 + 0 * 0 + 0 * 0) with 0 by ring. apply sqrt_0.
Qed.
Lemma norm3_pos a : a <> zero3 -> 0 < norm3 a.
Proof. intros H. destruct (norm3_nonneg a) as [|E]; auto. symmetry in E. apply norm3_zero in E. contradiction. Qed.

Section V.
Variable tg : R -> R.
Notation F := (F3 tg).

Lemma F3_dot a b : dot (F a) (F b) = Fin (dot3 a b).
Proof. reflexivity. Qed.
Lemma F3_norm2 a : norm2 (F a) = Fin (dot3 a a).
Proof. reflexivity. Qed.
Lemma F3_norm a : norm (F a) = Fin (norm3 a).
Proof. unfold norm. rewrite F3_norm2. apply x_sqrt_fin, dot3_nonneg. Qed.
Lemma F3_cross a b : cross (F a) (F b) = F (cross3 a b).
Proof. reflexivity. Qed.
Lemma F3_add a b : vadd (F a) (F b) = F (add3 a b).
Proof. reflexivity. Qed.
Lemma F3_sub a b : vsub (F a) (F b) = F (sub3 a b).
Proof. reflexivity. Qed.
Lemma F3_scale_l k a : @vscale_l (RX tg) (Fin k) (F a) = F (scale3 k a).
Proof. unfold vscale_l, F3, scale3; cbn. f_equal; f_equal; ring. Qed.
Lemma F3_scale_r k a : @vscale_r (RX tg) (F a) (Fin k) = F (scale3 k a).
Proof. exact (F3_scale_l k a). Qed.
Lemma F3_div k a : k <> 0 -> @vdiv (RX tg) (F a) (Fin k) = F (scale3 (/ k) a).
Proof.
  intros H. unfold vdiv, F3, scale3. cbn [vx vy vz n_div RX]. rewrite !x_div_fin by exact H.
  cbn. f_equal; f_equal; unfold Rdiv; ring.
Qed.

(** ** constants *)
Ltac numpos := repeat (first [apply Rmult_lt_0_compat | apply Rdiv_lt_0_compat | apply Rinv_0_lt_compat | lra]).
Lemma ph_pi_pos : 0 < ph_pi. Proof. unfold ph_pi. numpos; apply pow_lt; lra. Qed.
Lemma ph_m_pos : 0 < ph_m. Proof. unfold ph_m. numpos; apply pow_lt; lra. Qed.
Lemma ph_e_pos : 0 < ph_e. Proof. unfold ph_e. numpos; apply pow_lt; lra. Qed.
Lemma ph_c_pos : 0 < ph_c. Proof. unfold ph_c. lra. Qed.
Lemma ph_hbar_pos : 0 < ph_hbar. Proof. unfold ph_hbar. numpos; apply pow_lt; lra. Qed.
Lemma ph_eps0_pos : 0 < ph_eps0. Proof. unfold ph_eps0. numpos; apply pow_lt; lra. Qed.
Lemma ph_alpha_pos : 0 < ph_alpha. Proof. unfold ph_alpha. numpos; apply pow_lt; lra. Qed.
Ltac phpos := repeat (first [apply Rmult_lt_0_compat | apply Rdiv_lt_0_compat | apply Rinv_0_lt_compat
  | apply ph_pi_pos | apply ph_m_pos | apply ph_e_pos | apply ph_c_pos | apply ph_hbar_pos
  | apply ph_eps0_pos | apply ph_alpha_pos | lra]).
Lemma ph_Es_pos : 0 < ph_Es. Proof. unfold ph_Es. phpos. Qed.
Lemma ph_re_pos : 0 < ph_re. Proof. unfold ph_re. phpos. Qed.
Lemma ph_tau_pos : 0 < ph_tau. Proof. unfold ph_tau. apply Rdiv_lt_0_compat; [apply ph_re_pos|apply ph_c_pos]. Qed.

Lemma nu_c_pos si : 0 < nu_c si. Proof. destruct si; cbn; [apply ph_c_pos|lra]. Qed.
Lemma nu_m_pos si : 0 < nu_m si. Proof. destruct si; cbn; [apply ph_m_pos|lra]. Qed.
Lemma nu_Es_pos si : 0 < nu_Es si. Proof. destruct si; cbn; [apply ph_Es_pos|phpos]. Qed.
Lemma nu_lambda_pos si l : 0 < l -> 0 < nu_lambda si l. Proof. destruct si; cbn; lra. Qed.

Lemma lit_neg m e : @n_lit (RX tg) m (Zneg e) = Fin (IZR m / 10 ^ (Pos.to_nat e)).
Proof.
  cbn [n_lit RX x_lit]. do 2 f_equal. rewrite <- (positive_nat_Z e). rewrite pow_IZR. reflexivity.
Qed.

Lemma m_pi : @c_pi (RX tg) = Fin ph_pi. Proof. unfold c_pi. rewrite lit_neg. reflexivity. Qed.
Lemma m_em : @electron_mass (RX tg) = Fin ph_m. Proof. unfold electron_mass. rewrite lit_neg. reflexivity. Qed.
Lemma m_ec : @elementary_charge (RX tg) = Fin ph_e. Proof. unfold elementary_charge. rewrite lit_neg. reflexivity. Qed.
Lemma m_c : @light_speed (RX tg) = Fin ph_c. Proof. reflexivity. Qed.
Lemma m_hbar : @reduced_plank (RX tg) = Fin ph_hbar. Proof. unfold reduced_plank. rewrite lit_neg. reflexivity. Qed.
Lemma m_eps : @vacuum_permittivity (RX tg) = Fin ph_eps0. Proof. unfold vacuum_permittivity. rewrite lit_neg. reflexivity. Qed.
Lemma m_alpha : @fine_structure (RX tg) = Fin ph_alpha. Proof. unfold fine_structure. rewrite lit_neg. reflexivity. Qed.

Lemma fdiv a b : 0 < b -> @n_div (RX tg) (Fin a) (Fin b) = Fin (a / b).
Proof. intros. apply x_div_fin. lra. Qed.
Lemma fmul a b : @n_mul (RX tg) (Fin a) (Fin b) = Fin (a * b). Proof. reflexivity. Qed.
Lemma flit z : @n_lit (RX tg) z 0 = Fin (IZR z). Proof. reflexivity. Qed.

Lemma m_Es : @schwinger_field (RX tg) = Fin ph_Es.
Proof.
  unfold schwinger_field. rewrite m_em, m_ec, m_c, m_hbar, !fmul. rewrite fdiv by phpos. reflexivity.
Qed.
Lemma m_re : @classical_electron_radius (RX tg) = Fin ph_re.
Proof.
  unfold classical_electron_radius. rewrite m_em, m_ec, m_c, m_pi, m_eps, flit, !fmul. rewrite fdiv by phpos. reflexivity.
Qed.
Lemma m_tau : @tau_e (RX tg) = Fin ph_tau.
Proof. unfold tau_e. rewrite m_re, m_c. now rewrite fdiv by phpos. Qed.

Lemma u_si_val si : u_si (units (N := RX tg) si) = si. Proof. now destruct si. Qed.
Lemma u_c_val si : u_c (units (N := RX tg) si) = Fin (nu_c si). Proof. now destruct si. Qed.
Lemma u_m_val si : u_emass (units (N := RX tg) si) = Fin (nu_m si).
Proof. destruct si; [apply m_em|reflexivity]. Qed.
Lemma u_Es_val si : u_schwinger (units (N := RX tg) si) = Fin (nu_Es si).
Proof.
  destruct si; [apply m_Es|]. cbn [units u_schwinger]. rewrite m_em, m_c, m_hbar, m_pi, flit, !fmul.
  rewrite fdiv by phpos. reflexivity.
Qed.
Lemma si_lambda_val si l : si_lambda (units (N := RX tg) si) (Fin l) = Fin (nu_lambda si l).
Proof. now destruct si. Qed.

(** ** chi *)
Lemma force2_perp c p0 p E B : force2 c p0 p E B =
  let f := add3 (scale3 p0 E) (scale3 c (cross3 p B)) in dot3 f f - dot3 p E * dot3 p E.
Proof. reflexivity. Qed.

(** Cauchy-Schwarz in the form needed: (p.E)^2 <= p0^2... *)
Lemma cauchy a b : dot3 a b * dot3 a b <= dot3 a a * dot3 b b.
Proof.
  unfold dot3.
  set (u1 := x3 a * y3 b - y3 a * x3 b). set (u2 := y3 a * z3 b - z3 a * y3 b). set (u3 := z3 a * x3 b - x3 a * z3 b).
  assert (0 <= u1 * u1 + u2 * u2 + u3 * u3) by nra. unfold u1, u2, u3 in *. nra.
Qed.

Lemma dot3_scale2 k a : dot3 (scale3 k a) (scale3 k a) = k * k * dot3 a a.
Proof. unfold dot3, scale3; cbn; ring. Qed.
Lemma dot3_sub_scale g k p :
  dot3 (sub3 g (scale3 k p)) (sub3 g (scale3 k p)) = dot3 g g - 2 * k * dot3 p g + k * k * dot3 p p.
Proof. unfold dot3, sub3, scale3; cbn; ring. Qed.

Lemma dot3_f c p0 p E B :
  dot3 p (add3 (scale3 p0 E) (scale3 c (cross3 p B))) = p0 * dot3 p E.
Proof. unfold dot3, add3, scale3, cross3; cbn. ring. Qed.

Lemma force2_nonneg c p0 p E B : dot3 p p <= p0 * p0 -> 0 <= force2 c p0 p E B.
Proof.
  intros H. unfold force2. cbn zeta. set (f := add3 _ _).
  pose proof (dot3_nonneg f). pose proof (dot3_nonneg p).
  destruct (Req_dec (p0 * p0) 0) as [Hz|Hz].
  - assert (dot3 p p = 0) as Hp by lra. apply dot3_zero in Hp. subst p.
    unfold dot3 at 2 3; cbn. lra.
  - assert (Hc := cauchy p f). unfold f in Hc at 1 2. rewrite dot3_f in Hc.
    assert (0 < p0 * p0) by nra.
    apply Rmult_le_reg_l with (p0 * p0); [assumption|]. rewrite Rmult_0_r.
    assert (dot3 p p * dot3 f f <= p0 * p0 * dot3 f f) by (apply Rmult_le_compat_r; assumption).
    lra.
Qed.

(** photon *)
Lemma chi_photon_zero si E B lam :
  chi_photon (units si) (F zero3) E B (Fin lam) = Fin 0.
Proof.
  unfold chi_photon. rewrite F3_norm. cbn [n_eq RX x_eq n_lit x_lit].
  rewrite Reqb_true; [reflexivity|]. now apply norm3_zero.
Qed.

Lemma sqrt_mult_l a b : 0 <= a -> 0 <= b -> a * sqrt b = sqrt (a * a * b).
Proof. intros. rewrite sqrt_mult by nra. rewrite sqrt_square by assumption. reflexivity. Qed.

Lemma chi_photon_val si p E B lam : p <> zero3 -> 0 < lam ->
  chi_photon (units si) (F p) (F E) (F B) (Fin lam)
  = Fin (chi_cov (nu_m si) (nu_c si) (nu_Es si * nu_lambda si lam) (p0_photon p) p E B).
Proof.
  intros Hp Hl. assert (Hn := norm3_pos p Hp). pose proof (nu_lambda_pos si lam Hl).
  pose proof (nu_c_pos si). pose proof (nu_m_pos si). pose proof (nu_Es_pos si).
  unfold chi_photon. rewrite F3_norm, si_lambda_val, u_c_val, u_m_val, u_Es_val, !flit.
  cbn [n_eq RX x_eq]. rewrite Reqb_false by lra. cbn zeta.
  rewrite F3_div by lra. rewrite F3_dot, F3_scale_l, F3_sub, F3_scale_r, F3_cross, F3_add, F3_norm.
  rewrite !fmul. rewrite fdiv by (repeat apply Rmult_lt_0_compat; assumption). rewrite fmul. f_equal.
  unfold chi_cov, p0_photon.
  set (f := add3 (sub3 E _) _).
  replace (force2 (nu_c si) (norm3 p) p E B) with (norm3 p * norm3 p * dot3 f f).
  - rewrite <- sqrt_mult_l by (try apply dot3_nonneg; lra). fold (norm3 f). field. repeat split; lra.
  - unfold force2. cbn zeta. unfold f.
    assert (Hq : norm3 p * norm3 p = dot3 p p) by apply norm3_sq.
    set (g := add3 (scale3 (norm3 p) E) (scale3 (nu_c si) (cross3 p B))).
    assert (Hg : dot3 p g = norm3 p * dot3 p E) by apply dot3_f.
    set (n := norm3 p) in *. set (c := nu_c si) in *. set (k := dot3 p E / n).
    rewrite <- dot3_scale2.
    match goal with |- dot3 ?l ?l = _ => replace l with (sub3 g (scale3 k p)) end.
    + rewrite dot3_sub_scale, Hg, <- Hq. unfold k. field. lra.
    + unfold g, k, dot3. destruct p as [p1 p2 p3], E as [e1 e2 e3], B as [b1 b2 b3].
      r3; field; lra.
Qed.

(** lepton *)
Lemma chi_lepton_zero si E B lam : chi_lepton (units si) (F zero3) E B (Fin lam) = Fin 0.
Proof.
  unfold chi_lepton. rewrite F3_norm2. cbn [n_eq RX x_eq n_lit x_lit].
  rewrite Reqb_true; [reflexivity|]. unfold dot3; cbn. ring.
Qed.

Lemma fsqrt a : 0 <= a -> @n_sqrt (RX tg) (Fin a) = Fin (sqrt a).
Proof. apply x_sqrt_fin. Qed.
Lemma fadd a b : @n_add (RX tg) (Fin a) (Fin b) = Fin (a + b). Proof. reflexivity. Qed.
Lemma fsub a b : @n_sub (RX tg) (Fin a) (Fin b) = Fin (a - b). Proof. reflexivity. Qed.

Lemma p0_lepton_pos m c p : 0 < m -> 0 < c -> 0 < p0_lepton m c p.
Proof. intros. apply sqrt_lt_R0. pose proof (dot3_nonneg p). assert (0 < m * c) by nra. nra. Qed.
Lemma p0_lepton_sq m c p : p0_lepton m c p * p0_lepton m c p = dot3 p p + m * c * (m * c).
Proof. apply sqrt_sqrt. pose proof (dot3_nonneg p). nra. Qed.

Lemma lepton_gamma m c p : 0 < m -> 0 < c ->
  sqrt (1 + norm3 p / (m * c) * (norm3 p / (m * c))) = lorentz m c p.
Proof.
  intros. assert (0 < m * c) by nra. pose proof (p0_lepton_pos m c p H H0).
  unfold lorentz. apply sqrt_lem_1.
  - pose proof (Rle_0_sqr (norm3 p / (m * c))) as Hs. unfold Rsqr in Hs. lra.
  - apply Rlt_le, Rdiv_lt_0_compat; assumption.
  - transitivity ((p0_lepton m c p * p0_lepton m c p) / (m * c * (m * c))); [field; lra|].
    rewrite p0_lepton_sq, <- norm3_sq. field. lra.
Qed.

Lemma lepton_beta m c p : 0 < m -> 0 < c ->
  sqrt (1 - 1 / (1 + norm3 p / (m * c) * (norm3 p / (m * c)))) = norm3 p / p0_lepton m c p.
Proof.
  intros. assert (0 < m * c) by nra. pose proof (p0_lepton_pos m c p H H0) as Hp.
  pose proof (norm3_nonneg p).
  replace (1 + _) with ((p0_lepton m c p * p0_lepton m c p) / (m * c * (m * c))).
  - apply sqrt_lem_1.
    + rewrite p0_lepton_sq. pose proof (dot3_nonneg p).
      replace (1 - _) with (dot3 p p / (dot3 p p + m * c * (m * c))).
      * apply Rmult_le_pos; [assumption|]. apply Rlt_le, Rinv_0_lt_compat. nra.
      * field. split; nra.
    + apply Rmult_le_pos; [assumption|]. apply Rlt_le, Rinv_0_lt_compat; assumption.
    + transitivity ((norm3 p * norm3 p) / (p0_lepton m c p * p0_lepton m c p)); [field; lra|].
      rewrite p0_lepton_sq, norm3_sq. field. pose proof (dot3_nonneg p). split; nra.
  - rewrite p0_lepton_sq, <- norm3_sq. field. lra.
Qed.

Lemma chi_lepton_val si p E B lam : p <> zero3 -> 0 < lam ->
  chi_lepton (units si) (F p) (F E) (F B) (Fin lam)
  = Fin (chi_cov (nu_m si) (nu_c si) (nu_Es si * nu_lambda si lam) (p0_lepton (nu_m si) (nu_c si) p) p E B).
Proof.
  intros Hp Hl. assert (Hn := norm3_pos p Hp). pose proof (nu_lambda_pos si lam Hl) as HL.
  pose proof (nu_c_pos si) as Hc. pose proof (nu_m_pos si) as Hm. pose proof (nu_Es_pos si) as HE.
  unfold chi_lepton. rewrite F3_norm2, si_lambda_val, u_c_val, u_m_val, u_Es_val, !flit.
  cbn [n_eq RX x_eq]. rewrite Reqb_false.
  2: { intros H0. apply dot3_zero in H0. contradiction. }
  rewrite fsqrt by apply dot3_nonneg. fold (norm3 p).
  assert (Hmc : 0 < nu_m si * nu_c si) by nra.
  assert (Hg2 : 0 < 1 + norm3 p / (nu_m si * nu_c si) * (norm3 p / (nu_m si * nu_c si))).
  { pose proof (Rle_0_sqr (norm3 p / (nu_m si * nu_c si))) as Hs. unfold Rsqr in Hs. lra. }
  rewrite !fmul, F3_div by lra. rewrite (fdiv _ (nu_m si * nu_c si)) by assumption.
  rewrite fmul, fadd, fdiv by assumption. rewrite fsub. cbn zeta.
  rewrite fsqrt by lra. rewrite fsqrt.
  2: { set (X := 1 + _) in *. apply Rge_le, Rge_minus, Rle_ge.
       apply Rmult_le_reg_r with X; [assumption|]. unfold Rdiv. rewrite Rmult_assoc, Rinv_l by lra.
       pose proof (Rle_0_sqr (norm3 p / (nu_m si * nu_c si))) as Hs. unfold Rsqr in Hs. unfold X. lra. }
  rewrite lepton_gamma, lepton_beta by assumption.
  set (P := p0_lepton (nu_m si) (nu_c si) p).
  assert (HP : 0 < P) by (apply p0_lepton_pos; assumption).
  rewrite F3_scale_l, F3_scale_r, F3_cross, F3_add, F3_norm2, F3_dot, fmul, fsub.
  cbn [n_fabs RX x_fabs]. rewrite fsqrt by apply Rabs_pos. rewrite fdiv by (apply Rmult_lt_0_compat; assumption).
  rewrite !fmul. f_equal.
  set (g := add3 (scale3 P E) (scale3 (nu_c si) (cross3 p B))).
  match goal with |- context [Rabs ?x] => replace x with (- (/ (P * P) * force2 (nu_c si) P p E B)) end.
  - assert (0 <= / (P * P)) by (apply Rlt_le, Rinv_0_lt_compat; nra).
    assert (HF : 0 <= force2 (nu_c si) P p E B).
    { apply force2_nonneg. unfold P. rewrite p0_lepton_sq. nra. }
    rewrite Rabs_Ropp, Rabs_right by (apply Rle_ge, Rmult_le_pos; assumption).
    rewrite Rinv_mult. rewrite <- sqrt_mult_l by (try assumption; apply Rlt_le, Rinv_0_lt_compat; assumption).
    unfold chi_cov, lorentz. fold P. field. repeat split; lra.
  - unfold force2. cbn zeta. unfold dot3. destruct p as [p1 p2 p3], E as [e1 e2 e3], B as [b1 b2 b3].
    cbn. fold P. field. split; lra.
Qed.

(** ** rotations *)
Lemma rotate_dot M a b : dot3 (rotate M a) (rotate M b) = dot3 a b.
Proof.
  destruct M as [r s H1 H2 H3]. unfold rotate; cbn [rot1 rot2].
  set (t := cross3 r s).
  set (d := sub3 a (add3 (scale3 (dot3 r a) r) (add3 (scale3 (dot3 s a) s) (scale3 (dot3 t a) t)))).
  assert (Ht : dot3 t t = 1).
  { transitivity (dot3 r r * dot3 s s - dot3 r s * dot3 r s); [|rewrite H1, H2, H3; ring].
    unfold t, dot3, cross3; cbn; ring. }
  assert (Hrt : dot3 r t = 0) by (unfold t, dot3, cross3; cbn; ring).
  assert (Hst : dot3 s t = 0) by (unfold t, dot3, cross3; cbn; ring).
  assert (Hd : forall v, dot3 v d = dot3 v a - (dot3 r a * dot3 v r + (dot3 s a * dot3 v s + dot3 t a * dot3 v t))).
  { intros v. unfold d, dot3, sub3, add3, scale3; cbn; ring. }
  assert (dr : dot3 r d = 0) by (rewrite Hd, H1, H3, Hrt; ring).
  assert (ds : dot3 s d = 0).
  { rewrite Hd, H2, Hst. replace (dot3 s r) with (dot3 r s) by (unfold dot3; ring). rewrite H3. ring. }
  assert (dt : dot3 t d = 0).
  { rewrite Hd, Ht. replace (dot3 t r) with (dot3 r t) by (unfold dot3; ring).
    replace (dot3 t s) with (dot3 s t) by (unfold dot3; ring). rewrite Hrt, Hst. ring. }
  assert (Hdd : dot3 d d = 0).
  { (* |d|^2 |t|^2 = |d x t|^2 + (d.t)^2 and d x (r x s) = r (d.s) - s (d.r) *)
    assert (Hx : dot3 d d * dot3 t t = dot3 (cross3 d t) (cross3 d t) + dot3 t d * dot3 t d).
    { unfold dot3, cross3; cbn; ring. }
    assert (Hc : cross3 d t = sub3 (scale3 (dot3 s d) r) (scale3 (dot3 r d) s)).
    { unfold t, sub3, scale3, dot3, cross3. r3; ring. }
    rewrite Hc, ds, dr, dt, Ht in Hx.
    replace (dot3 (sub3 (scale3 0 r) (scale3 0 s)) (sub3 (scale3 0 r) (scale3 0 s))) with 0 in Hx
      by (unfold dot3, sub3, scale3; cbn; ring). lra. }
  apply dot3_zero in Hdd.
  assert (Hab : dot3 b d = 0) by (rewrite Hdd; unfold dot3; cbn; ring).
  rewrite Hd in Hab.
  replace (dot3 a b) with (dot3 b a) by (unfold dot3; ring). unfold dot3 at 1; cbn.
  replace (dot3 b r) with (dot3 r b) in Hab by (unfold dot3; ring).
  replace (dot3 b s) with (dot3 s b) in Hab by (unfold dot3; ring).
  replace (dot3 b t) with (dot3 t b) in Hab by (unfold dot3; ring). lra.
Qed.

Lemma rotate_add M a b : rotate M (add3 a b) = add3 (rotate M a) (rotate M b).
Proof. unfold rotate, add3, dot3. r3; ring. Qed.
Lemma rotate_scale M k a : rotate M (scale3 k a) = scale3 k (rotate M a).
Proof. unfold rotate, scale3, dot3. r3; ring. Qed.
Lemma rotate_cross M a b : cross3 (rotate M a) (rotate M b) = rotate M (cross3 a b).
Proof.
  destruct M as [r s H1 H2 H3]. unfold rotate; cbn [rot1 rot2].
  set (t := cross3 r s).
  (* (u.a)(v.b) - (v.a)(u.b) = (u x v).(a x b) *)
  assert (L : forall u v, dot3 u a * dot3 v b - dot3 v a * dot3 u b = dot3 (cross3 u v) (cross3 a b)).
  { intros; unfold dot3, cross3; cbn; ring. }
  assert (Hst : cross3 s t = r).
  { unfold t. transitivity (sub3 (scale3 (dot3 s s) r) (scale3 (dot3 r s) s)).
    - unfold sub3, scale3, dot3, cross3; r3; ring.
    - rewrite H2, H3. unfold sub3, scale3; r3; ring. }
  assert (Htr : cross3 t r = s).
  { unfold t. transitivity (sub3 (scale3 (dot3 r r) s) (scale3 (dot3 r s) r)).
    - unfold sub3, scale3, dot3, cross3; r3; ring.
    - rewrite H1, H3. unfold sub3, scale3; r3; ring. }
  unfold cross3 at 1. cbn [x3 y3 z3]. rewrite !L, Hst, Htr. reflexivity.
Qed.

Lemma rotate_norm M a : norm3 (rotate M a) = norm3 a.
Proof. unfold norm3. now rewrite rotate_dot. Qed.

Lemma chi_cov_rotate M m c Es p0 p E B :
  chi_cov m c Es p0 (rotate M p) (rotate M E) (rotate M B) = chi_cov m c Es p0 p E B.
Proof.
  unfold chi_cov, force2. cbn zeta.
  rewrite rotate_cross, <- !rotate_scale, <- rotate_add, !rotate_dot. reflexivity.
Qed.

Lemma rotate_nonzero M p : p <> zero3 -> rotate M p <> zero3.
Proof. intros H H0. apply H, norm3_zero. rewrite <- (rotate_norm M p). apply norm3_zero, H0. Qed.

(** ** boosts *)
Lemma boost_gamma_sq b : b * b < 1 -> boost_gamma b * boost_gamma b * (1 - b * b) = 1.
Proof.
  intros. unfold boost_gamma. assert (0 < sqrt (1 - b * b)) by (apply sqrt_lt_R0; lra).
  rewrite <- (sqrt_sqrt (1 - b * b)) at 3 by lra. field. lra.
Qed.
Lemma boost_gamma_pos b : b * b < 1 -> 0 < boost_gamma b.
Proof. intros. apply Rinv_0_lt_compat, sqrt_lt_R0; lra. Qed.

Definition boost_p0 (b p0 : R) (p : R3) : R := boost_gamma b * (p0 - b * x3 p).

Lemma force2_boost c b p0 p E B : 0 < c -> b * b < 1 ->
  force2 c (boost_p0 b p0 p) (boost_p b p0 p) (boost_E c b E B) (boost_B c b E B) = force2 c p0 p E B.
Proof.
  intros Hc Hb. assert (G := boost_gamma_sq b Hb). unfold boost_p0, boost_p, boost_E, boost_B.
  set (g := boost_gamma b) in *. clearbody g.
  unfold force2. cbn zeta.
  destruct p as [p1 p2 p3], E as [e1 e2 e3], B as [b1 b2 b3]. cbn [x3 y3 z3].
  set (h1 := c * b1). set (h2 := c * b2). set (h3 := c * b3).
  set (fx := p0 * e1 + (p2 * h3 - p3 * h2)). set (q := p1 * e1 + p2 * e2 + p3 * e3).
  set (fy := p0 * e2 - p1 * h3). set (fz := p0 * e3 + p1 * h2).
  match goal with |- dot3 ?f ?f - ?r * ?r = dot3 ?f0 ?f0 - ?r0 * ?r0 =>
    replace f with (mk3 (g * (fx - b * q)) (g * g * (1 - b * b) * fy + p3 * h1) (g * g * (1 - b * b) * fz - p2 * h1));
    [replace r with (g * (q - b * fx)); [replace f0 with (mk3 fx (fy + p3 * h1) (fz - p2 * h1)); [replace r0 with q|]|]|]
  end.
  - rewrite G. unfold dot3; cbn.
    transitivity ((g * g * (1 - b * b)) * (fx * fx - q * q) + (fy + p3 * h1) * (fy + p3 * h1) + (fz - p2 * h1) * (fz - p2 * h1)); [ring|].
    rewrite G. ring.
  - reflexivity.
  - unfold fx, fy, fz, h1, h2, h3, add3, scale3, cross3. r3; ring.
  - unfold q, fx, h2, h3, dot3; cbn. ring.
  - unfold q, fx, fy, fz, h1, h2, h3, add3, scale3, cross3. r3; field; lra.
Qed.

Lemma boost_p0_photon b p : b * b < 1 -> p0_photon (boost_p b (p0_photon p) p) = boost_p0 b (p0_photon p) p.
Proof.
  intros Hb. unfold p0_photon. assert (G := boost_gamma_sq b Hb). assert (Hg := boost_gamma_pos b Hb).
  unfold norm3 at 1. apply sqrt_lem_1.
  - apply dot3_nonneg.
  - unfold boost_p0. apply Rmult_le_pos; [lra|].
    assert (Hx : x3 p * x3 p <= norm3 p * norm3 p) by (rewrite norm3_sq; unfold dot3; nra).
    pose proof (norm3_nonneg p). 
    assert ((b * x3 p) * (b * x3 p) <= norm3 p * norm3 p) by nra.
    destruct (Rle_lt_dec (b * x3 p) (norm3 p)); [lra|]. nra.
  - unfold boost_p0, boost_p, dot3; cbn [x3 y3 z3].
    assert (Hq := norm3_sq p). unfold dot3 in Hq. set (n := norm3 p) in *. set (g := boost_gamma b) in *.
    transitivity (g * g * (1 - b * b) * (n * n - x3 p * x3 p) + g * (x3 p - b * n) * (g * (x3 p - b * n))); [ring|].
    rewrite G, Hq. ring.
Qed.

Lemma boost_p0_lepton m c b p : b * b < 1 ->
  p0_lepton m c (boost_p b (p0_lepton m c p) p) = boost_p0 b (p0_lepton m c p) p.
Proof.
  intros Hb. assert (G := boost_gamma_sq b Hb). assert (Hg := boost_gamma_pos b Hb).
  assert (Hq := p0_lepton_sq m c p).
  assert (Hn : 0 <= p0_lepton m c p) by apply sqrt_pos.
  set (n := p0_lepton m c p) in *.
  unfold p0_lepton. apply sqrt_lem_1.
  - pose proof (dot3_nonneg (boost_p b n p)). nra.
  - unfold boost_p0. apply Rmult_le_pos; [lra|].
    assert (Hx : x3 p * x3 p <= n * n) by (rewrite Hq; unfold dot3; nra).
    assert ((b * x3 p) * (b * x3 p) <= n * n) by nra.
    destruct (Rle_lt_dec (b * x3 p) n); [lra|]. nra.
  - unfold boost_p0, boost_p, dot3; cbn [x3 y3 z3]. unfold dot3 in Hq. set (g := boost_gamma b) in *.
    transitivity (g * g * (1 - b * b) * (n * n - x3 p * x3 p) + g * (x3 p - b * n) * (g * (x3 p - b * n))); [ring|].
    rewrite G, Hq. ring.
Qed.

(** the boosted momentum of a photon does not vanish; that of a lepton vanishes
    in its rest frame only *)
Lemma boost_photon_nonzero b p : b * b < 1 -> p <> zero3 -> boost_p b (p0_photon p) p <> zero3.
Proof.
  intros Hb Hp H0. assert (Hn := norm3_pos p Hp). assert (Hg := boost_gamma_pos b Hb).
  assert (H1 := boost_p0_photon b p Hb). rewrite H0 in H1.
  unfold p0_photon at 1 in H1. replace (norm3 zero3) with 0 in H1 by (symmetry; now apply norm3_zero).
  unfold boost_p0 in H1. symmetry in H1. apply Rmult_integral in H1. destruct H1 as [H1|H1]; [lra|].
  unfold p0_photon in *.
  assert (Hx : x3 p * x3 p <= norm3 p * norm3 p) by (rewrite norm3_sq; unfold dot3; nra).
  assert (Hbx : norm3 p = b * x3 p) by lra.
  assert (Hnn : norm3 p * norm3 p = (b * b) * (x3 p * x3 p)) by (rewrite Hbx; ring).
  assert (0 < norm3 p * norm3 p) by nra.
  destruct (Req_dec (x3 p) 0) as [Hx0|Hx0].
  - rewrite Hx0 in Hnn. lra.
  - assert (0 < x3 p * x3 p) by nra. nra.
Qed.

Lemma chi_photon_boost si b p E B lam : b * b < 1 -> 0 < lam ->
  chi_photon (units si) (F (boost_p b (p0_photon p) p)) (F (boost_E (nu_c si) b E B)) (F (boost_B (nu_c si) b E B)) (Fin lam)
  = chi_photon (units si) (F p) (F E) (F B) (Fin lam).
Proof.
  intros Hb Hl. destruct (Req_dec (dot3 p p) 0) as [Hz|Hz].
  - apply dot3_zero in Hz. subst p.
    replace (boost_p b (p0_photon zero3) zero3) with zero3.
    + now rewrite !chi_photon_zero.
    + unfold p0_photon. replace (norm3 zero3) with 0 by (symmetry; now apply norm3_zero).
      unfold boost_p. r3; ring.
  - assert (p <> zero3) by (intros ->; apply Hz; unfold dot3; cbn; ring).
    rewrite !chi_photon_val; try assumption; [|now apply boost_photon_nonzero].
    f_equal. unfold chi_cov. rewrite boost_p0_photon, force2_boost by (try assumption; apply nu_c_pos). reflexivity.
Qed.

Lemma chi_lepton_boost si b p E B lam : b * b < 1 -> 0 < lam -> p <> zero3 ->
  boost_p b (p0_lepton (nu_m si) (nu_c si) p) p <> zero3 ->
  chi_lepton (units si) (F (boost_p b (p0_lepton (nu_m si) (nu_c si) p) p))
     (F (boost_E (nu_c si) b E B)) (F (boost_B (nu_c si) b E B)) (Fin lam)
  = chi_lepton (units si) (F p) (F E) (F B) (Fin lam).
Proof.
  intros Hb Hl Hp Hp'. rewrite !chi_lepton_val by assumption. f_equal. unfold chi_cov.
  rewrite boost_p0_lepton, force2_boost by (try assumption; apply nu_c_pos). reflexivity.
Qed.

(** at rest: chi_cov is |E| / E_s but the function returns 0 *)
Lemma chi_cov_rest m c Es E B : 0 < m -> 0 < c -> 0 < Es ->
  chi_cov m c Es (p0_lepton m c zero3) zero3 E B = norm3 E / Es.
Proof.
  intros. assert (0 < m * c) by nra.
  replace (p0_lepton m c zero3) with (m * c).
  - unfold chi_cov, force2. cbn zeta.
    replace (_ - _) with ((m * c) * (m * c) * dot3 E E) by (unfold dot3, add3, scale3, cross3; cbn; ring).
    rewrite <- sqrt_mult_l by (try apply dot3_nonneg; lra). fold (norm3 E). field. lra.
  - symmetry. unfold p0_lepton. replace (dot3 zero3 zero3 + m * c * (m * c)) with ((m * c) * (m * c)) by (unfold dot3; cbn; ring).
    apply sqrt_square. lra.
Qed.

(** ** textbook forms *)
Lemma unit3_dot p : p <> zero3 -> dot3 (unit3 p) (unit3 p) = 1.
Proof.
  intros H. assert (Hn := norm3_pos p H). unfold unit3. rewrite dot3_scale2, <- norm3_sq. field. lra.
Qed.

Lemma force2_photon c p E B : p <> zero3 ->
  sqrt (force2 c (p0_photon p) p E B) =
  norm3 p * sqrt (dot3 (add3 E (scale3 c (cross3 (unit3 p) B))) (add3 E (scale3 c (cross3 (unit3 p) B)))
                  - dot3 (unit3 p) E * dot3 (unit3 p) E).
Proof.
  intros H. assert (Hn := norm3_pos p H).
  assert (Heq : force2 c (p0_photon p) p E B = norm3 p * norm3 p *
    (dot3 (add3 E (scale3 c (cross3 (unit3 p) B))) (add3 E (scale3 c (cross3 (unit3 p) B)))
                  - dot3 (unit3 p) E * dot3 (unit3 p) E)).
  { unfold force2, p0_photon, unit3. cbn zeta. unfold dot3, add3, scale3, cross3; cbn. field. lra. }
  rewrite Heq. symmetry. apply sqrt_mult_l; [lra|].
  assert (0 <= force2 c (p0_photon p) p E B) by (apply force2_nonneg; unfold p0_photon; rewrite norm3_sq; lra).
  rewrite Heq in H0. apply Rmult_le_reg_l with (norm3 p * norm3 p); [nra|]. lra.
Qed.

Lemma force2_lepton m c p E B : 0 < m -> 0 < c ->
  let g := lorentz m c p in
  let beta := scale3 (/ (g * m * c)) p in
  sqrt (force2 c (p0_lepton m c p) p E B) =
  g * m * c * sqrt (dot3 (add3 E (cross3 (scale3 c beta) B)) (add3 E (cross3 (scale3 c beta) B))
                  - dot3 beta E * dot3 beta E).
Proof.
  intros Hm Hc. cbn zeta. assert (HP := p0_lepton_pos m c p Hm Hc).
  assert (Hg : lorentz m c p * m * c = p0_lepton m c p) by (unfold lorentz; field; lra).
  rewrite Hg. set (P := p0_lepton m c p) in *.
  assert (Heq : force2 c P p E B = P * P *
     (dot3 (add3 E (cross3 (scale3 c (scale3 (/ P) p)) B)) (add3 E (cross3 (scale3 c (scale3 (/ P) p)) B))
                  - dot3 (scale3 (/ P) p) E * dot3 (scale3 (/ P) p) E)).
  { unfold force2. cbn zeta. unfold dot3, add3, scale3, cross3; cbn. field. lra. }
  rewrite Heq. symmetry. apply sqrt_mult_l; [lra|].
  assert (0 <= force2 c P p E B).
  { apply force2_nonneg. unfold P. rewrite p0_lepton_sq. assert (0 < m * c) by nra. nra. }
  rewrite Heq in H. apply Rmult_le_reg_l with (P * P); [nra|]. lra.
Qed.

Lemma chi_photon_textbook si p E B lam : p <> zero3 -> 0 < lam ->
  let m := nu_m si in let c := nu_c si in let Es := nu_Es si * nu_lambda si lam in
  let n := unit3 p in
  let L := add3 E (scale3 c (cross3 n B)) in
  chi_photon (units si) (F p) (F E) (F B) (Fin lam)
  = Fin (norm3 p / (m * c * Es) * sqrt (dot3 L L - dot3 n E * dot3 n E)).
Proof.
  intros Hp Hl. cbn zeta. rewrite chi_photon_val by assumption. f_equal. unfold chi_cov.
  rewrite force2_photon by assumption. unfold Rdiv. ring.
Qed.

Lemma chi_lepton_textbook si p E B lam : p <> zero3 -> 0 < lam ->
  let m := nu_m si in let c := nu_c si in let Es := nu_Es si * nu_lambda si lam in
  let g := lorentz m c p in
  let beta := scale3 (/ (g * m * c)) p in
  let L := add3 E (cross3 (scale3 c beta) B) in
  chi_lepton (units si) (F p) (F E) (F B) (Fin lam)
  = Fin (g / Es * sqrt (dot3 L L - dot3 beta E * dot3 beta E)).
Proof.
  intros Hp Hl. cbn zeta. rewrite chi_lepton_val by assumption. f_equal. unfold chi_cov.
  pose proof (nu_m_pos si). pose proof (nu_c_pos si). pose proof (nu_Es_pos si). pose proof (nu_lambda_pos si lam Hl).
  pose proof (force2_lepton (nu_m si) (nu_c si) p E B H H0) as HF. cbn zeta in HF. rewrite HF.
  field. repeat split; lra.
Qed.

Lemma chi_cov_nonneg m c Es p0 p E B : 0 < m -> 0 < c -> 0 < Es -> 0 <= chi_cov m c Es p0 p E B.
Proof.
  intros. apply Rmult_le_pos; [apply sqrt_pos|]. apply Rlt_le, Rinv_0_lt_compat.
  repeat apply Rmult_lt_0_compat; assumption.
Qed.

Lemma chi_photon_nonneg si p E B lam : 0 < lam ->
  exists v, chi_photon (units si) (F p) (F E) (F B) (Fin lam) = Fin v /\ 0 <= v.
Proof.
  intros Hl. destruct (Req_dec (dot3 p p) 0) as [Hz|Hz].
  - apply dot3_zero in Hz. subst p. exists 0. rewrite chi_photon_zero. split; [reflexivity|lra].
  - rewrite chi_photon_val; [|intros ->; apply Hz; unfold dot3; cbn; ring|assumption].
    eexists; split; [reflexivity|]. apply chi_cov_nonneg;
      [apply nu_m_pos|apply nu_c_pos|apply Rmult_lt_0_compat; [apply nu_Es_pos|now apply nu_lambda_pos]].
Qed.
Lemma chi_lepton_nonneg si p E B lam : 0 < lam ->
  exists v, chi_lepton (units si) (F p) (F E) (F B) (Fin lam) = Fin v /\ 0 <= v.
Proof.
  intros Hl. destruct (Req_dec (dot3 p p) 0) as [Hz|Hz].
  - apply dot3_zero in Hz. subst p. exists 0. rewrite chi_lepton_zero. split; [reflexivity|lra].
  - rewrite chi_lepton_val; [|intros ->; apply Hz; unfold dot3; cbn; ring|assumption].
    eexists; split; [reflexivity|]. apply chi_cov_nonneg;
      [apply nu_m_pos|apply nu_c_pos|apply Rmult_lt_0_compat; [apply nu_Es_pos|now apply nu_lambda_pos]].
Qed.

(** pure electric field along the photon *)
Lemma chi_photon_parallel si p k lam : 0 < lam ->
  chi_photon (units si) (F p) (F (scale3 k p)) (F zero3) (Fin lam) = Fin 0.
Proof.
  intros Hl. destruct (Req_dec (dot3 p p) 0) as [Hz|Hz].
  - apply dot3_zero in Hz. subst p. apply chi_photon_zero.
  - rewrite chi_photon_val; [|intros ->; apply Hz; unfold dot3; cbn; ring|assumption].
    f_equal. unfold chi_cov. replace (force2 _ _ _ _ _) with 0; [rewrite sqrt_0; unfold Rdiv; ring|].
    unfold force2, p0_photon. cbn zeta.
    transitivity ((norm3 p * norm3 p) * (k * k * dot3 p p) - dot3 p (scale3 k p) * dot3 p (scale3 k p)).
    + rewrite norm3_sq. unfold dot3, scale3; cbn. ring.
    + unfold dot3, scale3, add3, cross3, zero3; cbn. ring.
Qed.

Lemma cross3_scale_r p k v : cross3 p (scale3 k v) = scale3 k (cross3 p v).
Proof. unfold cross3, scale3. r3; ring. Qed.

(** photon in a plane wave of direction n' = s n (s = 1: co-propagating, s = -1:
    counter-propagating) *)
Lemma chi_photon_wave si p E s lam : p <> zero3 -> dot3 p E = 0 -> s * s = 1 -> 0 < lam ->
  chi_photon (units si) (F p) (F E) (F (scale3 (s / nu_c si) (cross3 (unit3 p) E))) (Fin lam)
  = Fin (norm3 p * norm3 E * (1 - s) / (nu_m si * nu_c si * (nu_Es si * nu_lambda si lam))).
Proof.
  intros Hp HpE Hs Hl. rewrite chi_photon_val by assumption. f_equal. unfold chi_cov.
  assert (Hn := norm3_pos p Hp). pose proof (nu_c_pos si). f_equal.
  assert (Hs1 : 0 <= 1 - s) by nra.
  replace (force2 _ _ _ _ _) with ((norm3 p * norm3 E * (1 - s)) * (norm3 p * norm3 E * (1 - s))).
  - apply sqrt_square. pose proof (norm3_nonneg E). repeat apply Rmult_le_pos; lra.
  - unfold force2, p0_photon. cbn zeta. rewrite HpE.
    replace (add3 _ _) with (scale3 (norm3 p * (1 - s)) E).
    + rewrite dot3_scale2. rewrite <- (norm3_sq E). ring.
    + set (c := nu_c si) in *.
      assert (Hc : cross3 p (cross3 (unit3 p) E) = scale3 (- norm3 p) E).
      { transitivity (sub3 (scale3 (dot3 p E) (unit3 p)) (scale3 (dot3 p (unit3 p)) E)).
        - unfold sub3, scale3, dot3, cross3. r3; ring.
        - rewrite HpE. replace (dot3 p (unit3 p)) with (norm3 p).
          + unfold sub3, scale3. r3; ring.
          + unfold unit3. transitivity (/ norm3 p * dot3 p p); [|unfold dot3, scale3; cbn; ring].
            rewrite <- norm3_sq. field. lra. }
      assert (Hc2 : cross3 p (scale3 (s / c) (cross3 (unit3 p) E)) = scale3 (s / c) (scale3 (- norm3 p) E)).
      { rewrite <- Hc. apply cross3_scale_r. }
      rewrite Hc2. unfold add3, scale3. r3; field; lra.
Qed.

(** ** lambda *)
Lemma chi_cov_Es m c Es k p0 p E B : 0 < m -> 0 < c -> 0 < Es -> 0 < k ->
  chi_cov m c (Es * k) p0 p E B = chi_cov m c Es p0 p E B / k.
Proof. intros. unfold chi_cov. field. repeat split; lra. Qed.

(** ** the two unit systems agree *)
Lemma force2_units c a k p0 p E B :
  force2 1 (a * p0) (scale3 a p) (scale3 k E) (scale3 (k * c) B) = (a * k) * (a * k) * force2 c p0 p E B.
Proof. unfold force2. cbn zeta. unfold dot3, add3, scale3, cross3; cbn. ring. Qed.

Lemma E_ref_pos lam : 0 < lam -> 0 < E_ref lam.
Proof. intros. unfold E_ref. phpos. Qed.

Lemma chi_units_cov (lam p0 : R) p E B : 0 < lam -> dot3 p p <= p0 * p0 ->
  let a := / (ph_m * ph_c) in
  chi_cov 1 1 (nu_Es false * lam) (a * p0) (scale3 a p) (scale3 (/ E_ref lam) E) (scale3 (/ E_ref lam * ph_c) B)
  = chi_cov ph_m ph_c ph_Es p0 p E B.
Proof.
  intros Hl Hp0. cbn zeta. unfold chi_cov. rewrite force2_units.
  pose proof ph_m_pos. pose proof ph_c_pos. pose proof ph_e_pos. pose proof ph_hbar_pos. pose proof ph_pi_pos.
  pose proof (E_ref_pos lam Hl).
  assert (0 < ph_m * ph_c) by nra.
  rewrite <- sqrt_mult_l.
  - unfold nu_Es, ph_Es, E_ref. field. repeat split; lra.
  - apply Rmult_le_pos; apply Rlt_le, Rinv_0_lt_compat; assumption.
  - apply force2_nonneg, Hp0.
Qed.

Lemma scale3_zero_iff a p : a <> 0 -> scale3 a p = zero3 -> p = zero3.
Proof.
  intros Ha H. destruct p as [x y z]. unfold scale3, zero3 in H; cbn in H. injection H; intros H1 H2 H3.
  apply Rmult_integral in H1, H2, H3. r3; [destruct H3|destruct H2|destruct H1]; auto; contradiction.
Qed.

Lemma norm3_scale a p : 0 <= a -> norm3 (scale3 a p) = a * norm3 p.
Proof. intros. unfold norm3. rewrite dot3_scale2. symmetry. apply sqrt_mult_l; [assumption|apply dot3_nonneg]. Qed.

Lemma chi_photon_units lam lam' p E B : 0 < lam -> 0 < lam' ->
  chi_photon (units false) (F (scale3 (/ (ph_m * ph_c)) p)) (F (scale3 (/ E_ref lam) E))
     (F (scale3 (ph_c / E_ref lam) B)) (Fin lam)
  = chi_photon (units true) (F p) (F E) (F B) (Fin lam').
Proof.
  intros Hl Hl'. pose proof ph_m_pos. pose proof ph_c_pos. assert (0 < ph_m * ph_c) by nra.
  assert (Ha : 0 < / (ph_m * ph_c)) by now apply Rinv_0_lt_compat.
  destruct (Req_dec (dot3 p p) 0) as [Hz|Hz].
  - apply dot3_zero in Hz. subst p. replace (scale3 (/ (ph_m * ph_c)) zero3) with zero3 by (r3; ring).
    now rewrite !chi_photon_zero.
  - assert (Hp : p <> zero3) by (intros ->; apply Hz; unfold dot3; cbn; ring).
    rewrite !chi_photon_val; try assumption.
    + f_equal. cbn [nu_m nu_c nu_lambda]. unfold p0_photon. rewrite norm3_scale by lra.
      replace (ph_c / E_ref lam) with (/ E_ref lam * ph_c) by (unfold Rdiv; ring).
      pose proof (chi_units_cov lam (norm3 p) p E B Hl) as HC. cbn zeta in HC.
      rewrite HC by (rewrite norm3_sq; lra). unfold nu_Es. now rewrite Rmult_1_r.
    + intros H2. apply scale3_zero_iff in H2; [contradiction|lra].
Qed.

Lemma chi_lepton_units lam lam' p E B : 0 < lam -> 0 < lam' ->
  chi_lepton (units false) (F (scale3 (/ (ph_m * ph_c)) p)) (F (scale3 (/ E_ref lam) E))
     (F (scale3 (ph_c / E_ref lam) B)) (Fin lam)
  = chi_lepton (units true) (F p) (F E) (F B) (Fin lam').
Proof.
  intros Hl Hl'. pose proof ph_m_pos. pose proof ph_c_pos. assert (0 < ph_m * ph_c) by nra.
  assert (Ha : 0 < / (ph_m * ph_c)) by now apply Rinv_0_lt_compat.
  destruct (Req_dec (dot3 p p) 0) as [Hz|Hz].
  - apply dot3_zero in Hz. subst p. replace (scale3 (/ (ph_m * ph_c)) zero3) with zero3 by (r3; ring).
    now rewrite !chi_lepton_zero.
  - assert (Hp : p <> zero3) by (intros ->; apply Hz; unfold dot3; cbn; ring).
    rewrite !chi_lepton_val; try assumption.
    + f_equal. cbn [nu_m nu_c nu_lambda].
      assert (HL : p0_lepton 1 1 (scale3 (/ (ph_m * ph_c)) p) = / (ph_m * ph_c) * p0_lepton ph_m ph_c p).
      { unfold p0_lepton. rewrite sqrt_mult_l.
        - f_equal. rewrite dot3_scale2. field. lra.
        - lra.
        - pose proof (dot3_nonneg p). nra. }
      rewrite HL.
      replace (ph_c / E_ref lam) with (/ E_ref lam * ph_c) by (unfold Rdiv; ring).
      pose proof (chi_units_cov lam (p0_lepton ph_m ph_c p) p E B Hl) as HC. cbn zeta in HC.
      rewrite HC by (rewrite p0_lepton_sq; nra). unfold nu_Es. now rewrite Rmult_1_r.
    + intros H2. apply scale3_zero_iff in H2; [contradiction|lra].
Qed.


Lemma chi_photon_rotate si M p E B lam : 0 < lam ->
  chi_photon (units si) (F (rotate M p)) (F (rotate M E)) (F (rotate M B)) (Fin lam)
  = chi_photon (units si) (F p) (F E) (F B) (Fin lam).
Proof.
  intros Hl. destruct (Req_dec (dot3 p p) 0) as [Hz|Hz].
  - apply dot3_zero in Hz. subst p. replace (rotate M zero3) with zero3.
    + now rewrite !chi_photon_zero.
    + unfold rotate, dot3. r3; ring.
  - assert (Hp : p <> zero3) by (intros ->; apply Hz; unfold dot3; cbn; ring).
    rewrite !chi_photon_val; auto using rotate_nonzero.
    f_equal. unfold p0_photon. rewrite rotate_norm. apply chi_cov_rotate.
Qed.
Lemma chi_lepton_rotate si M p E B lam : 0 < lam ->
  chi_lepton (units si) (F (rotate M p)) (F (rotate M E)) (F (rotate M B)) (Fin lam)
  = chi_lepton (units si) (F p) (F E) (F B) (Fin lam).
Proof.
  intros Hl. destruct (Req_dec (dot3 p p) 0) as [Hz|Hz].
  - apply dot3_zero in Hz. subst p. replace (rotate M zero3) with zero3.
    + now rewrite !chi_lepton_zero.
    + unfold rotate, dot3. r3; ring.
  - assert (Hp : p <> zero3) by (intros ->; apply Hz; unfold dot3; cbn; ring).
    rewrite !chi_lepton_val; auto using rotate_nonzero.
    f_equal. unfold p0_lepton. rewrite rotate_dot. apply chi_cov_rotate.
Qed.

Lemma chi_photon_lambda si k lam p E B : 0 < lam -> 0 < k ->
  exists v, chi_photon (units si) (F p) (F E) (F B) (Fin lam) = Fin v /\
            chi_photon (units si) (F p) (F E) (F B) (Fin (k * lam)) = Fin (if si then v else v / k).
Proof.
  intros Hl Hk. assert (Hkl : 0 < k * lam) by nra. destruct (Req_dec (dot3 p p) 0) as [Hz|Hz].
  - apply dot3_zero in Hz. subst p. exists 0. rewrite !chi_photon_zero. split; [reflexivity|].
    destruct si; [reflexivity|]. f_equal. unfold Rdiv. ring.
  - assert (Hp : p <> zero3) by (intros ->; apply Hz; unfold dot3; cbn; ring).
    eexists. rewrite !chi_photon_val by assumption. split; [reflexivity|]. f_equal.
    pose proof (nu_m_pos si). pose proof (nu_c_pos si). pose proof (nu_Es_pos si).
    destruct si; cbn [nu_lambda]; [reflexivity|]. rewrite !chi_cov_Es by assumption. field. lra.
Qed.
Lemma chi_lepton_lambda si k lam p E B : 0 < lam -> 0 < k ->
  exists v, chi_lepton (units si) (F p) (F E) (F B) (Fin lam) = Fin v /\
            chi_lepton (units si) (F p) (F E) (F B) (Fin (k * lam)) = Fin (if si then v else v / k).
Proof.
  intros Hl Hk. assert (Hkl : 0 < k * lam) by nra. destruct (Req_dec (dot3 p p) 0) as [Hz|Hz].
  - apply dot3_zero in Hz. subst p. exists 0. rewrite !chi_lepton_zero. split; [reflexivity|].
    destruct si; [reflexivity|]. f_equal. unfold Rdiv. ring.
  - assert (Hp : p <> zero3) by (intros ->; apply Hz; unfold dot3; cbn; ring).
    eexists. rewrite !chi_lepton_val by assumption. split; [reflexivity|]. f_equal.
    pose proof (nu_m_pos si). pose proof (nu_c_pos si). pose proof (nu_Es_pos si).
    destruct si; cbn [nu_lambda]; [reflexivity|]. rewrite !chi_cov_Es by assumption. field. lra.
Qed.
End V.

(** ** lambda and units, for every arithmetic *)
Lemma chi_photon_si_lambda (N : NumOps) p e b l1 l2 :
  chi_photon (units (N := N) true) p e b l1 = chi_photon (units (N := N) true) p e b l2.
Proof. reflexivity. Qed.
Lemma chi_lepton_si_lambda (N : NumOps) p e b l1 l2 :
  chi_lepton (units (N := N) true) p e b l1 = chi_lepton (units (N := N) true) p e b l2.
Proof. reflexivity. Qed.

(** ** vector laws *)
Lemma vec_laws tg a b d k :
  let A := F3 tg a in let B := F3 tg b in let D := F3 tg d in
  let K : num (RX tg) := Fin k in let M1 : num (RX tg) := Fin (-1) in
  dot A B = dot B A /\
  dot A (vadd B D) = n_add (dot A B) (dot A D) /\
  dot A (vscale_l K B) = n_mul K (dot A B) /\
  cross A B = vscale_l M1 (cross B A) /\
  cross A (vadd B D) = vadd (cross A B) (cross A D) /\
  cross A (vscale_l K B) = vscale_l K (cross A B) /\
  dot A (cross A B) = Fin 0 /\ dot B (cross A B) = Fin 0 /\
  cross A (cross B D) = vsub (vscale_l (dot A D) B) (vscale_l (dot A B) D) /\
  n_add (norm2 (cross A B)) (n_mul (dot A B) (dot A B)) = n_mul (norm2 A) (norm2 B) /\
  vscale_r A K = vscale_l K A /\
  vadd A (vsub B A) = B /\
  (k <> 0 -> vscale_l K (vdiv A K) = A).
Proof.
  cbn zeta. unfold F3, dot, cross, vadd, vsub, vscale_l, vscale_r, norm2; cbn.
  repeat split; intros; try solve [repeat (first [ring | progress f_equal])].
  unfold vdiv; cbn. destruct (Req_EM_T k 0); [contradiction|]. cbn. destruct a as [x y z]; cbn.
  f_equal; f_equal; field; assumption.
Qed.

Lemma norm_laws tg a b k :
  let A := F3 tg a in let B := F3 tg b in let K : num (RX tg) := Fin k in
  exists na nb nab nka ab,
    norm A = Fin na /\ norm B = Fin nb /\ norm (vadd A B) = Fin nab /\
    norm (vscale_l K A) = Fin nka /\ dot A B = Fin ab /\
    0 <= na /\ (na = 0 <-> a = mk3 0 0 0) /\ n_mul (norm A) (norm A) = dot A A /\
    nka = Rabs k * na /\ Rabs ab <= na * nb /\ nab <= na + nb.
Proof.
  cbn zeta. exists (norm3 a), (norm3 b), (norm3 (add3 a b)), (norm3 (scale3 k a)), (dot3 a b).
  rewrite F3_scale_l, F3_add, !F3_norm.
  assert (Hcs : Rabs (dot3 a b) <= norm3 a * norm3 b).
  { apply Rsqr_incr_0_var; [|apply Rmult_le_pos; apply norm3_nonneg]. rewrite <- Rsqr_abs. unfold Rsqr.
    replace (norm3 a * norm3 b * (norm3 a * norm3 b)) with ((norm3 a * norm3 a) * (norm3 b * norm3 b)) by ring.
    rewrite !norm3_sq. apply cauchy. }
  repeat split; auto using norm3_nonneg.
  - intros H. apply norm3_zero in H. exact H.
  - intros ->. now apply norm3_zero.
  - rewrite fmul, F3_dot. f_equal. apply norm3_sq.
  - unfold norm3. rewrite dot3_scale2. replace (k * k) with (Rabs k * Rabs k).
    + symmetry. apply sqrt_mult_l; [apply Rabs_pos|apply dot3_nonneg].
    + rewrite <- Rabs_mult. apply Rabs_right. nra.
  - pose proof (norm3_nonneg a). pose proof (norm3_nonneg b).
    apply Rsqr_incr_0_var; [|lra]. unfold Rsqr. rewrite norm3_sq.
    replace (dot3 (add3 a b) (add3 a b)) with (dot3 a a + 2 * dot3 a b + dot3 b b) by (unfold dot3, add3; cbn; ring).
    rewrite <- !norm3_sq. pose proof (Rle_abs (dot3 a b)). nra.
Qed.

Lemma vec_operations tg a b k :
  dot (F3 tg a) (F3 tg b) = Fin (dot3 a b) /\ cross (F3 tg a) (F3 tg b) = F3 tg (cross3 a b) /\
  vadd (F3 tg a) (F3 tg b) = F3 tg (add3 a b) /\ vsub (F3 tg a) (F3 tg b) = F3 tg (sub3 a b) /\
  @vscale_l (RX tg) (Fin k) (F3 tg a) = F3 tg (scale3 k a) /\ @vscale_r (RX tg) (F3 tg a) (Fin k) = F3 tg (scale3 k a) /\
  (k <> 0 -> @vdiv (RX tg) (F3 tg a) (Fin k) = F3 tg (scale3 (/ k) a)) /\
  norm2 (F3 tg a) = Fin (dot3 a a) /\ norm (F3 tg a) = Fin (norm3 a).
Proof.
  repeat split; try reflexivity; try apply F3_scale_l; try apply F3_div; try apply F3_norm.
Qed.

Lemma chi_si_lambda (N : NumOps) p e b l1 l2 :
  chi_photon (units (N := N) true) p e b l1 = chi_photon (units (N := N) true) p e b l2 /\
  chi_lepton (units (N := N) true) p e b l1 = chi_lepton (units (N := N) true) p e b l2.
Proof. split; reflexivity. Qed.

Lemma chi_lepton_rest tg si E B lam : 0 < lam -> E <> zero3 ->
  chi_lepton (units si) (F3 tg zero3) (F3 tg E) (F3 tg B) (Fin lam) = Fin 0 /\
  chi_cov (nu_m si) (nu_c si) (nu_Es si * nu_lambda si lam) (p0_lepton (nu_m si) (nu_c si) zero3) zero3 E B
    = norm3 E / (nu_Es si * nu_lambda si lam) /\
  0 < norm3 E / (nu_Es si * nu_lambda si lam).
Proof.
  intros Hl HE. assert (0 < nu_Es si * nu_lambda si lam) by (apply Rmult_lt_0_compat; [apply nu_Es_pos|now apply nu_lambda_pos]).
  split; [apply chi_lepton_zero|]. split.
  - apply chi_cov_rest; auto using nu_m_pos, nu_c_pos.
  - apply Rdiv_lt_0_compat; [now apply norm3_pos|assumption].
Qed.

Lemma chi_lepton_rest_frame tg : exists p E b v,
  b * b < 1 /\ boost_p b (p0_lepton 1 1 p) p = zero3 /\
  chi_lepton (units false) (F3 tg p) (F3 tg E) (F3 tg zero3) (Fin 1) = Fin v /\ 0 < v /\
  chi_lepton (units false) (F3 tg (boost_p b (p0_lepton 1 1 p) p)) (F3 tg (boost_E 1 b E zero3))
     (F3 tg (boost_B 1 b E zero3)) (Fin 1) = Fin 0.
Proof.
  exists (mk3 (3/4) 0 0), (mk3 0 1 0), (3/5).
  assert (HP : p0_lepton 1 1 (mk3 (3/4) 0 0) = 5/4).
  { unfold p0_lepton, dot3; cbn. replace (_ + _) with ((5/4) * (5/4)) by field. apply sqrt_square. lra. }
  assert (Hb : boost_p (3/5) (p0_lepton 1 1 (mk3 (3/4) 0 0)) (mk3 (3/4) 0 0) = zero3).
  { rewrite HP. unfold boost_p, zero3. r3; field_simplify; try ring.
    unfold Rdiv; ring. }
  eexists. split; [lra|]. split; [exact Hb|]. split; [|split].
  - apply chi_lepton_val; [intros H; injection H; lra|lra].
  - change (nu_m false) with 1. change (nu_c false) with 1. rewrite HP. unfold chi_cov.
    apply Rdiv_lt_0_compat.
    + apply sqrt_lt_R0. unfold force2, dot3, add3, scale3, cross3; cbn. lra.
    + pose proof (nu_Es_pos false). cbn [nu_lambda]. lra.
  - rewrite Hb. apply chi_lepton_zero.
Qed.

(** ** engines and lambda *)
From Coq Require Import List.
From Verif Require Import Oracles BreitWheeler QuantumSync Schwinger.

Lemma last_cons_app {A} (ls : list A) a d : last (a :: ls) d = last ls a.
Proof.
  revert a d. induction ls as [|x ls IH]; intros a d; [reflexivity|].
  change (last (x :: ls) d = last (x :: ls) a). now rewrite !IH.
Qed.

Lemma engines_lambda (N : NumOps) si (G : Rng N) r l0 cb cq ls :
  bw_get_lambda _ (fold_left (bw_set_lambda (units si) G) ls (bw_new (units si) G r l0 cb))
    = (if si then n_lit 1 0 else last ls l0) /\
  qs_get_lambda _ (fold_left (qs_set_lambda (units si) G) ls (qs_new (units si) G r l0 cq))
    = (if si then n_lit 1 0 else last ls l0) /\
  sw_get_lambda _ (fold_left (sw_set_lambda (units si) G) ls (sw_new (units si) G r l0))
    = (if si then n_lit 1 0 else last ls l0).
Proof.
  destruct si.
  - split; [|split].
    + assert (H : forall x, fold_left (bw_set_lambda (units true) G) ls x = x) by (induction ls; cbn; auto).
      now rewrite H.
    + assert (H : forall x, fold_left (qs_set_lambda (units true) G) ls x = x) by (induction ls; cbn; auto).
      now rewrite H.
    + assert (H : forall x, fold_left (sw_set_lambda (units true) G) ls x = x) by (induction ls; cbn; auto).
      now rewrite H.
  - split; [|split].
    + assert (H : forall x, bw_get_lambda _ (fold_left (bw_set_lambda (units false) G) ls x) = last ls (bw_get_lambda _ x)).
      { induction ls as [|a ls IH]; intros x; [reflexivity|]. cbn [fold_left]. rewrite IH, last_cons_app. reflexivity. }
      now rewrite H.
    + assert (H : forall x, qs_get_lambda _ (fold_left (qs_set_lambda (units false) G) ls x) = last ls (qs_get_lambda _ x)).
      { induction ls as [|a ls IH]; intros x; [reflexivity|]. cbn [fold_left]. rewrite IH, last_cons_app. reflexivity. }
      now rewrite H.
    + assert (H : forall x, sw_get_lambda _ (fold_left (sw_set_lambda (units false) G) ls x) = last ls (sw_get_lambda _ x)).
      { induction ls as [|a ls IH]; intros x; [reflexivity|]. cbn [fold_left]. rewrite IH, last_cons_app. reflexivity. }
      now rewrite H.
Qed.
