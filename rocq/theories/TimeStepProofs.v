(** Stability of the leapfrog scheme with differences of any order. *)
From Coq Require Import ZArith Reals List Bool Lia Lra Classical.
From Verif Require Import Cxx Num NumRX Fortran Grid SpecYee SpecCkc SpecTimeStep TimeStep CxxLemmas RXLemmas GridLemmas CkcProofs CkcWaves.
Import ListNotations.
Local Open Scope R_scope.

Lemma Sum_ext n f g : (forall i, (1 <= i <= n)%Z -> f i = g i) -> Sum n f = Sum n g.
Proof. intros H. unfold Sum. f_equal. apply map_ext_in. intros i I. apply in_zrange in I. apply H. exact I. Qed.
Lemma Sum_scal n k f : Sum n (fun i => k * f i) = k * Sum n f.
Proof. unfold Sum. induction (zrange 1 n) as [|i l IH]; cbn; [ring|]. rewrite IH. ring. Qed.
Lemma Sum_le n f g : (forall i, (1 <= i <= n)%Z -> f i <= g i) -> Sum n f <= Sum n g.
Proof.
  intros H. unfold Sum. assert (A : forall i, In i (zrange 1 n) -> f i <= g i) by (intros i I; apply in_zrange in I; apply H; exact I). clear H.
  induction (zrange 1 n) as [|i l IH]; cbn; [lra|]. pose proof (A i (or_introl eq_refl)). specialize (IH (fun j J => A j (or_intror J))). lra.
Qed.
Lemma Sum_abs n f : Rabs (Sum n f) <= Sum n (fun i => Rabs (f i)).
Proof. unfold Sum. induction (zrange 1 n) as [|i l IH]; cbn; [rewrite Rabs_R0; lra|]. eapply Rle_trans; [apply Rabs_triang|]. lra. Qed.

(** ** plane waves *)
Section W.
Variable S : stencil.
Hypothesis St : ist S = 1%Z.
Definition symbol (d : axis) (k : R) : R := Sum (half_order S d) (fun i => coef S d i * sin (k * (2 * IZR i - 1) / 2)).
Lemma fwd_cos kx ky kz phi d p : fwd S d (plane_wave kx ky kz phi) p = - 2 * symbol d (kof kx ky kz d) * sin (phase kx ky kz phi p + kof kx ky kz d / 2).
Proof.
  unfold fwd, symbol. rewrite (Sum_ext _ _ (fun i => (- 2 * sin (phase kx ky kz phi p + kof kx ky kz d / 2)) * (coef S d i * sin (kof kx ky kz d * (2 * IZR i - 1) / 2)))).
  - rewrite Sum_scal. ring.
  - intros i _. unfold plane_wave. rewrite !wave_shift, St, minus_IZR, form2.
    set (t := phase kx ky kz phi p). set (k := kof kx ky kz d). set (r := IZR i).
    replace ((t + k * r - (t + k * (1 - r))) / 2) with (k * (2 * r - 1) / 2) by field.
    replace ((t + k * r + (t + k * (1 - r))) / 2) with (t + k / 2) by field. ring.
Qed.
Lemma bwd_sin kx ky kz phi d p a (f : idx -> R) : (forall q, f q = a * sin (phase kx ky kz phi q + kof kx ky kz d / 2)) ->
  bwd S d f p = 2 * a * symbol d (kof kx ky kz d) * cos (phase kx ky kz phi p).
Proof.
  intros Hf. unfold bwd, symbol. rewrite (Sum_ext _ _ (fun i => (2 * a * cos (phase kx ky kz phi p)) * (coef S d i * sin (kof kx ky kz d * (2 * IZR i - 1) / 2)))).
  - rewrite Sum_scal. ring.
  - intros i _. rewrite !Hf, !wave_shift, St, minus_IZR, opp_IZR.
    set (t := phase kx ky kz phi p). set (k := kof kx ky kz d). set (r := IZR i).
    replace (a * sin (t + k * (r - 1) + k / 2) - a * sin (t + k * - r + k / 2)) with (a * (sin (t + k * (r - 1) + k / 2) - sin (t + k * - r + k / 2))) by ring.
    rewrite form4.
    replace ((t + k * (r - 1) + k / 2 - (t + k * - r + k / 2)) / 2) with (k * (2 * r - 1) / 2) by field.
    replace ((t + k * (r - 1) + k / 2 + (t + k * - r + k / 2)) / 2) with t by field. ring.
Qed.
Definition power (kx ky kz : R) : R := symbol AX kx ^ 2 + symbol AY ky ^ 2 + symbol AZ kz ^ 2.
Lemma laplacian_wave kx ky kz phi p : laplacian S (plane_wave kx ky kz phi) p = - (4 * power kx ky kz) * plane_wave kx ky kz phi p.
Proof.
  unfold laplacian, power. rewrite !(bwd_sin kx ky kz phi _ p _ _ (fun q => fwd_cos kx ky kz phi _ q)). cbn [kof]. unfold plane_wave. ring.
Qed.
Lemma fwd_scal d f a p : fwd S d (fun q => a * f q) p = a * fwd S d f p.
Proof. unfold fwd. rewrite <- Sum_scal. apply Sum_ext. intros; ring. Qed.
Lemma bwd_scal d f g a p : (forall q, g q = a * f q) -> bwd S d g p = a * bwd S d f p.
Proof. intros H. unfold bwd. rewrite <- Sum_scal. apply Sum_ext. intros. rewrite !H. ring. Qed.
Lemma laplacian_scal f a p : laplacian S (fun q => a * f q) p = a * laplacian S f p.
Proof. unfold laplacian. rewrite (bwd_scal AX (fwd S AX f) _ a p (fun q => fwd_scal AX f a q)), (bwd_scal AY (fwd S AY f) _ a p (fun q => fwd_scal AY f a q)), (bwd_scal AZ (fwd S AZ f) _ a p (fun q => fwd_scal AZ f a q)). ring. Qed.
(** the amplitude of a plane wave *)
Lemma wave_amp cdt kx ky kz phi u :
  (forall n, u (n + 2)%nat - 2 * u (n + 1)%nat + u n = - (4 * cdt ^ 2 * power kx ky kz) * u (n + 1)%nat) -> wave_run S cdt (one_wave kx ky kz phi u).
Proof.
  intros H n p. unfold one_wave. rewrite laplacian_scal, laplacian_wave. specialize (H n). set (w := plane_wave kx ky kz phi p).
  transitivity ((u (n + 2)%nat - 2 * u (n + 1)%nat + u n) * w); [ring|]. rewrite H. ring.
Qed.
Lemma amp_wave cdt kx ky kz phi u p : wave_run S cdt (one_wave kx ky kz phi u) -> plane_wave kx ky kz phi p <> 0 ->
  forall n, u (n + 2)%nat - 2 * u (n + 1)%nat + u n = - (4 * cdt ^ 2 * power kx ky kz) * u (n + 1)%nat.
Proof.
  intros H Nz n. specialize (H n p). unfold one_wave in H. rewrite laplacian_scal, laplacian_wave in H.
  apply (Rmult_eq_reg_r (plane_wave kx ky kz phi p)); [|exact Nz].
  transitivity (u (n + 2)%nat * plane_wave kx ky kz phi p - 2 * (u (n + 1)%nat * plane_wave kx ky kz phi p) + u n * plane_wave kx ky kz phi p); [ring|]. rewrite H. ring.
Qed.
(** bounded if the power is between 0 and 1 / cdt^2 *)
Lemma run_bounded cdt kx ky kz phi u : 0 < cdt ^ 2 * power kx ky kz < 1 -> wave_run S cdt (one_wave kx ky kz phi u) ->
  exists M, forall n p, Rabs (one_wave kx ky kz phi u n p) <= M.
Proof.
  intros Hp H.
  destruct (classic (exists p, plane_wave kx ky kz phi p <> 0)) as [[p Np]|All].
  - pose proof (amp_wave cdt kx ky kz phi u p H Np) as A.
    destruct (rec_bounded (4 * cdt ^ 2 * power kx ky kz) u) as [M HM]; [lra | |].
    { intros n. specialize (A n). replace (n + 2)%nat with (Datatypes.S (Datatypes.S n)) in A by lia. replace (n + 1)%nat with (Datatypes.S n) in A by lia. exact A. }
    exists M. intros n q. unfold one_wave. rewrite Rabs_mult. pose proof (HM n). pose proof (COS_bound (phase kx ky kz phi q)).
    assert (Rabs (plane_wave kx ky kz phi q) <= 1) by (unfold plane_wave; apply Rabs_le; lra).
    pose proof (Rabs_pos (u n)). pose proof (Rabs_pos (plane_wave kx ky kz phi q)). nra.
  - exists 0. intros n q. unfold one_wave. destruct (Req_dec (plane_wave kx ky kz phi q) 0) as [E|E]; [rewrite E, Rmult_0_r, Rabs_R0; lra|]. exfalso. apply All. exists q. exact E.
Qed.
(** grows if it is larger: u n = lambda^n with lambda < -1 *)
Lemma run_grows cdt kx ky kz : 1 < cdt ^ 2 * power kx ky kz ->
  exists u, wave_run S cdt (one_wave kx ky kz 0 u) /\ forall M, exists n, M < Rabs (one_wave kx ky kz 0 u n (0, 0, 0)%Z).
Proof.
  intros Hp. set (m := cdt ^ 2 * power kx ky kz) in *.
  set (l := 1 - 2 * m - 2 * sqrt (m * (m - 1))).
  assert (Sq : sqrt (m * (m - 1)) * sqrt (m * (m - 1)) = m * (m - 1)) by (apply sqrt_def; nra).
  assert (Sp : 0 <= sqrt (m * (m - 1))) by apply sqrt_pos.
  assert (Q : l * l = (2 - 4 * m) * l - 1) by (unfold l; nra).
  assert (L : 1 < Rabs l) by (rewrite Rabs_left; unfold l; lra).
  exists (pow l). split.
  - apply wave_amp. intros n. replace (4 * cdt ^ 2 * power kx ky kz) with (4 * m) by (unfold m; ring). clearbody l m.
    replace (n + 2)%nat with (Datatypes.S (Datatypes.S n)) by lia. replace (n + 1)%nat with (Datatypes.S n) by lia. cbn [pow].
    transitivity (l ^ n * (l * l) - 2 * (l * l ^ n) + l ^ n); [ring|]. rewrite Q. ring.
  - intros M. destruct (Pow_x_infinity l L (M + 1)) as [n Hn]. exists n. unfold one_wave, plane_wave. cbn [phase]. rewrite !Rmult_0_r, !Rplus_0_r, cos_0, Rmult_1_r. specialize (Hn n (le_n n)). lra.
Qed.
End W.

(** ** the bound on the differences *)
Lemma sin_odd i : sin (PI * (2 * IZR i - 1) / 2) = if Z.odd i then 1 else -1.
Proof.
  assert (P : forall k x, sin (x + IZR k * (2 * PI)) = sin x).
  { intros k x. destruct (Z_le_gt_dec 0 k) as [K|K].
    - replace k with (Z.of_nat (Z.to_nat k)) by lia. rewrite <- INR_IZR_INZ. rewrite <- (sin_period x (Z.to_nat k)). f_equal. ring.
    - rewrite <- (sin_period (x + IZR k * (2 * PI)) (Z.to_nat (- k))). rewrite INR_IZR_INZ, Z2Nat.id by lia. f_equal. rewrite opp_IZR. ring. }
  destruct (Z.odd i) eqn:O.
  - apply Z.odd_spec in O. destruct O as [k ->]. rewrite plus_IZR, mult_IZR. replace (PI * (2 * (2 * IZR k + 1) - 1) / 2) with (PI / 2 + IZR k * (2 * PI)) by field. rewrite P. apply sin_PI2.
  - assert (E : Z.even i = true) by (rewrite <- Z.negb_odd, O; reflexivity). apply Z.even_spec in E. destruct E as [k ->]. rewrite mult_IZR.
    replace (PI * (2 * (2 * IZR k) - 1) / 2) with (- (PI / 2) + IZR k * (2 * PI)) by field. rewrite P, sin_neg, sin_PI2. reflexivity.
Qed.
Section C.
Variables (hx hy hz : R) (cx cy cz : list R).
Notation S := (any_order false hx hy hz cx cy cz).
Definition cof (d : axis) : list R := match d with AX => cx | AY => cy | AZ => cz end.
Definition series (cs : list R) (k : R) : R := Sum (zlen cs) (fun i => weight cs i * sin (k * (2 * IZR i - 1) / 2)).
Lemma symbol_series d k : symbol S d k = / cell hx hy hz d * series (cof d) k.
Proof. unfold symbol, series. rewrite <- Sum_scal. destruct d; cbn [half_order coef any_order cof cell]; apply Sum_ext; intros; unfold Rdiv; ring. Qed.
Lemma series_bound cs k : series cs k ^ 2 <= total cs ^ 2.
Proof.
  rewrite <- !Rsqr_pow2. apply Rsqr_le_abs_1. eapply Rle_trans; [apply Sum_abs|]. rewrite Rabs_pos_eq.
  - apply Sum_le. intros i _. rewrite Rabs_mult. pose proof (SIN_bound (k * (2 * IZR i - 1) / 2)). assert (Rabs (sin (k * (2 * IZR i - 1) / 2)) <= 1) by (apply Rabs_le; lra). pose proof (Rabs_pos (weight cs i)). nra.
  - replace 0 with (Sum (zlen cs) (fun i => 0 * 0)) by (rewrite Sum_scal; ring). apply Sum_le. intros. pose proof (Rabs_pos (weight cs i)). lra.
Qed.
Lemma series_PI cs : alternate cs -> series cs PI = total cs.
Proof.
  intros A. apply Sum_ext. intros i Hi. rewrite sin_odd. specialize (A i Hi). destruct (Z.odd i); [rewrite Rabs_pos_eq by lra; ring | rewrite Rabs_left1 by lra; ring].
Qed.
Lemma series_0 cs : series cs 0 = 0.
Proof. unfold series. rewrite (Sum_ext _ _ (fun i => 0 * 0)); [rewrite Sum_scal; ring|]. intros. replace (0 * (2 * IZR i - 1) / 2) with 0 by field. rewrite sin_0. ring. Qed.
Lemma total_pos cs : 0 <= total cs.
Proof. replace 0 with (Sum (zlen cs) (fun i => 0 * 0)) by (rewrite Sum_scal; ring). apply Sum_le. intros. pose proof (Rabs_pos (weight cs i)). lra. Qed.
Lemma power_series kx ky kz : power S kx ky kz = (/ hx) ^ 2 * series cx kx ^ 2 + (/ hy) ^ 2 * series cy ky ^ 2 + (/ hz) ^ 2 * series cz kz ^ 2.
Proof. unfold power. rewrite !symbol_series. cbn [cell cof]. ring. Qed.
Lemma power_nonneg kx ky kz : 0 <= power S kx ky kz.
Proof. unfold power. pose proof (pow2_ge_0 (symbol S AX kx)). pose proof (pow2_ge_0 (symbol S AY ky)). pose proof (pow2_ge_0 (symbol S AZ kz)). lra. Qed.
Lemma power_pos kx ky kz phi p : laplacian S (plane_wave kx ky kz phi) p <> 0 -> 0 < power S kx ky kz.
Proof. intros H. rewrite laplacian_wave in H by reflexivity. destruct (power_nonneg kx ky kz) as [L|E]; [exact L|]. exfalso. apply H. rewrite <- E. ring. Qed.
End C.

Definition inv2 (hx hy hz : R) : R := 1 / (hx * hx) + 1 / (hy * hy) + 1 / (hz * hz).
Lemma inv_sq h : 0 < h -> 1 / (h * h) = (/ h) ^ 2 /\ 0 < (/ h) ^ 2.
Proof. intros H. split; [field; lra|]. apply pow_lt. apply Rinv_0_lt_compat. exact H. Qed.
Lemma sq_le a b : 0 <= a -> a <= b -> a ^ 2 <= b ^ 2. Proof. intros. nra. Qed.
Lemma lt_sq1 a : 0 <= a < 1 -> a ^ 2 < 1. Proof. nra. Qed.

Section T.
Context {tg : R -> R}.
Notation N := (RX tg).
Notation fin r := (Fin r : num N).
Lemma step3 co c hx hy hz dt0 : 0 < c -> 0 < hx -> 0 < hy -> 0 < hz ->
  @time_step N 3 false (fin co) (fin c) (fin hx) (fin hy) (fin hz) dt0 = fin (co / (c * sqrt (inv2 hx hy hz))).
Proof.
  intros Hc Px Py Pz. unfold time_step, sq. cbn [Z.eqb Pos.eqb]. rewrite !mul_fin. change (@n_one N) with (fin 1). rewrite !div_fin by nra. rewrite !add_fin.
  destruct (inv_sq hx Px) as [Ex Ix], (inv_sq hy Py) as [Ey Iy], (inv_sq hz Pz) as [Ez Iz].
  assert (Q : 0 < inv2 hx hy hz) by (unfold inv2; lra). fold (inv2 hx hy hz).
  change (@n_sqrt N) with x_sqrt. rewrite x_sqrt_fin by lra. change (@n_mul N (fin c) (fin (sqrt (inv2 hx hy hz)))) with (fin (c * sqrt (inv2 hx hy hz))).
  apply div_fin. pose proof (sqrt_lt_R0 _ Q). nra.
Qed.
Lemma step2 co c hx hz hy dt0 : 0 < c -> 0 < hx -> 0 < hz ->
  @time_step N 2 false (fin co) (fin c) (fin hx) hy (fin hz) dt0 = fin (co / (c * sqrt (1 / (hx * hx) + 1 / (hz * hz)))).
Proof.
  intros Hc Px Pz. unfold time_step, sq. cbn [Z.eqb Pos.eqb]. rewrite !mul_fin. change (@n_one N) with (fin 1). rewrite !div_fin by nra. rewrite !add_fin.
  destruct (inv_sq hx Px) as [Ex Ix], (inv_sq hz Pz) as [Ez Iz]. set (q := 1 / (hx * hx) + 1 / (hz * hz)).
  assert (Q : 0 < q) by (unfold q; lra). 
  change (@n_sqrt N) with x_sqrt. rewrite x_sqrt_fin by lra. change (@n_mul N (fin c) (fin (sqrt q))) with (fin (c * sqrt q)).
  apply div_fin. pose proof (sqrt_lt_R0 _ Q). nra.
Qed.
Lemma cdt_sq co c q : 0 < c -> 0 < q -> (c * (co / (c * sqrt q))) ^ 2 * q = co ^ 2.
Proof.
  intros Hc Hq. pose proof (sqrt_lt_R0 _ Hq) as Sp. assert (Sq : sqrt q * sqrt q = q) by (apply sqrt_def; lra).
  replace (c * (co / (c * sqrt q))) with (co / sqrt q) by (field; lra). rewrite <- Sq at 2. field. lra.
Qed.

Theorem bounded3 co c hx hy hz cx cy cz W dt0 : 0 < c -> 0 < hx -> 0 < hy -> 0 < hz -> 0 < co ->
  total cx <= W -> total cy <= W -> total cz <= W -> co * W < 1 ->
  exists dt, @time_step N 3 false (fin co) (fin c) (fin hx) (fin hy) (fin hz) dt0 = fin dt /\ 0 < dt /\
  forall kx ky kz phi u, let S := any_order false hx hy hz cx cy cz in
  (exists p, laplacian S (plane_wave kx ky kz phi) p <> 0) -> wave_run S (c * dt) (one_wave kx ky kz phi u) ->
  exists M, forall n p, Rabs (one_wave kx ky kz phi u n p) <= M.
Proof.
  intros Hc Px Py Pz Hco Wx Wy Wz CFL. exists (co / (c * sqrt (inv2 hx hy hz))). split; [apply step3; assumption|].
  destruct (inv_sq hx Px) as [Ex Ix], (inv_sq hy Py) as [Ey Iy], (inv_sq hz Pz) as [Ez Iz].
  assert (Q : 0 < inv2 hx hy hz) by (unfold inv2; lra). pose proof (sqrt_lt_R0 _ Q) as Sp.
  split; [apply Rdiv_lt_0_compat; [assumption | nra]|].
  intros kx ky kz phi u S [p Hp] Run. apply (run_bounded S eq_refl (c * (co / (c * sqrt (inv2 hx hy hz)))) kx ky kz phi u); [|exact Run].
  pose proof (power_pos _ _ _ _ _ _ _ _ _ _ _ Hp) as Pp. unfold S in *. set (P := power _ _ _ _) in *.
  pose proof (cdt_sq co c (inv2 hx hy hz) Hc Q) as E. set (D := (c * (co / (c * sqrt (inv2 hx hy hz)))) ^ 2) in *.
  assert (Dp : 0 < D). { assert (0 < co ^ 2) by (apply pow_lt; exact Hco). destruct (Rlt_le_dec 0 D); [assumption|]. nra. }
  split; [apply Rmult_lt_0_compat; assumption|].
  assert (B : P <= inv2 hx hy hz * W ^ 2).
  { unfold P. rewrite power_series. unfold inv2. rewrite Ex, Ey, Ez.
    pose proof (series_bound cx kx) as Bx. pose proof (series_bound cy ky) as By. pose proof (series_bound cz kz) as Bz.
    pose proof (sq_le _ _ (total_pos cx) Wx). pose proof (sq_le _ _ (total_pos cy) Wy). pose proof (sq_le _ _ (total_pos cz) Wz).
    assert ((/ hx) ^ 2 * series cx kx ^ 2 <= (/ hx) ^ 2 * W ^ 2) by (apply Rmult_le_compat_l; lra).
    assert ((/ hy) ^ 2 * series cy ky ^ 2 <= (/ hy) ^ 2 * W ^ 2) by (apply Rmult_le_compat_l; lra).
    assert ((/ hz) ^ 2 * series cz kz ^ 2 <= (/ hz) ^ 2 * W ^ 2) by (apply Rmult_le_compat_l; lra). lra. }
  apply Rle_lt_trans with (D * (inv2 hx hy hz * W ^ 2)); [apply Rmult_le_compat_l; lra|].
  replace (D * (inv2 hx hy hz * W ^ 2)) with ((D * inv2 hx hy hz) * W ^ 2) by ring. rewrite E.
  replace (co ^ 2 * W ^ 2) with ((co * W) ^ 2) by ring. apply lt_sq1. pose proof (total_pos cx). split; [apply Rmult_le_pos; lra | exact CFL].
Qed.
Theorem grows3 co c hx hy hz cx cy cz w dt0 : 0 < c -> 0 < hx -> 0 < hy -> 0 < hz -> 0 < co ->
  alternate cx -> alternate cy -> alternate cz -> 0 <= w -> w <= total cx -> w <= total cy -> w <= total cz -> 1 < co * w ->
  exists dt, @time_step N 3 false (fin co) (fin c) (fin hx) (fin hy) (fin hz) dt0 = fin dt /\ 0 < dt /\
  let S := any_order false hx hy hz cx cy cz in
  exists kx ky kz u, wave_run S (c * dt) (one_wave kx ky kz 0 u) /\ forall M, exists n, M < Rabs (one_wave kx ky kz 0 u n (0, 0, 0)%Z).
Proof.
  intros Hc Px Py Pz Hco Ax Ay Az Hw Wx Wy Wz CFL. exists (co / (c * sqrt (inv2 hx hy hz))). split; [apply step3; assumption|].
  destruct (inv_sq hx Px) as [Ex Ix], (inv_sq hy Py) as [Ey Iy], (inv_sq hz Pz) as [Ez Iz].
  assert (Q : 0 < inv2 hx hy hz) by (unfold inv2; lra). pose proof (sqrt_lt_R0 _ Q) as Sp.
  split; [apply Rdiv_lt_0_compat; [assumption | nra]|].
  intros S. exists PI, PI, PI. apply run_grows; [reflexivity|]. unfold S. rewrite power_series, !series_PI by assumption.
  pose proof (cdt_sq co c (inv2 hx hy hz) Hc Q) as E. set (D := (c * (co / (c * sqrt (inv2 hx hy hz)))) ^ 2) in *.
  assert (Dp : 0 < D). { assert (0 < co ^ 2) by (apply pow_lt; exact Hco). destruct (Rlt_le_dec 0 D); [assumption|]. nra. }
  pose proof (sq_le _ _ Hw Wx). pose proof (sq_le _ _ Hw Wy). pose proof (sq_le _ _ Hw Wz).
  assert ((/ hx) ^ 2 * w ^ 2 <= (/ hx) ^ 2 * total cx ^ 2) by (apply Rmult_le_compat_l; lra).
  assert ((/ hy) ^ 2 * w ^ 2 <= (/ hy) ^ 2 * total cy ^ 2) by (apply Rmult_le_compat_l; lra).
  assert ((/ hz) ^ 2 * w ^ 2 <= (/ hz) ^ 2 * total cz ^ 2) by (apply Rmult_le_compat_l; lra).
  apply Rlt_le_trans with (D * (inv2 hx hy hz * w ^ 2)).
  - replace (D * (inv2 hx hy hz * w ^ 2)) with ((D * inv2 hx hy hz) * w ^ 2) by ring. rewrite E. replace (co ^ 2 * w ^ 2) with ((co * w) ^ 2) by ring. nra.
  - apply Rmult_le_compat_l; [lra|]. unfold inv2. rewrite Ex, Ey, Ez. lra.
Qed.
Theorem bounded2 co c hx hy hz cx cy cz W dy dt0 : 0 < c -> 0 < hx -> 0 < hz -> 0 < co -> total cx <= W -> total cz <= W -> co * W < 1 ->
  exists dt, @time_step N 2 false (fin co) (fin c) (fin hx) dy (fin hz) dt0 = fin dt /\ 0 < dt /\
  forall kx kz phi u, let S := any_order false hx hy hz cx cy cz in
  (exists p, laplacian S (plane_wave kx 0 kz phi) p <> 0) -> wave_run S (c * dt) (one_wave kx 0 kz phi u) ->
  exists M, forall n p, Rabs (one_wave kx 0 kz phi u n p) <= M.
Proof.
  intros Hc Px Pz Hco Wx Wz CFL. set (q := 1 / (hx * hx) + 1 / (hz * hz)). exists (co / (c * sqrt q)). split; [apply step2; assumption|].
  destruct (inv_sq hx Px) as [Ex Ix], (inv_sq hz Pz) as [Ez Iz].
  assert (Q : 0 < q) by (unfold q; lra). pose proof (sqrt_lt_R0 _ Q) as Sp.
  split; [apply Rdiv_lt_0_compat; [assumption | nra]|].
  intros kx kz phi u S [p Hp] Run. apply (run_bounded S eq_refl (c * (co / (c * sqrt q))) kx 0 kz phi u); [|exact Run].
  pose proof (power_pos _ _ _ _ _ _ _ _ _ _ _ Hp) as Pp. unfold S in *. set (P := power _ _ _ _) in *.
  pose proof (cdt_sq co c q Hc Q) as E. set (D := (c * (co / (c * sqrt q))) ^ 2) in *.
  assert (Dp : 0 < D). { assert (0 < co ^ 2) by (apply pow_lt; exact Hco). destruct (Rlt_le_dec 0 D); [assumption|]. nra. }
  split; [apply Rmult_lt_0_compat; assumption|].
  assert (B : P <= q * W ^ 2).
  { unfold P. rewrite power_series, series_0. unfold q. rewrite Ex, Ez.
    pose proof (series_bound cx kx) as Bx. pose proof (series_bound cz kz) as Bz.
    pose proof (sq_le _ _ (total_pos cx) Wx). pose proof (sq_le _ _ (total_pos cz) Wz).
    assert ((/ hx) ^ 2 * series cx kx ^ 2 <= (/ hx) ^ 2 * W ^ 2) by (apply Rmult_le_compat_l; lra).
    assert ((/ hz) ^ 2 * series cz kz ^ 2 <= (/ hz) ^ 2 * W ^ 2) by (apply Rmult_le_compat_l; lra). lra. }
  apply Rle_lt_trans with (D * (q * W ^ 2)); [apply Rmult_le_compat_l; lra|].
  replace (D * (q * W ^ 2)) with ((D * q) * W ^ 2) by ring. rewrite E.
  replace (co ^ 2 * W ^ 2) with ((co * W) ^ 2) by ring. apply lt_sq1. pose proof (total_pos cx). split; [apply Rmult_le_pos; lra | exact CFL].
Qed.
End T.
