(** The two dimensional CKC pushes in exact arithmetic. *)
From Coq Require Import ZArith Reals List Bool Lia Lra.
From Verif Require Import Cxx Num NumRX Fortran Grid Pushers Yee SpecYee SpecSolver SpecLibrary Ckc SpecCkc CxxLemmas RXLemmas FortranLemmas GridLemmas YeeReal YeeProofs YeePush CkcProofs CkcWaves.
Import ListNotations.
Local Open Scope R_scope.

Section X.
Context {tg : R -> R}.
Notation N := (RX tg).
Notation gridX := (grid (num N)).
Notation fieldX := (field (num N)).
Notation fin r := (Fin r : num N).
Variables hx hz : R.
Hypothesis Px : 0 < hx.
Hypothesis Pz : 0 < hz.

Lemma smallest2_pos : 0 < smallest2 hx hz. Proof. apply Rmin_pos; assumption. Qed.
Lemma coefs2_fin dt : 0 < dt -> coefs2 (fin (dt / hx)) (fin (dt / hz)) =
  (fin (dt / hx * (1 - 2 * w_side2 hx hz AZ)), fin (dt / hx * w_side2 hx hz AZ), fin (dt / hz * (1 - 2 * w_side2 hx hz AX)), fin (dt / hz * w_side2 hx hz AX)).
Proof.
  intros D. unfold coefs2. pose proof smallest2_pos as S.
  rewrite larger_fin, Rmax_div by assumption. fold (smallest2 hx hz).
  assert (Z : dt / smallest2 hx hz <> 0) by (apply Rgt_not_eq; apply Rdiv_lt_0_compat; assumption).
  rewrite !div_fin by exact Z. unfold n_one, n_two. rewrite !lit_fin. cbv zeta. rewrite !div_fin by lra.
  rewrite !mul_fin, !sub_fin, !mul_fin. unfold w_side2. f_equal; [f_equal; [f_equal|]|]; f_equal; field; repeat split; lra.
Qed.
Lemma terms2x_fin dt (g : gridX) L H r p : is_grid g L H r -> (forall q, uses2 AX p q -> in_box L H q = true) ->
  exists t1 t2, terms2_x (fin (dt / hx * (1 - 2 * w_side2 hx hz AZ))) (fin (dt / hx * w_side2 hx hz AZ)) g p = Ret (fin t1, fin t2) /\
    t1 + t2 = dt * ckc2 hx hz AX r p.
Proof.
  intros G U. destruct p as [[j k] l].
  assert (A : forall a b, (0 <= a <= 1 /\ -1 <= b <= 1)%Z -> get3 g (j + a, k, l + b)%Z = Ret (fin (r (j + a, k, l + b)%Z))).
  { intros a b I. apply (get_at g L H r _ G). apply U. exists a, b. split; [reflexivity | exact I]. }
  pose proof (A 0 0)%Z as A00. pose proof (A 1 0)%Z as A10. pose proof (A 0 1)%Z as A01. pose proof (A 0 (-1))%Z as A0m.
  rewrite !Z.add_0_r in *. unfold terms2_x, bracket, diff; cbn [more]. replace (l - 1)%Z with (l + -1)%Z by lia.
  rewrite A10, A00, (A 1 1)%Z, A01, (A 1 (-1))%Z, A0m by lia. cbn [bind].
  eexists _, _. split; [reflexivity|]. unfold ckc2, step, mean2, beside. cbn [shift]. field. lra.
Qed.
Lemma terms2z_fin dt (g : gridX) L H r p : is_grid g L H r -> (forall q, uses2 AZ p q -> in_box L H q = true) ->
  exists t1 t2, terms2_z (fin (dt / hz * (1 - 2 * w_side2 hx hz AX))) (fin (dt / hz * w_side2 hx hz AX)) g p = Ret (fin t1, fin t2) /\
    t1 + t2 = dt * ckc2 hx hz AZ r p.
Proof.
  intros G U. destruct p as [[j k] l].
  assert (A : forall a b, (0 <= a <= 1 /\ -1 <= b <= 1)%Z -> get3 g (j + b, k, l + a)%Z = Ret (fin (r (j + b, k, l + a)%Z))).
  { intros a b I. apply (get_at g L H r _ G). apply U. exists a, b. split; [reflexivity | exact I]. }
  pose proof (A 0 0)%Z as A00. pose proof (A 1 0)%Z as A10. pose proof (A 0 1)%Z as A01. pose proof (A 0 (-1))%Z as A0m.
  rewrite !Z.add_0_r in *. unfold terms2_z, bracket, diff; cbn [more]. replace (j - 1)%Z with (j + -1)%Z by lia.
  rewrite A10, A00, (A 1 1)%Z, A01, (A 1 (-1))%Z, A0m by lia. cbn [bind].
  eexists _, _. split; [reflexivity|]. unfold ckc2, step, mean2, beside. cbn [shift]. field. lra.
Qed.
Lemma cl_terms2x a b (g : gridX) p : cl (terms2_x (a : num N) b g p).
Proof. destruct p as [[j k] l]. unfold terms2_x. repeat (apply cl_bind; [apply cl_bracket|]; intros). apply cl_ret. Qed.
Lemma cl_terms2z a b (g : gridX) p : cl (terms2_z (a : num N) b g p).
Proof. destruct p as [[j k] l]. unfold terms2_z. repeat (apply cl_bind; [apply cl_bracket|]; intros). apply cl_ret. Qed.

Theorem ckc2_update xlo xhi ylo yhi zlo zhi (E B : fieldX) LE HE L H e b dt :
  0 < dt -> holds_field E LE HE e -> holds_field B L H b ->
  (forall p, in_box xlo xhi p = true -> in_box L H p = true /\ forall q, uses2 AZ p q -> in_box LE HE q = true) ->
  (forall p, in_box ylo yhi p = true -> in_box L H p = true /\ forall q, uses2 AX p q \/ uses2 AZ p q -> in_box LE HE q = true) ->
  (forall p, in_box zlo zhi p = true -> in_box L H p = true /\ forall q, uses2 AX p q -> in_box LE HE q = true) ->
  exists B' b', pxrpush_em2d_bvec_ckc xlo xhi ylo yhi zlo zhi E B (fin (dt / hx)) (fin (dt / hz)) = Ret B' /\
    holds_field B' L H b' /\
    let c := curl (ckc2 hx hz) e in
    (forall p, comp_x b' p = (if in_box xlo xhi p then comp_x b p - dt * comp_x c p else comp_x b p) /\
               comp_y b' p = (if in_box ylo yhi p then comp_y b p - dt * comp_y c p else comp_y b p) /\
               comp_z b' p = (if in_box zlo zhi p then comp_z b p - dt * comp_z c p else comp_z b p)).
Proof.
  intros D (Ex & Ey & Ez) (Bx & By & Bz) Ix Iy Iz. unfold pxrpush_em2d_bvec_ckc. rewrite (coefs2_fin dt D).
  set (c := curl (ckc2 hx hz) e).
  destruct (loop_real xlo xhi (k2_bx E (fin (dt / hz * (1 - 2 * w_side2 hx hz AX))) (fin (dt / hz * w_side2 hx hz AX))) (fx B) L H (comp_x b) (fun p => comp_x b p - dt * comp_x c p)) as (gx & Rx & Vx).
  { apply ok_one. intros. apply cl_bind; [apply cl_terms2z|]. intros. apply cl_ret. }
  { exact Bx. }
  { intros p I. destruct (Ix p I) as [I1 I2]. split; [exact I1|]. unfold k2_bx. cbn [map snd run].
    destruct (terms2z_fin dt (fy E) LE HE (comp_y e) p Ey I2) as (t1 & t2 & T & Te). rewrite T. cbn [bind fst snd]. rewrite !add_fin.
    f_equal. f_equal. subst c. cbn [curl comp_x]. change (ckc2 hx hz AY (comp_z e) p) with 0. lra. }
  rewrite Rx. cbn [bind].
  destruct (loop_real ylo yhi (k2_by E (fin (dt / hx * (1 - 2 * w_side2 hx hz AZ))) (fin (dt / hx * w_side2 hx hz AZ)) (fin (dt / hz * (1 - 2 * w_side2 hx hz AX))) (fin (dt / hz * w_side2 hx hz AX))) (fy B) L H (comp_y b) (fun p => comp_y b p - dt * comp_y c p)) as (gy & Ry & Vy).
  { apply ok_one. intros. apply cl_bind; [apply cl_terms2x|]. intros. apply cl_bind; [apply cl_terms2z|]. intros. apply cl_ret. }
  { exact By. }
  { intros p I. destruct (Iy p I) as [I1 I2]. split; [exact I1|]. unfold k2_by. cbn [map snd run].
    destruct (terms2x_fin dt (fz E) LE HE (comp_z e) p Ez) as (t1 & t2 & T & Te); [intros; apply I2; auto|].
    destruct (terms2z_fin dt (fx E) LE HE (comp_x e) p Ex) as (u1 & u2 & U & Ue); [intros; apply I2; auto|].
    rewrite T. cbn [bind]. rewrite U. cbn [bind fst snd]. rewrite !add_fin, !sub_fin.
    f_equal. f_equal. subst c. cbn [curl comp_y]. lra. }
  rewrite Ry. cbn [bind].
  destruct (loop_real zlo zhi (k2_bz E (fin (dt / hx * (1 - 2 * w_side2 hx hz AZ))) (fin (dt / hx * w_side2 hx hz AZ))) (fz B) L H (comp_z b) (fun p => comp_z b p - dt * comp_z c p)) as (gz & Rz & Vz).
  { apply ok_one. intros. apply cl_bind; [apply cl_terms2x|]. intros. apply cl_ret. }
  { exact Bz. }
  { intros p I. destruct (Iz p I) as [I1 I2]. split; [exact I1|]. unfold k2_bz. cbn [map snd run].
    destruct (terms2x_fin dt (fy E) LE HE (comp_y e) p Ey I2) as (t1 & t2 & T & Te). rewrite T. cbn [bind fst snd]. rewrite !sub_fin.
    f_equal. f_equal. subst c. cbn [curl comp_z]. change (ckc2 hx hz AY (comp_x e) p) with 0. lra. }
  rewrite Rz. cbn [bind]. eexists. eexists (RField _ _ _). split; [reflexivity|]. split; [split; [exact Vx|]; split; [exact Vy | exact Vz]|].
  cbn zeta. intros p. cbn [comp_x comp_y comp_z]. auto.
Qed.

Theorem ckc2_cleaning xlo xhi zlo zhi (E : fieldX) (F : gridX) L H LF HF e f kappa :
  0 < kappa -> holds_field E L H e -> is_grid F LF HF f ->
  (forall p, in_box xlo xhi p = true -> in_box L H p = true /\ forall q, uses2 AX p q -> in_box LF HF q = true) ->
  (forall p, in_box zlo zhi p = true -> in_box L H p = true /\ forall q, uses2 AZ p q -> in_box LF HF q = true) ->
  exists E' e', pxrpush_em2d_evec_f_ckc xlo xhi zlo zhi E F (fin (kappa / hx)) (fin (kappa / hz)) = Ret E' /\
    holds_field E' L H e' /\
    let g := grad (ckc2 hx hz) f in
    (forall p, comp_x e' p = (if in_box xlo xhi p then comp_x e p + kappa * comp_x g p else comp_x e p) /\
               comp_y e' p = comp_y e p /\
               comp_z e' p = (if in_box zlo zhi p then comp_z e p + kappa * comp_z g p else comp_z e p)).
Proof.
  intros D (Ex & Ey & Ez) GF Ix Iz. unfold pxrpush_em2d_evec_f_ckc. rewrite (coefs2_fin kappa D).
  set (c := grad (ckc2 hx hz) f).
  destruct (loop_real xlo xhi (kf2_ex F (fin (kappa / hx * (1 - 2 * w_side2 hx hz AZ))) (fin (kappa / hx * w_side2 hx hz AZ))) (fx E) L H (comp_x e) (fun p => comp_x e p + kappa * comp_x c p)) as (gx & Rx & Vx).
  { apply ok_one. intros. apply cl_bind; [apply cl_terms2x|]. intros. apply cl_ret. }
  { exact Ex. }
  { intros p I. destruct (Ix p I) as [I1 I2]. split; [exact I1|]. unfold kf2_ex. cbn [map snd run].
    destruct (terms2x_fin kappa F LF HF f p GF I2) as (t1 & t2 & T & Te). rewrite T. cbn [bind fst snd]. rewrite !add_fin. f_equal. f_equal. subst c. cbn [grad comp_x]. lra. }
  rewrite Rx. cbn [bind].
  destruct (loop_real zlo zhi (kf2_ez F (fin (kappa / hz * (1 - 2 * w_side2 hx hz AX))) (fin (kappa / hz * w_side2 hx hz AX))) (fz E) L H (comp_z e) (fun p => comp_z e p + kappa * comp_z c p)) as (gz & Rz & Vz).
  { apply ok_one. intros. apply cl_bind; [apply cl_terms2z|]. intros. apply cl_ret. }
  { exact Ez. }
  { intros p I. destruct (Iz p I) as [I1 I2]. split; [exact I1|]. unfold kf2_ez. cbn [map snd run].
    destruct (terms2z_fin kappa F LF HF f p GF I2) as (t1 & t2 & T & Te). rewrite T. cbn [bind fst snd]. rewrite !add_fin. f_equal. f_equal. subst c. cbn [grad comp_z]. lra. }
  rewrite Rz. cbn [bind]. eexists. eexists (RField _ (comp_y e) _). split; [reflexivity|]. split; [split; [exact Vx|]; split; [exact Ey | exact Vz]|].
  cbn zeta. intros p. cbn [comp_x comp_y comp_z]. auto.
Qed.
End X.

(** ** the formulas *)
Section W.
Variables hx hz : R.
Lemma ckc2_lin d f g k p : ckc2 hx hz d (fun q => f q + k * g q) p = ckc2 hx hz d f p + k * ckc2 hx hz d g p.
Proof. destruct d; unfold ckc2, step, mean2, beside; unfold Rdiv; ring. Qed.
Lemma ckc2_comm f p : ckc2 hx hz AX (ckc2 hx hz AZ f) p = ckc2 hx hz AZ (ckc2 hx hz AX f) p.
Proof. destruct p as [[j k] l]. unfold ckc2, step, mean2, beside. cbn [shift]. rewrite <- !Z.add_assoc. change (1 + -1)%Z with 0%Z. change (-1 + 1)%Z with 0%Z. unfold Rdiv. ring. Qed.
Lemma ckc2_ext d f g p : (forall q, uses2 d p q -> f q = g q) -> ckc2 hx hz d f p = ckc2 hx hz d g p.
Proof.
  intros H. destruct p as [[j k] l].
  assert (A : forall a b, (0 <= a <= 1 /\ -1 <= b <= 1)%Z -> f (shift d a (shift (match d with AX => AZ | _ => AX end) b (j, k, l))) = g (shift d a (shift (match d with AX => AZ | _ => AX end) b (j, k, l)))).
  { intros a b I. apply H. exists a, b. split; [reflexivity | exact I]. }
  assert (S0 : forall d q, shift d 0 q = q) by (intros d0 [[? ?] ?]; destruct d0; cbn [shift]; rewrite Z.add_0_r; reflexivity).
  pose proof (A 0 0)%Z as A00. pose proof (A 1 0)%Z as A10. pose proof (A 0 1)%Z as A01. pose proof (A 0 (-1))%Z as A0m. pose proof (A 1 1)%Z as A11. pose proof (A 1 (-1))%Z as A1m.
  rewrite ?S0 in *. destruct d; unfold ckc2, step, mean2, beside; [| reflexivity |]; cbn [shift] in *; rewrite A00, A10, A01, A0m, A11, A1m by lia; reflexivity.
Qed.
Lemma div_push2 lo hi dt (e b b' : rfield) p :
  (forall q, in_box lo hi q = true -> let c := curl (ckc2 hx hz) e in
     comp_x b' q = comp_x b q - dt * comp_x c q /\ comp_y b' q = comp_y b q - dt * comp_y c q /\ comp_z b' q = comp_z b q - dt * comp_z c q) ->
  (forall d q, d <> AY -> uses2 d p q -> in_box lo hi q = true) ->
  div (ckc2 hx hz) b' p = div (ckc2 hx hz) b p.
Proof.
  intros U I. set (c := curl (ckc2 hx hz) e) in *.
  assert (L : forall d (f g h : idx -> R), d <> AY -> (forall q, in_box lo hi q = true -> f q = g q - dt * h q) -> ckc2 hx hz d f p = ckc2 hx hz d g p - dt * ckc2 hx hz d h p).
  { intros d f g h Dd Q. transitivity (ckc2 hx hz d (fun q => g q + (- dt) * h q) p); [|rewrite ckc2_lin; ring].
    apply ckc2_ext. intros q Hq. rewrite Q by (eapply I; [exact Dd | exact Hq]). ring. }
  unfold div. rewrite (L AX (comp_x b') (comp_x b) (comp_x c)), (L AZ (comp_z b') (comp_z b) (comp_z c)) by (try discriminate; intros q Hq; apply (U q Hq)).
  assert (Z : ckc2 hx hz AX (comp_x c) p + ckc2 hx hz AZ (comp_z c) p = 0).
  { subst c. cbn [curl comp_x comp_z]. change (ckc2 hx hz AY) with (fun (_ : idx -> R) (_ : idx) => 0).
    transitivity (ckc2 hx hz AX (fun q => (fun _ => 0) q + (-1) * ckc2 hx hz AZ (comp_y e) q) p + ckc2 hx hz AZ (fun q => (fun _ => 0) q + 1 * ckc2 hx hz AX (comp_y e) q) p).
    - f_equal; apply ckc2_ext; intros; ring.
    - rewrite !ckc2_lin, ckc2_comm. assert (Q : forall d, ckc2 hx hz d (fun _ => 0) p = 0) by (intros []; unfold ckc2, step, mean2, beside, Rdiv; ring). rewrite !Q. ring. }
  change (ckc2 hx hz AY (comp_y b') p) with 0. change (ckc2 hx hz AY (comp_y b) p) with 0. nra.
Qed.
Lemma wave2_symbol hy kx ky kz phi p : 0 < hx -> 0 < hz ->
  wave_op (ckc2 hx hz) hx hy hz (plane_wave kx ky kz phi) p =
  - (4 / (smallest2 hx hz) ^ 2 * (1 - (1 - (smallest2 hx hz / hx * sin (kx / 2)) ^ 2) * (1 - (smallest2 hx hz / hz * sin (kz / 2)) ^ 2))) * plane_wave kx ky kz phi p.
Proof.
  intros Px Pz. assert (Sp : 0 < smallest2 hx hz) by (apply Rmin_pos; assumption).
  set (w := plane_wave kx ky kz phi).
  assert (Sh : forall d p, shift d 1 (shift d (-1) p) = p) by (intros d [[j k] l]; destruct d; cbn [shift]; repeat apply f_equal2; try reflexivity; lia).
  assert (MW : forall e q, mean2 hx hz e w q = (1 - 4 * w_side2 hx hz e * half_sin kx ky kz e) * w q).
  { intros e q. unfold mean2, w. rewrite beside_wave, cos_half. ring. }
  assert (Q : forall d h m, h <> 0 -> (step h d (fun q => m * w q) p - step h d (fun q => m * w q) (shift d (-1) p)) = - 4 * m * half_sin kx ky kz d / h * w p).
  { intros d h m Nh. unfold step. rewrite Sh. pose proof (beside_wave kx ky kz phi d p) as B. fold w in B. unfold beside in B. rewrite cos_half in B.
    replace (w (shift d 1 p)) with (2 * (1 - 2 * half_sin kx ky kz d) * w p - w (shift d (-1) p)) by lra. field. exact Nh. }
  assert (E : forall d h f m q, (forall r, f r = m * w r) -> step h d f q = step h d (fun r => m * w r) q) by (intros d h f m q Hf; unfold step; rewrite !Hf; reflexivity).
  unfold wave_op. rewrite !bwd_yee. change (ckc2 hx hz AX w) with (step hx AX (mean2 hx hz AZ w)). change (ckc2 hx hz AZ w) with (step hz AZ (mean2 hx hz AX w)). change (ckc2 hx hz AY w) with (fun _ : idx => 0).
  rewrite !(E _ _ _ _ _ (MW AZ)), !(E _ _ _ _ _ (MW AX)). rewrite !Q by lra. unfold w_side2, half_sin, kof. replace (/ hy * (0 - 0)) with 0 by ring. field. repeat split; lra.
Qed.
Theorem ckc2_stable hy c dt kx ky kz : 0 < hx -> 0 < hz -> 0 <= c * dt <= smallest2 hx hz ->
  exists mu, 0 <= mu <= 4 /\ forall phi p, (c * dt) ^ 2 * wave_op (ckc2 hx hz) hx hy hz (plane_wave kx ky kz phi) p = - mu * plane_wave kx ky kz phi p.
Proof.
  intros Px Pz CFL. assert (Sp : 0 < smallest2 hx hz) by (apply Rmin_pos; assumption).
  exists (4 * (c * dt / smallest2 hx hz) ^ 2 * (1 - (1 - (smallest2 hx hz / hx * sin (kx / 2)) ^ 2) * (1 - (smallest2 hx hz / hz * sin (kz / 2)) ^ 2))). split.
  - assert (T : forall h k, 0 < h -> smallest2 hx hz <= h -> 0 <= 1 - (smallest2 hx hz / h * sin k) ^ 2 <= 1).
    { intros h k Ph Lh. assert (0 <= smallest2 hx hz / h <= 1).
      { split; [apply Rlt_le, Rdiv_lt_0_compat; assumption|]. apply (Rmult_le_reg_r h); [assumption|]. unfold Rdiv. rewrite Rmult_assoc, Rinv_l by lra. lra. }
      pose proof (SIN_bound k). rewrite Rpow_mult_distr. assert (Sq : forall x, -1 <= x <= 1 -> 0 <= x ^ 2 <= 1) by (intros x Hx; nra).
      assert (U : 0 <= (smallest2 hx hz / h) ^ 2 <= 1) by (apply Sq; lra). assert (V : 0 <= sin k ^ 2 <= 1) by (apply Sq; lra).
      set (u := (smallest2 hx hz / h) ^ 2) in *. set (v := sin k ^ 2) in *. clearbody u v. nra. }
    pose proof (T hx (kx / 2) Px (Rmin_l _ _)) as T1. pose proof (T hz (kz / 2) Pz (Rmin_r _ _)) as T2.
    assert (0 <= c * dt / smallest2 hx hz <= 1).
    { split; [apply Rmult_le_pos; [lra | apply Rlt_le, Rinv_0_lt_compat; assumption]|].
      apply (Rmult_le_reg_r (smallest2 hx hz)); [assumption|]. unfold Rdiv. rewrite Rmult_assoc, Rinv_l by lra. lra. }
    assert (0 <= (c * dt / smallest2 hx hz) ^ 2 <= 1) by nra.
    set (a := 1 - (smallest2 hx hz / hx * sin (kx / 2)) ^ 2) in *. set (b := 1 - (smallest2 hx hz / hz * sin (kz / 2)) ^ 2) in *. clearbody a b.
    assert (0 <= a * b <= 1) by nra. nra.
  - intros phi p. rewrite wave2_symbol by assumption. field. repeat split; lra.
Qed.
End W.
