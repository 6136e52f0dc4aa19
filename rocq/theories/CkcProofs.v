(** Proofs about the CKC pushes in exact arithmetic. *)
From Coq Require Import ZArith Reals List Bool Lia Lra.
From Verif Require Import Cxx Num NumRX Fortran Grid Pushers Yee SpecYee SpecSolver SpecLibrary Ckc SpecCkc CxxLemmas RXLemmas FortranLemmas GridLemmas YeeReal YeeProofs YeePush.
Import ListNotations.
Local Open Scope R_scope.

Section X.
Context {tg : R -> R}.
Notation N := (RX tg).
Notation gridX := (grid (num N)).
Notation fieldX := (field (num N)).
Notation fin r := (Fin r : num N).

Lemma larger_fin a b : larger (fin a) (fin b) = fin (Rmax a b).
Proof.
  unfold larger. cbn [n_lt RX x_lt]. unfold Rmax. destruct (Rltb_spec a b), (Rle_dec a b); try reflexivity; try lra.
  f_equal. lra.
Qed.
Lemma div_fin a b : b <> 0 -> @n_div N (fin a) (fin b) = fin (a / b).
Proof. intros. apply x_div_fin. assumption. Qed.
Lemma mul_fin a b : @n_mul N (fin a) (fin b) = fin (a * b). Proof. reflexivity. Qed.
Lemma add_fin a b : @n_add N (fin a) (fin b) = fin (a + b). Proof. reflexivity. Qed.
Lemma sub_fin a b : @n_sub N (fin a) (fin b) = fin (a - b). Proof. reflexivity. Qed.
Lemma lit_fin m : @n_lit N m 0 = fin (IZR m). Proof. reflexivity. Qed.

Lemma Rmax_div dt a b : 0 < dt -> 0 < a -> 0 < b -> Rmax (dt / a) (dt / b) = dt / Rmin a b.
Proof.
  intros D A B. unfold Rmax, Rmin. destruct (Rle_dec (dt / a) (dt / b)) as [Q|Q], (Rle_dec a b) as [P|P]; try reflexivity.
  - assert (dt / b <= dt / a). { apply Rmult_le_compat_l; [lra|]. apply Rinv_le_contravar; lra. } lra.
  - exfalso. apply Q. apply Rmult_le_compat_l; [lra|]. apply Rinv_le_contravar; lra.
Qed.
Lemma Rmin_pos a b : 0 < a -> 0 < b -> 0 < Rmin a b.
Proof. intros. unfold Rmin. destruct (Rle_dec a b); assumption. Qed.

Section H.
Variables hx hy hz : R.
Hypothesis Px : 0 < hx.
Hypothesis Py : 0 < hy.
Hypothesis Pz : 0 < hz.
Lemma smallest_pos : 0 < smallest hx hy hz.
Proof. apply Rmin_pos; [|apply Rmin_pos]; assumption. Qed.
Lemma cell_pos d : 0 < cell hx hy hz d. Proof. destruct d; assumption. Qed.
Lemma ratio_pos d : 0 < ratio hx hy hz d.
Proof. unfold ratio. apply pow_lt. apply Rdiv_lt_0_compat; [apply smallest_pos | apply cell_pos]. Qed.
Lemma pairs_pos : 0 < pairs hx hy hz.
Proof.
  unfold pairs. pose proof (ratio_pos AX). pose proof (ratio_pos AY). pose proof (ratio_pos AZ).
  assert (0 < ratio hx hy hz AY * ratio hx hy hz AZ) by (apply Rmult_lt_0_compat; assumption).
  assert (0 < ratio hx hy hz AZ * ratio hx hy hz AX) by (apply Rmult_lt_0_compat; assumption).
  assert (0 < ratio hx hy hz AX * ratio hx hy hz AY) by (apply Rmult_lt_0_compat; assumption). lra.
Qed.
Definition fc (D : R) (d : axis) : Coefs (N := N) :=
  let (e, e') := across d in
  {| c_alpha := fin (D * (1 - 2 * w_side hx hy hz e - 2 * w_side hx hy hz e' - 4 * w_diag hx hy hz d));
     c_beta1 := fin (D * w_side hx hy hz e); c_beta2 := fin (D * w_side hx hy hz e'); c_gamma := fin (D * w_diag hx hy hz d) |}.

Lemma coefs3_fin dt : 0 < dt -> coefs3 (fin (dt / hx)) (fin (dt / hy)) (fin (dt / hz)) = (fc (dt / hx) AX, fc (dt / hy) AY, fc (dt / hz) AZ).
Proof.
  intros D. unfold coefs3. pose proof smallest_pos as S. pose proof pairs_pos as PP.
  rewrite !larger_fin. rewrite (Rmax_div dt hx hy), (Rmax_div dt (Rmin hx hy) hz) by (try apply Rmin_pos; assumption).
  rewrite <- Rmin_assoc. fold (smallest hx hy hz).
  assert (Z : dt / smallest hx hy hz <> 0). { apply Rgt_not_eq. apply Rdiv_lt_0_compat; assumption. }
  rewrite !div_fin by exact Z. rewrite !mul_fin.
  assert (Q : forall d, dt / cell hx hy hz d / (dt / smallest hx hy hz) * (dt / cell hx hy hz d / (dt / smallest hx hy hz)) = ratio hx hy hz d).
  { intros d. unfold ratio. pose proof (cell_pos d). field. repeat split; lra. }
  pose proof (Q AX) as Qx. pose proof (Q AY) as Qy. pose proof (Q AZ) as Qz. cbn [cell] in Qx, Qy, Qz. rewrite Qx, Qy, Qz. clear Q Qx Qy Qz.
  unfold n_one, n_two. rewrite !lit_fin. cbv zeta.
  assert (Np : ratio hx hy hz AY * ratio hx hy hz AZ + ratio hx hy hz AZ * ratio hx hy hz AX + ratio hx hy hz AX * ratio hx hy hz AY <> 0) by (fold (pairs hx hy hz); lra).
  repeat (rewrite ?mul_fin, ?add_fin, ?sub_fin; try rewrite div_fin by first [exact Np | lra]).
  unfold times, fc, w_side, w_diag. cbn [across fst snd c_alpha c_beta1 c_beta2 c_gamma].
  unfold pairs in *. set (rx_ := ratio hx hy hz AX) in *. set (ry_ := ratio hx hy hz AY) in *. set (rz_ := ratio hx hy hz AZ) in *.
  rewrite !mul_fin.
  f_equal; [f_equal|]; f_equal; f_equal; field; repeat split; try lra; exact Np.
Qed.

Lemma get_at (g : gridX) L H r q : is_grid g L H r -> in_box L H q = true -> get3 g q = Ret (fin (r q)).
Proof. intros G I. exact (grid_get g L H r q G I). Qed.

Definition term_of (d : axis) := match d with AX => @terms_x N | AY => @terms_y N | AZ => @terms_z N end.
Lemma terms_fin d dt (g : gridX) L H r p : is_grid g L H r -> (forall q, uses d p q -> in_box L H q = true) ->
  exists t1 t2 t3 t4, term_of d (fc (dt / cell hx hy hz d) d) g p = Ret (fin t1, fin t2, fin t3, fin t4) /\
    t1 + t2 + t3 + t4 = dt * ckc hx hy hz d r p.
Proof.
  intros G U. destruct p as [[j k] l].
  assert (A : forall a b c, (0 <= a <= 1 /\ -1 <= b <= 1 /\ -1 <= c <= 1)%Z ->
    get3 g (shift d a (shift (fst (across d)) b (shift (snd (across d)) c (j, k, l)))) =
      Ret (fin (r (shift d a (shift (fst (across d)) b (shift (snd (across d)) c (j, k, l))))))).
  { intros a b c I. apply (get_at g L H r _ G). apply U. exists a, b, c. split; [reflexivity | exact I]. }
  pose proof (cell_pos d) as Pd.
  destruct d; cbn [term_of cell across fst snd shift] in *; unfold terms_x, terms_y, terms_z, bracket, diff; cbn [more];
  (rewrite !A by lia); cbn [bind fc across c_alpha c_beta1 c_beta2 c_gamma];
  (eexists _, _, _, _; split; [reflexivity|]);
  unfold ckc, step, mean, beside; cbn [across cell shift];
  rewrite ?Z.add_0_r; field; lra.
Qed.
Lemma add4_fin b t1 t2 t3 t4 : add4 (fin b) (fin t1, fin t2, fin t3, fin t4) = fin (b + (t1 + t2 + t3 + t4)).
Proof. unfold add4. rewrite !add_fin. f_equal. ring. Qed.
Lemma sub4_fin b t1 t2 t3 t4 : sub4 (fin b) (fin t1, fin t2, fin t3, fin t4) = fin (b - (t1 + t2 + t3 + t4)).
Proof. unfold sub4. rewrite !sub_fin. f_equal. ring. Qed.

Lemma cl_more (g : gridX) l : forall acc, cl (more g acc l : out (num N)).
Proof. induction l as [|[p q] l IH]; intros acc; cbn [more]; [apply cl_ret|]. apply cl_bind; [apply cl_get3|]. intros. apply cl_bind; [apply cl_get3|]. intros. apply IH. Qed.
Lemma cl_bracket (g : gridX) p q l : cl (bracket g p q l : out (num N)).
Proof. unfold bracket. apply cl_bind; [apply cl_diff|]. intros. apply cl_more. Qed.
Lemma cl_terms d c (g : gridX) p : cl (term_of d c g p).
Proof. destruct p as [[j k] l], d; cbn [term_of]; unfold terms_x, terms_y, terms_z; repeat (apply cl_bind; [apply cl_bracket|]; intros); apply cl_ret. Qed.
Lemma ok_one (f : idx -> num N -> out (num N)) : (forall p x, cl (f p x)) -> ok_body (fun p => [(p, f p)]).
Proof. intros H p. apply ok_cons; [intros; apply H | apply ok_nil]. Qed.

(** the magnetic push *)
Theorem ckc_update xlo xhi ylo yhi zlo zhi (E B : fieldX) LE HE L H e b dt :
  0 < dt -> holds_field E LE HE e -> holds_field B L H b ->
  (forall p, in_box xlo xhi p = true -> in_box L H p = true /\ forall q, uses AY p q \/ uses AZ p q -> in_box LE HE q = true) ->
  (forall p, in_box ylo yhi p = true -> in_box L H p = true /\ forall q, uses AX p q \/ uses AZ p q -> in_box LE HE q = true) ->
  (forall p, in_box zlo zhi p = true -> in_box L H p = true /\ forall q, uses AX p q \/ uses AY p q -> in_box LE HE q = true) ->
  exists B' b', pxrpush_em3d_bvec_ckc xlo xhi ylo yhi zlo zhi E B (fin (dt / hx)) (fin (dt / hy)) (fin (dt / hz)) = Ret B' /\
    holds_field B' L H b' /\
    let c := curl (ckc hx hy hz) e in
    (forall p, comp_x b' p = (if in_box xlo xhi p then comp_x b p - dt * comp_x c p else comp_x b p) /\
               comp_y b' p = (if in_box ylo yhi p then comp_y b p - dt * comp_y c p else comp_y b p) /\
               comp_z b' p = (if in_box zlo zhi p then comp_z b p - dt * comp_z c p else comp_z b p)).
Proof.
  intros D (Ex & Ey & Ez) (Bx & By & Bz) Ix Iy Iz. unfold pxrpush_em3d_bvec_ckc. rewrite (coefs3_fin dt D).
  set (c := curl (ckc hx hy hz) e).
  destruct (loop_real xlo xhi (k3_bx E (fc (dt / hy) AY) (fc (dt / hz) AZ)) (fx B) L H (comp_x b) (fun p => comp_x b p - dt * comp_x c p)) as (gx & Rx & Vx).
  { apply ok_one. intros. apply cl_bind; [apply (cl_terms AY)|]. intros. apply cl_bind; [apply (cl_terms AZ)|]. intros. apply cl_ret. }
  { exact Bx. }
  { intros p I. destruct (Ix p I) as [I1 I2]. split; [exact I1|]. unfold k3_bx. cbn [map snd run].
    destruct (terms_fin AY dt (fz E) LE HE (comp_z e) p Ez) as (t1 & t2 & t3 & t4 & T & Te); [intros; apply I2; auto|].
    destruct (terms_fin AZ dt (fy E) LE HE (comp_y e) p Ey) as (u1 & u2 & u3 & u4 & U & Ue); [intros; apply I2; auto|].
    cbn [term_of cell] in T, U. rewrite T. cbn [bind]. rewrite U. cbn [bind]. rewrite sub4_fin, add4_fin, Te, Ue.
    f_equal. f_equal. subst c. cbn [curl comp_x]. ring. }
  rewrite Rx. cbn [bind].
  destruct (loop_real ylo yhi (k3_by E (fc (dt / hx) AX) (fc (dt / hz) AZ)) (fy B) L H (comp_y b) (fun p => comp_y b p - dt * comp_y c p)) as (gy & Ry & Vy).
  { apply ok_one. intros. apply cl_bind; [apply (cl_terms AX)|]. intros. apply cl_bind; [apply (cl_terms AZ)|]. intros. apply cl_ret. }
  { exact By. }
  { intros p I. destruct (Iy p I) as [I1 I2]. split; [exact I1|]. unfold k3_by. cbn [map snd run].
    destruct (terms_fin AX dt (fz E) LE HE (comp_z e) p Ez) as (t1 & t2 & t3 & t4 & T & Te); [intros; apply I2; auto|].
    destruct (terms_fin AZ dt (fx E) LE HE (comp_x e) p Ex) as (u1 & u2 & u3 & u4 & U & Ue); [intros; apply I2; auto|].
    cbn [term_of cell] in T, U. rewrite T. cbn [bind]. rewrite U. cbn [bind]. rewrite add4_fin, sub4_fin, Te, Ue.
    f_equal. f_equal. subst c. cbn [curl comp_y]. ring. }
  rewrite Ry. cbn [bind].
  destruct (loop_real zlo zhi (k3_bz E (fc (dt / hx) AX) (fc (dt / hy) AY)) (fz B) L H (comp_z b) (fun p => comp_z b p - dt * comp_z c p)) as (gz & Rz & Vz).
  { apply ok_one. intros. apply cl_bind; [apply (cl_terms AX)|]. intros. apply cl_bind; [apply (cl_terms AY)|]. intros. apply cl_ret. }
  { exact Bz. }
  { intros p I. destruct (Iz p I) as [I1 I2]. split; [exact I1|]. unfold k3_bz. cbn [map snd run].
    destruct (terms_fin AX dt (fy E) LE HE (comp_y e) p Ey) as (t1 & t2 & t3 & t4 & T & Te); [intros; apply I2; auto|].
    destruct (terms_fin AY dt (fx E) LE HE (comp_x e) p Ex) as (u1 & u2 & u3 & u4 & U & Ue); [intros; apply I2; auto|].
    cbn [term_of cell] in T, U. rewrite T. cbn [bind]. rewrite U. cbn [bind]. rewrite sub4_fin, add4_fin, Te, Ue.
    f_equal. f_equal. subst c. cbn [curl comp_z]. ring. }
  rewrite Rz. cbn [bind]. eexists. eexists (RField _ _ _). split; [reflexivity|]. split; [split; [exact Vx|]; split; [exact Vy | exact Vz]|].
  cbn zeta. intros p. cbn [comp_x comp_y comp_z]. auto.
Qed.

(** the divergence cleaning push *)
Theorem ckc_cleaning xlo xhi ylo yhi zlo zhi (E : fieldX) (F : gridX) L H LF HF e f kappa :
  0 < kappa -> holds_field E L H e -> is_grid F LF HF f ->
  (forall p, in_box xlo xhi p = true -> in_box L H p = true /\ forall q, uses AX p q -> in_box LF HF q = true) ->
  (forall p, in_box ylo yhi p = true -> in_box L H p = true /\ forall q, uses AY p q -> in_box LF HF q = true) ->
  (forall p, in_box zlo zhi p = true -> in_box L H p = true /\ forall q, uses AZ p q -> in_box LF HF q = true) ->
  exists E' e', pxrpush_em3d_evec_f_ckc xlo xhi ylo yhi zlo zhi E F (fin (kappa / hx)) (fin (kappa / hy)) (fin (kappa / hz)) = Ret E' /\
    holds_field E' L H e' /\
    let g := grad (ckc hx hy hz) f in
    (forall p, comp_x e' p = (if in_box xlo xhi p then comp_x e p + kappa * comp_x g p else comp_x e p) /\
               comp_y e' p = (if in_box ylo yhi p then comp_y e p + kappa * comp_y g p else comp_y e p) /\
               comp_z e' p = (if in_box zlo zhi p then comp_z e p + kappa * comp_z g p else comp_z e p)).
Proof.
  intros D (Ex & Ey & Ez) GF Ix Iy Iz. unfold pxrpush_em3d_evec_f_ckc. rewrite (coefs3_fin kappa D).
  set (c := grad (ckc hx hy hz) f).
  destruct (loop_real xlo xhi (kf_ex F (fc (kappa / hx) AX)) (fx E) L H (comp_x e) (fun p => comp_x e p + kappa * comp_x c p)) as (gx & Rx & Vx).
  { apply ok_one. intros. apply cl_bind; [apply (cl_terms AX)|]. intros. apply cl_ret. }
  { exact Ex. }
  { intros p I. destruct (Ix p I) as [I1 I2]. split; [exact I1|]. unfold kf_ex. cbn [map snd run].
    destruct (terms_fin AX kappa F LF HF f p GF I2) as (t1 & t2 & t3 & t4 & T & Te).
    cbn [term_of cell] in T. rewrite T. cbn [bind]. rewrite add4_fin, Te. reflexivity. }
  rewrite Rx. cbn [bind].
  destruct (loop_real ylo yhi (kf_ey F (fc (kappa / hy) AY)) (fy E) L H (comp_y e) (fun p => comp_y e p + kappa * comp_y c p)) as (gy & Ry & Vy).
  { apply ok_one. intros. apply cl_bind; [apply (cl_terms AY)|]. intros. apply cl_ret. }
  { exact Ey. }
  { intros p I. destruct (Iy p I) as [I1 I2]. split; [exact I1|]. unfold kf_ey. cbn [map snd run].
    destruct (terms_fin AY kappa F LF HF f p GF I2) as (t1 & t2 & t3 & t4 & T & Te).
    cbn [term_of cell] in T. rewrite T. cbn [bind]. rewrite add4_fin, Te. reflexivity. }
  rewrite Ry. cbn [bind].
  destruct (loop_real zlo zhi (kf_ez F (fc (kappa / hz) AZ)) (fz E) L H (comp_z e) (fun p => comp_z e p + kappa * comp_z c p)) as (gz & Rz & Vz).
  { apply ok_one. intros. apply cl_bind; [apply (cl_terms AZ)|]. intros. apply cl_ret. }
  { exact Ez. }
  { intros p I. destruct (Iz p I) as [I1 I2]. split; [exact I1|]. unfold kf_ez. cbn [map snd run].
    destruct (terms_fin AZ kappa F LF HF f p GF I2) as (t1 & t2 & t3 & t4 & T & Te).
    cbn [term_of cell] in T. rewrite T. cbn [bind]. rewrite add4_fin, Te. reflexivity. }
  rewrite Rz. cbn [bind]. eexists. eexists (RField _ _ _). split; [reflexivity|]. split; [split; [exact Vx|]; split; [exact Vy | exact Vz]|].
  cbn zeta. intros p. cbn [comp_x comp_y comp_z]. auto.
Qed.
End H.
End X.
