(** Proofs about the two-dimensional solvers of Yee.v in exact arithmetic. *)
From Coq Require Import ZArith Reals List Bool Lia Lra.
From Verif Require Import Cxx Num NumRX Fortran Grid Pushers Yee SpecYee SpecSolver CxxLemmas RXLemmas FortranLemmas GridLemmas YeeReal YeeProofs YeePush YeeDiv.
Import ListNotations.
Local Open Scope R_scope.

Section X.
Context {tg : R -> R}.
Notation N := (RX tg).
Notation gridX := (grid (num N)).

Ltac pt := intros; cbn [shift];
  match goal with |- (?a, ?b, ?c) = (?d, ?e, ?f) =>
    let A := fresh in let B := fresh in let C := fresh in
    assert (A : a = d) by lia; assert (B : b = e) by lia; assert (C : c = f) by lia; exact (f_equal2 pair (f_equal2 pair A B) C) end.
Ltac dif Pf := let D := fresh in pose proof Pf as D;
  match goal with |- context [diff ?g ?p ?q] => match type of D with _ = ?r => change (diff g p q = r) in D; rewrite D; clear D end end.

(** reach of the formulas along x and z *)
Definition fits2 (S : Sizes) (mx mz : Z) : Prop :=
  (0 <= nxs S /\ 0 <= nzs S /\ 0 <= nyguard S /\ 0 <= ny S + nyguard S /\ 0 <= mx /\ 0 <= mz /\
   nxs S + mx <= nxguard S /\ nzs S + mz <= nzguard S)%Z.
Definition reach2 (mx mz : Z) (d : axis) : Z := match d with AX => mx | AY => 0 | AZ => mz end.
Lemma fits2_in S mx mz p : fits2 S mx mz -> in_box (slo2 S 0) (shi2 S 0) p = true ->
  forall d m, (- reach2 mx mz d <= m <= reach2 mx mz d)%Z -> in_box (alo S) (ahi S) (shift d m p) = true.
Proof.
  destruct p as [[j k] l]. unfold slo2, shi2, alo, ahi, fits2. rewrite in_box_iff. intros F I d m Hm.
  destruct d; cbn [shift reach2] in *; rewrite in_box_iff; lia.
Qed.
Lemma fits2_in0 S mx mz p : fits2 S mx mz -> in_box (slo2 S 0) (shi2 S 0) p = true -> in_box (alo S) (ahi S) p = true.
Proof. intros F I. rewrite <- (shift0 AY p). apply (fits2_in S mx mz); [exact F | exact I |]. cbn. lia. Qed.

Notation lo2 S := (slo2 S 0).
Notation hi2 S := (shi2 S 0).
Definition b2_new (S : Sizes) (cx cz : R) (e b : rfield) : rfield :=
  RField (upd (lo2 S) (hi2 S) (fun p => comp_x b p + cz * (comp_y e (shift AZ 1 p) - comp_y e p)) (comp_x b))
    (upd (lo2 S) (hi2 S) (fun p => comp_y b p + cx * (comp_z e (shift AX 1 p) - comp_z e p) - cz * (comp_x e (shift AZ 1 p) - comp_x e p)) (comp_y b))
    (upd (lo2 S) (hi2 S) (fun p => comp_z b p - cx * (comp_y e (shift AX 1 p) - comp_y e p)) (comp_z b)).
Definition b2n_new (S : Sizes) (mx mz t : Z) (wx wz : list R) (e b : rfield) : rfield :=
  RField (upd (lo2 S) (hi2 S) (fun p => comp_x b p + tfwd mz (weight wz) t AZ (comp_y e) p) (comp_x b))
    (upd (lo2 S) (hi2 S) (fun p => comp_y b p + tfwd mx (weight wx) t AX (comp_z e) p - tfwd mz (weight wz) t AZ (comp_x e) p) (comp_y b))
    (upd (lo2 S) (hi2 S) (fun p => comp_z b p - tfwd mx (weight wx) t AX (comp_y e) p) (comp_z b)).
Definition e2_new (S : Sizes) (mu : R) (cx cz : R) (e b j : rfield) : rfield :=
  RField (upd (lo2 S) (hi2 S) (fun p => comp_x e p - cz * (comp_y b p - comp_y b (shift AZ (-1) p)) - mu * comp_x j p) (comp_x e))
    (upd (lo2 S) (hi2 S) (fun p => comp_y e p - cx * (comp_z b p - comp_z b (shift AX (-1) p)) + cz * (comp_x b p - comp_x b (shift AZ (-1) p)) - mu * comp_y j p) (comp_y e))
    (upd (lo2 S) (hi2 S) (fun p => comp_z e p + cx * (comp_y b p - comp_y b (shift AX (-1) p)) - mu * comp_z j p) (comp_z e)).
Definition e2n_new (S : Sizes) (mu : R) (mx mz t : Z) (wx wz : list R) (e b j : rfield) : rfield :=
  RField (upd (lo2 S) (hi2 S) (fun p => comp_x e p - mu * comp_x j p - tbwd mz (weight wz) t AZ (comp_y b) p) (comp_x e))
    (upd (lo2 S) (hi2 S) (fun p => comp_y e p - mu * comp_y j p - tbwd mx (weight wx) t AX (comp_z b) p + tbwd mz (weight wz) t AZ (comp_x b) p) (comp_y e))
    (upd (lo2 S) (hi2 S) (fun p => comp_z e p - mu * comp_z j p + tbwd mx (weight wx) t AX (comp_y b) p) (comp_z e)).

Theorem bvec2_real S cx cz E B e b : fits2 S 1 1 -> is_field S E e -> is_field S B b ->
  exists B', pxrpush_em2d_bvec (lo2 S) (hi2 S) (lo2 S) (hi2 S) (lo2 S) (hi2 S) E B (Fin cx : num N) (Fin cz : num N) = Ret B' /\
    @is_field tg S B' (b2_new S cx cz e b).
Proof.
  intros F (Ex & Ey & Ez) (Bx & By & Bz). unfold pxrpush_em2d_bvec.
  destruct (loop_real (lo2 S) (hi2 S) (b2_bx E (Fin cz : num N)) (fx B) (alo S) (ahi S) (comp_x b)
    (fun p => comp_x b p + cz * (comp_y e (shift AZ 1 p) - comp_y e p)) (ok_b2_bx E _) Bx) as (gx & Rx & Gx).
  { intros p I. pose proof (fits2_in0 S 1 1 p F I) as I'. split; [exact I'|]. destruct p as [[j k] l].
    unfold b2_bx. cbn [map snd run].
    dif (grid_diff _ _ _ _ _ _ Ey (fits2_in S 1 1 _ F I AZ 1 ltac:(cbn; lia)) I'). cbn [bind].
    reflexivity. }
  rewrite Rx. cbn [bind].
  destruct (loop_real (lo2 S) (hi2 S) (b2_by E (Fin cx : num N) (Fin cz : num N)) (fy B) (alo S) (ahi S) (comp_y b)
    (fun p => comp_y b p + cx * (comp_z e (shift AX 1 p) - comp_z e p) - cz * (comp_x e (shift AZ 1 p) - comp_x e p)) (ok_b2_by E _ _) By) as (gy & Ry & Gy).
  { intros p I. pose proof (fits2_in0 S 1 1 p F I) as I'. split; [exact I'|]. destruct p as [[j k] l].
    unfold b2_by. cbn [map snd run].
    dif (grid_diff _ _ _ _ _ _ Ez (fits2_in S 1 1 _ F I AX 1 ltac:(cbn; lia)) I'). cbn [bind].
    dif (grid_diff _ _ _ _ _ _ Ex (fits2_in S 1 1 _ F I AZ 1 ltac:(cbn; lia)) I'). cbn [bind].
    reflexivity. }
  rewrite Ry. cbn [bind].
  destruct (loop_real (lo2 S) (hi2 S) (b2_bz E (Fin cx : num N)) (fz B) (alo S) (ahi S) (comp_z b)
    (fun p => comp_z b p - cx * (comp_y e (shift AX 1 p) - comp_y e p)) (ok_b2_bz E _) Bz) as (gz & Rz & Gz).
  { intros p I. pose proof (fits2_in0 S 1 1 p F I) as I'. split; [exact I'|]. destruct p as [[j k] l].
    unfold b2_bz. cbn [map snd run].
    dif (grid_diff _ _ _ _ _ _ Ey (fits2_in S 1 1 _ F I AX 1 ltac:(cbn; lia)) I'). cbn [bind].
    reflexivity. }
  rewrite Rz. cbn [bind].
  eexists. split; [reflexivity|]. split; [exact Gx|]. split; [exact Gy | exact Gz].
Qed.

Theorem evec2_real S mu cx cz E B J e b j_ : fits2 S 1 1 -> is_field S E e -> is_field S B b -> is_field S J j_ ->
  exists E', pxrpush_em2d_evec (lo2 S) (hi2 S) (lo2 S) (hi2 S) (lo2 S) (hi2 S) E B J (Fin mu : num N) (Fin cx : num N) (Fin cz : num N) = Ret E' /\
    @is_field tg S E' (e2_new S mu cx cz e b j_).
Proof.
  intros F (Ex & Ey & Ez) (Bx & By & Bz) (Jx & Jy & Jz). unfold pxrpush_em2d_evec.
  destruct (loop_real (lo2 S) (hi2 S) (e2_ex B J (Fin mu : num N) (Fin cz : num N)) (fx E) (alo S) (ahi S) (comp_x e)
    (fun p => comp_x e p - cz * (comp_y b p - comp_y b (shift AZ (-1) p)) - mu * comp_x j_ p) (ok_e2_ex B J _ _) Ex) as (gx & Rx & Gx).
  { intros p I. pose proof (fits2_in0 S 1 1 p F I) as I'. split; [exact I'|]. destruct p as [[j k] l].
    unfold e2_ex. cbn [map snd run].
    dif (grid_diff _ _ _ _ _ _ By I' (fits2_in S 1 1 _ F I AZ (-1) ltac:(cbn; lia))). cbn [bind].
    rewrite (grid_get _ _ _ _ _ Jx I'). cbn [bind].
    reflexivity. }
  rewrite Rx. cbn [bind].
  destruct (loop_real (lo2 S) (hi2 S) (e2_ey B J (Fin mu : num N) (Fin cx : num N) (Fin cz : num N)) (fy E) (alo S) (ahi S) (comp_y e)
    (fun p => comp_y e p - cx * (comp_z b p - comp_z b (shift AX (-1) p)) + cz * (comp_x b p - comp_x b (shift AZ (-1) p)) - mu * comp_y j_ p) (ok_e2_ey B J _ _ _) Ey) as (gy & Ry & Gy).
  { intros p I. pose proof (fits2_in0 S 1 1 p F I) as I'. split; [exact I'|]. destruct p as [[j k] l].
    unfold e2_ey. cbn [map snd run].
    dif (grid_diff _ _ _ _ _ _ Bz I' (fits2_in S 1 1 _ F I AX (-1) ltac:(cbn; lia))). cbn [bind].
    dif (grid_diff _ _ _ _ _ _ Bx I' (fits2_in S 1 1 _ F I AZ (-1) ltac:(cbn; lia))). cbn [bind].
    rewrite (grid_get _ _ _ _ _ Jy I'). cbn [bind].
    reflexivity. }
  rewrite Ry. cbn [bind].
  destruct (loop_real (lo2 S) (hi2 S) (e2_ez B J (Fin mu : num N) (Fin cx : num N)) (fz E) (alo S) (ahi S) (comp_z e)
    (fun p => comp_z e p + cx * (comp_y b p - comp_y b (shift AX (-1) p)) - mu * comp_z j_ p) (ok_e2_ez B J _ _) Ez) as (gz & Rz & Gz).
  { intros p I. pose proof (fits2_in0 S 1 1 p F I) as I'. split; [exact I'|]. destruct p as [[j k] l].
    unfold e2_ez. cbn [map snd run].
    dif (grid_diff _ _ _ _ _ _ By I' (fits2_in S 1 1 _ F I AX (-1) ltac:(cbn; lia))). cbn [bind].
    rewrite (grid_get _ _ _ _ _ Jz I'). cbn [bind].
    reflexivity. }
  rewrite Rz. cbn [bind].
  eexists. split; [reflexivity|]. split; [exact Gx|]. split; [exact Gy | exact Gz].
Qed.

Lemma fwd_terms2 S mx mz d p (w : list R) (g : gridX) r : fits2 S mx mz -> in_box (lo2 S) (hi2 S) p = true ->
  zlen w = reach2 mx mz d -> is_grid g (alo S) (ahi S) r -> forall i, (1 <= i <= reach2 mx mz d)%Z ->
  forall pp qq, pp = shift d i p -> qq = shift d (stagger (l_nodalgrid S) - i) p ->
  get1 (map Fin w) i = Ret (Fin (weight w i) : num N) /\ diff g pp qq = Ret (Fin (r pp - r qq) : num N).
Proof.
  intros F I W G i Hi pp qq -> ->. split.
  - apply weights_get. lia.
  - apply (grid_diff g (alo S) (ahi S)); [exact G | |]; apply (fits2_in S mx mz); try assumption; pose proof (stagger_01 (l_nodalgrid S)); lia.
Qed.
Lemma bwd_terms2 S mx mz d p (w : list R) (g : gridX) r : fits2 S mx mz -> in_box (lo2 S) (hi2 S) p = true ->
  zlen w = reach2 mx mz d -> is_grid g (alo S) (ahi S) r -> forall i, (1 <= i <= reach2 mx mz d)%Z ->
  forall pp qq, pp = shift d (i - stagger (l_nodalgrid S)) p -> qq = shift d (- i) p ->
  get1 (map Fin w) i = Ret (Fin (weight w i) : num N) /\ diff g pp qq = Ret (Fin (r pp - r qq) : num N).
Proof.
  intros F I W G i Hi pp qq -> ->. split.
  - apply weights_get. lia.
  - apply (grid_diff g (alo S) (ahi S)); [exact G | |]; apply (fits2_in S mx mz); try assumption; pose proof (stagger_01 (l_nodalgrid S)); lia.
Qed.

Theorem bvec2n_real S wx wz E B e b : fits2 S (norderx S ÷ 2) (norderz S ÷ 2) ->
  zlen wx = (norderx S ÷ 2)%Z -> zlen wz = (norderz S ÷ 2)%Z -> is_field S E e -> is_field S B b ->
  exists B', pxrpush_em2d_bvec_norder S 0 E B (map Fin wx) (map Fin wz) = Ret B' /\
    @is_field tg S B' (b2n_new S (norderx S ÷ 2) (norderz S ÷ 2) (stagger (l_nodalgrid S)) wx wz e b).
Proof.
  intros F Lx Lz (Ex & Ey & Ez) (Bx & By & Bz). unfold pxrpush_em2d_bvec_norder.
  destruct (loop_real (lo2 S) (hi2 S) (bn2_bx S E (map Fin wz)) (fx B) (alo S) (ahi S) (comp_x b)
    (fun p => comp_x b p + tfwd (norderz S ÷ 2) (weight wz) (stagger (l_nodalgrid S)) AZ (comp_y e) p) (ok_bn2_bx S E _) Bx) as (gx & Rx & Gx).
  { intros p I. pose proof (fits2_in0 S _ _ p F I) as I'. split; [exact I'|]. destruct p as [[j k] l].
    unfold bn2_bx. 
    rewrite (run_plus _ _ _ _ (weight wz) (comp_y e));
      [|intros i Hi; eapply fwd_terms2 with (d := AZ); try eassumption; pt].
    cbn [bind].
    f_equal. f_equal. rewrite (tfwd_code _ _ (stagger (l_nodalgrid S)) AZ _ (j, k, l)) by pt. reflexivity. }
  rewrite Rx. cbn [bind].
  destruct (loop_real (lo2 S) (hi2 S) (bn2_by S E (map Fin wx) (map Fin wz)) (fy B) (alo S) (ahi S) (comp_y b)
    (fun p => comp_y b p + tfwd (norderx S ÷ 2) (weight wx) (stagger (l_nodalgrid S)) AX (comp_z e) p - tfwd (norderz S ÷ 2) (weight wz) (stagger (l_nodalgrid S)) AZ (comp_x e) p) (ok_bn2_by S E _ _) By) as (gy & Ry & Gy).
  { intros p I. pose proof (fits2_in0 S _ _ p F I) as I'. split; [exact I'|]. destruct p as [[j k] l].
    unfold bn2_by. 
    rewrite map_app, run_app.
    rewrite (run_plus _ _ _ _ (weight wx) (comp_z e));
      [|intros i Hi; eapply fwd_terms2 with (d := AX); try eassumption; pt].
    cbn [bind].
    rewrite (run_minus _ _ _ _ (weight wz) (comp_x e));
      [|intros i Hi; eapply fwd_terms2 with (d := AZ); try eassumption; pt].
    cbn [bind].
    f_equal. f_equal. rewrite (tfwd_code _ _ (stagger (l_nodalgrid S)) AX _ (j, k, l)) by pt. rewrite (tfwd_code _ _ (stagger (l_nodalgrid S)) AZ _ (j, k, l)) by pt. reflexivity. }
  rewrite Ry. cbn [bind].
  destruct (loop_real (lo2 S) (hi2 S) (bn2_bz S E (map Fin wx)) (fz B) (alo S) (ahi S) (comp_z b)
    (fun p => comp_z b p - tfwd (norderx S ÷ 2) (weight wx) (stagger (l_nodalgrid S)) AX (comp_y e) p) (ok_bn2_bz S E _) Bz) as (gz & Rz & Gz).
  { intros p I. pose proof (fits2_in0 S _ _ p F I) as I'. split; [exact I'|]. destruct p as [[j k] l].
    unfold bn2_bz. 
    rewrite (run_minus _ _ _ _ (weight wx) (comp_y e));
      [|intros i Hi; eapply fwd_terms2 with (d := AX); try eassumption; pt].
    cbn [bind].
    f_equal. f_equal. rewrite (tfwd_code _ _ (stagger (l_nodalgrid S)) AX _ (j, k, l)) by pt. reflexivity. }
  rewrite Rz. cbn [bind].
  eexists. split; [reflexivity|]. split; [exact Gx|]. split; [exact Gy | exact Gz].
Qed.

Theorem evec2n_real S mu wx wz E B J e b j_ : fits2 S (norderx S ÷ 2) (norderz S ÷ 2) ->
  zlen wx = (norderx S ÷ 2)%Z -> zlen wz = (norderz S ÷ 2)%Z -> is_field S E e -> is_field S B b -> is_field S J j_ ->
  exists E', pxrpush_em2d_evec_norder S 0 E B J (Fin mu : num N) (map Fin wx) (map Fin wz) = Ret E' /\
    @is_field tg S E' (e2n_new S mu (norderx S ÷ 2) (norderz S ÷ 2) (stagger (l_nodalgrid S)) wx wz e b j_).
Proof.
  intros F Lx Lz (Ex & Ey & Ez) (Bx & By & Bz) (Jx & Jy & Jz). unfold pxrpush_em2d_evec_norder.
  destruct (loop_real (lo2 S) (hi2 S) (en2_ex S B J (Fin mu : num N) (map Fin wz)) (fx E) (alo S) (ahi S) (comp_x e)
    (fun p => comp_x e p - mu * comp_x j_ p - tbwd (norderz S ÷ 2) (weight wz) (stagger (l_nodalgrid S)) AZ (comp_y b) p) (ok_en2_ex S B J _ _) Ex) as (gx & Rx & Gx).
  { intros p I. pose proof (fits2_in0 S _ _ p F I) as I'. split; [exact I'|]. destruct p as [[j k] l].
    unfold en2_ex. 
    cbn [map snd cur_term]. cbn [run]. rewrite (grid_get _ _ _ _ _ Jx I'). cbn [bind].
    change (n_sub (Fin (comp_x e (j, k, l)) : num N) (n_mul (Fin mu : num N) (Fin (comp_x j_ (j, k, l)) : num N))) with (Fin (comp_x e (j, k, l) - mu * comp_x j_ (j, k, l)) : num N).
    rewrite (run_minus _ _ _ _ (weight wz) (comp_y b));
      [|intros i Hi; eapply bwd_terms2 with (d := AZ); try eassumption; pt].
    cbn [bind].
    f_equal. f_equal. rewrite (tbwd_code _ _ (stagger (l_nodalgrid S)) AZ _ (j, k, l)) by pt. reflexivity. }
  rewrite Rx. cbn [bind].
  destruct (loop_real (lo2 S) (hi2 S) (en2_ey S B J (Fin mu : num N) (map Fin wx) (map Fin wz)) (fy E) (alo S) (ahi S) (comp_y e)
    (fun p => comp_y e p - mu * comp_y j_ p - tbwd (norderx S ÷ 2) (weight wx) (stagger (l_nodalgrid S)) AX (comp_z b) p + tbwd (norderz S ÷ 2) (weight wz) (stagger (l_nodalgrid S)) AZ (comp_x b) p) (ok_en2_ey S B J _ _ _) Ey) as (gy & Ry & Gy).
  { intros p I. pose proof (fits2_in0 S _ _ p F I) as I'. split; [exact I'|]. destruct p as [[j k] l].
    unfold en2_ey. 
    cbn [map snd cur_term]. cbn [run]. rewrite (grid_get _ _ _ _ _ Jy I'). cbn [bind].
    change (n_sub (Fin (comp_y e (j, k, l)) : num N) (n_mul (Fin mu : num N) (Fin (comp_y j_ (j, k, l)) : num N))) with (Fin (comp_y e (j, k, l) - mu * comp_y j_ (j, k, l)) : num N).
    rewrite map_app, run_app.
    rewrite (run_minus _ _ _ _ (weight wx) (comp_z b));
      [|intros i Hi; eapply bwd_terms2 with (d := AX); try eassumption; pt].
    cbn [bind].
    rewrite (run_plus _ _ _ _ (weight wz) (comp_x b));
      [|intros i Hi; eapply bwd_terms2 with (d := AZ); try eassumption; pt].
    cbn [bind].
    f_equal. f_equal. rewrite (tbwd_code _ _ (stagger (l_nodalgrid S)) AX _ (j, k, l)) by pt. rewrite (tbwd_code _ _ (stagger (l_nodalgrid S)) AZ _ (j, k, l)) by pt. reflexivity. }
  rewrite Ry. cbn [bind].
  destruct (loop_real (lo2 S) (hi2 S) (en2_ez S B J (Fin mu : num N) (map Fin wx)) (fz E) (alo S) (ahi S) (comp_z e)
    (fun p => comp_z e p - mu * comp_z j_ p + tbwd (norderx S ÷ 2) (weight wx) (stagger (l_nodalgrid S)) AX (comp_y b) p) (ok_en2_ez S B J _ _) Ez) as (gz & Rz & Gz).
  { intros p I. pose proof (fits2_in0 S _ _ p F I) as I'. split; [exact I'|]. destruct p as [[j k] l].
    unfold en2_ez. 
    cbn [map snd cur_term]. cbn [run]. rewrite (grid_get _ _ _ _ _ Jz I'). cbn [bind].
    change (n_sub (Fin (comp_z e (j, k, l)) : num N) (n_mul (Fin mu : num N) (Fin (comp_z j_ (j, k, l)) : num N))) with (Fin (comp_z e (j, k, l) - mu * comp_z j_ (j, k, l)) : num N).
    rewrite (run_plus _ _ _ _ (weight wx) (comp_y b));
      [|intros i Hi; eapply bwd_terms2 with (d := AX); try eassumption; pt].
    cbn [bind].
    f_equal. f_equal. rewrite (tbwd_code _ _ (stagger (l_nodalgrid S)) AX _ (j, k, l)) by pt. reflexivity. }
  rewrite Rz. cbn [bind].
  eexists. split; [reflexivity|]. split; [exact Gx|]. split; [exact Gy | exact Gz].
Qed.
End X.
