(** Proofs about Yee.v in exact arithmetic: what the field pushes compute. *)
From Coq Require Import ZArith Reals List Bool Lia Lra.
From Verif Require Import Cxx Num NumRX Fortran Grid Pushers Yee SpecYee SpecSolver CxxLemmas RXLemmas FortranLemmas GridLemmas YeeReal YeeProofs.
Import ListNotations.
Local Open Scope Z_scope.

Section X.
Context {tg : R -> R}.
Notation N := (RX tg).
Notation gridX := (grid (num N)).
Notation fieldX := (field (num N)).

Lemma grid_get (g : gridX) L H r p : is_grid g L H r -> in_box L H p = true -> get3 g p = Ret (Fin (r p)).
Proof. intros (<- & <- & V) I. rewrite get_in by exact I. f_equal. apply V. exact I. Qed.

Lemma grid_diff (g : gridX) L H r p q : is_grid g L H r -> in_box L H p = true -> in_box L H q = true ->
  diff g p q = Ret (Fin (r p - r q) : num N).
Proof. intros G I J. unfold diff. rewrite (grid_get g L H r p G I), (grid_get g L H r q G J). reflexivity. Qed.

Lemma loop_real lo hi body (g : gridX) L H r (v : idx -> R) : ok_body body -> is_grid g L H r ->
  (forall p, in_box lo hi p = true -> in_box L H p = true /\ run (map snd (body p)) (Fin (r p) : num N) = Ret (Fin (v p))) ->
  exists g', loop3 lo hi body g = Ret g' /\ is_grid g' L H (fun p => if in_box lo hi p then v p else r p).
Proof.
  intros K (GL & GH & V) P.
  destruct (loop3_complete lo hi body g (fun p => Fin (v p) : num N) (ok_local _ K)) as (g' & E & L' & H' & V').
  - intros p I. destruct (P p I) as [J R]. rewrite GL, GH. split; [exact J|]. rewrite V by exact J. exact R.
  - exists g'. split; [exact E|]. repeat split; [congruence | congruence |]. intros p I. rewrite V'.
    destruct (in_box lo hi p); [reflexivity | apply V; exact I].
Qed.

Lemma loop_real_ub lo hi body (g : gridX) p : ok_body body -> in_box lo hi p = true ->
  run (map snd (body p)) (gat g p) = UB -> loop3 lo hi body g = UB.
Proof.
  intros K I R.
  assert (C : Forall clean (flat_map body (box lo hi))).
  { rewrite Forall_forall. intros s Hs. apply in_flat_map in Hs. destruct Hs as (q & _ & Hs). apply (K q s Hs). }
  destruct (exec_clean _ C g) as [(g' & E)|E]; [|exact E].
  destruct (loop3_sound lo hi body g g' (ok_local _ K) E) as (_ & _ & F).
  destruct (F p) as [F1 _]. rewrite (F1 I) in R. discriminate.
Qed.

(** ** sums of terms *)
Lemma weights_get (w : list R) i : 1 <= i <= zlen w -> get1 (map Fin w) i = Ret (Fin (weight w i)).
Proof.
  intros Hi. rewrite (get1_ok _ i (Fin 0)) by (rewrite zlen_map; exact Hi). unfold weight. f_equal.
  exact (map_nth Fin w 0%R (Z.to_nat (i - 1))).
Qed.

Lemma run_terms (pls : bool) (c : list (num N)) (b : gridX) p0 (w : Z -> R) (r : idx -> R) (pp qq : Z -> idx) l :
  (forall i, In i l -> get1 c i = Ret (Fin (w i) : num N) /\ diff b (pp i) (qq i) = Ret (Fin (r (pp i) - r (qq i)) : num N)) ->
  forall e, run (map snd (map (fun i => (p0 : idx, (if pls then plus_term else minus_term) c b i (pp i) (qq i))) l)) (Fin e : num N)
  = Ret (Fin (if pls then e + rsum l (fun i => w i * (r (pp i) - r (qq i))) else e - rsum l (fun i => w i * (r (pp i) - r (qq i))))%R).
Proof.
  induction l as [|i l IH]; intros Hl e.
  - cbn. f_equal. f_equal. destruct pls; lra.
  - destruct (Hl i (or_introl eq_refl)) as [Hw Hd].
    assert (St : (if pls then plus_term else minus_term) c b i (pp i) (qq i) (Fin e : num N)
       = Ret (Fin (if pls then e + w i * (r (pp i) - r (qq i)) else e - w i * (r (pp i) - r (qq i)))%R : num N)).
    { destruct pls; unfold plus_term, minus_term; rewrite Hw; cbn [bind]; rewrite Hd; reflexivity. }
    cbn [map snd run]. rewrite St. cbn [bind]. rewrite IH by (intros; apply Hl; right; assumption).
    f_equal. f_equal. unfold rsum. cbn [map fold_right]. destruct pls; lra.
Qed.

Lemma run_plus c b p0 n (w : Z -> R) r pp qq e :
  (forall i, 1 <= i <= n -> get1 c i = Ret (Fin (w i) : num N) /\ diff b (pp i) (qq i) = Ret (Fin (r (pp i) - r (qq i)) : num N)) ->
  run (map snd (stmts p0 n (fun i => plus_term c b i (pp i) (qq i)))) (Fin e : num N)
  = Ret (Fin (e + Sum n (fun i => w i * (r (pp i) - r (qq i))))%R).
Proof. intros H. apply (run_terms true). intros i Hi. apply H. apply in_zrange. exact Hi. Qed.
Lemma run_minus c b p0 n (w : Z -> R) r pp qq e :
  (forall i, 1 <= i <= n -> get1 c i = Ret (Fin (w i) : num N) /\ diff b (pp i) (qq i) = Ret (Fin (r (pp i) - r (qq i)) : num N)) ->
  run (map snd (stmts p0 n (fun i => minus_term c b i (pp i) (qq i)))) (Fin e : num N)
  = Ret (Fin (e - Sum n (fun i => w i * (r (pp i) - r (qq i))))%R).
Proof. intros H. apply (run_terms false). intros i Hi. apply H. apply in_zrange. exact Hi. Qed.

(** number of terms used at p *)
Definition cnt (S : Sizes) (d : axis) (p : idx) : Z :=
  let '(j, k, l) := p in
  match d with
  | AX => terms (norderx S) (nx S) (nxguard S) j
  | AY => terms (nordery S) (ny S) (nyguard S) k
  | AZ => terms (norderz S) (nz S) (nzguard S) l
  end.
Local Open Scope R_scope.
Definition tfwd (n : Z) (w : Z -> R) (t : Z) (d : axis) (f : idx -> R) (p : idx) : R :=
  Sum n (fun i => w i * (f (shift d i p) - f (shift d (t - i) p))).
Definition tbwd (n : Z) (w : Z -> R) (t : Z) (d : axis) (f : idx -> R) (p : idx) : R :=
  Sum n (fun i => w i * (f (shift d (i - t) p) - f (shift d (- i) p))).
Definition upd (lo hi : idx) (f b : idx -> R) (p : idx) : R := if in_box lo hi p then f p else b p.

(** *** any order *)
Definition bn_new (S : Sizes) (wx wy wz : list R) (e b : rfield) : rfield :=
  let t := stagger (l_nodalgrid S) in
  let D d w f p := tfwd (cnt S d p) (weight w) t d f p in
  RField
    (upd (slo S) (shi S) (fun p => comp_x b p - D AY wy (comp_z e) p + D AZ wz (comp_y e) p) (comp_x b))
    (upd (slo S) (shi S) (fun p => comp_y b p + D AX wx (comp_z e) p - D AZ wz (comp_x e) p) (comp_y b))
    (upd (slo S) (shi S) (fun p => comp_z b p - D AX wx (comp_y e) p + D AY wy (comp_x e) p) (comp_z b)).
Definition en_new (S : Sizes) (mu : R) (wx wy wz : list R) (e b j : rfield) : rfield :=
  let t := stagger (l_nodalgrid S) in
  let D d w f p := tbwd (cnt S d p) (weight w) t d f p in
  RField
    (upd (slo S) (shi S) (fun p => comp_x e p - mu * comp_x j p + D AY wy (comp_z b) p - D AZ wz (comp_y b) p) (comp_x e))
    (upd (slo S) (shi S) (fun p => comp_y e p - mu * comp_y j p - D AX wx (comp_z b) p + D AZ wz (comp_x b) p) (comp_y e))
    (upd (slo S) (shi S) (fun p => comp_z e p - mu * comp_z j p + D AX wx (comp_y b) p - D AY wy (comp_x b) p) (comp_z e)).

Definition fits (S : Sizes) : Prop :=
  (0 <= nxs S <= nxguard S /\ 0 <= nys S <= nyguard S /\ 0 <= nzs S <= nzguard S)%Z.

Lemma fits_in S p : fits S -> in_box (slo S) (shi S) p = true -> in_box (alo S) (ahi S) p = true.
Proof. destruct p as [[j k] l]. unfold slo, shi, alo, ahi, fits. rewrite !in_box_iff. lia. Qed.

Lemma cnt_in S d p i : fits S -> in_box (slo S) (shi S) p = true -> (1 <= i <= cnt S d p)%Z ->
  forall m, (- i <= m <= i)%Z -> in_box (alo S) (ahi S) (shift d m p) = true.
Proof.
  destruct p as [[j k] l]. unfold slo, shi, alo, ahi, fits, cnt, terms. rewrite in_box_iff. intros F I Hi m Hm.
  destruct d; cbn [shift]; rewrite in_box_iff; lia.
Qed.
Lemma cnt_len S d p (w : list R) n : zlen w = (n ÷ 2)%Z ->
  match d with AX => norderx S | AY => nordery S | AZ => norderz S end = n -> (cnt S d p <= zlen w)%Z.
Proof. destruct p as [[j k] l]. intros -> <-. unfold cnt, terms. destruct d; lia. Qed.

Lemma stagger_01 b : (0 <= stagger b <= 1)%Z.
Proof. destruct b; cbn; lia. Qed.

Definition lens (S : Sizes) (wx wy wz : list R) : Prop :=
  zlen wx = (norderx S ÷ 2)%Z /\ zlen wy = (nordery S ÷ 2)%Z /\ zlen wz = (norderz S ÷ 2)%Z.

Lemma fwd_terms S d p (w : list R) (g : gridX) r : fits S -> in_box (slo S) (shi S) p = true ->
  zlen w = (match d with AX => norderx S | AY => nordery S | AZ => norderz S end ÷ 2)%Z ->
  is_grid g (alo S) (ahi S) r -> forall i, (1 <= i <= cnt S d p)%Z ->
  forall pp qq, pp = shift d i p -> qq = shift d (stagger (l_nodalgrid S) - i) p ->
  get1 (map Fin w) i = Ret (Fin (weight w i) : num N) /\ diff g pp qq = Ret (Fin (r pp - r qq) : num N).
Proof.
  intros F I W G i Hi pp qq -> ->. split.
  - apply weights_get. pose proof (cnt_len S d p w _ W eq_refl). lia.
  - apply (grid_diff g (alo S) (ahi S)); [exact G | |]; eapply cnt_in; try eassumption; pose proof (stagger_01 (l_nodalgrid S)); lia.
Qed.
Lemma bwd_terms S d p (w : list R) (g : gridX) r : fits S -> in_box (slo S) (shi S) p = true ->
  zlen w = (match d with AX => norderx S | AY => nordery S | AZ => norderz S end ÷ 2)%Z ->
  is_grid g (alo S) (ahi S) r -> forall i, (1 <= i <= cnt S d p)%Z ->
  forall pp qq, pp = shift d (i - stagger (l_nodalgrid S)) p -> qq = shift d (- i) p ->
  get1 (map Fin w) i = Ret (Fin (weight w i) : num N) /\ diff g pp qq = Ret (Fin (r pp - r qq) : num N).
Proof.
  intros F I W G i Hi pp qq -> ->. split.
  - apply weights_get. pose proof (cnt_len S d p w _ W eq_refl). lia.
  - apply (grid_diff g (alo S) (ahi S)); [exact G | |]; eapply cnt_in; try eassumption; pose proof (stagger_01 (l_nodalgrid S)); lia.
Qed.

(** sums written with the indices of the code *)
Lemma tfwd_code n w t d f p (pp qq : Z -> idx) : (forall i, pp i = shift d i p) -> (forall i, qq i = shift d (t - i) p) ->
  Sum n (fun i => w i * (f (pp i) - f (qq i))) = tfwd n w t d f p.
Proof. intros H1 H2. apply Sum_ext. intros i _. rewrite H1, H2. reflexivity. Qed.
Lemma tbwd_code n w t d f p (pp qq : Z -> idx) : (forall i, pp i = shift d (i - t) p) -> (forall i, qq i = shift d (- i) p) ->
  Sum n (fun i => w i * (f (pp i) - f (qq i))) = tbwd n w t d f p.
Proof. intros H1 H2. apply Sum_ext. intros i _. rewrite H1, H2. reflexivity. Qed.

Ltac pt := intros; cbn [shift];
  match goal with |- (?a, ?b, ?c) = (?d, ?e, ?f) =>
    let A := fresh in let B := fresh in let C := fresh in
    assert (A : a = d) by lia; assert (B : b = e) by lia; assert (C : c = f) by lia; exact (f_equal2 pair (f_equal2 pair A B) C) end.

Theorem bvec_norder_real S wx wy wz E B e b : fits S -> lens S wx wy wz -> is_field S E e -> is_field S B b ->
  exists B', pxrpush_em3d_bvec_norder S E B (map Fin wx) (map Fin wy) (map Fin wz) = Ret B' /\
    @is_field tg S B' (bn_new S wx wy wz e b).
Proof.
  intros F (Lx & Ly & Lz) (Ex & Ey & Ez) (Bx & By & Bz). unfold pxrpush_em3d_bvec_norder.
  destruct (loop_real (slo S) (shi S) (bn_bx S E (map Fin wy) (map Fin wz)) (fx B) (alo S) (ahi S) (comp_x b)
    (fun p => comp_x b p - tfwd (cnt S AY p) (weight wy) (stagger (l_nodalgrid S)) AY (comp_z e) p
              + tfwd (cnt S AZ p) (weight wz) (stagger (l_nodalgrid S)) AZ (comp_y e) p) (ok_bn_bx S E _ _) Bx) as (bx & Rx & Gx).
  { intros p I. split; [apply fits_in; assumption|]. destruct p as [[j k] l].
    unfold bn_bx. rewrite map_app, run_app.
    rewrite (run_minus _ _ _ _ (weight wy) (comp_z e)).
    2:{ intros i Hi. eapply fwd_terms with (d := AY); try eassumption; pt. }
    cbn [bind]. rewrite (run_plus _ _ _ _ (weight wz) (comp_y e)).
    2:{ intros i Hi. eapply fwd_terms with (d := AZ); try eassumption; pt. }
    f_equal. f_equal. rewrite (tfwd_code _ _ (stagger (l_nodalgrid S)) AY _ (j, k, l)) by pt.
    rewrite (tfwd_code _ _ (stagger (l_nodalgrid S)) AZ _ (j, k, l)) by pt. reflexivity. }
  rewrite Rx. cbn [bind].
  destruct (loop_real (slo S) (shi S) (bn_by S E (map Fin wx) (map Fin wz)) (fy B) (alo S) (ahi S) (comp_y b)
    (fun p => comp_y b p + tfwd (cnt S AX p) (weight wx) (stagger (l_nodalgrid S)) AX (comp_z e) p
              - tfwd (cnt S AZ p) (weight wz) (stagger (l_nodalgrid S)) AZ (comp_x e) p) (ok_bn_by S E _ _) By) as (by_ & Ry & Gy).
  { intros p I. split; [apply fits_in; assumption|]. destruct p as [[j k] l].
    unfold bn_by. rewrite map_app, run_app.
    rewrite (run_plus _ _ _ _ (weight wx) (comp_z e)).
    2:{ intros i Hi. eapply fwd_terms with (d := AX); try eassumption; pt. }
    cbn [bind]. rewrite (run_minus _ _ _ _ (weight wz) (comp_x e)).
    2:{ intros i Hi. eapply fwd_terms with (d := AZ); try eassumption; pt. }
    f_equal. f_equal. rewrite (tfwd_code _ _ (stagger (l_nodalgrid S)) AX _ (j, k, l)) by pt.
    rewrite (tfwd_code _ _ (stagger (l_nodalgrid S)) AZ _ (j, k, l)) by pt. reflexivity. }
  rewrite Ry. cbn [bind].
  destruct (loop_real (slo S) (shi S) (bn_bz S E (map Fin wx) (map Fin wy)) (fz B) (alo S) (ahi S) (comp_z b)
    (fun p => comp_z b p - tfwd (cnt S AX p) (weight wx) (stagger (l_nodalgrid S)) AX (comp_y e) p
              + tfwd (cnt S AY p) (weight wy) (stagger (l_nodalgrid S)) AY (comp_x e) p) (ok_bn_bz S E _ _) Bz) as (bz & Rz & Gz).
  { intros p I. split; [apply fits_in; assumption|]. destruct p as [[j k] l].
    unfold bn_bz. rewrite map_app, run_app.
    rewrite (run_minus _ _ _ _ (weight wx) (comp_y e)).
    2:{ intros i Hi. eapply fwd_terms with (d := AX); try eassumption; pt. }
    cbn [bind]. rewrite (run_plus _ _ _ _ (weight wy) (comp_x e)).
    2:{ intros i Hi. eapply fwd_terms with (d := AY); try eassumption; pt. }
    f_equal. f_equal. rewrite (tfwd_code _ _ (stagger (l_nodalgrid S)) AX _ (j, k, l)) by pt.
    rewrite (tfwd_code _ _ (stagger (l_nodalgrid S)) AY _ (j, k, l)) by pt. reflexivity. }
  rewrite Rz. cbn [bind]. eexists. split; [reflexivity|]. split; [exact Gx|]. split; [exact Gy | exact Gz].
Qed.

Theorem evec_norder_real S mu wx wy wz E B J e b j_ : fits S -> lens S wx wy wz -> is_field S E e -> is_field S B b -> is_field S J j_ ->
  exists E', pxrpush_em3d_evec_norder S E B J (Fin mu : num N) (map Fin wx) (map Fin wy) (map Fin wz) = Ret E' /\
    @is_field tg S E' (en_new S mu wx wy wz e b j_).
Proof.
  intros F (Lx & Ly & Lz) (Ex & Ey & Ez) (Bx & By & Bz) (Jx & Jy & Jz). unfold pxrpush_em3d_evec_norder.
  destruct (loop_real (slo S) (shi S) (en_ex S B J (Fin mu : num N) (map Fin wy) (map Fin wz)) (fx E) (alo S) (ahi S) (comp_x e)
    (fun p => comp_x e p - mu * comp_x j_ p + tbwd (cnt S AY p) (weight wy) (stagger (l_nodalgrid S)) AY (comp_z b) p
              - tbwd (cnt S AZ p) (weight wz) (stagger (l_nodalgrid S)) AZ (comp_y b) p) (ok_en_ex S B J _ _ _) Ex) as (ex & Rx & Gx).
  { intros p I. split; [apply fits_in; assumption|]. pose proof (fits_in S p F I) as I'. destruct p as [[j k] l].
    unfold en_ex. cbn [map snd cur_term]. cbn [run]. rewrite (grid_get _ _ _ _ _ Jx I'). cbn [bind].
    rewrite map_app, run_app. change (n_sub (Fin (comp_x e (j, k, l)) : num N) (n_mul (Fin mu : num N) (Fin (comp_x j_ (j, k, l)) : num N))) with (Fin (comp_x e (j, k, l) - mu * comp_x j_ (j, k, l)) : num N).
    rewrite (run_plus _ _ _ _ (weight wy) (comp_z b)).
    2:{ intros i Hi. eapply bwd_terms with (d := AY); try eassumption; pt. }
    cbn [bind]. rewrite (run_minus _ _ _ _ (weight wz) (comp_y b)).
    2:{ intros i Hi. eapply bwd_terms with (d := AZ); try eassumption; pt. }
    f_equal. f_equal. rewrite (tbwd_code _ _ (stagger (l_nodalgrid S)) AY _ (j, k, l)) by pt.
    rewrite (tbwd_code _ _ (stagger (l_nodalgrid S)) AZ _ (j, k, l)) by pt. reflexivity. }
  rewrite Rx. cbn [bind].
  destruct (loop_real (slo S) (shi S) (en_ey S B J (Fin mu : num N) (map Fin wx) (map Fin wz)) (fy E) (alo S) (ahi S) (comp_y e)
    (fun p => comp_y e p - mu * comp_y j_ p - tbwd (cnt S AX p) (weight wx) (stagger (l_nodalgrid S)) AX (comp_z b) p
              + tbwd (cnt S AZ p) (weight wz) (stagger (l_nodalgrid S)) AZ (comp_x b) p) (ok_en_ey S B J _ _ _) Ey) as (ey & Ry & Gy).
  { intros p I. split; [apply fits_in; assumption|]. pose proof (fits_in S p F I) as I'. destruct p as [[j k] l].
    unfold en_ey. cbn [map snd cur_term]. cbn [run]. rewrite (grid_get _ _ _ _ _ Jy I'). cbn [bind].
    rewrite map_app, run_app. change (n_sub (Fin (comp_y e (j, k, l)) : num N) (n_mul (Fin mu : num N) (Fin (comp_y j_ (j, k, l)) : num N))) with (Fin (comp_y e (j, k, l) - mu * comp_y j_ (j, k, l)) : num N).
    rewrite (run_minus _ _ _ _ (weight wx) (comp_z b)).
    2:{ intros i Hi. eapply bwd_terms with (d := AX); try eassumption; pt. }
    cbn [bind]. rewrite (run_plus _ _ _ _ (weight wz) (comp_x b)).
    2:{ intros i Hi. eapply bwd_terms with (d := AZ); try eassumption; pt. }
    f_equal. f_equal. rewrite (tbwd_code _ _ (stagger (l_nodalgrid S)) AX _ (j, k, l)) by pt.
    rewrite (tbwd_code _ _ (stagger (l_nodalgrid S)) AZ _ (j, k, l)) by pt. reflexivity. }
  rewrite Ry. cbn [bind].
  destruct (loop_real (slo S) (shi S) (en_ez S B J (Fin mu : num N) (map Fin wx) (map Fin wy)) (fz E) (alo S) (ahi S) (comp_z e)
    (fun p => comp_z e p - mu * comp_z j_ p + tbwd (cnt S AX p) (weight wx) (stagger (l_nodalgrid S)) AX (comp_y b) p
              - tbwd (cnt S AY p) (weight wy) (stagger (l_nodalgrid S)) AY (comp_x b) p) (ok_en_ez S B J _ _ _) Ez) as (ez & Rz & Gz).
  { intros p I. split; [apply fits_in; assumption|]. pose proof (fits_in S p F I) as I'. destruct p as [[j k] l].
    unfold en_ez. cbn [map snd cur_term]. cbn [run]. rewrite (grid_get _ _ _ _ _ Jz I'). cbn [bind].
    rewrite map_app, run_app. change (n_sub (Fin (comp_z e (j, k, l)) : num N) (n_mul (Fin mu : num N) (Fin (comp_z j_ (j, k, l)) : num N))) with (Fin (comp_z e (j, k, l) - mu * comp_z j_ (j, k, l)) : num N).
    rewrite (run_plus _ _ _ _ (weight wx) (comp_y b)).
    2:{ intros i Hi. eapply bwd_terms with (d := AX); try eassumption; pt. }
    cbn [bind]. rewrite (run_minus _ _ _ _ (weight wy) (comp_x b)).
    2:{ intros i Hi. eapply bwd_terms with (d := AY); try eassumption; pt. }
    f_equal. f_equal. rewrite (tbwd_code _ _ (stagger (l_nodalgrid S)) AX _ (j, k, l)) by pt.
    rewrite (tbwd_code _ _ (stagger (l_nodalgrid S)) AY _ (j, k, l)) by pt. reflexivity. }
  rewrite Rz. cbn [bind].
  eexists. split; [reflexivity|]. split; [exact Gx|]. split; [exact Gy | exact Gz].
Qed.

Definition fits1 (S : Sizes) : Prop :=
  (0 <= nxs S /\ nxs S + 1 <= nxguard S /\ 0 <= nys S /\ nys S + 1 <= nyguard S /\ 0 <= nzs S /\ nzs S + 1 <= nzguard S)%Z.
Lemma fits1_in S p : fits1 S -> in_box (slo S) (shi S) p = true -> forall d m, (-1 <= m <= 1)%Z -> in_box (alo S) (ahi S) (shift d m p) = true.
Proof. destruct p as [[j k] l]. unfold slo, shi, alo, ahi, fits1. rewrite in_box_iff. intros F I d m Hm. destruct d; cbn [shift]; rewrite in_box_iff; lia. Qed.
Lemma shift0 d p : shift d 0 p = p.
Proof. destruct p as [[j k] l]. destruct d; cbn; rewrite Z.add_0_r; reflexivity. Qed.
Lemma fits1_in0 S p : fits1 S -> in_box (slo S) (shi S) p = true -> in_box (alo S) (ahi S) p = true.
Proof. intros F I. rewrite <- (shift0 AX p). apply fits1_in; [exact F | exact I | lia]. Qed.
Ltac dif Pf := let D := fresh in pose proof Pf as D;
  match goal with |- context [diff ?g ?p ?q] => match type of D with _ = ?r => change (diff g p q = r) in D; rewrite D; clear D end end.
Definition b3_new (S : Sizes) (cx cy cz : R) (e b : rfield) : rfield :=
  let D d f p := f (shift d 1 p) - f p in
  RField
    (upd (slo S) (shi S) (fun p => comp_x b p - cy * D AY (comp_z e) p + cz * D AZ (comp_y e) p) (comp_x b))
    (upd (slo S) (shi S) (fun p => comp_y b p + cx * D AX (comp_z e) p - cz * D AZ (comp_x e) p) (comp_y b))
    (upd (slo S) (shi S) (fun p => comp_z b p - cx * D AX (comp_y e) p + cy * D AY (comp_x e) p) (comp_z b)).
Definition e3_new (S : Sizes) (mu cx cy cz : R) (e b j : rfield) : rfield :=
  let D d f p := f p - f (shift d (-1) p) in
  RField
    (upd (slo S) (shi S) (fun p => comp_x e p + cy * D AY (comp_z b) p - cz * D AZ (comp_y b) p - mu * comp_x j p) (comp_x e))
    (upd (slo S) (shi S) (fun p => comp_y e p - cx * D AX (comp_z b) p + cz * D AZ (comp_x b) p - mu * comp_y j p) (comp_y e))
    (upd (slo S) (shi S) (fun p => comp_z e p + cx * D AX (comp_y b) p - cy * D AY (comp_x b) p - mu * comp_z j p) (comp_z e)).

Theorem bvec_real S cx cy cz E B e b : fits1 S -> is_field S E e -> is_field S B b ->
  exists B', pxrpush_em3d_bvec (slo S) (shi S) (slo S) (shi S) (slo S) (shi S) E B (Fin cx : num N) (Fin cy : num N) (Fin cz : num N) = Ret B' /\
    @is_field tg S B' (b3_new S cx cy cz e b).
Proof.
  intros F (Ex & Ey & Ez) (Bx & By & Bz). unfold pxrpush_em3d_bvec.
  destruct (loop_real (slo S) (shi S) (b3_bx E (Fin cy : num N) (Fin cz : num N)) (fx B) (alo S) (ahi S) (comp_x b)
    (fun p => comp_x b p - cy * (comp_z e (shift AY 1 p) - comp_z e p) + cz * (comp_y e (shift AZ 1 p) - comp_y e p)) (ok_b3_bx E _ _) Bx) as (gx & Rx & Gx).
  { intros p I. pose proof (fits1_in0 S p F I) as I'. split; [exact I'|]. destruct p as [[j k] l].
    unfold b3_bx. cbn [map snd run].
    dif (grid_diff _ _ _ _ _ _ Ez (fits1_in S _ F I AY 1 ltac:(lia)) I'). cbn [bind].
    dif (grid_diff _ _ _ _ _ _ Ey (fits1_in S _ F I AZ 1 ltac:(lia)) I'). cbn [bind].
    
    reflexivity. }
  rewrite Rx. cbn [bind].
  destruct (loop_real (slo S) (shi S) (b3_by E (Fin cx : num N) (Fin cz : num N)) (fy B) (alo S) (ahi S) (comp_y b)
    (fun p => comp_y b p + cx * (comp_z e (shift AX 1 p) - comp_z e p) - cz * (comp_x e (shift AZ 1 p) - comp_x e p)) (ok_b3_by E _ _) By) as (gy & Ry & Gy).
  { intros p I. pose proof (fits1_in0 S p F I) as I'. split; [exact I'|]. destruct p as [[j k] l].
    unfold b3_by. cbn [map snd run].
    dif (grid_diff _ _ _ _ _ _ Ez (fits1_in S _ F I AX 1 ltac:(lia)) I'). cbn [bind].
    dif (grid_diff _ _ _ _ _ _ Ex (fits1_in S _ F I AZ 1 ltac:(lia)) I'). cbn [bind].
    
    reflexivity. }
  rewrite Ry. cbn [bind].
  destruct (loop_real (slo S) (shi S) (b3_bz E (Fin cx : num N) (Fin cy : num N)) (fz B) (alo S) (ahi S) (comp_z b)
    (fun p => comp_z b p - cx * (comp_y e (shift AX 1 p) - comp_y e p) + cy * (comp_x e (shift AY 1 p) - comp_x e p)) (ok_b3_bz E _ _) Bz) as (gz & Rz & Gz).
  { intros p I. pose proof (fits1_in0 S p F I) as I'. split; [exact I'|]. destruct p as [[j k] l].
    unfold b3_bz. cbn [map snd run].
    dif (grid_diff _ _ _ _ _ _ Ey (fits1_in S _ F I AX 1 ltac:(lia)) I'). cbn [bind].
    dif (grid_diff _ _ _ _ _ _ Ex (fits1_in S _ F I AY 1 ltac:(lia)) I'). cbn [bind].
    
    reflexivity. }
  rewrite Rz. cbn [bind].
  eexists. split; [reflexivity|]. split; [exact Gx|]. split; [exact Gy | exact Gz].
Qed.

Theorem evec_real S mu cx cy cz E B J e b j_ : fits1 S -> is_field S E e -> is_field S B b -> is_field S J j_ ->
  exists E', pxrpush_em3d_evec (slo S) (shi S) (slo S) (shi S) (slo S) (shi S) E B J (Fin mu : num N) (Fin cx : num N) (Fin cy : num N) (Fin cz : num N) = Ret E' /\
    @is_field tg S E' (e3_new S mu cx cy cz e b j_).
Proof.
  intros F (Ex & Ey & Ez) (Bx & By & Bz) (Jx & Jy & Jz). unfold pxrpush_em3d_evec.
  destruct (loop_real (slo S) (shi S) (e3_ex B J (Fin mu : num N) (Fin cy : num N) (Fin cz : num N)) (fx E) (alo S) (ahi S) (comp_x e)
    (fun p => comp_x e p + cy * (comp_z b p - comp_z b (shift AY (-1) p)) - cz * (comp_y b p - comp_y b (shift AZ (-1) p)) - mu * comp_x j_ p) (ok_e3_ex B J _ _ _) Ex) as (gx & Rx & Gx).
  { intros p I. pose proof (fits1_in0 S p F I) as I'. split; [exact I'|]. destruct p as [[j k] l].
    unfold e3_ex. cbn [map snd run].
    dif (grid_diff _ _ _ _ _ _ Bz I' (fits1_in S _ F I AY (-1) ltac:(lia))). cbn [bind].
    dif (grid_diff _ _ _ _ _ _ By I' (fits1_in S _ F I AZ (-1) ltac:(lia))). cbn [bind].
    rewrite (grid_get _ _ _ _ _ Jx I'). cbn [bind].
    reflexivity. }
  rewrite Rx. cbn [bind].
  destruct (loop_real (slo S) (shi S) (e3_ey B J (Fin mu : num N) (Fin cx : num N) (Fin cz : num N)) (fy E) (alo S) (ahi S) (comp_y e)
    (fun p => comp_y e p - cx * (comp_z b p - comp_z b (shift AX (-1) p)) + cz * (comp_x b p - comp_x b (shift AZ (-1) p)) - mu * comp_y j_ p) (ok_e3_ey B J _ _ _) Ey) as (gy & Ry & Gy).
  { intros p I. pose proof (fits1_in0 S p F I) as I'. split; [exact I'|]. destruct p as [[j k] l].
    unfold e3_ey. cbn [map snd run].
    dif (grid_diff _ _ _ _ _ _ Bz I' (fits1_in S _ F I AX (-1) ltac:(lia))). cbn [bind].
    dif (grid_diff _ _ _ _ _ _ Bx I' (fits1_in S _ F I AZ (-1) ltac:(lia))). cbn [bind].
    rewrite (grid_get _ _ _ _ _ Jy I'). cbn [bind].
    reflexivity. }
  rewrite Ry. cbn [bind].
  destruct (loop_real (slo S) (shi S) (e3_ez B J (Fin mu : num N) (Fin cx : num N) (Fin cy : num N)) (fz E) (alo S) (ahi S) (comp_z e)
    (fun p => comp_z e p + cx * (comp_y b p - comp_y b (shift AX (-1) p)) - cy * (comp_x b p - comp_x b (shift AY (-1) p)) - mu * comp_z j_ p) (ok_e3_ez B J _ _ _) Ez) as (gz & Rz & Gz).
  { intros p I. pose proof (fits1_in0 S p F I) as I'. split; [exact I'|]. destruct p as [[j k] l].
    unfold e3_ez. cbn [map snd run].
    dif (grid_diff _ _ _ _ _ _ By I' (fits1_in S _ F I AX (-1) ltac:(lia))). cbn [bind].
    dif (grid_diff _ _ _ _ _ _ Bx I' (fits1_in S _ F I AY (-1) ltac:(lia))). cbn [bind].
    rewrite (grid_get _ _ _ _ _ Jz I'). cbn [bind].
    reflexivity. }
  rewrite Rz. cbn [bind].
  eexists. split; [reflexivity|]. split; [exact Gx|]. split; [exact Gy | exact Gz].
Qed.
End X.
