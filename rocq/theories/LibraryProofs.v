(** Proofs about the solver of init_external.F90 in exact arithmetic. *)
From Coq Require Import ZArith Reals List Bool Lia Lra.
From Verif Require Import Cxx Num NumRX Fortran Grid Pushers Yee SpecYee SpecSolver SpecLibrary CxxLemmas RXLemmas FortranLemmas GridLemmas YeeReal YeeProofs YeePush YeeDiv.
Import ListNotations.
Local Open Scope Z_scope.

Section X.
Context {tg : R -> R}.
Notation N := (RX tg).
Notation gridX := (grid (num N)).
Notation fieldX := (field (num N)).

Lemma run_cut (pls : bool) (c : list (num N)) (b : gridX) p0 (w : Z -> R) (r : idx -> R) (pp qq : Z -> idx) (cut : Z -> bool) l :
  (forall i, In i l -> cut i = false -> get1 c i = Ret (Fin (w i) : num N) /\ diff b (pp i) (qq i) = Ret (Fin (r (pp i) - r (qq i)) : num N)) ->
  forall e, run (map snd (flat_map (fun i => if cut i then [] else [(p0 : idx, (if pls then plus_term else minus_term) c b i (pp i) (qq i))]) l)) (Fin e : num N)
  = Ret (Fin (let s := rsum l (fun i => if cut i then 0 else w i * (r (pp i) - r (qq i))) in if pls then e + s else e - s)%R).
Proof.
  induction l as [|i l IH]; intros Hl e.
  - cbn. f_equal. f_equal. destruct pls; lra.
  - cbn [flat_map]. unfold rsum. cbn [map fold_right]. fold (rsum l (fun i => if cut i then 0 else w i * (r (pp i) - r (qq i))))%R.
    destruct (cut i) eqn:C.
    + cbn [app]. rewrite IH by (intros; apply Hl; [right|]; assumption). f_equal. f_equal. cbn zeta. destruct pls; lra.
    + destruct (Hl i (or_introl eq_refl) C) as [Hw Hd].
      assert (St : (if pls then plus_term else minus_term) c b i (pp i) (qq i) (Fin e : num N)
         = Ret (Fin (if pls then e + w i * (r (pp i) - r (qq i)) else e - w i * (r (pp i) - r (qq i)))%R : num N)).
      { destruct pls; unfold plus_term, minus_term; rewrite Hw; cbn [bind]; rewrite Hd; reflexivity. }
      cbn [app map snd run]. rewrite St. cbn [bind]. rewrite IH by (intros; apply Hl; [right|]; assumption).
      f_equal. f_equal. cbn zeta. destruct pls; lra.
Qed.

(** the sum over the terms that are not left out *)
Definition kept (n bot top : Z) (lo hi : Z -> Z) (w : Z -> R) (f : idx -> R) (pp qq : Z -> idx) : R :=
  rsum (zrange 1 n) (fun i => if (top <? hi i) || (lo i <? bot) then 0 else w i * (f (pp i) - f (qq i)))%R.
Lemma run_in (pls : bool) (c : list (num N)) (b : gridX) p0 n bot top lo hi (w : Z -> R) (r : idx -> R) (pp qq : Z -> idx) e :
  (forall i, 1 <= i <= n -> hi i <= top -> bot <= lo i -> get1 c i = Ret (Fin (w i) : num N) /\ diff b (pp i) (qq i) = Ret (Fin (r (pp i) - r (qq i)) : num N)) ->
  run (map snd (stmts_in p0 n bot top lo hi (fun i => (if pls then plus_term else minus_term) c b i (pp i) (qq i)))) (Fin e : num N)
  = Ret (Fin (if pls then e + kept n bot top lo hi w r pp qq else e - kept n bot top lo hi w r pp qq)%R).
Proof.
  intros H. unfold stmts_in, kept. rewrite (run_cut pls c b p0 w r pp qq (fun i => (top <? hi i) || (lo i <? bot))).
  - reflexivity.
  - intros i Hi C. apply orb_false_iff in C. destruct C as [C1 C2]. apply in_zrange in Hi. apply H; lia.
Qed.
(** all terms are kept *)
Lemma kept_all n m bot top lo hi w f pp qq : n = m -> (forall i, 1 <= i <= m -> hi i <= top /\ bot <= lo i) ->
  kept n bot top lo hi w f pp qq = Sum m (fun i => w i * (f (pp i) - f (qq i)))%R.
Proof.
  intros -> H. unfold kept. rewrite Sum_rsum. apply rsum_ext. intros i Hi. apply in_zrange in Hi. destruct (H i Hi).
  destruct (Z.ltb_spec top (hi i)); [lia|]. destruct (Z.ltb_spec (lo i) bot); [lia|]. reflexivity.
Qed.
Lemma Sum_scaled n a c (g : Z -> R) : Sum n (fun i => weight (map (fun x => a * x)%R c) i * g i)%R = (a * Sum n (fun i => weight c i * g i))%R.
Proof. rewrite <- Sum_scal. apply Sum_ext. intros i _. rewrite weight_map. ring. Qed.

Ltac pnt := cbn [shift]; (apply (f_equal2 pair); [apply (f_equal2 pair)|]); lia.
Ltac inb := unfold alo, ahi; rewrite in_box_iff; lia.

Section Step.
Variables (S : Sizes) (q : rsteps).
Hypothesis LS : library_set S q.
Notation s := (library_formulas q).

Definition cx := map (fun c => rdt q / rdx q * c)%R (rcx q).
Definition cy := map (fun c => rdt q / rdy q * c)%R (rcy q).
Definition cz := map (fun c => rdt q / rdz q * c)%R (rcz q).
Lemma len_x : zlen cx = norderx S ÷ 2. Proof. unfold cx. rewrite zlen_map'. apply LS. Qed.
Lemma len_y : zlen cy = nordery S ÷ 2. Proof. unfold cy. rewrite zlen_map'. apply LS. Qed.
Lemma len_z : zlen cz = norderz S ÷ 2. Proof. unfold cz. rewrite zlen_map'. apply LS. Qed.

(** forward difference times dt *)
Lemma fwd_sum d w h f p (pp qq : Z -> idx) n :
  (n = zlen w) -> (forall i, pp i = shift d i p) -> (forall i, qq i = shift d (1 - i) p) ->
  coef s d = (fun i => weight w i / h)%R -> half_order s d = zlen w ->
  Sum n (fun i => weight (map (fun c => rdt q / h * c) w) i * (f (pp i) - f (qq i)))%R = (rdt q * fwd s d f p)%R.
Proof.
  intros -> P Q C H. unfold fwd. rewrite C, H. change (ist s) with 1. rewrite <- Sum_scal. apply Sum_ext.
  intros i _. rewrite weight_map, P, Q. unfold Rdiv. ring.
Qed.
Lemma bwd_sum d w h f p (pp qq : Z -> idx) n :
  (n = zlen w) -> (forall i, pp i = shift d (i - 1) p) -> (forall i, qq i = shift d (- i) p) ->
  coef s d = (fun i => weight w i / h)%R -> half_order s d = zlen w ->
  Sum n (fun i => weight (map (fun c => rdt q / h * c) w) i * (f (pp i) - f (qq i)))%R = (rdt q * bwd s d f p)%R.
Proof.
  intros -> P Q C H. unfold bwd. rewrite C, H. change (ist s) with 1. rewrite <- Sum_scal. apply Sum_ext.
  intros i _. rewrite weight_map, P, Q. unfold Rdiv. ring.
Qed.

Lemma terms_full o n g k : o ÷ 2 - g <= k <= n + g - o ÷ 2 -> terms o n g k = o ÷ 2.
Proof. unfold terms. lia. Qed.
Lemma terms_le o n g k : terms o n g k <= o ÷ 2.
Proof. unfold terms. lia. Qed.

Theorem library_e E B J e b j_ : is_field S E e -> is_field S B b -> is_field S J j_ ->
  exists E' e', evec3d_push_norder S E B J (Fin (rdt q) : num N) (map Fin cx) (map Fin cy) (map Fin cz) = Ret E' /\ @is_field tg S E' e' /\
    forall p, in_box (lib_lo S) (lib_hi S) p = true ->
      let r := curl (fwd s) b in
      comp_x e' p = (comp_x e p + rdt q * (comp_x r p - comp_x j_ p))%R /\
      comp_y e' p = (comp_y e p + rdt q * (comp_y r p - comp_y j_ p))%R /\
      comp_z e' p = (comp_z e p + rdt q * (comp_z r p - comp_z j_ p))%R.
Proof.
  intros (Ex & Ey & Ez) (Bx & By & Bz) (Jx & Jy & Jz).
  pose proof len_x as Lx. pose proof len_y as Ly. pose proof len_z as Lz.
  destruct LS as (Hx & Hy & Hz & Ox & Oy & Oz & Gx & Gy & Gz).
  unfold evec3d_push_norder.
  destruct (loop_real (- nxguard S, - nyguard S, - nzguard S) (nx S + nxguard S, ny S + nyguard S - 1, nz S + nzguard S - 1) (le_ex S B J (Fin (rdt q) : num N) (map Fin cy) (map Fin cz)) (fx E) (alo S) (ahi S) (comp_x e)
    (fun p => let '(j, k, l) := p in comp_x e p - rdt q * comp_x j_ p
       + kept (nordery S ÷ 2) (- nyguard S) (ny S + nyguard S) (fun i => k - i + 1)%Z (fun i => k + i)%Z (weight cy) (comp_z b) (fun i => (j, k + i, l)%Z) (fun i => (j, k - i + 1, l)%Z)
       - kept (norderz S ÷ 2) (- nzguard S) (nz S + nzguard S) (fun i => l - i + 1)%Z (fun i => l + i)%Z (weight cz) (comp_y b) (fun i => (j, k, l + i)%Z) (fun i => (j, k, l - i + 1)%Z))%R
    (ok_le_ex S B J _ _ _) Ex) as (ex & Rx & Vx).
  { intros p I. destruct p as [[j k] l]. rewrite in_box_iff in I. assert (I' : in_box (alo S) (ahi S) (j, k, l) = true) by inb. split; [exact I'|].
    unfold le_ex. cbn [map snd cur_term]. cbn [run]. rewrite (grid_get _ _ _ _ _ Jx I'). cbn [bind].
    rewrite map_app, run_app. change (n_sub (Fin (comp_x e (j, k, l)) : num N) (n_mul (Fin (rdt q) : num N) (Fin (comp_x j_ (j, k, l)) : num N))) with (Fin (comp_x e (j, k, l) - rdt q * comp_x j_ (j, k, l)) : num N).
    rewrite (run_in true _ _ _ _ _ _ _ _ (weight cy) (comp_z b)).
    2:{ intros i Hi Ha Hb. split; [apply weights_get; lia | apply (grid_diff _ (alo S) (ahi S)); [exact Bz | inb | inb]]. }
    cbn [bind]. rewrite (run_in false _ _ _ _ _ _ _ _ (weight cz) (comp_y b)).
    2:{ intros i Hi Ha Hb. split; [apply weights_get; lia | apply (grid_diff _ (alo S) (ahi S)); [exact By | inb | inb]]. }
    reflexivity. }
  rewrite Rx. cbn [bind].
  destruct (loop_real (- nxguard S, - nyguard S, - nzguard S) (nx S + nxguard S - 1, ny S + nyguard S, nz S + nzguard S - 1) (le_ey S B J (Fin (rdt q) : num N) (map Fin cx) (map Fin cz)) (fy E) (alo S) (ahi S) (comp_y e)
    (fun p => let '(j, k, l) := p in comp_y e p - rdt q * comp_y j_ p
       - kept (terms (norderx S) (nx S) (nxguard S) j) (- nxguard S) (nx S + nxguard S) (fun i => j - i + 1)%Z (fun i => j + i)%Z (weight cx) (comp_z b) (fun i => (j + i, k, l)%Z) (fun i => (j - i + 1, k, l)%Z)
       + kept (terms (norderz S) (nz S) (nzguard S) l) (- nzguard S) (nz S + nzguard S) (fun i => l - i + 1)%Z (fun i => l + i)%Z (weight cz) (comp_x b) (fun i => (j, k, l + i)%Z) (fun i => (j, k, l - i + 1)%Z))%R
    (ok_le_ey S B J _ _ _) Ey) as (ey & Ry & Vy).
  { intros p I. destruct p as [[j k] l]. rewrite in_box_iff in I. assert (I' : in_box (alo S) (ahi S) (j, k, l) = true) by inb. split; [exact I'|].
    unfold le_ey. cbn [map snd cur_term]. cbn [run]. rewrite (grid_get _ _ _ _ _ Jy I'). cbn [bind].
    rewrite map_app, run_app. change (n_sub (Fin (comp_y e (j, k, l)) : num N) (n_mul (Fin (rdt q) : num N) (Fin (comp_y j_ (j, k, l)) : num N))) with (Fin (comp_y e (j, k, l) - rdt q * comp_y j_ (j, k, l)) : num N).
    rewrite (run_in false _ _ _ _ _ _ _ _ (weight cx) (comp_z b)).
    2:{ intros i Hi Ha Hb. pose proof (terms_le (norderx S) (nx S) (nxguard S) j). split; [apply weights_get; lia | apply (grid_diff _ (alo S) (ahi S)); [exact Bz | inb | inb]]. }
    cbn [bind]. rewrite (run_in true _ _ _ _ _ _ _ _ (weight cz) (comp_x b)).
    2:{ intros i Hi Ha Hb. pose proof (terms_le (norderz S) (nz S) (nzguard S) l). split; [apply weights_get; lia | apply (grid_diff _ (alo S) (ahi S)); [exact Bx | inb | inb]]. }
    reflexivity. }
  rewrite Ry. cbn [bind].
  destruct (loop_real (- nxguard S, - nyguard S, - nzguard S) (nx S + nxguard S - 1, ny S + nyguard S - 1, nz S + nzguard S) (le_ez S B J (Fin (rdt q) : num N) (map Fin cx) (map Fin cy)) (fz E) (alo S) (ahi S) (comp_z e)
    (fun p => let '(j, k, l) := p in comp_z e p - rdt q * comp_z j_ p
       + kept (terms (norderx S) (nx S) (nxguard S) j) (- nxguard S) (nx S + nxguard S) (fun i => j - i + 1)%Z (fun i => j + i)%Z (weight cx) (comp_y b) (fun i => (j + i, k, l)%Z) (fun i => (j - i + 1, k, l)%Z)
       - kept (terms (nordery S) (ny S) (nyguard S) k) (- nyguard S) (ny S + nyguard S) (fun i => k - i + 1)%Z (fun i => k + i)%Z (weight cy) (comp_x b) (fun i => (j, k + i, l)%Z) (fun i => (j, k - i + 1, l)%Z))%R
    (ok_le_ez S B J _ _ _) Ez) as (ez & Rz & Vz).
  { intros p I. destruct p as [[j k] l]. rewrite in_box_iff in I. assert (I' : in_box (alo S) (ahi S) (j, k, l) = true) by inb. split; [exact I'|].
    unfold le_ez. cbn [map snd cur_term]. cbn [run]. rewrite (grid_get _ _ _ _ _ Jz I'). cbn [bind].
    rewrite map_app, run_app. change (n_sub (Fin (comp_z e (j, k, l)) : num N) (n_mul (Fin (rdt q) : num N) (Fin (comp_z j_ (j, k, l)) : num N))) with (Fin (comp_z e (j, k, l) - rdt q * comp_z j_ (j, k, l)) : num N).
    rewrite (run_in true _ _ _ _ _ _ _ _ (weight cx) (comp_y b)).
    2:{ intros i Hi Ha Hb. pose proof (terms_le (norderx S) (nx S) (nxguard S) j). split; [apply weights_get; lia | apply (grid_diff _ (alo S) (ahi S)); [exact By | inb | inb]]. }
    cbn [bind]. rewrite (run_in false _ _ _ _ _ _ _ _ (weight cy) (comp_x b)).
    2:{ intros i Hi Ha Hb. pose proof (terms_le (nordery S) (ny S) (nyguard S) k). split; [apply weights_get; lia | apply (grid_diff _ (alo S) (ahi S)); [exact Bx | inb | inb]]. }
    reflexivity. }
  rewrite Rz. cbn [bind]. eexists. eexists (RField _ _ _). split; [reflexivity|]. split; [split; [exact Vx|]; split; [exact Vy | exact Vz]|].
  intros [[j k] l] I. unfold lib_lo, lib_hi in I. rewrite in_box_iff in I. cbn zeta. cbn [comp_x comp_y comp_z curl].
  assert (Tx : terms (norderx S) (nx S) (nxguard S) j = norderx S ÷ 2) by (apply terms_full; lia).
  assert (Ty : terms (nordery S) (ny S) (nyguard S) k = nordery S ÷ 2) by (apply terms_full; lia).
  assert (Tz : terms (norderz S) (nz S) (nzguard S) l = norderz S ÷ 2) by (apply terms_full; lia).
  assert (ox : 1 <= norderx S ÷ 2) by (apply Z.quot_le_lower_bound; lia).
  assert (oy : 1 <= nordery S ÷ 2) by (apply Z.quot_le_lower_bound; lia).
  assert (oz : 1 <= norderz S ÷ 2) by (apply Z.quot_le_lower_bound; lia).
  rewrite Tx, Ty, Tz.
  repeat match goal with |- context [in_box ?a ?b ?c] => replace (in_box a b c) with true by (symmetry; rewrite in_box_iff; lia) end.
  rewrite !(kept_all _ _ _ _ _ _ _ _ _ _ eq_refl) by (intros; lia).
  unfold cx, cy, cz.
  rewrite (fwd_sum AY (rcy q) (rdy q) (comp_z b) (j, k, l)), (fwd_sum AZ (rcz q) (rdz q) (comp_y b) (j, k, l)),
    (fwd_sum AX (rcx q) (rdx q) (comp_z b) (j, k, l)), (fwd_sum AZ (rcz q) (rdz q) (comp_x b) (j, k, l)),
    (fwd_sum AX (rcx q) (rdx q) (comp_y b) (j, k, l)), (fwd_sum AY (rcy q) (rdy q) (comp_x b) (j, k, l));
    try (symmetry; assumption); try reflexivity; try (intros; pnt).
  repeat split; ring.
Qed.

Theorem library_b E B e b : is_field S E e -> is_field S B b ->
  exists B' b', bvec3d_push_norder S E B (map Fin cx) (map Fin cy) (map Fin cz) = Ret B' /\ @is_field tg S B' b' /\
    forall p, in_box (lib_lo S) (lib_hi S) p = true ->
      let r := curl (bwd s) e in
      comp_x b' p = (comp_x b p - rdt q * comp_x r p)%R /\
      comp_y b' p = (comp_y b p - rdt q * comp_y r p)%R /\
      comp_z b' p = (comp_z b p - rdt q * comp_z r p)%R.
Proof.
  intros (Ex & Ey & Ez) (Bx & By & Bz).
  pose proof len_x as Lx. pose proof len_y as Ly. pose proof len_z as Lz.
  destruct LS as (Hx & Hy & Hz & Ox & Oy & Oz & Gx & Gy & Gz).
  unfold bvec3d_push_norder.
  destruct (loop_real (- nxguard S, - nyguard S + 1, - nzguard S + 1) (nx S + nxguard S - 1, ny S + nyguard S - 1, nz S + nzguard S - 1) (lb_bx S E (map Fin cy) (map Fin cz)) (fx B) (alo S) (ahi S) (comp_x b)
    (fun p => let '(j, k, l) := p in comp_x b p
       - kept (terms (nordery S) (ny S) (nyguard S) k) (- nyguard S) (ny S + nyguard S) (fun i => k - i)%Z (fun i => k + i - 1)%Z (weight cy) (comp_z e) (fun i => (j, k + i - 1, l)%Z) (fun i => (j, k - i, l)%Z)
       + kept (terms (norderz S) (nz S) (nzguard S) l) (- nzguard S) (nz S + nzguard S) (fun i => l - i)%Z (fun i => l + i - 1)%Z (weight cz) (comp_y e) (fun i => (j, k, l + i - 1)%Z) (fun i => (j, k, l - i)%Z))%R
    (ok_lb_bx S E _ _) Bx) as (bx & Rx & Vx).
  { intros p I. destruct p as [[j k] l]. rewrite in_box_iff in I. assert (I' : in_box (alo S) (ahi S) (j, k, l) = true) by inb. split; [exact I'|].
    unfold lb_bx. rewrite map_app, run_app.
    rewrite (run_in false _ _ _ _ _ _ _ _ (weight cy) (comp_z e)).
    2:{ intros i Hi Ha Hb. pose proof (terms_le (nordery S) (ny S) (nyguard S) k). split; [apply weights_get; lia | apply (grid_diff _ (alo S) (ahi S)); [exact Ez | inb | inb]]. }
    cbn [bind]. rewrite (run_in true _ _ _ _ _ _ _ _ (weight cz) (comp_y e)).
    2:{ intros i Hi Ha Hb. pose proof (terms_le (norderz S) (nz S) (nzguard S) l). split; [apply weights_get; lia | apply (grid_diff _ (alo S) (ahi S)); [exact Ey | inb | inb]]. }
    reflexivity. }
  rewrite Rx. cbn [bind].
  destruct (loop_real (- nxguard S + 1, - nyguard S, - nzguard S + 1) (nx S + nxguard S - 1, ny S + nyguard S - 1, nz S + nzguard S - 1) (lb_by S E (map Fin cx) (map Fin cz)) (fy B) (alo S) (ahi S) (comp_y b)
    (fun p => let '(j, k, l) := p in comp_y b p
       + kept (terms (norderx S) (nx S) (nxguard S) j) (- nxguard S) (nx S + nxguard S) (fun i => j - i)%Z (fun i => j + i - 1)%Z (weight cx) (comp_z e) (fun i => (j + i - 1, k, l)%Z) (fun i => (j - i, k, l)%Z)
       - kept (terms (norderz S) (nz S) (nzguard S) l) (- nzguard S) (nz S + nzguard S) (fun i => l - i)%Z (fun i => l + i - 1)%Z (weight cz) (comp_x e) (fun i => (j, k, l + i - 1)%Z) (fun i => (j, k, l - i)%Z))%R
    (ok_lb_by S E _ _) By) as (by_ & Ry & Vy).
  { intros p I. destruct p as [[j k] l]. rewrite in_box_iff in I. assert (I' : in_box (alo S) (ahi S) (j, k, l) = true) by inb. split; [exact I'|].
    unfold lb_by. rewrite map_app, run_app.
    rewrite (run_in true _ _ _ _ _ _ _ _ (weight cx) (comp_z e)).
    2:{ intros i Hi Ha Hb. pose proof (terms_le (norderx S) (nx S) (nxguard S) j). split; [apply weights_get; lia | apply (grid_diff _ (alo S) (ahi S)); [exact Ez | inb | inb]]. }
    cbn [bind]. rewrite (run_in false _ _ _ _ _ _ _ _ (weight cz) (comp_x e)).
    2:{ intros i Hi Ha Hb. pose proof (terms_le (norderz S) (nz S) (nzguard S) l). split; [apply weights_get; lia | apply (grid_diff _ (alo S) (ahi S)); [exact Ex | inb | inb]]. }
    reflexivity. }
  rewrite Ry. cbn [bind].
  destruct (loop_real (- nxguard S + 1, - nyguard S + 1, - nzguard S) (nx S + nxguard S - 1, ny S + nyguard S - 1, nz S + nzguard S - 1) (lb_bz S E (map Fin cx) (map Fin cy)) (fz B) (alo S) (ahi S) (comp_z b)
    (fun p => let '(j, k, l) := p in comp_z b p
       - kept (terms (norderx S) (nx S) (nxguard S) j) (- nxguard S) (nx S + nxguard S) (fun i => j - i)%Z (fun i => j + i - 1)%Z (weight cx) (comp_y e) (fun i => (j + i - 1, k, l)%Z) (fun i => (j - i, k, l)%Z)
       + kept (terms (nordery S) (ny S) (nyguard S) k) (- nyguard S) (ny S + nyguard S) (fun i => k - i)%Z (fun i => k + i - 1)%Z (weight cy) (comp_x e) (fun i => (j, k + i - 1, l)%Z) (fun i => (j, k - i, l)%Z))%R
    (ok_lb_bz S E _ _) Bz) as (bz & Rz & Vz).
  { intros p I. destruct p as [[j k] l]. rewrite in_box_iff in I. assert (I' : in_box (alo S) (ahi S) (j, k, l) = true) by inb. split; [exact I'|].
    unfold lb_bz. rewrite map_app, run_app.
    rewrite (run_in false _ _ _ _ _ _ _ _ (weight cx) (comp_y e)).
    2:{ intros i Hi Ha Hb. pose proof (terms_le (norderx S) (nx S) (nxguard S) j). split; [apply weights_get; lia | apply (grid_diff _ (alo S) (ahi S)); [exact Ey | inb | inb]]. }
    cbn [bind]. rewrite (run_in true _ _ _ _ _ _ _ _ (weight cy) (comp_x e)).
    2:{ intros i Hi Ha Hb. pose proof (terms_le (nordery S) (ny S) (nyguard S) k). split; [apply weights_get; lia | apply (grid_diff _ (alo S) (ahi S)); [exact Ex | inb | inb]]. }
    reflexivity. }
  rewrite Rz. cbn [bind].
  eexists. eexists (RField _ _ _). split; [reflexivity|]. split; [split; [exact Vx|]; split; [exact Vy | exact Vz]|].
  intros [[j k] l] I. unfold lib_lo, lib_hi in I. rewrite in_box_iff in I. cbn zeta. cbn [comp_x comp_y comp_z curl].
  assert (Tx : terms (norderx S) (nx S) (nxguard S) j = norderx S ÷ 2) by (apply terms_full; lia).
  assert (Ty : terms (nordery S) (ny S) (nyguard S) k = nordery S ÷ 2) by (apply terms_full; lia).
  assert (Tz : terms (norderz S) (nz S) (nzguard S) l = norderz S ÷ 2) by (apply terms_full; lia).
  assert (ox : 1 <= norderx S ÷ 2) by (apply Z.quot_le_lower_bound; lia).
  assert (oy : 1 <= nordery S ÷ 2) by (apply Z.quot_le_lower_bound; lia).
  assert (oz : 1 <= norderz S ÷ 2) by (apply Z.quot_le_lower_bound; lia).
  rewrite Tx, Ty, Tz.
  repeat match goal with |- context [in_box ?a ?b ?c] => replace (in_box a b c) with true by (symmetry; rewrite in_box_iff; lia) end.
  rewrite !(kept_all _ _ _ _ _ _ _ _ _ _ eq_refl) by (intros; lia).
  unfold cx, cy, cz.
  rewrite (bwd_sum AY (rcy q) (rdy q) (comp_z e) (j, k, l)), (bwd_sum AZ (rcz q) (rdz q) (comp_y e) (j, k, l)),
    (bwd_sum AX (rcx q) (rdx q) (comp_z e) (j, k, l)), (bwd_sum AZ (rcz q) (rdz q) (comp_x e) (j, k, l)),
    (bwd_sum AX (rcx q) (rdx q) (comp_y e) (j, k, l)), (bwd_sum AY (rcy q) (rdy q) (comp_x e) (j, k, l));
    try (symmetry; assumption); try reflexivity; try (intros; pnt).
  repeat split; ring.
Qed.

Lemma half_x d : half_order s d = match d with AX => norderx S | AY => nordery S | AZ => norderz S end ÷ 2.
Proof. destruct LS as (Hx & Hy & Hz & _). destruct d; cbn [library_formulas any_order half_order]; assumption. Qed.

Theorem library_step E B J e b j_ : is_field S E e -> is_field S B b -> is_field S J j_ ->
  exists E' B' e' b', solve_maxwell_fdtd_pxr S (library_steps q) E B J = Ret (E', B') /\ @is_field tg S E' e' /\ @is_field tg S B' b' /\
    (forall p, in_box (lib_lo S) (lib_hi S) p = true ->
      let r := curl (fwd s) b in let r' := curl (bwd s) e' in
      comp_x e' p = (comp_x e p + rdt q * (comp_x r p - comp_x j_ p))%R /\
      comp_y e' p = (comp_y e p + rdt q * (comp_y r p - comp_y j_ p))%R /\
      comp_z e' p = (comp_z e p + rdt q * (comp_z r p - comp_z j_ p))%R /\
      comp_x b' p = (comp_x b p - rdt q * comp_x r' p)%R /\
      comp_y b' p = (comp_y b p - rdt q * comp_y r' p)%R /\
      comp_z b' p = (comp_z b p - rdt q * comp_z r' p)%R) /\
    (forall p, lib_inner S p ->
      div (bwd s) b' p = div (bwd s) b p /\
      div (fwd s) e' p = (div (fwd s) e p - rdt q * div (fwd s) j_ p)%R).
Proof.
  intros FE FB FJ. destruct (library_e E B J e b j_ FE FB FJ) as (E' & e' & RE & FE' & UE).
  destruct (library_b E' B e' b FE' FB) as (B' & b' & RB & FB' & UB).
  exists E', B', e', b'. split.
  { unfold solve_maxwell_fdtd_pxr. cbn [library_steps xcoeffs ycoeffs zcoeffs dt].
    fold cx cy cz. rewrite RE. cbn [bind]. rewrite RB. reflexivity. }
  split; [exact FE'|]. split; [exact FB'|]. split.
  { intros p I. destruct (UE p I) as (U1 & U2 & U3). destruct (UB p I) as (W1 & W2 & W3). cbn zeta. repeat split; assumption. }
  intros p I. assert (Is : 0 <= ist s <= 1) by (cbn; lia).
  assert (Hh : forall d, 1 <= half_order s d).
  { intros d. rewrite half_x. destruct LS as (_ & _ & _ & Ox & Oy & Oz & _). destruct d; apply Z.quot_le_lower_bound; lia. }
  split.
  - rewrite (div_bwd_update s (lib_lo S) (lib_hi S) p b b' (curl (bwd s) e') (rdt q)).
    + rewrite div_curl_bwd. ring.
    + intros d m Hm. apply I. rewrite half_x in Hm. change (ist s) with 1 in Hm. specialize (Hh d). rewrite half_x in Hh. lia.
    + exact Is.
    + intros r Ir. apply (UB r Ir).
  - set (g := RField (fun p => comp_x j_ p - comp_x (curl (fwd s) b) p)%R (fun p => comp_y j_ p - comp_y (curl (fwd s) b) p)%R
                     (fun p => comp_z j_ p - comp_z (curl (fwd s) b) p)%R).
    rewrite (div_fwd_update s (lib_lo S) (lib_hi S) p e e' g (rdt q)).
    + assert (D : div (fwd s) g p = (div (fwd s) j_ p - div (fwd s) (curl (fwd s) b) p)%R).
      { unfold div at 1. unfold g. cbn [comp_x comp_y comp_z]. rewrite !fwd_dif, !dif_sub, <- !fwd_dif. unfold div. lra. }
      rewrite D, div_curl_fwd. ring.
    + intros d m Hm. apply I. rewrite half_x in Hm. change (ist s) with 1 in Hm. specialize (Hh d). rewrite half_x in Hh. lia.
    + exact Is.
    + intros r Ir. destruct (UE r Ir) as (U1 & U2 & U3). unfold g. cbn [comp_x comp_y comp_z]. rewrite U1, U2, U3. repeat split; ring.
Qed.
End Step.
End X.
