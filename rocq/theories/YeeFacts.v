(** Proofs about the field solver: two dimensions, diagnostics, histories, symmetries. *)
From Coq Require Import ZArith Reals List Bool Lia Lra.
From Verif Require Import Cxx Num NumRX Fortran Grid Pushers Yee SpecYee SpecSolver CxxLemmas RXLemmas FortranLemmas GridLemmas YeeReal YeeProofs YeePush YeeDiv YeePush2.
Import ListNotations.
Local Open Scope R_scope.

Section X.
Context {tg : R -> R}.
Notation N := (RX tg).
Notation gridX := (grid (num N)).
Notation fieldX := (field (num N)).

(** ** two dimensions *)
Lemma fwd_none n hx hy hz cx cz f p : fwd (any_order n hx hy hz cx [] cz) AY f p = 0.
Proof. reflexivity. Qed.
Lemma bwd_none n hx hy hz cx cz f p : bwd (any_order n hx hy hz cx [] cz) AY f p = 0.
Proof. reflexivity. Qed.
Lemma fwd_one_x hx hy hz cy cz f p : fwd (any_order false hx hy hz [1] cy cz) AX f p = 1 / hx * (f (shift AX 1 p) - f p).
Proof. unfold fwd. cbn [half_order any_order coef ist]. change (zlen [1]) with 1%Z. rewrite Sum_1. rewrite shift0. reflexivity. Qed.
Lemma fwd_one_z hx hy hz cx cy f p : fwd (any_order false hx hy hz cx cy [1]) AZ f p = 1 / hz * (f (shift AZ 1 p) - f p).
Proof. unfold fwd. cbn [half_order any_order coef ist]. change (zlen [1]) with 1%Z. rewrite Sum_1. rewrite shift0. reflexivity. Qed.
Lemma bwd_one_x hx hy hz cy cz f p : bwd (any_order false hx hy hz [1] cy cz) AX f p = 1 / hx * (f p - f (shift AX (-1) p)).
Proof. unfold bwd. cbn [half_order any_order coef ist]. change (zlen [1]) with 1%Z. rewrite Sum_1. change (1 - 1)%Z with 0%Z. rewrite shift0. reflexivity. Qed.
Lemma bwd_one_z hx hy hz cx cy f p : bwd (any_order false hx hy hz cx cy [1]) AZ f p = 1 / hz * (f p - f (shift AZ (-1) p)).
Proof. unfold bwd. cbn [half_order any_order coef ist]. change (zlen [1]) with 1%Z. rewrite Sum_1. change (1 - 1)%Z with 0%Z. rewrite shift0. reflexivity. Qed.

Lemma half_nonneg n : (0 <= n)%Z -> (0 <= n ÷ 2)%Z.
Proof. intros H. apply Z.quot_pos; lia. Qed.

Theorem push_bfield_2d_real S q E B e b : well_set_2d S q -> is_field S E e -> is_field S B b ->
  exists B' b', push_bfield_2d S 0 (steps_of q) E B = Ret B' /\ @is_field tg S B' b' /\
   (forall p, in_box (slo2 S 0) (shi2 S 0) p = true ->
     let r := curl (fwd (formulas_2d S q)) e in
     comp_x b' p = comp_x b p - rdt q / 2 * comp_x r p /\
     comp_y b' p = comp_y b p - rdt q / 2 * comp_y r p /\
     comp_z b' p = comp_z b p - rdt q / 2 * comp_z r p) /\
   (forall p, in_box (slo2 S 0) (shi2 S 0) p = false ->
     comp_x b' p = comp_x b p /\ comp_y b' p = comp_y b p /\ comp_z b' p = comp_z b p).
Proof.
  intros (G & (Hx & Hz) & W) FE FB. unfold push_bfield_2d. fold (second_order_2d S).
  cbn [dt dx dy dz xcoeffs ycoeffs zcoeffs steps_of]. rewrite !half_over by assumption.
  pose proof (half_nonneg (norderx S)) as Px. pose proof (half_nonneg (norderz S)) as Pz.
  unfold formulas_2d. destruct (second_order_2d S) eqn:O; cbn iota zeta in G.
  - destruct (bvec2_real S (rdt q / 2 / rdx q) (rdt q / 2 / rdz q) E B e b) as (B' & Re & V); [unfold fits2; lia | assumption | assumption |].
    eexists B', _. split; [exact Re|]. split; [exact V|]. split.
    + intros p I. unfold b2_new, upd, curl. cbn [comp_x comp_y comp_z]. rewrite I, !fwd_none, !fwd_one_x, !fwd_one_z. repeat split; field; auto.
    + intros p I. unfold b2_new, upd. cbn [comp_x comp_y comp_z]. rewrite I. auto.
  - destruct (W eq_refl) as (Lx & Lz).
    rewrite (map_coef (rdt q / 2 / rdx q) (rcx q)), (map_coef (rdt q / 2 / rdz q) (rcz q)) by reflexivity.
    destruct (bvec2n_real S (map (fun x => rdt q / 2 / rdx q * x) (rcx q)) (map (fun x => rdt q / 2 / rdz q * x) (rcz q)) E B e b)
      as (B' & Re & V); [unfold fits2; lia | rewrite zlen_map'; assumption | rewrite zlen_map'; assumption | assumption | assumption |].
    eexists B', _. split; [exact Re|]. split; [exact V|]. split.
    + intros p I. unfold b2n_new, upd, curl. cbn [comp_x comp_y comp_z].
      rewrite I, !fwd_none, !tfwd_any, !tfwd_scaled, Lx, Lz. repeat split; field; auto.
    + intros p I. unfold b2n_new, upd. cbn [comp_x comp_y comp_z]. rewrite I. auto.
Qed.

Theorem push_efield_2d_real c mu S q E B J e b j_ : well_set_2d S q -> is_field S E e -> is_field S B b -> is_field S J j_ ->
  exists E' e', push_efield_2d (consts_of c mu) S 0 (steps_of q) E B J = Ret E' /\ @is_field tg S E' e' /\
   (forall p, in_box (slo2 S 0) (shi2 S 0) p = true ->
     let r := curl (bwd (formulas_2d S q)) b in
     comp_x e' p = comp_x e p + c ^ 2 * rdt q * (comp_x r p - mu * comp_x j_ p) /\
     comp_y e' p = comp_y e p + c ^ 2 * rdt q * (comp_y r p - mu * comp_y j_ p) /\
     comp_z e' p = comp_z e p + c ^ 2 * rdt q * (comp_z r p - mu * comp_z j_ p)) /\
   (forall p, in_box (slo2 S 0) (shi2 S 0) p = false ->
     comp_x e' p = comp_x e p /\ comp_y e' p = comp_y e p /\ comp_z e' p = comp_z e p).
Proof.
  intros (G & (Hx & Hz) & W) FE FB FJ. unfold push_efield_2d. fold (second_order_2d S).
  cbn [dt dx dy dz xcoeffs ycoeffs zcoeffs steps_of clight mu0 consts_of]. rewrite !c2_over by assumption.
  change (@n_mul N (@n_mul N (Fin mu : num N) (@sq N (Fin c : num N))) (Fin (rdt q) : num N)) with (Fin (mu * (c * c) * rdt q) : num N).
  pose proof (half_nonneg (norderx S)) as Px. pose proof (half_nonneg (norderz S)) as Pz.
  unfold formulas_2d. destruct (second_order_2d S) eqn:O; cbn iota zeta in G.
  - destruct (evec2_real S (mu * (c * c) * rdt q) (c * c * rdt q / rdx q) (c * c * rdt q / rdz q) E B J e b j_) as (E' & Re & V);
      [unfold fits2; lia | assumption | assumption | assumption |].
    eexists E', _. split; [exact Re|]. split; [exact V|]. split.
    + intros p I. unfold e2_new, upd, curl. cbn [comp_x comp_y comp_z]. rewrite I, !bwd_none, !bwd_one_x, !bwd_one_z. repeat split; field; auto.
    + intros p I. unfold e2_new, upd. cbn [comp_x comp_y comp_z]. rewrite I. auto.
  - destruct (W eq_refl) as (Lx & Lz).
    rewrite (map_coef (c * c * rdt q / rdx q) (rcx q)), (map_coef (c * c * rdt q / rdz q) (rcz q)) by reflexivity.
    destruct (evec2n_real S (mu * (c * c) * rdt q) (map (fun x => c * c * rdt q / rdx q * x) (rcx q)) (map (fun x => c * c * rdt q / rdz q * x) (rcz q)) E B J e b j_)
      as (E' & Re & V); [unfold fits2; lia | rewrite zlen_map'; assumption | rewrite zlen_map'; assumption | assumption | assumption | assumption |].
    eexists E', _. split; [exact Re|]. split; [exact V|]. split.
    + intros p I. unfold e2n_new, upd, curl. cbn [comp_x comp_y comp_z].
      rewrite I, !bwd_none, !tbwd_any, !tbwd_scaled, Lx, Lz. repeat split; field; auto.
    + intros p I. unfold e2n_new, upd. cbn [comp_x comp_y comp_z]. rewrite I. auto.
Qed.

Lemma ist_formulas_2d S q : (0 <= ist (formulas_2d S q) <= 1)%Z.
Proof. unfold formulas_2d. destruct (second_order_2d S); cbn; [lia|]. destruct (l_nodalgrid S); lia. Qed.

Theorem push_bfield_2d_div S q E B e b : well_set_2d S q -> is_field S E e -> is_field S B b ->
  exists B' b', push_bfield_2d S 0 (steps_of q) E B = Ret B' /\ @is_field tg S B' b' /\
    forall p, interior_fwd_2d S q p -> div (fwd (formulas_2d S q)) b' p = div (fwd (formulas_2d S q)) b p.
Proof.
  intros W FE FB. destruct (push_bfield_2d_real S q E B e b W FE FB) as (B' & b' & Re & V & U & _).
  exists B', b'. split; [exact Re|]. split; [exact V|]. intros p I.
  rewrite (div_fwd_update _ _ _ p b b' (curl (fwd (formulas_2d S q)) e) (rdt q / 2) I (ist_formulas_2d S q) U), div_curl_fwd. lra.
Qed.

(** a general form of the change of div E *)
Lemma div_e_update s (a b0 p : idx) (e e' b j_ : rfield) (h mu : R) :
  reaches (fun d => - half_order s d)%Z (fun d => half_order s d - ist s)%Z a b0 p -> (0 <= ist s <= 1)%Z ->
  (forall q, in_box a b0 q = true ->
     let r := curl (bwd s) b in
     comp_x e' q = comp_x e q + h * (comp_x r q - mu * comp_x j_ q) /\
     comp_y e' q = comp_y e q + h * (comp_y r q - mu * comp_y j_ q) /\
     comp_z e' q = comp_z e q + h * (comp_z r q - mu * comp_z j_ q)) ->
  div (bwd s) e' p = div (bwd s) e p - h * mu * div (bwd s) j_ p.
Proof.
  intros I Hi U.
  pose (g := RField (fun p => mu * comp_x j_ p - comp_x (curl (bwd s) b) p) (fun p => mu * comp_y j_ p - comp_y (curl (bwd s) b) p)
                    (fun p => mu * comp_z j_ p - comp_z (curl (bwd s) b) p)).
  rewrite (div_bwd_update s _ _ p e e' g h I Hi).
  2:{ intros r Ir. destruct (U r Ir) as (U1 & U2 & U3). unfold g. cbn [comp_x comp_y comp_z]. rewrite U1, U2, U3. repeat split; ring. }
  assert (X : forall d (u v : idx -> R), bwd s d (fun p => mu * u p - v p) p = mu * bwd s d u p - bwd s d v p).
  { intros d u v. rewrite !bwd_dif. rewrite dif_sub. f_equal.
    transitivity (YeeReal.dif s d (fun i => i - ist s)%Z (fun i => - i)%Z (fun q => 0 + mu * u q) p); [apply dif_ext; intros; split; lra|].
    rewrite (dif_lin s d _ _ (fun _ => 0) u mu p).
    replace (YeeReal.dif s d (fun i => i - ist s)%Z (fun i => - i)%Z (fun _ : idx => 0) p) with 0; [lra|].
    unfold YeeReal.dif. rewrite <- (rsum_0 (zrange 1 (half_order s d))). apply rsum_ext. intros; lra. }
  assert (D : div (bwd s) g p = mu * div (bwd s) j_ p - div (bwd s) (curl (bwd s) b) p).
  { unfold div at 1. unfold g. cbn [comp_x comp_y comp_z]. rewrite !X. unfold div. lra. }
  rewrite D, div_curl_bwd. ring.
Qed.

Theorem push_efield_2d_div c mu S q E B J e b j_ : well_set_2d S q -> is_field S E e -> is_field S B b -> is_field S J j_ ->
  exists E' e', push_efield_2d (consts_of c mu) S 0 (steps_of q) E B J = Ret E' /\ @is_field tg S E' e' /\
    forall p, interior_bwd_2d S q p ->
      div (bwd (formulas_2d S q)) e' p = div (bwd (formulas_2d S q)) e p - c ^ 2 * mu * rdt q * div (bwd (formulas_2d S q)) j_ p.
Proof.
  intros W FE FB FJ. destruct (push_efield_2d_real c mu S q E B J e b j_ W FE FB FJ) as (E' & e' & Re & V & U & _).
  exists E', e'. split; [exact Re|]. split; [exact V|]. intros p I.
  rewrite (div_e_update _ _ _ p e e' b j_ (c ^ 2 * rdt q) mu I (ist_formulas_2d S q) U). ring.
Qed.

(** ** diagnostics *)
Lemma ok_calc_divB (B : fieldX) (ix iy iz : num N) : ok_body (fun p => let '(j, k, l) := p in
    [(p, fun _ : num N => do a <- diff (fx B) ((j + 1)%Z, k, l) (j, k, l);
                  do b <- diff (fy B) (j, (k + 1)%Z, l) (j, k, l);
                  do c <- diff (fz B) (j, k, (l + 1)%Z) (j, k, l);
                  Ret (ix * a + iy * b + iz * c)%N)]).
Proof.
  intros [[j k] l]. apply ok_cons; [|apply ok_nil]. intros x.
  repeat (apply cl_bind; [apply cl_diff | intros]). apply cl_ret.
Qed.
Lemma ok_calc_div (E : fieldX) (ix iy iz : num N) : ok_body (fun p => let '(j, k, l) := p in
    [(p, fun _ : num N => do a <- diff (fx E) (j, k, l) ((j - 1)%Z, k, l);
                  do b <- diff (fy E) (j, k, l) (j, (k - 1)%Z, l);
                  do c <- diff (fz E) (j, k, l) (j, k, (l - 1)%Z);
                  Ret (ix * a + iy * b + iz * c)%N)]).
Proof.
  intros [[j k] l]. apply ok_cons; [|apply ok_nil]. intros x.
  repeat (apply cl_bind; [apply cl_diff | intros]). apply cl_ret.
Qed.

Lemma one_over h : h <> 0 -> @n_div N (@n_lit N 1 0) (Fin h : num N) = (Fin (/ h) : num N).
Proof. intros H. cbn [n_div n_lit RX x_lit]. rewrite x_div_fin by exact H. f_equal. cbn. field. exact H. Qed.


Ltac dif Pf := let D := fresh in pose proof Pf as D;
  match goal with |- context [diff ?g ?p ?q] => match type of D with _ = ?r => change (diff g p q = r) in D; rewrite D; clear D end end.

Theorem calc_field_divB_real S B b hx hy hz (d0 : gridX) r0 : guard1 S -> hx <> 0 -> hy <> 0 -> hz <> 0 ->
  is_field S B b -> is_grid d0 (alo S) (ahi S) r0 ->
  exists d1, calc_field_divB (nx S) (ny S) (nz S) B (Fin hx : num N) (Fin hy : num N) (Fin hz : num N) d0 = Ret d1 /\
    is_grid d1 (alo S) (ahi S) (fun p => if in_box (1, 1, 1)%Z (nx S, ny S, nz S) p then div (fwd (yee hx hy hz)) b p else r0 p).
Proof.
  intros G Hx Hy Hz (Bx & By & Bz) G0. unfold calc_field_divB. rewrite !one_over by assumption.
  apply loop_real; [apply ok_calc_divB | exact G0 |].
  intros p I.
  assert (K : forall d m, (0 <= m <= 1)%Z -> in_box (alo S) (ahi S) (shift d m p) = true).
  { intros d m Hm. destruct p as [[j k] l]. rewrite in_box_iff in I. unfold guard1 in G. destruct d; cbn [shift]; unfold alo, ahi; rewrite in_box_iff; lia. }
  assert (I' : in_box (alo S) (ahi S) p = true) by (rewrite <- (shift0 AX p); apply K; lia).
  split; [exact I'|]. destruct p as [[j k] l]. cbn [map snd run].
  dif (grid_diff _ _ _ _ _ _ Bx (K AX 1%Z ltac:(lia)) I'). cbn [bind].
  dif (grid_diff _ _ _ _ _ _ By (K AY 1%Z ltac:(lia)) I'). cbn [bind].
  dif (grid_diff _ _ _ _ _ _ Bz (K AZ 1%Z ltac:(lia)) I'). cbn [bind].
  unfold div. rewrite !fwd_yee. reflexivity.
Qed.

Theorem calc_field_div_real S E e hx hy hz (d0 : gridX) r0 : guard1 S -> hx <> 0 -> hy <> 0 -> hz <> 0 ->
  is_field S E e -> is_grid d0 (alo S) (ahi S) r0 ->
  exists d1, calc_field_div (nx S) (ny S) (nz S) E (Fin hx : num N) (Fin hy : num N) (Fin hz : num N) d0 = Ret d1 /\
    is_grid d1 (alo S) (ahi S) (fun p => if in_box (0, 0, 0)%Z (nx S, ny S, nz S) p then div (bwd (yee hx hy hz)) e p else r0 p).
Proof.
  intros G Hx Hy Hz (Ex & Ey & Ez) G0. unfold calc_field_div. rewrite !one_over by assumption.
  apply loop_real; [apply ok_calc_div | exact G0 |].
  intros p I.
  assert (K : forall d m, (-1 <= m <= 0)%Z -> in_box (alo S) (ahi S) (shift d m p) = true).
  { intros d m Hm. destruct p as [[j k] l]. rewrite in_box_iff in I. unfold guard1 in G. destruct d; cbn [shift]; unfold alo, ahi; rewrite in_box_iff; lia. }
  assert (I' : in_box (alo S) (ahi S) p = true) by (rewrite <- (shift0 AX p); apply K; lia).
  split; [exact I'|]. destruct p as [[j k] l]. cbn [map snd run].
  dif (grid_diff _ _ _ _ _ _ Ex I' (K AX (-1)%Z ltac:(lia))). cbn [bind].
  dif (grid_diff _ _ _ _ _ _ Ey I' (K AY (-1)%Z ltac:(lia))). cbn [bind].
  dif (grid_diff _ _ _ _ _ _ Ez I' (K AZ (-1)%Z ltac:(lia))). cbn [bind].
  unfold div. rewrite !bwd_yee. reflexivity.
Qed.
End X.
