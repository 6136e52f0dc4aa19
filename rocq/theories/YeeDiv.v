(** Proofs about the field solver in exact arithmetic: discrete Maxwell equations and
    conservation of the divergences. *)
From Coq Require Import ZArith Reals List Bool Lia Lra.
From Verif Require Import Cxx Num NumRX Fortran Grid Pushers Yee SpecYee SpecSolver CxxLemmas RXLemmas FortranLemmas GridLemmas YeeReal YeeProofs YeePush.
Import ListNotations.
Local Open Scope R_scope.

(** ** what an update that is a curl does to the divergence *)
Lemma div_fwd_update s (a b p : idx) (f f' g : rfield) (h : R) :
  reaches (fun d => ist s - half_order s d)%Z (half_order s) a b p ->
  (0 <= ist s <= 1)%Z ->
  (forall q, in_box a b q = true -> comp_x f' q = comp_x f q - h * comp_x g q /\
     comp_y f' q = comp_y f q - h * comp_y g q /\ comp_z f' q = comp_z f q - h * comp_z g q) ->
  div (fwd s) f' p = div (fwd s) f p - h * div (fwd s) g p.
Proof.
  intros Re Hi U.
  assert (X : forall d (u u' v : idx -> R), (forall q, in_box a b q = true -> u' q = u q - h * v q) -> fwd s d u' p = fwd s d u p - h * fwd s d v p).
  { intros d u u' v H. rewrite !fwd_dif. transitivity (dif s d (fun i => i) (fun i => ist s - i)%Z (fun q => u q + (- h) * v q) p).
    - apply dif_ext. intros i Hk. split; rewrite H by (apply Re; lia); lra.
    - rewrite dif_lin. lra. }
  unfold div. rewrite (X AX (comp_x f) (comp_x f') (comp_x g)), (X AY (comp_y f) (comp_y f') (comp_y g)), (X AZ (comp_z f) (comp_z f') (comp_z g)).
  - lra.
  - intros q I. apply (U q I).
  - intros q I. apply (U q I).
  - intros q I. apply (U q I).
Qed.

Lemma div_bwd_update s (a b p : idx) (f f' g : rfield) (h : R) :
  reaches (fun d => - half_order s d)%Z (fun d => half_order s d - ist s)%Z a b p ->
  (0 <= ist s <= 1)%Z ->
  (forall q, in_box a b q = true -> comp_x f' q = comp_x f q - h * comp_x g q /\
     comp_y f' q = comp_y f q - h * comp_y g q /\ comp_z f' q = comp_z f q - h * comp_z g q) ->
  div (bwd s) f' p = div (bwd s) f p - h * div (bwd s) g p.
Proof.
  intros Re Hi U.
  assert (X : forall d (u u' v : idx -> R), (forall q, in_box a b q = true -> u' q = u q - h * v q) -> bwd s d u' p = bwd s d u p - h * bwd s d v p).
  { intros d u u' v H. rewrite !bwd_dif. transitivity (dif s d (fun i => i - ist s)%Z (fun i => - i)%Z (fun q => u q + (- h) * v q) p).
    - apply dif_ext. intros i Hk. split; rewrite H by (apply Re; lia); lra.
    - rewrite dif_lin. lra. }
  unfold div. rewrite (X AX (comp_x f) (comp_x f') (comp_x g)), (X AY (comp_y f) (comp_y f') (comp_y g)), (X AZ (comp_z f) (comp_z f') (comp_z g)).
  - lra.
  - intros q I. apply (U q I).
  - intros q I. apply (U q I).
  - intros q I. apply (U q I).
Qed.

Lemma ist_formulas S q : (0 <= ist (formulas S q) <= 1)%Z.
Proof. unfold formulas. destruct (second_order S); cbn; [lia|]. destruct (l_nodalgrid S); lia. Qed.

(** ** the coefficients of the calls *)
Lemma weight_map (a : R) c i : weight (map (fun x => a * x) c) i = a * weight c i.
Proof.
  unfold weight. replace 0 with (a * 0) at 1 by lra. exact (map_nth (fun x => a * x) c 0 (Z.to_nat (i - 1))).
Qed.

Section X.
Context {tg : R -> R}.
Notation N := (RX tg).

Lemma half_over dt h : h <> 0 ->
  @n_div N (@n_mul N (@n_lit N 5 (-1)) (Fin dt : num N)) (Fin h : num N) = (Fin (dt / 2 / h) : num N).
Proof. intros H. cbn [n_mul n_div n_lit RX x_lit x_mul]. rewrite x_div_fin by exact H. f_equal. cbn. field. exact H. Qed.
Lemma c2_over c dt h : h <> 0 ->
  @n_div N (@n_mul N (@sq N (Fin c : num N)) (Fin dt : num N)) (Fin h : num N) = (Fin (c * c * dt / h) : num N).
Proof. intros H. unfold sq. cbn [n_mul n_div RX x_mul]. rewrite x_div_fin by exact H. reflexivity. Qed.
Lemma map_coef (a : R) (w : list R) (A : num N) : A = (Fin a : num N) ->
  map (fun c : num N => @n_mul N A c) (map Fin w) = map Fin (map (fun x => a * x) w).
Proof. intros ->. rewrite !map_map. reflexivity. Qed.

Lemma cnt_full S d p : second_order S = false -> in_box (full_lo S) (full_hi S) p = true ->
  cnt S d p = (match d with AX => norderx S | AY => nordery S | AZ => norderz S end ÷ 2)%Z.
Proof.
  intros E. unfold full_lo, full_hi. rewrite E. destruct p as [[j k] l]. rewrite in_box_iff. intros H.
  unfold cnt, terms. destruct d; lia.
Qed.
Lemma full_updated S p : in_box (full_lo S) (full_hi S) p = true -> in_box (slo S) (shi S) p = true.
Proof.
  unfold full_lo, full_hi. destruct (second_order S); [auto|]. destruct p as [[j k] l]. unfold slo, shi. rewrite !in_box_iff. lia.
Qed.

Lemma tfwd_scaled n a c t d f p : tfwd n (weight (map (fun x => a * x) c)) t d f p = a * tfwd n (weight c) t d f p.
Proof. unfold tfwd. rewrite <- Sum_scal. apply Sum_ext. intros i _. rewrite weight_map. lra. Qed.
Lemma tbwd_scaled n a c t d f p : tbwd n (weight (map (fun x => a * x) c)) t d f p = a * tbwd n (weight c) t d f p.
Proof. unfold tbwd. rewrite <- Sum_scal. apply Sum_ext. intros i _. rewrite weight_map. lra. Qed.

Lemma tfwd_any nodal hx hy hz cx cy cz d f p :
  fwd (any_order nodal hx hy hz cx cy cz) d f p
  = / (match d with AX => hx | AY => hy | AZ => hz end) *
    tfwd (zlen (match d with AX => cx | AY => cy | AZ => cz end)) (weight (match d with AX => cx | AY => cy | AZ => cz end)) (stagger nodal) d f p.
Proof.
  unfold fwd, tfwd. cbn [half_order any_order coef ist]. change (if nodal then 0%Z else 1%Z) with (stagger nodal).
  rewrite <- Sum_scal. apply Sum_ext. intros i _. destruct d; unfold Rdiv; ring.
Qed.
Lemma tbwd_any nodal hx hy hz cx cy cz d f p :
  bwd (any_order nodal hx hy hz cx cy cz) d f p
  = / (match d with AX => hx | AY => hy | AZ => hz end) *
    tbwd (zlen (match d with AX => cx | AY => cy | AZ => cz end)) (weight (match d with AX => cx | AY => cy | AZ => cz end)) (stagger nodal) d f p.
Proof.
  unfold bwd, tbwd. cbn [half_order any_order coef ist]. change (if nodal then 0%Z else 1%Z) with (stagger nodal).
  rewrite <- Sum_scal. apply Sum_ext. intros i _. destruct d; unfold Rdiv; ring.
Qed.

Lemma zlen_map' {A B} (f : A -> B) l : zlen (map f l) = zlen l.
Proof. unfold zlen. rewrite map_length. reflexivity. Qed.

(** ** the magnetic push *)
Theorem push_bfield_real S q E B e b : well_set S q -> is_field S E e -> is_field S B b ->
  exists B' b', push_bfield S (steps_of q) E B = Ret B' /\ @is_field tg S B' b' /\
   (forall p, in_box (full_lo S) (full_hi S) p = true ->
     let r := curl (fwd (formulas S q)) e in
     comp_x b' p = comp_x b p - rdt q / 2 * comp_x r p /\
     comp_y b' p = comp_y b p - rdt q / 2 * comp_y r p /\
     comp_z b' p = comp_z b p - rdt q / 2 * comp_z r p) /\
   (forall p, in_box (slo S) (shi S) p = false ->
     comp_x b' p = comp_x b p /\ comp_y b' p = comp_y b p /\ comp_z b' p = comp_z b p).
Proof.
  intros (G & (Hx & Hy & Hz) & W) FE FB. unfold push_bfield. fold (second_order S).
  cbn [dt dx dy dz xcoeffs ycoeffs zcoeffs steps_of]. rewrite !half_over by assumption.
  destruct (second_order S) eqn:O; cbn iota zeta in G.
  - destruct (bvec_real S (rdt q / 2 / rdx q) (rdt q / 2 / rdy q) (rdt q / 2 / rdz q) E B e b) as (B' & R & V); [unfold fits1; lia | assumption | assumption |].
    exists B', (b3_new S (rdt q / 2 / rdx q) (rdt q / 2 / rdy q) (rdt q / 2 / rdz q) e b). split; [exact R|]. split; [exact V|]. split.
    + intros p I. unfold full_lo, full_hi in I. rewrite O in I. unfold formulas. rewrite O. unfold b3_new, upd, curl. cbn [comp_x comp_y comp_z].
      rewrite I, !fwd_yee. repeat split; field; auto.
    + intros p I. unfold b3_new, upd. cbn [comp_x comp_y comp_z]. rewrite I. auto.
  - destruct (W eq_refl) as (Lx & Ly & Lz).
    rewrite (map_coef (rdt q / 2 / rdx q) (rcx q)), (map_coef (rdt q / 2 / rdy q) (rcy q)), (map_coef (rdt q / 2 / rdz q) (rcz q)) by reflexivity.
    destruct (bvec_norder_real S (map (fun x => rdt q / 2 / rdx q * x) (rcx q)) (map (fun x => rdt q / 2 / rdy q * x) (rcy q))
      (map (fun x => rdt q / 2 / rdz q * x) (rcz q)) E B e b) as (B' & R & V); [unfold fits; lia | unfold lens; rewrite !zlen_map'; auto | assumption | assumption |].
    eexists B', _. split; [exact R|]. split; [exact V|]. split.
    + intros p I. unfold bn_new, upd, curl, formulas. rewrite O. cbn [comp_x comp_y comp_z].
      rewrite (full_updated S p I), !(cnt_full S _ p O I), !tfwd_any, !tfwd_scaled, Lx, Ly, Lz.
      repeat split; field; auto.
    + intros p I. unfold bn_new, upd. cbn [comp_x comp_y comp_z]. rewrite I. auto.
Qed.

Theorem push_bfield_div S q E B e b : well_set S q -> is_field S E e -> is_field S B b ->
  exists B' b', push_bfield S (steps_of q) E B = Ret B' /\ @is_field tg S B' b' /\
    forall p, interior_fwd S q p -> div (fwd (formulas S q)) b' p = div (fwd (formulas S q)) b p.
Proof.
  intros W FE FB. destruct (push_bfield_real S q E B e b W FE FB) as (B' & b' & R & V & U & _).
  exists B', b'. split; [exact R|]. split; [exact V|]. intros p I.
  rewrite (div_fwd_update _ _ _ p b b' (curl (fwd (formulas S q)) e) (rdt q / 2) I (ist_formulas S q) U), div_curl_fwd. lra.
Qed.

(** ** the electric push *)
Theorem push_efield_real c mu S q E B J e b j_ : well_set S q -> is_field S E e -> is_field S B b -> is_field S J j_ ->
  exists E' e', push_efield (consts_of c mu) S (steps_of q) E B J = Ret E' /\ @is_field tg S E' e' /\
   (forall p, in_box (full_lo S) (full_hi S) p = true ->
     let r := curl (bwd (formulas S q)) b in
     comp_x e' p = comp_x e p + c ^ 2 * rdt q * (comp_x r p - mu * comp_x j_ p) /\
     comp_y e' p = comp_y e p + c ^ 2 * rdt q * (comp_y r p - mu * comp_y j_ p) /\
     comp_z e' p = comp_z e p + c ^ 2 * rdt q * (comp_z r p - mu * comp_z j_ p)) /\
   (forall p, in_box (slo S) (shi S) p = false ->
     comp_x e' p = comp_x e p /\ comp_y e' p = comp_y e p /\ comp_z e' p = comp_z e p).
Proof.
  intros (G & (Hx & Hy & Hz) & W) FE FB FJ. unfold push_efield. fold (second_order S).
  cbn [dt dx dy dz xcoeffs ycoeffs zcoeffs steps_of clight mu0 consts_of]. rewrite !c2_over by assumption.
  change (@n_mul N (@n_mul N (@sq N (Fin c : num N)) (Fin mu : num N)) (Fin (rdt q) : num N)) with (Fin (c * c * mu * rdt q) : num N).
  destruct (second_order S) eqn:O; cbn iota zeta in G.
  - destruct (evec_real S (c * c * mu * rdt q) (c * c * rdt q / rdx q) (c * c * rdt q / rdy q) (c * c * rdt q / rdz q) E B J e b j_)
      as (E' & R & V); [unfold fits1; lia | assumption | assumption | assumption |].
    eexists E', _. split; [exact R|]. split; [exact V|]. split.
    + intros p I. unfold full_lo, full_hi in I. rewrite O in I. unfold formulas. rewrite O. unfold e3_new, upd, curl. cbn [comp_x comp_y comp_z].
      rewrite I, !bwd_yee. repeat split; field; auto.
    + intros p I. unfold e3_new, upd. cbn [comp_x comp_y comp_z]. rewrite I. auto.
  - destruct (W eq_refl) as (Lx & Ly & Lz).
    rewrite (map_coef (c * c * rdt q / rdx q) (rcx q)), (map_coef (c * c * rdt q / rdy q) (rcy q)), (map_coef (c * c * rdt q / rdz q) (rcz q)) by reflexivity.
    destruct (evec_norder_real S (c * c * mu * rdt q) (map (fun x => c * c * rdt q / rdx q * x) (rcx q)) (map (fun x => c * c * rdt q / rdy q * x) (rcy q))
      (map (fun x => c * c * rdt q / rdz q * x) (rcz q)) E B J e b j_) as (E' & R & V);
      [unfold fits; lia | unfold lens; rewrite !zlen_map'; auto | assumption | assumption | assumption |].
    eexists E', _. split; [exact R|]. split; [exact V|]. split.
    + intros p I. unfold en_new, upd, curl, formulas. rewrite O. cbn [comp_x comp_y comp_z].
      rewrite (full_updated S p I), !(cnt_full S _ p O I), !tbwd_any, !tbwd_scaled, Lx, Ly, Lz.
      repeat split; field; auto.
    + intros p I. unfold en_new, upd. cbn [comp_x comp_y comp_z]. rewrite I. auto.
Qed.

Theorem push_efield_div c mu S q E B J e b j_ : well_set S q -> is_field S E e -> is_field S B b -> is_field S J j_ ->
  exists E' e', push_efield (consts_of c mu) S (steps_of q) E B J = Ret E' /\ @is_field tg S E' e' /\
    forall p, interior_bwd S q p ->
      div (bwd (formulas S q)) e' p = div (bwd (formulas S q)) e p - c ^ 2 * mu * rdt q * div (bwd (formulas S q)) j_ p.
Proof.
  intros W FE FB FJ. destruct (push_efield_real c mu S q E B J e b j_ W FE FB FJ) as (E' & e' & Re & V & U & _).
  exists E', e'. split; [exact Re|]. split; [exact V|]. intros p I.
  set (s := formulas S q) in *.
  pose (g := RField (fun p => mu * comp_x j_ p - comp_x (curl (bwd s) b) p) (fun p => mu * comp_y j_ p - comp_y (curl (bwd s) b) p)
                    (fun p => mu * comp_z j_ p - comp_z (curl (bwd s) b) p)).
  rewrite (div_bwd_update s _ _ p e e' g (c ^ 2 * rdt q) I (ist_formulas S q)).
  2:{ intros r Ir. destruct (U r Ir) as (U1 & U2 & U3). unfold g. cbn [comp_x comp_y comp_z]. rewrite U1, U2, U3. repeat split; ring. }
  assert (X : forall d (u v : idx -> R), bwd s d (fun p => mu * u p - v p) p = mu * bwd s d u p - bwd s d v p).
  { intros d u v. rewrite !bwd_dif. rewrite dif_sub. f_equal.
    transitivity (dif s d (fun i => i - ist s)%Z (fun i => - i)%Z (fun q => 0 + mu * u q) p); [apply dif_ext; intros; split; lra|].
    rewrite (dif_lin s d _ _ (fun _ => 0) u mu p).
    replace (dif s d (fun i => i - ist s)%Z (fun i => - i)%Z (fun _ : idx => 0) p) with 0; [lra|].
    unfold dif. rewrite <- (rsum_0 (zrange 1 (half_order s d))). apply rsum_ext. intros; lra. }
  assert (D : div (bwd s) g p = mu * div (bwd s) j_ p - div (bwd s) (curl (bwd s) b) p).
  { unfold div at 1. unfold g. cbn [comp_x comp_y comp_z]. rewrite !X. unfold div. lra. }
  rewrite D, div_curl_bwd. ring.
Qed.
End X.
