(** Proofs about pxrpush_em3d_evec_f in exact arithmetic. *)
From Coq Require Import ZArith Reals List Bool Lia Lra.
From Verif Require Import Cxx Num NumRX Fortran Grid Pushers Yee SpecYee SpecSolver SpecLibrary CxxLemmas RXLemmas FortranLemmas GridLemmas YeeReal YeeProofs YeePush YeeDiv.
Import ListNotations.
Local Open Scope R_scope.

Section X.
Context {tg : R -> R}.
Notation N := (RX tg).
Notation gridX := (grid (num N)).
Notation fieldX := (field (num N)).

(** the curl of a gradient *)
Lemma curl_grad s (f : idx -> R) p :
  comp_x (curl (fwd s) (grad (fwd s) f)) p = 0 /\ comp_y (curl (fwd s) (grad (fwd s) f)) p = 0 /\ comp_z (curl (fwd s) (grad (fwd s) f)) p = 0.
Proof.
  cbn [curl grad comp_x comp_y comp_z].
  assert (Q : forall d d', d <> d' -> fwd s d (fwd s d' f) p = fwd s d' (fwd s d f) p).
  { intros d d' D. rewrite !fwd_dif.
    transitivity (dif s d (fun i => i) (fun i => ist s - i)%Z (fun x => dif s d' (fun i => i) (fun i => ist s - i)%Z f x) p).
    - apply dif_ext. intros; split; apply fwd_dif.
    - rewrite dif_comm by exact D. apply dif_ext. intros; split; symmetry; apply fwd_dif. }
  rewrite (Q AY AZ), (Q AZ AX), (Q AX AY) by discriminate. repeat split; ring.
Qed.

Theorem cleaning xlo xhi ylo yhi zlo zhi (E : fieldX) (F : gridX) L H LF HF e f kappa hx hy hz :
  holds_field E L H e -> is_grid F LF HF f -> hx <> 0 -> hy <> 0 -> hz <> 0 ->
  (forall p, in_box xlo xhi p = true -> in_box L H p = true /\ in_box LF HF p = true /\ in_box LF HF (shift AX 1 p) = true) ->
  (forall p, in_box ylo yhi p = true -> in_box L H p = true /\ in_box LF HF p = true /\ in_box LF HF (shift AY 1 p) = true) ->
  (forall p, in_box zlo zhi p = true -> in_box L H p = true /\ in_box LF HF p = true /\ in_box LF HF (shift AZ 1 p) = true) ->
  exists E' e', pxrpush_em3d_evec_f xlo xhi ylo yhi zlo zhi E F (Fin (kappa / hx) : num N) (Fin (kappa / hy) : num N) (Fin (kappa / hz) : num N) = Ret E' /\
    holds_field E' L H e' /\
    let g := grad (fwd (yee hx hy hz)) f in
    (forall p, comp_x e' p = (if in_box xlo xhi p then comp_x e p + kappa * comp_x g p else comp_x e p) /\
               comp_y e' p = (if in_box ylo yhi p then comp_y e p + kappa * comp_y g p else comp_y e p) /\
               comp_z e' p = (if in_box zlo zhi p then comp_z e p + kappa * comp_z g p else comp_z e p)).
Proof.
  intros (Ex & Ey & Ez) GF Nx Ny Nz Ix Iy Iz. unfold pxrpush_em3d_evec_f.
  destruct (loop_real xlo xhi (f3_ex F (Fin (kappa / hx) : num N)) (fx E) L H (comp_x e) (fun p => comp_x e p + kappa * fwd (yee hx hy hz) AX f p) (ok_f3_ex F _) Ex) as (ex & Rx & Vx).
  { intros p I. destruct (Ix p I) as (I1 & I2 & I3). split; [exact I1|]. rewrite fwd_yee. destruct p as [[j k] l]. unfold f3_ex. cbn [map snd run shift] in *.
    rewrite (grid_diff F LF HF f _ _ GF I3 I2). cbn [bind]. f_equal. cbn. f_equal. field; assumption. }
  rewrite Rx. cbn [bind].
  destruct (loop_real ylo yhi (f3_ey F (Fin (kappa / hy) : num N)) (fy E) L H (comp_y e) (fun p => comp_y e p + kappa * fwd (yee hx hy hz) AY f p) (ok_f3_ey F _) Ey) as (ey & Ry & Vy).
  { intros p I. destruct (Iy p I) as (I1 & I2 & I3). split; [exact I1|]. rewrite fwd_yee. destruct p as [[j k] l]. unfold f3_ey. cbn [map snd run shift] in *.
    rewrite (grid_diff F LF HF f _ _ GF I3 I2). cbn [bind]. f_equal. cbn. f_equal. field; assumption. }
  rewrite Ry. cbn [bind].
  destruct (loop_real zlo zhi (f3_ez F (Fin (kappa / hz) : num N)) (fz E) L H (comp_z e) (fun p => comp_z e p + kappa * fwd (yee hx hy hz) AZ f p) (ok_f3_ez F _) Ez) as (ez & Rz & Vz).
  { intros p I. destruct (Iz p I) as (I1 & I2 & I3). split; [exact I1|]. rewrite fwd_yee. destruct p as [[j k] l]. unfold f3_ez. cbn [map snd run shift] in *.
    rewrite (grid_diff F LF HF f _ _ GF I3 I2). cbn [bind]. f_equal. cbn. f_equal. field; assumption. }
  rewrite Rz. cbn [bind]. eexists. eexists (RField _ _ _). split; [reflexivity|]. split; [split; [exact Vx|]; split; [exact Vy | exact Vz]|].
  cbn zeta. intros p. cbn [comp_x comp_y comp_z grad]. repeat split.
Qed.

(** with one box for the three components: what the curl and the divergence become *)
Theorem cleaning_div s (lo hi : idx) (e e' : rfield) f kappa :
  (0 <= ist s <= 1)%Z ->
  (forall p, in_box lo hi p = true -> comp_x e' p = comp_x e p + kappa * comp_x (grad (fwd s) f) p /\
     comp_y e' p = comp_y e p + kappa * comp_y (grad (fwd s) f) p /\ comp_z e' p = comp_z e p + kappa * comp_z (grad (fwd s) f) p) ->
  forall p, (reaches (fun d => ist s - half_order s d)%Z (half_order s) lo hi p ->
     comp_x (curl (fwd s) e') p = comp_x (curl (fwd s) e) p /\ comp_y (curl (fwd s) e') p = comp_y (curl (fwd s) e) p /\
     comp_z (curl (fwd s) e') p = comp_z (curl (fwd s) e) p) /\
   (reaches (fun d => - half_order s d)%Z (fun d => half_order s d - ist s)%Z lo hi p ->
     div (bwd s) e' p = div (bwd s) e p + kappa * div (bwd s) (grad (fwd s) f) p).
Proof.
  intros Hi U p.
  split; intros Re.
  - assert (X : forall d (u u' v : idx -> R), (forall q, in_box lo hi q = true -> u' q = u q + kappa * v q) -> fwd s d u' p = fwd s d u p + kappa * fwd s d v p).
    { intros d u u' v Hu. rewrite !fwd_dif, <- dif_lin. apply dif_ext. intros i Hk. split; apply Hu; apply Re; lia. }
    destruct (curl_grad s f p) as (C1 & C2 & C3). cbn [curl comp_x comp_y comp_z] in *.
    rewrite !(X _ (comp_x e) (comp_x e') (comp_x (grad (fwd s) f))) by (intros q I; apply (U q I)).
    rewrite !(X _ (comp_y e) (comp_y e') (comp_y (grad (fwd s) f))) by (intros q I; apply (U q I)).
    rewrite !(X _ (comp_z e) (comp_z e') (comp_z (grad (fwd s) f))) by (intros q I; apply (U q I)).
    repeat split; [clear C2 C3|clear C1 C3|clear C1 C2]; nra.
  - rewrite (div_bwd_update s lo hi p e e' (grad (fwd s) f) (- kappa) Re Hi); [ring|].
    intros q I. destruct (U q I) as (U1 & U2 & U3). rewrite U1, U2, U3. repeat split; ring.
Qed.

Theorem cleaning_longitudinal lo hi (E : fieldX) (F : gridX) L H LF HF e f kappa hx hy hz :
  holds_field E L H e -> is_grid F LF HF f -> hx <> 0 -> hy <> 0 -> hz <> 0 ->
  (forall p, in_box lo hi p = true -> in_box L H p = true /\ in_box LF HF p = true /\ forall d, in_box LF HF (shift d 1 p) = true) ->
  let s := yee hx hy hz in
  exists E' e', pxrpush_em3d_evec_f lo hi lo hi lo hi E F (Fin (kappa / hx) : num N) (Fin (kappa / hy) : num N) (Fin (kappa / hz) : num N) = Ret E' /\
    holds_field E' L H e' /\
    forall p,
      ((forall d, in_box lo hi p = true /\ in_box lo hi (shift d 1 p) = true) ->
        comp_x (curl (fwd s) e') p = comp_x (curl (fwd s) e) p /\ comp_y (curl (fwd s) e') p = comp_y (curl (fwd s) e) p /\
        comp_z (curl (fwd s) e') p = comp_z (curl (fwd s) e) p) /\
      ((forall d, in_box lo hi p = true /\ in_box lo hi (shift d (-1) p) = true) ->
        div (bwd s) e' p = div (bwd s) e p + kappa * div (bwd s) (grad (fwd s) f) p).
Proof.
  intros HE HF' Nx Ny Nz I s.
  destruct (cleaning lo hi lo hi lo hi E F L H LF HF e f kappa hx hy hz HE HF' Nx Ny Nz) as (E' & e' & R & V & U).
  1-3: intros p Ip; destruct (I p Ip) as (A & B & C); repeat split; auto.
  exists E', e'. split; [exact R|]. split; [exact V|]. intros p.
  assert (Sh : forall d, shift d 0 p = p) by (intros []; destruct p as [[j k] l]; cbn [shift]; rewrite Z.add_0_r; reflexivity).
  destruct (cleaning_div s lo hi e e' f kappa) with (p := p) as [C D].
  - cbn; lia.
  - intros r Ir. destruct (U r) as (U1 & U2 & U3). rewrite Ir in U1, U2, U3. auto.
  - split; intros K; [apply C | apply D]; intros d m Hm; destruct (K d) as [K1 K2]; cbn in Hm.
    + assert (m = 0 \/ m = 1)%Z as [-> | ->] by lia; [rewrite Sh|]; assumption.
    + assert (m = 0 \/ m = -1)%Z as [-> | ->] by lia; [rewrite Sh|]; assumption.
Qed.
End X.
