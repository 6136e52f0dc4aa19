(** A run of the scheme of any order in vacuum obeys the wave equation of its differences. *)
From Coq Require Import ZArith Reals List Bool Lia Lra.
From Verif Require Import Cxx Num NumRX Grid SpecYee SpecCkc SpecTimeStep GridLemmas CkcWaves TimeStepProofs.
Import ListNotations.
Local Open Scope R_scope.

Section M.
Variable S : stencil.
Definition terms (d : axis) (a b : Z -> Z) : op := flat_map (fun i => [(coef S d i, unit d (a i)); (- coef S d i, unit d (b i))]) (zrange 1 (half_order S d)).
Lemma shift_plus d m p : shift d m p = plus p (unit d m).
Proof. destruct p as [[j k] l], d; unfold unit; cbn [shift plus]; f_equal; try f_equal; lia. Qed.
Lemma terms_ap d a b f p : Sum (half_order S d) (fun i => coef S d i * (f (shift d (a i) p) - f (shift d (b i) p))) = ap (terms d a b) f p.
Proof.
  unfold Sum, terms. induction (zrange 1 (half_order S d)) as [|i l IH]; cbn [map fold_right flat_map app ap]; [reflexivity|].
  rewrite IH, !shift_plus. ring.
Qed.
Definition fop d := terms d (fun i => i) (fun i => ist S - i)%Z.
Definition bop d := terms d (fun i => i - ist S)%Z (fun i => - i)%Z.
Lemma fwd_op d f p : fwd S d f p = ap (fop d) f p. Proof. apply (terms_ap d (fun i => i) (fun i => ist S - i)%Z). Qed.
Lemma bwd_op' d f p : bwd S d f p = ap (bop d) f p. Proof. apply (terms_ap d (fun i => i - ist S)%Z (fun i => - i)%Z). Qed.

Notation Fw := (fwd S). Notation Bw := (bwd S).
Lemma BL d f g k p : Bw d (fun q => f q + k * g q) p = Bw d f p + k * Bw d g p.
Proof. rewrite !bwd_op'. apply ap_lin. Qed.
Lemma FL d f g k p : Fw d (fun q => f q + k * g q) p = Fw d f p + k * Fw d g p.
Proof. rewrite !fwd_op. apply ap_lin. Qed.
Lemma BE d f g p : (forall q, f q = g q) -> Bw d f p = Bw d g p.
Proof. intros. rewrite !bwd_op'. apply ap_ext. intros; auto. Qed.
Lemma FE d f g p : (forall q, f q = g q) -> Fw d f p = Fw d g p.
Proof. intros. rewrite !fwd_op. apply ap_ext. intros; auto. Qed.
Lemma BB d d' f p : Bw d (Bw d' f) p = Bw d' (Bw d f) p.
Proof.
  rewrite !bwd_op'. transitivity (ap (bop d) (ap (bop d') f) p); [apply ap_ext; intros; apply bwd_op'|].
  rewrite ap_comm. apply ap_ext. intros. symmetry. apply bwd_op'.
Qed.
Lemma BK d d' f p : Bw d (Fw d' f) p = Fw d' (Bw d f) p.
Proof.
  rewrite fwd_op, bwd_op'. transitivity (ap (bop d) (ap (fop d') f) p); [apply ap_ext; intros; apply fwd_op|].
  rewrite ap_comm. apply ap_ext. intros. symmetry. apply bwd_op'.
Qed.
Lemma BS d f g p : Bw d (fun q => f q - g q) p = Bw d f p - Bw d g p.
Proof. transitivity (Bw d (fun q => f q + (-1) * g q) p); [apply BE; intros; ring|]. rewrite BL. ring. Qed.

Theorem em_wave c dt (e b : nat -> rfield) : em_run S c dt e b -> (forall p, div Bw (e 0%nat) p = 0) ->
  forall sel : rfield -> idx -> R, In sel [comp_x; comp_y; comp_z] -> wave_run S (c * dt) (fun n => sel (e n)).
Proof.
  intros V0 D0.
  assert (V : forall n p, let r := curl Fw (e n) in let s := curl Bw (b (Datatypes.S n)) in
    comp_x (b (Datatypes.S n)) p = comp_x (b n) p - dt * comp_x r p /\
    comp_y (b (Datatypes.S n)) p = comp_y (b n) p - dt * comp_y r p /\
    comp_z (b (Datatypes.S n)) p = comp_z (b n) p - dt * comp_z r p /\
    comp_x (e (Datatypes.S n)) p = comp_x (e n) p + c ^ 2 * dt * comp_x s p /\
    comp_y (e (Datatypes.S n)) p = comp_y (e n) p + c ^ 2 * dt * comp_y s p /\
    comp_z (e (Datatypes.S n)) p = comp_z (e n) p + c ^ 2 * dt * comp_z s p).
  { intros n p. pose proof (V0 n p) as Q. replace (n + 1)%nat with (Datatypes.S n) in Q by lia. exact Q. }
  assert (Dn : forall n p, div Bw (e n) p = 0).
  { induction n as [|n IH]; intros p; [apply D0|]. rewrite <- (IH p). unfold div.
    rewrite (BE AX (comp_x (e (Datatypes.S n))) (fun q => comp_x (e n) q + c ^ 2 * dt * comp_x (curl Bw (b (Datatypes.S n))) q)) by (intros q; apply (V n q)).
    rewrite (BE AY (comp_y (e (Datatypes.S n))) (fun q => comp_y (e n) q + c ^ 2 * dt * comp_y (curl Bw (b (Datatypes.S n))) q)) by (intros q; apply (V n q)).
    rewrite (BE AZ (comp_z (e (Datatypes.S n))) (fun q => comp_z (e n) q + c ^ 2 * dt * comp_z (curl Bw (b (Datatypes.S n))) q)) by (intros q; apply (V n q)).
    rewrite !BL. cbn [curl comp_x comp_y comp_z]. rewrite !BS. rewrite (BB AY AX), (BB AZ AX), (BB AZ AY). ring. }
  assert (CS : forall d f g h p, Fw d (fun q => f q + g q + h q) p = Fw d f p + Fw d g p + Fw d h p).
  { intros. transitivity (Fw d (fun q => (fun r => f r + 1 * g r) q + 1 * h q) p); [apply FE; intros; ring|]. rewrite !FL. ring. }
  assert (C0 : forall d n p, Fw d (Bw AX (comp_x (e n))) p + Fw d (Bw AY (comp_y (e n))) p + Fw d (Bw AZ (comp_z (e n))) p = 0).
  { intros d n p. rewrite <- CS. rewrite fwd_op.
    transitivity (ap (fop d) (fun _ => 0) p); [apply ap_ext; intros; apply (Dn n)|].
    induction (fop d) as [|[? ?] o IH]; cbn [ap]; [reflexivity | rewrite IH; ring]. }
  intros sel Hsel n p. replace (n + 2)%nat with (Datatypes.S (Datatypes.S n)) by lia. replace (n + 1)%nat with (Datatypes.S n) by lia.
  assert (Cb : forall d (sel : rfield -> idx -> R), (sel = comp_x \/ sel = comp_y \/ sel = comp_z) ->
     Bw d (sel (b (Datatypes.S (Datatypes.S n)))) p = Bw d (sel (b (Datatypes.S n))) p - dt * Bw d (sel (curl Fw (e (Datatypes.S n)))) p).
  { intros d sl Hs. transitivity (Bw d (fun q => sl (b (Datatypes.S n)) q + (- dt) * sl (curl Fw (e (Datatypes.S n))) q) p); [|rewrite BL; ring].
    apply BE. intros q. destruct (V (Datatypes.S n) q) as (B1 & B2 & B3 & _). cbv zeta in B1, B2, B3. destruct Hs as [-> | [-> | ->]]; lra. }
  destruct (V n p) as (_ & _ & _ & X1 & Y1 & Z1). destruct (V (Datatypes.S n) p) as (_ & _ & _ & X2 & Y2 & Z2). cbv zeta in X1, Y1, Z1, X2, Y2, Z2.
  cbn [curl comp_x comp_y comp_z] in X1, Y1, Z1, X2, Y2, Z2.
  rewrite (Cb AY comp_z), (Cb AZ comp_y) in X2 by auto. rewrite (Cb AZ comp_x), (Cb AX comp_z) in Y2 by auto. rewrite (Cb AX comp_y), (Cb AY comp_x) in Z2 by auto.
  cbn [curl comp_x comp_y comp_z] in X2, Y2, Z2. rewrite !BS in X2, Y2, Z2.
  pose proof (C0 AX (Datatypes.S n) p) as Cx. pose proof (C0 AY (Datatypes.S n) p) as Cy. pose proof (C0 AZ (Datatypes.S n) p) as Cz.
  rewrite (BK AY AX), (BK AZ AX) in X2. rewrite (BK AZ AY), (BK AX AY) in Y2. rewrite (BK AX AZ), (BK AY AZ) in Z2.
  unfold laplacian. cbn [In] in Hsel. destruct Hsel as [<- | [<- | [<- | []]]].
  - rewrite (BK AX AX (comp_x (e (Datatypes.S n)))).
    replace (Fw AX (Bw AX (comp_x (e (Datatypes.S n)))) p) with (- (Fw AX (Bw AY (comp_y (e (Datatypes.S n)))) p + Fw AX (Bw AZ (comp_z (e (Datatypes.S n)))) p)) by lra.
    rewrite X2, X1. ring.
  - rewrite (BK AY AY (comp_y (e (Datatypes.S n)))).
    replace (Fw AY (Bw AY (comp_y (e (Datatypes.S n)))) p) with (- (Fw AY (Bw AX (comp_x (e (Datatypes.S n)))) p + Fw AY (Bw AZ (comp_z (e (Datatypes.S n)))) p)) by lra.
    rewrite Y2, Y1. ring.
  - rewrite (BK AZ AZ (comp_z (e (Datatypes.S n)))).
    replace (Fw AZ (Bw AZ (comp_z (e (Datatypes.S n)))) p) with (- (Fw AZ (Bw AX (comp_x (e (Datatypes.S n)))) p + Fw AZ (Bw AY (comp_y (e (Datatypes.S n)))) p)) by lra.
    rewrite Z2, Z1. ring.
Qed.

(** a run that starts with a plane wave stays one *)
Lemma stays cdt kx ky kz phi (F : nat -> idx -> R) a0 a1 : ist S = 1%Z -> wave_run S cdt F ->
  (forall p, F 0%nat p = a0 * plane_wave kx ky kz phi p /\ F 1%nat p = a1 * plane_wave kx ky kz phi p) ->
  exists u, (forall n p, F n p = one_wave kx ky kz phi u n p) /\ wave_run S cdt (one_wave kx ky kz phi u).
Proof.
  intros St W I. set (mu := 4 * cdt ^ 2 * power S kx ky kz).
  set (u := fix u n := match n with O => a0 | Datatypes.S O => a1 | Datatypes.S (Datatypes.S m as n') => 2 * u n' - u m - mu * u n' end).
  assert (Ru : forall n, u (n + 2)%nat - 2 * u (n + 1)%nat + u n = - mu * u (n + 1)%nat).
  { intros n. replace (n + 2)%nat with (Datatypes.S (Datatypes.S n)) by lia. replace (n + 1)%nat with (Datatypes.S n) by lia.
    change (u (Datatypes.S (Datatypes.S n))) with (2 * u (Datatypes.S n) - u n - mu * u (Datatypes.S n)). ring. }
  assert (Wu : wave_run S cdt (one_wave kx ky kz phi u)) by (apply wave_amp; assumption).
  exists u. split; [|exact Wu].
  assert (Q : forall n, (forall p, F n p = one_wave kx ky kz phi u n p) /\ (forall p, F (n + 1)%nat p = one_wave kx ky kz phi u (n + 1)%nat p)).
  { induction n as [|n [H1 H2]]; [split; intros p; apply (I p)|]. replace (Datatypes.S n) with (n + 1)%nat by lia. split; [exact H2|]. intros p.
    replace (n + 1 + 1)%nat with (n + 2)%nat by lia. pose proof (W n p) as A. pose proof (Wu n p) as B. rewrite H1, H2 in A.
    assert (L : laplacian S (F (n + 1)%nat) p = laplacian S (one_wave kx ky kz phi u (n + 1)%nat) p).
    { unfold laplacian. f_equal; [f_equal|]; apply BE; intros; apply FE; exact H2. }
    rewrite L in A. lra. }
  intros n. apply (Q n).
Qed.
End M.

Theorem em_bounded {tg : R -> R} co c hx hy hz cx cy cz W dt0 : 0 < c -> 0 < hx -> 0 < hy -> 0 < hz -> 0 < co ->
  total cx <= W -> total cy <= W -> total cz <= W -> co * W < 1 ->
  exists dt, @TimeStep.time_step (RX tg) 3 false (Fin co) (Fin c) (Fin hx) (Fin hy) (Fin hz) dt0 = Fin dt /\ 0 < dt /\
  forall e b (sel : rfield -> idx -> R) kx ky kz phi a0 a1, let S := any_order false hx hy hz cx cy cz in
  em_run S c dt e b -> (forall p, div (bwd S) (e 0%nat) p = 0) -> In sel [comp_x; comp_y; comp_z] ->
  (forall p, sel (e 0%nat) p = a0 * plane_wave kx ky kz phi p /\ sel (e 1%nat) p = a1 * plane_wave kx ky kz phi p) ->
  (exists p, laplacian S (plane_wave kx ky kz phi) p <> 0) ->
  exists M, forall n p, Rabs (sel (e n) p) <= M.
Proof.
  intros. destruct (bounded3 (tg := tg) co c hx hy hz cx cy cz W dt0) as (dt & E & P & B); try assumption.
  exists dt. split; [exact E|]. split; [exact P|]. intros e b sel kx ky kz phi a0 a1 S V D0 Hs I L.
  destruct (stays S (c * dt) kx ky kz phi (fun n => sel (e n)) a0 a1 eq_refl (em_wave S c dt e b V D0 sel Hs) I) as (u & Eu & Wu).
  destruct (B kx ky kz phi u L Wu) as [M HM]. exists M. intros n p. rewrite Eu. apply HM.
Qed.

(** ** a run with a wave *)
Section Run.
Variables (S : stencil) (c dt : R) (e0 b0 : rfield).
Fixpoint em_states (n : nat) : rfield * rfield :=
  match n with
  | O => (e0, b0)
  | Datatypes.S m => let (e, b) := em_states m in
    let r := curl (fwd S) e in
    let b' := RField (fun p => comp_x b p - dt * comp_x r p) (fun p => comp_y b p - dt * comp_y r p) (fun p => comp_z b p - dt * comp_z r p) in
    let s := curl (bwd S) b' in
    (RField (fun p => comp_x e p + c ^ 2 * dt * comp_x s p) (fun p => comp_y e p + c ^ 2 * dt * comp_y s p) (fun p => comp_z e p + c ^ 2 * dt * comp_z s p), b')
  end.
Lemma em_states_run : em_run S c dt (fun n => fst (em_states n)) (fun n => snd (em_states n)).
Proof. intros n p. replace (n + 1)%nat with (Datatypes.S n) by lia. cbn [em_states]. destruct (em_states n) as [e b]. cbn [fst snd comp_x comp_y comp_z]. repeat split. Qed.
End Run.
Lemma em_case S kx ky c dt : ist S = 1%Z -> exists e b a1, em_run S c dt e b /\ (forall p, div (bwd S) (e 0%nat) p = 0) /\
  forall p, comp_z (e 0%nat) p = 1 * plane_wave kx ky 0 0 p /\ comp_z (e 1%nat) p = a1 * plane_wave kx ky 0 0 p.
Proof.
  intros St. set (w := plane_wave kx ky 0 0). set (z := fun _ : idx => 0).
  set (e0 := RField z z w). set (b0 := RField z z z).
  exists (fun n => fst (em_states S c dt e0 b0 n)), (fun n => snd (em_states S c dt e0 b0 n)), (1 - 4 * (c * dt) ^ 2 * power S kx ky 0).
  assert (Zf : forall d q, fwd S d z q = 0) by (intros; rewrite fwd_op; induction (fop S d) as [|[? ?] o IH]; cbn [ap]; [reflexivity | rewrite IH; unfold z; ring]).
  assert (Zb : forall d q, bwd S d z q = 0) by (intros; rewrite (bwd_scal S d z z 0 q); [ring | intros; unfold z; ring]).
  assert (S0 : symbol S AZ 0 = 0).
  { unfold symbol. rewrite (TimeStepProofs.Sum_ext _ _ (fun i => 0 * 0)); [rewrite TimeStepProofs.Sum_scal; ring|]. intros. replace (0 * (2 * IZR i - 1) / 2) with 0 by field. rewrite sin_0. ring. }
  split; [apply em_states_run|]. split.
  - intros p. cbn [em_states fst]. unfold div, e0. cbn [comp_x comp_y comp_z]. rewrite !Zb.
    assert (H : bwd S AZ w p = 0).
    { unfold bwd, w. rewrite (TimeStepProofs.Sum_ext _ _ (fun i => 0 * 0)); [rewrite TimeStepProofs.Sum_scal; ring|].
      intros i _. unfold plane_wave. rewrite !wave_shift. cbn [kof]. rewrite !Rmult_0_l. ring. }
    rewrite H. ring.
  - intros p. split; [cbn [em_states fst]; unfold e0; cbn [comp_z]; fold w; ring|].
    pose proof (laplacian_wave S St kx ky 0 0 p) as L. fold w in L. unfold laplacian in L.
    assert (Bz : bwd S AZ (fwd S AZ w) p = 0).
    { unfold w. rewrite (bwd_sin S St kx ky 0 0 AZ p _ _ (fun q => fwd_cos S St kx ky 0 0 AZ q)). cbn [kof]. rewrite S0. ring. }
    rewrite Bz in L. cbn [em_states fst]. unfold e0, b0. cbn [curl comp_x comp_y comp_z].
    rewrite (bwd_scal S AX (fwd S AX w) _ dt p) by (intros q; rewrite Zf; unfold z; ring).
    rewrite (bwd_scal S AY (fwd S AY w) _ (- dt) p) by (intros q; rewrite Zf; unfold z; ring).
    fold w. transitivity (w p + (c * dt) ^ 2 * (bwd S AX (fwd S AX w) p + bwd S AY (fwd S AY w) p + 0)); [ring|]. rewrite L. ring.
Qed.
