(** Proofs about Yee.v. *)
From Coq Require Import ZArith Reals List Bool Lia Lra Permutation.
From Verif Require Import Cxx Num NumRX Fortran Grid Pushers Yee SpecYee CxxLemmas RXLemmas FortranLemmas GridLemmas YeeReal.
Import ListNotations.
Local Open Scope Z_scope.

(** ** every kernel updates only its own element and only returns or runs out of bounds *)
Section Generic.
Context {N : NumOps}.

Definition cl {A} (m : out A) : Prop := (exists y, m = Ret y) \/ m = UB.
Lemma cl_ret {A} (a : A) : cl (Ret a). Proof. left; eauto. Qed.
Lemma cl_bind {A B} (m : out A) (k : A -> out B) : cl m -> (forall a, cl (k a)) -> cl (do x <- m; k x).
Proof. intros [(y & ->)| ->] H; cbn; [apply H | right; reflexivity]. Qed.
Lemma cl_get3 {A} (g : grid A) p : cl (get3 g p).
Proof. unfold get3. destruct (in_box _ _ _); [apply cl_ret | right; reflexivity]. Qed.
Lemma cl_get1 {A} (l : list A) i : cl (get1 l i).
Proof. unfold get1. destruct (zget_cases l (i - 1)) as [(a & _ & _ & ->)|[_ ->]]; [apply cl_ret | right; reflexivity]. Qed.
Lemma cl_diff (b : grid (num N)) p q : cl (diff b p q).
Proof. unfold diff. apply cl_bind; [apply cl_get3|]. intros x. apply cl_bind; [apply cl_get3|]. intros y. apply cl_ret. Qed.

Definition ok_at (p : idx) (ss : list (stmt (num N))) : Prop := forall s, In s ss -> fst s = p /\ clean s.
Definition ok_body (body : idx -> list (stmt (num N))) : Prop := forall p, ok_at p (body p).

Lemma ok_local body : ok_body body -> local body.
Proof. intros H p s Hs. apply (H p s Hs). Qed.
Lemma ok_clean body : ok_body body -> forall p, Forall clean (body p).
Proof. intros H p. apply Forall_forall. intros s Hs. apply (H p s Hs). Qed.

Lemma ok_nil p : ok_at p []. Proof. intros s []. Qed.
Lemma ok_cons p f ss : (forall x, cl (f x)) -> ok_at p ss -> ok_at p ((p, f) :: ss).
Proof. intros H1 H2 s [<-|Hs]; [split; [reflexivity | intros x; apply H1] | apply H2; exact Hs]. Qed.
Lemma ok_app p s1 s2 : ok_at p s1 -> ok_at p s2 -> ok_at p (s1 ++ s2).
Proof. intros H1 H2 s Hs. apply in_app_iff in Hs. destruct Hs; auto. Qed.
Lemma ok_stmts p n f : (forall i x, cl (f i x)) -> ok_at p (stmts p n f).
Proof.
  intros H s Hs. unfold stmts in Hs. apply in_map_iff in Hs. destruct Hs as (i & <- & _).
  split; [reflexivity | intros x; apply H].
Qed.
Lemma ok_stmts_in p n bot top lo hi f : (forall i x, cl (f i x)) -> ok_at p (stmts_in p n bot top lo hi f).
Proof.
  intros H s Hs. unfold stmts_in in Hs. apply in_flat_map in Hs. destruct Hs as (i & _ & Hs).
  destruct (_ || _) in Hs; [destruct Hs|]. destruct Hs as [<-|[]]. split; [reflexivity|]. intros x. apply H.
Qed.
Lemma cl_plus c b i p q x : cl (plus_term c b i p q x : out (num N)).
Proof. unfold plus_term. apply cl_bind; [apply cl_get1|]. intros w. apply cl_bind; [apply cl_diff|]. intros d. apply cl_ret. Qed.
Lemma cl_minus c b i p q x : cl (minus_term c b i p q x : out (num N)).
Proof. unfold minus_term. apply cl_bind; [apply cl_get1|]. intros w. apply cl_bind; [apply cl_diff|]. intros d. apply cl_ret. Qed.

Ltac cleanup := repeat first
  [ apply cl_ret | apply cl_diff | apply cl_get3 | apply cl_get1 | apply cl_plus | apply cl_minus
  | (apply cl_bind; [|intros]) ].
Ltac kernel f := intros [[j k] l]; cbv beta delta [f] iota; unfold cur_term;
  repeat first [apply ok_nil | apply ok_app | apply ok_cons | (apply ok_stmts; intros) | (apply ok_stmts_in; intros) | progress cleanup | intros].

Lemma ok_e3_ex B J m y z : ok_body (e3_ex B J m y z). Proof. kernel @e3_ex. Qed.
Lemma ok_e3_ey B J m y z : ok_body (e3_ey B J m y z). Proof. kernel @e3_ey. Qed.
Lemma ok_e3_ez B J m y z : ok_body (e3_ez B J m y z). Proof. kernel @e3_ez. Qed.
Lemma ok_b3_bx E y z : ok_body (b3_bx E y z). Proof. kernel @b3_bx. Qed.
Lemma ok_b3_by E y z : ok_body (b3_by E y z). Proof. kernel @b3_by. Qed.
Lemma ok_b3_bz E y z : ok_body (b3_bz E y z). Proof. kernel @b3_bz. Qed.
Lemma ok_en_ex S B J m y z : ok_body (en_ex S B J m y z). Proof. kernel @en_ex. Qed.
Lemma ok_en_ey S B J m y z : ok_body (en_ey S B J m y z). Proof. kernel @en_ey. Qed.
Lemma ok_en_ez S B J m y z : ok_body (en_ez S B J m y z). Proof. kernel @en_ez. Qed.
Lemma ok_bn_bx S E y z : ok_body (bn_bx S E y z). Proof. kernel @bn_bx. Qed.
Lemma ok_bn_by S E y z : ok_body (bn_by S E y z). Proof. kernel @bn_by. Qed.
Lemma ok_bn_bz S E y z : ok_body (bn_bz S E y z). Proof. kernel @bn_bz. Qed.
Lemma ok_e2_ex B J m z : ok_body (e2_ex B J m z). Proof. kernel @e2_ex. Qed.
Lemma ok_e2_ey B J m y z : ok_body (e2_ey B J m y z). Proof. kernel @e2_ey. Qed.
Lemma ok_e2_ez B J m z : ok_body (e2_ez B J m z). Proof. kernel @e2_ez. Qed.
Lemma ok_b2_bx E z : ok_body (b2_bx E z). Proof. kernel @b2_bx. Qed.
Lemma ok_b2_by E y z : ok_body (b2_by E y z). Proof. kernel @b2_by. Qed.
Lemma ok_b2_bz E z : ok_body (b2_bz E z). Proof. kernel @b2_bz. Qed.
Lemma ok_en2_ex S B J m z : ok_body (en2_ex S B J m z). Proof. kernel @en2_ex. Qed.
Lemma ok_en2_ey S B J m y z : ok_body (en2_ey S B J m y z). Proof. kernel @en2_ey. Qed.
Lemma ok_en2_ez S B J m z : ok_body (en2_ez S B J m z). Proof. kernel @en2_ez. Qed.
Lemma ok_bn2_bx S E z : ok_body (bn2_bx S E z). Proof. kernel @bn2_bx. Qed.
Lemma ok_bn2_by S E y z : ok_body (bn2_by S E y z). Proof. kernel @bn2_by. Qed.
Lemma ok_bn2_bz S E z : ok_body (bn2_bz S E z). Proof. kernel @bn2_bz. Qed.
Lemma ok_f3_ex F z : ok_body (f3_ex F z). Proof. kernel @f3_ex. Qed.
Lemma ok_f3_ey F z : ok_body (f3_ey F z). Proof. kernel @f3_ey. Qed.
Lemma ok_f3_ez F z : ok_body (f3_ez F z). Proof. kernel @f3_ez. Qed.
Lemma ok_le_ex S B J m y z : ok_body (le_ex S B J m y z). Proof. kernel @le_ex. Qed.
Lemma ok_le_ey S B J m y z : ok_body (le_ey S B J m y z). Proof. kernel @le_ey. Qed.
Lemma ok_le_ez S B J m y z : ok_body (le_ez S B J m y z). Proof. kernel @le_ez. Qed.
Lemma ok_lb_bx S E y z : ok_body (lb_bx S E y z). Proof. kernel @lb_bx. Qed.
Lemma ok_lb_by S E y z : ok_body (lb_by S E y z). Proof. kernel @lb_by. Qed.
Lemma ok_lb_bz S E y z : ok_body (lb_bz S E y z). Proof. kernel @lb_bz. Qed.

Definition seq3 (kx ky kz : kernel (num N)) (F : field (num N)) : out (field (num N)) :=
  do x <- loop3 (fst (fst kx)) (snd (fst kx)) (snd kx) (fx F);
  do y <- loop3 (fst (fst ky)) (snd (fst ky)) (snd ky) (fy F);
  do z <- loop3 (fst (fst kz)) (snd (fst kz)) (snd kz) (fz F); Ret (Field3 x y z).

Lemma omp_seq kx ky kz F r : ok_body (snd kx) -> ok_body (snd ky) -> ok_body (snd kz) ->
  omp_outcome kx ky kz F r -> same_field_out r (seq3 kx ky kz F).
Proof.
  intros Hx Hy Hz (sx & sy & sz & Ox & Oy & Oz & ->). unfold seq3.
  pose proof (omp_any _ _ _ _ (fx F) (ok_local _ Hx) (ok_clean _ Hx) Ox) as Ax.
  pose proof (omp_any _ _ _ _ (fy F) (ok_local _ Hy) (ok_clean _ Hy) Oy) as Ay.
  pose proof (omp_any _ _ _ _ (fz F) (ok_local _ Hz) (ok_clean _ Hz) Oz) as Az.
  destruct (exec sx (fx F)), (loop3 _ _ _ (fx F)); cbn in Ax; try contradiction; cbn; auto.
  destruct (exec sy (fy F)), (loop3 _ _ _ (fy F)); cbn in Ay; try contradiction; cbn; auto.
  destruct (exec sz (fz F)), (loop3 _ _ _ (fz F)); cbn in Az; try contradiction; cbn; auto.
Qed.

(** the frame of a loop *)
Lemma loop_frame lo hi body (g g' : grid (num N)) : ok_body body -> loop3 lo hi body g = Ret g' ->
  glo g' = glo g /\ ghi g' = ghi g /\ forall p, in_box lo hi p = false -> gat g' p = gat g p.
Proof.
  intros H E. destruct (loop3_sound _ _ _ _ _ (ok_local _ H) E) as (A & B & C).
  repeat split; [exact A | exact B |]. intros p. apply C.
Qed.
End Generic.
