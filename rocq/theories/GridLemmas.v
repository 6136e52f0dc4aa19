(** Facts about the loops of [Grid.v]. *)
From Coq Require Import ZArith List Bool Permutation Lia.
From Verif Require Import Cxx Grid.
Import ListNotations.
Local Open Scope Z_scope.

Lemma idx_eqb_eq p q : idx_eqb p q = true <-> p = q.
Proof.
  destruct p as [[a b] c], q as [[j k] l]; cbn. rewrite !andb_true_iff, !Z.eqb_eq.
  split; [intros [[-> ->] ->]; reflexivity | intros [= -> -> ->]; auto].
Qed.
Lemma idx_eqb_refl p : idx_eqb p p = true.
Proof. apply idx_eqb_eq; reflexivity. Qed.
Lemma idx_eqb_neq p q : idx_eqb p q = false <-> p <> q.
Proof.
  split; intros H.
  - intros E. apply idx_eqb_eq in E. congruence.
  - destruct (idx_eqb p q) eqn:E; [|reflexivity]. apply idx_eqb_eq in E. congruence.
Qed.

Lemma idx_dec (p q : idx) : {p = q} + {p <> q}.
Proof. destruct (idx_eqb p q) eqn:E; [left; apply idx_eqb_eq; exact E | right; apply idx_eqb_neq; exact E]. Qed.

Lemma in_box_iff a1 a2 a3 b1 b2 b3 j k l :
  in_box (a1, a2, a3) (b1, b2, b3) (j, k, l) = true <-> a1 <= j <= b1 /\ a2 <= k <= b2 /\ a3 <= l <= b3.
Proof. cbn. rewrite !andb_true_iff, !Z.leb_le. lia. Qed.

Lemma NoDup_l {A} (a b : list A) : NoDup (a ++ b) -> NoDup a.
Proof.
  induction a as [|x a IH]; intros H; [constructor|]. cbn in H. inversion H; subst. constructor.
  - intros F. apply H2. rewrite in_app_iff. auto.
  - auto.
Qed.
Lemma NoDup_r {A} (a b : list A) : NoDup (a ++ b) -> NoDup b.
Proof. induction a as [|x a IH]; intros H; [exact H|]. cbn in H. inversion H; subst. auto. Qed.

Lemma in_zrange i lo hi : In i (zrange lo hi) <-> lo <= i <= hi.
Proof.
  unfold zrange, zseq. rewrite in_map_iff. split.
  - intros (x & <- & H). rewrite in_map_iff in H. destruct H as (n & <- & Hn). rewrite in_seq in Hn. lia.
  - intros H. exists (i - lo). split; [lia|]. rewrite in_map_iff. exists (Z.to_nat (i - lo)).
    split; [lia|]. rewrite in_seq. lia.
Qed.
Lemma NoDup_zrange lo hi : NoDup (zrange lo hi).
Proof.
  unfold zrange, zseq. rewrite map_map.
  apply FinFun.Injective_map_NoDup; [intros x y; lia | apply seq_NoDup].
Qed.

Lemma zrange_cons lo hi : lo <= hi -> zrange lo hi = lo :: zrange (lo + 1) hi.
Proof.
  intros H. unfold zrange, zseq. replace (Z.to_nat (hi - lo + 1)) with (S (Z.to_nat (hi - (lo + 1) + 1))) by lia.
  cbn [seq map]. f_equal; [lia|]. rewrite <- seq_shift, !map_map. apply map_ext. intros a. lia.
Qed.
Lemma zrange_nil lo hi : hi < lo -> zrange lo hi = [].
Proof. intros H. unfold zrange. replace (Z.to_nat (hi - lo + 1)) with O by lia. reflexivity. Qed.
Lemma zrange_snoc lo hi : lo <= hi + 1 -> zrange lo (hi + 1) = zrange lo hi ++ [hi + 1].
Proof.
  intros H. unfold zrange, zseq. replace (Z.to_nat (hi + 1 - lo + 1)) with (S (Z.to_nat (hi - lo + 1))) by lia.
  rewrite seq_S, !map_app. cbn [map]. f_equal. f_equal. lia.
Qed.

Lemma in_box_box lo hi p : In p (box lo hi) <-> in_box lo hi p = true.
Proof.
  destruct lo as [[a1 a2] a3], hi as [[b1 b2] b3], p as [[j k] l]. rewrite in_box_iff. unfold box.
  rewrite in_flat_map. split.
  - intros (l' & Hl & H). rewrite in_flat_map in H. destruct H as (k' & Hk & H). rewrite in_map_iff in H.
    destruct H as (j' & [= -> -> ->] & Hj). rewrite in_zrange in *. auto.
  - intros (Hj & Hk & Hl). exists l. rewrite in_zrange. split; [lia|]. rewrite in_flat_map. exists k.
    rewrite in_zrange. split; [lia|]. rewrite in_map_iff. exists j. rewrite in_zrange. auto.
Qed.

Lemma NoDup_flat_map {A B} (f : A -> list B) l :
  NoDup l -> (forall a, In a l -> NoDup (f a)) ->
  (forall a b x, In a l -> In b l -> In x (f a) -> In x (f b) -> a = b) -> NoDup (flat_map f l).
Proof.
  induction l as [|a l IH]; intros ND H1 H2; [constructor|]. cbn. inversion ND as [|x y Hn ND']; subst.
  assert (N2 : NoDup (flat_map f l)).
  { apply IH; [assumption | intros; apply H1; right; assumption | intros; eapply H2; eauto; right; assumption]. }
  assert (N1 : NoDup (f a)) by (apply H1; left; reflexivity).
  assert (D : forall x, In x (f a) -> ~ In x (flat_map f l)).
  { intros x Hx Hy. rewrite in_flat_map in Hy. destruct Hy as (b & Hb & Hy).
    apply Hn. rewrite (H2 a b x); [assumption | left; reflexivity | right; assumption | assumption | assumption]. }
  clear - N1 N2 D. induction (f a) as [|y t IHt]; [exact N2|].
  inversion N1; subst. cbn. constructor.
  - rewrite in_app_iff. intros [F|F]; [contradiction|]. eapply D; [left; reflexivity | exact F].
  - apply IHt; [assumption | intros x Hx; apply D; right; exact Hx].
Qed.

Lemma NoDup_box lo hi : NoDup (box lo hi).
Proof.
  destruct lo as [[a1 a2] a3], hi as [[b1 b2] b3]. unfold box. apply NoDup_flat_map.
  - apply NoDup_zrange.
  - intros l _. apply NoDup_flat_map; [apply NoDup_zrange | |].
    + intros k _. apply FinFun.Injective_map_NoDup; [intros x y [=]; assumption | apply NoDup_zrange].
    + intros k k' x _ _ H1 H2. rewrite in_map_iff in *. destruct H1 as (j & <- & _), H2 as (j' & [=] & _). auto.
  - intros l l' x _ _ H1 H2. rewrite in_flat_map in *. destruct H1 as (k & _ & H1), H2 as (k' & _ & H2).
    rewrite in_map_iff in *. destruct H1 as (j & <- & _), H2 as (j' & [=] & _). auto.
Qed.

Section S.
Context {A : Type}.

(** the statements executed on one element, one after the other *)
Fixpoint run (fs : list (A -> out A)) (x : A) : out A :=
  match fs with [] => Ret x | f :: fs' => do y <- f x; run fs' y end.
Definition on (p : idx) (ss : list (stmt A)) : list (A -> out A) :=
  map snd (filter (fun s => idx_eqb (fst s) p) ss).

Lemma run_app f g x : run (f ++ g) x = do y <- run f x; run g y.
Proof.
  revert x. induction f as [|a f IH]; intros x; [reflexivity|]. cbn. destruct (a x); cbn; [apply IH | | |]; reflexivity.
Qed.

Lemma on_app p s t : on p (s ++ t) = on p s ++ on p t.
Proof. unfold on. rewrite filter_app, map_app. reflexivity. Qed.

Lemma get_in (g : grid A) p : in_box (glo g) (ghi g) p = true -> get3 g p = Ret (gat g p).
Proof. unfold get3. intros ->. reflexivity. Qed.

Lemma exec_complete ss : forall (g : grid A) (v : idx -> A),
  (forall s, In s ss -> in_box (glo g) (ghi g) (fst s) = true) ->
  (forall p, run (on p ss) (gat g p) = Ret (v p)) ->
  exists g', exec ss g = Ret g' /\ glo g' = glo g /\ ghi g' = ghi g /\ forall p, gat g' p = v p.
Proof.
  induction ss as [|[q f] ss IH]; intros g v HB HR.
  - exists g. repeat split. intros p. specialize (HR p). cbn in HR. congruence.
  - cbn. unfold exec1. cbn.
    assert (Iq : in_box (glo g) (ghi g) q = true) by (apply (HB (q, f)); left; reflexivity).
    rewrite get_in by exact Iq. cbn.
    pose proof (HR q) as Hq. unfold on in Hq. cbn in Hq. rewrite idx_eqb_refl in Hq. cbn in Hq.
    destruct (f (gat g q)) as [y| | |] eqn:F; cbn in Hq; try discriminate.
    cbn. unfold set3. rewrite Iq. cbn.
    edestruct (IH (Grid (glo g) (ghi g) (fun p => if idx_eqb q p then y else gat g p)) v) as (g' & E & L & H & V).
    + intros s Hs. apply (HB s). right; exact Hs.
    + intros p. cbn. destruct (idx_eqb q p) eqn:Eq.
      * apply idx_eqb_eq in Eq. subst p. exact Hq.
      * specialize (HR p). unfold on in HR. cbn in HR. rewrite Eq in HR. exact HR.
    + exists g'. rewrite E. cbn in L, H. auto.
Qed.

Lemma exec_sound ss : forall (g g' : grid A), exec ss g = Ret g' ->
  glo g' = glo g /\ ghi g' = ghi g /\ (forall s, In s ss -> in_box (glo g) (ghi g) (fst s) = true) /\
  forall p, run (on p ss) (gat g p) = Ret (gat g' p).
Proof.
  induction ss as [|[q f] ss IH]; intros g g' E.
  - cbn in E. injection E as <-. repeat split. intros s [].
  - cbn in E. unfold exec1 in E. cbn in E. unfold get3 in E.
    destruct (in_box (glo g) (ghi g) q) eqn:Iq; cbn in E; [|discriminate].
    destruct (f (gat g q)) as [y| | |] eqn:F; cbn in E; try discriminate.
    unfold set3 in E. rewrite Iq in E. cbn in E. apply IH in E. cbn in E. destruct E as (L & H & B & R).
    repeat split; [exact L | exact H | | ].
    + intros s [<-|Hs]; [exact Iq | apply B; exact Hs].
    + intros p. specialize (R p). unfold on. cbn. destruct (idx_eqb q p) eqn:Eq.
      * apply idx_eqb_eq in Eq. subst p. cbn. rewrite F. cbn. exact R.
      * exact R.
Qed.

(** statements which either work or are undefined behaviour *)
Definition clean (s : stmt A) : Prop := forall x, (exists y, snd s x = Ret y) \/ snd s x = UB.

Lemma exec_clean ss : Forall clean ss -> forall g, (exists g', exec ss g = Ret g') \/ exec ss g = UB.
Proof.
  induction 1 as [|[q f] ss C _ IH]; intros g; [left; eexists; reflexivity|].
  cbn. unfold exec1. cbn. unfold get3. destruct (in_box (glo g) (ghi g) q) eqn:I; [|right; reflexivity].
  cbn. destruct (C (gat g q)) as [(y & Hy)|Hy]; cbn in Hy; rewrite Hy; cbn; [|right; reflexivity].
  unfold set3. rewrite I. cbn. apply IH.
Qed.

(** two executions with the same statements on every element have the same outcome *)
Definition same_out (r r' : out (grid A)) : Prop :=
  match r, r' with
  | Ret g, Ret g' => same_grid g g'
  | UB, UB => True
  | _, _ => False
  end.

Lemma same_out_refl_clean ss g : Forall clean ss -> same_out (exec ss g) (exec ss g).
Proof.
  intros C. destruct (exec_clean ss C g) as [(g' & ->)| ->]; cbn; [|exact I]. repeat split.
Qed.

Lemma exec_same ss ss' g : Forall clean ss -> Forall clean ss' ->
  (forall s, In s ss -> exists s', In s' ss' /\ fst s' = fst s) ->
  (forall s, In s ss' -> exists s', In s' ss /\ fst s' = fst s) ->
  (forall p, on p ss = on p ss') -> same_out (exec ss g) (exec ss' g).
Proof.
  intros C C' I1 I2 O.
  assert (X : forall s1 s2 g1, (forall s, In s s2 -> exists s', In s' s1 /\ fst s' = fst s) ->
     (forall p, on p s1 = on p s2) -> exec s1 g = Ret g1 ->
     exists g2, exec s2 g = Ret g2 /\ same_grid g1 g2).
  { intros s1 s2 g1 J P E. apply exec_sound in E. destruct E as (L & H & B & R).
    destruct (exec_complete s2 g (gat g1)) as (g2 & E & L2 & H2 & V).
    - intros s Hs. destruct (J s Hs) as (s' & Hs' & <-). apply B; exact Hs'.
    - intros p. rewrite <- P. apply R.
    - exists g2. split; [exact E|]. unfold same_grid. rewrite L, H, L2, H2. repeat split. intros p _. symmetry. apply V. }
  destruct (exec_clean ss C g) as [(g1 & E)|E].
  - destruct (X ss ss' g1 I2 O E) as (g2 & E2 & S). rewrite E, E2. exact S.
  - rewrite E. destruct (exec_clean ss' C' g) as [(g2 & E2)|E2]; [|rewrite E2; exact I].
    destruct (X ss' ss g2 I1 (fun p => eq_sym (O p)) E2) as (g1 & E1 & _). congruence.
Qed.

(** ** loops whose iteration p works on element p only *)
Definition local (body : idx -> list (stmt A)) : Prop := forall p s, In s (body p) -> fst s = p.

Lemma on_local body p q : local body -> on p (body q) = if idx_eqb q p then map snd (body q) else [].
Proof.
  intros L. unfold on. destruct (idx_eqb q p) eqn:E.
  - f_equal. apply idx_eqb_eq in E. subst q.
    assert (forall s, In s (body p) -> idx_eqb (fst s) p = true).
    { intros s Hs. rewrite (L _ _ Hs). apply idx_eqb_refl. }
    clear L. induction (body p) as [|s t IH]; [reflexivity|]. cbn. rewrite (H s (or_introl eq_refl)). f_equal.
    apply IH. intros s' Hs'. apply H. right; exact Hs'.
  - assert (forall s, In s (body q) -> idx_eqb (fst s) p = false).
    { intros s Hs. rewrite (L _ _ Hs). exact E. }
    clear L. induction (body q) as [|s t IH]; [reflexivity|]. cbn. rewrite (H s (or_introl eq_refl)).
    apply IH. intros s' Hs'. apply H. right; exact Hs'.
Qed.

Lemma on_flat body l p : local body -> NoDup l ->
  (In p l -> on p (flat_map body l) = map snd (body p)) /\ (~ In p l -> on p (flat_map body l) = []).
Proof.
  intros L. induction l as [|q l IH]; intros ND; [split; [intros [] | reflexivity]|].
  inversion ND as [|x y Hn ND']; subst. destruct (IH ND') as [I1 I2]. cbn [flat_map]. rewrite on_app, on_local by exact L.
  split.
  - intros [<-|H].
    + rewrite idx_eqb_refl, I2 by exact Hn. apply app_nil_r.
    + rewrite I1 by exact H. replace (idx_eqb q p) with false; [reflexivity|]. symmetry. apply idx_eqb_neq. intros ->. contradiction.
  - intros H. rewrite I2 by (intros F; apply H; right; exact F).
    replace (idx_eqb q p) with false; [reflexivity|]. symmetry. apply idx_eqb_neq. intros ->. apply H. left; reflexivity.
Qed.

Theorem loop3_complete lo hi body (g : grid A) (v : idx -> A) : local body ->
  (forall p, in_box lo hi p = true -> in_box (glo g) (ghi g) p = true /\ run (map snd (body p)) (gat g p) = Ret (v p)) ->
  exists g', loop3 lo hi body g = Ret g' /\ glo g' = glo g /\ ghi g' = ghi g /\
    forall p, gat g' p = if in_box lo hi p then v p else gat g p.
Proof.
  intros L H. unfold loop3. apply exec_complete.
  - intros s Hs. rewrite in_flat_map in Hs. destruct Hs as (p & Hp & Hs). rewrite (L _ _ Hs).
    apply H. apply in_box_box. exact Hp.
  - intros p. destruct (on_flat body (box lo hi) p L (NoDup_box lo hi)) as [I1 I2].
    destruct (in_box lo hi p) eqn:E.
    + rewrite I1 by (apply in_box_box; exact E). apply H. exact E.
    + rewrite I2; [reflexivity|]. rewrite in_box_box. congruence.
Qed.

Theorem loop3_sound lo hi body (g g' : grid A) : local body -> loop3 lo hi body g = Ret g' ->
  glo g' = glo g /\ ghi g' = ghi g /\
  forall p, (in_box lo hi p = true -> run (map snd (body p)) (gat g p) = Ret (gat g' p)) /\
            (in_box lo hi p = false -> gat g' p = gat g p).
Proof.
  intros L E. apply exec_sound in E. destruct E as (B1 & B2 & _ & R). repeat split; [exact B1 | exact B2 | |].
  - intros H. destruct (on_flat body (box lo hi) p L (NoDup_box lo hi)) as [I1 _].
    rewrite <- I1 by (apply in_box_box; exact H). apply R.
  - intros H. destruct (on_flat body (box lo hi) p L (NoDup_box lo hi)) as [_ I2].
    specialize (R p). rewrite I2 in R by (rewrite in_box_box; congruence). cbn in R. congruence.
Qed.

(** ** any OpenMP execution *)
Lemma interleaves_in (ts : list (list (stmt A))) ss : interleaves ts ss -> forall s, In s ss <-> In s (concat ts).
Proof.
  induction 1 as [ts F | ts1 a t ts2 s _ IH]; intros x.
  - split; [intros []|]. rewrite in_concat. intros (l & Hl & Hx). rewrite Forall_forall in F. rewrite <- (F l Hl) in Hx. destruct Hx.
  - cbn. rewrite IH, !concat_app, !in_app_iff. cbn. rewrite !in_app_iff. tauto.
Qed.

Lemma interleaves_on (ts : list (list (stmt A))) ss p :
  interleaves ts ss ->
  (forall t1 t2 a b c, ts = a ++ t1 :: b ++ t2 :: c -> on p t1 <> [] -> on p t2 = []) ->
  on p ss = concat (map (on p) ts).
Proof.
  intros I. induction I as [ts F | ts1 a t ts2 s _ IH]; intros U.
  - rewrite Forall_forall in F. symmetry. clear U. induction ts as [|t ts IH]; [reflexivity|].
    cbn. rewrite <- (F t (or_introl eq_refl)). cbn. apply IH. intros x Hx. apply F. right; exact Hx.
  - assert (on p (a :: s) = on p [a] ++ on p s) as -> by (rewrite <- on_app; reflexivity).
    rewrite IH.
    + rewrite !map_app, !concat_app. cbn [map concat].
      assert (on p (a :: t) = on p [a] ++ on p t) as -> by (rewrite <- on_app; reflexivity).
      destruct (on p [a]) as [|f l] eqn:E; [reflexivity|].
      assert (Z : concat (map (on p) ts1) = []).
      { assert (N : on p (a :: t) <> []) by (change (a :: t) with ([a] ++ t); rewrite on_app, E; discriminate).
        assert (forall t1, In t1 ts1 -> on p t1 = []).
        { intros t1 H1. apply in_split in H1. destruct H1 as (b & c & ->).
          destruct (on p t1) eqn:E1; [reflexivity|]. exfalso. apply N.
          apply (U t1 (a :: t) b c ts2); [rewrite <- app_assoc; reflexivity | rewrite E1; discriminate]. }
        clear - H. induction ts1 as [|t1 ts1 IH]; [reflexivity|]. cbn. rewrite (H t1 (or_introl eq_refl)). cbn.
        apply IH. intros x Hx. apply H. right; exact Hx. }
      rewrite Z. cbn. rewrite <- ?app_assoc. reflexivity.
    + intros t1 t2 x y z Hs N1.
      assert (P : forall u, on p u <> [] -> on p (a :: u) <> []).
      { intros u Hu. change (a :: u) with ([a] ++ u). rewrite on_app. intros F. apply app_eq_nil in F. tauto. }
      assert (Q : forall u, on p (a :: u) = [] -> on p u = []).
      { intros u Hu. change (a :: u) with ([a] ++ u) in Hu. rewrite on_app in Hu. apply app_eq_nil in Hu. tauto. }
      assert (D : exists u1 u2 x' y' z', ts1 ++ (a :: t) :: ts2 = x' ++ u1 :: y' ++ u2 :: z' /\
        (u1 = t1 \/ u1 = a :: t1) /\ (u2 = t2 \/ u2 = a :: t2)).
      { clear - Hs.
        apply app_eq_app in Hs. destruct Hs as (w & [[E1 E2]|[E1 E2]]).
        - subst ts1. destruct w as [|w0 w].
          + cbn in E2. injection E2 as E2 E3. subst. exists (a :: t), t2, x, y, z. rewrite app_nil_r. auto.
          + cbn in E2. injection E2 as E2 E3. subst w0.
            apply app_eq_app in E3. destruct E3 as (v & [[F1 F2]|[F1 F2]]).
            * subst y. destruct v as [|v0 v].
              -- cbn in F2. injection F2 as F2 F3. subst. exists t1, (a :: t2), x, w, z. rewrite ?app_nil_r, <- ?app_assoc. cbn. rewrite ?app_nil_r. auto.
              -- cbn in F2. injection F2 as F2 F3. subst. exists t1, t2, x, (w ++ (a :: v0) :: v), z.
                 rewrite <- !app_assoc. cbn. rewrite <- ?app_assoc. auto.
            * subst w. destruct v as [|v0 v].
              -- cbn in F2. injection F2 as F2 F3. subst. exists t1, (a :: t), x, y, ts2.
                 rewrite ?app_nil_r, <- ?app_assoc. cbn. rewrite ?app_nil_r. auto.
              -- cbn in F2. injection F2 as F2 F3. subst. exists t1, v0, x, y, (v ++ (a :: t) :: ts2).
                 rewrite <- !app_assoc. cbn. rewrite <- ?app_assoc. cbn. auto.
        - subst x. destruct w as [|w0 w].
          + cbn in E2. injection E2 as E2 E3. subst. exists (a :: t1), t2, ts1, y, z. rewrite ?app_nil_r. auto.
          + cbn in E2. injection E2 as E2 E3. subst. exists t1, t2, (ts1 ++ (a :: w0) :: w), y, z.
            rewrite <- app_assoc. cbn. auto. }
      destruct D as (u1 & u2 & x' & y' & z' & E & [-> | ->] & [-> | ->]).
      * apply (U t1 t2 x' y' z' E N1).
      * apply Q. apply (U t1 (a :: t2) x' y' z' E N1).
      * apply (U (a :: t1) t2 x' y' z' E (P _ N1)).
      * apply Q. apply (U (a :: t1) (a :: t2) x' y' z' E (P _ N1)).
Qed.

Lemma concat_on (body : idx -> list (stmt A)) ts p : concat (map (on p) (map (flat_map body) ts)) = on p (flat_map body (concat ts)).
Proof.
  induction ts as [|t ts IH]; [reflexivity|]. cbn [concat map]. rewrite IH, flat_map_app, on_app. reflexivity.
Qed.

Theorem omp_any lo hi body ss (g : grid A) : local body -> (forall p, Forall clean (body p)) ->
  omp_execution lo hi body ss -> same_out (exec ss g) (loop3 lo hi body g).
Proof.
  intros L C (ts & P & I). pose proof (interleaves_in _ _ I) as M.
  assert (ND : NoDup (concat ts)) by (eapply Permutation_NoDup; [symmetry; exact P | apply NoDup_box]).
  assert (MB : forall s, In s ss <-> In s (flat_map body (box lo hi))).
  { intros s. rewrite M, in_concat, in_flat_map. split.
    - intros (t & Ht & Hs). rewrite in_map_iff in Ht. destruct Ht as (u & <- & Hu). rewrite in_flat_map in Hs.
      destruct Hs as (p & Hp & Hs). exists p. split; [|exact Hs]. eapply Permutation_in; [exact P|]. rewrite in_concat. eauto.
    - intros (p & Hp & Hs). eapply Permutation_in in Hp; [|symmetry; exact P]. rewrite in_concat in Hp.
      destruct Hp as (u & Hu & Hp). exists (flat_map body u). split; [apply in_map; exact Hu|]. rewrite in_flat_map. eauto. }
  assert (CB : Forall clean (flat_map body (box lo hi))).
  { rewrite Forall_forall. intros s Hs. rewrite in_flat_map in Hs. destruct Hs as (p & _ & Hs).
    specialize (C p). rewrite Forall_forall in C. apply C. exact Hs. }
  unfold loop3. apply exec_same.
  - rewrite Forall_forall in *. intros s Hs. apply CB. apply MB. exact Hs.
  - exact CB.
  - intros s Hs. exists s. split; [apply MB; exact Hs | reflexivity].
  - intros s Hs. exists s. split; [apply MB; exact Hs | reflexivity].
  - intros p. rewrite (interleaves_on _ _ p I).
    + rewrite concat_on.
      destruct (on_flat body (concat ts) p L ND) as [I1 I2].
      destruct (on_flat body (box lo hi) p L (NoDup_box lo hi)) as [J1 J2].
      destruct (in_box lo hi p) eqn:E.
      * rewrite J1 by (apply in_box_box; exact E). apply I1. eapply Permutation_in; [symmetry; exact P|]. apply in_box_box; exact E.
      * rewrite J2 by (rewrite in_box_box; congruence). apply I2. intros F. eapply Permutation_in in F; [|exact P].
        rewrite in_box_box in F. congruence.
    + intros t1 t2 a b c E N1.
      (* t1 and t2 come from two different threads *)
      apply map_eq_app in E. destruct E as (l1 & l2 & -> & <- & E).
      apply map_eq_cons in E. destruct E as (u1 & l3 & -> & <- & E).
      apply map_eq_app in E. destruct E as (l4 & l5 & -> & <- & E).
      apply map_eq_cons in E. destruct E as (u2 & l6 & -> & <- & E).
      rewrite !concat_app in ND. cbn in ND. rewrite !concat_app in ND. cbn in ND.
      apply NoDup_r in ND.
      assert (ND1 : NoDup u1) by (apply NoDup_l in ND; exact ND).
      assert (ND2 : NoDup u2).
      { apply NoDup_r in ND. apply NoDup_r in ND. apply NoDup_l in ND. exact ND. }
      destruct (on_flat body u1 p L ND1) as [I1 I2]. destruct (on_flat body u2 p L ND2) as [J1 J2].
      apply J2. intros H2.
      assert (H1 : In p u1).
      { destruct (in_dec idx_dec p u1) as [H|H]; [exact H|].
        rewrite I2 in N1 by exact H. congruence. }
      clear - ND H1 H2. induction u1 as [|x u1 IH]; [destruct H1|]. cbn in ND. inversion ND; subst.
      destruct H1 as [->|H1].
      * apply H3. rewrite !in_app_iff. auto.
      * apply IH; assumption.
Qed.
End S.
