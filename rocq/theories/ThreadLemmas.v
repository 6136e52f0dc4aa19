(** Threads that add to the elements of a shared array: what every schedule gives if no element is updated by two threads, and what
    some schedule gives if one is. *)
From Coq Require Import ZArith List Bool Lia Permutation.
From Verif Require Import Cxx CxxLemmas Num Fortran Grid GridLemmas Tiles DepositTiles.
Import ListNotations.
Local Open Scope Z_scope.

Section Threads.
Context {N : FNum}.
Local Notation update := (idx * num N)%type.
Local Notation thread := (thread N).
Local Notation arr := (grid (num N)).

(** the updates us of element p, one after the other *)
Definition apply_at (p : idx) (us : list update) (v : num N) : num N :=
  fold_left (fun v u => if idx_eqb (fst u) p then n_add v (snd u) else v) us v.
Lemma apply_app p a b v : apply_at p (a ++ b) v = apply_at p b (apply_at p a v).
Proof. apply fold_left_app. Qed.
Lemma apply_none p us : forall v, (forall u, In u us -> fst u <> p) -> apply_at p us v = v.
Proof.
  induction us as [|u us IH]; intros v H; [reflexivity|]. cbn [apply_at fold_left].
  replace (idx_eqb (fst u) p) with false by (symmetry; apply idx_eqb_neq; apply H; now left). apply IH. intros; apply H; now right.
Qed.
Definition inb (G : arr) (us : list update) : Prop := forall u, In u us -> in_box (glo G) (ghi G) (fst u) = true.

Lemma advance_nth_out i : forall G (ts : list thread), nth_error ts i = None -> advance_nth i G ts = Ret (G, ts).
Proof.
  induction i as [|i IH]; intros G [|t ts] H; cbn in *; try discriminate; try reflexivity. rewrite IH by exact H. reflexivity.
Qed.
Lemma advance_nth_in i : forall G (ts : list thread) t G' t', nth_error ts i = Some t -> advance G t = Ret (G', t') ->
  exists ts', advance_nth i G ts = Ret (G', ts') /\ forall j, nth_error ts' j = if Nat.eqb j i then Some t' else nth_error ts j.
Proof.
  induction i as [|i IH]; intros G [|s ts] t G' t' H E; cbn in *; try discriminate.
  - injection H as ->. rewrite E. cbn [bind fst snd]. eexists. split; [reflexivity|]. intros [|j]; reflexivity.
  - destruct (IH G ts t G' t' H E) as (ts' & -> & V). cbn [bind fst snd]. eexists. split; [reflexivity|]. intros [|j]; [reflexivity|]. cbn. apply V.
Qed.

Section Owner.
Variables (lo hi : idx) (owner : idx -> nat) (F : idx -> num N).
Definition tinv (G : arr) (ts : list thread) : Prop :=
  glo G = lo /\ ghi G = hi /\
  (forall i t, nth_error ts i = Some t ->
    (forall u, In u (todo t) -> owner (fst u) = i /\ in_box lo hi (fst u) = true) /\
    (forall v, reg t = Some v -> exists p x l, todo t = (p, x) :: l /\ v = gat G p)) /\
  forall p, match nth_error ts (owner p) with Some t => apply_at p (todo t) (gat G p) | None => gat G p end = F p.
Lemma tinv_step i G ts : tinv G ts -> exists G' ts', advance_nth i G ts = Ret (G', ts') /\ tinv G' ts'.
Proof.
  intros (Lo & Hi & T & V). destruct (nth_error ts i) as [t|] eqn:Et.
  2:{ exists G, ts. split; [now apply advance_nth_out|]. repeat (split; [assumption|]). assumption. }
  destruct (T i t Et) as (Tu & Tr). destruct t as [td rg]. destruct td as [|[p x] l].
  - destruct (advance_nth_in i G ts _ G (Thread [] rg) Et eq_refl) as (ts' & E & W). exists G, ts'. split; [exact E|].
    assert (WW : forall j, nth_error ts' j = nth_error ts j) by (intros j; rewrite W; destruct (Nat.eqb_spec j i) as [->|]; [now rewrite Et|reflexivity]).
    split; [exact Lo|]. split; [exact Hi|]. split.
    + intros j t H. rewrite WW in H. now apply T.
    + intros p. rewrite WW. apply V.
  - destruct (Tu (p, x) (or_introl eq_refl)) as (Op & Bp). cbn [fst] in Op, Bp. destruct rg as [v|].
    + destruct (Tr v eq_refl) as (p' & x' & l' & Ep & Ev). cbn [todo] in Ep. injection Ep as -> -> ->. clear Tr.
      pose (G' := Grid lo hi (fun q => if idx_eqb p' q then n_add v x' else gat G q) : arr).
      assert (EA : advance G (Thread ((p', x') :: l') (Some v)) = Ret (G', Thread l' None)) by (unfold advance, set3; cbn [todo reg]; rewrite Lo, Hi, Bp; reflexivity).
      destruct (advance_nth_in i G ts _ _ _ Et EA) as (ts' & E & W). exists G', ts'. split; [exact E|]. split; [reflexivity|]. split; [reflexivity|]. split.
      * intros j t H. rewrite W in H. destruct (Nat.eqb_spec j i) as [->|Nj].
        -- injection H as <-. split; [intros u Hu; apply Tu; now right|]. intros w Hw. discriminate Hw.
        -- destruct (T j t H) as (Ju & Jr). split; [exact Ju|]. intros w Hw. destruct (Jr w Hw) as (pj & xj & lj & Ej & Vj). exists pj, xj, lj. split; [exact Ej|].
           rewrite Vj. unfold G'. cbn [gat]. replace (idx_eqb p' pj) with false; [reflexivity|]. symmetry. apply idx_eqb_neq. intros <-. rewrite Ej in Ju. destruct (Ju (p', xj) (or_introl eq_refl)) as (Oj & _). cbn [fst] in Oj. congruence.
      * intros q. rewrite <- (V q), W. unfold G'. cbn [gat]. destruct (Nat.eqb_spec (owner q) i) as [Eq|Nq].
        -- rewrite Eq, Et. cbn [todo apply_at fold_left fst snd]. destruct (idx_eqb p' q) eqn:Ee; [|reflexivity]. apply idx_eqb_eq in Ee. subst q. rewrite Ev. reflexivity.
        -- replace (idx_eqb p' q) with false; [reflexivity|]. symmetry. apply idx_eqb_neq. intros <-. now apply Nq.
    + assert (EA : advance G (Thread ((p, x) :: l) None) = Ret (G, Thread ((p, x) :: l) (Some (gat G p)))) by (unfold advance, get3; cbn [todo reg]; rewrite Lo, Hi, Bp; reflexivity).
      destruct (advance_nth_in i G ts _ _ _ Et EA) as (ts' & E & W). exists G, ts'. split; [exact E|]. split; [exact Lo|]. split; [exact Hi|]. split.
      * intros j t H. rewrite W in H. destruct (Nat.eqb_spec j i) as [->|Nj]; [|now apply T]. injection H as <-. split; [exact Tu|]. intros v Hv. cbn [reg] in Hv. injection Hv as <-. exists p, x, l. now split.
      * intros q. rewrite W. specialize (V q). destruct (Nat.eqb_spec (owner q) i) as [Eq|Nq]; [|exact V]. rewrite Eq, Et in V. exact V.
Qed.
Lemma tinv_run sched : forall G ts, tinv G ts -> exists G' ts', run sched G ts = Ret (G', ts') /\ tinv G' ts'.
Proof.
  induction sched as [|i sched IH]; intros G ts H; [exists G, ts; now split|].
  destruct (tinv_step i G ts H) as (G1 & ts1 & E & H1). cbn [run]. rewrite E. cbn [bind fst snd]. now apply IH.
Qed.
Lemma tinv_end G ts : tinv G ts -> finished ts -> forall p, gat G p = F p.
Proof.
  intros (_ & _ & _ & V) Fi p. rewrite <- V. destruct (nth_error ts (owner p)) as [t|] eqn:E; [|reflexivity]. apply nth_error_In in E. now rewrite (proj1 (Fi t E)).
Qed.
End Owner.

(** one thread alone *)
Lemma run_app s1 : forall s2 G (ts : list thread), run (s1 ++ s2) G ts = do r <- run s1 G ts; run s2 (fst r) (snd r).
Proof.
  induction s1 as [|i s1 IH]; intros s2 G ts; [reflexivity|]. cbn [run app]. destruct (advance_nth i G ts) as [[G1 ts1]| | |]; cbn [bind fst snd]; try reflexivity. apply IH.
Qed.
Fixpoint set_nth (i : nat) (t : thread) (ts : list thread) : list thread :=
  match ts, i with [], _ => [] | _ :: ts', O => t :: ts' | s :: ts', S j => s :: set_nth j t ts' end.
Lemma advance_nth_set i : forall G (ts : list thread) t G' t', nth_error ts i = Some t -> advance G t = Ret (G', t') -> advance_nth i G ts = Ret (G', set_nth i t' ts).
Proof.
  induction i as [|i IH]; intros G [|s ts] t G' t' H E; cbn in *; try discriminate.
  - injection H as ->. rewrite E. reflexivity.
  - rewrite (IH G ts t G' t' H E). reflexivity.
Qed.
Lemma nth_set i : forall (ts : list thread) s t, nth_error ts i = Some s -> nth_error (set_nth i t ts) i = Some t.
Proof. induction i as [|i IH]; intros [|x ts] s t H; cbn in *; try discriminate; [reflexivity|]. now apply (IH ts s). Qed.
Lemma set_set i : forall (ts : list thread) s t, set_nth i t (set_nth i s ts) = set_nth i t ts.
Proof. induction i as [|i IH]; intros [|x ts] s t; cbn; try reflexivity. f_equal. apply IH. Qed.
Lemma set_same i : forall (ts : list thread) t, nth_error ts i = Some t -> set_nth i t ts = ts.
Proof. induction i as [|i IH]; intros [|x ts] t H; cbn in *; try discriminate; [congruence|]. f_equal. now apply IH. Qed.
Definition added (us : list update) (G : arr) : arr := Grid (glo G) (ghi G) (fun p => apply_at p us (gat G p)).
(** [same_grid] is not needed: the arrays are equal up to the function, which is compared pointwise *)
Definition peq (G H : arr) : Prop := glo G = glo H /\ ghi G = ghi H /\ forall p, gat G p = gat H p.
Lemma run_prefix i pre : forall post G ts, nth_error ts i = Some (Thread (pre ++ post) None) -> inb G pre ->
  exists G', run (repeat i (2 * length pre)) G ts = Ret (G', set_nth i (Thread post None) ts) /\ peq G' (added pre G).
Proof.
  induction pre as [|[p x] pre IH]; intros post G ts H B.
  - exists G. cbn [length Nat.mul Nat.add repeat run]. rewrite set_same by exact H. split; [reflexivity|]. repeat split; reflexivity.
  - match goal with |- context [repeat i ?n] => replace n with (S (S (2 * @length update pre)))%nat by (cbn; rewrite <- !plus_n_Sm; reflexivity) end. cbn [repeat run].
    assert (Bp : in_box (glo G) (ghi G) p = true) by (exact (B (p, x) (or_introl eq_refl))).
    assert (E1 : advance G (Thread ((p, x) :: pre ++ post) None) = Ret (G, Thread ((p, x) :: pre ++ post) (Some (gat G p)))) by (unfold advance, get3; cbn [todo reg]; now rewrite Bp).
    rewrite (advance_nth_set i G ts _ _ _ H E1). cbn [bind fst snd].
    pose (G1 := Grid (glo G) (ghi G) (fun q => if idx_eqb p q then n_add (gat G p) x else gat G q) : arr).
    assert (E2 : advance G (Thread ((p, x) :: pre ++ post) (Some (gat G p))) = Ret (G1, Thread (pre ++ post) None)) by (unfold advance, set3; cbn [todo reg]; now rewrite Bp).
    rewrite (advance_nth_set i G _ _ _ _ (nth_set i _ _ _ H) E2). cbn [bind fst snd]. rewrite set_set.
    destruct (IH post G1 (set_nth i (Thread (pre ++ post) None) ts) (nth_set i _ _ _ H)) as (G' & E & P); [intros u Hu; apply B; now right|].
    exists G'. split; [rewrite E, set_set; reflexivity|]. destruct P as (P1 & P2 & P3). split; [exact P1|]. split; [exact P2|].
    intros q. rewrite P3. unfold added, G1. cbn [gat]. change (apply_at q ((p, x) :: pre) (gat G q)) with (apply_at q pre (if idx_eqb p q then n_add (gat G q) x else gat G q)).
    destruct (idx_eqb p q) eqn:Eq; [|reflexivity]. apply idx_eqb_eq in Eq. now subst q.
Qed.

(** a lost update: the first thread loads element p, the second makes all its updates, then the first stores *)
Lemma lost_update a1 p x a2 b G : inb G (a1 ++ (p, x) :: a2) -> inb G b -> (forall u, In u (a1 ++ a2) -> fst u <> p) ->
  exists sched G' ts', run sched G [Thread (a1 ++ (p, x) :: a2) None; Thread b None] = Ret (G', ts') /\ finished ts' /\
    glo G' = glo G /\ ghi G' = ghi G /\
    forall q, gat G' q = if idx_eqb p q then n_add (gat G p) x else apply_at q (a1 ++ b ++ a2) (gat G q).
Proof.
  intros BA BB Hp.
  destruct (run_prefix 0 a1 ((p, x) :: a2) G [Thread (a1 ++ (p, x) :: a2) None; Thread b None] eq_refl) as (G1 & E1 & P1 & P2 & P3); [intros u Hu; apply BA; apply in_or_app; now left|].
  cbn [set_nth] in E1. cbn [added glo ghi gat] in P1, P2, P3.
  assert (Bp : in_box (glo G) (ghi G) p = true) by (apply (BA (p, x)); apply in_or_app; right; now left).
  assert (V1 : gat G1 p = gat G p) by (rewrite P3; apply apply_none; intros u Hu; apply Hp; apply in_or_app; now left).
  destruct (run_prefix 1 b [] G1 [Thread ((p, x) :: a2) (Some (gat G1 p)); Thread b None]) as (G2 & E2 & Q1 & Q2 & Q3); [cbn; now rewrite app_nil_r|intros u Hu; rewrite P1, P2; now apply BB|].
  cbn [set_nth] in E2. cbn [added glo ghi gat] in Q1, Q2, Q3.
  pose (G3 := Grid (glo G) (ghi G) (fun q => if idx_eqb p q then n_add (gat G p) x else gat G2 q) : arr).
  destruct (run_prefix 0 a2 [] G3 [Thread a2 None; Thread [] None]) as (G4 & E4 & R1 & R2 & R3); [cbn; now rewrite app_nil_r|intros u Hu; apply BA; apply in_or_app; right; now right|].
  cbn [set_nth] in E4. cbn [added glo ghi gat] in R1, R2, R3.
  exists (repeat 0%nat (2 * length a1) ++ 0%nat :: repeat 1%nat (2 * length b) ++ 0%nat :: repeat 0%nat (2 * length a2)), G4, [Thread [] None; Thread [] None].
  split; [|split; [|split; [|split]]].
  - rewrite run_app, E1. cbn [bind fst snd run]. cbn [advance_nth]. unfold advance at 1. cbn [todo reg]. unfold get3. rewrite P1, P2, Bp. cbn [bind fst snd].
    rewrite run_app, E2. cbn [bind fst snd run]. cbn [advance_nth]. unfold advance at 1. cbn [todo reg]. unfold set3. rewrite Q1, Q2, P1, P2, Bp, V1. cbn [bind fst snd]. exact E4.
  - intros t [<-|[<-|[]]]; now split.
  - exact R1.
  - exact R2.
  - intros q. rewrite R3. unfold G3. cbn [gat]. destruct (idx_eqb p q) eqn:Eq.
    + apply idx_eqb_eq in Eq. subst q. apply apply_none. intros u Hu. apply Hp. apply in_or_app. now right.
    + rewrite Q3, P3, !apply_app. reflexivity.
Qed.
End Threads.
