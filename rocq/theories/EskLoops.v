(** The loops of the current deposition as lists of additions, for any arithmetic (proofs only). *)
From Coq Require Import ZArith List Bool Lia.
From Verif Require Import Cxx Num CxxLemmas Fortran FortranLemmas Grid GridLemmas Pushers Deposit Esirkepov SpecYee.
Import ListNotations.
Local Open Scope Z_scope.

Section Loops.
Context {N : FNum}.

Definition item : Type := (axis * idx * num N)%type.
Definition addd (t : item) (J : field (num N)) : out (field (num N)) :=
  let '(d, p, v) := t in match d with AX => addx p v J | AY => addy p v J | AZ => addz p v J end.
Fixpoint run3 (l : list item) (J : field (num N)) : out (field (num N)) :=
  match l with [] => Ret J | t :: l' => do J' <- addd t J; run3 l' J' end.
Lemma run3_app l m J : run3 (l ++ m) J = do J' <- run3 l J; run3 m J'.
Proof. revert J. induction l as [|t l IH]; intros J; [reflexivity|]. cbn. destruct (addd t J); cbn; try reflexivity. apply IH. Qed.

(** f does the additions L and turns the scratch values c into c' *)
Definition does {C} (f : field (num N) * C -> out (field (num N) * C)) (L : list item) (c c' : C) : Prop :=
  forall J, f (J, c) = do J' <- run3 L J; Ret (J', c').

Lemma does_seq {C} (f g : field (num N) * C -> out (field (num N) * C)) L M c c' c'' :
  does f L c c' -> does g M c' c'' -> does (fun s => do s' <- f s; g s') (L ++ M) c c''.
Proof.
  intros H1 H2 J. rewrite H1, run3_app. destruct (run3 L J); cbn; try reflexivity. apply H2.
Qed.
Lemma does_loop {C} (P : Z -> C -> Prop) (L : Z -> list item) (f : Z -> field (num N) * C -> out (field (num N) * C)) n : forall lo c,
  (forall i c, lo <= i < lo + Z.of_nat n -> P i c -> exists c', does (f i) (L i) c c' /\ P (i + 1) c') -> P lo c ->
  exists c', does (do_loop n lo f) (flat_map L (zrange lo (lo + Z.of_nat n - 1))) c c' /\ P (lo + Z.of_nat n) c'.
Proof.
  induction n as [|n IH]; intros lo c H P0.
  - exists c. rewrite zrange_nil by lia. split; [intros J; reflexivity|]. replace (lo + Z.of_nat 0) with lo by lia. exact P0.
  - destruct (H lo c ltac:(lia) P0) as (c1 & D1 & P1). destruct (IH (lo + 1) c1) as (c2 & D2 & P2); [intros; apply H; [lia|assumption] | exact P1 |].
    exists c2. split; [|replace (lo + Z.of_nat (S n)) with (lo + 1 + Z.of_nat n) by lia; exact P2].
    rewrite (zrange_cons lo) by lia. cbn [flat_map]. replace (lo + Z.of_nat (S n) - 1) with (lo + 1 + Z.of_nat n - 1) by lia.
    exact (does_seq _ _ _ _ _ _ _ D1 D2).
Qed.
Lemma does_range {C} (P : Z -> C -> Prop) (L : Z -> list item) (f : Z -> field (num N) * C -> out (field (num N) * C)) lo hi c :
  lo <= hi + 1 -> (forall i c, lo <= i <= hi -> P i c -> exists c', does (f i) (L i) c c' /\ P (i + 1) c') -> P lo c ->
  exists c', does (do_range lo hi f) (flat_map L (zrange lo hi)) c c' /\ P (hi + 1) c'.
Proof.
  intros B H P0. destruct (does_loop P L f (Z.to_nat (hi - lo + 1)) lo c) as (c' & D & Q); [intros; apply H; [lia|assumption] | exact P0 |].
  exists c'. unfold do_range. replace (lo + Z.of_nat (Z.to_nat (hi - lo + 1)) - 1) with hi in D by lia.
  replace (lo + Z.of_nat (Z.to_nat (hi - lo + 1))) with (hi + 1) in Q by lia. auto.
Qed.

(** the running sums *)
Fixpoint pre (f : Z -> num N) (lo : Z) (n : nat) : num N :=
  match n with O => f lo | S n' => n_add (f (lo + Z.of_nat n)) (pre f lo n') end.
Definition psum (f : Z -> num N) (lo i : Z) : num N := pre f lo (Z.to_nat (i - lo)).
Lemma psum_first f lo : psum f lo lo = f lo.
Proof. unfold psum. now rewrite Z.sub_diag. Qed.
Lemma psum_next f lo i : lo < i -> psum f lo i = n_add (f i) (psum f lo (i - 1)).
Proof.
  intros H. unfold psum. replace (Z.to_nat (i - lo)) with (S (Z.to_nat (i - 1 - lo))) by lia. cbn [pre]. f_equal. f_equal. lia.
Qed.

Section Particle.
Context (wqx wqy wqz : num N) (X Y Z' : Ax (N := N)).
Definition px (k j i : Z) := psum (fun i => flux wqx X Y Z' i j k) (imin X) i.
Definition py (k j i : Z) := psum (fun j => flux wqy Y Z' X j k i) (imin Y) j.
Definition pz (k j i : Z) := psum (fun k => flux wqz Z' X Y k i j) (imin Z') k.
Definition at3 (k j i : Z) : idx := (nd X + i, nd Y + j, nd Z' + k).
Definition items (k j i : Z) : list item :=
  (if i <? imax X then [(AX, at3 k j i, px k j i)] else []) ++
  (if j <? imax Y then [(AY, at3 k j i, py k j i)] else []) ++
  (if k <? imax Z' then [(AZ, at3 k j i, pz k j i)] else []).
Definition items3 : list item :=
  flat_map (fun k => flat_map (fun j => flat_map (items k j) (zrange (imin X) (imax X))) (zrange (imin Y) (imax Y))) (zrange (imin Z') (imax Z')).

Lemma one_item d p v (J : field (num N)) : run3 [(d, p, v)] J = addd (d, p, v) J.
Proof. cbn. destruct d; match goal with |- context[bind ?m] => destruct m end; reflexivity. Qed.
Lemma choose_x k j i v0 : (imin X < i -> v0 = px k j (i - 1)) -> imin X <= i ->
  (if imin X <? i then n_add (flux wqx X Y Z' i j k) v0 else flux wqx X Y Z' i j k) = px k j i.
Proof.
  intros H B. unfold px in *. destruct (Z.ltb_spec (imin X) i).
  - rewrite (psum_next _ _ i) by lia. rewrite H by lia. reflexivity.
  - replace i with (imin X) by lia. now rewrite psum_first.
Qed.
Lemma choose_y k j i v0 : (imin Y < j -> v0 = py k (j - 1) i) -> imin Y <= j ->
  (if imin Y <? j then n_add (flux wqy Y Z' X j k i) v0 else flux wqy Y Z' X j k i) = py k j i.
Proof.
  intros H B. unfold py in *. destruct (Z.ltb_spec (imin Y) j).
  - rewrite (psum_next _ _ j) by lia. rewrite H by lia. reflexivity.
  - replace j with (imin Y) by lia. now rewrite psum_first.
Qed.
Lemma choose_z k j i v0 : (imin Z' < k -> v0 = pz (k - 1) j i) -> imin Z' <= k ->
  (if imin Z' <? k then n_add (flux wqz Z' X Y k i j) v0 else flux wqz Z' X Y k i j) = pz k j i.
Proof.
  intros H B. unfold pz in *. destruct (Z.ltb_spec (imin Z') k).
  - rewrite (psum_next _ _ k) by lia. rewrite H by lia. reflexivity.
  - replace k with (imin Z') by lia. now rewrite psum_first.
Qed.

(** ** the versions of fixed order *)
Definition after (c : Carry (N := N)) (k j i : Z) : Carry :=
  let vx := if i <? imax X then px k j i else sdxi c in
  mkCarry vx vx (if j <? imax Y then upd1 (sdyj c) i (py k j i) else sdyj c) (sdyjm1 c)
    (if k <? imax Z' then upd2 (sdzk c) i j (pz k j i) else sdzk c) (sdzkm1 c).
Lemma body_does k j i c : imin X <= i -> imin Y <= j -> imin Z' <= k ->
  (imin X < i -> i < imax X -> sdxim1 c = px k j (i - 1)) ->
  (imin Y < j -> sdyjm1 c i = py k (j - 1) i) ->
  (imin Z' < k -> sdzkm1 c i j = pz (k - 1) j i) ->
  does (esk_body wqx wqy wqz X Y Z' k j i) (items k j i) c (after c k j i).
Proof.
  intros Bx By Bz Hx Hy Hz J. unfold esk_body, items, after. fold (at3 k j i).
  rewrite !run3_app. destruct (Z.ltb_spec i (imax X)) as [Lx|Lx].
  - rewrite choose_x by (auto; lia). rewrite one_item. cbn [addd]. destruct (addx _ _ J) as [J1| | |]; try reflexivity. cbn [bind fst snd sdxi sdxim1 sdyj sdyjm1 sdzk sdzkm1].
    rewrite run3_app. destruct (Z.ltb_spec j (imax Y)) as [Ly|Ly].
    + rewrite choose_y by (auto; lia). rewrite one_item. cbn [addd]. destruct (addy _ _ J1) as [J2| | |]; try reflexivity. cbn [bind sdxi sdxim1 sdyj sdyjm1 sdzk sdzkm1].
      destruct (Z.ltb_spec k (imax Z')) as [Lz|Lz]; [|reflexivity]. rewrite choose_z by (auto; lia). rewrite one_item. cbn [addd].
      destruct (addz _ _ J2); reflexivity.
    + cbn [run3 bind sdxi sdxim1 sdyj sdyjm1 sdzk sdzkm1].
      destruct (Z.ltb_spec k (imax Z')) as [Lz|Lz]; [|reflexivity]. rewrite choose_z by (auto; lia). rewrite one_item. cbn [addd].
      destruct (addz _ _ J1); reflexivity.
  - cbn [run3 bind]. rewrite run3_app. destruct (Z.ltb_spec j (imax Y)) as [Ly|Ly].
    + rewrite choose_y by (auto; lia). rewrite one_item. cbn [addd]. destruct (addy _ _ J) as [J2| | |]; try reflexivity. cbn [bind sdxi sdxim1 sdyj sdyjm1 sdzk sdzkm1].
      destruct (Z.ltb_spec k (imax Z')) as [Lz|Lz]; [|reflexivity]. rewrite choose_z by (auto; lia). rewrite one_item. cbn [addd].
      destruct (addz _ _ J2); reflexivity.
    + cbn [run3 bind]. destruct (Z.ltb_spec k (imax Z')) as [Lz|Lz]; [|destruct c; reflexivity]. rewrite choose_z by (auto; lia). rewrite one_item. cbn [addd].
      destruct (addz _ _ J); reflexivity.
Qed.

Definition rows_y k j i (c : Carry (N := N)) : Prop := (* sdyjm1 and the part of sdyj already set *)
  (imin Y < j -> forall i', imin X <= i' <= imax X -> sdyjm1 c i' = py k (j - 1) i') /\
  (j < imax Y -> forall i', imin X <= i' < i -> sdyj c i' = py k j i').
Definition rows_z k j i (c : Carry (N := N)) : Prop :=
  (imin Z' < k -> forall j' i', imin Y <= j' <= imax Y -> imin X <= i' <= imax X -> sdzkm1 c i' j' = pz (k - 1) j' i') /\
  (k < imax Z' -> forall j' i', imin Y <= j' <= imax Y -> imin X <= i' <= imax X -> j' < j \/ (j' = j /\ i' < i) -> sdzk c i' j' = pz k j' i').

Context (Rx : imin X <= imax X + 1) (Ry : imin Y <= imax Y + 1) (Rz : imin Z' <= imax Z' + 1).

Lemma loop_x k j c : imin Z' <= k -> imin Y <= j <= imax Y -> rows_y k j (imin X) c -> rows_z k j (imin X) c ->
  exists c', does (do_range (imin X) (imax X) (esk_body wqx wqy wqz X Y Z' k j)) (flat_map (items k j) (zrange (imin X) (imax X))) c c' /\
    rows_y k j (imax X + 1) c' /\ rows_z k j (imax X + 1) c'.
Proof.
  intros Bk Bj Hy Hz.
  destruct (does_range (fun i c => (imin X < i -> i < imax X -> sdxim1 c = px k j (i - 1)) /\ rows_y k j i c /\ rows_z k j i c)
    (items k j) (esk_body wqx wqy wqz X Y Z' k j) (imin X) (imax X) c Rx) as (c' & D & _ & A & B).
  - clear c Hy Hz. intros i c Bi (Px & (Y1 & Y2) & (Z1 & Z2)). exists (after c k j i). split.
    + apply body_does; try lia; auto.
    + unfold after. split; [|split; split]; cbn [sdxi sdxim1 sdyj sdyjm1 sdzk sdzkm1].
      * intros _ L. destruct (Z.ltb_spec i (imax X)); [|lia]. f_equal; lia.
      * intros L i' Hi'. apply Y1; lia.
      * intros L i' Hi'. destruct (Z.ltb_spec j (imax Y)); [|lia]. unfold upd1. destruct (Z.eqb_spec i' i) as [->|]; [reflexivity|]. apply Y2; lia.
      * intros L j' i' Hj' Hi'. apply Z1; lia.
      * intros L j' i' Hj' Hi' O. destruct (Z.ltb_spec k (imax Z')); [|lia]. unfold upd2.
        destruct (Z.eqb_spec i' i) as [->|Ei]; destruct (Z.eqb_spec j' j) as [->|Ej]; cbn [andb]; try reflexivity; apply Z2; lia.
  - split; [intros; lia|]. auto.
  - exists c'. auto.
Qed.
Lemma does_then {C} (f : field (num N) * C -> out (field (num N) * C)) (h : C -> C) L c c' :
  does f L c c' -> does (fun s => do s <- f s; let (J, c) := s in Ret (J, h c)) L c (h c').
Proof. intros D J. rewrite D. destruct (run3 L J); reflexivity. Qed.
Lemma loop_y k c : imin Z' <= k -> rows_z k (imin Y) (imin X) c ->
  exists c', does (do_range (imin Y) (imax Y) (fun j s =>
      do s <- do_range (imin X) (imax X) (esk_body wqx wqy wqz X Y Z' k j) s;
      let (J, c) := s in Ret (J, mkCarry (sdxi c) (sdxim1 c) (sdyj c) (sdyj c) (sdzk c) (sdzkm1 c))))
     (flat_map (fun j => flat_map (items k j) (zrange (imin X) (imax X))) (zrange (imin Y) (imax Y))) c c' /\
    rows_z k (imax Y + 1) (imin X) c'.
Proof.
  intros Bk Hz.
  destruct (does_range (fun j c => (imin Y < j -> j <= imax Y -> forall i', imin X <= i' <= imax X -> sdyjm1 c i' = py k (j - 1) i') /\ rows_z k j (imin X) c)
    (fun j => flat_map (items k j) (zrange (imin X) (imax X))) (fun j s =>
      do s <- do_range (imin X) (imax X) (esk_body wqx wqy wqz X Y Z' k j) s;
      let (J, c) := s in Ret (J, mkCarry (sdxi c) (sdxim1 c) (sdyj c) (sdyj c) (sdzk c) (sdzkm1 c))) (imin Y) (imax Y) c Ry) as (c' & D & _ & B).
  - clear c Hz. intros j c Bj (Hy & Hz).
    destruct (loop_x k j c Bk Bj) as (c' & D & (Y1 & Y2) & (Z1 & Z2)); [split; [intros L; apply Hy; lia | intros; lia] | exact Hz |].
    eexists. split; [exact (does_then _ (fun c => mkCarry (sdxi c) (sdxim1 c) (sdyj c) (sdyj c) (sdzk c) (sdzkm1 c)) _ _ _ D)|].
    split; [|split]; cbn [sdxi sdxim1 sdyj sdyjm1 sdzk sdzkm1].
    + intros L1 L2 i' Hi'. rewrite Y2 by lia. f_equal; lia.
    + intros L j' i' Hj' Hi'. apply Z1; lia.
    + intros L j' i' Hj' Hi' O. apply Z2; lia.
  - split; [intros; lia | exact Hz].
  - exists c'. auto.
Qed.
Theorem loops_does c : exists c', does (esk_loops wqx wqy wqz X Y Z') items3 c c'.
Proof.
  unfold esk_loops, items3.
  destruct (does_range (fun k c => imin Z' < k -> k <= imax Z' -> forall j' i', imin Y <= j' <= imax Y -> imin X <= i' <= imax X -> sdzkm1 c i' j' = pz (k - 1) j' i')
    (fun k => flat_map (fun j => flat_map (items k j) (zrange (imin X) (imax X))) (zrange (imin Y) (imax Y)))
    (fun k s => do s <- do_range (imin Y) (imax Y) (fun j s =>
      do s <- do_range (imin X) (imax X) (esk_body wqx wqy wqz X Y Z' k j) s;
      let (J, c) := s in Ret (J, mkCarry (sdxi c) (sdxim1 c) (sdyj c) (sdyj c) (sdzk c) (sdzkm1 c))) s;
    let (J, c) := s in Ret (J, mkCarry (sdxi c) (sdxim1 c) (sdyj c) (sdyjm1 c) (sdzk c) (sdzk c))) (imin Z') (imax Z') c Rz) as (c' & D & _).
  - clear c. intros k c Bk Hz.
    destruct (loop_y k c ltac:(lia)) as (c' & D & (Z1 & Z2)); [split; [intros L; apply Hz; lia | intros; lia] |].
    eexists. split; [exact (does_then _ (fun c => mkCarry (sdxi c) (sdxim1 c) (sdyj c) (sdyjm1 c) (sdzk c) (sdzk c)) _ _ _ D)|].
    cbn [sdxi sdxim1 sdyj sdyjm1 sdzk sdzkm1]. intros L1 L2 j' i' Hj' Hi'. rewrite Z2 by lia. f_equal; lia.
  - intros; lia.
  - exists c'. exact D.
Qed.

(** ** the version of arbitrary order *)
Definition after_n (c : Sums (N := N)) (k j i : Z) : Sums :=
  mkSums (if i <? imax X then upd3 (sdx c) (i, j, k) (px k j i) else sdx c)
         (if j <? imax Y then upd3 (sdy c) (i, j, k) (py k j i) else sdy c)
         (if k <? imax Z' then upd3 (sdz c) (i, j, k) (pz k j i) else sdz c).
Lemma body_n_does k j i c : imin X <= i -> imin Y <= j -> imin Z' <= k ->
  (imin X < i -> i < imax X -> sdx c (i - 1, j, k) = px k j (i - 1)) ->
  (imin Y < j -> j < imax Y -> sdy c (i, j - 1, k) = py k (j - 1) i) ->
  (imin Z' < k -> k < imax Z' -> sdz c (i, j, k - 1) = pz (k - 1) j i) ->
  does (esk_body_n wqx wqy wqz X Y Z' k j i) (items k j i) c (after_n c k j i).
Proof.
  intros Bx By Bz Hx Hy Hz J. unfold esk_body_n, items, after_n. fold (at3 k j i).
  rewrite !run3_app. destruct (Z.ltb_spec i (imax X)) as [Lx|Lx].
  - rewrite choose_x by (auto; lia). rewrite one_item. cbn [addd]. destruct (addx _ _ J) as [J1| | |]; try reflexivity. cbn [bind sdx sdy sdz].
    rewrite run3_app. destruct (Z.ltb_spec j (imax Y)) as [Ly|Ly].
    + rewrite choose_y by (auto; lia). rewrite one_item. cbn [addd]. destruct (addy _ _ J1) as [J2| | |]; try reflexivity. cbn [bind sdx sdy sdz].
      destruct (Z.ltb_spec k (imax Z')) as [Lz|Lz]; [|reflexivity]. rewrite choose_z by (auto; lia). rewrite one_item. cbn [addd].
      destruct (addz _ _ J2); reflexivity.
    + cbn [run3 bind sdx sdy sdz].
      destruct (Z.ltb_spec k (imax Z')) as [Lz|Lz]; [|reflexivity]. rewrite choose_z by (auto; lia). rewrite one_item. cbn [addd].
      destruct (addz _ _ J1); reflexivity.
  - cbn [run3 bind]. rewrite run3_app. destruct (Z.ltb_spec j (imax Y)) as [Ly|Ly].
    + rewrite choose_y by (auto; lia). rewrite one_item. cbn [addd]. destruct (addy _ _ J) as [J2| | |]; try reflexivity. cbn [bind sdx sdy sdz].
      destruct (Z.ltb_spec k (imax Z')) as [Lz|Lz]; [|reflexivity]. rewrite choose_z by (auto; lia). rewrite one_item. cbn [addd].
      destruct (addz _ _ J2); reflexivity.
    + cbn [run3 bind]. destruct (Z.ltb_spec k (imax Z')) as [Lz|Lz]; [|destruct c; reflexivity]. rewrite choose_z by (auto; lia). rewrite one_item. cbn [addd].
      destruct (addz _ _ J); reflexivity.
Qed.
(** the iterations before (k, j, i) *)
Definition before (k j i k' j' i' : Z) : Prop := k' < k \/ (k' = k /\ (j' < j \/ (j' = j /\ i' < i))).
Definition inr (k j i : Z) : Prop := imin X <= i <= imax X /\ imin Y <= j <= imax Y /\ imin Z' <= k <= imax Z'.
Definition done (k j i : Z) (c : Sums (N := N)) : Prop := forall k' j' i', inr k' j' i' -> before k j i k' j' i' ->
  (i' < imax X -> sdx c (i', j', k') = px k' j' i') /\ (j' < imax Y -> sdy c (i', j', k') = py k' j' i') /\ (k' < imax Z' -> sdz c (i', j', k') = pz k' j' i').
Lemma upd3_case (f : idx -> num N) p q v : upd3 f p v q = if idx_eqb p q then v else f q.
Proof. reflexivity. Qed.
Lemma done_next k j i c : inr k j i -> done k j i c -> does (esk_body_n wqx wqy wqz X Y Z' k j i) (items k j i) c (after_n c k j i) /\ done k j (i + 1) (after_n c k j i).
Proof.
  intros I D. split.
  - apply body_n_does; try (unfold inr in I; lia).
    + intros. apply D; unfold inr, before in *; lia.
    + intros. apply D; unfold inr, before in *; lia.
    + intros. apply D; unfold inr, before in *; lia.
  - intros k' j' i' I' O. unfold after_n. cbn [sdx sdy sdz].
    destruct (idx_dec (i, j, k) (i', j', k')) as [E|E].
    + injection E as <- <- <-.
      split; [|split]; intros L; match goal with |- context[if ?b then _ else _] => destruct b eqn:Q; [|lia] end; rewrite upd3_case, idx_eqb_refl; reflexivity.
    + assert (O' : before k j i k' j' i').
      { unfold before in *. destruct O as [O|(-> & [O|(-> & O)])]; [auto | auto | right; split; [reflexivity | right; split; [reflexivity|]]].
        assert (i' <> i) by (intros ->; apply E; reflexivity). lia. }
      destruct (D k' j' i' I' O') as (D1 & D2 & D3). apply idx_eqb_neq in E.
      split; [|split]; intros L; match goal with |- context[if ?b then _ else _] => destruct b end; rewrite ?upd3_case, ?E; auto.
Qed.
Theorem loops_n_does c : exists c', does (esk_loops_n wqx wqy wqz X Y Z') items3 c c'.
Proof.
  unfold esk_loops_n, items3.
  destruct (does_range (fun k c => done k (imin Y) (imin X) c)
    (fun k => flat_map (fun j => flat_map (items k j) (zrange (imin X) (imax X))) (zrange (imin Y) (imax Y)))
    (fun k => do_range (imin Y) (imax Y) (fun j => do_range (imin X) (imax X) (esk_body_n wqx wqy wqz X Y Z' k j))) (imin Z') (imax Z') c Rz) as (c' & D & _).
  - clear c. intros k c Bk Hk.
    destruct (does_range (fun j c => done k j (imin X) c) (fun j => flat_map (items k j) (zrange (imin X) (imax X)))
      (fun j => do_range (imin X) (imax X) (esk_body_n wqx wqy wqz X Y Z' k j)) (imin Y) (imax Y) c Ry) as (c' & D & H').
    + clear c Hk. intros j c Bj Hj.
      destruct (does_range (fun i c => done k j i c) (items k j) (esk_body_n wqx wqy wqz X Y Z' k j) (imin X) (imax X) c Rx) as (c' & D & H').
      * clear c Hj. intros i c Bi Hi. exists (after_n c k j i). apply done_next; [unfold inr; lia | exact Hi].
      * exact Hj.
      * exists c'. split; [exact D|]. intros k' j' i' I' O. apply H'; [exact I'|]. unfold before, inr in *. lia.
    + exact Hk.
    + exists c'. split; [exact D|]. intros k' j' i' I' O. apply H'; [exact I'|]. unfold before, inr in *. lia.
  - intros k' j' i' I' O. unfold before, inr in *. lia.
  - exists c'. exact D.
Qed.
End Particle.
End Loops.
