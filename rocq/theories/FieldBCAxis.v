(** One axis: which process is responsible for which node. *)
From Coq Require Import ZArith List Bool Lia.
From Verif Require Import Cxx CxxLemmas Grid GridLemmas PartBC FieldBC SpecFieldBC.
Import ListNotations.
Local Open Scope Z_scope.

Section Axis.
Variables (P : Z) (len : Z -> Z) (h : Z) (ab : bool).
Hypothesis HP : 1 <= P.
Hypothesis Hh : 0 <= h.
Hypothesis Hlen : forall c, 0 <= c < P -> h < len c.

Notation before := (cells_before len).
Notation Tot := (before P).
Definition place1 (c i : Z) : Z := let x := before c + i in if ab then x else x mod Tot.
Definition held1 (c i : Z) : bool :=
  let y := before c + i in (0 <=? i) && (i <? len c) || ab && ((y <? 0) || (Tot <=? y)).
Definition prev (c : Z) : Z := (c - 1) mod P.
Definition next (c : Z) : Z := (c + 1) mod P.
(** the node that stands for (c, i) and whose process is responsible *)
Definition own1 (c i : Z) : Z * Z :=
  if i <? 0 then if ab && (c =? 0) then (c, i) else (prev c, i + len (prev c))
  else if len c <=? i then if ab && (c =? P - 1) then (c, i) else (next c, i - len c)
  else (c, i).

Lemma before_zero : before 0 = 0.
Proof. reflexivity. Qed.
Lemma sum_app l m : fold_right Z.add 0 (l ++ m) = fold_right Z.add 0 l + fold_right Z.add 0 m.
Proof. induction l; cbn; lia. Qed.
Lemma before_step c : 0 <= c -> before (c + 1) = before c + len c.
Proof.
  intros H. unfold cells_before. replace (c + 1 - 1) with (c - 1 + 1) by lia. rewrite zrange_snoc by lia. rewrite map_app, sum_app. cbn [map fold_right].
  replace (c - 1 + 1) with c by lia. lia.
Qed.
Lemma before_far (k : nat) : forall c, 0 <= c -> c + 1 + Z.of_nat k <= P -> before c + len c <= before (c + 1 + Z.of_nat k).
Proof.
  induction k as [|k IH]; intros c Hc Hk.
  - rewrite Z.add_0_r, before_step by lia. lia.
  - specialize (IH c Hc ltac:(lia)). replace (c + 1 + Z.of_nat (S k)) with (c + 1 + Z.of_nat k + 1) by lia. rewrite before_step by lia.
    pose proof (Hlen (c + 1 + Z.of_nat k) ltac:(lia)). lia.
Qed.
Lemma before_lt c d : 0 <= c -> c < d -> d <= P -> before c + len c <= before d.
Proof. intros. replace d with (c + 1 + Z.of_nat (Z.to_nat (d - c - 1))) by lia. apply before_far; lia. Qed.
Lemma before_ge c : 0 <= c <= P -> 0 <= before c.
Proof.
  intros H. destruct (Z.eq_dec c 0) as [->|]; [rewrite before_zero; lia|]. pose proof (before_lt 0 c ltac:(lia) ltac:(lia) ltac:(lia)). pose proof (Hlen 0 ltac:(lia)). rewrite before_zero in *. lia.
Qed.
Lemma tot_pos : h < Tot.
Proof. pose proof (before_lt 0 P ltac:(lia) ltac:(lia) ltac:(lia)). pose proof (Hlen 0 ltac:(lia)). rewrite before_zero in *. lia. Qed.
Lemma before_cell c : 0 <= c < P -> before c + len c <= Tot.
Proof. intros. apply before_lt; lia. Qed.

Lemma prev_in c : 0 <= prev c < P. Proof. apply Z.mod_pos_bound. lia. Qed.
Lemma next_in c : 0 <= next c < P. Proof. apply Z.mod_pos_bound. lia. Qed.
Lemma prev_eq c : 0 <= c < P -> prev c = if c =? 0 then P - 1 else c - 1.
Proof.
  intros H. unfold prev. destruct (c =? 0) eqn:E; [|apply Z.mod_small; lia]. apply Z.eqb_eq in E. subst.
  replace (0 - 1) with (P - 1 + (-1) * P) by lia. rewrite Z.mod_add by lia. apply Z.mod_small. lia.
Qed.
Lemma next_eq c : 0 <= c < P -> next c = if c =? P - 1 then 0 else c + 1.
Proof.
  intros H. unfold next. destruct (c =? P - 1) eqn:E; [|apply Z.mod_small; lia]. apply Z.eqb_eq in E. subst.
  replace (P - 1 + 1) with (0 + 1 * P) by lia. rewrite Z.mod_add by lia. apply Z.mod_small. lia.
Qed.
Lemma prev_next c : 0 <= c < P -> prev (next c) = c.
Proof. intros H. rewrite prev_eq by apply next_in. rewrite next_eq by lia. destruct (c =? P - 1) eqn:E; [cbn; lia|]. destruct (c + 1 =? 0) eqn:E2; lia. Qed.
Lemma next_prev c : 0 <= c < P -> next (prev c) = c.
Proof. intros H. rewrite next_eq by apply prev_in. rewrite prev_eq by lia. destruct (c =? 0) eqn:E; [rewrite Z.eqb_refl; lia|]. destruct (c - 1 =? P - 1) eqn:E2; lia. Qed.

Definition range1 (c i : Z) : Prop := 0 <= c < P /\ - h <= i <= len c + h.

Lemma place_prev c i : 0 <= c < P -> ab && (c =? 0) = false -> place1 (prev c) (i + len (prev c)) = place1 c i.
Proof.
  intros Hc Hab. unfold place1. rewrite prev_eq by lia. destruct (c =? 0) eqn:E.
  - apply Z.eqb_eq in E. subst. destruct ab; [discriminate|]. pose proof (before_step (P - 1) ltac:(lia)) as S. replace (P - 1 + 1) with P in S by lia.
    replace (before (P - 1) + (i + len (P - 1))) with (before 0 + i + 1 * Tot) by (rewrite before_zero; lia). apply Z.mod_add. pose proof tot_pos. lia.
  - pose proof (before_step (c - 1) ltac:(lia)) as S. replace (c - 1 + 1) with c in S by lia. replace (before (c - 1) + (i + len (c - 1))) with (before c + i) by lia. reflexivity.
Qed.
Lemma place_next c i : 0 <= c < P -> ab && (c =? P - 1) = false -> place1 (next c) (i - len c) = place1 c i.
Proof.
  intros Hc Hab. rewrite <- (place_prev (next c)).
  - rewrite prev_next by lia. f_equal. lia.
  - apply next_in.
  - rewrite next_eq by lia. destruct (c =? P - 1) eqn:E; [destruct ab; [discriminate|reflexivity]|]. destruct ab; [|reflexivity]. cbn. lia.
Qed.

Lemma own_ok c i : range1 c i -> let '(c', i') := own1 c i in range1 c' i' /\ held1 c' i' = true /\ place1 c' i' = place1 c i.
Proof.
  intros (Hc & Hi). unfold own1. pose proof (prev_in c). pose proof (next_in c). pose proof (Hlen c Hc). pose proof (Hlen (prev c) ltac:(lia)). pose proof (Hlen (next c) ltac:(lia)). pose proof tot_pos.
  destruct (i <? 0) eqn:E1; [|destruct (len c <=? i) eqn:E2].
  - destruct (ab && (c =? 0)) eqn:E.
    + split; [split; lia|]. split; [|reflexivity]. apply andb_prop in E. destruct E as (E & E'). unfold held1. rewrite E. apply Z.eqb_eq in E'. subst c. rewrite before_zero. lia.
    + split; [split; lia|]. split; [unfold held1; lia|]. now apply place_prev.
  - destruct (ab && (c =? P - 1)) eqn:E.
    + split; [split; lia|]. split; [|reflexivity]. apply andb_prop in E. destruct E as (E & E'). unfold held1. rewrite E. apply Z.eqb_eq in E'. subst c.
      pose proof (before_step (P - 1) ltac:(lia)) as S. replace (P - 1 + 1) with P in S by lia. lia.
    + split; [split; lia|]. split; [unfold held1; lia|]. now apply place_next.
  - split; [split; lia|]. split; [unfold held1; lia|reflexivity].
Qed.

Lemma held_cases c i : range1 c i -> held1 c i = true ->
  (0 <= i < len c /\ 0 <= before c + i < Tot) \/ (ab = true /\ c = 0 /\ i < 0) \/ (ab = true /\ c = P - 1 /\ len c <= i).
Proof.
  intros (Hc & Hi) H. unfold held1 in H. pose proof (before_ge c ltac:(lia)). pose proof (before_cell c Hc).
  assert (A : 0 <= i < len c \/ ab = true /\ (before c + i < 0 \/ Tot <= before c + i)) by (destruct ab; lia).
  destruct A as [A|(A & B)]; [left; lia|right]. destruct B as [B|B].
  - left. split; [exact A|]. destruct (Z.eq_dec c 0) as [->|Hn]; [rewrite before_zero in B; lia|]. pose proof (before_lt 0 c ltac:(lia) ltac:(lia) ltac:(lia)). pose proof (Hlen 0 ltac:(lia)). rewrite before_zero in *. lia.
  - right. split; [exact A|]. destruct (Z.eq_dec c (P - 1)) as [->|Hn]; [pose proof (before_step (P - 1) ltac:(lia)) as S; replace (P - 1 + 1) with P in S by lia; lia|].
    pose proof (before_lt (c + 1) P ltac:(lia) ltac:(lia) ltac:(lia)). pose proof (Hlen (c + 1) ltac:(lia)). rewrite before_step in * by lia. lia.
Qed.
Lemma before_inj c i d j : 0 <= c < P -> 0 <= d < P -> 0 <= i < len c -> 0 <= j < len d -> before c + i = before d + j -> c = d /\ i = j.
Proof.
  intros Hc Hd Hi Hj E. destruct (Z.lt_trichotomy c d) as [L|[->|L]]; [|split; lia|].
  - pose proof (before_lt c d ltac:(lia) L ltac:(lia)). lia.
  - pose proof (before_lt d c ltac:(lia) L ltac:(lia)). lia.
Qed.
Lemma held_unique c i d j : range1 c i -> range1 d j -> held1 c i = true -> held1 d j = true -> place1 c i = place1 d j -> c = d /\ i = j.
Proof.
  intros R1 R2 H1 H2 E. apply held_cases in H1; [|exact R1]. apply held_cases in H2; [|exact R2]. destruct R1 as (Hc & Hi), R2 as (Hd & Hj). unfold place1 in E.
  pose proof (before_step (P - 1) ltac:(lia)) as S. replace (P - 1 + 1) with P in S by lia. pose proof tot_pos.
  destruct H1 as [(A1 & B1)|[(A1 & -> & B1)|(A1 & -> & B1)]]; destruct H2 as [(A2 & B2)|[(A2 & -> & B2)|(A2 & -> & B2)]]; try rewrite before_zero in *; try (destruct ab; [lia|congruence]).
  - apply before_inj; try lia. destruct ab; [exact E|]. rewrite !Z.mod_small in E by lia. exact E.
Qed.
Lemma own_unique c i d j : range1 c i -> range1 d j -> held1 d j = true -> place1 d j = place1 c i -> own1 c i = (d, j).
Proof.
  intros R1 R2 H E. pose proof (own_ok c i R1) as O. destruct (own1 c i) as [c' i']. destruct O as (R & H' & E'). destruct (held_unique c' i' d j R R2 H' H) as (-> & ->); [congruence|reflexivity].
Qed.

(** the copies of a node *)
Definition copies1 (c i : Z) : list (Z * Z) :=
  (c, i) :: (if (0 <=? i) && (i <=? h) && negb (ab && (c =? 0)) then [(prev c, i + len (prev c))] else [])
  ++ (if (len c - h <=? i) && (i <? len c) && negb (ab && (c =? P - 1)) then [(next c, i - len c)] else []).

Lemma copies_spec c i d j : range1 c i -> held1 c i = true -> (In (d, j) (copies1 c i) <-> range1 d j /\ place1 d j = place1 c i).
Proof.
  intros R H. pose proof (held_cases c i R H) as HC. pose proof R as (Hc & Hi). pose proof (prev_in c). pose proof (next_in c). pose proof (Hlen c Hc). pose proof (Hlen (prev c) ltac:(lia)). pose proof (Hlen (next c) ltac:(lia)).
  split.
  - unfold copies1. intros [E|In]; [injection E as <- <-; split; [exact R|reflexivity]|]. apply in_app_iff in In. destruct In as [In|In].
    + destruct ((0 <=? i) && (i <=? h) && negb (ab && (c =? 0))) eqn:E; [|destruct In]. destruct In as [In|[]]. injection In as <- <-. apply andb_prop in E. destruct E as (E & E'). apply negb_true_iff in E'. split; [split; lia|]. now apply place_prev.
    + destruct ((len c - h <=? i) && (i <? len c) && negb (ab && (c =? P - 1))) eqn:E; [|destruct In]. destruct In as [In|[]]. injection In as <- <-. apply andb_prop in E. destruct E as (E & E'). apply negb_true_iff in E'. split; [split; lia|]. now apply place_next.
  - intros (R' & E). pose proof (own_unique d j c i R' R H (eq_sym E)) as O. destruct R' as (Hd & Hj). unfold own1 in O. unfold copies1.
    destruct (j <? 0) eqn:E1; [|destruct (len d <=? j) eqn:E2].
    + destruct (ab && (d =? 0)) eqn:E3; [left; congruence|]. injection O as O1 O2. right. apply in_app_iff. right. subst c i. rewrite next_prev by lia.
      replace (len (prev d) - h <=? j + len (prev d)) with true by lia. replace (j + len (prev d) <? len (prev d)) with true by lia. cbn [andb].
      replace (ab && (prev d =? P - 1)) with false; [cbn; left; f_equal; lia|]. destruct ab; [|reflexivity]. cbn [andb] in *. rewrite prev_eq by lia. rewrite E3. lia.
    + destruct (ab && (d =? P - 1)) eqn:E3; [left; congruence|]. injection O as O1 O2. right. apply in_app_iff. left. subst c i. rewrite prev_next by lia.
      replace (0 <=? j - len d) with true by lia. replace (j - len d <=? h) with true by lia. cbn [andb].
      replace (ab && (next d =? 0)) with false; [cbn; left; f_equal; lia|]. destruct ab; [|reflexivity]. cbn [andb] in *. rewrite next_eq by lia. rewrite E3. lia.
    + left. congruence.
Qed.
Lemma copies_nodup c i : range1 c i -> NoDup (copies1 c i).
Proof.
  intros (Hc & Hi). pose proof (prev_in c). pose proof (Hlen c Hc). pose proof (Hlen (prev c) ltac:(lia)). unfold copies1.
  destruct ((0 <=? i) && (i <=? h) && negb (ab && (c =? 0))) eqn:E1; destruct ((len c - h <=? i) && (i <? len c) && negb (ab && (c =? P - 1))) eqn:E2; cbn [app];
    repeat (constructor; [cbn; intros X; repeat (destruct X as [X|X]; [injection X; intros; try lia|]); try exact X|]); try constructor.
Qed.
End Axis.
