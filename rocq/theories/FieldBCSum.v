(** The summation over the processes. *)
From Coq Require Import ZArith List Bool Lia Permutation Reals.
From Verif Require Import Cxx CxxLemmas Num NumRX Grid GridLemmas PartBC PartBCProofs PartBCReal FieldBC SpecFieldBC FieldBCAxis FieldBCMemory FieldBCWorld FieldBCProofs.
Import ListNotations.
Local Open Scope Z_scope.

Section Sum.
Context {N : NumOps}.
Variable L : layout.
Hypothesis HL : sound_layout L.
Notation np := (l_procs L).
Notation g := (l_guards L).
Notation n := (local_cells L).
Notation zero := (n_lit 0 0 : num N).

(** what process q sends, as a function of the node of the section that starts at w *)
Definition incoming (a : dir) (w v : Z) (q : option idx) (F : idx -> pstate (num N)) (p : idx) : num N :=
  match q with None => zero | Some q => value F (q, set_comp a (comp a p - w + v) p) end.
Definition plus_edge (a : dir) (w : Z) (x y : num N) (p : idx) : num N :=
  if (w <=? comp a p) && (comp a p <=? w + comp a g) then n_add x y else x.

Lemma repeat_map {X Y} (f : X -> Y) v l : (forall x, f x = v) -> repeat v (length l) = map f l.
Proof. intros H. induction l; cbn; [reflexivity|]. now rewrite IHl, H. Qed.

Lemma add_message_ok a w r (m : option (list (num N))) (h : idx -> num N) (st : pstate (num N)) : In r (processes np) -> - comp a g <= w <= comp a (n r) -> right_bounds L r (arr st) ->
  match m with Some m => m = map h (section (edge L a w) (subsizes a (n r) g)) | None => forall p, h p = zero end ->
  exists st', add_message n g a (edge L a w) r m st = Ret st' /\ right_bounds L r (arr st') /\ types st' = types st /\
    forall p, inside L r p -> gat (arr st') p = plus_edge a w (gat (arr st) p) (h p) p.
Proof.
  intros Hr Hw HB Hm. unfold add_message.
  assert (E : into_temp (volume (subsizes a (n r) g)) (Some zero) (match m with Some m => m | None => [] end) = Ret (map Some (map h (section (edge L a w) (subsizes a (n r) g))))).
  { pose proof (section_len (edge L a w) (subsizes a (n r) g) (fun b => sub_nonneg L HL a r b Hr)) as SL. destruct m as [m|].
    - subst m. apply into_temp_full. now rewrite len_map.
    - rewrite into_temp_none by (rewrite <- SL; unfold zlen; lia). rewrite <- SL. unfold zlen. rewrite Nat2Z.id. f_equal. rewrite map_map. apply repeat_map. intros p. now rewrite Hm. }
  rewrite E. cbn [bind].
  destruct (add_ok h (section (edge L a w) (subsizes a (n r) g)) (arr st)) as (G & EG & W).
  - apply nodup_section.
  - intros p Hp. apply (bounds_in L r _ p HB). now apply (edge_inside L HL a w).
  - rewrite EG. cbn [bind]. eexists. split; [reflexivity|]. cbn [arr types]. split; [exact (bounds_written L r _ _ _ _ HB W)|]. split; [reflexivity|].
    intros p Hp. destruct W as (_ & _ & W1 & W2). pose proof (in_edge L a w r p Hp Hw) as IE. unfold plus_edge. destruct ((w <=? comp a p) && (comp a p <=? w + comp a g)) eqn:Eb.
    + apply W1. apply IE. lia.
    + apply W2. intros X. apply IE in X. lia.
Qed.

Notation periodic := (fun _ : dir => false).
Lemma add_edge_ok k a s from into vf vi (F : idx -> pstate (num N)) : s = 1 \/ s = -1 -> Inv L F -> good_edges L k a from into vf vi F ->
  exists F', add_edge np n g k a s from into (start L F) = Ret (start L F') /\ Inv L F' /\ same_types L F F' /\
    forall r p, In r (processes np) -> inside L r p -> value F' (r, p) =
      plus_edge a (vi r) (value F (r, p)) (match towards L periodic a (- s) r with None => zero | Some q => value F (q, set_comp a (comp a p - vi r + vf q) p) end) p.
Proof.
  intros Hs HI H. unfold add_edge. change (proc_periodic np) with (proc np periodic).
  match goal with |- exists _, each ?f _ = _ /\ _ => destruct (each_start L F f (fun r st => right_bounds L r (arr st) /\ types st = types (F r) /\ forall p, inside L r p -> gat (arr st) p =
      plus_edge a (vi r) (value F (r, p)) (match towards L periodic a (- s) r with None => zero | Some q => value F (q, set_comp a (comp a p - vi r + vf q) p) end) p)) as (F' & E & HF) end; cycle 1; [exists F'; split; [exact E|]|].
  - split; [intros r Hr; exact (proj1 (HF r Hr))|]. split; [intros r Hr; exact (proj1 (proj2 (HF r Hr)))|]. intros r p Hr. exact (proj2 (proj2 (HF r Hr)) p).
  - intros r Hr. cbv beta. rewrite (sendrecv_ok L HL F periodic k a s (from a) vf r Hs HI Hr) by (intros q Hq; destruct (H q Hq) as (? & (? & ?) & _); repeat split; tauto).
    cbn [bind]. destruct (H r Hr) as (_ & _ & -> & Hv).
    destruct (towards L periodic a (- s) r) as [q|] eqn:Et.
    + pose proof (sub_same L _ _ _ _ _ Et) as Es. apply (add_message_ok a (vi r) r _ (fun p => value F (q, set_comp a (comp a p - vi r + vf q) p)) (F r) Hr Hv (HI r Hr)).
      exact (sends_section L F a q (vf q) (vi r) r Es).
    + apply (add_message_ok a (vi r) r _ (fun p => zero) (F r) Hr Hv (HI r Hr)). reflexivity.
Qed.

Definition from_below (ab : dir -> bool) (a : dir) (F : idx -> pstate (num N)) (r p : idx) : num N :=
  match towards L ab a (-1) r with None => zero | Some q => value F (q, set_comp a (comp a p - 0 + comp a (n q)) p) end.
Definition from_above (ab : dir -> bool) (a : dir) (F : idx -> pstate (num N)) (r p : idx) : num N :=
  match towards L ab a 1 r with None => zero | Some q => value F (q, set_comp a (comp a p - (comp a (n r) - comp a g) + - comp a g) p) end.

Lemma towards_comp ab a s r q : towards L ab a s r = Some q -> comp a q = (comp a r + s) mod comp a np.
Proof. unfold towards. destruct (ab a && _); intros E; [discriminate|]. injection E as <-. apply comp_set. Qed.
Lemma sent_ok ab k a (F : idx -> pstate (num N)) q r : Inv L F -> In q (processes np) -> types (F q) k = Some (right_type L a q) ->
  sent_to np n g ab k a (start L F) q r =
    Ret ((if same_proc (towards L ab a 1 q) r then [sends L F a q (comp a (n q))] else []) ++ (if same_proc (towards L ab a (-1) q) r then [sends L F a q (- comp a g)] else [])).
Proof.
  intros HI Hq Ht. pose proof (n_big L HL a q Hq). pose proof (g_pos L HL a). unfold sent_to. rewrite process_start by exact Hq. cbn [bind]. rewrite Ht. rewrite at_n_edge, at_lower_edge.
  rewrite !pack_edge by (try assumption; lia). cbn [bind]. now rewrite !proc_towards.
Qed.
Lemma idx_eqb_comp a q r : In q (processes np) -> In r (processes np) -> (forall b, b <> a -> comp b q = comp b r) -> idx_eqb q r = (comp a q =? comp a r).
Proof.
  intros _ _ H. apply eq_true_iff_eq. rewrite idx_eqb_eq, Z.eqb_eq. split; [now intros ->|]. intros E. apply idx_ext. intros b. destruct (dir_dec b a) as [->|Hn]; [exact E|now apply H].
Qed.

Lemma sum_axis_nb_ok ab k a (F : idx -> pstate (num N)) : Inv L F -> good_types L F -> type_entry k = Some a ->
  exists F', sum_axis_nb np n g ab k a (start L F) = Ret (start L F') /\ Inv L F' /\ good_types L F' /\
    forall r p, In r (processes np) -> inside L r p -> value F' (r, p) =
      plus_edge a (comp a (n r) - comp a g) (plus_edge a 0 (value F (r, p)) (from_below ab a F r p) p) (from_above ab a F r p) p.
Proof.
  intros HI HT Hk. destruct (make_types_ok L k a F Hk HI HT) as (F0 & E0 & I0 & T0 & K0 & A0).
  assert (V0 : forall r p, In r (processes np) -> value F0 (r, p) = value F (r, p)) by (intros r p Hr; unfold value; cbn; now rewrite A0).
  unfold sum_axis_nb. rewrite E0. cbn [bind].
  match goal with |- exists _, each ?f _ = _ /\ _ => destruct (each_start L F0 f (fun r st => right_bounds L r (arr st) /\ types st = types (F0 r) /\ forall p, inside L r p -> gat (arr st) p =
      plus_edge a (comp a (n r) - comp a g) (plus_edge a 0 (value F (r, p)) (from_below ab a F r p) p) (from_above ab a F r p) p)) as (F' & E & HF) end; cycle 1; [exists F'; split; [exact E|]|].
  - split; [intros r Hr; exact (proj1 (HF r Hr))|]. split; [apply (good_types_same L F0); [exact T0|]; intros r Hr; exact (proj1 (proj2 (HF r Hr)))|]. intros r p Hr. exact (proj2 (proj2 (HF r Hr)) p).
  - intros r Hr. cbv beta zeta. rewrite !proc_towards by exact Hr. pose proof (n_big L HL a r Hr) as Hn. pose proof (g_pos L HL a) as Hg.
    pose proof (proj1 (processes_comp _ _) Hr a) as Ra. pose proof (np_pos L HL a) as Pp.
    assert (M1 : (match towards L ab a (-1) r with None => Ret None | Some q => do l <- sent_to np n g ab k a (start L F0) q r; nth_message l 0 end) =
      Ret (match towards L ab a (-1) r with None => None | Some q => Some (sends L F0 a q (comp a (n q))) end)).
    { destruct (towards L ab a (-1) r) as [q|] eqn:Eq; [|reflexivity]. pose proof (towards_in L HL _ _ _ _ _ Hr Eq) as Hq. rewrite (sent_ok ab k a F0 q r I0 Hq (K0 q Hq)). cbn [bind].
      rewrite (towards_back L HL ab a 1 r q (or_introl eq_refl) Hr Eq). cbn [same_proc]. rewrite idx_eqb_refl. reflexivity. }
    assert (M2 : (match towards L ab a 1 r with None => Ret None | Some q => do l <- sent_to np n g ab k a (start L F0) q r; nth_message l (if same_proc (towards L ab a (-1) r) q then 1 else 0) end) =
      Ret (match towards L ab a 1 r with None => None | Some q => Some (sends L F0 a q (- comp a g)) end)).
    { destruct (towards L ab a 1 r) as [q|] eqn:Eq; [|reflexivity]. pose proof (towards_in L HL _ _ _ _ _ Hr Eq) as Hq. rewrite (sent_ok ab k a F0 q r I0 Hq (K0 q Hq)). cbn [bind].
      rewrite (towards_back L HL ab a (-1) r q (or_intror eq_refl) Hr Eq). cbn [same_proc]. rewrite idx_eqb_refl.
      assert (X : same_proc (towards L ab a 1 q) r = same_proc (towards L ab a (-1) r) q).
      { destruct (towards L ab a (-1) r) as [q'|] eqn:Eq'.
        - pose proof (towards_in L HL _ _ _ _ _ Hr Eq') as Hq'. pose proof (towards_back L HL ab a 1 r q' (or_introl eq_refl) Hr Eq') as B. cbn [same_proc].
          destruct (idx_eqb q' q) eqn:Ei; [apply idx_eqb_eq in Ei; subst q'; rewrite B; cbn; apply idx_eqb_refl|].
          destruct (towards L ab a 1 q) as [r'|] eqn:E1; [|reflexivity]. cbn [same_proc]. apply idx_eqb_neq. intros ->. apply idx_eqb_neq in Ei. apply Ei.
          pose proof (towards_back L HL ab a (-1) q r (or_intror eq_refl) Hq E1) as B'. congruence.
        - cbn [same_proc]. destruct (towards L ab a 1 q) as [r'|] eqn:E1; [|reflexivity]. cbn [same_proc]. apply idx_eqb_neq. intros ->.
          pose proof (towards_back L HL ab a (-1) q r (or_intror eq_refl) Hq E1) as B'. congruence. }
      rewrite X. destruct (same_proc (towards L ab a (-1) r) q); reflexivity. }
    rewrite M1, M2. cbn [bind]. rewrite at_zero_edge, at_n_minus_g_edge.
    destruct (add_message_ok a 0 r (match towards L ab a (-1) r with None => None | Some q => Some (sends L F0 a q (comp a (n q))) end) (from_below ab a F r) (F0 r) Hr ltac:(lia) (I0 r Hr)) as (st & Es & Bs & Ts & Vs).
    { unfold from_below. destruct (towards L ab a (-1) r) as [q|] eqn:Et; [|reflexivity]. pose proof (towards_in L HL _ _ _ _ _ Hr Et) as Hq. rewrite (sends_section L F0 a q _ 0 r (sub_same L _ _ _ _ _ Et)).
      apply map_ext. intros p. rewrite <- V0 by exact Hq. reflexivity. }
    rewrite Es. cbn [bind].
    destruct (add_message_ok a (comp a (n r) - comp a g) r (match towards L ab a 1 r with None => None | Some q => Some (sends L F0 a q (- comp a g)) end) (from_above ab a F r) st Hr ltac:(lia) Bs) as (st' & Es' & Bs' & Ts' & Vs').
    { unfold from_above. destruct (towards L ab a 1 r) as [q|] eqn:Et; [|reflexivity]. pose proof (towards_in L HL _ _ _ _ _ Hr Et) as Hq. rewrite (sends_section L F0 a q _ (comp a (n r) - comp a g) r (sub_same L _ _ _ _ _ Et)).
      apply map_ext. intros p. rewrite <- V0 by exact Hq. reflexivity. }
    exists st'. split; [exact Es'|]. split; [exact Bs'|]. split; [now rewrite Ts'|]. intros p Hp. rewrite Vs', Vs by exact Hp. rewrite <- V0 by exact Hr. reflexivity.
Qed.

(** blocking: the second message is taken from the arrays after the first addition *)
Lemma sum_axis_ok k a (F : idx -> pstate (num N)) : Inv L F -> good_types L F -> type_entry k = Some a ->
  exists F1 F', sum_axis np n g k a (start L F) = Ret (start L F') /\ Inv L F' /\ good_types L F' /\
    (forall r p, In r (processes np) -> inside L r p -> value F1 (r, p) = plus_edge a 0 (value F (r, p)) (from_below periodic a F r p) p) /\
    (forall r p, In r (processes np) -> inside L r p -> value F' (r, p) = plus_edge a (comp a (n r) - comp a g) (value F1 (r, p)) (from_above periodic a F1 r p) p).
Proof.
  intros HI HT Hk. destruct (make_types_ok L k a F Hk HI HT) as (F0 & E0 & I0 & T0 & K0 & A0).
  assert (V0 : forall r p, In r (processes np) -> value F0 (r, p) = value F (r, p)) by (intros r p Hr; unfold value; cbn; now rewrite A0).
  assert (S1 : -1 = 1 \/ -1 = -1) by (right; reflexivity). assert (S2 : 1 = 1 \/ 1 = -1) by (left; reflexivity).
  assert (G1 : good_edges L k a (at_n n g) (at_zero g) (fun r => comp a (n r)) (fun _ => 0) F0).
  { intros q Hq. pose proof (n_big L HL a q Hq). pose proof (g_pos L HL a). split; [now apply K0|]. split; split; try reflexivity; lia. }
  destruct (add_edge_ok k a 1 _ _ _ _ F0 S2 I0 G1) as (F1 & E1 & I1 & T1 & V1).
  assert (G2 : good_edges L k a (at_lower g) (at_n_minus_g n g) (fun _ => - comp a g) (fun r => comp a (n r) - comp a g) F1).
  { intros q Hq. pose proof (n_big L HL a q Hq). pose proof (g_pos L HL a). split; [rewrite T1 by exact Hq; now apply K0|]. split; (split; [first [reflexivity|apply at_lower_edge]|lia]). }
  destruct (add_edge_ok k a (-1) _ _ _ _ F1 S1 I1 G2) as (F2 & E2 & I2 & T2 & V2).
  exists F1, F2. split; [unfold sum_axis; rewrite E0; cbn [bind]; rewrite E1; cbn [bind]; exact E2|]. split; [exact I2|]. split; [apply (good_types_same L F1); [now apply (good_types_same L F0)|exact T2]|].
  split.
  - intros r p Hr Hp. rewrite V1 by assumption. rewrite V0 by exact Hr. unfold from_below. change (- (1)) with (-1). destruct (towards L periodic a (-1) r) as [q|] eqn:Et; [|reflexivity].
    pose proof (towards_in L HL _ _ _ _ _ Hr Et) as Hq. now rewrite V0.
  - intros r p Hr Hp. rewrite V2 by assumption. reflexivity.
Qed.

(** the three axes, without arithmetic *)
Lemma charge_bcs_shape blocking (F : idx -> pstate (num N)) : Inv L F -> good_types L F ->
  exists FX, (exists F', charge_bcs np n g blocking (l_absorbing L) (start L F) = Ret (start L F') /\ Inv L F' /\ good_types L F' /\ forall x, is_node L x -> value F' x = value FX (own3 L x)).
Proof.
  intros HI HT. unfold charge_bcs. destruct blocking.
  - destruct (sum_axis_ok 7 DirX F HI HT eq_refl) as (_ & F1 & E1 & I1 & T1 & _). destruct (sum_axis_ok 8 DirY F1 I1 T1 eq_refl) as (_ & F2 & E2 & I2 & T2 & _).
    destruct (sum_axis_ok 9 DirZ F2 I2 T2 eq_refl) as (_ & F3 & E3 & I3 & T3 & _). destruct (field_bc_ok L HL true F3 I3 T3) as (F4 & E4 & I4 & T4 & V4).
    exists F3, F4. split; [unfold summation_bcs; rewrite E1; cbn [bind]; rewrite E2; cbn [bind]; rewrite E3; cbn [bind]; exact E4|]. split; [exact I4|]. now split.
  - destruct (sum_axis_nb_ok (l_absorbing L) 10 DirX F HI HT eq_refl) as (F1 & E1 & I1 & T1 & _). destruct (sum_axis_nb_ok (l_absorbing L) 11 DirY F1 I1 T1 eq_refl) as (F2 & E2 & I2 & T2 & _).
    destruct (sum_axis_nb_ok (l_absorbing L) 12 DirZ F2 I2 T2 eq_refl) as (F3 & E3 & I3 & T3 & _). destruct (field_bc_ok L HL false F3 I3 T3) as (F4 & E4 & I4 & T4 & V4).
    exists F3, F4. split; [unfold summation_bcs_nonblocking; rewrite E1; cbn [bind]; rewrite E2; cbn [bind]; rewrite E3; cbn [bind]; exact E4|]. split; [exact I4|]. now split.
Qed.
End Sum.

(** C112, any arithmetic *)
Lemma copies_agree (N : NumOps) (L : layout) (blocking : bool) (F : idx -> pstate (num N)) : sound_layout L -> right_start L F ->
  exists F', charge_bcs (l_procs L) (local_cells L) (l_guards L) blocking (l_absorbing L) (start L F) = Ret (start L F') /\ right_start L F' /\
    forall x y, In x (nodes L) -> In y (nodes L) -> same_node L x y = true -> value F' x = value F' y.
Proof.
  intros HL H. destruct (start_inv L F H) as (HI & HT). destruct (charge_bcs_shape L HL blocking F HI HT) as (FX & F' & E & I & T & V). exists F'. split; [exact E|].
  split; [intros r Hr; split; [now apply I|now apply T]|]. intros x y Hx Hy S. apply in_nodes in Hx. apply in_nodes in Hy. rewrite !V by assumption. f_equal.
  destruct (own3_spec L HL y Hy) as (Ny & Ry & Sy). apply own3_unique; try assumption. exact (same_trans L _ _ _ S Sy).
Qed.
