(** One exchange between neighbouring processes. *)
From Coq Require Import ZArith List Bool Lia.
From Verif Require Import Cxx CxxLemmas Num Grid GridLemmas PartBC PartBCProofs PartBCReal FieldBC SpecFieldBC FieldBCAxis FieldBCMemory.
Import ListNotations.
Local Open Scope Z_scope.

Lemma processes_comp np r : In r (processes np) <-> forall a, 0 <= comp a r < comp a np.
Proof.
  destruct r as [[x y] z]. rewrite in_processes. destruct np as [[n1 n2] n3]. split.
  - intros H a. destruct a; cbn; lia.
  - intros H. pose proof (H DirX). pose proof (H DirY). pose proof (H DirZ). cbn in *. lia.
Qed.
Lemma in_processes_set np a c r : In r (processes np) -> 0 <= c < comp a np -> In (set_comp a c r) (processes np).
Proof.
  rewrite !processes_comp. intros H Hc b. destruct (dir_dec a b) as [<-|Hn]; [now rewrite comp_set|]. rewrite comp_set_other by exact Hn. apply H.
Qed.
Lemma neighbour_set np a s r : In r (processes np) -> neighbour np r (step a s) = set_comp a ((comp a r + s) mod comp a np) r.
Proof.
  rewrite processes_comp. intros H. apply idx_ext. intros b. pose proof (H b) as Hb. destruct np as [[n1 n2] n3], r as [[x y] z].
  destruct a, b; cbn in *; try reflexivity; rewrite Z.add_0_r; apply Z.mod_small; lia.
Qed.

Section World.
Context {A : Type}.
Variable L : layout.
Hypothesis HL : sound_layout L.
Notation np := (l_procs L).
Notation g := (l_guards L).
Notation n := (local_cells L).

Lemma np_pos a : 1 <= comp a np. Proof. apply HL. Qed.
Lemma g_pos a : 0 <= comp a g. Proof. apply HL. Qed.
Lemma comp_n a r : comp a (n r) = l_cells L a (comp a r).
Proof. destruct a; reflexivity. Qed.
Lemma n_big a r : In r (processes np) -> comp a g < comp a (n r).
Proof. intros H. rewrite comp_n. apply HL. now apply processes_comp. Qed.
Lemma n_set a b c r : a <> b -> comp b (n (set_comp a c r)) = comp b (n r).
Proof. intros H. rewrite !comp_n. now rewrite comp_set_other. Qed.

Definition inside (r p : idx) : Prop := forall a, - comp a g <= comp a p <= comp a (n r) + comp a g.
Lemma inside_local r p : inside r p <-> In p (local_nodes L r).
Proof.
  unfold local_nodes, inside. destruct (g) as [[g1 g2] g3] eqn:Eg, (n r) as [[n1 n2] n3] eqn:En. rewrite in_box_box, in_box_comp. split; intros H a; specialize (H a); destruct a; cbn in *; lia.
Qed.
Lemma bounds_eq r (G : grid A) : right_bounds L r G <-> glo G = lower g /\ ghi G = upper (n r) g.
Proof.
  unfold right_bounds, lower, upper. destruct (g) as [[g1 g2] g3], (n r) as [[n1 n2] n3]. cbn [opposite map3]. reflexivity.
Qed.
Lemma bounds_in r (G : grid A) p : right_bounds L r G -> in_box (glo G) (ghi G) p = true <-> inside r p.
Proof.
  rewrite bounds_eq. intros (-> & ->). rewrite in_box_comp. unfold inside, lower, upper. split; intros H a; specialize (H a); rewrite comp_map3, comp_opposite in *; lia.
Qed.
Lemma bounds_extent r (G : grid A) : right_bounds L r G -> extent G = sizes (n r) g.
Proof.
  rewrite bounds_eq. intros (E1 & E2). unfold extent. rewrite E1, E2. apply idx_ext. intros a. unfold sizes, lower, upper. rewrite !comp_map3, comp_opposite. lia.
Qed.
Lemma bounds_written r (G G' : grid A) ps f : right_bounds L r G -> written G G' ps f -> right_bounds L r G'.
Proof. rewrite !bounds_eq. intros (E1 & E2) (F1 & F2 & _). split; congruence. Qed.

Definition Inv (F : idx -> pstate A) : Prop := forall r, In r (processes np) -> right_bounds L r (arr (F r)).
Definition right_type (a : dir) (r : idx) : dtype := (subsizes a (n r) g, sizes (n r) g).

Lemma process_start (F : idx -> pstate A) r : In r (processes np) -> process (start L F) r = Ret (F r).
Proof.
  unfold start. induction (processes np) as [|q l IH]; intros H; [destruct H|]. cbn [map process]. destruct (idx_eqb q r) eqn:E; [apply idx_eqb_eq in E; now subst|].
  destruct H as [->|H]; [rewrite idx_eqb_refl in E; discriminate|]. now apply IH.
Qed.
Lemma each_start (F : idx -> pstate A) f (Q : idx -> pstate A -> Prop) :
  (forall r, In r (processes np) -> exists st, f r (F r) = Ret st /\ Q r st) ->
  exists F', each f (start L F) = Ret (start L F') /\ forall r, In r (processes np) -> Q r (F' r).
Proof.
  intros H. destruct (choice_list (F (0, 0, 0)) (fun r st => f r (F r) = Ret st /\ Q r st) (processes np) H) as (F' & HF).
  exists F'. split; [|intros r Hr; now apply HF]. unfold each, start. rewrite mapM_map. apply mapM_ret. intros r Hr. cbn [fst snd]. destruct (HF r Hr) as (-> & _). reflexivity.
Qed.

(** *** Neighbours *)
Definition towards (ab : dir -> bool) (a : dir) (s : Z) (r : idx) : option idx :=
  if ab a && (comp a r =? (if s =? -1 then 0 else comp a np - 1)) then None else Some (set_comp a ((comp a r + s) mod comp a np) r).
Lemma proc_towards ab a s r : In r (processes np) -> proc np ab a s r = towards ab a s r.
Proof. intros H. unfold proc, towards. now rewrite neighbour_set. Qed.
Lemma towards_in ab a s r q : In r (processes np) -> towards ab a s r = Some q -> In q (processes np).
Proof.
  unfold towards. destruct (ab a && _); intros H E; [discriminate|]. injection E as <-. apply in_processes_set; [exact H|]. apply Z.mod_pos_bound. pose proof (np_pos a). lia.
Qed.
Lemma towards_axis ab a s r q : towards ab a s r = Some q -> forall b, b <> a -> comp b q = comp b r.
Proof. unfold towards. destruct (ab a && _); intros E b Hb; [discriminate|]. injection E as <-. apply comp_set_other. congruence. Qed.
Lemma towards_back ab a s r q : s = 1 \/ s = -1 -> In r (processes np) -> towards ab a (- s) r = Some q -> towards ab a s q = Some r.
Proof.
  intros Hs Hr H. pose proof (towards_in _ _ _ _ _ Hr H) as Hq. unfold towards in *. destruct (ab a && (comp a r =? (if - s =? -1 then 0 else comp a np - 1))) eqn:E; [discriminate|]. injection H as <-.
  rewrite comp_set, set_set. pose proof (proj1 (processes_comp _ _) Hr a) as Ra. pose proof (np_pos a) as Ha.
  replace (((comp a r + - s) mod comp a np + s) mod comp a np) with (comp a r) by (rewrite Zplus_mod_idemp_l; replace (comp a r + - s + s) with (comp a r) by lia; symmetry; apply Z.mod_small; lia).
  rewrite set_same. destruct (ab a); [|reflexivity]. cbn [andb] in *. destruct Hs as [-> | ->]; cbn [Z.eqb Pos.eqb Z.opp] in *.
  - rewrite Z.mod_small by lia. replace (comp a r + -1 =? comp a np - 1) with false by lia. reflexivity.
  - rewrite Z.mod_small by lia. replace (comp a r + 1 =? 0) with false by lia. reflexivity.
Qed.
Lemma sub_same ab a s r q : towards ab a s r = Some q -> subsizes a (n q) g = subsizes a (n r) g.
Proof.
  intros H. unfold subsizes. apply idx_ext. intros b. destruct (dir_dec a b) as [<-|Hn]; [now rewrite !comp_set|]. rewrite !comp_set_other by exact Hn.
  unfold sizes. rewrite !comp_map3, !comp_n. now rewrite (towards_axis _ _ _ _ _ H b) by congruence.
Qed.

(** *** The sections *)
(** a section that starts at v along the axis a *)
Definition edge (a : dir) (v : Z) : idx := set_comp a v (lower g).
Lemma in_edge a v r p : inside r p -> - comp a g <= v <= comp a (n r) -> (In p (section (edge a v) (subsizes a (n r) g)) <-> v <= comp a p <= v + comp a g).
Proof.
  intros Hp Hv. rewrite in_section. unfold edge, subsizes, lower. split.
  - intros H. specialize (H a). rewrite !comp_set in H. lia.
  - intros H b. destruct (dir_dec a b) as [<-|Hn]; [rewrite !comp_set; lia|]. rewrite !comp_set_other by exact Hn. unfold sizes. rewrite comp_map3, comp_opposite. specialize (Hp b). lia.
Qed.
Lemma edge_inside a v r p : - comp a g <= v <= comp a (n r) -> In r (processes np) -> In p (section (edge a v) (subsizes a (n r) g)) -> inside r p.
Proof.
  intros Hv Hr. rewrite in_section. unfold edge, subsizes, lower. intros H b. specialize (H b). pose proof (g_pos b). destruct (dir_dec a b) as [<-|Hn]; [rewrite !comp_set in H; lia|].
  rewrite !comp_set_other in H by exact Hn. unfold sizes in H. rewrite comp_map3, comp_opposite in H. lia.
Qed.
Lemma edge_first a v r : - comp a g <= v <= comp a (n r) -> In r (processes np) -> inside r (edge a v).
Proof.
  intros Hv Hr b. unfold edge, lower. pose proof (g_pos b). pose proof (n_big b r Hr). destruct (dir_dec a b) as [<-|Hn]; [rewrite comp_set; lia|]. rewrite comp_set_other by exact Hn. rewrite comp_opposite. lia.
Qed.
Lemma sub_nonneg a r b : In r (processes np) -> 0 <= comp b (subsizes a (n r) g).
Proof.
  intros Hr. pose proof (g_pos b). pose proof (n_big b r Hr). unfold subsizes. destruct (dir_dec a b) as [<-|Hn]; [rewrite comp_set; lia|]. rewrite comp_set_other by exact Hn. unfold sizes. rewrite comp_map3. lia.
Qed.
Lemma edge_shift a v w p : map3 Z.add p (map3 Z.sub (edge a w) (edge a v)) = set_comp a (comp a p - v + w) p.
Proof.
  apply idx_ext. intros b. rewrite !comp_map3. unfold edge. destruct (dir_dec a b) as [<-|Hn]; [rewrite !comp_set; lia|]. rewrite !comp_set_other by exact Hn. lia.
Qed.
Lemma at_zero_edge a r : at_zero g a r = edge a 0. Proof. reflexivity. Qed.
Lemma at_n_edge a r : at_n n g a r = edge a (comp a (n r)). Proof. reflexivity. Qed.
Lemma at_n_minus_g_edge a r : at_n_minus_g n g a r = edge a (comp a (n r) - comp a g). Proof. reflexivity. Qed.
Lemma at_lower_edge a r : at_lower g a r = edge a (- comp a g).
Proof. unfold at_lower, edge, lower. rewrite <- comp_opposite. now rewrite set_same. Qed.

(** the values that process q sends *)
Definition sends (F : idx -> pstate A) (a : dir) (q : idx) (v : Z) : list A := map (gat (arr (F q))) (section (edge a v) (subsizes a (n q) g)).
Lemma pack_edge F a q v : Inv F -> In q (processes np) -> - comp a g <= v <= comp a (n q) -> pack (right_type a q) (arr (F q)) (edge a v) = Ret (sends F a q v).
Proof.
  intros HI Hq Hv. unfold right_type. rewrite <- (bounds_extent q _ (HI q Hq)). apply pack_ok.
  - intros p Hp. apply (bounds_in q _ p (HI q Hq)). now apply (edge_inside a v).
  - apply (bounds_in q _ _ (HI q Hq)). now apply edge_first.
Qed.
Lemma sendrecv_ok F ab k a s (from : idx -> idx) vf r : s = 1 \/ s = -1 -> Inv F -> In r (processes np) ->
  (forall q, In q (processes np) -> types (F q) k = Some (right_type a q) /\ from q = edge a (vf q) /\ - comp a g <= vf q <= comp a (n q)) ->
  sendrecv (proc np ab) k a s from (start L F) r = Ret (match towards ab a (- s) r with None => None | Some q => Some (sends F a q (vf q)) end).
Proof.
  intros Hs HI Hr H. unfold sendrecv. rewrite proc_towards by exact Hr. destruct (towards ab a (- s) r) as [q|] eqn:E; [|reflexivity].
  pose proof (towards_in _ _ _ _ _ Hr E) as Hq. rewrite (proc_towards ab a s q Hq), (towards_back ab a s r q Hs Hr E). cbn [same_proc]. rewrite idx_eqb_refl. cbn [negb].
  rewrite process_start by exact Hq. cbn [bind]. destruct (H q Hq) as (-> & -> & Hv). rewrite pack_edge by assumption. reflexivity.
Qed.
(** the same values as an assignment to the section that starts at w *)
Lemma sends_section F a q v w r : subsizes a (n q) g = subsizes a (n r) g ->
  sends F a q v = map (fun p => gat (arr (F q)) (set_comp a (comp a p - w + v) p)) (section (edge a w) (subsizes a (n r) g)).
Proof.
  intros E. unfold sends. rewrite E. rewrite (section_section (edge a w) (edge a v)), map_map. apply map_ext. intros p. now rewrite edge_shift.
Qed.

Definition moved_to (ab : dir -> bool) (a : dir) (s : Z) (vf vi : idx -> Z) (F : idx -> pstate A) (r p : idx) : A :=
  match towards ab a (- s) r with
  | None => value F (r, p)
  | Some q => if (vi r <=? comp a p) && (comp a p <=? vi r + comp a g) then value F (q, set_comp a (comp a p - vi r + vf q) p) else value F (r, p)
  end.
Definition same_types (F F' : idx -> pstate A) : Prop := forall r, In r (processes np) -> types (F' r) = types (F r).

Lemma written_value F a v r (f : idx -> A) G : Inv F -> In r (processes np) -> - comp a g <= v <= comp a (n r) ->
  written (arr (F r)) G (section (edge a v) (subsizes a (n r) g)) f ->
  forall p, inside r p -> gat G p = if (v <=? comp a p) && (comp a p <=? v + comp a g) then f p else value F (r, p).
Proof.
  intros HI Hr Hv (_ & _ & W1 & W2) p Hp. pose proof (in_edge a v r p Hp Hv) as IE. destruct ((v <=? comp a p) && (comp a p <=? v + comp a g)) eqn:E.
  - apply W1. apply IE. lia.
  - apply W2. intros X. apply IE in X. lia.
Qed.

Definition good_edges (k : Z) (a : dir) (from into : dir -> idx -> idx) (vf vi : idx -> Z) (F : idx -> pstate A) : Prop :=
  forall q, In q (processes np) -> types (F q) k = Some (right_type a q) /\
    (from a q = edge a (vf q) /\ - comp a g <= vf q <= comp a (n q)) /\ (into a q = edge a (vi q) /\ - comp a g <= vi q <= comp a (n q)).

Lemma move_edge_ok ab k a s from into vf vi F : s = 1 \/ s = -1 -> Inv F -> good_edges k a from into vf vi F ->
  exists F', move_edge np n g ab k a s from into (start L F) = Ret (start L F') /\ Inv F' /\ same_types F F' /\
    forall r p, In r (processes np) -> inside r p -> value F' (r, p) = moved_to ab a s vf vi F r p.
Proof.
  intros Hs HI H. unfold move_edge.
  match goal with |- exists _, each ?f _ = _ /\ _ => destruct (each_start F f (fun r st => right_bounds L r (arr st) /\ types st = types (F r) /\ forall p, inside r p -> gat (arr st) p = moved_to ab a s vf vi F r p)) as (F' & E & HF) end; cycle 1; [exists F'; split; [exact E|]|].
  - split; [intros r Hr; exact (proj1 (HF r Hr))|]. split; [intros r Hr; exact (proj1 (proj2 (HF r Hr)))|]. intros r p Hr. exact (proj2 (proj2 (HF r Hr)) p).
  - intros r Hr. cbv beta. rewrite (sendrecv_ok F ab k a s (from a) vf r Hs HI Hr) by (intros q Hq; destruct (H q Hq) as (? & (? & ?) & _); repeat split; tauto).
    cbn [bind]. unfold moved_to. destruct (towards ab a (- s) r) as [q|] eqn:Et.
    + destruct (H r Hr) as (Hty & _ & Hi & Hv). pose proof (sub_same _ _ _ _ _ Et) as Es. rewrite (sends_section F a q (vf q) (vi r) r Es).
      rewrite into_temp_full by (rewrite len_map; apply section_len; intros b; now apply sub_nonneg). cbn [bind]. rewrite Hi.
      destruct (copy_ok (fun p => gat (arr (F q)) (set_comp a (comp a p - vi r + vf q) p)) (section (edge a (vi r)) (subsizes a (n r) g)) (arr (F r))) as (G & E & W).
      * apply nodup_section.
      * intros p Hp. apply (bounds_in r _ p (HI r Hr)). now apply (edge_inside a (vi r)).
      * rewrite E. cbn [bind]. eexists. split; [reflexivity|]. split; [exact (bounds_written r _ _ _ _ (HI r Hr) W)|]. split; [reflexivity|]. cbn [fst snd value arr].
        intros p Hp. exact (written_value F a (vi r) r _ G HI Hr Hv W p Hp).
    + exists (F r). split; [reflexivity|]. split; [now apply HI|]. split; reflexivity.
Qed.
Lemma move_edge_nb_ok ab k a s from into vf vi F : s = 1 \/ s = -1 -> Inv F -> good_edges k a from into vf vi F ->
  exists F', move_edge_nb np ab k a s from into (start L F) = Ret (start L F') /\ Inv F' /\ same_types F F' /\
    forall r p, In r (processes np) -> inside r p -> value F' (r, p) = moved_to ab a s vf vi F r p.
Proof.
  intros Hs HI H. unfold move_edge_nb.
  match goal with |- exists _, each ?f _ = _ /\ _ => destruct (each_start F f (fun r st => right_bounds L r (arr st) /\ types st = types (F r) /\ forall p, inside r p -> gat (arr st) p = moved_to ab a s vf vi F r p)) as (F' & E & HF) end; cycle 1; [exists F'; split; [exact E|]|].
  - split; [intros r Hr; exact (proj1 (HF r Hr))|]. split; [intros r Hr; exact (proj1 (proj2 (HF r Hr)))|]. intros r p Hr. exact (proj2 (proj2 (HF r Hr)) p).
  - intros r Hr. cbv beta. rewrite (sendrecv_ok F ab k a s (from a) vf r Hs HI Hr) by (intros q Hq; destruct (H q Hq) as (? & (? & ?) & _); repeat split; tauto).
    cbn [bind]. unfold moved_to. destruct (towards ab a (- s) r) as [q|] eqn:Et.
    + destruct (H r Hr) as (Hty & _ & Hi & Hv). pose proof (sub_same _ _ _ _ _ Et) as Es. rewrite (sends_section F a q (vf q) (vi r) r Es). rewrite Hty, Hi.
      unfold right_type. rewrite <- (bounds_extent r _ (HI r Hr)).
      destruct (unpack_ok (fun p => gat (arr (F q)) (set_comp a (comp a p - vi r + vf q) p)) (arr (F r)) (subsizes a (n r) g) (edge a (vi r))) as (G & E & W).
      * intros p Hp. apply (bounds_in r _ p (HI r Hr)). now apply (edge_inside a (vi r)).
      * apply (bounds_in r _ _ (HI r Hr)). now apply edge_first.
      * rewrite E. cbn [bind]. eexists. split; [reflexivity|]. split; [exact (bounds_written r _ _ _ _ (HI r Hr) W)|]. split; [reflexivity|]. cbn [fst snd value arr].
        intros p Hp. exact (written_value F a (vi r) r _ G HI Hr Hv W p Hp).
    + exists (F r). split; [reflexivity|]. split; [now apply HI|]. split; reflexivity.
Qed.

(** *** The types *)
Definition good_types (F : idx -> pstate A) : Prop := forall r, In r (processes np) -> right_types L r (types (F r)).
Lemma make_types_ok k a F : type_entry k = Some a -> Inv F -> good_types F ->
  exists F', make_types n g k a (start L F) = Ret (start L F') /\ Inv F' /\ good_types F' /\
    (forall r, In r (processes np) -> types (F' r) k = Some (right_type a r)) /\ (forall r, In r (processes np) -> arr (F' r) = arr (F r)).
Proof.
  intros Hk HI HT. unfold make_types.
  match goal with |- exists _, each ?f _ = _ /\ _ => destruct (each_start F f (fun r st => right_bounds L r (arr st) /\ right_types L r (types st) /\ types st k = Some (right_type a r) /\ arr st = arr (F r))) as (F' & E & HF) end; cycle 1; [exists F'; split; [exact E|]|].
  - split; [intros r Hr; exact (proj1 (HF r Hr))|]. split; [intros r Hr; exact (proj1 (proj2 (HF r Hr)))|]. split; [intros r Hr; exact (proj1 (proj2 (proj2 (HF r Hr))))|]. intros r Hr. exact (proj2 (proj2 (proj2 (HF r Hr)))).
  - intros r Hr. cbv beta. eexists. split; [reflexivity|]. unfold make_type. destruct (types (F r) k) as [t|] eqn:Et.
    + split; [now apply HI|]. split; [now apply HT|]. split; [|reflexivity]. rewrite Et. f_equal. exact (HT r Hr k a t Hk Et).
    + cbn [arr types]. split; [now apply HI|]. split; [|split; [now rewrite Z.eqb_refl|reflexivity]]. intros j b t Hj. destruct (j =? k) eqn:Ej; [|now apply (HT r Hr)].
      apply Z.eqb_eq in Ej. subst j. intros X. injection X as <-. rewrite Hk in Hj. injection Hj as <-. reflexivity.
Qed.
Lemma good_types_same F F' : good_types F -> same_types F F' -> good_types F'.
Proof. intros H E r Hr. rewrite (E r Hr). now apply H. Qed.

(** *** Exchange along one axis *)
Definition owner (a : dir) (x : node) : node :=
  let '(c, i) := own1 (comp a np) (l_cells L a) (l_absorbing L a) (comp a (fst x)) (comp a (snd x)) in (set_comp a c (fst x), set_comp a i (snd x)).

Lemma both_edges a F F1 F2 : 
  (forall r p, In r (processes np) -> inside r p -> value F1 (r, p) = moved_to (l_absorbing L) a (-1) (fun _ => 0) (fun r => comp a (n r)) F r p) ->
  (forall r p, In r (processes np) -> inside r p -> value F2 (r, p) = moved_to (l_absorbing L) a 1 (fun r => comp a (n r) - comp a g) (fun _ => - comp a g) F1 r p) ->
  forall r p, In r (processes np) -> inside r p -> value F2 (r, p) = value F (owner a (r, p)).
Proof.
  intros H1 H2 r p Hr Hp. rewrite H2 by assumption. unfold moved_to, towards. pose proof (g_pos a) as Hg. pose proof (n_big a r Hr) as Hn. pose proof (proj1 (processes_comp _ _) Hr a) as Ra. pose proof (Hp a) as Pa. pose proof (np_pos a) as Pp.
  cbn [Z.opp Z.eqb Pos.eqb]. change ((comp a r + -1) mod comp a np) with (prev (comp a np) (comp a r)). set (c := comp a r) in *.
  pose proof (prev_in (comp a np) Pp c) as Rp. pose proof (next_in (comp a np) Pp c) as Rn.
  assert (Hq : In (set_comp a (prev (comp a np) c) r) (processes np)) by (apply in_processes_set; assumption).
  pose proof (n_big a _ Hq) as Hnq. rewrite comp_n, comp_set in Hnq. rewrite comp_n in Hn. fold c in Hn.
  cbv beta. unfold owner, own1. cbn [fst snd]. fold c.
  assert (Nm : comp a (n (set_comp a (prev (comp a np) c) r)) = l_cells L a (prev (comp a np) c)) by (now rewrite comp_n, comp_set).
  set (m := prev (comp a np) c) in *.
  (* what the first move leaves at (r, p) when p is not an upper guard *)
  assert (Low : forall q i, In q (processes np) -> inside q (set_comp a i p) -> i < comp a (n q) -> value F1 (q, set_comp a i p) = value F (q, set_comp a i p)).
  { intros q i Hq' Hi Hl. rewrite H1 by assumption. unfold moved_to. destruct (towards _ a (- -1) q); [|reflexivity]. rewrite comp_set. replace (comp a (n q) <=? i) with false by lia. reflexivity. }
  assert (Ins : forall i, - comp a g <= i <= l_cells L a m + comp a g -> inside (set_comp a m r) (set_comp a i p)).
  { intros i Hi b. destruct (dir_dec a b) as [<-|Hb]; [rewrite comp_set, comp_n, comp_set; lia|]. rewrite comp_set_other, n_set by exact Hb. apply Hp. }
  destruct (comp a p <? 0) eqn:E1.
  - (* lower guard *)
    destruct (l_absorbing L a && (c =? 0)) eqn:Ec.
    + replace (value F1 (r, p)) with (value F1 (r, set_comp a (comp a p) p)) by (now rewrite set_same). rewrite Low; [unfold c; now rewrite !set_same|exact Hr|now rewrite set_same|rewrite comp_n; fold c; lia].
    + rewrite Nm. replace (- comp a g <=? comp a p) with true by lia. replace (comp a p <=? - comp a g + comp a g) with true by lia. cbn [andb].
      replace (comp a p - - comp a g + (l_cells L a m - comp a g)) with (comp a p + l_cells L a m) by lia. apply Low; [exact Hq|apply Ins; lia|rewrite comp_n, comp_set; lia].
  - destruct (Z.eq_dec (comp a p) 0) as [E0|E0].
    + (* the first own node comes back from the neighbour *)
      replace (l_cells L a c <=? comp a p) with false by lia. replace (set_comp a c r) with r by (unfold c; now rewrite set_same). rewrite set_same. destruct (l_absorbing L a && (c =? 0)) eqn:Ec.
      * replace (value F1 (r, p)) with (value F1 (r, set_comp a (comp a p) p)) by (now rewrite set_same). rewrite Low; [now rewrite set_same|exact Hr|now rewrite set_same|rewrite comp_n; fold c; lia].
      * rewrite Nm. replace (- comp a g <=? comp a p) with true by lia. replace (comp a p <=? - comp a g + comp a g) with true by lia. cbn [andb].
        replace (comp a p - - comp a g + (l_cells L a m - comp a g)) with (l_cells L a m) by lia. rewrite H1; [|exact Hq|apply Ins; lia].
        assert (Tb : towards (l_absorbing L) a 1 (set_comp a m r) = Some r).
        { apply (towards_back (l_absorbing L) a 1 r); [now left|exact Hr|]. unfold towards. cbn [Z.opp Z.eqb Pos.eqb]. fold c. rewrite Ec. reflexivity. }
        unfold moved_to. change (- -1) with 1. rewrite Tb. rewrite comp_set, comp_n, comp_set. rewrite Z.leb_refl. replace (l_cells L a m <=? l_cells L a m + comp a g) with true by lia. cbn [andb].
        rewrite set_set. replace (l_cells L a m - l_cells L a m + 0) with (comp a p) by lia. now rewrite set_same.
    + assert (X : value F1 (r, p) = value F (let '(c', i) := (if l_cells L a c <=? comp a p then if l_absorbing L a && (c =? comp a np - 1) then (c, comp a p) else (next (comp a np) c, comp a p - l_cells L a c) else (c, comp a p)) in (set_comp a c' r, set_comp a i p))).
      { rewrite H1 by assumption. unfold moved_to, towards. cbn [Z.opp Z.eqb Pos.eqb]. fold c. change ((c + 1) mod comp a np) with (next (comp a np) c). rewrite comp_n. fold c. destruct (l_cells L a c <=? comp a p) eqn:E2.
        - destruct (l_absorbing L a && (c =? comp a np - 1)) eqn:Ec; [unfold c; now rewrite !set_same|]. rewrite comp_n in Pa. fold c in Pa. replace (comp a p <=? l_cells L a c + comp a g) with true by lia. cbn [andb]. f_equal. f_equal. f_equal. lia.
        - cbn [andb]. destruct (l_absorbing L a && (c =? comp a np - 1)); unfold c; now rewrite !set_same. }
      destruct (l_absorbing L a && (c =? 0)); [exact X|]. replace (comp a p <=? - comp a g + comp a g) with false by lia. rewrite andb_false_r. exact X.
Qed.

Lemma exchange_axis_ok (nb : bool) k a F : type_entry k = Some a -> Inv F -> good_types F ->
  exists F', (if nb then exchange_axis_nb np n g (l_absorbing L) k a (start L F) else exchange_axis np n g (l_absorbing L) k a (start L F)) = Ret (start L F') /\
    Inv F' /\ good_types F' /\ forall r p, In r (processes np) -> inside r p -> value F' (r, p) = value F (owner a (r, p)).
Proof.
  intros Hk HI HT. destruct (make_types_ok k a F Hk HI HT) as (F0 & E0 & I0 & T0 & K0 & A0).
  assert (V0 : forall r p, In r (processes np) -> value F0 (r, p) = value F (r, p)) by (intros r p Hr; unfold value; cbn; now rewrite A0).
  assert (V0' : forall r p, In r (processes np) -> value F0 (owner a (r, p)) = value F (owner a (r, p))).
  { intros r p Hr. unfold owner, own1. cbn [fst snd]. pose proof (prev_in (comp a np) (np_pos a) (comp a r)). pose proof (next_in (comp a np) (np_pos a) (comp a r)).
    pose proof (proj1 (processes_comp _ _) Hr a). destruct (comp a p <? 0), (l_absorbing L a && (comp a r =? 0)), (l_cells L a (comp a r) <=? comp a p), (l_absorbing L a && (comp a r =? comp a np - 1)); apply V0; apply in_processes_set; assumption. }
  assert (S1 : -1 = 1 \/ -1 = -1) by (right; reflexivity). assert (S2 : 1 = 1 \/ 1 = -1) by (left; reflexivity).
  assert (G1 : good_edges k a (at_zero g) (at_n n g) (fun _ => 0) (fun r => comp a (n r)) F0).
  { intros q Hq. pose proof (n_big a q Hq). pose proof (g_pos a). split; [now apply K0|]. split; split; try reflexivity; lia. }
  destruct nb.
  - destruct (move_edge_nb_ok (l_absorbing L) k a (-1) _ _ _ _ F0 S1 I0 G1) as (F1 & E1 & I1 & T1 & V1).
    assert (G2 : good_edges k a (at_n_minus_g n g) (at_lower g) (fun r => comp a (n r) - comp a g) (fun _ => - comp a g) F1).
    { intros q Hq. pose proof (n_big a q Hq). pose proof (g_pos a). split; [rewrite T1 by exact Hq; now apply K0|]. split; (split; [first [reflexivity|apply at_lower_edge]|lia]). }
    destruct (move_edge_nb_ok (l_absorbing L) k a 1 _ _ _ _ F1 S2 I1 G2) as (F2 & E2 & I2 & T2 & V2).
    exists F2. split; [unfold exchange_axis_nb; rewrite E0; cbn [bind]; rewrite E1; cbn [bind]; exact E2|]. split; [exact I2|]. split; [apply (good_types_same F1); [now apply (good_types_same F0)|exact T2]|].
    intros r p Hr Hp. rewrite <- V0' by exact Hr. now apply (both_edges a F0 F1 F2).
  - destruct (move_edge_ok (l_absorbing L) k a (-1) _ _ _ _ F0 S1 I0 G1) as (F1 & E1 & I1 & T1 & V1).
    assert (G2 : good_edges k a (at_n_minus_g n g) (at_lower g) (fun r => comp a (n r) - comp a g) (fun _ => - comp a g) F1).
    { intros q Hq. pose proof (n_big a q Hq). pose proof (g_pos a). split; [rewrite T1 by exact Hq; now apply K0|]. split; (split; [first [reflexivity|apply at_lower_edge]|lia]). }
    destruct (move_edge_ok (l_absorbing L) k a 1 _ _ _ _ F1 S2 I1 G2) as (F2 & E2 & I2 & T2 & V2).
    exists F2. split; [unfold exchange_axis; rewrite E0; cbn [bind]; rewrite E1; cbn [bind]; exact E2|]. split; [exact I2|]. split; [apply (good_types_same F1); [now apply (good_types_same F0)|exact T2]|].
    intros r p Hr Hp. rewrite <- V0' by exact Hr. now apply (both_edges a F0 F1 F2).
Qed.
End World.
