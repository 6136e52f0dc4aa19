(** Proofs about histories of operations on a species (C49, C51, C53). *)
From Coq Require Import ZArith List Bool Lia Permutation Sorted.
From Verif Require Import Cxx Num CxxLemmas LookupTables VecFun TestProgram SpecSpecies SpeciesProofs.
Import ListNotations.
Local Open Scope Z_scope.

(** ** shapes of the arrays *)
Section Shape.
Context {N : NumOps}.

Definition rows (k n : nat) (l : list (list (num N))) : Prop := length l = k /\ Forall (fun v => length v = n) l.
Definition shape (d : data N) (n : nat) : Prop :=
  rows 3 n (d_pos d) /\ rows 3 n (d_mom d) /\ rows 6 n (d_fld d) /\ length (d_opt d) = n /\ length (d_flag d) = n.

Lemma rows_rows3 f (ps : list (part N)) : rows 3 (length ps) (rows3 f ps).
Proof. split; [reflexivity|]. unfold rows3. repeat constructor; apply map_length. Qed.
Lemma rows_app k1 k2 n l1 l2 : rows k1 n l1 -> rows k2 n l2 -> rows (k1 + k2) n (l1 ++ l2).
Proof. intros [A B] [C D]. split; [rewrite app_length; lia|]. apply Forall_app. auto. Qed.

Lemma data_of_shape (ps : list (part N)) : shape (data_of ps) (length ps).
Proof.
  unfold data_of. split; [apply rows_rows3|]. split; [apply rows_rows3|]. cbn [d_fld d_opt d_flag].
  split; [apply (rows_app 3 3); apply rows_rows3|]. split; apply map_length.
Qed.

Lemma zip_parts n : forall (x y z px py pz e1 e2 e3 b1 b2 b3 o : list (num N)) g,
  length x = n -> length y = n -> length z = n -> length px = n -> length py = n -> length pz = n ->
  length e1 = n -> length e2 = n -> length e3 = n -> length b1 = n -> length b2 = n -> length b3 = n ->
  length o = n -> length g = n ->
  exists ps, length ps = n /\ mkD [x; y; z] [px; py; pz] [e1; e2; e3; b1; b2; b3] o g = data_of ps.
Proof.
  induction n as [|n IH]; intros.
  - repeat match goal with H : length ?l = O |- _ => apply length_zero_iff_nil in H; subst l end.
    exists []. split; reflexivity.
  - destruct x as [|x_ x]; [discriminate|]. destruct y as [|y_ y]; [discriminate|]. destruct z as [|z_ z]; [discriminate|]. destruct px as [|px_ px]; [discriminate|]. destruct py as [|py_ py]; [discriminate|]. destruct pz as [|pz_ pz]; [discriminate|]. destruct e1 as [|e1_ e1]; [discriminate|]. destruct e2 as [|e2_ e2]; [discriminate|]. destruct e3 as [|e3_ e3]; [discriminate|]. destruct b1 as [|b1_ b1]; [discriminate|]. destruct b2 as [|b2_ b2]; [discriminate|]. destruct b3 as [|b3_ b3]; [discriminate|]. destruct o as [|o_ o]; [discriminate|]. destruct g as [|g_ g]; [discriminate|].
    cbn [length] in *. repeat match goal with H : S _ = S _ |- _ => injection H as H end.
    edestruct (IH x y z px py pz e1 e2 e3 b1 b2 b3 o g) as (ps & L & E); auto.
    unfold data_of, rows3 in E. cbn [app] in E. injection E as -> -> -> -> -> -> -> -> -> -> -> -> -> ->.
    exists (mkP (V3 x_ y_ z_) (V3 px_ py_ pz_) (V3 e1_ e2_ e3_) (V3 b1_ b2_ b3_) o_ g_ :: ps). split; [cbn; lia|]. reflexivity.
Qed.

Lemma rows_3 n l : rows 3 n l -> exists a b c, l = [a; b; c] /\ length a = n /\ length b = n /\ length c = n.
Proof.
  intros [L F]. destruct l as [|a [|b [|c [|]]]]; try discriminate. inversion F as [|? ? ? F1]; subst. inversion F1 as [|? ? ? F2]; subst.
  inversion F2; subst. exists a, b, c. auto.
Qed.
Lemma shape_consistent d n : consistent d n <-> shape d n.
Proof.
  split.
  - intros (ps & <- & ->). apply data_of_shape.
  - intros (P & M & F & O & G). apply rows_3 in P as (x & y & z & P & ? & ? & ?). apply rows_3 in M as (px & py & pz & M & ? & ? & ?).
    assert (exists e1 e2 e3 b1 b2 b3, d_fld d = [e1; e2; e3; b1; b2; b3] /\ length e1 = n /\ length e2 = n /\ length e3 = n /\
              length b1 = n /\ length b2 = n /\ length b3 = n) as (e1 & e2 & e3 & b1 & b2 & b3 & F' & ? & ? & ? & ? & ? & ?).
    { destruct F as [L F]. destruct (d_fld d) as [|e1 [|e2 [|e3 [|b1 [|b2 [|b3 [|]]]]]]]; try discriminate.
      repeat match goal with H : Forall _ (_ :: _) |- _ => inversion H; clear H; subst end. exists e1, e2, e3, b1, b2, b3. auto 10. }
    destruct d as [p m f o g]. cbn in *. subst p m f. unfold consistent.
    eapply zip_parts; eauto.
Qed.

Lemma Forall_lset {A} (P : A -> Prop) l k a : Forall P l -> P a -> Forall P (lset l k a).
Proof. revert k. induction l as [|x l IH]; intros [|k] H Ha; cbn; auto; inversion H; subst; constructor; auto. Qed.
Lemma zset_length {A} (l l' : list A) i a : zset l i a = Ret l' -> length l' = length l.
Proof. intros H. apply zset_inv in H as (_ & ->). apply lset_length. Qed.
Lemma rows_set2 k n l j i a l' : rows k n l -> set2 l j i a = Ret l' -> rows k n l'.
Proof.
  intros [L F] H. unfold set2 in H. destruct (nth_error l j) as [v|] eqn:E; [|discriminate].
  destruct (zset v i a) as [v'| | |] eqn:Ev; try discriminate. cbn [bind] in H. injection H as <-.
  split; [now rewrite lset_length|]. apply Forall_lset; auto. rewrite (zset_length _ _ _ _ Ev).
  rewrite Forall_forall in F. apply F. eapply nth_error_In; eauto.
Qed.
Lemma rows_set_vec k n l j i v l' : rows k n l -> set_vec l j i v = Ret l' -> rows k n l'.
Proof.
  intros R H. unfold set_vec in H.
  destruct (set2 l j i (vx v)) as [l1| | |] eqn:E1; try discriminate. cbn [bind] in H.
  destruct (set2 l1 (S j) i (vy v)) as [l2| | |] eqn:E2; try discriminate. cbn [bind] in H.
  eauto using rows_set2.
Qed.

Lemma swap_at_inv {A} (P : A -> Prop) l i j l' : swap_at l i j = Ret l' -> length l' = length l /\ (Forall P l -> Forall P l').
Proof.
  intros H. unfold swap_at in H. destruct (zget l i) as [a| | |] eqn:Ea; try discriminate. cbn [bind] in H.
  destruct (zget l j) as [b| | |] eqn:Eb; try discriminate. cbn [bind] in H.
  destruct (zset l i b) as [l1| | |] eqn:E1; try discriminate. cbn [bind] in H.
  pose proof (zset_length _ _ _ _ E1). pose proof (zset_length _ _ _ _ H). split; [congruence|]. intros F.
  apply zset_inv in E1 as (_ & ->). apply zset_inv in H as (_ & ->). apply CxxLemmas.zget_inv in Ea as (_ & Ea). apply CxxLemmas.zget_inv in Eb as (_ & Eb).
  rewrite Forall_forall in F. apply Forall_lset; [apply Forall_lset|]; try (apply Forall_forall; auto); apply F; eapply nth_error_In; eauto.
Qed.
Lemma rows_swap k n l i j l' : rows k n l -> swap_at l i j = Ret l' -> rows k n l'.
Proof. intros [L F] H. apply (swap_at_inv (fun v => length v = n)) in H as (H1 & H2). split; [congruence|auto]. Qed.
Lemma times_inv {A} (P : A -> Prop) (f : A -> out A) n : (forall a b, P a -> f a = Ret b -> P b) ->
  forall a b, P a -> times n f a = Ret b -> P b.
Proof.
  intros Hf. induction n as [|n IH]; intros a b Ha H; cbn [times] in H; [congruence|].
  destruct (f a) eqn:E; try discriminate. cbn [bind] in H. eauto.
Qed.

Lemma swap_shape i j d n d' : shape d n -> swap_particles_data i j d = Ret d' -> shape d' n.
Proof.
  intros (P & M & F & O & G) H. unfold swap_particles_data in H.
  match type of H with (do '(_, _) <- ?m; _) = _ => destruct m as [[p m']| | |] eqn:E; try discriminate end. cbn [bind] in H.
  assert (PM : rows 3 n (fst (p, m')) /\ rows 3 n (snd (p, m'))).
  { eapply (times_inv (fun pm => rows 3 n (fst pm) /\ rows 3 n (snd pm))); [|exact (conj P M : (fun pm => rows 3 n (fst pm) /\ rows 3 n (snd pm)) (d_pos d, d_mom d))|exact E].
    intros [a b] c [Ha Hb] Hc. cbn in Ha, Hb. destruct (swap_at a i j) as [a'| | |] eqn:E1; try discriminate. cbn [bind] in Hc.
    destruct (swap_at b i j) as [b'| | |] eqn:E2; try discriminate. cbn [bind] in Hc. injection Hc as <-. split; [exact (rows_swap _ _ _ _ _ _ Ha E1)|exact (rows_swap _ _ _ _ _ _ Hb E2)]. }
  match type of H with (do _ <- ?m; _) = _ => destruct m as [f| | |] eqn:EF; try discriminate end. cbn [bind] in H.
  assert (FF : rows 6 n f). { eapply (times_inv (rows 6 n)); [|exact F|exact EF]. intros a b Ha Hb. exact (rows_swap _ _ _ _ _ _ Ha Hb). }
  destruct (swap_at (d_opt d) i j) as [o| | |] eqn:EO; try discriminate. cbn [bind] in H.
  destruct (swap_at (d_flag d) i j) as [g| | |] eqn:EG; try discriminate. cbn [bind] in H. injection H as <-.
  apply (swap_at_inv (fun _ => True)) in EO as (EO & _). apply (swap_at_inv (fun _ => True)) in EG as (EG & _).
  destruct PM as [PM1 PM2]. cbn [fst snd] in PM1, PM2. split; [exact PM1|]. split; [exact PM2|]. split; [exact FF|]. cbn. split; congruence.
Qed.

Lemma erase_at_len {A} i (l l' : list A) : erase_at i l = Ret l' -> length l = S (length l').
Proof.
  unfold erase_at. destruct (_ && _) eqn:E; [|discriminate]. intros H.
  assert (H' : firstn (Z.to_nat i) l ++ skipn (S (Z.to_nat i)) l = l') by congruence. rewrite <- H'. apply andb_true_iff in E as [E1 E2].
  apply Z.leb_le in E1. apply Z.ltb_lt in E2. unfold zlen in E2. rewrite app_length, firstn_length, skipn_length. lia.
Qed.
Lemma erase_from_len {A} i (l l' : list A) : erase_from i l = Ret l' -> length l' = Z.to_nat i.
Proof.
  unfold erase_from. destruct (_ && _) eqn:E; [|discriminate]. intros [= <-]. apply andb_true_iff in E as [E1 E2].
  apply Z.leb_le in E1. apply Z.leb_le in E2. unfold zlen in E2. rewrite firstn_length. lia.
Qed.
Lemma rows_mapM k n m (f : list (num N) -> out (list (num N))) l l' : rows k n l -> (forall v v', length v = n -> f v = Ret v' -> length v' = m) ->
  mapM f l = Ret l' -> rows k m l'.
Proof.
  intros [L F] Hf H. apply mapM_Forall2 in H. split.
  - rewrite <- L. clear -H. induction H; cbn; congruence.
  - clear L. induction H; inversion F; subst; constructor; eauto.
Qed.
Lemma remove_shape i d n d' : shape d n -> remove_particle_data i d = Ret d' -> shape d' (pred n).
Proof.
  intros (P & M & F & O & G) H. unfold remove_particle_data in H.
  destruct (mapM (erase_at i) (d_pos d)) as [p| | |] eqn:E1; try discriminate. cbn [bind] in H.
  destruct (mapM (erase_at i) (d_mom d)) as [m| | |] eqn:E2; try discriminate. cbn [bind] in H.
  destruct (mapM (erase_at i) (d_fld d)) as [f| | |] eqn:E3; try discriminate. cbn [bind] in H.
  destruct (erase_at i (d_opt d)) as [o| | |] eqn:E4; try discriminate. cbn [bind] in H.
  destruct (erase_at i (d_flag d)) as [g| | |] eqn:E5; try discriminate. cbn [bind] in H. injection H as <-.
  assert (HL : forall v v' : list (num N), length v = n -> erase_at i v = Ret v' -> length v' = pred n).
  { intros v v' Hv Hv'. apply erase_at_len in Hv'. lia. }
  apply erase_at_len in E4, E5.
  split; [exact (rows_mapM _ _ _ _ _ _ P HL E1)|]. split; [exact (rows_mapM _ _ _ _ _ _ M HL E2)|].
  split; [exact (rows_mapM _ _ _ _ _ _ F HL E3)|]. cbn. split; lia.
Qed.
Lemma toend_shape i d n d' : shape d n -> remove_toend_data i d = Ret d' -> shape d' (Z.to_nat i).
Proof.
  intros (P & M & F & O & G) H. unfold remove_toend_data in H.
  destruct (mapM (erase_from i) (d_pos d)) as [p| | |] eqn:E1; try discriminate. cbn [bind] in H.
  destruct (mapM (erase_from i) (d_mom d)) as [m| | |] eqn:E2; try discriminate. cbn [bind] in H.
  destruct (mapM (erase_from i) (d_fld d)) as [f| | |] eqn:E3; try discriminate. cbn [bind] in H.
  destruct (erase_from i (d_opt d)) as [o| | |] eqn:E4; try discriminate. cbn [bind] in H.
  destruct (erase_from i (d_flag d)) as [g| | |] eqn:E5; try discriminate. cbn [bind] in H. injection H as <-.
  apply erase_from_len in E4, E5.
  assert (HL : forall v v' : list (num N), length v = n -> erase_from i v = Ret v' -> length v' = Z.to_nat i).
  { intros v v' Hv Hv'. now apply erase_from_len in Hv'. }
  split; [exact (rows_mapM _ _ _ _ _ _ P HL E1)|]. split; [exact (rows_mapM _ _ _ _ _ _ M HL E2)|].
  split; [exact (rows_mapM _ _ _ _ _ _ F HL E3)|]. cbn. split; lia.
Qed.
Lemma overwrite_shape s t d n d' : shape d n -> overwrite_particle s t d = Ret d' -> shape d' n.
Proof.
  intros (P & M & F & O & G) H. unfold overwrite_particle in H.
  repeat match type of H with (do _ <- ?m; _) = _ => let E := fresh "E" in destruct m eqn:E; try discriminate; cbn [bind] in H end.
  injection H as <-. split; [|split; [|split; [|split]]]; cbn.
  - eauto using rows_set_vec.
  - eauto using rows_set_vec.
  - eapply rows_set_vec; [|eassumption]. eauto using rows_set_vec.
  - erewrite zset_length; [|eassumption]. exact O.
  - erewrite zset_length; [|eassumption]. exact G.
Qed.
Lemma scan_shape K k n : forall fuel ll d r d', shape d n -> kill_scan fuel K k ll d = Ret (r, d') -> shape d' n.
Proof.
  induction fuel as [|fuel IH]; intros ll d r d' Hs H; cbn [kill_scan] in H; [discriminate|].
  destruct (k <? ll).
  - destruct (negb _).
    + destruct (overwrite_particle ll k d) eqn:E; try discriminate. cbn [bind] in H. injection H as <- <-. eauto using overwrite_shape.
    + eauto.
  - congruence.
Qed.
Lemma kill_shape K n : forall todo last d d', shape d n -> kill_loop todo K last d = Ret d' -> shape d' n.
Proof.
  induction todo as [|k todo IH]; intros last d d' Hs H; cbn [kill_loop] in H; [congruence|].
  destruct (kill_scan _ K k last d) as [[ll d1]| | |] eqn:E; try discriminate. cbn [bind] in H. eauto using scan_shape.
Qed.
Lemma sorted_shape K d n d' : shape d n -> remove_sorted_data K d = Ret d' -> exists m, shape d' m.
Proof.
  intros Hs H. unfold remove_sorted_data in H.
  repeat match type of H with (do _ <- ?m; _) = _ => let E := fresh "E" in destruct m eqn:E; try discriminate; cbn [bind] in H end.
  eexists. eapply toend_shape; [|exact H]. eapply kill_shape; eauto.
Qed.
End Shape.

(** ** C49: the arrays stay consistent *)
Section Consistent.
Context {N : NumOps} {W : Type}.

Definition good (s : species N W) : Prop :=
  (exists n, consistent (s_data s) n) /\
  Forall (fun x => match snd x with Some f => respects_simple f | None => True end) (s_simple s) /\
  match s_pusher s with Some f => respects_pusher f | None => True end.

Lemma good_data s d n : good s -> consistent d n -> good (with_data s d).
Proof. intros (_ & H1 & H2) Hd. split; [exists n; exact Hd|]. split; auto. Qed.

Lemma on_data_good (f : data N -> out (data N)) s s' :
  (forall d n d', consistent d n -> f d = Ret d' -> exists m, consistent d' m) -> good s ->
  (on_data f s = Done s' \/ on_data f s = Raised s') -> good s'.
Proof.
  intros Hf G H. unfold on_data, of_out in H. destruct (f (s_data s)) as [d| | |] eqn:E; destruct H as [H|H]; try discriminate; injection H as <-; auto.
  destruct G as ((n & Hn) & G). destruct (Hf _ _ _ Hn E) as (m & Hm). apply (good_data _ _ m); auto. split; eauto.
Qed.
Lemma lift_inv w (r : res (species N W)) ws : lift w r = Done ws \/ lift w r = Raised ws ->
  exists s', ws = (w, s') /\ (r = Done s' \/ r = Raised s').
Proof. destruct r; intros [H|H]; try discriminate; injection H as <-; eauto. Qed.

Lemma for_good (body : Z -> data N -> out (data N)) d n d' : keeps body -> consistent d n -> for_particles body d = Ret d' -> exists m, consistent d' m.
Proof. intros Hk (ps & <- & ->) H. eexists. eapply for_keeps; eauto. Qed.

Lemma reg_insert_Forall {P} (Q : Z * option P -> Prop) m id p : Forall Q m -> Q (id, p) -> Forall Q (reg_insert m id p).
Proof.
  intros F H. induction m as [|[k q] m IH]; cbn; auto. inversion F; subst. destruct (id <? k); auto.
Qed.
Lemma reg_find_Forall {P} (Q : Z * option P -> Prop) (m : registry P) id p : Forall Q m -> reg_find m id = Some p -> exists k, Q (k, p).
Proof.
  intros F H. induction m as [|[k q] m IH]; cbn in H; [discriminate|]. inversion F; subst.
  destruct (k =? id); [injection H as <-; eauto|auto].
Qed.
Lemma reg_index_Forall {P} (Q : Z * option P -> Prop) (m m' : registry P) id p : Forall Q m -> Q (id, None) -> reg_index m id = (p, m') ->
  Forall Q m' /\ exists k, Q (k, p).
Proof.
  intros F H0 H. unfold reg_index in H. destruct (reg_find m id) eqn:E; injection H as <- <-.
  - split; auto. eapply reg_find_Forall; eauto.
  - split; eauto. now apply reg_insert_Forall.
Qed.

Lemma call_simple_good p dt w s ws : good s -> match p with Some f => respects_simple f | None => True end ->
  (call_simple p dt (w, s) = Done ws \/ call_simple p dt (w, s) = Raised ws) -> good (snd ws) /\ s_simple (snd ws) = s_simple s.
Proof.
  intros G Hp H. unfold call_simple in H. destruct p as [f|]; [|destruct H as [H|H]; [discriminate|injection H as <-; auto]].
  pose proof G as ((n & ps & Hn & Hd) & _). specialize (Hp w ps (s_mass s) (s_charge s) dt). cbn zeta in Hp. rewrite <- Hd in Hp.
  destruct (f w (d_pos (s_data s)) (d_mom (s_data s)) (d_fld (s_data s)) (d_opt (s_data s)) (d_flag (s_data s)) (s_mass s) (s_charge s) dt)
    as [[w' [[[p m] o] g]]|[w' [[[p m] o] g]]|]; destruct H as [H|H]; try discriminate; injection H as <-; cbn [snd]; (split; [|reflexivity]);
    eapply good_data; eauto.
Qed.
Lemma call_all_good ps dt : forall ws ws', good (snd ws) -> Forall (fun x => match snd x with Some f => respects_simple f | None => True end) ps ->
  (call_all ps dt ws = Done ws' \/ call_all ps dt ws = Raised ws') -> good (snd ws').
Proof.
  induction ps as [|[k p] ps IH]; intros [w s] ws' G F H; cbn [call_all] in H.
  - destruct H as [H|H]; [injection H as <-; auto|discriminate].
  - inversion F; subst. cbn [snd] in H2.
    destruct (call_simple p dt (w, s)) as [ws1|ws1|] eqn:E; cbn [rbind] in H.
    + apply (IH ws1); auto. eapply (call_simple_good p dt w s); eauto.
    + destruct H as [H|H]; [discriminate|]. injection H as <-. eapply (call_simple_good p dt w s); eauto.
    + destruct H; discriminate.
Qed.

(** the loop of a process with destruction does not touch the arrays *)
Lemma destr_loop_keeps is id dt : forall w (s : species N W) acc x, (destr_loop is id dt w s acc = Done x \/ destr_loop is id dt w s acc = Raised x) ->
  s_data (snd (fst x)) = s_data s /\ s_simple (snd (fst x)) = s_simple s /\ s_pusher (snd (fst x)) = s_pusher s.
Proof.
  induction is as [|i is IH]; intros w s acc x H; cbn [destr_loop] in H.
  - destruct H as [H|H]; [injection H as <-; auto|discriminate].
  - destruct (reg_index (s_destr s) id) as [f m]. destruct f as [f|]; [|destruct H as [H|H]; [discriminate|injection H as <-; auto]].
    match type of H with context [match ?o with Ret _ => _ | UB => _ | _ => _ end] => destruct o as [r| | |] eqn:E; try (destruct H; discriminate) end.
    destruct r as [[w' kill]|[w' kill]|]; cbn [rbind] in H.
    + apply IH in H. exact H.
    + destruct H as [H|H]; [discriminate|]. injection H as <-. auto.
    + destruct H; discriminate.
Qed.

Lemma do_op_good (o : op N W) ws ws' : good (snd ws) -> respectful o ->
  (do_op o ws = Done ws' \/ do_op o ws = Raised ws') -> good (snd ws').
Proof.
  intros G Ho H. destruct ws as [w s]. cbn [snd] in G. destruct o; cbn [do_op respectful] in *;
  try (apply lift_inv in H as (s' & -> & H); cbn [snd]).
  - eapply on_data_good; [|exact G|exact H]. intros d n d' (ps & L & ->) Hd. rewrite add_particle_ok in Hd. injection Hd as <-.
    eexists. eexists. split; reflexivity.
  - eapply on_data_good; [|exact G|exact H]. intros d n d' Hd Hr. exists n. apply shape_consistent in Hd. apply shape_consistent. eapply swap_shape; eauto.
  - eapply on_data_good; [|exact G|exact H]. intros d n d' Hd Hr. eexists. apply shape_consistent in Hd. apply shape_consistent. eapply remove_shape; eauto.
  - eapply on_data_good; [|exact G|exact H]. intros d n d' Hd Hr. eexists. apply shape_consistent in Hd. apply shape_consistent. eapply toend_shape; eauto.
  - eapply on_data_good; [|exact G|exact H]. intros d n d' Hd Hr. apply shape_consistent in Hd. destruct (sorted_shape _ _ _ _ Hd Hr) as (m & Hm).
    exists m. now apply shape_consistent.
  - eapply on_data_good; [|exact G|exact H]. intros d n d' Hd Hr. apply (for_good (fields_body em t) d n d'); auto. apply fields_keeps.
  - unfold push_positions in H. eapply on_data_good; [|exact G|exact H]. intros d n d' Hd Hr.
    apply (for_good (pos_body (match s_kind s with Photons => p0_phot | Leptons => p0_lep end) dt) d n d'); auto. apply pos_keeps.
  - unfold push_momenta in H. destruct (s_kind s); [destruct H as [H|H]; [injection H as <-; auto|discriminate]|].
    destruct (s_pusher s) as [f|] eqn:E.
    + assert (Hf : respects_pusher f). { destruct G as (_ & _ & G). now rewrite E in G. }
      eapply on_data_good; [|exact G|exact H]. intros d n d' (ps & L & ->) Hr. specialize (Hf ps (s_mass s) (s_charge s) dt).
      cbn beta in Hr. destruct (f _ _ _ _ _) as [m| | |] eqn:Ef; try discriminate. cbn [bind] in Hr. injection Hr as <-.
      exists (length ps). now apply Hf.
    + eapply on_data_good; [|exact G|exact H]. intros d n d' Hd Hr.
      apply (for_good (mom_body (n_lit 5 (-1) * s_charge s * dt / s_mass s)%N) d n d'); auto. apply mom_keeps.
  - destruct H as [H|H]; [injection H as <-|discriminate]. cbn [snd]. destruct G as (G1 & G2 & G3). split; [|split]; auto.
  - unfold add_simple_process in H. destruct (reg_find _ _); destruct H as [H|H]; try discriminate; injection H as <-; auto.
    destruct G as (G1 & G2 & G3). split; [|split]; auto. now apply reg_insert_Forall.
  - unfold add_process_with_destruction in H. destruct (reg_find _ _); destruct H as [H|H]; try discriminate; injection H as <-; auto.
  - unfold do_all_simple_processes in H. eapply call_all_good; [|apply G|exact H]. exact G.
  - unfold do_simple_process in H. destruct (reg_index (s_simple s) id) as [p m] eqn:E.
    destruct G as (G1 & G2 & G3).
    apply (reg_index_Forall (fun x => match snd x with Some f => respects_simple f | None => True end)) in E as (E1 & k & E2); auto.
    eapply call_simple_good; [|exact E2|exact H]. split; [|split]; auto.
  - unfold do_process_with_destruction in H. destruct (size0 (s_data s)); try (destruct H; discriminate).
    destruct (destr_loop _ id dt w s []) as [[[w' s'] kill]|[[w' s'] kill]|] eqn:E; cbn [rbind] in H.
    + destruct (destr_loop_keeps _ _ _ _ _ _ _ (or_introl E)) as (E1 & E2 & E3). cbn [fst snd] in E1, E2, E3.
      destruct (remove_sorted_data kill (s_data s')) as [d| | |] eqn:Er; destruct H as [H|H]; try discriminate. injection H as <-. cbn [snd].
      destruct G as ((n & Hn) & G2 & G3). rewrite E1 in Er. apply shape_consistent in Hn. destruct (sorted_shape _ _ _ _ Hn Er) as (m & Hm).
      split; [exists m; now apply shape_consistent|]. cbn. rewrite E2, E3. auto.
    + destruct (destr_loop_keeps _ _ _ _ _ _ _ (or_intror E)) as (E1 & E2 & E3). cbn [fst snd] in E1, E2, E3.
      destruct H as [H|H]; [discriminate|]. injection H as <-. cbn [snd]. destruct G as (G1 & G2 & G3). split; [|split]; rewrite ?E1, ?E2, ?E3; auto.
    + destruct H; discriminate.
Qed.

Lemma fresh_good (s : species N W) : fresh s -> good s.
Proof. intros [->|[->| ->]]; (split; [exists O, []; split; reflexivity|split; [constructor|exact I]]). Qed.

Lemma history_good os ws ws' : history os ws ws' -> Forall respectful os -> good (snd ws) -> good (snd ws').
Proof. induction 1; intros F G; auto. inversion F; subst. apply IHhistory; auto. eapply do_op_good; eauto. Qed.

Lemma history_consistent os w0 (s0 : species N W) w s : fresh s0 -> Forall respectful os -> history os (w0, s0) (w, s) ->
  exists n, consistent (s_data s) n /\ ((Z.of_nat n < 2 ^ 31) -> get_num_particles s = Ret (Z.of_nat n)).
Proof.
  intros F R H. destruct (history_good _ _ _ H R (fresh_good _ F)) as ((n & Hn) & _). exists n. split; [exact Hn|].
  intros Hl. destruct Hn as (ps & <- & E). cbn [snd] in E. unfold get_num_particles. rewrite E, size_data_of. cbn [bind].
  now rewrite to_int32_small by lia.
Qed.

(** ** C51: processes with destruction *)
Fixpoint trues (o : nat) (bs : list bool) : list Z :=
  match bs with [] => [] | b :: t => if b then Z.of_nat o :: trues (S o) t else trues (S o) t end.
Lemma trues_ge bs : forall o k, In k (trues o bs) -> Z.of_nat o <= k < Z.of_nat (o + length bs).
Proof.
  induction bs as [|b bs IH]; intros o k H; cbn [trues] in H; [destruct H|]. cbn [length].
  assert (In k (trues (S o) bs) -> Z.of_nat o <= k < Z.of_nat (o + S (length bs))) by (intros H'; apply IH in H'; lia).
  destruct b; [destruct H as [<-|H]; [lia|auto]|auto].
Qed.
Lemma trues_in bs : forall o j, existsb (Z.eqb (Z.of_nat (o + j))) (trues o bs) = nth j bs false.
Proof.
  induction bs as [|b bs IH]; intros o j; cbn [trues nth]; [destruct j; reflexivity|].
  destruct j as [|j].
  - rewrite Nat.add_0_r. destruct b; cbn [existsb]; [now rewrite Z.eqb_refl|].
    apply existsb_nin. intros H. apply trues_ge in H. lia.
  - replace (o + S j)%nat with (S o + j)%nat by lia. destruct b; [|apply IH]. cbn [existsb]. rewrite IH.
    replace (Z.of_nat (S o + j) =? Z.of_nat o) with false by (symmetry; apply Z.eqb_neq; lia). reflexivity.
Qed.
Lemma trues_sorted bs : forall o i j a b, nth_error (trues o bs) i = Some a -> nth_error (trues o bs) j = Some b -> (i < j)%nat -> a < b.
Proof.
  induction bs as [|x bs IH]; intros o i j a b Ha Hb Hij; cbn [trues] in *; [destruct i; discriminate|].
  destruct x; [|eauto]. destruct j as [|j]; [lia|]. cbn in Hb. destruct i as [|i]; cbn in Ha.
  - injection Ha as <-. apply nth_error_In, trues_ge in Hb. lia.
  - apply (IH (S o) i j); auto. lia.
Qed.
Lemma trues_indices bs : sorted_indices (trues 0 bs) (length bs).
Proof.
  split; [intros; eapply trues_sorted; eauto|]. apply Forall_forall. intros k H. apply trues_ge in H. lia.
Qed.
Lemma survivors_spared bs (ps : list (part N)) : survivors (trues 0 bs) ps = spared bs ps.
Proof. unfold survivors, spared. apply pick_ext. intros j _. rewrite <- (trues_in bs 0 j). reflexivity. Qed.

Lemma visit_length (f : W -> part N -> res (W * bool)) ps : forall w w' bs, visit f w ps = Done (w', bs) -> length bs = length ps.
Proof.
  induction ps as [|p ps IH]; intros w w' bs H; cbn [visit] in H; [injection H as _ <-; reflexivity|].
  destruct (f w p) as [[w1 b]|[w1 b]|]; cbn [rbind] in H; try discriminate.
  destruct (visit f w1 ps) as [[w2 bs2]|[w2 bs2]|] eqn:E; cbn [rbind] in H; try discriminate. injection H as <- <-. cbn. f_equal. eauto.
Qed.

Lemma reg_index_found {P} (m : registry P) id f : reg_find m id = Some f -> reg_index m id = (f, m).
Proof. unfold reg_index. now intros ->. Qed.
Lemma species_eta (s : species N W) : mkS (s_kind s) (s_mass s) (s_charge s) (s_data s) (s_simple s) (s_destr s) (s_pusher s) = s.
Proof. now destruct s. Qed.


Lemma destr_loop_visit id dt f (s : species N W) ps : reg_find (s_destr s) id = Some (Some f) -> s_data s = data_of ps ->
  forall l pre w acc, ps = pre ++ l ->
  destr_loop (map Z.of_nat (seq (length pre) (length l))) id dt w s acc
  = match visit (on_part f s dt) w l with
    | Done (w', bs) => Done (w', s, acc ++ trues (length pre) bs)
    | Raised (w', bs) => Raised (w', s, acc ++ trues (length pre) (removelast bs))
    | Undef => Undef
    end.
Proof.
  intros Hf Hd. induction l as [|p l IH]; intros pre w acc E; cbn [length seq map destr_loop visit].
  - now rewrite app_nil_r.
  - rewrite (reg_index_found _ _ _ Hf), species_eta.
    assert (Hp : nth_error ps (length pre) = Some p) by (rewrite E; apply nth_error_mid).
    rewrite Hd. cbn [data_of d_pos d_mom d_fld d_opt d_flag].
    rewrite !(get_rows0' _ _ _ _ _ Hp eq_refl), (get_rows0 _ _ _ _ _ _ Hp eq_refl), (get_rows3 _ _ _ _ _ _ Hp eq_refl).
    rewrite !(zget_map _ _ _ _ _ Hp eq_refl). cbn [bind]. unfold on_part at 1.
    match goal with |- rbind ?m _ _ = _ => destruct m as [[w1 b]|[w1 b]|] end; cbn [rbind]; auto.
    + assert (E' : ps = (pre ++ [p]) ++ l) by (now rewrite <- app_assoc).
      replace (S (length pre)) with (length (pre ++ [p])) by (rewrite app_length; cbn; lia).
      rewrite (IH (pre ++ [p]) w1 _ E'). destruct (visit (on_part f s dt) w1 l) as [[w2 bs]|[w2 bs]|] eqn:EV; cbn [rbind]; auto.
      * cbn [trues]. rewrite app_length. cbn [length]. rewrite Nat.add_1_r. destruct b; auto. now rewrite <- app_assoc.
      * assert (bs <> []). { destruct l; cbn [visit] in EV; [discriminate|]. destruct (on_part f s dt w1 p0) as [[? ?]|[? ?]|]; cbn [rbind] in EV; try discriminate.
          - destruct (visit _ _ l) as [[? ?]|[? ?]|]; cbn [rbind] in EV; try discriminate. injection EV as _ <-. discriminate.
          - injection EV as _ <-. discriminate. }
        rewrite app_length. cbn [length]. rewrite Nat.add_1_r. destruct bs as [|b1 bs]; [congruence|]. cbn [removelast].
        destruct b; cbn [trues]; auto. rewrite <- app_assoc. reflexivity.
    + cbn. now rewrite app_nil_r.
Qed.

Lemma destruction_spec id dt f (s : species N W) ps w :
  reg_find (s_destr s) id = Some (Some f) -> s_data s = data_of ps -> Z.of_nat (length ps) < 2 ^ 64 ->
  match visit (on_part f s dt) w ps with
  | Done (w', bs) => exists ps', do_process_with_destruction id dt (w, s) = Done (w', with_data s (data_of ps')) /\
      Permutation ps' (spared bs ps) /\
      forall j, nth j bs false = false -> (j < length ps')%nat -> nth_error ps' j = nth_error ps j
  | Raised (w', _) => do_process_with_destruction id dt (w, s) = Raised (w', s)
  | Undef => do_process_with_destruction id dt (w, s) = Undef
  end.
Proof.
  intros Hf Hd Hn. unfold do_process_with_destruction. rewrite Hd, size_data_of, Nat2Z.id.
  change (zseq (length ps)) with (map Z.of_nat (seq (length (@nil (part N))) (length ps))).
  rewrite (destr_loop_visit id dt f s ps Hf Hd ps [] w [] eq_refl).
  destruct (visit (on_part f s dt) w ps) as [[w' bs]|[w' bs]|] eqn:E; cbn [rbind]; auto.
  cbn [app length]. rewrite Hd. pose proof (visit_length _ _ _ _ _ E) as L.
  destruct (remove_sorted_spec (trues 0 bs) ps) as (ps' & H1 & H2 & H3); [rewrite <- L; apply trues_indices|exact Hn|].
  rewrite H1. exists ps'. split; [reflexivity|]. split; [now rewrite <- survivors_spared|].
  intros j Hj Hjl. apply H3; auto. apply existsb_nin. rewrite <- Hj, <- (trues_in bs 0 j). reflexivity.
Qed.


(** ** C53: registries *)
Definition keys {P} (m : registry P) : list Z := map fst m.
Lemma reg_find_none {P} (m : registry P) id : reg_find m id = None <-> ~ In id (keys m).
Proof.
  induction m as [|[k p] m IH]; cbn; [tauto|]. destruct (k =? id) eqn:E.
  - apply Z.eqb_eq in E. split; [discriminate|]. intros H. destruct H. auto.
  - apply Z.eqb_neq in E. rewrite IH. tauto.
Qed.
Lemma reg_find_insert {P} (m : registry P) id p id' : ~ In id (keys m) ->
  reg_find (reg_insert m id p) id' = if id =? id' then Some p else reg_find m id'.
Proof.
  induction m as [|[k q] m IH]; intros H; cbn [reg_insert reg_find]; auto.
  cbn in H. destruct (id <? k).
  - cbn [reg_find]. destruct (id =? id') eqn:E; auto.
  - cbn [reg_find]. destruct (k =? id') eqn:E.
    + apply Z.eqb_eq in E. destruct (id =? id') eqn:E'; auto. apply Z.eqb_eq in E'. subst. tauto.
    + apply IH. tauto.
Qed.
Lemma keys_insert {P} (m : registry P) id p k : In k (keys (reg_insert m id p)) <-> k = id \/ In k (keys m).
Proof. induction m as [|[j q] m IH]; cbn; [firstorder|]. destruct (id <? j); cbn; [firstorder|]. rewrite IH. firstorder. Qed.
Lemma keys_sorted_insert {P} (m : registry P) id p : ~ In id (keys m) -> StronglySorted Z.lt (keys m) -> StronglySorted Z.lt (keys (reg_insert m id p)).
Proof.
  induction m as [|[j q] m IH]; intros Hn HS; cbn; [repeat constructor|].
  cbn in HS. inversion HS as [|? ? HS' HF]; subst. cbn in Hn. destruct (id <? j) eqn:E.
  - apply Z.ltb_lt in E. constructor; auto. constructor; auto. eapply Forall_impl; [|exact HF]. cbn. lia.
  - apply Z.ltb_ge in E. assert (j <> id) by tauto. cbn [map fst]. constructor; [apply IH; tauto|]. apply Forall_forall. intros k Hk. apply keys_insert in Hk as [->|Hk]; [lia|].
    rewrite Forall_forall in HF. auto.
Qed.

(** which function is registered under an ID: the first registration, or nothing
    if the ID was run before being registered *)
Lemma do_op_simple_reg (o : op N W) ws ws' : do_op o ws = Done ws' \/ do_op o ws = Raised ws' ->
  (match o with ORegister _ _ | OSimple _ _ => False | _ => True end -> s_simple (snd ws') = s_simple (snd ws)) /\
  (forall f id, o = ORegister f id -> s_simple (snd ws') = match reg_find (s_simple (snd ws)) id with Some _ => s_simple (snd ws) | None => reg_insert (s_simple (snd ws)) id (Some f) end) /\
  (forall id dt, o = OSimple id dt -> s_simple (snd ws') = match reg_find (s_simple (snd ws)) id with Some _ => s_simple (snd ws) | None => reg_insert (s_simple (snd ws)) id None end).
Proof.
  assert (OD : forall f (s s' : species N W), (on_data f s = Done s' \/ on_data f s = Raised s') -> s_simple s' = s_simple s).
  { intros f s s' [H|H]; unfold on_data, of_out in H; destruct (f (s_data s)); try discriminate; injection H as <-; reflexivity. }
  assert (CS : forall p dt w (s : species N W) ws, (call_simple p dt (w, s) = Done ws \/ call_simple p dt (w, s) = Raised ws) -> s_simple (snd ws) = s_simple s).
  { intros p dt w s ws0 H. unfold call_simple in H. destruct p as [f|]; [|destruct H as [H|H]; [discriminate|injection H as <-; auto]].
    destruct (f _ _ _ _ _ _ _ _ _) as [[? [[[? ?] ?] ?]]|[? [[[? ?] ?] ?]]|]; destruct H as [H|H]; try discriminate; injection H as <-; reflexivity. }
  assert (CA : forall ps dt (ws : W * species N W) ws', (call_all ps dt ws = Done ws' \/ call_all ps dt ws = Raised ws') -> s_simple (snd ws') = s_simple (snd ws)).
  { induction ps as [|[k p] ps IH]; intros dt ws0 ws1 H; cbn [call_all] in H.
    - destruct H as [H|H]; [injection H as <-; auto|discriminate].
    - destruct ws0 as [w s]. destruct (call_simple p dt (w, s)) as [ws2|ws2|] eqn:E; cbn [rbind] in H.
      + transitivity (s_simple (snd ws2)); [eauto|]. cbn [snd]. eapply CS; eauto.
      + destruct H as [H|H]; [discriminate|]. injection H as <-. eapply CS; eauto.
      + destruct H; discriminate. }
  intros H. destruct ws as [w s]. destruct o; cbn [do_op] in H; (split; [intros HM; try (destruct HM; fail)|split; [intros ? ? HO; try discriminate HO|intros ? ? HO; try discriminate HO]]);
    try (apply lift_inv in H as (s' & -> & H); cbn [snd]; eapply OD; exact H).
  - apply lift_inv in H as (s' & -> & H). unfold push_momenta in H. destruct (s_kind s); [destruct H as [H|H]; [injection H as <-; reflexivity|discriminate]|].
    destruct (s_pusher s); eapply OD; exact H.
  - destruct H as [H|H]; [injection H as <-; reflexivity|discriminate].
  - injection HO as <- <-. apply lift_inv in H as (s' & -> & H). unfold add_simple_process in H. cbn [snd].
    destruct (reg_find (s_simple s) id); destruct H as [H|H]; try discriminate; injection H as <-; reflexivity.
  - apply lift_inv in H as (s' & -> & H). unfold add_process_with_destruction in H. cbn [snd].
    destruct (reg_find (s_destr s) id); destruct H as [H|H]; try discriminate; injection H as <-; reflexivity.
  - eapply CA. exact H.
  - injection HO as <- <-. unfold do_simple_process, reg_index in H. cbn [snd]. destruct (reg_find (s_simple s) id); apply CS in H; exact H.
  - unfold do_process_with_destruction in H. destruct (size0 (s_data s)); try (destruct H; discriminate).
    destruct (destr_loop _ id dt w s []) as [[[w' s'] kill]|[[w' s'] kill]|] eqn:E; cbn [rbind] in H.
    + destruct (destr_loop_keeps _ _ _ _ _ _ _ (or_introl E)) as (E1 & E2 & E3). cbn [fst snd] in E1, E2, E3.
      destruct (remove_sorted_data kill (s_data s')); destruct H as [H|H]; try discriminate. injection H as <-. exact E2.
    + destruct (destr_loop_keeps _ _ _ _ _ _ _ (or_intror E)) as (E1 & E2 & E3). destruct H as [H|H]; [discriminate|]. injection H as <-. exact E2.
    + destruct H; discriminate.
Qed.

Lemma history_registry os (ws ws' : W * species N W) : history os ws ws' -> StronglySorted Z.lt (keys (s_simple (snd ws))) ->
  StronglySorted Z.lt (keys (s_simple (snd ws'))) /\
  forall id, reg_find (s_simple (snd ws')) id = match reg_find (s_simple (snd ws)) id with Some p => Some p | None => first_use id os end.
Proof.
  induction 1 as [ws|o os ws ws1 ws2 Ho Hh IH]; intros HS.
  - split; auto. intros id. cbn [first_use]. destruct (reg_find _ id); auto.
  - destruct (do_op_simple_reg o ws ws1 Ho) as (R1 & R2 & R3).
    assert (HS1 : StronglySorted Z.lt (keys (s_simple (snd ws1))) /\
              forall id, reg_find (s_simple (snd ws1)) id = match reg_find (s_simple (snd ws)) id with Some p => Some p | None => first_use id [o] end).
    { destruct o; try (specialize (R1 I); rewrite R1; split; [exact HS|intros ix; cbn [first_use]; destruct (reg_find _ ix); auto; fail]).
      - specialize (R2 _ _ eq_refl). rewrite R2. destruct (reg_find (s_simple (snd ws)) id) eqn:E.
        + split; auto. intros i. cbn [first_use]. destruct (id =? i) eqn:Ei; [apply Z.eqb_eq in Ei; subst; now rewrite E|]. destruct (reg_find _ i); auto.
        + apply reg_find_none in E. split; [now apply keys_sorted_insert|]. intros i. rewrite reg_find_insert by auto. cbn [first_use].
          destruct (id =? i) eqn:Ei; [apply Z.eqb_eq in Ei; subst; apply reg_find_none in E; now rewrite E|]. destruct (reg_find _ i); auto.
      - specialize (R3 _ _ eq_refl). rewrite R3. destruct (reg_find (s_simple (snd ws)) id) eqn:E.
        + split; auto. intros i. cbn [first_use]. destruct (id =? i) eqn:Ei; [apply Z.eqb_eq in Ei; subst; now rewrite E|]. destruct (reg_find _ i); auto.
        + apply reg_find_none in E. split; [now apply keys_sorted_insert|]. intros i. rewrite reg_find_insert by auto. cbn [first_use].
          destruct (id =? i) eqn:Ei; [apply Z.eqb_eq in Ei; subst; apply reg_find_none in E; now rewrite E|]. destruct (reg_find _ i); auto. }
    destruct HS1 as [HS1 HF1]. destruct (IH HS1) as [HS2 HF2]. split; auto. intros id. rewrite HF2, HF1.
    destruct (reg_find (s_simple (snd ws)) id); auto. destruct o; cbn [first_use]; auto; destruct (_ =? id); auto.
Qed.

(** all processes = one process after the other *)
Lemma reg_find_in {P} (m : registry P) k p : StronglySorted Z.lt (keys m) -> In (k, p) m -> reg_find m k = Some p.
Proof.
  induction m as [|[j q] m IH]; intros HS H; [destruct H|]. cbn in HS. inversion HS as [|? ? HS' HF]; subst. cbn [reg_find].
  destruct H as [[= -> ->]|H]; [now rewrite Z.eqb_refl|]. rewrite Forall_forall in HF.
  assert (In k (keys m)) by (apply (in_map fst) in H; exact H). specialize (HF _ H0). replace (j =? k) with false by (symmetry; apply Z.eqb_neq; lia). auto.
Qed.
Lemma call_simple_reg p dt w (s : species N W) ws : (call_simple p dt (w, s) = Done ws \/ call_simple p dt (w, s) = Raised ws) -> s_simple (snd ws) = s_simple s.
Proof.
  intros H. unfold call_simple in H. destruct p as [f|]; [|destruct H as [H|H]; [discriminate|injection H as <-; auto]].
  destruct (f _ _ _ _ _ _ _ _ _) as [[? [[[? ?] ?] ?]]|[? [[[? ?] ?] ?]]|]; destruct H as [H|H]; try discriminate; injection H as <-; reflexivity.
Qed.
Lemma do_simple_found id p dt w (s : species N W) : reg_find (s_simple s) id = Some p -> do_simple_process id dt (w, s) = call_simple p dt (w, s).
Proof. intros H. unfold do_simple_process. rewrite (reg_index_found _ _ _ H). now destruct s. Qed.
Lemma do_all_runs dt (ws : W * species N W) : StronglySorted Z.lt (keys (s_simple (snd ws))) ->
  do_all_simple_processes dt ws = one_by_one (fun id => do_simple_process id dt) (keys (s_simple (snd ws))) ws.
Proof.
  unfold do_all_simple_processes. set (R := s_simple (snd ws)) at 2 3. intros HS.
  assert (G : forall l ws, incl l R -> s_simple (snd ws) = R -> call_all l dt ws = one_by_one (fun id => do_simple_process id dt) (keys l) ws).
  { induction l as [|[k p] l IH]; intros [w s] Hi Hs; [reflexivity|]. cbn [call_all keys map one_by_one fst]. cbn [snd] in Hs.
    rewrite (do_simple_found k p) by (rewrite Hs; apply reg_find_in; [exact HS|apply Hi; now left]).
    destruct (call_simple p dt (w, s)) as [ws1|ws1|] eqn:E; cbn [rbind]; auto.
    apply IH; [intros x Hx; apply Hi; now right|]. rewrite (call_simple_reg _ _ _ _ _ (or_introl E)). exact Hs. }
  apply G; [apply incl_refl|reflexivity].
Qed.

(** an ID run before being registered spoils the registry *)
Lemma poisoned id os (ws ws' : W * species N W) : history os ws ws' -> StronglySorted Z.lt (keys (s_simple (snd ws))) ->
  reg_find (s_simple (snd ws)) id = Some None ->
  (forall f, add_simple_process f id (snd ws') = Raised (snd ws')) /\
  (forall dt, do_simple_process id dt ws' = Raised ws') /\
  forall dt ws'', do_all_simple_processes dt ws' <> Done ws''.
Proof.
  intros H HS Hf. destruct (history_registry _ _ _ H HS) as [HS' HF]. specialize (HF id). rewrite Hf in HF. destruct ws' as [w s]. cbn [snd] in *.
  split; [intros f; unfold add_simple_process; now rewrite HF|]. split.
  - intros dt. rewrite (do_simple_found _ _ _ _ _ HF). reflexivity.
  - intros dt ws''. rewrite do_all_runs by exact HS'. cbn [snd].
    assert (Hin : In id (keys (s_simple s))). { destruct (in_dec Z.eq_dec id (keys (s_simple s))); auto. apply reg_find_none in n. congruence. }
    clear H HS'. assert (HR : exists R, s_simple s = R /\ reg_find R id = Some None) by eauto. destruct HR as (R & HR & HFR).
    assert (GG : forall l w s, s_simple s = R -> In id l -> one_by_one (fun id => do_simple_process id dt) l (w, s) <> @Done (W * species N W) ws'').
    { induction l as [|k l IH]; intros w0 s0 Hs0 Hi; [destruct Hi|]. cbn [one_by_one].
      destruct (Z.eq_dec k id) as [->|Hne].
      - rewrite (do_simple_found _ None) by (now rewrite Hs0). cbn. discriminate.
      - destruct Hi as [->|Hi]; [congruence|]. destruct (do_simple_process k dt (w0, s0)) as [[w1 s1]|?|] eqn:E; cbn [rbind]; try discriminate.
        unfold do_simple_process in E. destruct (reg_index (s_simple s0) k) as [p m] eqn:Ei. pose proof (call_simple_reg _ _ _ _ _ (or_introl E)) as Es. cbn in Es.
        unfold reg_index in Ei. destruct (reg_find (s_simple s0) k) eqn:Ek; injection Ei as <- <-.
        + apply IH; auto. congruence.
        + discriminate E. }
    eapply GG; eauto.
Qed.

(** ** the observable registry of simple processes *)
Lemma fresh_simple (s : species N W) : fresh s -> s_simple s = [].
Proof. intros [E | [E | E]]; rewrite E; reflexivity. Qed.
Lemma fresh_registry os w0 (s0 : species N W) w s : fresh s0 -> history os (w0, s0) (w, s) ->
  StronglySorted Z.lt (keys (s_simple s)) /\ forall id, reg_find (s_simple s) id = first_use id os.
Proof.
  intros F H. apply history_registry in H; cbn [snd] in *; rewrite (fresh_simple _ F) in *; [|constructor]. exact H.
Qed.
Lemma registry_add os w0 (s0 : species N W) w s f id : fresh s0 -> history os (w0, s0) (w, s) ->
  (first_use id os = None -> exists s', add_simple_process f id s = Done s' /\ s_data s' = s_data s) /\
  (first_use id os <> None -> add_simple_process f id s = Raised s).
Proof.
  intros F H. destruct (fresh_registry _ _ _ _ _ F H) as [_ R]. specialize (R id). unfold add_simple_process. rewrite R.
  split; intros E.
  - rewrite E. eexists. split; reflexivity.
  - destruct (first_use id os); [reflexivity|congruence].
Qed.
Lemma registry_run os w0 (s0 : species N W) w s f id dt : fresh s0 -> history os (w0, s0) (w, s) -> first_use id os = Some (Some f) ->
  do_simple_process id dt (w, s) =
  let d := s_data s in
  match f w (d_pos d) (d_mom d) (d_fld d) (d_opt d) (d_flag d) (s_mass s) (s_charge s) dt with
  | Done (w', (p, m, o, g)) => Done (w', with_data s (mkD p m (d_fld d) o g))
  | Raised (w', (p, m, o, g)) => Raised (w', with_data s (mkD p m (d_fld d) o g))
  | Undef => Undef
  end.
Proof.
  intros F H E. destruct (fresh_registry _ _ _ _ _ F H) as [_ R]. specialize (R id). rewrite E in R.
  rewrite (do_simple_found id (Some f)) by exact R. unfold call_simple.
  destruct (f _ _ _ _ _ _ _ _ _) as [[? [[[? ?] ?] ?]]|[? [[[? ?] ?] ?]]|]; reflexivity.
Qed.
Lemma registry_all os w0 (s0 : species N W) w s : fresh s0 -> history os (w0, s0) (w, s) ->
  exists ids, StronglySorted Z.lt ids /\ (forall id, In id ids <-> first_use id os <> None) /\
    forall dt, do_all_simple_processes dt (w, s) = one_by_one (fun id => do_simple_process id dt) ids (w, s).
Proof.
  intros F H. destruct (fresh_registry _ _ _ _ _ F H) as [SS RR]. exists (keys (s_simple s)). split; [exact SS|]. split.
  - intros id. rewrite <- RR. destruct (in_dec Z.eq_dec id (keys (s_simple s))) as [I|I].
    + split; auto. intros _ C. apply reg_find_none in C. auto.
    + split; [tauto|]. intros C. apply reg_find_none in I. congruence.
  - intros dt. now apply do_all_runs.
Qed.
Lemma registry_unknown os w0 (s0 : species N W) w s id dt : fresh s0 -> history os (w0, s0) (w, s) -> first_use id os = None ->
  exists s1, do_simple_process id dt (w, s) = Raised (w, s1) /\ s_data s1 = s_data s /\
  forall os' w2 s2, history os' (w, s1) (w2, s2) ->
    (forall f, add_simple_process f id s2 = Raised s2) /\ (forall dt', do_simple_process id dt' (w2, s2) = Raised (w2, s2)) /\
    forall dt' x, do_all_simple_processes dt' (w2, s2) <> Done x.
Proof.
  intros F H E. destruct (fresh_registry _ _ _ _ _ F H) as [SS RR]. pose proof (RR id) as Rid. rewrite E in Rid.
  exists (with_simple s (reg_insert (s_simple s) id None)). split; [|split; [reflexivity|]].
  - unfold do_simple_process, reg_index. rewrite Rid. reflexivity.
  - apply reg_find_none in Rid. intros os' w2 s2 H2. pose proof (poisoned id os' _ _ H2) as P. cbn [snd with_simple s_simple] in P.
    apply P; [now apply keys_sorted_insert|]. now rewrite reg_find_insert, Z.eqb_refl.
Qed.

(** ** the registry of processes with destruction *)
Lemma destr_loop_reg is id dt : forall w (s : species N W) acc x k p,
  (destr_loop is id dt w s acc = Done x \/ destr_loop is id dt w s acc = Raised x) ->
  reg_find (s_destr s) k = Some p -> reg_find (s_destr (snd (fst x))) k = Some p.
Proof.
  induction is as [|i is IH]; intros w s acc x k p H Hk; cbn [destr_loop] in H.
  - destruct H as [H|H]; [|discriminate]. injection H as <-. exact Hk.
  - assert (K1 : reg_find (snd (reg_index (s_destr s) id)) k = Some p).
    { unfold reg_index. destruct (reg_find (s_destr s) id) eqn:E; cbn [snd]; auto.
      rewrite reg_find_insert by (now apply reg_find_none). destruct (id =? k) eqn:Ek; auto. apply Z.eqb_eq in Ek. congruence. }
    destruct (reg_index (s_destr s) id) as [[f|] m]; cbn [snd] in K1.
    + match type of H with match ?b with _ => _ end = _ \/ _ => destruct b as [r| | |]; try (destruct H; discriminate) end.
      destruct r as [[w' kill]|[w' kill]|]; cbn [rbind] in H.
      * eapply IH; [exact H|exact K1].
      * destruct H as [H|H]; [discriminate|]. injection H as <-. exact K1.
      * destruct H; discriminate.
    + destruct H as [H|H]; [discriminate|]. injection H as <-. exact K1.
Qed.
Lemma do_op_destr_reg (o : op N W) ws ws' k p : (do_op o ws = Done ws' \/ do_op o ws = Raised ws') ->
  reg_find (s_destr (snd ws)) k = Some p -> reg_find (s_destr (snd ws')) k = Some p.
Proof.
  assert (OD : forall f (s s' : species N W), (on_data f s = Done s' \/ on_data f s = Raised s') -> s_destr s' = s_destr s).
  { intros f s s' [H|H]; unfold on_data, of_out in H; destruct (f (s_data s)); try discriminate; injection H as <-; reflexivity. }
  assert (LD : forall f w (s : species N W) ws', (lift w (on_data f s) = Done ws' \/ lift w (on_data f s) = Raised ws') -> s_destr (snd ws') = s_destr s).
  { intros f w s x H. apply (OD f). destruct (on_data f s); cbn [lift] in H; destruct H as [H|H]; try discriminate; injection H as <-; auto. }
  assert (CS : forall q dt w (s : species N W) x, (call_simple q dt (w, s) = Done x \/ call_simple q dt (w, s) = Raised x) -> s_destr (snd x) = s_destr s).
  { intros q dt w s x H. unfold call_simple in H. destruct q as [f|]; [|destruct H as [H|H]; [discriminate|injection H as <-; auto]].
    destruct (f _ _ _ _ _ _ _ _ _) as [[? [[[? ?] ?] ?]]|[? [[[? ?] ?] ?]]|]; destruct H as [H|H]; try discriminate; injection H as <-; reflexivity. }
  destruct ws as [w s]. intros H Hk. cbn [snd] in Hk. destruct o; cbn [do_op] in H;
    try (apply LD in H; congruence).
  - unfold push_momenta in H. destruct (s_kind s).
    + cbn [lift] in H. destruct H as [H|H]; [|discriminate]. injection H as <-. exact Hk.
    + destruct (s_pusher s); apply LD in H; congruence.
  - destruct H as [H|H]; [|discriminate]. injection H as <-. exact Hk.
  - unfold add_simple_process in H. destruct (reg_find (s_simple s) id); cbn [lift] in H; destruct H as [H|H]; try discriminate; injection H as <-; exact Hk.
  - unfold add_process_with_destruction in H. destruct (reg_find (s_destr s) id) eqn:E; cbn [lift] in H; destruct H as [H|H]; try discriminate; injection H as <-; [exact Hk|].
    cbn [snd s_destr]. rewrite reg_find_insert by (now apply reg_find_none). destruct (id =? k) eqn:Ek; auto. apply Z.eqb_eq in Ek. congruence.
  - unfold do_all_simple_processes in H. cbn [snd] in H. revert H. generalize (s_simple s). intros l. revert w s Hk.
    induction l as [|[j q] l IH]; intros w s Hk H; cbn [call_all] in H.
    + destruct H as [H|H]; [|discriminate]. injection H as <-. exact Hk.
    + destruct (call_simple q dt (w, s)) as [[w1 s1]|y|] eqn:E; cbn [rbind] in H.
      * pose proof (CS _ _ _ _ _ (or_introl E)) as C. cbn [snd] in C. apply (IH w1 s1); [congruence|exact H].
      * destruct H as [H|H]; [discriminate|]. injection H as <-. pose proof (CS _ _ _ _ _ (or_intror E)) as C. congruence.
      * destruct H; discriminate.
  - unfold do_simple_process in H. destruct (reg_index (s_simple s) id) as [q m]. apply CS in H. cbn [s_destr] in H. congruence.
  - unfold do_process_with_destruction in H. destruct (size0 (s_data s)) as [n| | |]; try (destruct H; discriminate).
    destruct (destr_loop (zseq (Z.to_nat n)) id dt w s []) as [[[w1 s1] kill]|[[w1 s1] kill]|] eqn:E; cbn [rbind] in H.
    + destruct (remove_sorted_data kill (s_data s1)); destruct H as [H|H]; try discriminate. injection H as <-. cbn [snd with_data s_destr].
      exact (destr_loop_reg _ _ _ _ _ _ _ _ _ (or_introl E) Hk).
    + destruct H as [H|H]; [discriminate|]. injection H as <-. exact (destr_loop_reg _ _ _ _ _ _ _ _ _ (or_intror E) Hk).
    + destruct H; discriminate.
Qed.
Lemma history_destr_reg os (ws ws' : W * species N W) k p : history os ws ws' -> reg_find (s_destr (snd ws)) k = Some p -> reg_find (s_destr (snd ws')) k = Some p.
Proof. induction 1 as [|o os ws ws1 ws2 Ho Hh IH]; intros Hk; auto. apply IH. eapply do_op_destr_reg; eauto. Qed.

Lemma registered_destruction id f w0 (s0 s1 : species N W) os w s ps dt :
  add_process_with_destruction f id s0 = Done s1 -> history os (w0, s1) (w, s) ->
  s_data s = data_of ps -> Z.of_nat (length ps) < 2 ^ 64 ->
  match visit (on_part f s dt) w ps with
  | Done (w', bs) => exists ps', do_process_with_destruction id dt (w, s) = Done (w', with_data s (data_of ps')) /\
      Permutation ps' (spared bs ps) /\
      forall j, nth j bs false = false -> (j < length ps')%nat -> nth_error ps' j = nth_error ps j
  | Raised (w', _) => do_process_with_destruction id dt (w, s) = Raised (w', s)
  | Undef => do_process_with_destruction id dt (w, s) = Undef
  end.
Proof.
  intros HA HH. apply destruction_spec. apply (history_destr_reg _ _ _ id (Some f)) in HH; [exact HH|].
  unfold add_process_with_destruction in HA. destruct (reg_find (s_destr s0) id) eqn:E; [discriminate|]. injection HA as <-. cbn [snd s_destr].
  rewrite reg_find_insert by (now apply reg_find_none). now rewrite Z.eqb_refl.
Qed.

Lemma unknown_destruction id w (s : species N W) ps dt : reg_find (s_destr s) id = None -> s_data s = data_of ps ->
  do_process_with_destruction id dt (w, s) =
  match ps with [] => Done (w, s) | _ => Raised (w, with_destr s (reg_insert (s_destr s) id None)) end.
Proof.
  intros E D. unfold do_process_with_destruction. rewrite D, size_data_of, Nat2Z.id. destruct ps as [|p ps].
  - cbn. rewrite D. destruct s. cbn in D. subst. reflexivity.
  - unfold zseq. cbn [length seq map destr_loop]. unfold reg_index. rewrite E. cbn [rbind]. reflexivity.
Qed.
Lemma poisoned_destruction id w (s : species N W) ps dt os w' s' : reg_find (s_destr s) id = Some None -> history os (w, s) (w', s') -> s_data s' = data_of ps ->
  (forall f, add_process_with_destruction f id s' = Raised s') /\
  do_process_with_destruction id dt (w', s') = match ps with [] => Done (w', s') | _ => Raised (w', s') end.
Proof.
  intros E H D. apply (history_destr_reg _ _ _ id None) in H; [|exact E]. cbn [snd] in H. split.
  - intros f. unfold add_process_with_destruction. now rewrite H.
  - unfold do_process_with_destruction. rewrite D, size_data_of, Nat2Z.id. destruct ps as [|p ps].
    + cbn. rewrite D. destruct s'. cbn in D. subst. reflexivity.
    + unfold zseq. cbn [length seq map destr_loop]. unfold reg_index. rewrite H. cbn [rbind]. now destruct s'.
Qed.
End Consistent.
