(** Proofs about the particle containers of the test program (C49-C53). *)
From Coq Require Import ZArith List Bool Lia Permutation.
From Verif Require Import Cxx Num CxxLemmas LookupTables VecFun TestProgram SpecSpecies.
Import ListNotations.
Local Open Scope Z_scope.

(** ** lists *)
Lemma map_lset {A B} (f : A -> B) l n a : map f (lset l n a) = lset (map f l) n (f a).
Proof. revert n. induction l as [|x l IH]; intros [|n]; cbn; auto. now rewrite IH. Qed.

Lemma lset_same_id {A} (l : list A) n a : nth_error l n = Some a -> lset l n a = l.
Proof. revert n. induction l as [|x l IH]; intros [|n] H; cbn in *; try discriminate; auto; [congruence|]. now rewrite IH. Qed.

Lemma map_lset_same {A B} (f : A -> B) l n a b : nth_error l n = Some a -> f b = f a -> map f (lset l n b) = map f l.
Proof. intros H E. rewrite map_lset, E. apply lset_same_id. now apply map_nth_error. Qed.

Lemma lset_app_mid {A} (l l' : list A) a b : lset (l ++ a :: l') (length l) b = l ++ b :: l'.
Proof. induction l as [|x l IH]; cbn; auto. now rewrite IH. Qed.

Lemma nth_error_mid {A} (l l' : list A) a : nth_error (l ++ a :: l') (length l) = Some a.
Proof. rewrite nth_error_app2, Nat.sub_diag; auto. Qed.

Section Data.
Context {N : NumOps}.
Implicit Types ps : list (part N).

Lemma zget_map {A B} (f : A -> B) (l : list A) i k a : nth_error l k = Some a -> i = Z.of_nat k -> zget (map f l) i = Ret (f a).
Proof.
  intros H ->. unfold zget, zlen. rewrite map_length. assert (k < length l)%nat by (apply nth_error_Some; congruence).
  replace (0 <=? Z.of_nat k) with true by (symmetry; apply Z.leb_le; lia).
  replace (Z.of_nat k <? Z.of_nat (length l)) with true by (symmetry; apply Z.ltb_lt; lia).
  cbn [andb]. rewrite Nat2Z.id. now rewrite (map_nth_error f _ _ H).
Qed.

Lemma zset_map {A B} (f : A -> B) (l : list A) i k a b : nth_error l k = Some a -> i = Z.of_nat k ->
  zset (map f l) i (f b) = Ret (map f (lset l k b)).
Proof.
  intros H ->. assert (k < length l)%nat by (apply nth_error_Some; congruence).
  rewrite zset_ok by (unfold zlen; rewrite map_length; lia). now rewrite Nat2Z.id, map_lset.
Qed.

Lemma zget_inv {A} (l : list A) i a : zget l i = Ret a -> exists k, i = Z.of_nat k /\ nth_error l k = Some a.
Proof.
  unfold zget. destruct (0 <=? i) eqn:E0; cbn [andb]; [|discriminate]. destruct (i <? zlen l); [|discriminate].
  destruct (nth_error l (Z.to_nat i)) eqn:E; [|discriminate]. intros [= <-]. exists (Z.to_nat i).
  apply Z.leb_le in E0. split; [lia|exact E].
Qed.

Lemma zget_map_inv {A B} (f : A -> B) (l : list A) i b : zget (map f l) i = Ret b ->
  exists k a, i = Z.of_nat k /\ nth_error l k = Some a /\ b = f a.
Proof.
  intros H. apply zget_inv in H as (k & Hk & H). rewrite nth_error_map in H.
  destruct (nth_error l k) as [a|] eqn:E; [|discriminate]. injection H as <-. eauto.
Qed.

Lemma get_rows0 f ps post i k p : nth_error ps k = Some p -> i = Z.of_nat k ->
  get_vec (rows3 f ps ++ post) 0 i = Ret (f p).
Proof.
  intros H Hi. unfold get_vec, get2, rows3. cbn [nth_error app].
  rewrite !(zget_map _ _ _ _ _ H Hi). cbn [bind]. now destruct (f p).
Qed.
Lemma get_rows0' f ps i k p : nth_error ps k = Some p -> i = Z.of_nat k -> get_vec (rows3 f ps) 0 i = Ret (f p).
Proof. intros H Hi. rewrite <- (app_nil_r (rows3 f ps)). now apply get_rows0 with k. Qed.
Lemma get_rows3 f g ps i k p : nth_error ps k = Some p -> i = Z.of_nat k ->
  get_vec (rows3 g ps ++ rows3 f ps) 3 i = Ret (f p).
Proof.
  intros H Hi. unfold get_vec, get2, rows3. cbn [nth_error app].
  rewrite !(zget_map _ _ _ _ _ H Hi). cbn [bind]. now destruct (f p).
Qed.

Lemma set_rows0 f ps post i k p q : nth_error ps k = Some p -> i = Z.of_nat k ->
  set_vec (rows3 f ps ++ post) 0 i (f q) = Ret (rows3 f (lset ps k q) ++ post).
Proof.
  intros H Hi. unfold set_vec, set2, rows3. cbn [nth_error app].
  rewrite (zset_map (fun p => vx (f p)) _ _ _ _ q H Hi). cbn [bind lset nth_error].
  rewrite (zset_map (fun p => vy (f p)) _ _ _ _ q H Hi). cbn [bind lset nth_error].
  rewrite (zset_map (fun p => vz (f p)) _ _ _ _ q H Hi). reflexivity.
Qed.
Lemma set_rows0' f ps i k p q : nth_error ps k = Some p -> i = Z.of_nat k ->
  set_vec (rows3 f ps) 0 i (f q) = Ret (rows3 f (lset ps k q)).
Proof. intros H Hi. rewrite <- (app_nil_r (rows3 f ps)). rewrite (set_rows0 _ _ _ _ _ _ _ H Hi). now rewrite app_nil_r. Qed.
Lemma set_rows3 f g ps ps' i k p q : nth_error ps k = Some p -> i = Z.of_nat k ->
  set_vec (rows3 g ps' ++ rows3 f ps) 3 i (f q) = Ret (rows3 g ps' ++ rows3 f (lset ps k q)).
Proof.
  intros H Hi. unfold set_vec, set2, rows3. cbn [nth_error app].
  rewrite (zset_map (fun p => vx (f p)) _ _ _ _ q H Hi). cbn [bind lset nth_error].
  rewrite (zset_map (fun p => vy (f p)) _ _ _ _ q H Hi). cbn [bind lset nth_error].
  rewrite (zset_map (fun p => vz (f p)) _ _ _ _ q H Hi). reflexivity.
Qed.

Lemma rows3_lset_same f ps k p q : nth_error ps k = Some p -> f q = f p -> rows3 f (lset ps k q) = rows3 f ps.
Proof. intros H E. unfold rows3. f_equal; [|f_equal; [|f_equal]]; apply (map_lset_same _ _ _ p); auto; now rewrite E. Qed.

Lemma get_rows_inv f ps post i v : get_vec (rows3 f ps ++ post) 0 i = Ret v ->
  exists k p, i = Z.of_nat k /\ nth_error ps k = Some p /\ v = f p.
Proof.
  intros H. assert (exists x, zget (map (fun p => vx (f p)) ps) i = Ret x) as (x & Hx).
  { unfold get_vec, get2, rows3 in H. cbn [nth_error app] in H. destruct (zget (map (fun p => vx (f p)) ps) i) eqn:E; try discriminate. eauto. }
  apply zget_map_inv in Hx as (k & p & Hk & Hp & _). exists k, p. split; [exact Hk|]. split; [exact Hp|].
  rewrite (get_rows0 _ _ _ _ _ _ Hp Hk) in H. congruence.
Qed.
Lemma get_rows_inv' f ps i v : get_vec (rows3 f ps) 0 i = Ret v ->
  exists k p, i = Z.of_nat k /\ nth_error ps k = Some p /\ v = f p.
Proof. rewrite <- (app_nil_r (rows3 f ps)). apply get_rows_inv. Qed.

Lemma get_rows_ub f ps i : (forall k p, i = Z.of_nat k -> nth_error ps k = Some p -> False) -> get_vec (rows3 f ps) 0 i = UB.
Proof.
  intros H. unfold get_vec, get2, rows3. cbn [nth_error]. destruct (zget (map (fun p => vx (f p)) ps) i) eqn:E; auto.
  - apply zget_map_inv in E as (k & p & Hk & Hp & _). destruct (H k p Hk Hp).
  - exfalso. unfold zget in E. destruct (_ && _); [destruct (nth_error _ _)|]; discriminate.
  - exfalso. unfold zget in E. destruct (_ && _); [destruct (nth_error _ _)|]; discriminate.
Qed.

Lemma size_data_of ps : size0 (data_of ps) = Ret (Z.of_nat (length ps)).
Proof. unfold size0, data_of, rows3. cbn. unfold zlen. now rewrite map_length. Qed.

Lemma data_of_lset ps k p q : nth_error ps k = Some p ->
  data_of (lset ps k q) = mkD (rows3 q_x (lset ps k q)) (rows3 q_p (lset ps k q)) (rows3 q_e (lset ps k q) ++ rows3 q_b (lset ps k q))
    (map q_opt (lset ps k q)) (map q_flag (lset ps k q)).
Proof. reflexivity. Qed.

(** ** the loops *)
(** an iteration that turns particle k into g of it turns the list into the mapped list *)
Lemma loop_map (body : Z -> data N -> out (data N)) (g : part N -> out (part N)) :
  (forall ps k p, nth_error ps k = Some p -> body (Z.of_nat k) (data_of ps) = do q <- g p; Ret (data_of (lset ps k q))) ->
  forall l pre, loop body (map Z.of_nat (seq (length pre) (length l))) (data_of (pre ++ l))
    = do l' <- mapM g l; Ret (data_of (pre ++ l')).
Proof.
  intros Hb. induction l as [|p l IH]; intros pre; [reflexivity|].
  cbn [length seq map loop mapM]. rewrite (Hb _ _ _ (nth_error_mid pre l p)).
  destruct (g p) as [q| | |]; cbn [bind]; auto. rewrite lset_app_mid.
  replace (pre ++ q :: l) with ((pre ++ [q]) ++ l) by now rewrite <- app_assoc.
  replace (S (length pre)) with (length (pre ++ [q])) by (rewrite app_length; cbn; lia).
  rewrite IH. destruct (mapM g l); cbn [bind]; auto. now rewrite <- app_assoc.
Qed.

Lemma loop_all (body : Z -> data N -> out (data N)) (g : part N -> out (part N)) ps :
  (forall ps k p, nth_error ps k = Some p -> body (Z.of_nat k) (data_of ps) = do q <- g p; Ret (data_of (lset ps k q))) ->
  loop body (zseq (length ps)) (data_of ps) = do l' <- mapM g ps; Ret (data_of l').
Proof. intros Hb. exact (loop_map body g Hb ps []). Qed.

Lemma for_particles_map (body : Z -> data N -> out (data N)) (g : part N -> part N) ps :
  (forall ps k p, nth_error ps k = Some p -> body (Z.of_nat k) (data_of ps) = Ret (data_of (lset ps k (g p)))) ->
  Z.of_nat (length ps) < 2 ^ 31 ->
  for_particles body (data_of ps) = Ret (data_of (map g ps)).
Proof.
  intros Hb Hn. unfold for_particles. rewrite size_data_of. cbn [bind].
  rewrite to_int32_small by lia. rewrite Nat2Z.id.
  rewrite (loop_all body (fun p => Ret (g p))).
  - rewrite (mapM_Ret _ g) by auto. reflexivity.
  - intros. cbn [bind]. auto.
Qed.

(** iterations that keep the number of particles *)
Definition keeps (body : Z -> data N -> out (data N)) : Prop :=
  forall i ps d, body i (data_of ps) = Ret d -> consistent d (length ps).
Lemma loop_keeps body is : keeps body -> forall ps d, loop body is (data_of ps) = Ret d -> consistent d (length ps).
Proof.
  intros Hk. induction is as [|i is IH]; intros ps d H; cbn [loop] in H.
  - injection H as <-. exists ps. auto.
  - destruct (body i (data_of ps)) as [d1| | |] eqn:E; try discriminate. cbn [bind] in H.
    destruct (Hk _ _ _ E) as (ps1 & L & ->). rewrite <- L. eauto.
Qed.
Lemma for_keeps body ps d : keeps body -> for_particles body (data_of ps) = Ret d -> consistent d (length ps).
Proof. intros Hk H. unfold for_particles in H. rewrite size_data_of in H. cbn [bind] in H. eapply loop_keeps; eauto. Qed.

(** ** the single operations *)
Definition set_x (p : part N) (v : vec3 N) := mkP v (q_p p) (q_e p) (q_b p) (q_opt p) (q_flag p).
Definition set_p (p : part N) (v : vec3 N) := mkP (q_x p) v (q_e p) (q_b p) (q_opt p) (q_flag p).
Definition set_eb (p : part N) (v : vec3 N * vec3 N) := mkP (q_x p) (q_p p) (fst v) (snd v) (q_opt p) (q_flag p).

Definition fields_body em (tt : num N) (i : Z) (d : data N) : out (data N) :=
    do p <- get_vec (d_pos d) 0 i;
    let '(e, b) := em p tt in
    do f <- set_vec (d_fld d) 0 i e; do f <- set_vec f 3 i b;
    Ret (mkD (d_pos d) (d_mom d) f (d_opt d) (d_flag d)).
Lemma fields_body_ok em (tt : num N) ps k p : nth_error ps k = Some p ->
  fields_body em tt (Z.of_nat k) (data_of ps) = Ret (data_of (lset ps k (set_eb p (em (q_x p) tt)))).
Proof.
  intros H. unfold fields_body. unfold data_of at 1. cbn [d_pos]. rewrite (get_rows0' _ _ _ _ _ H eq_refl). cbn [bind].
  destruct (em (q_x p) tt) as [e b]. set (q := set_eb p (e, b)). cbn [data_of d_pos d_mom d_fld d_opt d_flag].
  change e with (q_e q) at 1. rewrite (set_rows0 _ _ _ _ _ _ _ H eq_refl). cbn [bind].
  change b with (q_b q) at 1. rewrite (set_rows3 _ _ _ _ _ _ _ _ H eq_refl). cbn [bind]. unfold data_of.
  rewrite (rows3_lset_same q_x _ _ _ q H eq_refl), (rows3_lset_same q_p _ _ _ q H eq_refl).
  now rewrite (map_lset_same q_opt _ _ _ q H eq_refl), (map_lset_same q_flag _ _ _ q H eq_refl).
Qed.

Definition pos_body p0 (dt : num N) (i : Z) (d : data N) : out (data N) :=
    do m <- get_vec (d_mom d) 0 i; do p <- get_vec (d_pos d) 0 i;
    do p' <- set_vec (d_pos d) 0 i (move p0 dt p m);
    Ret (mkD p' (d_mom d) (d_fld d) (d_opt d) (d_flag d)).
Lemma pos_body_ok p0 (dt : num N) ps k p : nth_error ps k = Some p ->
  pos_body p0 dt (Z.of_nat k) (data_of ps) = Ret (data_of (lset ps k (set_x p (move p0 dt (q_x p) (q_p p))))).
Proof.
  intros H. unfold pos_body. set (v := move p0 dt (q_x p) (q_p p)). set (q := set_x p v).
  cbn [data_of d_pos d_mom d_fld d_opt d_flag]. rewrite !(get_rows0' _ _ _ _ _ H eq_refl). cbn [bind]. fold v.
  change v with (q_x q). rewrite (set_rows0' _ _ _ _ _ _ H eq_refl). cbn [bind]. unfold data_of.
  rewrite (rows3_lset_same q_p _ _ _ q H eq_refl), (rows3_lset_same q_e _ _ _ q H eq_refl), (rows3_lset_same q_b _ _ _ q H eq_refl).
  now rewrite (map_lset_same q_opt _ _ _ q H eq_refl), (map_lset_same q_flag _ _ _ q H eq_refl).
Qed.

Definition mom_body beta (i : Z) (d : data N) : out (data N) :=
    do m <- get_vec (d_mom d) 0 i; do e <- get_vec (d_fld d) 0 i; do b <- get_vec (d_fld d) 3 i;
    do m' <- set_vec (d_mom d) 0 i (boris beta m e b);
    Ret (mkD (d_pos d) m' (d_fld d) (d_opt d) (d_flag d)).
Lemma mom_body_ok beta ps k p : nth_error ps k = Some p ->
  mom_body beta (Z.of_nat k) (data_of ps) = Ret (data_of (lset ps k (set_p p (boris beta (q_p p) (q_e p) (q_b p))))).
Proof.
  intros H. unfold mom_body. set (v := boris beta (q_p p) (q_e p) (q_b p)). set (q := set_p p v).
  cbn [data_of d_pos d_mom d_fld d_opt d_flag].
  rewrite (get_rows0' _ _ _ _ _ H eq_refl), (get_rows0 _ _ _ _ _ _ H eq_refl), (get_rows3 _ _ _ _ _ _ H eq_refl). cbn [bind]. fold v.
  change v with (q_p q). rewrite (set_rows0' _ _ _ _ _ _ H eq_refl). cbn [bind]. unfold data_of.
  rewrite (rows3_lset_same q_x _ _ _ q H eq_refl), (rows3_lset_same q_e _ _ _ q H eq_refl), (rows3_lset_same q_b _ _ _ q H eq_refl).
  now rewrite (map_lset_same q_opt _ _ _ q H eq_refl), (map_lset_same q_flag _ _ _ q H eq_refl).
Qed.

Lemma calc_fields_map em (tt : num N) ps : Z.of_nat (length ps) < 2 ^ 31 ->
  calc_fields_data em tt (data_of ps) = Ret (data_of (map (fun p => set_eb p (em (q_x p) tt)) ps)).
Proof. intros Hn. apply (for_particles_map (fields_body em tt)); auto. intros. now apply fields_body_ok. Qed.
Lemma push_positions_map p0 (dt : num N) ps : Z.of_nat (length ps) < 2 ^ 31 ->
  push_positions_data p0 dt (data_of ps) = Ret (data_of (map (fun p => set_x p (move p0 dt (q_x p) (q_p p))) ps)).
Proof. intros Hn. apply (for_particles_map (pos_body p0 dt)); auto. intros. now apply pos_body_ok. Qed.
Lemma boris_map (mass charge dt : num N) ps : Z.of_nat (length ps) < 2 ^ 31 ->
  boris_data mass charge dt (data_of ps) =
  Ret (data_of (map (fun p => set_p p (boris (n_lit 5 (-1) * charge * dt / mass)%N (q_p p) (q_e p) (q_b p))) ps)).
Proof. intros Hn. apply (for_particles_map (mom_body _)); auto. intros. now apply mom_body_ok. Qed.

(** ... and they keep the arrays consistent for any number of particles *)
Lemma fields_keeps em (tt : num N) : keeps (fields_body em tt).
Proof.
  intros i ps d H. assert (exists v, get_vec (rows3 q_x ps) 0 i = Ret v) as (v & Hv).
  { unfold fields_body in H. cbn [data_of d_pos] in H. destruct (get_vec (rows3 q_x ps) 0 i); try discriminate; eauto. }
  apply get_rows_inv' in Hv as (k & p & -> & Hp & _). rewrite (fields_body_ok em tt ps k p Hp) in H. injection H as <-.
  eexists. split; [|reflexivity]. apply lset_length.
Qed.
Lemma pos_keeps p0 (dt : num N) : keeps (pos_body p0 dt).
Proof.
  intros i ps d H. assert (exists v, get_vec (rows3 q_p ps) 0 i = Ret v) as (v & Hv).
  { unfold pos_body in H. cbn [data_of d_mom] in H. destruct (get_vec (rows3 q_p ps) 0 i); try discriminate; eauto. }
  apply get_rows_inv' in Hv as (k & p & -> & Hp & _). rewrite (pos_body_ok p0 dt ps k p Hp) in H. injection H as <-.
  eexists. split; [|reflexivity]. apply lset_length.
Qed.
Lemma mom_keeps beta : keeps (mom_body beta).
Proof.
  intros i ps d H. assert (exists v, get_vec (rows3 q_p ps) 0 i = Ret v) as (v & Hv).
  { unfold mom_body in H. cbn [data_of d_mom] in H. destruct (get_vec (rows3 q_p ps) 0 i); try discriminate; eauto. }
  apply get_rows_inv' in Hv as (k & p & -> & Hp & _). rewrite (mom_body_ok beta ps k p Hp) in H. injection H as <-.
  eexists. split; [|reflexivity]. apply lset_length.
Qed.

Lemma add_particle_ok (p m : vec3 N) ps :
  add_particle_data p m (data_of ps) = Ret (data_of (ps ++ [mkP p m (V3 n_zero n_zero n_zero) (V3 n_zero n_zero n_zero) n_zero false])).
Proof. unfold data_of, rows3. cbn. now rewrite !map_app. Qed.

Lemma erase_at_map {A B} (f : A -> B) (l : list A) i k : (k < length l)%nat -> i = Z.of_nat k ->
  erase_at i (map f l) = Ret (map f (firstn k l ++ skipn (S k) l)).
Proof.
  intros H ->. unfold erase_at, zlen. rewrite map_length.
  replace (0 <=? Z.of_nat k) with true by (symmetry; apply Z.leb_le; lia).
  replace (Z.of_nat k <? Z.of_nat (length l)) with true by (symmetry; apply Z.ltb_lt; lia).
  cbn [andb]. rewrite Nat2Z.id, map_app, firstn_map, skipn_map. reflexivity.
Qed.
Lemma erase_from_map {A B} (f : A -> B) (l : list A) i k : (k <= length l)%nat -> i = Z.of_nat k ->
  erase_from i (map f l) = Ret (map f (firstn k l)).
Proof.
  intros H ->. unfold erase_from, zlen. rewrite map_length.
  replace (0 <=? Z.of_nat k) with true by (symmetry; apply Z.leb_le; lia).
  replace (Z.of_nat k <=? Z.of_nat (length l)) with true by (symmetry; apply Z.leb_le; lia).
  cbn [andb]. rewrite Nat2Z.id, firstn_map. reflexivity.
Qed.

Lemma remove_particle_ok ps k : (k < length ps)%nat ->
  remove_particle_data (Z.of_nat k) (data_of ps) = Ret (data_of (firstn k ps ++ skipn (S k) ps)).
Proof.
  intros H. unfold remove_particle_data, data_of, rows3. cbn [d_pos d_mom d_fld d_opt d_flag app mapM].
  rewrite !(erase_at_map _ ps _ k H eq_refl). reflexivity.
Qed.
Lemma remove_toend_ok ps k : (k <= length ps)%nat ->
  remove_toend_data (Z.of_nat k) (data_of ps) = Ret (data_of (firstn k ps)).
Proof.
  intros H. unfold remove_toend_data, data_of, rows3. cbn [d_pos d_mom d_fld d_opt d_flag app mapM].
  rewrite !(erase_from_map _ ps _ k H eq_refl). reflexivity.
Qed.
Lemma remove_particle_ub ps i : ~ (0 <= i < Z.of_nat (length ps)) -> remove_particle_data i (data_of ps) = UB.
Proof.
  intros H. unfold remove_particle_data, data_of, rows3. cbn [d_pos mapM]. unfold erase_at at 1. unfold zlen. rewrite map_length.
  destruct (0 <=? i) eqn:E0; cbn [andb]; auto. destruct (i <? Z.of_nat (length ps)) eqn:E1; auto.
  apply Z.leb_le in E0. apply Z.ltb_lt in E1. lia.
Qed.
Lemma remove_toend_ub ps i : ~ (0 <= i <= Z.of_nat (length ps)) -> remove_toend_data i (data_of ps) = UB.
Proof.
  intros H. unfold remove_toend_data, data_of, rows3. cbn [d_pos mapM]. unfold erase_from at 1. unfold zlen. rewrite map_length.
  destruct (0 <=? i) eqn:E0; cbn [andb]; auto. destruct (i <=? Z.of_nat (length ps)) eqn:E1; auto.
  apply Z.leb_le in E0. apply Z.leb_le in E1. lia.
Qed.

Lemma overwrite_ok ps s d p q : nth_error ps s = Some p -> nth_error ps d = Some q ->
  overwrite_particle (Z.of_nat s) (Z.of_nat d) (data_of ps) = Ret (data_of (lset ps d p)).
Proof.
  intros Hs Hd. unfold overwrite_particle. cbn [data_of d_pos d_mom d_fld d_opt d_flag].
  rewrite (get_rows0' q_x _ _ _ _ Hs eq_refl). cbn [bind]. rewrite (set_rows0' q_x _ _ _ _ p Hd eq_refl). cbn [bind].
  rewrite (get_rows0' q_p _ _ _ _ Hs eq_refl). cbn [bind]. rewrite (set_rows0' q_p _ _ _ _ p Hd eq_refl). cbn [bind].
  rewrite (get_rows0 q_e _ _ _ _ _ Hs eq_refl). cbn [bind]. rewrite (set_rows0 q_e _ _ _ _ _ p Hd eq_refl). cbn [bind].
  assert (HB : get_vec (rows3 q_e (lset ps d p) ++ rows3 q_b ps) 3 (Z.of_nat s) = Ret (q_b p)).
  { exact (get_rows3 q_b q_b ps _ s p Hs eq_refl). }
  rewrite HB. cbn [bind]. rewrite (set_rows3 q_b q_e _ _ _ _ _ p Hd eq_refl). cbn [bind].
  rewrite (zget_map q_opt _ _ _ _ Hs eq_refl). cbn [bind]. rewrite (zset_map q_opt _ _ _ _ p Hd eq_refl). cbn [bind].
  rewrite (zget_map q_flag _ _ _ _ Hs eq_refl). cbn [bind]. rewrite (zset_map q_flag _ _ _ _ p Hd eq_refl). reflexivity.
Qed.
End Data.

(** ** C50: removal of the particles with given indices *)
Section Pick.
Context {A : Type}.
Implicit Types (l : list A) (P Q : nat -> bool).

Lemma pick_ext l : forall P Q, (forall j, (j < length l)%nat -> P j = Q j) -> pick P l = pick Q l.
Proof.
  induction l as [|a l IH]; intros P Q H; cbn; auto. rewrite (H O) by (cbn; lia).
  rewrite (IH (fun j => P (S j)) (fun j => Q (S j))); [reflexivity|]. intros j Hj. apply H. cbn. lia.
Qed.
Lemma pick_app l : forall P l', pick P (l ++ l') = pick P l ++ pick (fun j => P (length l + j)%nat) l'.
Proof.
  induction l as [|a l IH]; intros P l'; cbn [app pick length]; [reflexivity|]. rewrite IH. now destruct (P O).
Qed.
Lemma pick_all l : forall P, (forall j, (j < length l)%nat -> P j = true) -> pick P l = l.
Proof. induction l as [|a l IH]; intros P H; cbn; auto. rewrite (H O) by (cbn; lia). rewrite IH; auto. intros. apply H. cbn. lia. Qed.
Lemma pick_none l : forall P, (forall j, (j < length l)%nat -> P j = false) -> pick P l = [].
Proof. induction l as [|a l IH]; intros P H; cbn; auto. rewrite (H O) by (cbn; lia). apply IH. intros. apply H. cbn. lia. Qed.
Lemma pick_map {B} (f : A -> B) l : forall P, map f (pick P l) = pick P (map f l).
Proof. induction l as [|a l IH]; intros P; cbn; auto. destruct (P O); cbn; now rewrite IH. Qed.

Lemma split_nth l k a : nth_error l k = Some a -> l = firstn k l ++ a :: skipn (S k) l.
Proof. revert k. induction l as [|x l IH]; intros [|k] H; cbn in *; try discriminate; [congruence|]. f_equal. auto. Qed.
Lemma lset_split l k a b : nth_error l k = Some a -> lset l k b = firstn k l ++ b :: skipn (S k) l.
Proof. revert k. induction l as [|x l IH]; intros [|k] H; cbn in *; try discriminate; [congruence|]. f_equal. auto. Qed.
Lemma lset_lt l k (a : A) : (k < length l)%nat -> exists b, nth_error l k = Some b.
Proof. intros H. destruct (nth_error l k) eqn:E; eauto. apply nth_error_None in E. lia. Qed.

(** the number of picked elements and of the others *)
Lemma pick_length l : forall P, length l = (length (pick P l) + length (pick (fun j => negb (P j)) l))%nat.
Proof. induction l as [|a l IH]; intros P; cbn [length pick]; auto. rewrite (IH (fun j => P (S j))). destruct (P O); cbn [negb length]; lia. Qed.
End Pick.

Lemma existsb_in (k : Z) l : existsb (Z.eqb k) l = true <-> In k l.
Proof.
  rewrite existsb_exists. split.
  - intros (x & Hx & E). apply Z.eqb_eq in E. now subst.
  - intros H. exists k. split; auto. apply Z.eqb_refl.
Qed.
Lemma existsb_nin (k : Z) l : existsb (Z.eqb k) l = false <-> ~ In k l.
Proof. rewrite <- existsb_in. destruct (existsb _ _); split; intros; congruence. Qed.

(** the elements with the indices of a sorted list are as many as the list *)
Lemma sorted_cons k K n : sorted_indices (k :: K) n -> sorted_indices K n /\ (0 <= k < Z.of_nat n) /\ forall j, In j K -> k < j.
Proof.
  intros [H1 H2]. inversion H2; subst. split; [split; auto|].
  - intros i j a b Ha Hb Hij. apply (H1 (S i) (S j)); auto; lia.
  - split; auto. intros j Hj. apply In_nth_error in Hj as (i & Hi). apply (H1 O (S i)); auto. lia.
Qed.
Lemma pick_killed {A} (l : list A) : forall K o, (forall k, In k K -> o <= k < o + Z.of_nat (length l)) -> NoDup K ->
  length (pick (fun j => existsb (Z.eqb (o + Z.of_nat j)) K) l) = length K.
Proof.
  induction l as [|a l IH]; intros K o HK HN; cbn [pick length].
  - destruct K as [|k K]; auto. specialize (HK k (or_introl eq_refl)). cbn in HK. lia.
  - rewrite Z.add_0_r. destruct (existsb (Z.eqb o) K) eqn:E.
    + apply existsb_in in E. apply in_split in E as (K1 & K2 & ->). cbn [length].
      rewrite app_length. cbn [length].
      rewrite (pick_ext l _ (fun j => existsb (Z.eqb (o + 1 + Z.of_nat j)) (K1 ++ K2))).
      * rewrite (IH (K1 ++ K2) (o + 1)).
        -- rewrite app_length. lia.
        -- intros k Hk. specialize (HK k). rewrite in_app_iff in HK. cbn [In] in HK. cbn [length] in HK. rewrite in_app_iff in Hk.
           assert (k <> o). { intros ->. apply NoDup_remove_2 in HN. apply HN. now apply in_app_iff. } intuition lia.
        -- now apply NoDup_remove_1 in HN.
      * intros j _. rewrite !existsb_app. cbn [existsb]. replace (o + Z.of_nat (S j)) with (o + 1 + Z.of_nat j) by lia.
        replace (o + 1 + Z.of_nat j =? o) with false by (symmetry; apply Z.eqb_neq; lia). reflexivity.
    + apply existsb_nin in E. rewrite (pick_ext l _ (fun j => existsb (Z.eqb (o + 1 + Z.of_nat j)) K)).
      * apply IH; auto. intros k Hk. specialize (HK k Hk). cbn [length] in HK. assert (k <> o) by congruence. lia.
      * intros j _. now replace (o + Z.of_nat (S j)) with (o + 1 + Z.of_nat j) by lia.
Qed.
Lemma sorted_NoDup K n : sorted_indices K n -> NoDup K.
Proof.
  induction K as [|k K IH]; intros H; constructor.
  - apply sorted_cons in H as (_ & _ & H). intros Hin. specialize (H k Hin). lia.
  - apply IH. now apply sorted_cons in H.
Qed.
Lemma survivors_length {N} K (ps : list (part N)) : sorted_indices K (length ps) -> length (survivors K ps) = (length ps - length K)%nat.
Proof.
  intros H. unfold survivors. rewrite (pick_length ps (fun j => existsb (Z.eqb (Z.of_nat j)) K)).
  rewrite (pick_ext ps (fun j => existsb (Z.eqb (Z.of_nat j)) K) (fun j => existsb (Z.eqb (0 + Z.of_nat j)) K)) by reflexivity.
  rewrite pick_killed.
  - lia.
  - intros k Hk. destruct H as [_ H]. rewrite Forall_forall in H. specialize (H k Hk). lia.
  - eapply sorted_NoDup; eauto.
Qed.
Lemma kill_length K n : sorted_indices K n -> (length K <= n)%nat.
Proof.
  intros H. pose proof (pick_killed (seq 0 n) K 0) as E. rewrite <- E.
  - rewrite <- (seq_length n 0) at 2. rewrite (pick_length (seq 0 n) (fun j => existsb (Z.eqb (0 + Z.of_nat j)) K)). lia.
  - intros k Hk. rewrite seq_length. destruct H as [_ H]. rewrite Forall_forall in H. specialize (H k Hk). lia.
  - eapply sorted_NoDup; eauto.
Qed.

Section Kill.
Context {N : NumOps}.
Implicit Types ps cur : list (part N).

Lemma scan_spec K ps k q : Z.of_nat (length ps) < 2 ^ 64 -> nth_error ps k = Some q ->
  forall fuel L, (L < length ps)%nat -> (S (L - k) <= fuel)%nat -> exists r,
  kill_scan fuel K (Z.of_nat k) (Z.of_nat L) (data_of ps) = Ret r /\
  (((L <= k)%nat /\ r = (Z.of_nat L, data_of ps)) \/
   (exists m p, (k < m <= L)%nat /\ ~ In (Z.of_nat m) K /\ (forall j, (m < j <= L)%nat -> In (Z.of_nat j) K) /\
      nth_error ps m = Some p /\ r = (Z.of_nat m - 1, data_of (lset ps k p))) \/
   ((k < L)%nat /\ (forall j, (k < j <= L)%nat -> In (Z.of_nat j) K) /\ r = (Z.of_nat k, data_of ps))).
Proof.
  intros Hn Hk. induction fuel as [|fuel IH]; intros L HL HF; [lia|]. cbn [kill_scan].
  destruct (Z.of_nat k <? Z.of_nat L) eqn:E.
  - apply Z.ltb_lt in E. destruct (existsb (Z.eqb (Z.of_nat L)) K) eqn:EK; cbn [negb].
    + apply existsb_in in EK. rewrite wrap64_small by lia. replace (Z.of_nat L - 1) with (Z.of_nat (L - 1)) by lia.
      destruct (IH (L - 1)%nat) as (r & Hr & C); [lia|lia|]. exists r. split; [exact Hr|].
      destruct C as [(C1 & C2)|[(m & p & C1 & C2 & C3 & C4 & C5)|(C1 & C2 & C3)]].
      * right; right. assert (k = L - 1)%nat by lia. split; [lia|]. split; [|now rewrite C2, H].
        intros j Hj. replace j with L by lia. exact EK.
      * right; left. exists m, p. split; [lia|]. split; auto. split; auto.
        intros j Hj. destruct (Nat.eq_dec j L) as [->|]; auto. apply C3. lia.
      * right; right. split; [lia|]. split; auto. intros j Hj. destruct (Nat.eq_dec j L) as [->|]; auto. apply C2. lia.
    + apply existsb_nin in EK. destruct (lset_lt ps L q HL) as (p & Hp). rewrite (overwrite_ok ps L k p q Hp Hk). cbn [bind].
      rewrite wrap64_small by lia. eexists. split; [reflexivity|]. right; left. exists L, p.
      split; [lia|]. split; auto. split; [intros; lia|]. auto.
  - apply Z.ltb_ge in E. eexists. split; [reflexivity|]. left. split; [lia|]. reflexivity.
Qed.

(** positions below [b] that are not to be killed any more hold the survivors *)
Definition live (todo : list Z) (b : nat) cur := pick (fun j => negb (existsb (Z.eqb (Z.of_nat j)) todo)) (firstn b cur).

Lemma live_notodo todo b cur : (forall k, In k todo -> Z.of_nat b <= k) -> live todo b cur = firstn b cur.
Proof.
  intros H. apply pick_all. intros j Hj. apply negb_true_iff, existsb_nin. intros Hin. apply H in Hin.
  rewrite firstn_length in Hj. lia.
Qed.

Lemma firstn_split3 {A} (l : list A) k m a b : (k < m)%nat -> nth_error l k = Some a -> nth_error l m = Some b ->
  exists l1 l2 l3, l = l1 ++ a :: l2 ++ b :: l3 /\ length l1 = k /\ (k + 1 + length l2 = m)%nat.
Proof.
  intros Hkm Hk Hm. pose proof (split_nth l k a Hk) as E.
  assert (Hl : (m < length l)%nat) by (apply nth_error_Some; congruence).
  assert (Hm' : nth_error (skipn (S k) l) (m - S k) = Some b).
  { rewrite <- (firstn_skipn (S k) l) in Hm. rewrite nth_error_app2 in Hm; rewrite firstn_length in *; [|lia].
    now replace (m - Nat.min (S k) (length l))%nat with (m - S k)%nat in Hm by lia. }
  pose proof (split_nth _ _ _ Hm') as E2. rewrite E2 in E.
  exists (firstn k l), (firstn (m - S k) (skipn (S k) l)), (skipn (S (m - S k)) (skipn (S k) l)).
  split; [exact E|]. rewrite firstn_length, firstn_length, skipn_length. lia.
Qed.

Lemma firstn_snoc {A} (l : list A) k a : nth_error l k = Some a -> firstn (S k) l = firstn k l ++ [a].
Proof.
  revert k. induction l as [|x l IH]; intros [|k] H; cbn [nth_error] in H; try discriminate.
  - injection H as ->. reflexivity.
  - cbn [firstn app]. f_equal. now apply IH.
Qed.

Lemma firstn_app_exact {A} (l1 l2 : list A) n : length l1 = n -> firstn n (l1 ++ l2) = l1.
Proof. intros <-. rewrite firstn_app, Nat.sub_diag, firstn_all. cbn. apply app_nil_r. Qed.

Lemma live_step k todo b cur m p q :
  (b <= length cur)%nat -> (k < m < b)%nat -> nth_error cur k = Some q -> nth_error cur m = Some p ->
  (forall j, In j todo -> Z.of_nat k < j) -> ~ In (Z.of_nat m) todo ->
  (forall j, (m < j < b)%nat -> In (Z.of_nat j) todo) ->
  Permutation (live (Z.of_nat k :: todo) b cur) (live todo m (lset cur k p)).
Proof.
  intros Hb Hm Hq Hp Hgt Hnin Hall.
  assert (Hq' : nth_error (firstn b cur) k = Some q).
  { rewrite <- Hq. rewrite <- (firstn_skipn b cur) at 2. rewrite nth_error_app1; auto. rewrite firstn_length. lia. }
  assert (Hp' : nth_error (firstn b cur) m = Some p).
  { rewrite <- Hp. rewrite <- (firstn_skipn b cur) at 2. rewrite nth_error_app1; auto. rewrite firstn_length. lia. }
  destruct (firstn_split3 _ k m q p (proj1 Hm) Hq' Hp') as (l1 & l2 & l3 & E & L1 & L2).
  assert (L3 : length l3 = (b - m - 1)%nat).
  { apply (f_equal (@length _)) in E. rewrite firstn_length, !app_length in E. cbn [length] in E. rewrite app_length in E. cbn [length] in E. lia. }
  assert (E' : cur = l1 ++ q :: l2 ++ p :: l3 ++ skipn b cur).
  { rewrite <- (firstn_skipn b cur) at 1. rewrite E. rewrite <- app_assoc. cbn. now rewrite <- app_assoc. }
  unfold live. rewrite E.
  assert (E2 : firstn m (lset cur k p) = l1 ++ p :: l2).
  { rewrite E'. rewrite <- L1. rewrite lset_app_mid.
    change (p :: l2 ++ p :: l3 ++ skipn b cur) with ((p :: l2) ++ p :: l3 ++ skipn b cur). rewrite app_assoc.
    apply firstn_app_exact. rewrite app_length. cbn. lia. }
  rewrite E2. rewrite !pick_app. cbn [pick].
  rewrite Nat.add_0_r, L1. cbn [existsb]. rewrite Z.eqb_refl. cbn [orb negb].
  assert (Ek : existsb (Z.eqb (Z.of_nat k)) todo = false). { apply existsb_nin. intros Hin. specialize (Hgt _ Hin). lia. }
  rewrite Ek. cbn [negb]. rewrite pick_app. cbn [pick].
  replace (k + S (length l2 + 0))%nat with m by lia.
  replace (Z.of_nat m =? Z.of_nat k) with false by (symmetry; apply Z.eqb_neq; lia). cbn [orb].
  rewrite (proj2 (existsb_nin _ _) Hnin). cbn [negb].
  rewrite (pick_none l3).
  - apply Permutation_app.
    + rewrite (pick_ext l1 _ (fun j => negb (existsb (Z.eqb (Z.of_nat j)) todo))); [reflexivity|].
      intros j Hj. replace (Z.of_nat j =? Z.of_nat k) with false by (symmetry; apply Z.eqb_neq; lia). reflexivity.
    + rewrite (pick_ext l2 _ (fun j => negb (existsb (Z.eqb (Z.of_nat (k + S j))) todo))).
      * rewrite Permutation_app_comm. reflexivity.
      * intros j Hj. replace (Z.of_nat (k + S j) =? Z.of_nat k) with false by (symmetry; apply Z.eqb_neq; lia). reflexivity.
  - intros j Hj. apply negb_false_iff. apply orb_true_iff. right. apply existsb_in. apply Hall. lia.
Qed.

(** after the loop: the first |survivors| places hold the survivors *)
Lemma kill_loop_spec K n ps0 : sorted_indices K n -> Z.of_nat n < 2 ^ 64 -> length ps0 = n ->
  forall todo done cur last, K = done ++ todo -> length cur = n ->
  (forall j, ~ In (Z.of_nat j) K -> nth_error cur j = nth_error ps0 j) ->
  (exists b, (b <= n)%nat /\ Permutation (live todo b cur) (survivors K ps0) /\
     ((last = Z.of_nat b - 1 /\ (1 <= b)%nat) \/ ((forall k, In k todo -> Z.of_nat b <= k /\ last < k) /\ 0 <= last < Z.of_nat n))) ->
  exists cur', kill_loop todo K last (data_of cur) = Ret (data_of cur') /\ length cur' = n /\
    (forall j, ~ In (Z.of_nat j) K -> nth_error cur' j = nth_error ps0 j) /\
    exists b, (b <= n)%nat /\ Permutation (firstn b cur') (survivors K ps0).
Proof.
  intros HK Hn Hps. induction todo as [|k todo IH]; intros done cur last HKd Hc Hsame (b & Hb & HP & HI).
  - exists cur. split; [reflexivity|]. split; auto. split; auto. exists b. split; auto. rewrite live_notodo in HP by (intros ? []). auto.
  - assert (Hk : 0 <= k < Z.of_nat n). { destruct HK as [_ HK]. rewrite Forall_forall in HK. apply HK. rewrite HKd. apply in_app_iff. right. now left. }
    assert (Hgt : forall j, In j todo -> k < j).
    { intros j Hj. apply In_nth_error in Hj as (i & Hi). destruct HK as [HK _].
      apply (HK (length done) (length done + S i)%nat); try lia; rewrite HKd, nth_error_app2 by lia; [now rewrite Nat.sub_diag|].
      now replace (length done + S i - length done)%nat with (S i) by lia. }
    assert (Hle : forall j, In j done -> j < k).
    { intros j Hj. apply In_nth_error in Hj as (i & Hi). destruct HK as [HK _].
      assert (i < length done)%nat by (apply nth_error_Some; congruence).
      apply (HK i (length done)); auto; rewrite HKd; [now rewrite nth_error_app1|]. now rewrite nth_error_app2, Nat.sub_diag by lia. }
    assert (Hin : forall j, k < j -> In j K -> In j todo).
    { intros j Hj Hjk. rewrite HKd in Hjk. apply in_app_iff in Hjk as [Hd|[->|Ht]]; auto; [apply Hle in Hd; lia|lia]. }
    assert (HKd' : K = (done ++ [k]) ++ todo) by now rewrite <- app_assoc.
    cbn [kill_loop].
    remember (Z.to_nat k) as kk. assert (Ek : k = Z.of_nat kk) by lia. clear Heqkk. subst k.
    destruct (lset_lt cur kk (mkP (V3 n_zero n_zero n_zero) (V3 n_zero n_zero n_zero) (V3 n_zero n_zero n_zero) (V3 n_zero n_zero n_zero) n_zero false)) as (q & Hq); [lia|].
    destruct HI as [[-> Hb1]|[Hno Hlast]].
    + (* searching *)
      replace (Z.of_nat b - 1) with (Z.of_nat (b - 1)) by lia.
      destruct (scan_spec K cur kk q ltac:(lia) Hq (S (Z.to_nat (Z.of_nat (b - 1) - Z.of_nat kk))) (b - 1)%nat) as (r & Hr & C); [lia|lia|].
      rewrite Hr. cbn [bind].
      destruct C as [(C1 & ->)|[(m & p & C1 & C2 & C3 & C4 & ->)|(C1 & C2 & ->)]].
      * (* the index is not below the last *)
        eapply (IH (done ++ [Z.of_nat kk])); eauto. exists (Nat.min b kk).
        assert (HL : live (Z.of_nat kk :: todo) b cur = firstn (Nat.min b kk) cur).
        { destruct (Nat.eq_dec kk (b - 1)) as [E|E].
          - unfold live. replace b with (S kk) at 1 by lia. rewrite (firstn_snoc cur kk q Hq), pick_app. cbn [pick].
            rewrite firstn_length. cbn [existsb].
            replace (Z.of_nat (Nat.min kk (length cur) + 0) =? Z.of_nat kk) with true by (symmetry; apply Z.eqb_eq; lia).
            cbn [orb negb]. rewrite app_nil_r. replace (Nat.min b kk) with kk by lia.
            apply pick_all. intros j Hj. rewrite firstn_length in Hj. apply negb_true_iff.
            change (existsb (Z.eqb (Z.of_nat j)) (Z.of_nat kk :: todo) = false).
            apply existsb_nin. intros [Hi|Hi]; [lia|]. specialize (Hgt _ Hi). lia.
          - rewrite live_notodo; [f_equal; lia|]. intros j [<-|Hj]; [lia|]. specialize (Hgt _ Hj). lia. }
        rewrite HL in HP.
        split; [lia|]. split; [|right; split; [|lia]].
        -- rewrite live_notodo; auto. intros j Hj. specialize (Hgt _ Hj). lia.
        -- intros j Hj. specialize (Hgt _ Hj). lia.
      * (* a survivor found at m *)
        eapply (IH (done ++ [Z.of_nat kk])); eauto.
        -- now rewrite lset_length.
        -- intros j Hj. rewrite <- Hsame by auto. apply lset_other. intros ->. apply Hj. rewrite HKd. apply in_app_iff. right. now left.
        -- exists m. split; [lia|]. split; [|left; split; [reflexivity|lia]].
           rewrite <- HP. symmetry. apply (live_step kk todo b cur m p q); auto; try lia.
           ++ intros Hm. apply C2. rewrite HKd. apply in_app_iff. right. now right.
           ++ intros j Hj. apply Hin; [lia|]. apply C3. lia.
      * (* only killed ones above *)
        eapply (IH (done ++ [Z.of_nat kk])); eauto. exists kk.
        assert (HL : live (Z.of_nat kk :: todo) b cur = firstn kk cur).
        { unfold live. rewrite <- (firstn_skipn kk (firstn b cur)). rewrite firstn_firstn.
          replace (Nat.min kk b) with kk by lia. rewrite pick_app.
          rewrite (pick_none (skipn _ _)).
          - rewrite app_nil_r. apply pick_all. intros j Hj. rewrite firstn_length in Hj. apply negb_true_iff, existsb_nin.
            intros [Hi|Hi]; [lia|]. specialize (Hgt _ Hi). lia.
          - intros j Hj. rewrite skipn_length, firstn_length in Hj. rewrite firstn_length.
            apply negb_false_iff, existsb_in. destruct (Nat.eq_dec j 0) as [->|]; [left; lia|]. right.
            apply Hin; [lia|]. apply C2. lia. }
        rewrite HL in HP. split; [lia|]. split; [|right; split; [|lia]].
        -- rewrite live_notodo; auto. intros j Hj. specialize (Hgt _ Hj). lia.
        -- intros j Hj. specialize (Hgt _ Hj). lia.
    + (* nothing left to move *)
      assert (HE : kill_scan (S (Z.to_nat (last - Z.of_nat kk))) K (Z.of_nat kk) last (data_of cur) = Ret (last, data_of cur)).
      { cbn [kill_scan]. destruct (Hno (Z.of_nat kk) (or_introl eq_refl)). replace (Z.of_nat kk <? last) with false by (symmetry; apply Z.ltb_ge; lia). reflexivity. }
      rewrite HE. cbn [bind]. eapply (IH (done ++ [Z.of_nat kk])); eauto. exists b. split; auto. split.
      * rewrite live_notodo in HP by (intros j Hj; apply Hno; auto). rewrite live_notodo; auto. intros j Hj. apply Hno. now right.
      * right. split; auto. intros j Hj. apply Hno. now right.
Qed.

Lemma remove_sorted_spec K ps : sorted_indices K (length ps) -> Z.of_nat (length ps) < 2 ^ 64 ->
  exists ps', remove_sorted_data K (data_of ps) = Ret (data_of ps') /\ Permutation ps' (survivors K ps) /\
    forall j, ~ In (Z.of_nat j) K -> (j < length ps')%nat -> nth_error ps' j = nth_error ps j.
Proof.
  intros HK Hn. pose proof (kill_length _ _ HK) as HKL. unfold remove_sorted_data. rewrite size_data_of. cbn [bind].
  assert (HE : exists cur', kill_loop K K (wrap64 (Z.of_nat (length ps) - 1)) (data_of ps) = Ret (data_of cur') /\ length cur' = length ps /\
    (forall j, ~ In (Z.of_nat j) K -> nth_error cur' j = nth_error ps j) /\
    exists b, (b <= length ps)%nat /\ Permutation (firstn b cur') (survivors K ps)).
  { destruct K as [|k K].
    - exists ps. split; [reflexivity|]. split; auto. split; auto. exists (length ps). split; auto.
      rewrite firstn_all. unfold survivors. rewrite pick_all; auto.
    - apply (kill_loop_spec (k :: K) (length ps) ps HK Hn eq_refl (k :: K) []); auto. exists (length ps). split; auto.
      assert (1 <= length ps)%nat by (cbn in HKL; lia).
      split; [|left; split; auto; apply wrap64_small; lia]. unfold live. rewrite firstn_all. reflexivity. }
  destruct HE as (cur & -> & Hc & Hs & b & Hb & HP). cbn [bind]. rewrite size_data_of. cbn [bind].
  assert (Hbl : b = (length ps - length K)%nat).
  { apply Permutation_length in HP. rewrite survivors_length, firstn_length in HP by auto. lia. }
  unfold zlen. rewrite wrap64_small by lia. replace (Z.of_nat (length cur) - Z.of_nat (length K)) with (Z.of_nat b) by lia.
  rewrite remove_toend_ok by lia. exists (firstn b cur). split; [reflexivity|]. split; auto.
  intros j Hj Hjl. rewrite <- Hs by auto. rewrite firstn_length in Hjl.
  rewrite <- (firstn_skipn b cur) at 2. rewrite nth_error_app1; auto. rewrite firstn_length. lia.
Qed.
End Kill.
