(** Proofs about the deposition of charge. *)
From Coq Require Import ZArith Reals List Bool Lia Lra Psatz Permutation.
From Verif Require Import Cxx Num NumRX CxxLemmas Fortran FortranNum FortranLemmas Grid GridLemmas Pushers Deposit SpecYee YeeReal SpecDeposit Splines Sums.
Import ListNotations.
Local Open Scope R_scope.

(** ** lists instead of loops over the particles *)
Fixpoint foldM {A S} (f : A -> S -> out S) (l : list A) (s : S) : out S :=
  match l with [] => Ret s | a :: l' => do s' <- f a s; foldM f l' s' end.

Lemma do_list {A S} (F : Z -> S -> out S) (f : A -> S -> out S) (l : list A) : forall i s,
  (forall k a t, nth_error l k = Some a -> F (i + Z.of_nat k)%Z t = f a t) ->
  do_loop (length l) i F s = foldM f l s.
Proof.
  induction l as [|a l IH]; intros i s H; [reflexivity|]. cbn [length do_loop foldM].
  specialize (H O a s eq_refl) as H0. rewrite Z.add_0_r in H0. rewrite H0. destruct (f a s); cbn [bind]; try reflexivity.
  apply IH. intros k b t Hk. specialize (H (Datatypes.S k) b t Hk). rewrite <- H. f_equal. lia.
Qed.
Lemma do_range_list {A S} (F : Z -> S -> out S) (f : A -> S -> out S) (l : list A) s :
  (forall k a t, nth_error l k = Some a -> F (1 + Z.of_nat k)%Z t = f a t) ->
  do_range 1 (zlen l) F s = foldM f l s.
Proof.
  intros H. unfold do_range. replace (Z.to_nat (zlen l - 1 + 1)) with (length l) by (unfold zlen; lia). apply do_list. exact H.
Qed.
Lemma get1_map {A B} (g : A -> B) l k a : nth_error l k = Some a -> get1 (map g l) (1 + Z.of_nat k) = Ret (g a).
Proof.
  intros H. assert (k < length l)%nat by (apply nth_error_Some; congruence).
  rewrite (get1_ok _ _ (g a)) by (unfold zlen; rewrite map_length; lia). f_equal.
  replace (Z.to_nat (1 + Z.of_nat k - 1)) with k by lia. rewrite map_nth. f_equal. apply nth_error_nth. exact H.
Qed.
Lemma foldM_ext {A S} (f g : A -> S -> out S) l : (forall a s, In a l -> f a s = g a s) -> forall s, foldM f l s = foldM g l s.
Proof.
  induction l as [|a l IH]; intros H s; [reflexivity|]. cbn. rewrite H by (left; reflexivity). destruct (g a s); cbn [bind]; try reflexivity.
  apply IH. intros; apply H; right; assumption.
Qed.

(** ** adding to an array of real numbers *)
Definition radd (c : idx * R) : stmt (num FRX) := add (N := FRX) (fst c) (Fin (snd c)).
Definition hits (cs : list (idx * R)) (p : idx) : R := sumR (map (fun c => if idx_eqb (fst c) p then snd c else 0) cs).

Lemma hits_app a b p : hits (a ++ b) p = hits a p + hits b p.
Proof. unfold hits. rewrite map_app. apply sumR_app. Qed.
Lemma hits_nil p : hits [] p = 0. Proof. reflexivity. Qed.
Lemma hits_cons c l p : hits (c :: l) p = (if idx_eqb (fst c) p then snd c else 0) + hits l p. Proof. reflexivity. Qed.

Notation isg := (@is_grid (fun x => x)).
Lemma exec1_add (g : grid (num FRX)) lo hi r c : isg g lo hi r ->
  if in_box lo hi (fst c) then exists g', exec1 (radd c) g = Ret g' /\ isg g' lo hi (fun p => r p + (if idx_eqb (fst c) p then snd c else 0))
  else exec1 (radd c) g = UB.
Proof.
  intros (Lo & Hi & At). destruct g as [lo' hi' at']. cbn in Lo, Hi, At. subst lo' hi'.
  unfold exec1, get3, set3. destruct c as [p v]. cbn [radd add fst snd glo ghi gat].
  destruct (in_box lo hi p) eqn:E; [|reflexivity]. cbn [bind]. eexists. split; [reflexivity|].
  split; [reflexivity|]. split; [reflexivity|]. intros q Hq. cbn [gat]. destruct (idx_eqb p q) eqn:E'.
  - apply idx_eqb_eq in E'. subst q. rewrite (At p E). reflexivity.
  - rewrite (At q Hq). f_equal. lra.
Qed.
Lemma isg_ext (g : grid (num FRX)) lo hi r r' : isg g lo hi r -> (forall p, in_box lo hi p = true -> r p = r' p) -> isg g lo hi r'.
Proof. intros (A & B & C) H. split; [exact A|]. split; [exact B|]. intros p Hp. rewrite (C p Hp), (H p Hp). reflexivity. Qed.

Definition all_in (lo hi : idx) (cs : list (idx * R)) : Prop := forall c, In c cs -> in_box lo hi (fst c) = true.
Lemma exec_add_ok cs : forall (g : grid (num FRX)) lo hi r, isg g lo hi r -> all_in lo hi cs ->
  exists g', exec (map radd cs) g = Ret g' /\ isg g' lo hi (fun p => r p + hits cs p).
Proof.
  induction cs as [|c cs IH]; intros g lo hi r H A.
  - exists g. split; [reflexivity|]. apply (isg_ext g lo hi r); [exact H|]. intros; rewrite hits_nil; lra.
  - cbn [map exec]. pose proof (exec1_add g lo hi r c H) as E. rewrite (A c (or_introl eq_refl)) in E.
    destruct E as (g1 & -> & H1). cbn [bind]. destruct (IH g1 lo hi _ H1) as (g2 & -> & H2).
    { intros d Hd. apply A. right. exact Hd. }
    exists g2. split; [reflexivity|]. apply (isg_ext g2 lo hi _ _ H2). intros p _. rewrite hits_cons. lra.
Qed.
Lemma exec_add_ub cs : forall (g : grid (num FRX)) lo hi r, isg g lo hi r -> ~ all_in lo hi cs -> exec (map radd cs) g = UB.
Proof.
  induction cs as [|c cs IH]; intros g lo hi r H A.
  - exfalso. apply A. intros d [].
  - cbn [map exec]. pose proof (exec1_add g lo hi r c H) as E. destruct (in_box lo hi (fst c)) eqn:B.
    + destruct E as (g1 & -> & H1). cbn [bind]. apply (IH g1 lo hi _ H1). intros A'. apply A. intros d [<-|Hd]; [exact B | exact (A' d Hd)].
    + rewrite E. reflexivity.
Qed.
Lemma all_in_dec lo hi cs : {all_in lo hi cs} + {~ all_in lo hi cs}.
Proof.
  destruct (forallb (fun c => in_box lo hi (fst c)) cs) eqn:E; [left | right].
  - intros c Hc. rewrite forallb_forall in E. exact (E c Hc).
  - intros A. rewrite <- not_true_iff_false in E. apply E. apply forallb_forall. exact A.
Qed.

(** ** all particles *)
Section All.
Context {B : Type} (f : B -> out (list (stmt (num FRX)))) (c : B -> list (idx * R)) (ok : B -> Prop).
Hypothesis f_ok : forall a, ok a -> f a = Ret (map radd (c a)).
Hypothesis f_bad : forall a, ~ ok a -> f a = UB.
Hypothesis ok_dec : forall a, {ok a} + {~ ok a}.
Let step (a : B) (r : grid (num FRX)) := do ss <- f a; exec ss r.
Let given (ps : list B) (p : idx) := sumR (map (fun a => hits (c a) p) ps).
Lemma all_ok ps : forall g lo hi r, isg g lo hi r -> (forall a, In a ps -> ok a /\ all_in lo hi (c a)) ->
  exists g', foldM step ps g = Ret g' /\ isg g' lo hi (fun p => r p + given ps p).
Proof.
  induction ps as [|a ps IH]; intros g lo hi r H A.
  - exists g. split; [reflexivity|]. apply (isg_ext g lo hi r); [exact H|]. intros; unfold given; cbn; lra.
  - destruct (A a (or_introl eq_refl)) as [O I]. cbn [foldM]. unfold step at 1. rewrite (f_ok a O). cbn [bind].
    destruct (exec_add_ok (c a) g lo hi r H I) as (g1 & -> & H1). cbn [bind].
    destruct (IH g1 lo hi _ H1) as (g2 & -> & H2); [intros b Hb; apply A; right; exact Hb|].
    exists g2. split; [reflexivity|]. apply (isg_ext g2 lo hi _ _ H2). intros p _. unfold given. cbn. unfold sumR. lra.
Qed.
Lemma all_ub ps : forall g lo hi r a, isg g lo hi r -> In a ps -> ~ (ok a /\ all_in lo hi (c a)) -> foldM step ps g = UB.
Proof.
  induction ps as [|b ps IH]; intros g lo hi r a H I A; [destruct I|].
  cbn [foldM]. unfold step at 1. destruct (ok_dec b) as [O|O]; [|rewrite (f_bad b O); reflexivity].
  rewrite (f_ok b O). cbn [bind]. destruct (all_in_dec lo hi (c b)) as [D|D].
  - destruct (exec_add_ok (c b) g lo hi r H D) as (g1 & -> & H1). cbn [bind]. destruct I as [<-|I]; [tauto|].
    exact (IH g1 lo hi _ a H1 I A).
  - rewrite (exec_add_ub (c b) g lo hi r H D). reflexivity.
Qed.
Lemma all_sound ps g g' lo hi r : isg g lo hi r -> foldM step ps g = Ret g' ->
  (forall a, In a ps -> ok a /\ all_in lo hi (c a)) /\ isg g' lo hi (fun p => r p + given ps p).
Proof.
  intros H E. assert (A : forall a, In a ps -> ok a /\ all_in lo hi (c a)).
  { intros a I. destruct (ok_dec a) as [O|O], (all_in_dec lo hi (c a)) as [D|D]; try tauto;
      rewrite (all_ub ps g lo hi r a H I) in E by tauto; discriminate. }
  split; [exact A|]. destruct (all_ok ps g lo hi r H A) as (g2 & E2 & H2). rewrite E in E2. injection E2 as <-. exact H2.
Qed.
End All.

(** ** the updates made for one particle *)
Definition contrib (o : orders) (x y z wq : R) (j k l : Z) : list (idx * R) :=
  map (fun p => let '(jj, kk, ll) := p in
         ((j + jj, k + kk, l + ll)%Z, rshape (onx o) (x - IZR j) jj * rshape (ony o) (y - IZR k) kk * rshape (onz o) (z - IZR l) ll * wq))
      (box (smin (onx o), smin (ony o), smin (onz o)) (smax (onx o), smax (ony o), smax (onz o))).

Lemma hits_contrib o x y z wq j k l p : known o -> is_node (onx o) x j -> is_node (ony o) y k -> is_node (onz o) z l ->
  hits (contrib o x y z wq j k l) p =
  wq * (let '(a, b, c) := p in spline (onx o) x a * spline (ony o) y b * spline (onz o) z c).
Proof.
  intros (K1 & K2 & K3) N1 N2 N3. destruct p as [[a b] c]. unfold hits, contrib. rewrite map_map.
  rewrite (sumR_single idx_dec _ _ (a - j, b - k, c - l)%Z (NoDup_box _ _)).
  2:{ intros [[a' b'] c'] _ D. cbn [fst snd]. destruct (idx_eqb (j + a', k + b', l + c')%Z (a, b, c)) eqn:E; [|reflexivity].
      apply idx_eqb_eq in E. injection E as E1 E2 E3. exfalso. apply D. f_equal; [f_equal|]; lia. }
  destruct (in_dec idx_dec (a - j, b - k, c - l)%Z _) as [I|I].
  - apply in_box_box in I. apply in_box_iff in I. cbn [fst snd].
    replace (idx_eqb _ _) with true by (symmetry; apply idx_eqb_eq; f_equal; [f_equal|]; lia).
    rewrite <- (spline_on (onx o) x j (a - j)), <- (spline_on (ony o) y k (b - k)), <- (spline_on (onz o) z l (c - l)) by (assumption || lia).
    replace (j + (a - j))%Z with a by lia. replace (k + (b - k))%Z with b by lia. replace (l + (c - l))%Z with c by lia. ring.
  - assert (D : ~ (j + smin (onx o) <= a <= j + smax (onx o))%Z \/ ~ (k + smin (ony o) <= b <= k + smax (ony o))%Z \/ ~ (l + smin (onz o) <= c <= l + smax (onz o))%Z).
    { destruct (Z_le_dec (j + smin (onx o)) a), (Z_le_dec a (j + smax (onx o))); try (left; lia).
      destruct (Z_le_dec (k + smin (ony o)) b), (Z_le_dec b (k + smax (ony o))); try (right; left; lia).
      destruct (Z_le_dec (l + smin (onz o)) c), (Z_le_dec c (l + smax (onz o))); try (right; right; lia).
      exfalso. apply I. apply in_box_box. apply in_box_iff. lia. }
    destruct D as [D|[D|D]]; [rewrite (spline_off _ _ _ _ K1 N1 D) | rewrite (spline_off _ _ _ _ K2 N2 D) | rewrite (spline_off _ _ _ _ K3 N3 D)]; ring.
Qed.
Lemma contrib_in o x y z wq j k l a1 a2 a3 b1 b2 b3 : known o ->
  all_in (a1, a2, a3) (b1, b2, b3) (contrib o x y z wq j k l) <->
  (a1 <= j + smin (onx o) /\ j + smax (onx o) <= b1 /\ a2 <= k + smin (ony o) /\ k + smax (ony o) <= b2 /\
   a3 <= l + smin (onz o) /\ l + smax (onz o) <= b3)%Z.
Proof.
  intros (K1 & K2 & K3).
  pose proof (smin_smax (onx o) ltac:(lia)). pose proof (smin_smax (ony o) ltac:(lia)). pose proof (smin_smax (onz o) ltac:(lia)).
  unfold all_in, contrib. split.
  - intros A.
    assert (Q : forall jj kk ll, (smin (onx o) <= jj <= smax (onx o))%Z -> (smin (ony o) <= kk <= smax (ony o))%Z -> (smin (onz o) <= ll <= smax (onz o))%Z ->
      in_box (a1, a2, a3) (b1, b2, b3) (j + jj, k + kk, l + ll)%Z = true).
    { intros jj kk ll I1 I2 I3. refine (A (_, _) _). apply in_map_iff. exists (jj, kk, ll). split; [reflexivity|]. apply in_box_box. apply in_box_iff. lia. }
    pose proof (Q (smin (onx o)) (smin (ony o)) (smin (onz o)) ltac:(lia) ltac:(lia) ltac:(lia)) as Q1.
    pose proof (Q (smax (onx o)) (smax (ony o)) (smax (onz o)) ltac:(lia) ltac:(lia) ltac:(lia)) as Q2.
    apply in_box_iff in Q1. apply in_box_iff in Q2. lia.
  - intros B c Hc. apply in_map_iff in Hc. destruct Hc as ([[jj kk] ll] & <- & I). apply in_box_box in I. apply in_box_iff in I. cbn [fst].
    apply in_box_iff. lia.
Qed.

Notation F x := (Fin x : num FRX).
Definition knownb (o : orders) : bool :=
  ((0 <=? onx o) && (onx o <=? 3) && ((0 <=? ony o) && (ony o <=? 3)) && ((0 <=? onz o) && (onz o <=? 3)))%Z.
Lemma knownb_iff o : knownb o = true <-> known o.
Proof. unfold knownb, known. rewrite !andb_true_iff, !Z.leb_le. tauto. Qed.

Lemma gridx_fin g a : hx g <> 0 -> gridx (geom_of g) (pos_of a) = F (unit_x g (rpx a)).
Proof.
  intros H. unfold gridx, geom_of, pos_of. cbn [g_xmin g_dx xp]. change (n_lit 1 0 : num FRX) with (Fin 1 : num FRX).
  rewrite fdiv by exact H. cbn. unfold unit_x. f_equal. field. exact H.
Qed.
Lemma gridy_fin g a : hy g <> 0 -> gridy (geom_of g) (pos_of a) = F (unit_y g (rpy a)).
Proof.
  intros H. unfold gridy, geom_of, pos_of. cbn [g_ymin g_dy yp]. change (n_lit 1 0 : num FRX) with (Fin 1 : num FRX).
  rewrite fdiv by exact H. cbn. unfold unit_y. f_equal. field. exact H.
Qed.
Lemma gridz_fin g a : hz g <> 0 -> gridz (geom_of g) (pos_of a) = F (unit_z g (rpz a)).
Proof.
  intros H. unfold gridz, geom_of, pos_of. cbn [g_zmin g_dz zp]. change (n_lit 1 0 : num FRX) with (Fin 1 : num FRX).
  rewrite fdiv by exact H. cbn. unfold unit_z. f_equal. field. exact H.
Qed.
Lemma invvol_fin g : proper g -> invvol (geom_of g) = F (/ volume g).
Proof.
  intros (H1 & H2 & H3). unfold invvol, geom_of. cbn [g_dx g_dy g_dz]. change (n_lit 1 0 : num FRX) with (Fin 1 : num FRX).
  rewrite !fdiv by assumption. cbn. unfold volume. f_equal. field. auto.
Qed.

(** the updates for one particle, after reflection and choice of the weight *)
Definition one (o : orders) (g : cells) (q : R) (b : rpart) : out (list (stmt (num FRX))) :=
  let x := unit_x g (rpx b) in let y := unit_y g (rpy b) in let z := unit_z g (rpz b) in
  do j <- node (onx o) (F x); do k <- node (ony o) (F y); do l <- node (onz o) (F z);
  if knownb o then Ret (map radd (contrib o x y z (q * rw b / volume g) j k l)) else UB.
Definition sa (lw l4 : bool) (g : cells) (w1 : R) (a : rpart) : rpart :=
  let a := if l4 then mirrored g a else a in if lw then a else weighted w1 a.
Lemma seen_sa lw l4 g a ps : seen lw l4 g (a :: ps) = map (sa lw l4 g (rw a)) (a :: ps).
Proof.
  unfold seen, sa. destruct l4, lw; cbn [map]; rewrite ?map_map; try reflexivity.
  f_equal. symmetry; apply map_id.
Qed.
Lemma unit_x_back g t : hx g <> 0 -> unit_x g (ox g + hx g * t) = t.
Proof. intros H. unfold unit_x. field. exact H. Qed.
Lemma unit_y_back g t : hy g <> 0 -> unit_y g (oy g + hy g * t) = t.
Proof. intros H. unfold unit_y. field. exact H. Qed.

Lemma rho_n_one o lw l4 g q w1 a : proper g ->
  rho_n (onx o) (ony o) (onz o) lw l4 (geom_of g) (F q) (F w1) (pos_of a) (weight_of a) = one o g q (sa lw l4 g w1 a).
Proof.
  intros P. pose proof P as (H1 & H2 & H3). unfold rho_n, one. rewrite gridx_fin, gridy_fin, gridz_fin, invvol_fin by assumption.
  assert (Ex : (if l4 then n_fabs (F (unit_x g (rpx a))) else F (unit_x g (rpx a))) = F (unit_x g (rpx (sa lw l4 g w1 a)))).
  { unfold sa. destruct l4, lw; try reflexivity; cbn; rewrite unit_x_back by assumption; reflexivity. }
  assert (Ey : (if l4 then n_fabs (F (unit_y g (rpy a))) else F (unit_y g (rpy a))) = F (unit_y g (rpy (sa lw l4 g w1 a)))).
  { unfold sa. destruct l4, lw; try reflexivity; cbn; rewrite unit_y_back by assumption; reflexivity. }
  assert (Ez : rpz a = rpz (sa lw l4 g w1 a)) by (unfold sa; destruct l4, lw; reflexivity).
  cbv zeta. rewrite Ex, Ey, Ez. clear Ex Ey Ez.
  assert (Ew : (if lw then n_mul (n_mul (F q) (weight_of a)) (F (/ volume g)) else n_mul (n_mul (F q) (F (/ volume g))) (F w1)) = F (q * rw (sa lw l4 g w1 a) / volume g)).
  { unfold sa. destruct lw, l4; cbn; f_equal; unfold Rdiv; ring. }
  rewrite Ew. clear Ew. generalize (sa lw l4 g w1 a). intros b.
  destruct (node (onx o) _) as [j| | |]; try reflexivity. cbn [bind].
  destruct (node (ony o) _) as [k| | |]; try reflexivity. cbn [bind].
  destruct (node (onz o) _) as [l| | |]; try reflexivity. cbn [bind].
  fold (knownb o). destruct (knownb o); [|reflexivity]. f_equal. unfold contrib. rewrite map_map. apply map_ext. intros [[jj kk] ll].
  unfold radd. cbn [fst snd]. f_equal.
  change (n_sub (F (unit_x g (rpx b))) (n_of_Z j)) with (F (unit_x g (rpx b) - IZR j)).
  change (n_sub (F (unit_y g (rpy b))) (n_of_Z k)) with (F (unit_y g (rpy b) - IZR k)).
  change (n_sub (F (unit_z g (rpz b))) (n_of_Z l)) with (F (unit_z g (rpz b) - IZR l)).
  rewrite !shape_fin. reflexivity.
Qed.

Definition step (o : orders) (g : cells) (q : R) (b : rpart) (r : grid (num FRX)) : out (grid (num FRX)) := do ss <- one o g q b; exec ss r.

Lemma foldM_map {A B S} (h : A -> B) (f : B -> S -> out S) l : forall s, foldM f (map h l) s = foldM (fun a => f (h a)) l s.
Proof. induction l as [|a l IH]; intros s; [reflexivity|]. cbn. destruct (f (h a) s); cbn [bind]; try reflexivity. apply IH. Qed.

Lemma depose_n_fold o lw l4 g q ps rho : proper g ->
  pxr_depose_rho_n (zlen ps) (map pos_of ps) (map weight_of ps) (F q) (geom_of g) (onx o) (ony o) (onz o) lw l4 rho =
  foldM (step o g q) (seen lw l4 g ps) rho.
Proof.
  intros P. destruct ps as [|a0 ps].
  { unfold seen. destruct l4, lw; reflexivity. }
  rewrite seen_sa, foldM_map. unfold pxr_depose_rho_n, depose. apply do_range_list. intros k a t Hk.
  rewrite !(get1_map _ _ k a Hk). cbn [bind]. change (get1 (map weight_of (a0 :: ps)) 1) with (Ret (F (rw a0))). cbn [bind].
  rewrite rho_n_one by exact P. reflexivity.
Qed.

(** the conditions and the contributions of a particle *)
Definition nod (n : Z) (x : R) : Z := match node n (F x) with Ret j => j | _ => 0%Z end.
Definition found (n : Z) (x : R) : Prop := exists j, node n (F x) = Ret j.
Lemma node_out n x : (exists j, node n (F x) = Ret j) \/ node n (F x) = UB.
Proof.
  unfold node, nint32, floor32, nearest_pos. change (f_floor (F x)) with (Some (Int_part x)). change (f_floor (n_opp (F x))) with (Some (Int_part (- x))).
  cbv iota. unfold int32. destruct (_ =? _)%Z; [destruct (n_lt _ _); cbn [bind]|];
    match goal with |- context[if (?a <=? ?b)%Z && (?b <? ?c)%Z then _ else _] => destruct ((a <=? b)%Z && (b <? c)%Z)%bool end; eauto.
Qed.
Definition place (o : orders) (g : cells) (b : rpart) : Prop :=
  known o /\ found (onx o) (unit_x g (rpx b)) /\ found (ony o) (unit_y g (rpy b)) /\ found (onz o) (unit_z g (rpz b)).
Definition gives (o : orders) (g : cells) (q : R) (b : rpart) : list (idx * R) :=
  let x := unit_x g (rpx b) in let y := unit_y g (rpy b) in let z := unit_z g (rpz b) in
  contrib o x y z (q * rw b / volume g) (nod (onx o) x) (nod (ony o) y) (nod (onz o) z).
Lemma found_dec n x : {found n x} + {~ found n x}.
Proof.
  unfold found. destruct (node n (F x)) eqn:E; [left; eauto | right; intros (j & A); discriminate ..].
Qed.
Lemma place_dec o g b : {place o g b} + {~ place o g b}.
Proof.
  unfold place. destruct (knownb o) eqn:E; [apply knownb_iff in E | right; intros (A & _); apply knownb_iff in A; congruence].
  destruct (found_dec (onx o) (unit_x g (rpx b))), (found_dec (ony o) (unit_y g (rpy b))), (found_dec (onz o) (unit_z g (rpz b))); tauto.
Qed.
Lemma nod_is n x : found n x -> is_node n x (nod n x).
Proof. intros (j & E). unfold nod. rewrite E. apply node_is. exact E. Qed.
Lemma one_ok o g q b : place o g b -> one o g q b = Ret (map radd (gives o g q b)).
Proof.
  intros (K & (j & E1) & (k & E2) & (l & E3)). unfold one, gives, nod. rewrite E1, E2, E3. cbn [bind].
  apply knownb_iff in K. rewrite K. reflexivity.
Qed.
Lemma one_bad o g q b : ~ place o g b -> one o g q b = UB.
Proof.
  intros H. unfold one. destruct (node_out (onx o) (unit_x g (rpx b))) as [(j & E1)|E1]; rewrite E1; [|reflexivity]. cbn [bind].
  destruct (node_out (ony o) (unit_y g (rpy b))) as [(k & E2)|E2]; rewrite E2; [|reflexivity]. cbn [bind].
  destruct (node_out (onz o) (unit_z g (rpz b))) as [(l & E3)|E3]; rewrite E3; [|reflexivity]. cbn [bind].
  destruct (knownb o) eqn:E; [|reflexivity]. apply knownb_iff in E. exfalso. apply H. unfold place, found. eauto 10.
Qed.
Lemma hits_gives o g q b p : place o g b -> hits (gives o g q b) p = q * rw b / volume g * share o g (rpx b) (rpy b) (rpz b) p.
Proof.
  intros (K & A & B & C). unfold gives, share. apply hits_contrib; try assumption; apply nod_is; assumption.
Qed.

(** ** what a deposition does *)
Lemma step_sound o g q ps rho rho' lo hi r : isg rho lo hi r -> foldM (step o g q) ps rho = Ret rho' ->
  (forall a, In a ps -> place o g a /\ all_in lo hi (gives o g q a)) /\ isg rho' lo hi (fun p => r p + density o g q ps p).
Proof.
  intros H E.
  destruct (all_sound (one o g q) (gives o g q) (place o g) (one_ok o g q) (one_bad o g q) (place_dec o g) ps rho rho' lo hi r H E) as [A B].
  split; [exact A|]. apply (isg_ext rho' lo hi _ _ B). intros p _. f_equal. unfold density. apply sumR_ext. intros a Ha.
  apply hits_gives. apply A. exact Ha.
Qed.
Lemma step_complete o g q ps rho lo hi r : isg rho lo hi r ->
  (forall a, In a ps -> place o g a /\ all_in lo hi (gives o g q a)) -> exists rho', foldM (step o g q) ps rho = Ret rho'.
Proof.
  intros H A. destruct (all_ok (one o g q) (gives o g q) (place o g) (one_ok o g q) ps rho lo hi r H A) as (g' & E & _). exists g'. exact E.
Qed.
Lemma step_ub o g q ps rho lo hi r a : isg rho lo hi r -> In a ps -> ~ (place o g a /\ all_in lo hi (gives o g q a)) ->
  foldM (step o g q) ps rho = UB.
Proof.
  intros H I A. exact (all_ub (one o g q) (gives o g q) (place o g) (one_ok o g q) (one_bad o g q) (place_dec o g) ps rho lo hi r a H I A).
Qed.
Lemma receives_in o g q a lo hi p : place o g a -> all_in lo hi (gives o g q a) -> receives o g a p -> in_box lo hi p = true.
Proof.
  intros P A. pose proof P as (K & Fx & Fy & Fz). apply nod_is in Fx, Fy, Fz. pose proof K as (K1 & K2 & K3).
  destruct lo as [[a1 a2] a3], hi as [[b1 b2] b3], p as [[i j] k]. unfold gives in A. apply contrib_in in A; [|exact K].
  intros V. apply in_box_iff. unfold receives, share in V.
  destruct (Z_le_dec (nod (onx o) (unit_x g (rpx a)) + smin (onx o)) i), (Z_le_dec i (nod (onx o) (unit_x g (rpx a)) + smax (onx o)));
   try (exfalso; apply V; rewrite (spline_off (onx o) _ _ i K1 Fx) by lia; ring).
  destruct (Z_le_dec (nod (ony o) (unit_y g (rpy a)) + smin (ony o)) j), (Z_le_dec j (nod (ony o) (unit_y g (rpy a)) + smax (ony o)));
   try (exfalso; apply V; rewrite (spline_off (ony o) _ _ j K2 Fy) by lia; ring).
  destruct (Z_le_dec (nod (onz o) (unit_z g (rpz a)) + smin (onz o)) k), (Z_le_dec k (nod (onz o) (unit_z g (rpz a)) + smax (onz o)));
   try (exfalso; apply V; rewrite (spline_off (onz o) _ _ k K3 Fz) by lia; ring).
  lia.
Qed.

(** positions in the range *)
Lemma fits_node n lo hi x : (0 <= n <= 3)%Z -> (- 1000000000 <= lo)%Z -> (hi <= 1000000000)%Z -> fits n lo hi x ->
  found n x /\ (lo <= nod n x + smin n)%Z /\ (nod n x + smax n <= hi)%Z.
Proof.
  intros K L H (A & B).
  assert (Fd : found n x).
  { apply node_ex. apply IZR_le in L. apply IZR_le in H. rewrite plus_IZR in A. rewrite minus_IZR in B.
    assert (0 <= IZR (n ÷ 2)) by (apply (IZR_le 0); apply Z.quot_pos; lia). apply Rabs_le. lra. }
  split; [exact Fd|]. apply nod_is in Fd. set (j := nod n x) in *. unfold is_node in Fd. clearbody j.
  assert (G : forall a b : Z, IZR a < IZR b + 1 -> (a <= b)%Z) by (intros a b Hab; apply Z.lt_succ_r; apply lt_IZR; rewrite succ_IZR; exact Hab).
  revert A B Fd. pattern n. revert n K. apply four; unfold smin, smax.
  - change (0 =? 2 * (0 ÷ 2))%Z with true. change (0 ÷ 2)%Z with 0%Z. change ((0 + 1) ÷ 2)%Z with 0%Z. cbv iota. rewrite ?Z.add_0_r, ?Z.sub_0_r. intros A B D.
    assert (C : Rabs (x - IZR j) <= 1 / 2) by lra. apply Rabs_le_inv in C. assert (lo <= j)%Z by (apply G; lra). assert (j <= hi)%Z by (apply G; lra). lia.
  - change (1 =? 2 * (1 ÷ 2))%Z with false. change (1 ÷ 2)%Z with 0%Z. change ((1 + 1) ÷ 2)%Z with 1%Z. cbv iota. rewrite ?Z.add_0_r, ?Z.sub_0_r. intros A B D.
    assert (lo <= j)%Z by (apply G; lra). assert (j < hi)%Z by (apply lt_IZR; lra). lia.
  - change (2 =? 2 * (2 ÷ 2))%Z with true. change (2 ÷ 2)%Z with 1%Z. change ((2 + 1) ÷ 2)%Z with 1%Z. cbv iota. intros A B D.
    assert (C : Rabs (x - IZR j) <= 1 / 2) by lra. apply Rabs_le_inv in C.
    assert (lo + 1 <= j)%Z by (apply G; lra). assert (j <= hi - 1)%Z by (apply G; lra). lia.
  - change (3 =? 2 * (3 ÷ 2))%Z with false. change (3 ÷ 2)%Z with 1%Z. change ((3 + 1) ÷ 2)%Z with 2%Z. cbv iota. intros A B D.
    assert (lo + 1 <= j)%Z by (apply G; lra). assert (j < hi - 1)%Z by (apply lt_IZR; lra). lia.
Qed.
Lemma fits3_place o g q lo hi a : known o -> moderate lo hi -> fits3 o g lo hi a -> place o g a /\ all_in lo hi (gives o g q a).
Proof.
  intros K M Ft. destruct lo as [[a1 a2] a3], hi as [[b1 b2] b3]. destruct Ft as (F1 & F2 & F3). cbn in M. pose proof K as (K1 & K2 & K3).
  apply fits_node in F1; try lia. apply fits_node in F2; try lia. apply fits_node in F3; try lia.
  split; [unfold place; tauto|]. unfold gives. apply contrib_in; [exact K|]. tauto.
Qed.

(** ** totals *)
Lemma window_sum n x lo hi f : (0 <= n <= 3)%Z -> found n x -> (lo <= nod n x + smin n)%Z -> (nod n x + smax n <= hi)%Z ->
  rsum (zrange lo hi) (fun i => f i * spline n x i) = rsum (zrange (nod n x + smin n) (nod n x + smax n)) (fun i => f i * spline n x i).
Proof.
  intros K Fd A B. apply nod_is in Fd. pose proof (smin_smax n ltac:(lia)). apply rsum_window; try lia.
  intros i Hi. rewrite (spline_off n x _ i K Fd Hi). ring.
Qed.
Lemma spline_in_range n x lo hi : (0 <= n <= 3)%Z -> found n x -> (lo <= nod n x + smin n)%Z -> (nod n x + smax n <= hi)%Z ->
  rsum (zrange lo hi) (spline n x) = 1.
Proof.
  intros K Fd A B. rewrite (rsum_ext _ _ (fun i => 1 * spline n x i)) by (intros; ring). rewrite window_sum by assumption.
  rewrite (rsum_ext _ _ (spline n x)) by (intros; ring). apply spline_rsum; [exact K|]. apply nod_is. exact Fd.
Qed.
Lemma moment_in_range n x lo hi : (1 <= n <= 3)%Z -> found n x -> (lo <= nod n x + smin n)%Z -> (nod n x + smax n <= hi)%Z ->
  rsum (zrange lo hi) (fun i => IZR i * spline n x i) = x.
Proof.
  intros K Fd A B. rewrite window_sum by (try assumption; lia). apply spline_moment; [exact K|]. apply nod_is. exact Fd.
Qed.
Lemma share_sums o g q a lo hi : place o g a -> all_in lo hi (gives o g q a) ->
  let '(a1, a2, a3) := lo in let '(b1, b2, b3) := hi in
  let x := unit_x g (rpx a) in let y := unit_y g (rpy a) in let z := unit_z g (rpz a) in
  (rsum (zrange a1 b1) (spline (onx o) x) = 1 /\ rsum (zrange a2 b2) (spline (ony o) y) = 1 /\ rsum (zrange a3 b3) (spline (onz o) z) = 1) /\
  ((1 <= onx o)%Z -> rsum (zrange a1 b1) (fun i => IZR i * spline (onx o) x i) = x) /\
  ((1 <= ony o)%Z -> rsum (zrange a2 b2) (fun i => IZR i * spline (ony o) y i) = y) /\
  ((1 <= onz o)%Z -> rsum (zrange a3 b3) (fun i => IZR i * spline (onz o) z i) = z).
Proof.
  intros (K & Fx & Fy & Fz) A. destruct lo as [[a1 a2] a3], hi as [[b1 b2] b3]. cbv zeta. unfold gives in A.
  apply contrib_in in A; [|exact K]. destruct K as (K1 & K2 & K3). destruct A as (A1 & A2 & A3 & A4 & A5 & A6).
  split; [repeat split; apply spline_in_range; assumption|].
  split; [intros; apply moment_in_range; auto; lia|]. split; [intros; apply moment_in_range; auto; lia|intros; apply moment_in_range; auto; lia].
Qed.
Lemma sum_box_ext lo hi f h : (forall p, in_box lo hi p = true -> f p = h p) -> sum_box lo hi f = sum_box lo hi h.
Proof. intros H. unfold sum_box. apply sumR_ext. intros p Hp. apply H. apply in_box_box. exact Hp. Qed.
Lemma sum_box_plus lo hi f h : sum_box lo hi (fun p => f p + h p) = sum_box lo hi f + sum_box lo hi h.
Proof. unfold sum_box. apply sumR_plus. Qed.
Lemma sum_box_scal lo hi c f : sum_box lo hi (fun p => c * f p) = c * sum_box lo hi f.
Proof. unfold sum_box. apply sumR_scal. Qed.

Lemma share_total o g q a lo hi : place o g a -> all_in lo hi (gives o g q a) -> sum_box lo hi (share o g (rpx a) (rpy a) (rpz a)) = 1.
Proof.
  intros P A. pose proof (share_sums o g q a lo hi P A) as S. destruct lo as [[a1 a2] a3], hi as [[b1 b2] b3]. cbv zeta in S.
  destruct S as ((S1 & S2 & S3) & _).
  etransitivity; [exact (sum_box_prod (a1, a2, a3) (b1, b2, b3) (spline (onx o) (unit_x g (rpx a))) (spline (ony o) (unit_y g (rpy a))) (spline (onz o) (unit_z g (rpz a))))|].
  rewrite S1, S2, S3. ring.
Qed.
Lemma share_moment o g q a lo hi d : place o g a -> all_in lo hi (gives o g q a) -> (1 <= order_on o d)%Z ->
  sum_box lo hi (fun p => coord d p * share o g (rpx a) (rpy a) (rpz a) p) = unit_on g d a.
Proof.
  intros P A O. pose proof (share_sums o g q a lo hi P A) as S. destruct lo as [[a1 a2] a3], hi as [[b1 b2] b3]. cbv zeta in S.
  destruct S as ((S1 & S2 & S3) & M1 & M2 & M3).
  set (x := unit_x g (rpx a)) in *. set (y := unit_y g (rpy a)) in *. set (z := unit_z g (rpz a)) in *.
  destruct d; cbn [order_on unit_on] in *.
  - transitivity (sum_box (a1, a2, a3) (b1, b2, b3) (fun p => let '(j, k, l) := p in (IZR j * spline (onx o) x j) * spline (ony o) y k * spline (onz o) z l)).
    + apply sum_box_ext. intros [[j k] l] _. unfold share, coord. fold x y z. ring.
    + etransitivity; [exact (sum_box_prod (a1, a2, a3) (b1, b2, b3) (fun j => IZR j * spline (onx o) x j) _ _)|]. rewrite (M1 O), S2, S3. fold x. ring.
  - transitivity (sum_box (a1, a2, a3) (b1, b2, b3) (fun p => let '(j, k, l) := p in spline (onx o) x j * (IZR k * spline (ony o) y k) * spline (onz o) z l)).
    + apply sum_box_ext. intros [[j k] l] _. unfold share, coord. fold x y z. ring.
    + etransitivity; [exact (sum_box_prod (a1, a2, a3) (b1, b2, b3) _ (fun k => IZR k * spline (ony o) y k) _)|]. rewrite S1, (M2 O), S3. fold y. ring.
  - transitivity (sum_box (a1, a2, a3) (b1, b2, b3) (fun p => let '(j, k, l) := p in spline (onx o) x j * spline (ony o) y k * (IZR l * spline (onz o) z l))).
    + apply sum_box_ext. intros [[j k] l] _. unfold share, coord. fold x y z. ring.
    + etransitivity; [exact (sum_box_prod (a1, a2, a3) (b1, b2, b3) _ _ (fun l => IZR l * spline (onz o) z l))|]. rewrite S1, S2, (M3 O). fold z. ring.
Qed.
Lemma density_total o g q ps lo hi (c : idx -> R) (v : rpart -> R) :
  (forall a, In a ps -> sum_box lo hi (fun p => c p * share o g (rpx a) (rpy a) (rpz a) p) = v a) ->
  sum_box lo hi (fun p => c p * density o g q ps p) = sumR (map (fun a => q * rw a / volume g * v a) ps).
Proof.
  intros H. unfold density, sum_box.
  transitivity (sumR (map (fun p => sumR (map (fun a => q * rw a / volume g * (c p * share o g (rpx a) (rpy a) (rpz a) p)) ps)) (box lo hi))).
  - apply sumR_ext. intros p _. rewrite <- sumR_scal. apply sumR_ext. intros a _. ring.
  - rewrite sumR_swap. apply sumR_ext. intros a Ha. rewrite sumR_scal. f_equal. exact (H a Ha).
Qed.

(** ** the statements about pxr_depose_rho_n *)
Notation charge_n o lw l4 g q ps rho :=
  (pxr_depose_rho_n (zlen ps) (map pos_of ps) (map weight_of ps) (F q) (geom_of g) (onx o) (ony o) (onz o) lw l4 rho).

Theorem charge_density o lw l4 g q ps rho rho' lo hi r : proper g -> isg rho lo hi r ->
  charge_n o lw l4 g q ps rho = Ret rho' -> isg rho' lo hi (fun p => r p + density o g q (seen lw l4 g ps) p).
Proof. intros P H E. rewrite depose_n_fold in E by exact P. exact (proj2 (step_sound o g q _ rho rho' lo hi r H E)). Qed.

Lemma isg_eq (g : grid (num FRX)) lo hi r r' : isg g lo hi r -> isg g lo hi r' -> forall p, in_box lo hi p = true -> r p = r' p.
Proof. intros (_ & _ & A) (_ & _ & B) p Hp. specialize (A p Hp). specialize (B p Hp). rewrite A in B. injection B as ->. reflexivity. Qed.

Theorem charge_total o lw l4 g q ps rho rho' lo hi r r' : proper g -> isg rho lo hi r ->
  charge_n o lw l4 g q ps rho = Ret rho' -> isg rho' lo hi r' ->
  volume g * sum_box lo hi r' = volume g * sum_box lo hi r + q * sumR (map rw (seen lw l4 g ps)).
Proof.
  intros P H E H'. rewrite depose_n_fold in E by exact P. destruct (step_sound o g q _ rho rho' lo hi r H E) as [A B].
  rewrite (sum_box_ext lo hi r' _ (isg_eq _ _ _ _ _ H' B)). rewrite sum_box_plus.
  rewrite (sum_box_ext lo hi (density o g q (seen lw l4 g ps)) (fun p => 1 * density o g q (seen lw l4 g ps) p)) by (intros; ring).
  rewrite (density_total o g q _ lo hi (fun _ => 1) (fun _ => 1)).
  - rewrite Rmult_plus_distr_l. f_equal. rewrite <- !sumR_scal. apply sumR_ext. intros a _. destruct P as (P1 & P2 & P3). unfold volume. field. auto.
  - intros a Ha. destruct (A a Ha) as [A1 A2]. rewrite (sum_box_ext lo hi _ (share o g (rpx a) (rpy a) (rpz a))) by (intros; ring).
    exact (share_total o g q a lo hi A1 A2).
Qed.
Theorem charge_moment o lw l4 g q ps rho rho' lo hi r r' d : proper g -> isg rho lo hi r ->
  charge_n o lw l4 g q ps rho = Ret rho' -> isg rho' lo hi r' -> (1 <= order_on o d)%Z ->
  volume g * sum_box lo hi (fun p => coord d p * r' p) =
  volume g * sum_box lo hi (fun p => coord d p * r p) + q * sumR (map (fun a => rw a * unit_on g d a) (seen lw l4 g ps)).
Proof.
  intros P H E H' O. rewrite depose_n_fold in E by exact P. destruct (step_sound o g q _ rho rho' lo hi r H E) as [A B].
  rewrite (sum_box_ext lo hi (fun p => coord d p * r' p) (fun p => coord d p * r p + coord d p * density o g q (seen lw l4 g ps) p)).
  2:{ intros p Hp. rewrite (isg_eq _ _ _ _ _ H' B p Hp). ring. }
  rewrite sum_box_plus. rewrite (density_total o g q _ lo hi (coord d) (unit_on g d)).
  - rewrite Rmult_plus_distr_l. f_equal. rewrite <- !sumR_scal. apply sumR_ext. intros a _. destruct P as (P1 & P2 & P3). unfold volume. field. auto.
  - intros a Ha. destruct (A a Ha) as [A1 A2]. exact (share_moment o g q a lo hi d A1 A2 O).
Qed.
Theorem charge_inside o lw l4 g q ps rho lo hi r : proper g -> known o -> moderate lo hi -> isg rho lo hi r ->
  (forall a, In a (seen lw l4 g ps) -> fits3 o g lo hi a) -> exists rho', charge_n o lw l4 g q ps rho = Ret rho'.
Proof.
  intros P K M H A. rewrite depose_n_fold by exact P. apply (step_complete o g q _ rho lo hi r H).
  intros a Ha. apply fits3_place; auto.
Qed.
Theorem charge_outside o lw l4 g q ps rho lo hi r a p : proper g -> isg rho lo hi r ->
  In a (seen lw l4 g ps) -> receives o g a p -> in_box lo hi p = false -> charge_n o lw l4 g q ps rho = UB.
Proof.
  intros P H I V B. rewrite depose_n_fold by exact P. apply (step_ub o g q _ rho lo hi r a H I).
  intros [A1 A2]. rewrite (receives_in o g q a lo hi p A1 A2 V) in B. discriminate.
Qed.
Theorem charge_unknown o lw l4 g q ps rho lo hi r : proper g -> isg rho lo hi r -> ps <> [] -> ~ known o ->
  charge_n o lw l4 g q ps rho = UB.
Proof.
  intros P H N K. rewrite depose_n_fold by exact P. destruct ps as [|a ps]; [congruence|]. rewrite seen_sa.
  apply (step_ub o g q _ rho lo hi r (sa lw l4 g (rw a) a) H); [left; reflexivity|]. intros [(A & _) _]. auto.
Qed.

(** ** the versions for one order *)
Lemma depose_ext {N : FNum} np (f f' : pos3 N -> num N -> out (list (stmt (num N)))) xs ws (rho : grid (num N)) :
  (forall a w i, get1 ws i = Ret w -> f a w = f' a w) -> depose np f xs ws rho = depose np f' xs ws rho.
Proof.
  intros H. unfold depose, do_range. apply do_loop_ext. intros j t _. destruct (get1 xs j) as [a| | |]; try reflexivity. cbn [bind].
  destruct (get1 ws j) as [w| | |] eqn:E; try reflexivity. cbn [bind]. rewrite (H a w j E). reflexivity.
Qed.
Lemma get1_first {A} (ws : list A) i w : get1 ws i = Ret w -> exists w1, get1 ws 1 = Ret w1.
Proof.
  intros E. destruct (Z_le_dec 1 i) as [L|L]; [destruct (Z_le_dec i (zlen ws)) as [L'|L']|]; try (rewrite get1_ub in E by lia; discriminate).
  exists (nth (Z.to_nat (1 - 1)) ws w). apply get1_ok. lia.
Qed.
Lemma rho_1_n {N : FNum} (G : Geom N) q w1 a w : rho_1_1_1 G q a w = rho_n 1 1 1 true false G q w1 a w.
Proof.
  unfold rho_1_1_1, rho_n. change (node 1 (gridx G a)) with (floor32 (gridx G a)). change (node 1 (gridy G a)) with (floor32 (gridy G a)).
  change (node 1 (gridz G a)) with (floor32 (gridz G a)). cbv zeta.
  destruct (floor32 (gridx G a)) as [j| | |]; try reflexivity. cbn [bind].
  destruct (floor32 (gridy G a)) as [k| | |]; try reflexivity. cbn [bind].
  destruct (floor32 (gridz G a)) as [l| | |]; try reflexivity. cbn [bind].
  change (box (smin 1, smin 1, smin 1) (smax 1, smax 1, smax 1)) with
    [(0, 0, 0); (1, 0, 0); (0, 1, 0); (1, 1, 0); (0, 0, 1); (1, 0, 1); (0, 1, 1); (1, 1, 1)]%Z.
  change (((0 <=? 1) && (1 <=? 3))%Z) with true. cbn [andb map]. rewrite !Z.add_0_r. reflexivity.
Qed.
Theorem scalar_1 {N : FNum} np xs ws q G (rho : grid (num N)) :
  depose_rho_scalar_1_1_1 np xs ws q G rho = pxr_depose_rho_n np xs ws q G 1 1 1 true false rho.
Proof.
  apply depose_ext. intros a w i E. destruct (get1_first ws i w E) as (w1 & ->). cbn [bind]. apply rho_1_n.
Qed.
Lemma rho_3_n {N : FNum} (G : Geom N) q w1 a w : rho_3_3_3 G q a w = rho_n 3 3 3 true false G q w1 a w.
Proof.
  unfold rho_3_3_3, rho_n. change (node 3 (gridx G a)) with (floor32 (gridx G a)). change (node 3 (gridy G a)) with (floor32 (gridy G a)).
  change (node 3 (gridz G a)) with (floor32 (gridz G a)). cbv zeta.
  destruct (floor32 (gridx G a)) as [j| | |]; try reflexivity. cbn [bind].
  destruct (floor32 (gridy G a)) as [k| | |]; try reflexivity. cbn [bind].
  destruct (floor32 (gridz G a)) as [l| | |]; try reflexivity. cbn [bind].
  change (((0 <=? 3) && (3 <=? 3))%Z) with true. cbn [andb]. cbv iota.
  let b := eval vm_compute in (box (smin 3, smin 3, smin 3) (smax 3, smax 3, smax 3)) in
  change (box (smin 3, smin 3, smin 3) (smax 3, smax 3, smax 3)) with b.
  cbn [map]. rewrite !Z.add_0_r. reflexivity.
Qed.
Theorem scalar_3 {N : FNum} np xs ws q G (rho : grid (num N)) :
  depose_rho_scalar_3_3_3 np xs ws q G rho = pxr_depose_rho_n np xs ws q G 3 3 3 true false rho.
Proof.
  apply depose_ext. intros a w i E. destruct (get1_first ws i w E) as (w1 & ->). cbn [bind]. apply rho_3_n.
Qed.
Lemma rho_2_one g q a : proper g -> rho_2_2_2 (geom_of g) (F q) (pos_of a) (weight_of a) = one (same_order 2) g q a.
Proof.
  intros P. pose proof P as (H1 & H2 & H3). unfold rho_2_2_2, one. rewrite gridx_fin, gridy_fin, gridz_fin, invvol_fin by assumption.
  cbn [same_order onx ony onz]. change (node 2 (F (unit_x g (rpx a)))) with (nint32 (F (unit_x g (rpx a)))).
  change (node 2 (F (unit_y g (rpy a)))) with (nint32 (F (unit_y g (rpy a)))).
  change (node 2 (F (unit_z g (rpz a)))) with (nint32 (F (unit_z g (rpz a)))). cbv zeta.
  destruct (nint32 (F (unit_x g (rpx a)))) as [j| | |]; try reflexivity. cbn [bind].
  destruct (nint32 (F (unit_y g (rpy a)))) as [k| | |]; try reflexivity. cbn [bind].
  destruct (nint32 (F (unit_z g (rpz a)))) as [l| | |]; try reflexivity. cbn [bind].
  change (knownb (same_order 2)) with true. cbv iota.
  change (n_sub (F (unit_x g (rpx a))) (n_of_Z j)) with (F (unit_x g (rpx a) - IZR j)).
  change (n_sub (F (unit_y g (rpy a))) (n_of_Z k)) with (F (unit_y g (rpy a) - IZR k)).
  change (n_sub (F (unit_z g (rpz a))) (n_of_Z l)) with (F (unit_z g (rpz a) - IZR l)).
  rewrite !shape_fin. unfold contrib. cbn [same_order onx ony onz].
  let b := eval vm_compute in (box (smin 2, smin 2, smin 2) (smax 2, smax 2, smax 2)) in
  change (box (smin 2, smin 2, smin 2) (smax 2, smax 2, smax 2)) with b.
  cbn [map]. rewrite !Z.add_0_r.
  set (sx := rshape 2 (unit_x g (rpx a) - IZR j)). set (sy := rshape 2 (unit_y g (rpy a) - IZR k)). set (sz := rshape 2 (unit_z g (rpz a) - IZR l)).
  assert (Q : forall p u v w, add (N := FRX) p (n_mul (n_mul (F u) (F v)) (n_mul (F w) (n_mul (n_mul (F q) (weight_of a)) (F (/ volume g))))) = radd (p, u * v * w * (q * rw a / volume g))).
  { intros p u v w. unfold radd. cbn [fst snd]. f_equal. cbn. f_equal. unfold Rdiv. ring. }
  rewrite !Q. reflexivity.
Qed.
Theorem scalar_2 g q ps (rho : grid (num FRX)) : proper g ->
  depose_rho_scalar_2_2_2 (zlen ps) (map pos_of ps) (map weight_of ps) (F q) (geom_of g) rho =
  charge_n (same_order 2) true false g q ps rho.
Proof.
  intros P. rewrite depose_n_fold by exact P. unfold depose_rho_scalar_2_2_2, depose. change (seen true false g ps) with ps. apply do_range_list.
  intros k a t Hk. rewrite !(get1_map _ _ k a Hk). cbn [bind]. rewrite rho_2_one by exact P. reflexivity.
Qed.
