(** Consequences for the current deposition routines (proofs only). *)
From Coq Require Import ZArith Reals List Bool Lia Lra Psatz Permutation Classical_Prop.
From Verif Require Import Cxx Num NumRX CxxLemmas Fortran FortranNum FortranLemmas Grid GridLemmas Pushers Yee Deposit Esirkepov SpecYee YeeReal SpecSolver SpecDeposit SpecCurrent Splines Sums DepositProofs EskLoops EskReal EskCore EskProofs YeeHist PusherProofs.
Import ListNotations.
Local Open Scope R_scope.

(** ** continuity *)
Lemma moves_fst dt ps : map fst (moves dt ps) = ps.
Proof. unfold moves. rewrite map_map. apply map_id. Qed.
Lemma moves_snd dt ps : map snd (moves dt ps) = map (before_move dt) ps.
Proof. unfold moves. rewrite map_map. reflexivity. Qed.
Lemma cont_of o g q dt lo hi ps m : proper g -> dt <> 0 -> current o g q dt lo hi ps m -> (forall a, In a ps -> rw (snd a) = rw (fst a)) ->
  continuous g dt (density o g q (map snd ps)) (density o g q (map fst ps)) m.
Proof. intros P T C W p. rewrite (continuity o g q dt lo hi ps m P T C W). field. exact T. Qed.
Theorem fixed_continuity n g q dt ps J J' lo hi j : fixed_order n -> proper g -> dt <> 0 -> holds J lo hi j ->
  current_fixed n g q dt ps J = Ret J' ->
  exists c, holds J' lo hi (plus_field j c) /\ within lo hi c /\
    continuous g dt (density (same_order n) g q (map (before_move dt) ps)) (density (same_order n) g q ps) c.
Proof.
  intros O P T H E. destruct (fixed_sound n g q dt ps J J' lo hi j O P T H E) as (c & C & H'). exists c. split; [exact H'|]. split; [exact (cu_out _ _ _ _ _ _ _ _ C)|].
  rewrite <- (moves_fst dt ps) at 2. rewrite <- (moves_snd dt ps). apply (cont_of _ _ _ _ lo hi); try assumption.
  intros a I. unfold moves in I. apply in_map_iff in I. destruct I as (b & <- & _). reflexivity.
Qed.
Lemma smoves_weight lw l4 g dt w ps a : In a (smoves lw l4 g dt w ps) -> rw (snd a) = rw (fst a).
Proof. unfold smoves. rewrite in_map_iff. intros (b & <- & _). cbn [fst snd]. unfold sa. destruct lw, l4; reflexivity. Qed.
Theorem n_continuity K cl o lw l4 g q dt ps J J' lo hi j : light cl K -> known o -> proper g -> dt <> 0 -> holds J lo hi j ->
  current_n K o lw l4 g q dt ps J = Ret J' ->
  exists c, holds J' lo hi (plus_field j c) /\ within lo hi c /\
    continuous g dt (density o g q (seen lw l4 g (map (before_move dt) ps))) (density o g q (seen lw l4 g ps)) c.
Proof.
  intros Ek O P T H E. destruct (n_sound K cl o lw l4 g q dt ps J J' lo hi j Ek O P T H E) as (c & C & H'). exists c. split; [exact H'|]. split; [exact (cu_out _ _ _ _ _ _ _ _ C)|].
  rewrite <- (smoves_fst lw l4 g dt ps), <- (smoves_snd lw l4 g dt ps). apply (cont_of _ _ _ _ lo hi); try assumption. intros a I. exact (smoves_weight _ _ _ _ _ _ _ I).
Qed.

(** ** the total current *)
Lemma unit_move g dt a d : proper g -> unit_on g d a - unit_on g d (before_move dt a) = dt * speed d a / width g d.
Proof.
  intros (P1 & P2 & P3). destruct d; cbn [unit_on before_move rpx rpy rpz speed width]; unfold unit_x, unit_y, unit_z, back; field; assumption.
Qed.
Lemma vol_area g d : volume g = area g d * width g d.
Proof. unfold volume. destruct d; cbn; ring. Qed.
Lemma area_pos g d : proper g -> area g d <> 0 /\ width g d <> 0.
Proof. intros (P1 & P2 & P3). destruct d; cbn; split; try assumption; apply Rmult_integral_contrapositive_currified; assumption. Qed.
Lemma holds_eq J lo hi f h d : holds J lo hi f -> holds J lo hi h -> forall p, in_box (lo d) (hi d) p = true -> comp d f p = comp d h p.
Proof. intros A B. exact (isg_eq _ _ _ _ _ (A d) (B d)). Qed.
Lemma total_of o g q dt lo hi ps m d : proper g -> dt <> 0 -> current o g q dt lo hi ps m -> (1 <= order_on o d)%Z ->
  volume g * sum_box (lo d) (hi d) (comp d m) = q * sumR (map (fun a => rw (fst a) * ((unit_on g d (fst a) - unit_on g d (snd a)) * width g d / dt)) ps).
Proof.
  intros P T C O. rewrite (cu_sum _ _ _ _ _ _ _ _ C d O). rewrite <- !sumR_scal. apply sumR_ext. intros a _. rewrite (vol_area g d). destruct (area_pos g d P). field. auto.
Qed.
Theorem fixed_total n g q dt ps J J' lo hi j j' d : fixed_order n -> proper g -> dt <> 0 -> holds J lo hi j ->
  current_fixed n g q dt ps J = Ret J' -> holds J' lo hi j' ->
  volume g * sum_box (lo d) (hi d) (comp d j') = volume g * sum_box (lo d) (hi d) (comp d j) + q * sumR (map (fun a => rw a * speed d a) ps).
Proof.
  intros O P T H E H'. destruct (fixed_sound n g q dt ps J J' lo hi j O P T H E) as (c & C & H1).
  rewrite (sum_box_ext _ _ (comp d j') (fun p => comp d j p + comp d c p)).
  2:{ intros p B. rewrite (holds_eq _ _ _ _ _ d H' H1 p B). apply comp_plus. }
  rewrite sum_box_plus, Rmult_plus_distr_l. f_equal.
  rewrite (total_of _ _ _ _ _ _ _ _ d P T C) by (destruct O, d; cbn; lia). f_equal. unfold moves. rewrite map_map. apply sumR_ext. intros a _. cbn [fst snd].
  rewrite unit_move by exact P. destruct (area_pos g d P). f_equal. field. auto.
Qed.
Theorem n_total K cl o l4 lw g q dt ps J J' lo hi j j' d : light cl K -> known o -> proper g -> dt <> 0 -> holds J lo hi j ->
  current_n K o lw l4 g q dt ps J = Ret J' -> holds J' lo hi j' -> (1 <= order_on o d)%Z ->
  volume g * sum_box (lo d) (hi d) (comp d j') = volume g * sum_box (lo d) (hi d) (comp d j) +
  q * sumR (map (fun a => rw (fst a) * ((unit_on g d (fst a) - unit_on g d (snd a)) * width g d / dt))
        (combine (seen lw l4 g ps) (seen lw l4 g (map (before_move dt) ps)))).
Proof.
  intros Ek O P T H E H' Od. destruct (n_sound K cl o lw l4 g q dt ps J J' lo hi j Ek O P T H E) as (c & C & H1).
  rewrite (sum_box_ext _ _ (comp d j') (fun p => comp d j p + comp d c p)).
  2:{ intros p B. rewrite (holds_eq _ _ _ _ _ d H' H1 p B). apply comp_plus. }
  rewrite sum_box_plus, Rmult_plus_distr_l. f_equal. rewrite (total_of _ _ _ _ _ _ _ _ d P T C Od). f_equal.
  rewrite <- (smoves_fst lw l4 g dt ps), <- (smoves_snd lw l4 g dt ps). generalize (smoves lw l4 g dt (head_weight ps) ps). intros l. do 2 f_equal.
  induction l as [|[u v] l IH]; [reflexivity|]. cbn. f_equal. exact IH.
Qed.
Theorem n_total_plain K cl o g q dt ps J J' lo hi j j' d : light cl K -> known o -> proper g -> dt <> 0 -> holds J lo hi j ->
  current_n K o true false g q dt ps J = Ret J' -> holds J' lo hi j' -> (1 <= order_on o d)%Z ->
  volume g * sum_box (lo d) (hi d) (comp d j') = volume g * sum_box (lo d) (hi d) (comp d j) + q * sumR (map (fun a => rw a * speed d a) ps).
Proof.
  intros Ek O P T H E H' Od. rewrite (n_total K cl o false true g q dt ps J J' lo hi j j' d Ek O P T H E H' Od). do 2 f_equal.
  change (seen true false g ps) with ps. change (seen true false g (map (before_move dt) ps)) with (map (before_move dt) ps).
  induction ps as [|a ps' IH]; [reflexivity|]. clear E. cbn [map combine]. unfold sumR in *. cbn [fold_right fst snd]. rewrite unit_move by exact P. destruct (area_pos g d P).
  replace (dt * speed d a / width g d * width g d / dt) with (speed d a) by (field; auto). f_equal.
  clear IH. induction ps' as [|b ps' IH]; [reflexivity|]. cbn [map combine fold_right fst snd]. rewrite unit_move by exact P. rewrite IH. f_equal. f_equal. field. auto.
Qed.

(** ** the scratch variables do not matter, in any arithmetic *)
Lemma fst_indep {N : FNum} {C} (f : pos3 N -> mom N -> num N -> field (num N) * C -> out (field (num N) * C)) np xs ms ws :
  (forall a m w J c c', (do s <- f a m w (J, c); Ret (fst s)) = (do s <- f a m w (J, c'); Ret (fst s))) ->
  forall J c c', (do s <- esk_all np f xs ms ws (J, c); Ret (fst s)) = (do s <- esk_all np f xs ms ws (J, c'); Ret (fst s)).
Proof.
  intros H J c c'. unfold esk_all, do_range. generalize (Z.to_nat (np - 1 + 1)). intros n. generalize 1%Z. revert J c c'.
  induction n as [|n IH]; intros J c c' i; [reflexivity|]. cbn [do_loop].
  destruct (get1 xs i) as [a| | |]; try reflexivity. cbn [bind]. destruct (get1 ms i) as [m| | |]; try reflexivity. cbn [bind]. destruct (get1 ws i) as [w| | |]; try reflexivity. cbn [bind].
  pose proof (H a m w J c c') as Q. destruct (f a m w (J, c)) as [[J1 c1]| | |], (f a m w (J, c')) as [[J2 c2]| | |]; try discriminate Q; try reflexivity. cbn [bind fst] in *.
  injection Q as <-. apply IH.
Qed.
Lemma axis_le {N : FNum} n lo hi (x xo : num N) A : (0 <= n)%Z -> axis_shapes n lo hi x xo = Ret A -> (imin A <= imax A + 1)%Z.
Proof.
  intros Hn. unfold axis_shapes. destruct (node n x) as [i0| | |]; try discriminate. cbn [bind]. destruct (node n xo) as [i| | |]; try discriminate. cbn [bind].
  match goal with |- (if ?b then _ else _) = _ -> _ => destruct b; [|discriminate] end. intros E. injection E as <-. cbn [imin imax]. pose proof (smin_smax n Hn). lia.
Qed.
Lemma particle_indep {N : FNum} n lo hi (G : Geom N) dt q a m w J c c' : (0 <= n)%Z ->
  (do s <- esk_particle n lo hi G dt q a m w (J, c); Ret (fst s)) = (do s <- esk_particle n lo hi G dt q a m w (J, c'); Ret (fst s)).
Proof.
  intros Hn. unfold esk_particle.
  destruct (axis_shapes n lo hi (gridx G a) _) as [X| | |] eqn:EX; try reflexivity. destruct (axis_shapes n lo hi (gridy G a) _) as [Y| | |] eqn:EY; try reflexivity.
  destruct (axis_shapes n lo hi (gridz G a) _) as [Z'| | |] eqn:EZ; try reflexivity. cbn [bind]. cbv zeta.
  apply axis_le in EX, EY, EZ; try exact Hn.
  match goal with |- context[esk_loops ?u ?v ?w X Y Z'] => destruct (loops_does u v w X Y Z' EX EY EZ c) as (d & D); destruct (loops_does u v w X Y Z' EX EY EZ c') as (d' & D') end.
  rewrite (D J), (D' J). destruct (run3 _ J); reflexivity.
Qed.
Lemma particle_1_indep {N : FNum} (G : Geom N) dt q a m w J c c' :
  (do s <- esk_particle_1 G dt q a m w (J, c); Ret (fst s)) = (do s <- esk_particle_1 G dt q a m w (J, c'); Ret (fst s)).
Proof.
  unfold esk_particle_1.
  destruct (axis_shapes 1 _ _ (gridx G a) _) as [X| | |] eqn:EX; try reflexivity. destruct (axis_shapes 1 _ _ (gridy G a) _) as [Y| | |] eqn:EY; try reflexivity.
  destruct (axis_shapes 1 _ _ (gridz G a) _) as [Z'| | |] eqn:EZ; try reflexivity. cbn [bind]. cbv zeta.
  apply axis_le in EX, EY, EZ; try lia.
  match goal with |- context[esk_loops ?u ?v ?w X Y Z'] => destruct (loops_does u v w X Y Z' EX EY EZ c) as (d & D); destruct (loops_does u v w X Y Z' EX EY EZ c') as (d' & D') end.
  rewrite (D J), (D' J). destruct (run3 _ J); reflexivity.
Qed.
Theorem scratch_1 {N : FNum} np xs ms ws (q : num N) G dt J c :
  depose_jxjyjz_esirkepov_1_1_1 np xs ms ws q G dt J = do s <- esk_all np (esk_particle_1 G dt q) xs ms ws (J, c); Ret (fst s).
Proof. apply fst_indep. intros. apply particle_1_indep. Qed.
Theorem scratch_2 {N : FNum} np xs ms ws (q : num N) G dt J c :
  depose_jxjyjz_esirkepov_2_2_2 np xs ms ws q G dt J = do s <- esk_all np (esk_particle 2 (-2) 2 G dt q) xs ms ws (J, c); Ret (fst s).
Proof. apply fst_indep. intros. apply particle_indep. lia. Qed.
Theorem scratch_3 {N : FNum} np xs ms ws (q : num N) G dt J c :
  depose_jxjyjz_esirkepov_3_3_3 np xs ms ws q G dt J = do s <- esk_all np (esk_particle 3 (-2) 3 G dt q) xs ms ws (J, c); Ret (fst s).
Proof. apply fst_indep. intros. apply particle_indep. lia. Qed.

(** ** orders above three *)
Definition fin_ax (A : Ax (N := FRX)) : Prop := (imin A <= imax A + 1)%Z /\ exists r e, forall m, s0 A m = F (r m) /\ ds A m = F (e m).
Definition zero_ax (A : Ax (N := FRX)) : Prop := forall m, s0 A m = F 0 /\ ds A m = F 0.
Lemma ax_known n lo hi x xo A : (0 <= n <= 3)%Z -> axis_shapes n lo hi (F x) (F xo) = Ret A -> fin_ax A.
Proof.
  intros K E. split; [apply (axis_le n lo hi (F x) (F xo)); [lia | exact E]|].
  destruct (ax_ok_dec n lo hi x xo) as [O|O]; [|rewrite ax_ub in E by exact O; discriminate].
  destruct (ax_ret n lo hi x xo K O) as (A' & E' & [S0 DS _ _ _ _] & _). rewrite E in E'. injection E' as <-. eexists. eexists. intros m. split; [apply S0 | apply DS].
Qed.
Lemma ax_high n lo hi x xo A : (4 <= n)%Z -> axis_shapes n lo hi (F x) (F xo) = Ret A -> fin_ax A /\ zero_ax A.
Proof.
  intros K E.
  assert (Z0 : zero_ax A).
  { revert E. unfold axis_shapes. destruct (node n (F x)) as [i0| | |]; try discriminate. cbn [bind]. destruct (node n (F xo)) as [i| | |]; try discriminate. cbn [bind].
    match goal with |- (if ?b then _ else _) = _ -> _ => destruct b; [|discriminate] end. intros E. injection E as <-. intros m. cbn [s0 ds].
    replace ((0 <=? n) && (n <=? 3))%Z with false by (symmetry; rewrite andb_false_iff, !Z.leb_gt; lia). cbn [andb]. split; [reflexivity|].
    change (n_lit 0 0 : num FRX) with (F 0). change (n_sub (F 0) (F 0)) with (F (0 - 0)). apply (f_equal Fin). lra. }
  split; [|exact Z0]. split; [apply (axis_le n lo hi (F x) (F xo)); [lia | exact E]|]. exists (fun _ => 0), (fun _ => 0). exact Z0.
Qed.
Lemma ax_any n lo hi x xo A : (0 <= n)%Z -> axis_shapes n lo hi (F x) (F xo) = Ret A -> fin_ax A /\ ((4 <= n)%Z -> zero_ax A).
Proof.
  intros K E. destruct (Z_le_gt_dec n 3) as [L|L]; [split; [apply (ax_known n lo hi x xo); [lia|exact E] | lia]|].
  destruct (ax_high n lo hi x xo A ltac:(lia) E). auto.
Qed.
Lemma flux_zero w X Y Z' i j k : fin_ax X -> fin_ax Y -> fin_ax Z' -> zero_ax X \/ zero_ax Y \/ zero_ax Z' -> flux (F w) X Y Z' i j k = F 0.
Proof.
  intros (_ & r1 & e1 & A) (_ & r2 & e2 & B) (_ & r3 & e3 & C) Z. unfold flux. destruct (A i) as [A1 A2], (B j) as [B1 B2], (C k) as [C1 C2].
  rewrite A2, B1, B2, C1, C2. change (n_lit 1 0 : num FRX) with (F 1). change (n_lit 3 0 : num FRX) with (F 3). rewrite fdiv by lra.
  change (n_lit 5 (-1) : num FRX) with (F (5 / 10)). cbn. f_equal.
  destruct Z as [Z|[Z|Z]]; [destruct (Z i) as [_ Q]; rewrite A2 in Q; injection Q as -> | destruct (Z j) as [Q1 Q2]; rewrite B1 in Q1; rewrite B2 in Q2; injection Q1 as ->; injection Q2 as ->
    | destruct (Z k) as [Q1 Q2]; rewrite C1 in Q1; rewrite C2 in Q2; injection Q1 as ->; injection Q2 as ->]; field.
Qed.
Lemma psum_zero (f : Z -> num FRX) lo i : (forall m, f m = F 0) -> (lo <= i)%Z -> psum f lo i = F 0.
Proof. intros H L. rewrite (psum_fin f (fun _ => 0) lo i H L). f_equal. apply rsum_zero. reflexivity. Qed.
Lemma items_zero w1 w2 w3 X Y Z' t : fin_ax X -> fin_ax Y -> fin_ax Z' -> zero_ax X \/ zero_ax Y \/ zero_ax Z' -> In t (items3 (F w1) (F w2) (F w3) X Y Z') -> snd t = F 0.
Proof.
  intros A B C Z. unfold items3. rewrite in_flat_map. intros (k & Hk & I). apply in_flat_map in I. destruct I as (j & Hj & I). apply in_flat_map in I. destruct I as (i & Hi & I).
  apply in_zrange in Hk, Hj, Hi. unfold items in I.
  apply in_app_or in I. destruct I as [I|I]; [|apply in_app_or in I; destruct I as [I|I]].
  - destruct (i <? imax X)%Z; [|destruct I]. destruct I as [<-|[]]. cbn [snd]. apply psum_zero; [|lia]. intros m. apply flux_zero; tauto.
  - destruct (j <? imax Y)%Z; [|destruct I]. destruct I as [<-|[]]. cbn [snd]. apply psum_zero; [|lia]. intros m. apply flux_zero; tauto.
  - destruct (k <? imax Z')%Z; [|destruct I]. destruct I as [<-|[]]. cbn [snd]. apply psum_zero; [|lia]. intros m. apply flux_zero; tauto.
Qed.
Lemma run3_zero L : (forall t, In t L -> snd t = F 0) -> forall J J' lo hi j, holds J lo hi j -> run3 (N := FRX) L J = Ret J' -> holds J' lo hi j.
Proof.
  induction L as [|t L IH]; intros Z J J' lo hi j H E; [injection E as <-; exact H|]. cbn [run3] in E.
  assert (Q : t = fin3 (fst t, 0)) by (pose proof (Z t (or_introl eq_refl)) as Zt; destruct t as [[d p] v]; cbn [snd] in Zt; rewrite Zt; reflexivity).
  rewrite Q in E. pose proof (addd_fin (fst t, 0) J lo hi j H) as A. destruct (fst t) as [d p]. destruct (in_box (lo d) (hi d) p); [|rewrite A in E; discriminate].
  destruct A as (J1 & A & H1). rewrite A in E. cbn [bind] in E. apply (IH (fun t' I => Z t' (or_intror I)) J1 J' lo hi j); [|exact E].
  apply (holds_ext _ _ _ _ _ H1). intros e p' _. rewrite comp_plus, comp_made. unfold hits3. cbn. destruct (axis_eqb d e && idx_eqb p p'); lra.
Qed.

Theorem n_high K cl o lw l4 g q dt ps J J' lo hi j : light cl K -> proper g -> dt <> 0 ->
  (0 <= onx o /\ 0 <= ony o /\ 0 <= onz o)%Z -> (4 <= onx o \/ 4 <= ony o \/ 4 <= onz o)%Z -> holds J lo hi j ->
  current_n K o lw l4 g q dt ps J = Ret J' -> holds J' lo hi j.
Proof.
  intros Ek P T (N1 & N2 & N3) Hi H E. pose proof P as (P1 & P2 & P3). destruct ps as [|a0 ps0] eqn:Eps.
  { cbn in E. injection E as <-. exact H. }
  rewrite <- Eps in *. assert (N : ps <> []) by (rewrite Eps; discriminate). clear Eps a0 ps0.
  destruct (trunc_out (cl * dt / hx g)) as [(t1 & B1)|B1]; [|rewrite (n_fold_ub K cl) in E by auto; discriminate].
  destruct (trunc_out (cl * dt / hy g)) as [(t2 & B2)|B2]; [|rewrite (n_fold_ub K cl) in E by auto; discriminate].
  destruct (trunc_out (cl * dt / hz g)) as [(t3 & B3)|B3]; [|rewrite (n_fold_ub K cl) in E by auto; discriminate].
  rewrite (n_fold K cl o lw l4 g q dt ps J (smin (onx o) - 1 - t1, smax (onx o) + 1 + t1)%Z (smin (ony o) - 1 - t2, smax (ony o) + 1 + t2)%Z (smin (onz o) - 1 - t3, smax (onz o) + 1 + t3)%Z) in E
    by (try assumption; rewrite (bounds_fin K cl) by assumption; rewrite ?B1, ?B2, ?B3; reflexivity).
  cbn [fst snd] in E. revert E. generalize (smoves lw l4 g dt (head_weight ps) ps). generalize sums0. intros c ms. revert J c H.
  induction ms as [|a ms IH]; intros J c H E; [cbn in E; injection E as <-; exact H|]. cbn [foldM] in E.
  match type of E with context[core ?f ?a ?b ?c ?d ?e ?h ?o ?g ?q ?dt ?n ?ol ?s] => destruct (core f a b c d e h o g q dt n ol s) as [[J1 c1]| | |] eqn:E1 end; try discriminate. cbn [bind] in E.
  apply (IH J1 c1); [|exact E]. clear IH E. unfold core in E1.
  destruct (axis_shapes (onx o) _ _ _ _) as [X| | |] eqn:EX; try discriminate. destruct (axis_shapes (ony o) _ _ _ _) as [Y| | |] eqn:EY; try discriminate.
  destruct (axis_shapes (onz o) _ _ _ _) as [Z'| | |] eqn:EZ; try discriminate. cbn [bind] in E1.
  apply ax_any in EX, EY, EZ; try assumption. destruct EX as [FX ZX], EY as [FY ZY], EZ as [FZ ZZ].
  match type of E1 with context[esk_loops_n ?u ?v ?w X Y Z'] => destruct (loops_n_fine u v w X Y Z' (proj1 FX) (proj1 FY) (proj1 FZ) c) as (d & D) end.
  rewrite (D J) in E1. match type of E1 with context[run3 ?L J] => destruct (run3 L J) as [J2| | |] eqn:E2; try discriminate end. cbn [bind] in E1. injection E1 as <- _.
  refine (run3_zero _ _ J J2 lo hi j H E2). intros t I. apply (items_zero _ _ _ X Y Z' t FX FY FZ) in I; [exact I|].
  destruct Hi as [Hi|[Hi|Hi]]; auto.
Qed.

(** ** the order of the particles does not matter *)
Lemma sumR_perm l l' : Permutation l l' -> sumR l = sumR l'.
Proof. unfold sumR. induction 1; cbn; lra. Qed.
Lemma density_perm o g q ps ps' p : Permutation ps ps' -> density o g q ps p = density o g q ps' p.
Proof. intros H. unfold density. apply sumR_perm, Permutation_map, H. Qed.
Lemma current_perm o g q dt lo hi ps ps' m : Permutation ps ps' -> current o g q dt lo hi ps m -> current o g q dt lo hi ps' m.
Proof.
  intros H [A B C]. constructor; [|exact B|]; intros; rewrite ?A, ?C by assumption; apply sumR_perm, Permutation_map, H.
Qed.
Lemma idx_eq3 (a b c a' b' c' : Z) : a = a' -> b = b' -> c = c' -> (a, b, c) = (a', b', c').
Proof. intros -> -> ->. reflexivity. Qed.
Lemma current_unique o g q dt lo hi ps m m' : current o g q dt lo hi ps m -> current o g q dt lo hi ps m' -> forall d p, comp d m p = comp d m' p.
Proof.
  intros [A B _] [A' B' _] d p.
  assert (Q : forall k p, comp d m p - comp d m' p = comp d m (shift d (- Z.of_nat k) p) - comp d m' (shift d (- Z.of_nat k) p)).
  { induction k as [|k IH]; intros p0.
    - change (- Z.of_nat 0)%Z with 0%Z. replace (shift d 0 p0) with p0 by (destruct p0 as [[a b] c], d; cbn; rewrite ?Z.add_0_r; reflexivity). reflexivity.
    - rewrite IH. replace (shift d (- Z.of_nat (S k)) p0) with (shift d (-1) (shift d (- Z.of_nat k) p0)) by (destruct p0 as [[a b] c], d; cbn [shift]; apply idx_eq3; lia).
      pose proof (A d (shift d (- Z.of_nat k) p0)). pose proof (A' d (shift d (- Z.of_nat k) p0)). lra. }
  assert (O : exists k, in_box (lo d) (hi d) (shift d (- Z.of_nat k) p) = false).
  { destruct (lo d) as [[a1 a2] a3], (hi d) as [[b1 b2] b3], p as [[x y] z].
    exists (Z.to_nat (Z.abs x + Z.abs y + Z.abs z + Z.abs a1 + Z.abs a2 + Z.abs a3 + 1)). apply not_true_is_false. intros I. destruct d; cbn [shift] in I; apply in_box_iff in I; lia. }
  destruct O as (k & O). specialize (Q k p). rewrite (B d _ O), (B' d _ O) in Q. lra.
Qed.
Section Each.
Context {C : Type} (loops : num FRX -> num FRX -> num FRX -> Ax (N := FRX) -> Ax (N := FRX) -> Ax (N := FRX) -> field (num FRX) * C -> out (field (num FRX) * C)).
Hypothesis ok : forall wx wy wz (X Y Z' : Ax (N := FRX)), (imin X <= imax X + 1)%Z -> (imin Y <= imax Y + 1)%Z -> (imin Z' <= imax Z' + 1)%Z ->
    forall c : C, exists c', does (loops wx wy wz X Y Z') (items3 wx wy wz X Y Z') c c'.
Context (l1 u1 l2 u2 l3 u3 : Z) (o : orders) (g : cells) (q dt : R) (K : known o) (lo hi : axis -> idx).
Notation stp := (fun a : rpart * rpart => core loops l1 u1 l2 u2 l3 u3 o g q dt (fst a) (snd a)).
Definition good (a : rpart * rpart) : Prop := exists L, (forall c, exists c', does (stp a) (map fin3 L) c c') /\ all_in3 lo hi L.
Lemma stp_cases a : good a \/ forall J c j, holds J lo hi j -> stp a (J, c) = UB.
Proof.
  destruct (core_ok_dec l1 u1 l2 u2 l3 u3 o g (fst a) (snd a)) as [O|O]; [|right; intros; apply core_ub; assumption].
  destruct (core_spec loops ok l1 u1 l2 u2 l3 u3 o g q dt (fst a) (snd a) K O) as (L & D & _).
  destruct (all_in3_dec lo hi L) as [A|A]; [left; exists L; auto|]. right. intros J c j H. destruct (D c) as (c' & D'). rewrite (D' J). rewrite (run3_ub L J lo hi j H A). reflexivity.
Qed.
Lemma fold_good ps : (forall a, In a ps -> good a) -> forall J c j, holds J lo hi j -> exists r, foldM stp ps (J, c) = Ret r.
Proof.
  induction ps as [|a ps IH]; intros A J c j H; [eexists; reflexivity|]. cbn [foldM]. destruct (A a (or_introl eq_refl)) as (L & D & I). destruct (D c) as (c' & D').
  rewrite (D' J). destruct (run3_ok L J lo hi j H I) as (J1 & -> & H1). cbn [bind]. apply (IH (fun b Hb => A b (or_intror Hb)) J1 c' _ H1).
Qed.
Lemma fold_bad ps a : In a ps -> ~ good a -> forall J c j, holds J lo hi j -> foldM stp ps (J, c) = UB.
Proof.
  induction ps as [|b ps IH]; intros I B J c j H; [destruct I|]. cbn [foldM]. destruct (stp_cases b) as [(L & D & A)|U]; [|rewrite (U J c j H); reflexivity].
  destruct (D c) as (c' & D'). rewrite (D' J). destruct (run3_ok L J lo hi j H A) as (J1 & -> & H1). cbn [bind].
  destruct I as [<-|I]; [exfalso; apply B; exists L; auto|]. exact (IH I B J1 c' _ H1).
Qed.
Lemma good_all ps : (forall a, In a ps -> good a) \/ exists a, In a ps /\ ~ good a.
Proof.
  induction ps as [|a ps IH]; [left; intros a []|]. destruct (stp_cases a) as [G|U].
  - destruct IH as [IH|(b & I & N)]; [left; intros b [<-|I]; auto | right; exists b; split; [right; exact I | exact N]].
  - destruct (classic (good a)) as [G|N]; [|right; exists a; split; [left; reflexivity | exact N]].
    destruct IH as [IH|(b & I & N)]; [left; intros b [<-|I]; auto | right; exists b; split; [right; exact I | exact N]].
Qed.
Theorem fold_perm ps ps' J c j : Permutation ps ps' -> holds J lo hi j ->
  match foldM stp ps (J, c), foldM stp ps' (J, c) with
  | Ret s, Ret s' => exists f, holds (fst s) lo hi f /\ holds (fst s') lo hi f
  | UB, UB => True
  | _, _ => False
  end.
Proof.
  intros P H. destruct (good_all ps) as [G|(a & I & N)].
  - assert (G' : forall a, In a ps' -> good a) by (intros a I; apply G; apply (Permutation_in a (Permutation_sym P) I)).
    destruct (fold_good ps G J c j H) as ([J1 c1] & E1). destruct (fold_good ps' G' J c j H) as ([J2 c2] & E2). rewrite E1, E2. cbn [fst].
    destruct (cores_sound loops ok l1 u1 l2 u2 l3 u3 o g q dt K ps J c J1 c1 lo hi j H E1) as (m1 & M1 & H1).
    destruct (cores_sound loops ok l1 u1 l2 u2 l3 u3 o g q dt K ps' J c J2 c2 lo hi j H E2) as (m2 & M2 & H2).
    exists (plus_field j m1). split; [exact H1|]. apply (holds_ext _ _ _ _ _ H2). intros d p _. rewrite !comp_plus. f_equal.
    apply (current_unique o g q dt lo hi ps'); [exact M2|]. exact (current_perm _ _ _ _ _ _ _ _ _ P M1).
  - rewrite (fold_bad ps a I N J c j H), (fold_bad ps' a (Permutation_in a P I) N J c j H). exact Logic.I.
Qed.
End Each.
(** two outcomes with arrays that hold the same real field *)
Theorem fixed_perm n g q dt ps ps' J lo hi j : fixed_order n -> proper g -> dt <> 0 -> holds J lo hi j -> Permutation ps ps' ->
  match current_fixed n g q dt ps J, current_fixed n g q dt ps' J with
  | Ret J1, Ret J2 => exists f, holds J1 lo hi f /\ holds J2 lo hi f
  | UB, UB => True
  | _, _ => False
  end.
Proof.
  intros O P T H Q. rewrite !fixed_fold by assumption. assert (Q' : Permutation (moves dt ps) (moves dt ps')) by (apply Permutation_map; exact Q).
  pose proof (fold_perm esk_loops loops_fine (smin n - 1) (smax n + 1) (smin n - 1) (smax n + 1) (smin n - 1) (smax n + 1) (same_order n) g q dt (fixed_known n O) lo hi _ _ J carry0 j Q' H) as R.
  destruct (cfold n g q dt ps (J, carry0)) as [[J1 c1]| | |], (cfold n g q dt ps' (J, carry0)) as [[J2 c2]| | |]; cbn [bind fst] in *; auto.
Qed.

(** ** Gauss's law *)
Lemma before_push dt (ps : list rpart) ps' :
  pxr_pushxyz (zlen ps) (map pos_of ps) (map mom_of ps) (F dt) = Ret (map pos_of ps') ->
  map mom_of ps' = map mom_of ps -> map weight_of ps' = map weight_of ps ->
  map pos_of (map (before_move dt) ps') = map pos_of ps /\ map weight_of (map (before_move dt) ps') = map weight_of ps.
Proof.
  intros E M W. unfold pxr_pushxyz in E. replace (zlen ps) with (Z.of_nat (length (map pos_of ps))) in E by (rewrite map_length; reflexivity).
  rewrite for_particles_map2 in E by (rewrite !map_length; reflexivity). injection E as E. revert ps' E M W.
  induction ps as [|a ps IH]; intros [|b ps'] E M W; try discriminate; [split; reflexivity|]. cbn [map map2] in *.
  pose proof (f_equal (@tl _) M) as Mb'. pose proof (f_equal (@tl _) W) as Wb'. pose proof (f_equal (@tl _) E) as Eb'. cbn [tl] in Mb', Wb'.
  change (map2 (push1 (F dt)) (map mom_of ps) (map pos_of ps) = map pos_of ps') in Eb'.
  pose proof (f_equal (hd (mom_of a)) M) as Mb. pose proof (f_equal (hd (weight_of a)) W) as Wb. pose proof (f_equal (hd (pos_of a)) E) as Eb. cbn [hd] in Mb, Wb.
  change (push1 (F dt) (mom_of a) (pos_of a) = pos_of b) in Eb. clear E M W.
  destruct (IH ps' Eb' Mb' Wb') as [I1 I2]. rewrite I1, I2. clear IH I1 I2. split; f_equal; [|exact Wb].
  destruct a, b. unfold push1, pos_of, mom_of in *. cbn in Mb, Eb |- *. injection Mb as -> -> -> ->. injection Eb as <- <- <-. unfold back.
  assert (Q : forall x u v, x + u * v * dt - dt * (u * v) = x) by (intros; ring). rewrite !Q. reflexivity.
Qed.
Lemma density_same o g q ps ps' p : map pos_of ps' = map pos_of ps -> map weight_of ps' = map weight_of ps -> density o g q ps' p = density o g q ps p.
Proof.
  intros E W. unfold density. f_equal. revert ps' E W. induction ps as [|a ps IH]; intros [|b ps'] E W; try discriminate; [reflexivity|]. cbn [map] in *.
  pose proof (f_equal (@tl _) W) as Wb'. pose proof (f_equal (@tl _) E) as Eb'. pose proof (f_equal (hd (weight_of a)) W) as Wb. pose proof (f_equal (hd (pos_of a)) E) as Eb. cbn [hd tl] in *.
  rewrite (IH ps' Eb' Wb'). f_equal. unfold pos_of, weight_of in *. injection Eb as -> -> ->. injection Wb as ->. reflexivity.
Qed.
Lemma run_history S t c mu n g q s s' : fixed_order n -> proper g -> rdt t <> 0 -> second_order S = true -> rdx t = hx g -> rdy t = hy g -> rdz t = hz g ->
  run S t c mu n g q s s' -> forall E0 B0 ps0 E1 B1 ps1, s = (E0, B0, ps0) -> s' = (E1, B1, ps1) ->
  exists rho, fsteps (tg := fun x => x) S t c mu (E0, B0, density (same_order n) g q ps0) (E1, B1, rho) /\ forall p, rho p = density (same_order n) g q ps1 p.
Proof.
  intros O P T SO G1 G2 G3 H. induction H as [s|s1 s2 s3 H IH St]; intros E0 B0 ps0 E1 B1 ps1 -> X.
  - injection X as <- <- <-. eexists. split; [apply fnil | reflexivity].
  - destruct s2 as [[E B] ps]. destruct (IH E0 B0 ps0 E B ps eq_refl eq_refl) as (rho & F1 & R1). clear IH H. subst s3. inversion St; subst; clear St.
    + exists rho. split; [|exact R1]. apply (fcons _ _ _ _ _ _ _ F1). apply step_b. assumption.
    + exists rho. split; [exact F1|]. intros p. rewrite R1. symmetry. apply density_same; assumption.
    + 
      match goal with A : is_field S J0 zero_field, B : depose_fixed n _ _ _ _ _ _ _ J0 = Ret J |- _ => rename A into HJ; rename B into HC end.
      match goal with A : pxr_pushxyz _ _ _ _ = _, B : map mom_of _ = _, C : map weight_of _ = _ |- _ => destruct (before_push _ _ _ A B C) as [BP BW] end.
      assert (HJ' : holds J0 (fun _ => alo S) (fun _ => ahi S) zero_field) by (destruct HJ as (X1 & X2 & X3); intros []; assumption).
      destruct (fixed_continuity n g q (rdt t) ps1 J0 J _ _ zero_field O P T HJ' HC) as (m & HM & _ & Co).
      exists (fun p => rho p - rdt t * div (bwd (formulas S t)) (plus_field zero_field m) p). split.
      * apply (fcons _ _ _ _ _ _ _ F1). apply (step_e S t c mu _ _ J _ (plus_field zero_field m)); [|assumption | reflexivity].
        split; [exact (HM AX) | split; [exact (HM AY) | exact (HM AZ)]].
      * intros p. rewrite R1. specialize (Co p). rewrite (density_same (same_order n) g q ps (map (before_move (rdt t)) ps1) p) in Co by assumption.
        assert (D : div (bwd (formulas S t)) (plus_field zero_field m) p = div (bwd (yee (hx g) (hy g) (hz g))) m p).
        { unfold formulas. rewrite SO, G1, G2, G3. unfold div. rewrite !bwd_yee. cbn [plus_field comp_x comp_y comp_z zero_field]. rewrite !Rplus_0_l. reflexivity. }
        rewrite D. apply (Rmult_eq_compat_l (rdt t)) in Co. rewrite Rmult_0_r, Rmult_plus_distr_l in Co. unfold Rdiv in Co.
        replace (rdt t * ((density (same_order n) g q ps1 p - density (same_order n) g q ps p) * / rdt t)) with (density (same_order n) g q ps1 p - density (same_order n) g q ps p) in Co by (field; exact T). lra.
    + exists rho. split; [|exact R1]. apply (fcons _ _ _ _ _ _ _ F1). apply step_guards; assumption.
Qed.
Theorem run_gauss S t c mu n g q E0 B0 ps0 E1 B1 ps1 e0 b0 : fixed_order n -> proper g -> rdt t <> 0 -> c <> 0 -> mu <> 0 ->
  second_order S = true -> rdx t = hx g -> rdy t = hy g -> rdz t = hz g -> well_set S t ->
  run S t c mu n g q (E0, B0, ps0) (E1, B1, ps1) -> is_field (tg := fun x => x) S E0 e0 -> is_field (tg := fun x => x) S B0 b0 ->
  exists e1, is_field (tg := fun x => x) S E1 e1 /\ forall p, inner_bwd S t p ->
    div (bwd (formulas S t)) e1 p - density (same_order n) g q ps1 p * (mu * c ^ 2) = div (bwd (formulas S t)) e0 p - density (same_order n) g q ps0 p * (mu * c ^ 2).
Proof.
  intros O P T Hc Hm SO G1 G2 G3 W H FE FB. destruct (run_history S t c mu n g q _ _ O P T SO G1 G2 G3 H _ _ _ _ _ _ eq_refl eq_refl) as (rho & F1 & R1).
  destruct (history_e S t c mu E0 B0 _ E1 B1 rho e0 b0 W Hc Hm F1 FE FB) as (e1 & H1 & K). exists e1. split; [exact H1|]. intros p I. rewrite <- R1. exact (K p I).
Qed.
(** the same with the density that the charge deposition computes *)
Theorem run_gauss_law S t c mu n g q E0 B0 ps0 E1 B1 ps1 e0 b0 r0 r1 rho0 rho1 z0 z1 : fixed_order n -> proper g -> rdt t <> 0 -> c <> 0 -> mu <> 0 ->
  second_order S = true -> rdx t = hx g -> rdy t = hy g -> rdz t = hz g -> well_set S t ->
  run S t c mu n g q (E0, B0, ps0) (E1, B1, ps1) -> is_field (tg := fun x => x) S E0 e0 -> is_field (tg := fun x => x) S B0 b0 ->
  isg z0 (alo S) (ahi S) (fun _ => 0) -> charge_call (same_order n) true false g q ps0 z0 = Ret rho0 -> isg rho0 (alo S) (ahi S) r0 ->
  isg z1 (alo S) (ahi S) (fun _ => 0) -> charge_call (same_order n) true false g q ps1 z1 = Ret rho1 -> isg rho1 (alo S) (ahi S) r1 ->
  (forall p, inner_bwd S t p -> div (bwd (formulas S t)) e0 p = r0 p * (mu * c ^ 2)) ->
  exists e1, is_field (tg := fun x => x) S E1 e1 /\ forall p, inner_bwd S t p -> in_box (alo S) (ahi S) p = true -> div (bwd (formulas S t)) e1 p = r1 p * (mu * c ^ 2).
Proof.
  intros O P T Hc Hm SO G1 G2 G3 W H FE FB Hz0 C0 Hr0 Hz1 C1 Hr1 G0.
  destruct (run_gauss S t c mu n g q E0 B0 ps0 E1 B1 ps1 e0 b0 O P T Hc Hm SO G1 G2 G3 W H FE FB) as (e1 & H1 & K). exists e1. split; [exact H1|].
  intros p I B. specialize (K p I). rewrite (G0 p I) in K.
  pose proof (charge_density (same_order n) true false g q ps0 z0 rho0 _ _ _ P Hz0 C0) as D0. pose proof (charge_density (same_order n) true false g q ps1 z1 rho1 _ _ _ P Hz1 C1) as D1.
  rewrite (isg_eq _ _ _ _ _ Hr0 D0 p B) in K. rewrite (isg_eq _ _ _ _ _ Hr1 D1 p B). change (seen true false g ps0) with ps0 in K. change (seen true false g ps1) with ps1. lra.
Qed.
