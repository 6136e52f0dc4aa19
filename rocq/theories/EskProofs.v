(** The current deposition routines (proofs only). *)
From Coq Require Import ZArith Reals List Bool Lia Lra Psatz.
From Verif Require Import Cxx Num NumRX CxxLemmas Fortran FortranNum FortranLemmas Grid GridLemmas Pushers Deposit Esirkepov SpecYee YeeReal SpecDeposit SpecCurrent Splines Sums DepositProofs EskLoops EskReal EskCore.
Import ListNotations.
Local Open Scope R_scope.

Definition moves (dt : R) (ps : list rpart) : list (rpart * rpart) := map (fun a => (a, before_move dt a)) ps.

(** ** one particle *)
Lemma fdiv_one a : a <> 0 -> n_div (n_lit 1 0) (F a) = F (1 / a).
Proof. intros H. change (n_lit 1 0 : num FRX) with (F 1). apply fdiv. exact H. Qed.
Lemma dtsd_fin dt h : h <> 0 -> dtsd (F dt) (F h) = F (dt / h).
Proof. intros H. unfold dtsd. rewrite fdiv_one by exact H. cbn. f_equal. field. exact H. Qed.
Lemma invdt_fin dt a b : dt * a * b <> 0 -> invdt (F dt) (F a) (F b) = F (/ (dt * (a * b))).
Proof.
  intros H. unfold invdt. change (n_mul (n_mul (F dt) (F a)) (F b)) with (F (dt * a * b)). rewrite fdiv_one by exact H. f_equal. rewrite Rmult_assoc. unfold Rdiv. ring.
Qed.
Lemma weights_fin g q dt w : proper g -> dt <> 0 ->
  n_mul (n_mul (F q) (F w)) (invdt (F dt) (F (hy g)) (F (hz g))) = F (q * w / (dt * area g AX)) /\
  n_mul (n_mul (F q) (F w)) (invdt (F dt) (F (hx g)) (F (hz g))) = F (q * w / (dt * area g AY)) /\
  n_mul (n_mul (F q) (F w)) (invdt (F dt) (F (hx g)) (F (hy g))) = F (q * w / (dt * area g AZ)).
Proof.
  intros (P1 & P2 & P3) T. rewrite !invdt_fin by (repeat apply Rmult_integral_contrapositive_currified; assumption). split; [|split]; reflexivity.
Qed.
Lemma particle_core n lo hi g dt q a s : proper g -> dt <> 0 ->
  esk_particle n lo hi (geom_of g) (F dt) (F q) (pos_of a) (mom_of a) (weight_of a) s =
  core (C := Carry) esk_loops lo hi lo hi lo hi (same_order n) g q dt a (before_move dt a) s.
Proof.
  intros P T. pose proof P as (P1 & P2 & P3). unfold esk_particle, core. rewrite gridx_fin, gridy_fin, gridz_fin by assumption.
  cbn [geom_of g_dx g_dy g_dz]. rewrite !dtsd_fin by assumption. cbv zeta.
  destruct (weights_fin g q dt (rw a) P T) as (W1 & W2 & W3). unfold weight_of. rewrite W1, W2, W3.
  assert (E1 : n_sub (F (unit_x g (rpx a))) (n_mul (F (dt / hx g)) (n_mul (ux (mom_of a)) (gi (mom_of a)))) = F (unit_x g (rpx (before_move dt a)))).
  { cbn. f_equal. unfold unit_x, back. field. exact P1. }
  assert (E2 : n_sub (F (unit_y g (rpy a))) (n_mul (F (dt / hy g)) (n_mul (uy (mom_of a)) (gi (mom_of a)))) = F (unit_y g (rpy (before_move dt a)))).
  { cbn. f_equal. unfold unit_y, back. field. exact P2. }
  assert (E3 : n_sub (F (unit_z g (rpz a))) (n_mul (F (dt / hz g)) (n_mul (uz (mom_of a)) (gi (mom_of a)))) = F (unit_z g (rpz (before_move dt a)))).
  { cbn. f_equal. unfold unit_z, back. field. exact P3. }
  rewrite E1, E2, E3. reflexivity.
Qed.
Lemma particle_1_core g dt q a s : proper g -> dt <> 0 ->
  esk_particle_1 (geom_of g) (F dt) (F q) (pos_of a) (mom_of a) (weight_of a) s =
  core (C := Carry) esk_loops (-1) 2 (-1) 2 (-1) 2 (same_order 1) g q dt a (before_move dt a) s.
Proof.
  intros P T. rewrite <- particle_core by assumption. pose proof P as (P1 & P2 & P3).
  unfold esk_particle_1, esk_particle. rewrite gridx_fin, gridy_fin, gridz_fin by assumption. cbn [geom_of g_dx g_dy g_dz]. rewrite !dtsd_fin by assumption. cbv zeta.
  assert (A : forall u v w, n_mul (n_mul (F u) (F v)) (F w) = n_mul (F u) (n_mul (F v) (F w))) by (intros; cbn; f_equal; ring).
  unfold mom_of. cbn [ux uy uz gi]. rewrite !A. reflexivity.
Qed.

Lemma esk_all_fold {S} f (ps : list rpart) (s : S) :
  esk_all (N := FRX) (zlen ps) f (map pos_of ps) (map mom_of ps) (map weight_of ps) s = foldM (fun a => f (pos_of a) (mom_of a) (weight_of a)) ps s.
Proof.
  unfold esk_all. apply do_range_list. intros k a t Hk. rewrite !(get1_map _ _ k a Hk). reflexivity.
Qed.

(** the routines of fixed order *)
Notation cfold n g q dt ps s := (foldM (fun a : rpart * rpart => core (C := Carry) esk_loops (smin n - 1) (smax n + 1) (smin n - 1) (smax n + 1) (smin n - 1) (smax n + 1) (same_order n) g q dt (fst a) (snd a)) (moves dt ps) s).
Lemma fixed_fold n g q dt ps J : fixed_order n -> proper g -> dt <> 0 ->
  current_fixed n g q dt ps J = do s <- cfold n g q dt ps (J, carry0); Ret (fst s).
Proof.
  intros O P T. unfold moves. rewrite foldM_map. cbn [fst snd].
  destruct O; cbn [depose_fixed]; [unfold depose_jxjyjz_esirkepov_1_1_1 | unfold depose_jxjyjz_esirkepov_2_2_2 | unfold depose_jxjyjz_esirkepov_3_3_3];
    rewrite esk_all_fold; f_equal; apply foldM_ext; intros a s _; [apply particle_1_core | apply particle_core | apply particle_core]; assumption.
Qed.
Lemma fixed_known n : fixed_order n -> known (same_order n).
Proof. intros []; unfold known; cbn; lia. Qed.
Lemma loops_fine wx wy wz (X Y Z' : Ax (N := FRX)) : (imin X <= imax X + 1)%Z -> (imin Y <= imax Y + 1)%Z -> (imin Z' <= imax Z' + 1)%Z ->
  forall c, exists c', does (esk_loops wx wy wz X Y Z') (items3 wx wy wz X Y Z') c c'.
Proof. intros A B C c. apply loops_does; assumption. Qed.
Lemma loops_n_fine wx wy wz (X Y Z' : Ax (N := FRX)) : (imin X <= imax X + 1)%Z -> (imin Y <= imax Y + 1)%Z -> (imin Z' <= imax Z' + 1)%Z ->
  forall c, exists c', does (esk_loops_n wx wy wz X Y Z') (items3 wx wy wz X Y Z') c c'.
Proof. intros A B C c. apply loops_n_does; assumption. Qed.

Theorem fixed_sound n g q dt ps J J' lo hi j : fixed_order n -> proper g -> dt <> 0 -> holds J lo hi j ->
  current_fixed n g q dt ps J = Ret J' -> exists m, current (same_order n) g q dt lo hi (moves dt ps) m /\ holds J' lo hi (plus_field j m).
Proof.
  intros O P T H E. rewrite fixed_fold in E by assumption. destruct (cfold n g q dt ps (J, carry0)) as [[J1 c1]| | |] eqn:E1; try discriminate.
  injection E as <-. exact (cores_sound esk_loops loops_fine _ _ _ _ _ _ _ g q dt (fixed_known n O) _ _ _ _ _ _ _ _ H E1).
Qed.

(** ** the routine of arbitrary order *)
Lemma trunc_out x : (exists z, trunc32 (F x) = Ret z) \/ trunc32 (F x) = UB.
Proof.
  unfold trunc32, floor32. change (f_floor (F x)) with (Some (Int_part x)). change (f_floor (n_opp (F x))) with (Some (Int_part (- x))).
  cbv iota. destruct (n_lt _ _); match goal with |- context[if (?a <=? ?b)%Z && (?b <? ?c)%Z then _ else _] => destruct ((a <=? b)%Z && (b <? c)%Z)%bool end; cbn [bind]; eauto.
Qed.
Lemma trunc_pos x : 0 <= x <= 1000000000 -> trunc32 (F x) = Ret (Int_part x) /\ (0 <= Int_part x)%Z.
Proof.
  intros H. pose proof (Int_part_floor x) as B. assert ((-1 < Int_part x)%Z /\ (Int_part x < 2 ^ 31)%Z) as [B1 B2].
  { split; apply lt_IZR; [|change (IZR (2 ^ 31)) with 2147483648]; lra. }
  split; [|lia]. unfold trunc32. change (n_lt (F x) (n_of_Z 0)) with (Rltb x 0). unfold Rltb. destruct (Rlt_dec x 0); [lra|].
  apply floor_node'; [exact B|]. lia.
Qed.
Lemma bounds_fin K c dt h n : light c K -> h <> 0 -> bounds_n K (F dt) (F h) n = do t <- trunc32 (F (c * dt / h)); Ret (smin n - 1 - t, smax n + 1 + t)%Z.
Proof. intros E H. unfold bounds_n. rewrite E. change (n_mul (F c) (F dt)) with (F (c * dt)). rewrite fdiv by exact H. reflexivity. Qed.

Definition smoves (lw l4 : bool) (g : cells) (dt w1 : R) (ps : list rpart) : list (rpart * rpart) :=
  map (fun a => (sa lw l4 g w1 a, sa lw l4 g w1 (before_move dt a))) ps.
Lemma old_new_fin (l4 : bool) dts x v : dts <> 0 ->
  old_new l4 (F dts) (F x) (F v) = if l4 then (F (Rabs (x - dts * v)), F (Rabs x)) else (F (x - dts * v), F x).
Proof.
  intros H. unfold old_new. change (n_mul (F dts) (F v)) with (F (dts * v)). change (n_sub (F x) (F (dts * v))) with (F (x - dts * v)).
  change (n_of_Z 1 : num FRX) with (F 1). destruct l4.
  - change (n_fabs (F (x - dts * v))) with (F (Rabs (x - dts * v))). change (n_fabs (F x)) with (F (Rabs x)).
    change (n_sub (F (Rabs x)) (F (Rabs (x - dts * v)))) with (F (Rabs x - Rabs (x - dts * v))). rewrite !fdiv by (assumption || lra).
    f_equal. cbn. f_equal. field. exact H.
  - rewrite fdiv by lra. f_equal. cbn. f_equal. field.
Qed.
Lemma particle_n_core K c o lw l4 g dt q w1 a s bx by_ bz : light c K -> proper g -> dt <> 0 ->
  bounds_n K (F dt) (F (hx g)) (onx o) = Ret bx -> bounds_n K (F dt) (F (hy g)) (ony o) = Ret by_ -> bounds_n K (F dt) (F (hz g)) (onz o) = Ret bz ->
  esk_particle_n K (onx o) (ony o) (onz o) lw l4 (geom_of g) (F dt) (F q) (F w1) (pos_of a) (mom_of a) (weight_of a) s =
  core (C := Sums) esk_loops_n (fst bx) (snd bx) (fst by_) (snd by_) (fst bz) (snd bz) o g q dt (sa lw l4 g w1 a) (sa lw l4 g w1 (before_move dt a)) s.
Proof.
  intros Ek P T B1 B2 B3. pose proof P as (P1 & P2 & P3).
  assert (D : forall h, h <> 0 -> dt / h <> 0) by (intros h Hh; unfold Rdiv; apply Rmult_integral_contrapositive_currified; [exact T | apply Rinv_neq_0_compat; exact Hh]).
  unfold esk_particle_n, core. rewrite gridx_fin, gridy_fin, gridz_fin by assumption. cbn [geom_of g_dx g_dy g_dz]. rewrite !dtsd_fin by assumption.
  change (n_mul (ux (mom_of a)) (gi (mom_of a))) with (F (rux a * rgam a)). change (n_mul (uy (mom_of a)) (gi (mom_of a))) with (F (ruy a * rgam a)).
  change (n_mul (uz (mom_of a)) (gi (mom_of a))) with (F (ruz a * rgam a)).
  rewrite !old_new_fin by (apply D; assumption).
  assert (X1 : unit_x g (rpx a) - dt / hx g * (rux a * rgam a) = unit_x g (rpx (before_move dt a))) by (cbn; unfold unit_x, back; field; exact P1).
  assert (X2 : unit_y g (rpy a) - dt / hy g * (ruy a * rgam a) = unit_y g (rpy (before_move dt a))) by (cbn; unfold unit_y, back; field; exact P2).
  assert (X3 : unit_z g (rpz a) - dt / hz g * (ruz a * rgam a) = unit_z g (rpz (before_move dt a))) by (cbn; unfold unit_z, back; field; exact P3).
  rewrite X1, X2, X3. clear X1 X2 X3. rewrite B1, B2, B3.
  assert (W : (if lw then n_mul (F q) (weight_of a) else n_mul (F q) (F w1)) = n_mul (F q) (F (rw (sa lw l4 g w1 a)))) by (unfold sa; destruct lw, l4; reflexivity).
  rewrite W. destruct (weights_fin g q dt (rw (sa lw l4 g w1 a)) P T) as (W1 & W2 & W3). rewrite W1, W2, W3.
  generalize (F (q * rw (sa lw l4 g w1 a) / (dt * area g AX))), (F (q * rw (sa lw l4 g w1 a) / (dt * area g AY))), (F (q * rw (sa lw l4 g w1 a) / (dt * area g AZ))).
  intros v1 v2 v3. generalize (before_move dt a). intros b.
  destruct l4; cbn [bind]; unfold sa; destruct lw; unfold mirrored, weighted; cbn [rpx rpy rpz]; rewrite ?unit_x_back, ?unit_y_back by assumption; reflexivity.
Qed.

Definition sums0 : Sums (N := FRX) := mkSums (fun _ => n_lit 0 0) (fun _ => n_lit 0 0) (fun _ => n_lit 0 0).
Definition head_weight (ps : list rpart) : R := match ps with a :: _ => rw a | [] => 0 end.
Notation nfold lx ux ly uy lz uz o g q dt ms s := (foldM (fun a : rpart * rpart => core (C := Sums) esk_loops_n lx ux ly uy lz uz o g q dt (fst a) (snd a)) ms s).
Lemma n_fold K c o lw l4 g q dt ps J bx by_ bz : light c K -> proper g -> dt <> 0 ->
  bounds_n K (F dt) (F (hx g)) (onx o) = Ret bx -> bounds_n K (F dt) (F (hy g)) (ony o) = Ret by_ -> bounds_n K (F dt) (F (hz g)) (onz o) = Ret bz ->
  current_n K o lw l4 g q dt ps J = do s <- nfold (fst bx) (snd bx) (fst by_) (snd by_) (fst bz) (snd bz) o g q dt (smoves lw l4 g dt (head_weight ps) ps) (J, sums0); Ret (fst s).
Proof.
  intros Ek P T B1 B2 B3. unfold pxr_depose_jxjyjz_esirkepov_n. fold sums0. rewrite esk_all_fold. f_equal. unfold smoves. rewrite foldM_map. apply foldM_ext. cbn [fst snd].
  intros a s Ha. destruct ps as [|a0 ps]; [destruct Ha|]. change (get1 (map weight_of (a0 :: ps)) 1) with (Ret (F (rw a0))). cbn [bind head_weight].
  apply (particle_n_core K c); assumption.
Qed.
Lemma n_fold_ub K c o lw l4 g q dt ps J : light c K -> proper g -> dt <> 0 -> ps <> [] ->
  (trunc32 (F (c * dt / hx g)) = UB \/ trunc32 (F (c * dt / hy g)) = UB \/ trunc32 (F (c * dt / hz g)) = UB) -> current_n K o lw l4 g q dt ps J = UB.
Proof.
  intros Ek P T N B. pose proof P as (P1 & P2 & P3). destruct ps as [|a ps]; [congruence|]. unfold pxr_depose_jxjyjz_esirkepov_n. rewrite esk_all_fold. cbn [foldM].
  change (get1 (map weight_of (a :: ps)) 1) with (Ret (F (rw a))). cbn [bind].
  assert (Q : forall s, esk_particle_n K (onx o) (ony o) (onz o) lw l4 (geom_of g) (F dt) (F q) (F (rw a)) (pos_of a) (mom_of a) (weight_of a) s = UB).
  { intros s. unfold esk_particle_n. destruct (old_new _ _ _ _), (old_new _ _ _ _), (old_new _ _ _ _). cbn [geom_of g_dx g_dy g_dz].
    rewrite !(bounds_fin K c) by assumption. destruct B as [B|[B|B]]; rewrite B; cbn [bind]; [reflexivity| |].
    - destruct (trunc_out (c * dt / hx g)) as [(z & ->)|E]; [reflexivity | rewrite E; reflexivity].
    - destruct (trunc_out (c * dt / hx g)) as [(z & ->)|E]; [|rewrite E; reflexivity]. destruct (trunc_out (c * dt / hy g)) as [(z' & ->)|E]; [reflexivity | rewrite E; reflexivity]. }
  rewrite Q. reflexivity.
Qed.
Lemma smoves_fst lw l4 g dt ps : map fst (smoves lw l4 g dt (head_weight ps) ps) = seen lw l4 g ps.
Proof.
  destruct ps as [|a ps]; [unfold seen; destruct l4, lw; reflexivity|]. rewrite seen_sa. unfold smoves. rewrite map_map. reflexivity.
Qed.
Lemma smoves_snd lw l4 g dt ps : map snd (smoves lw l4 g dt (head_weight ps) ps) = seen lw l4 g (map (before_move dt) ps).
Proof.
  destruct ps as [|a ps]; [unfold seen; destruct l4, lw; reflexivity|]. cbn [map head_weight]. rewrite seen_sa. unfold smoves. rewrite map_map. cbn [map snd rw before_move].
  rewrite map_map. reflexivity.
Qed.
Theorem n_sound K c o lw l4 g q dt ps J J' lo hi j : light c K -> known o -> proper g -> dt <> 0 -> holds J lo hi j ->
  current_n K o lw l4 g q dt ps J = Ret J' ->
  exists m, current o g q dt lo hi (smoves lw l4 g dt (head_weight ps) ps) m /\ holds J' lo hi (plus_field j m).
Proof.
  intros Ek Kn P T H E. pose proof P as (P1 & P2 & P3). destruct ps as [|a0 ps0] eqn:Eps.
  { cbn in E. injection E as <-. exists (RField (fun _ => 0) (fun _ => 0) (fun _ => 0)). split; [apply current_nil|]. apply (holds_ext _ _ _ _ _ H).
    intros d p _. rewrite comp_plus. destruct d; cbn; symmetry; apply Rplus_0_r. }
  rewrite <- Eps in *. assert (N : ps <> []) by (rewrite Eps; discriminate). clear Eps a0 ps0.
  destruct (trunc_out (c * dt / hx g)) as [(t1 & B1)|B1]; [|rewrite (n_fold_ub K c) in E by auto; discriminate].
  destruct (trunc_out (c * dt / hy g)) as [(t2 & B2)|B2]; [|rewrite (n_fold_ub K c) in E by auto; discriminate].
  destruct (trunc_out (c * dt / hz g)) as [(t3 & B3)|B3]; [|rewrite (n_fold_ub K c) in E by auto; discriminate].
  rewrite (n_fold K c o lw l4 g q dt ps J (smin (onx o) - 1 - t1, smax (onx o) + 1 + t1)%Z (smin (ony o) - 1 - t2, smax (ony o) + 1 + t2)%Z (smin (onz o) - 1 - t3, smax (onz o) + 1 + t3)%Z) in E
    by (try assumption; rewrite (bounds_fin K c) by assumption; rewrite ?B1, ?B2, ?B3; reflexivity).
  match type of E with context[foldM ?f ?l ?s] => destruct (foldM f l s) as [[J1 c1]| | |] eqn:E1 end; try discriminate.
  injection E as <-. exact (cores_sound esk_loops_n loops_n_fine _ _ _ _ _ _ _ g q dt Kn _ _ _ _ _ _ _ _ H E1).
Qed.

(** ** when nothing is out of bounds *)
Lemma jump_one n x xo : found n x -> found n xo -> Rabs (x - xo) < 1 -> (-1 <= jump n x xo <= 1)%Z.
Proof.
  intros A B D. apply nod_is in A, B. unfold jump. apply Rabs_def2 in D. unfold is_node in *. destruct (_ =? _)%Z.
  - assert (C1 : Rabs (x - IZR (nod n x)) <= 1 / 2) by lra. assert (C2 : Rabs (xo - IZR (nod n xo)) <= 1 / 2) by lra. apply Rabs_le_inv in C1, C2.
    assert (nod n xo - nod n x < 2)%Z by (apply lt_IZR; rewrite minus_IZR; lra). assert (-2 < nod n xo - nod n x)%Z by (apply lt_IZR; rewrite minus_IZR; lra). lia.
  - assert (nod n xo - nod n x < 2)%Z by (apply lt_IZR; rewrite minus_IZR; lra). assert (-2 < nod n xo - nod n x)%Z by (apply lt_IZR; rewrite minus_IZR; lra). lia.
Qed.
Lemma jump_cells n x xo (t : Z) : found n x -> found n xo -> Rabs (x - xo) < IZR t + 1 -> (- (t + 1) <= jump n x xo <= t + 1)%Z.
Proof.
  intros A B D. apply nod_is in A, B. unfold jump. apply Rabs_def2 in D. unfold is_node in *. 
  assert (nod n xo - nod n x < t + 2 /\ - (t + 2) < nod n xo - nod n x)%Z; [|lia].
  destruct (_ =? _)%Z.
  - assert (C1 : Rabs (x - IZR (nod n x)) <= 1 / 2) by lra. assert (C2 : Rabs (xo - IZR (nod n xo)) <= 1 / 2) by lra. apply Rabs_le_inv in C1, C2.
    split; apply lt_IZR; rewrite ?opp_IZR, ?minus_IZR, ?plus_IZR; lra.
  - split; apply lt_IZR; rewrite ?opp_IZR, ?minus_IZR, ?plus_IZR; lra.
Qed.
Lemma jump_two n x xo : found n x -> found n xo -> 2 < Rabs (x - xo) -> ~ (-1 <= jump n x xo <= 1)%Z.
Proof.
  intros A B D [J1 J2]. apply nod_is in A, B. unfold jump in *. apply IZR_le in J1, J2. rewrite minus_IZR in *.
  revert D. apply Rle_not_lt. apply Rabs_le. unfold is_node in *. destruct (_ =? _)%Z.
  - assert (C1 : Rabs (x - IZR (nod n x)) <= 1 / 2) by lra. assert (C2 : Rabs (xo - IZR (nod n xo)) <= 1 / 2) by lra. apply Rabs_le_inv in C1, C2. lra.
  - lra.
Qed.
Lemma inside_in o g lo hi new old : known o -> inside o g lo hi new -> inside o g lo hi old ->
  (found (onx o) (unit_x g (rpx new)) /\ found (ony o) (unit_y g (rpy new)) /\ found (onz o) (unit_z g (rpz new))) /\
  (found (onx o) (unit_x g (rpx old)) /\ found (ony o) (unit_y g (rpy old)) /\ found (onz o) (unit_z g (rpz old))) /\ core_in lo hi o g new old.
Proof.
  intros (K1 & K2 & K3) A B.
  assert (Q : forall d, let '(a1, a2, a3) := lo d in let '(b1, b2, b3) := hi d in
    forall c, c = new \/ c = old -> (found (onx o) (unit_x g (rpx c)) /\ (a1 <= nod (onx o) (unit_x g (rpx c)) + smin (onx o))%Z /\ (nod (onx o) (unit_x g (rpx c)) + smax (onx o) <= b1)%Z) /\
      (found (ony o) (unit_y g (rpy c)) /\ (a2 <= nod (ony o) (unit_y g (rpy c)) + smin (ony o))%Z /\ (nod (ony o) (unit_y g (rpy c)) + smax (ony o) <= b2)%Z) /\
      (found (onz o) (unit_z g (rpz c)) /\ (a3 <= nod (onz o) (unit_z g (rpz c)) + smin (onz o))%Z /\ (nod (onz o) (unit_z g (rpz c)) + smax (onz o) <= b3)%Z)).
  { intros d. specialize (A d). specialize (B d). destruct (lo d) as [[a1 a2] a3], (hi d) as [[b1 b2] b3]. destruct A as [M (A1 & A2 & A3)], B as [_ (B1 & B2 & B3)]. cbn in M.
    intros c [->| ->]; (split; [|split]); apply fits_node; (assumption || lia). }
  pose proof (Q AX) as QX. destruct (lo AX) as [[a1 a2] a3], (hi AX) as [[b1 b2] b3].
  destruct (QX new (or_introl eq_refl)) as ((F1 & _) & (F2 & _) & (F3 & _)). destruct (QX old (or_intror eq_refl)) as ((G1 & _) & (G2 & _) & (G3 & _)).
  split; [auto|]. split; [auto|]. intros d. specialize (Q d). destruct (lo d) as [[c1 c2] c3], (hi d) as [[d1 d2] d3].
  pose proof (Q new (or_introl eq_refl)) as Q1. pose proof (Q old (or_intror eq_refl)) as Q2. unfold span.
  destruct (axis_eqb d AX), (axis_eqb d AY), (axis_eqb d AZ); lia.
Qed.
Theorem fixed_inside n g q dt ps J lo hi j : fixed_order n -> proper g -> dt <> 0 -> holds J lo hi j ->
  (forall a, In a ps -> inside (same_order n) g lo hi a /\ inside (same_order n) g lo hi (before_move dt a) /\ small_step g dt a) ->
  exists J', current_fixed n g q dt ps J = Ret J'.
Proof.
  intros O P T H A. rewrite fixed_fold by assumption. pose proof (fixed_known n O) as K.
  destruct (cores_complete esk_loops loops_fine (smin n - 1) (smax n + 1) (smin n - 1) (smax n + 1) (smin n - 1) (smax n + 1) (same_order n) g q dt K (moves dt ps) J carry0 lo hi j H) as (J' & c' & E).
  - intros [nw ol] I. unfold moves in I. apply in_map_iff in I. destruct I as (a & Ea & Ia). injection Ea as <- <-. destruct (A a Ia) as (I1 & I2 & S). cbn [fst snd].
    destruct (inside_in _ _ _ _ _ _ K I1 I2) as ((F1 & F2 & F3) & (G1 & G2 & G3) & C). split; [|exact C].
    pose proof (jump_one _ _ _ F1 G1 (S AX)). pose proof (jump_one _ _ _ F2 G2 (S AY)). pose proof (jump_one _ _ _ F3 G3 (S AZ)).
    unfold core_ok, ax_ok. cbn [same_order onx ony onz] in *. repeat (split; [first [assumption | lia] |]). lia || (repeat split; first [assumption | lia]).
  - rewrite E. cbn [bind fst]. exists J'. reflexivity.
Qed.
Theorem fixed_too_far n g q dt ps J lo hi j a d : fixed_order n -> proper g -> dt <> 0 -> holds J lo hi j -> In a ps ->
  2 < Rabs (unit_on g d a - unit_on g d (before_move dt a)) -> current_fixed n g q dt ps J = UB.
Proof.
  intros O P T H I D. rewrite fixed_fold by assumption. pose proof (fixed_known n O) as K.
  assert (E : cfold n g q dt ps (J, carry0) = UB).
  { apply (cores_ub esk_loops loops_fine _ _ _ _ _ _ _ g q dt K (moves dt ps) J carry0 lo hi j (a, before_move dt a) H); [unfold moves; apply in_map_iff; eauto|].
    cbn [fst snd]. intros (A1 & A2 & A3). unfold ax_ok in *. cbn [same_order onx ony onz] in *.
    destruct d; cbn [unit_on] in D;
      [destruct A1 as (Fa & Fb & B) | destruct A2 as (Fa & Fb & B) | destruct A3 as (Fa & Fb & B)]; apply (jump_two n _ _ Fa Fb D); lia. }
  rewrite E. reflexivity.
Qed.
Theorem n_inside K c o lw l4 g q dt ps J lo hi j : light c K -> known o -> proper g -> dt <> 0 -> holds J lo hi j ->
  (forall d, 0 <= c * dt / width g d <= 1000000000) ->
  (forall nw ol, In (nw, ol) (combine (seen lw l4 g ps) (seen lw l4 g (map (before_move dt) ps))) ->
     inside o g lo hi nw /\ inside o g lo hi ol /\ forall d, Rabs (unit_on g d nw - unit_on g d ol) <= c * dt / width g d) ->
  exists J', current_n K o lw l4 g q dt ps J = Ret J'.
Proof.
  intros Ek Kn P T H B A. pose proof P as (P1 & P2 & P3).
  destruct (trunc_pos _ (B AX)) as [T1 U1]. destruct (trunc_pos _ (B AY)) as [T2 U2]. destruct (trunc_pos _ (B AZ)) as [T3 U3]. cbn [width] in *.
  set (t1 := Int_part (c * dt / hx g)) in *. set (t2 := Int_part (c * dt / hy g)) in *. set (t3 := Int_part (c * dt / hz g)) in *.
  rewrite (n_fold K c o lw l4 g q dt ps J (smin (onx o) - 1 - t1, smax (onx o) + 1 + t1)%Z (smin (ony o) - 1 - t2, smax (ony o) + 1 + t2)%Z (smin (onz o) - 1 - t3, smax (onz o) + 1 + t3)%Z)
    by (try assumption; rewrite (bounds_fin K c) by assumption; rewrite ?T1, ?T2, ?T3; reflexivity). cbn [fst snd].
  destruct (cores_complete esk_loops_n loops_n_fine (smin (onx o) - 1 - t1) (smax (onx o) + 1 + t1) (smin (ony o) - 1 - t2) (smax (ony o) + 1 + t2) (smin (onz o) - 1 - t3) (smax (onz o) + 1 + t3)
     o g q dt Kn (smoves lw l4 g dt (head_weight ps) ps) J sums0 lo hi j H) as (J' & c' & E).
  - intros [nw ol] I. cbn [fst snd]. destruct (A nw ol) as (I1 & I2 & S).
    { rewrite <- (smoves_fst lw l4 g dt ps), <- (smoves_snd lw l4 g dt ps). revert I. generalize (smoves lw l4 g dt (head_weight ps) ps). intros l.
      induction l as [|[u v] l IH]; cbn; [tauto|]. intros [E|E]; [left; exact E | right; auto]. }
    destruct (inside_in _ _ _ _ _ _ Kn I1 I2) as ((F1 & F2 & F3) & (G1 & G2 & G3) & C). split; [|exact C].
    pose proof (Int_part_floor (c * dt / hx g)) as V1. pose proof (Int_part_floor (c * dt / hy g)) as V2. pose proof (Int_part_floor (c * dt / hz g)) as V3.
    fold t1 in V1. fold t2 in V2. fold t3 in V3.
    pose proof (S AX) as SX. pose proof (S AY) as SY. pose proof (S AZ) as SZ. cbn [unit_on width] in SX, SY, SZ.
    pose proof (jump_cells _ _ _ t1 F1 G1 ltac:(lra)). pose proof (jump_cells _ _ _ t2 F2 G2 ltac:(lra)). pose proof (jump_cells _ _ _ t3 F3 G3 ltac:(lra)).
    unfold core_ok, ax_ok. repeat (split; [first [assumption | lia | (repeat split; first [assumption | lia])] |]). first [lia | (repeat split; first [assumption | lia])].
  - rewrite E. cbn [bind fst]. exists J'. reflexivity.
Qed.

(** ** the routines agree *)
Lemma axis_more {N : FNum} n lo hi lo' hi' (x xo : num N) A : (lo' <= lo)%Z -> (hi <= hi')%Z -> axis_shapes n lo hi x xo = Ret A -> axis_shapes n lo' hi' x xo = Ret A.
Proof.
  intros L H. unfold axis_shapes. destruct (node n x) as [i0| | |]; try discriminate. cbn [bind]. destruct (node n xo) as [i| | |]; try discriminate. cbn [bind].
  match goal with |- (if ?b then _ else _) = _ -> _ => destruct b eqn:E; [|discriminate] end. rewrite !andb_true_iff, !Z.leb_le in E.
  match goal with |- _ -> (if ?b then _ else _) = _ => replace b with true by (symmetry; rewrite !andb_true_iff, !Z.leb_le; lia) end. trivial.
Qed.
Lemma core_same l1 u1 l2 u2 l3 u3 l1' u1' l2' u2' l3' u3' o g q dt nw ol J c J1 c1 c' : known o ->
  (l1' <= l1 /\ u1 <= u1' /\ l2' <= l2 /\ u2 <= u2' /\ l3' <= l3 /\ u3 <= u3')%Z ->
  core (C := Carry) esk_loops l1 u1 l2 u2 l3 u3 o g q dt nw ol (J, c) = Ret (J1, c1) ->
  exists c2, core (C := Sums) esk_loops_n l1' u1' l2' u2' l3' u3' o g q dt nw ol (J, c') = Ret (J1, c2).
Proof.
  intros (K1 & K2 & K3) B E.
  destruct (core_ok_dec l1 u1 l2 u2 l3 u3 o g nw ol) as [(O1 & O2 & O3)|O]; [|rewrite core_ub in E by (try assumption; unfold known; auto); discriminate].
  destruct (ax_ret _ _ _ _ _ K1 O1) as (X & EX & RX & _). destruct (ax_ret _ _ _ _ _ K2 O2) as (Y & EY & RY & _). destruct (ax_ret _ _ _ _ _ K3 O3) as (Z' & EZ & RZ & _).
  unfold core in *. rewrite EX, EY, EZ in E. cbn [bind] in E.
  rewrite (axis_more (onx o) l1 u1 l1' u1' _ _ X ltac:(lia) ltac:(lia) EX), (axis_more (ony o) l2 u2 l2' u2' _ _ Y ltac:(lia) ltac:(lia) EY), (axis_more (onz o) l3 u3 l3' u3' _ _ Z' ltac:(lia) ltac:(lia) EZ). cbn [bind].
  pose proof (ra_le _ _ _ _ RX). pose proof (ra_le _ _ _ _ RY). pose proof (ra_le _ _ _ _ RZ).
  set (wx := F (q * rw nw / (dt * area g AX))) in *. set (wy := F (q * rw nw / (dt * area g AY))) in *. set (wz := F (q * rw nw / (dt * area g AZ))) in *.
  destruct (loops_fine wx wy wz X Y Z' ltac:(lia) ltac:(lia) ltac:(lia) c) as (d1 & D1). destruct (loops_n_fine wx wy wz X Y Z' ltac:(lia) ltac:(lia) ltac:(lia) c') as (d2 & D2).
  rewrite (D1 J) in E. rewrite (D2 J). destruct (run3 _ J); try discriminate. cbn [bind] in *. injection E as <- _. exists d2. reflexivity.
Qed.
Theorem fixed_is_n K c n g q dt ps J J' : light c K -> fixed_order n -> proper g -> dt <> 0 -> (forall d, 0 <= c * dt / width g d <= 1000000000) ->
  current_fixed n g q dt ps J = Ret J' -> current_n K (same_order n) true false g q dt ps J = Ret J'.
Proof.
  intros Ek O P T B E. pose proof P as (P1 & P2 & P3). rewrite fixed_fold in E by assumption. pose proof (fixed_known n O) as Kn.
  destruct (trunc_pos _ (B AX)) as [T1 U1]. destruct (trunc_pos _ (B AY)) as [T2 U2]. destruct (trunc_pos _ (B AZ)) as [T3 U3]. cbn [width] in *.
  set (t1 := Int_part (c * dt / hx g)) in *. set (t2 := Int_part (c * dt / hy g)) in *. set (t3 := Int_part (c * dt / hz g)) in *.
  rewrite (n_fold K c (same_order n) true false g q dt ps J (smin n - 1 - t1, smax n + 1 + t1)%Z (smin n - 1 - t2, smax n + 1 + t2)%Z (smin n - 1 - t3, smax n + 1 + t3)%Z)
    by (try assumption; cbn [same_order onx ony onz]; rewrite (bounds_fin K c) by assumption; rewrite ?T1, ?T2, ?T3; reflexivity). cbn [fst snd].
  assert (M : smoves true false g dt (head_weight ps) ps = moves dt ps) by reflexivity. rewrite M.
  destruct (cfold n g q dt ps (J, carry0)) as [[J1 c1]| | |] eqn:E1; try discriminate. injection E as <-. cbn [fst].
  assert (Q : forall ms J c J1 c1 c', foldM (fun a : rpart * rpart => core (C := Carry) esk_loops (smin n - 1) (smax n + 1) (smin n - 1) (smax n + 1) (smin n - 1) (smax n + 1) (same_order n) g q dt (fst a) (snd a)) ms (J, c) = Ret (J1, c1) ->
     exists c2, nfold (smin n - 1 - t1)%Z (smax n + 1 + t1)%Z (smin n - 1 - t2)%Z (smax n + 1 + t2)%Z (smin n - 1 - t3)%Z (smax n + 1 + t3)%Z (same_order n) g q dt ms (J, c') = Ret (J1, c2)).
  { induction ms as [|a ms IH]; intros J0 c0 J2 c2 c' E; [cbn in E; injection E as <- _; exists c'; reflexivity|].
    cbn [foldM] in *. match type of E with (do s' <- ?m; _) = _ => destruct m as [[J3 c3]| | |] eqn:E3 end; try discriminate. cbn [bind] in E.
    destruct (core_same (smin n - 1) (smax n + 1) (smin n - 1) (smax n + 1) (smin n - 1) (smax n + 1) (smin n - 1 - t1) (smax n + 1 + t1) (smin n - 1 - t2) (smax n + 1 + t2) (smin n - 1 - t3) (smax n + 1 + t3) _ _ _ _ _ _ _ _ _ _ c' Kn ltac:(lia) E3) as (c4 & E4).
    rewrite E4. cbn [bind]. exact (IH _ _ _ _ _ E). }
  destruct (Q _ _ _ _ _ sums0 E1) as (c2 & E2). rewrite E2. reflexivity.
Qed.
