(** Proofs about histories of calls on engines (C39) and clones (C40). *)
From Coq Require Import ZArith List Bool Lia.
From Verif Require Import Cxx Num CxxLemmas Utilities LookupTables VecFun Units ChiFun Oracles OmpFor BreitWheeler QuantumSync Schwinger EngineCalls.
From Verif Require Import SpecQED SpecEngines PairProofs UtilitiesProofs.
Import ListNotations.

(** ** programs with several engines *)
Section Programs.
Context {E C A : Type} (sem : C -> E -> out (A * E)) (cp : E -> E).
Local Notation prog := (program sem cp).

Lemma answers_app i (l l' : list (nat * A)) : answers_of i (l ++ l') = answers_of i l ++ answers_of i l'.
Proof. unfold answers_of. now rewrite filter_app, map_app. Qed.

Lemma program_isolated h : forall pool ans pool' i x,
  prog h pool = Ret (ans, pool') -> nth_error pool i = Some x -> never_assigned i h ->
  exists x', run sem (calls_on i h) x = Ret (answers_of i ans, x') /\ nth_error pool' i = Some x'.
Proof.
  induction h as [|a h IH]; intros pool ans pool' i x HR Hx Hn.
  - injection HR as <- <-. exists x. auto.
  - cbn [program] in HR. destruct (step sem cp a pool) as [[l p1]| | |] eqn:ES; try discriminate.
    cbn [bind] in HR.  destruct (prog h p1) as [[l' p2]| | |] eqn:EP; try discriminate.
    cbn [bind] in HR. injection HR as <- <-.
    assert (Hn' : never_assigned i h). { intros d s Hin. apply (Hn d s). now right. }
    rewrite answers_app. destruct a as [j c|j|d s]; cbn [step] in ES.
    + destruct (nth_error pool j) as [y|] eqn:Ej; [|discriminate].
      destruct (sem c y) as [[v y']| | |] eqn:Ec; try discriminate. injection ES as <- <-.
      cbn [calls_on]. destruct (Nat.eqb_spec i j) as [->|Hij].
      * rewrite Hx in Ej. injection Ej as <-.
        assert (Hlt : (j < length pool)%nat) by (apply nth_error_Some; congruence).
        destruct (IH _ _ _ j y' EP (lset_same pool j y' Hlt) Hn') as (x' & Hr & Hx').
        exists x'. split; [|exact Hx']. cbn [run]. rewrite Ec. cbn [bind]. rewrite Hr. cbn [bind].
        unfold answers_of at 2. cbn [filter map fst]. now rewrite Nat.eqb_refl.
      * assert (Hx2 : nth_error (lset pool j y') i = Some x) by (rewrite lset_other; auto).
        destruct (IH _ _ _ i x EP Hx2 Hn') as (x' & Hr & Hx'). exists x'. split; [|exact Hx'].
        rewrite Hr. unfold answers_of at 2. cbn [filter map fst]. apply Nat.eqb_neq in Hij. now rewrite Hij.
    + destruct (nth_error pool j) as [y|] eqn:Ej; [|discriminate]. injection ES as <- <-.
      assert (Hx2 : nth_error (pool ++ [cp y]) i = Some x).
      { rewrite nth_error_app1; [exact Hx|]. apply nth_error_Some. congruence. }
      exact (IH _ _ _ i x EP Hx2 Hn').
    + destruct (nth_error pool d) as [z|] eqn:Ed; [|discriminate].
      destruct (nth_error pool s) as [y|] eqn:Es; [|discriminate]. injection ES as <- <-.
      assert (Hd : d <> i) by (apply (Hn d s); now left).
      assert (Hx2 : nth_error (lset pool d (cp y)) i = Some x) by (rewrite lset_other; auto).
      exact (IH _ _ _ i x EP Hx2 Hn').
Qed.

Lemma program_app h1 h2 pool : prog (h1 ++ h2) pool =
  do '(l, p) <- prog h1 pool; do '(l', p') <- prog h2 p; Ret (l ++ l', p').
Proof.
  revert pool. induction h1 as [|a h IH]; intros pool.
  - cbn [app bind program].  destruct (prog h2 pool) as [[l p]| | |]; reflexivity.
  - cbn [app]. cbn [program]. 
    destruct (step sem cp a pool) as [[l p]| | |]; cbn [bind]; auto.
    rewrite IH. destruct (prog h p) as [[l' p']| | |]; cbn [bind]; auto.
    destruct (prog h2 p') as [[l'' p'']| | |]; cbn [bind]; auto. now rewrite app_assoc.
Qed.

(** two engines in the same state, given the same calls, give the same answers *)
Lemma program_twins h pool ans pool' i j x :
  prog h pool = Ret (ans, pool') -> nth_error pool i = Some x -> nth_error pool j = Some x ->
  never_assigned i h -> never_assigned j h -> calls_on i h = calls_on j h ->
  answers_of i ans = answers_of j ans /\ nth_error pool' i = nth_error pool' j.
Proof.
  intros HR Hi Hj Ni Nj Hc.
  destruct (program_isolated _ _ _ _ _ _ HR Hi Ni) as (x1 & R1 & P1).
  destruct (program_isolated _ _ _ _ _ _ HR Hj Nj) as (x2 & R2 & P2).
  rewrite Hc, R2 in R1. injection R1 as -> ->. now rewrite P1, P2.
Qed.

(** ... in different programs *)
Lemma program_replay h h2 pool pool2 ans ans2 pool' pool2' i j x :
  prog h pool = Ret (ans, pool') -> prog h2 pool2 = Ret (ans2, pool2') ->
  nth_error pool i = Some x -> nth_error pool2 j = Some x ->
  never_assigned i h -> never_assigned j h2 -> calls_on i h = calls_on j h2 ->
  answers_of i ans = answers_of j ans2.
Proof.
  intros HR HR2 Hi Hj Ni Nj Hc.
  destruct (program_isolated _ _ _ _ _ _ HR Hi Ni) as (x1 & R1 & P1).
  destruct (program_isolated _ _ _ _ _ _ HR2 Hj Nj) as (x2 & R2 & P2).
  rewrite Hc, R2 in R1. now injection R1 as -> ->.
Qed.

Hypothesis cp_id : forall x, cp x = x.

Lemma program_copy h1 h2 pool ans pool' i :
  prog (h1 ++ CopyOf i :: h2) pool = Ret (ans, pool') ->
  exists ans1 ans2 p1, ans = ans1 ++ ans2 /\ prog h1 pool = Ret (ans1, p1) /\
  (i < length p1)%nat /\
  (never_assigned i h2 -> never_assigned (length p1) h2 -> calls_on i h2 = calls_on (length p1) h2 ->
   answers_of i ans2 = answers_of (length p1) ans2).
Proof.
  intros HR. rewrite program_app in HR. destruct (prog h1 pool) as [[l p]| | |] eqn:E1; try discriminate.
  cbn [bind] in HR. cbn [program step] in HR. 
  destruct (nth_error p i) as [x|] eqn:Ei; [|discriminate]. cbn [bind] in HR.
  destruct (prog h2 (p ++ [cp x])) as [[l' p']| | |] eqn:E2; try discriminate. cbn [bind] in HR.
  injection HR as <- <-. assert (Hlt : (i < length p)%nat) by (apply nth_error_Some; congruence).
  exists l, l', p. repeat split; auto. intros Ni Nj Hc. rewrite cp_id in E2.
  refine (proj1 (program_twins _ _ _ _ _ _ x E2 _ _ Ni Nj Hc)).
  - rewrite nth_error_app1; auto.
  - rewrite nth_error_app2 by lia. now rewrite Nat.sub_diag.
Qed.

Lemma program_assign h1 h2 pool ans pool' d s :
  prog (h1 ++ Assign d s :: h2) pool = Ret (ans, pool') ->
  exists ans1 ans2 p1, ans = ans1 ++ ans2 /\ prog h1 pool = Ret (ans1, p1) /\
  (never_assigned d h2 -> never_assigned s h2 -> calls_on d h2 = calls_on s h2 ->
   answers_of d ans2 = answers_of s ans2).
Proof.
  intros HR. rewrite program_app in HR. destruct (prog h1 pool) as [[l p]| | |] eqn:E1; try discriminate.
  cbn [bind] in HR. cbn [program step] in HR. 
  destruct (nth_error p d) as [z|] eqn:Ed; [|discriminate].
  destruct (nth_error p s) as [x|] eqn:Es; [|discriminate]. cbn [bind] in HR.
  destruct (prog h2 (lset p d (cp x))) as [[l' p']| | |] eqn:E2; try discriminate. cbn [bind] in HR.
  injection HR as <- <-. assert (Hlt : (d < length p)%nat) by (apply nth_error_Some; congruence).
  exists l, l', p. repeat split; auto. intros Ni Nj Hc. rewrite cp_id in E2.
  refine (proj1 (program_twins _ _ _ _ _ _ x E2 _ _ Ni Nj Hc)).
  - now apply lset_same.
  - destruct (Nat.eq_dec d s) as [->|Hne]; [now apply lset_same|]. rewrite lset_other; auto.
Qed.
End Programs.

(** ** what a history leaves behind *)
Section Histories.
Context {N : NumOps}.

Lemma drawn_app (G : Rng N) a b s : drawn G (a ++ b) s = drawn G b (drawn G a s).
Proof. revert s. induction a as [|[|] a IH]; intros s; cbn; auto. Qed.

Lemma drawn_unf (G : Rng N) n s : drawn G (repeat DUnf n) s = nth_state G n s.
Proof. revert s. induction n as [|n IH]; intros s; cbn; auto. Qed.

Ltac bust H := repeat match type of H with (do _ <- ?m; _) = _ => destruct m eqn:?; try discriminate; cbn [bind] in H
  | (let '(_, _) := ?m in _) = _ => destruct m eqn:?; cbn [bind] in H end.

Lemma bw_history si (Orc : Oracles N) (G : Rng N) h : forall x ans x',
  run (bw_call (units si) Orc G) h x = Ret (ans, x') ->
  be_lambda x' = (if si then be_lambda x else last_lambda h (be_lambda x)) /\
  be_ctrl x' = be_ctrl x /\
  be_rng x' = drawn G (flat_map draws h) (be_rng x) /\
  be_TT x' = last_rate_table (bw_dN_dt_table Orc (be_ctrl x)) h (be_TT x) /\
  last_cum_table (bw_cumulative_table Orc (be_ctrl x)) h (be_cum x) (be_cum x').
Proof.
  induction h as [|c h IH]; intros x ans x' HR.
  - injection HR as <- <-. cbn. destruct si; auto.
  - cbn [run] in HR. destruct (bw_call (units si) Orc G c x) as [[a x1]| | |] eqn:EC; try discriminate. cbn [bind] in HR.
    destruct (run (bw_call (units si) Orc G) h x1) as [[l x2]| | |] eqn:ER; try discriminate. cbn [bind] in HR.
    injection HR as <- <-. specialize (IH _ _ _ ER). destruct IH as (H1 & H2 & H3 & H4 & H5).
    cbn [flat_map]. rewrite drawn_app.
    destruct c; cbn [bw_call] in EC; cbn [draws drawn last_lambda last_rate_table last_cum_table].
    + injection EC as <- <-. repeat split; auto.
    + injection EC as <- <-. unfold bw_set_lambda in *. destruct si; cbn in *; repeat split; auto.
    + unfold bw_get_optical_depth in EC. destruct (rng_exp G (be_rng x) n_one) as [v r] eqn:Er. injection EC as <- <-.
      cbn in *. repeat split; auto.
    + injection EC as <- <-. repeat split; auto.
    + injection EC as <- <-. unfold bw_make_dN_dt_table in *. cbn in *. repeat split; auto.
    + bust EC. injection EC as <- <-. repeat split; auto.
    + bust EC. injection EC as <- <-. repeat split; auto.
    + injection EC as <- <-. repeat split; auto.
    + bust EC. injection EC as <- <-. unfold bw_make_cum_table in *.
      match goal with H : (do _ <- ?m; _) = Ret _ |- _ => destruct m eqn:E1; try discriminate; injection H as <- end.
      cbn in *. repeat split; auto. eauto.
    + bust EC. injection EC as <- <-. unfold bw_generate in *.
      match goal with H : (let '(_, _) := draw_unf G ?n ?s in _) = Ret _ |- _ =>
        pose proof (draw_unf_state G n s) as Hd; destruct (draw_unf G n s) as [us r] eqn:Ed; bust H; injection H as <- <- end.
      subst. cbn in Hd. rewrite drawn_unf, <- Hd.
      cbn in *. repeat split; auto.
    + injection EC as <- <-. cbn in *. repeat split; auto.
    + injection EC as <- <-. cbn in *. repeat split; auto.
Qed.

Lemma qs_history si (Orc : Oracles N) (G : Rng N) h : forall x ans x',
  run (qs_call (units si) Orc G) h x = Ret (ans, x') ->
  qe_lambda x' = (if si then qe_lambda x else last_lambda h (qe_lambda x)) /\
  qe_ctrl x' = qe_ctrl x /\
  qe_rng x' = drawn G (flat_map draws h) (qe_rng x) /\
  qe_KK x' = last_rate_table (qs_dN_dt_table Orc (qe_ctrl x)) h (qe_KK x) /\
  last_cum_table (qs_cumulative_table Orc (qe_ctrl x)) h (qe_cum x) (qe_cum x').
Proof.
  induction h as [|c h IH]; intros x ans x' HR.
  - injection HR as <- <-. cbn. destruct si; auto.
  - cbn [run] in HR. destruct (qs_call (units si) Orc G c x) as [[a x1]| | |] eqn:EC; try discriminate. cbn [bind] in HR.
    destruct (run (qs_call (units si) Orc G) h x1) as [[l x2]| | |] eqn:ER; try discriminate. cbn [bind] in HR.
    injection HR as <- <-. specialize (IH _ _ _ ER). destruct IH as (H1 & H2 & H3 & H4 & H5).
    cbn [flat_map]. rewrite drawn_app.
    destruct c; cbn [qs_call] in EC; cbn [draws drawn last_lambda last_rate_table last_cum_table].
    + injection EC as <- <-. repeat split; auto.
    + injection EC as <- <-. unfold qs_set_lambda in *. destruct si; cbn in *; repeat split; auto.
    + unfold qs_get_optical_depth in EC. destruct (rng_exp G (qe_rng x) n_one) as [v r] eqn:Er. injection EC as <- <-.
      cbn in *. repeat split; auto.
    + injection EC as <- <-. repeat split; auto.
    + injection EC as <- <-. unfold qs_make_dN_dt_table in *. cbn in *. repeat split; auto.
    + bust EC. injection EC as <- <-. repeat split; auto.
    + bust EC. injection EC as <- <-. repeat split; auto.
    + injection EC as <- <-. repeat split; auto.
    + bust EC. injection EC as <- <-. unfold qs_make_cum_table in *.
      match goal with H : (do _ <- ?m; _) = Ret _ |- _ => destruct m eqn:E1; try discriminate; injection H as <- end.
      cbn in *. repeat split; auto. eauto.
    + bust EC. injection EC as <- <-. unfold qs_generate in *.
      match goal with H : (let '(_, _) := draw_unf G ?n ?s in _) = Ret _ |- _ =>
        pose proof (draw_unf_state G n s) as Hd; destruct (draw_unf G n s) as [us r] eqn:Ed; bust H; injection H as <- <- end.
      subst. cbn in Hd. rewrite drawn_unf, <- Hd.
      cbn in *. repeat split; auto.
    + injection EC as <- <-. cbn in *. repeat split; auto.
    + injection EC as <- <-. cbn in *. repeat split; auto.
Qed.

Lemma sw_history si (G : Rng N) h : forall x ans x',
  run (sw_call (units si) G) h x = Ret (ans, x') ->
  se_lambda x' = (if si then se_lambda x else fold_left (fun l c => match c with SSetLambda l' => l' | _ => l end) h (se_lambda x)) /\
  se_rng x' = nth_state G (3 * length (filter (fun c => match c with SPosition => true | _ => false end) h)) (se_rng x).
Proof.
  induction h as [|c h IH]; intros x ans x' HR.
  - injection HR as <- <-. cbn. destruct si; auto.
  - cbn [run] in HR. destruct (sw_call (units si) G c x) as [[a x1]| | |] eqn:EC; try discriminate. cbn [bind] in HR.
    destruct (run (sw_call (units si) G) h x1) as [[l x2]| | |] eqn:ER; try discriminate. cbn [bind] in HR.
    injection HR as <- <-. specialize (IH _ _ _ ER). destruct IH as (H1 & H2).
    destruct c; cbn [sw_call] in EC; cbn [fold_left filter].
    + injection EC as <- <-. auto.
    + injection EC as <- <-. unfold sw_set_lambda in *. destruct si; cbn in *; auto.
    + injection EC as <- <-. auto.
    + unfold sw_new_position in EC. pose proof (draw_unf_state G 3 (se_rng x)) as Hd.
      destruct (draw_unf G 3 (se_rng x)) as [us r] eqn:Ed. injection EC as <- <-. cbn [snd se_lambda se_rng] in *.
      split; [destruct si; auto|]. rewrite H2, Hd. cbn [length].
      rewrite Nat.mul_succ_r, Nat.add_comm. reflexivity.
Qed.

(** ** clones *)
Lemma raw_1d (t : lookup_1d N) : rate_table_ok t -> lookup_1d_raw (zlen (t1_coords t)) (t1_coords t) (t1_data t) = t.
Proof.
  intros (Hi & Hl). destruct t as [c d i]. cbn in *. subst i. unfold lookup_1d_raw, zlen. rewrite Nat2Z.id.
  rewrite firstn_all, <- Hl, firstn_all. reflexivity.
Qed.

Lemma raw_2d (t : lookup_2d N) : cum_table_ok t ->
  lookup_2d_raw (zlen (t2_x t)) (t2_x t) (zlen (t2_y t)) (t2_y t) (t2_data t) = t.
Proof.
  intros (Hi & Hl & Hs). destruct t as [x y d i]. cbn in *. subst i. unfold lookup_2d_raw, zlen. rewrite !Nat2Z.id, !firstn_all.
  rewrite <- Nat2Z.inj_mul, <- Hl. unfold wrap64. rewrite Z.mod_small by lia. now rewrite Nat2Z.id, firstn_all.
Qed.

Lemma bw_clone_same (G : Rng N) (x : bw_engine G) : rate_table_ok (be_TT x) -> cum_table_ok (be_cum x) ->
  bw_of_innards G (bw_export_innards G x) = x.
Proof. intros H1 H2. destruct x as [l r c t1 t2]. unfold bw_of_innards. cbn in *. now rewrite raw_1d, raw_2d. Qed.

Lemma qs_clone_same (G : Rng N) (x : qs_engine G) : rate_table_ok (qe_KK x) -> cum_table_ok (qe_cum x) ->
  qs_clone G x = x.
Proof. intros H1 H2. destruct x as [l r c t1 t2]. unfold qs_clone. cbn in *. now rewrite raw_1d, raw_2d. Qed.

(** tables made by the engines are such tables *)
Lemma apply_writes_length {A} (ws : list (write_op A)) : forall arr arr', apply_writes arr ws = Ret arr' -> length arr' = length arr.
Proof.
  induction ws as [|[i a] ws IH]; intros arr arr' H; cbn [apply_writes] in H.
  - now injection H as <-.
  - destruct (vset arr i a) as [arr1| | |] eqn:E; try discriminate. cbn [bind] in H. rewrite (IH _ _ H).
    unfold vset, zset in E. destruct (_ && _); [|discriminate]. injection E as <-. apply lset_length.
Qed.

Lemma fill_rows_length (rows : Z -> out (list (write_op (num N)))) order : forall arr arr',
  fill_rows rows order arr = Ret arr' -> length arr' = length arr.
Proof.
  induction order as [|i order IH]; intros arr arr' H; cbn [fill_rows] in H.
  - now injection H as <-.
  - bust H. rewrite (IH _ _ H). eapply apply_writes_length; eauto.
Qed.

Lemma log_vec_length (a b : num N) n : (0 <= n)%Z -> (length (generate_log_spaced_vec a b n) <= Z.to_nat n)%nat.
Proof.
  intros Hn. unfold generate_log_spaced_vec. destruct (_ || _) eqn:E; cbn [length]; [lia|].
  apply orb_false_elim in E as [_ E]. apply Z.ltb_ge in E. rewrite app_length, log_fill_length. cbn. lia.
Qed.
Lemma lin_vec_length (a b : num N) n : (0 <= n)%Z -> (length (generate_lin_spaced_vec a b n) <= Z.to_nat n)%nat.
Proof.
  intros Hn. unfold generate_lin_spaced_vec. destruct (_ || _) eqn:E; cbn [length]; [lia|].
  apply orb_false_elim in E as [_ E]. apply Z.ltb_ge in E. rewrite app_length, map_length, zseq_length. cbn. lia.
Qed.

Lemma bw_rate_table_ok (Orc : Oracles N) c : rate_table_ok (bw_dN_dt_table Orc c).
Proof. split; [reflexivity|]. cbn. now rewrite !map_length. Qed.
Lemma qs_rate_table_ok (Orc : Oracles N) c : rate_table_ok (qs_dN_dt_table Orc c).
Proof. split; [reflexivity|]. cbn. now rewrite !map_length. Qed.

Lemma cum_ok (chis ys vals vals' : list (num N)) (g : num N) n m :
  (length chis <= Z.to_nat n)%nat -> (length ys <= Z.to_nat m)%nat -> (0 <= n)%Z -> (0 <= m)%Z -> (n * m < 2 ^ 64)%Z ->
  vals = repeat g (Z.to_nat (wrap64 (zlen chis * zlen ys))) -> length vals' = length vals ->
  cum_table_ok (lookup_2d_make (map n_log chis) ys (map n_log vals')).
Proof.
  intros H1 H2 Hn Hm Hnm -> Hl. rewrite repeat_length in Hl.
  assert (Hz : (zlen chis * zlen ys < 2 ^ 64)%Z).
  { unfold zlen. apply Z.le_lt_trans with (n * m)%Z; [|exact Hnm]. apply Z.mul_le_mono_nonneg; lia. }
  unfold wrap64 in Hl. rewrite Z.mod_small in Hl by (unfold zlen in *; lia).
  unfold cum_table_ok. cbn. rewrite !map_length, Hl. unfold zlen in *. split; [reflexivity|]. lia.
Qed.

Lemma bw_cum_table_ok (Orc : Oracles N) c g t :
  (0 <= bc_tpair_how_many c)%Z -> (0 <= bc_frac_how_many c)%Z -> (bc_tpair_how_many c * bc_frac_how_many c < 2 ^ 64)%Z ->
  bw_cumulative_table Orc c g = Ret t -> cum_table_ok t.
Proof.
  intros Hn Hm Hnm H. unfold bw_cumulative_table in H. bust H. injection H as <-.
  eapply cum_ok; [apply log_vec_length|apply lin_vec_length| | | |reflexivity|eapply fill_rows_length; eauto]; auto.
Qed.
Lemma qs_cum_table_ok (Orc : Oracles N) c g t :
  (0 <= qc_tem_how_many c)%Z -> (0 <= qc_prob_how_many c)%Z -> (qc_tem_how_many c * qc_prob_how_many c < 2 ^ 64)%Z ->
  qs_cumulative_table Orc c g = Ret t -> cum_table_ok t.
Proof.
  intros Hn Hm Hnm H. unfold qs_cumulative_table in H. bust H. injection H as <-.
  eapply cum_ok; [apply log_vec_length|apply lin_vec_length| | | |reflexivity|eapply fill_rows_length; eauto]; auto.
Qed.

(** ** clone of an engine without tables *)
Lemma bw_clone_empty si (Orc : Oracles N) (G : Rng N) r lambda c p e b dt opt :
  let x := bw_new (units si) G r lambda c in
  let energy := (norm p * u_c (units si))%N in
  let chi := chi_photon (units si) p e b (be_lambda x) in
  let chi' := chi_photon (units si) p e b (si_lambda (units si) (be_lambda x)) in
  ((chi' <=? bc_chi_phot_min c) || (energy <? n_two * (u_emass (units si) * u_c (units si) * u_c (units si))))%N = false ->
  ((energy =? n_zero) || (chi' =? n_zero))%N = false ->
  (chi' <=? bc_tdndt_min c)%N = false -> (chi' >=? bc_tdndt_max c)%N = false ->
  (exists v, bw_evolve (units si) Orc G x p e b dt opt = Ret v) /\
  bw_evolve (units si) Orc G (bw_of_innards G (bw_export_innards G x)) p e b dt opt = UB.
Proof.
  intros x energy chi chi' H1 H2 H3 H4. unfold bw_evolve, bw_internal_evolve.
  change (be_lambda (bw_of_innards G (bw_export_innards G x))) with (be_lambda x).
  change (be_ctrl (bw_of_innards G (bw_export_innards G x))) with c. change (be_ctrl x) with c.
  cbv zeta. fold energy. fold chi'. rewrite H1. change (t1_init (be_TT x)) with false.
  change (t1_init (be_TT (bw_of_innards G (bw_export_innards G x)))) with true. cbn [bind ev_ok].
  split; [eauto|]. unfold bw_interp_dN_dt. rewrite H2, H3, H4. reflexivity.
Qed.
End Histories.

From Coq Require Import Reals Lra.
From Verif Require Import NumRX RXLemmas SpecPhys ChiProofs.
Local Open Scope R_scope.

Lemma bw_clone_empty_rx tg si (Orc : Oracles (RX tg)) (G : Rng (RX tg)) r lam (c : bw_ctrl (RX tg)) p E B dt opt chi cmin a b :
  0 < lam -> p <> zero3 ->
  chi = chi_cov (nu_m si) (nu_c si) (nu_Es si * nu_lambda si lam) (p0_photon p) p E B ->
  bc_chi_phot_min c = Fin cmin -> bc_tdndt_min c = Fin a -> bc_tdndt_max c = Fin b ->
  cmin < chi -> 0 < a < chi -> chi < b -> 2 * nu_m si * nu_c si <= norm3 p ->
  let x := bw_new (units si) G r (Fin lam) c in
  (exists v, bw_evolve (units si) Orc G x (F3 tg p) (F3 tg E) (F3 tg B) dt opt = Ret v) /\
  bw_evolve (units si) Orc G (bw_of_innards G (bw_export_innards G x)) (F3 tg p) (F3 tg E) (F3 tg B) dt opt = UB.
Proof.
  intros Hl Hp Hchi Hc Ha Hb H1 H2 H3 He x.
  assert (HL : forall l, 0 < l -> chi_photon (units (N := RX tg) si) (F3 tg p) (F3 tg E) (F3 tg B) (Fin l)
     = Fin (chi_cov (nu_m si) (nu_c si) (nu_Es si * nu_lambda si l) (p0_photon p) p E B)).
  { intros l Hl'. now apply chi_photon_val. }
  pose proof (nu_c_pos si). pose proof (nu_m_pos si). pose proof (norm3_pos p Hp).
  assert (HC : chi_photon (units (N := RX tg) si) (F3 tg p) (F3 tg E) (F3 tg B) (si_lambda (units si) (be_lambda x)) = Fin chi).
  { unfold x, bw_new. cbn [be_lambda]. rewrite !si_lambda_val.
    assert (0 < nu_lambda si lam) by now apply nu_lambda_pos.
    assert (HI : nu_lambda si (nu_lambda si lam) = nu_lambda si lam) by now destruct si.
    rewrite HI, HL by assumption. rewrite Hchi, HI. reflexivity. }
  assert (HE : n_mul (norm (F3 tg p)) (u_c (units (N := RX tg) si)) = Fin (norm3 p * nu_c si)).
  { rewrite F3_norm, u_c_val. reflexivity. }
  assert (HM : 2 * (nu_m si * nu_c si * nu_c si) <= norm3 p * nu_c si) by nra.
  assert (0 < norm3 p * nu_c si) by now apply Rmult_lt_0_compat.
  subst x. apply bw_clone_empty.
  - rewrite HE, HC, Hc, u_c_val, u_m_val. cbn [n_le RX x_le]. rewrite Rleb_false by lra.
    change (Rltb (norm3 p * nu_c si) (2 * (nu_m si * nu_c si * nu_c si)) = false). now apply Rltb_false.
  - rewrite HE, HC. change (Reqb (norm3 p * nu_c si) 0 || Reqb chi 0 = false)%bool. rewrite !Reqb_false by lra. reflexivity.
  - rewrite HC, Ha. cbn [n_le RX x_le]. apply Rleb_false. lra.
  - rewrite HC, Hb. cbn [n_le RX x_le]. apply Rleb_false. lra.
Qed.
