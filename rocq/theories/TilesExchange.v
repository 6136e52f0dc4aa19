(** The exchange of particles between tiles (Tiles.v) refines the exchange of Exchange.v. *)
From Coq Require Import ZArith List Bool Permutation Lia.
From Verif Require Import Cxx CxxLemmas Num Fortran FortranLemmas Grid GridLemmas Deposit Tiles Exchange TilesProofs.
Import ListNotations.
Local Open Scope Z_scope.

Lemma for_each_app {A S} (f : A -> S -> out S) l l' s : for_each f (l ++ l') s = do s' <- for_each f l s; for_each f l' s'.
Proof. revert s. induction l as [|a l IH]; intros s; [reflexivity|]. cbn. destruct (f a s); cbn; [apply IH|reflexivity..]. Qed.

Section Sweep.
Context {N : FNum} (M : Z) (HM : sizes_exact N M) (D : dom N) (n0 : idx) (T0 : grid (tile N)).
Notation hi := (ag_nt (dX D), ag_nt (dY D), ag_nt (dZ D)).
Notation B := (all_tiles D).
Hypothesis T0lo : glo T0 = (1, 1, 1).
Hypothesis T0hi : ghi T0 = hi.

Definition stays (q : idx) (p : part N) : bool := inside (gat T0 q) p || outside D p.
Definition tgt (p : part N) : idx := match target D n0 p with Ret r => r | _ => (0, 0, 0) end.
Notation state := (idx -> list (part N)).

(** the tiles of T hold the particles A *)
Definition rep (T : grid (tile N)) (A : state) : Prop :=
  glo T = glo T0 /\ ghi T = ghi T0 /\
  forall q, In q B -> holds M (gat T q) (A q) /\ same_place (gat T0 q) (gat T q).
Definition room (A : state) : Prop := 2 * zlen (items B A) + 1 <= M.
(** leaving particles have a tile *)
Definition has_tile (A : state) : Prop := forall q p, In q B -> In p (A q) -> stays q p = false ->
  exists r, target D n0 p = Ret r /\ In r B.

Lemma B_nodup : NoDup B. Proof. apply NoDup_box. Qed.
Lemma has_tile_lands A : has_tile A -> lands stays tgt B A.
Proof. intros H q p Hq Hp Hs. destruct (H q p Hq Hp Hs) as (r & E & Hr). unfold tgt. now rewrite E. Qed.

Lemma rep_get T A q : rep T A -> In q B -> get3 T q = Ret (gat T q).
Proof.
  intros (E1 & E2 & _) Hq. unfold get3. rewrite E1, E2, T0lo, T0hi. unfold all_tiles in Hq. apply in_box_box in Hq. now rewrite Hq.
Qed.
Lemma rep_set T A q t l : rep T A -> In q B -> holds M t l -> same_place (gat T q) t ->
  exists T', set3 T q t = Ret T' /\ rep T' (upd A q l) /\ gat T' q = t /\ forall r, r <> q -> gat T' r = gat T r.
Proof.
  intros (E1 & E2 & HT) Hq Ht Hp. unfold set3. rewrite E1, E2, T0lo, T0hi. pose proof Hq as Hq'. unfold all_tiles in Hq'. apply in_box_box in Hq'. rewrite Hq'.
  eexists. split; [reflexivity|]. split; [|split; [cbn; now rewrite idx_eqb_refl|]].
  - split; [cbn; congruence|]. split; [cbn; congruence|]. intros r Hr. cbn [gat]. destruct (idx_dec q r) as [<-|Dn].
    + rewrite idx_eqb_refl, upd_same. split; [exact Ht|]. destruct (HT q Hq) as (_ & (X1 & X2 & X3 & X4)). destruct Hp as (Y1 & Y2 & Y3 & Y4). repeat split; congruence.
    + rewrite (proj2 (idx_eqb_neq q r) Dn), upd_other by exact Dn. now apply HT.
  - intros r Hr. cbn. now rewrite (proj2 (idx_eqb_neq q r)) by congruence.
Qed.

Lemma inside_same t t' p : same_place t t' -> @inside N t' p = inside t p.
Proof. intros (E1 & E2 & E3 & _). unfold inside. now rewrite E1, E2, E3. Qed.

Lemma nth_live T A q i p : rep T A -> In q B -> nth_error (A q) i = Some p -> get1 (t_arr (gat T q)) (Z.of_nat i + 1) = Ret (Some p).
Proof.
  intros (_ & _ & HT) Hq Hn. destruct (HT q Hq) as ((_ & (junk & E) & _) & _).
  unfold get1. apply zget_ok; [lia|]. replace (Z.to_nat (Z.of_nat i + 1 - 1)) with i by lia.
  rewrite E, nth_error_app1 by (rewrite map_length; apply nth_error_Some; congruence). now rewrite nth_error_map, Hn.
Qed.

Lemma sweep_refines T A q i : rep T A -> room A -> has_tile A -> In q B -> (1 <= i <= length (A q))%nat ->
  exists T', sweep_particle D n0 q (Z.of_nat i) T = Ret T' /\ rep T' (astep stays tgt q i A).
Proof.
  intros HT HR HA Hq Hi. unfold sweep_particle. rewrite (rep_get T A q HT Hq). cbn [bind].
  destruct (nth_error (A q) (i - 1)) as [p|] eqn:E.
  2:{ apply nth_error_None in E. lia. }
  replace (Z.of_nat i) with (Z.of_nat (i - 1) + 1) by lia. rewrite (nth_live T A q (i - 1) p HT Hq E). cbn [bind].
  unfold astep. rewrite E. pose proof HT as (_ & _ & HT'). destruct (HT' q Hq) as (Hh & Hpl).
  rewrite (inside_same _ _ p Hpl).
  destruct (inside (gat T0 q) p) eqn:Ein.
  { unfold stays. rewrite Ein. cbn [orb]. now exists T. }
  destruct (outside D p) eqn:Eout.
  { unfold stays. rewrite Ein, Eout. cbn [orb]. now exists T. }
  assert (Es : stays q p = false) by (unfold stays; now rewrite Ein, Eout). rewrite Es.
  destruct (HA q p Hq (nth_error_In _ _ E) Es) as (r & Et & Hr). rewrite Et. cbn [bind].
  assert (Etg : tgt p = r) by (unfold tgt; now rewrite Et). rewrite Etg.
  destruct (nth_error_split _ _ E) as (l1 & l2 & El & Ll).
  unfold rm_particle_at_tile. rewrite (rep_get T A q HT Hq). cbn [bind].
  rewrite El in Hh. destruct (rm_holds M HM _ _ _ _ Hh) as (t1 & E1 & H1 & P1).
  unfold zlen in E1. rewrite Ll in E1. rewrite E1. cbn [bind].
  destruct (rep_set T A q t1 _ HT Hq H1 P1) as (T1 & ET1 & HT1 & _). rewrite ET1. cbn [bind].
  assert (Esr : swap_remove (A q) (i - 1) = l1 ++ rot l2).
  { rewrite El. rewrite <- Ll. apply swap_remove_app. }
  unfold move. rewrite Esr. set (A1 := upd A q (l1 ++ rot l2)) in *.
  unfold add_particle_at_tile. rewrite (rep_get T1 A1 r HT1 Hr). cbn [bind].
  pose proof HT1 as (_ & _ & HT1'). destruct (HT1' r Hr) as (Hh1 & _).
  destruct (add_holds M HM _ _ p Hh1) as (t2 & E2 & H2 & P2).
  { assert (L : (length (A1 r) <= length (A r))%nat).
    { unfold A1. destruct (idx_dec q r) as [<-|Dn]; [rewrite upd_same, El, !app_length, rot_length; cbn [length]; lia|now rewrite upd_other]. }
    pose proof (cell_le B B_nodup A r Hr). unfold room, zlen in *. lia. }
  rewrite E2. cbn [bind]. destruct (rep_set T1 A1 r t2 _ HT1 Hr H2 P2) as (T2 & ET2 & HT2 & _). exists T2. split; [exact ET2|exact HT2].
Qed.

(** ** Invariants of a run *)
Definition good (A : state) : Prop := room A /\ has_tile A.

Lemma has_tile_step A q i : In q B -> has_tile A -> has_tile (astep stays tgt q i A).
Proof.
  intros Hq HA. unfold astep. destruct (nth_error (A q) (i - 1)) as [p|] eqn:E; [|exact HA].
  destruct (stays q p) eqn:S; [exact HA|]. intros s x Hs Hx Hst.
  destruct (move_In _ _ _ _ _ _ _ E Hx) as [H|[-> ->]]; [now apply (HA s x)|].
  apply (HA q p Hq); [now apply nth_error_In in E|exact S].
Qed.
Lemma good_step A q i : In q B -> good A -> good (astep stays tgt q i A).
Proof.
  intros Hq (HR & HA). split; [|now apply has_tile_step].
  unfold room in *. replace (zlen (items B (astep stays tgt q i A))) with (zlen (items B A)); [exact HR|].
  unfold zlen. f_equal. apply Permutation_length. apply (items_perm stays tgt B B_nodup). apply everything_step; [apply B_nodup|exact Hq|now apply has_tile_lands].
Qed.

Lemma down_refines q n : In q B -> forall T A, rep T A -> good A -> (n <= length (A q))%nat -> settled stays tgt q (skipn n (A q)) ->
  exists T', do_down n (Z.of_nat n) (sweep_particle D n0 q) T = Ret T' /\ rep T' (adown stays tgt n q A) /\ good (adown stays tgt n q A) /\
    Permutation (everything stays tgt B A) (everything stays tgt B (adown stays tgt n q A)) /\
    settled stays tgt q (adown stays tgt n q A q) /\
    (forall s, s <> q -> settled stays tgt s (A s) -> settled stays tgt s (adown stays tgt n q A s)).
Proof.
  intros Hq. induction n as [|m IH]; intros T A HT HG Hn Hs.
  - exists T. cbn [do_down adown]. split; [reflexivity|]. repeat (split; [assumption||reflexivity|]). tauto.
  - cbn [do_down adown]. destruct (sweep_refines T A q (S m) HT (proj1 HG) (proj2 HG) Hq ltac:(lia)) as (T1 & E1 & HT1). rewrite E1. cbn [bind].
    destruct (step_here stays tgt q m A Hn Hs) as (L1 & S1 & _).
    destruct (IH T1 _ HT1 (good_step A q (S m) Hq HG) L1 S1) as (T2 & E2 & HT2 & HG2 & P2 & S2 & O2).
    exists T2. replace (Z.of_nat (S m) - 1) with (Z.of_nat m) by lia. split; [exact E2|]. split; [exact HT2|]. split; [exact HG2|].
    split; [|split; [exact S2|]].
    + etransitivity; [|exact P2]. apply everything_step; [apply B_nodup|exact Hq|]. apply has_tile_lands, HG.
    + intros s Hne Hss. apply O2; [exact Hne|].
      destruct (settled_other stays tgt q (S m) A s 0 ltac:(lia) Hss ltac:(congruence)) as (_ & X). exact X.
Qed.

Definition asweep (q : idx) (A : state) : state := adown stays tgt (length (A q)) q A.
Lemma tile_refines q T A : In q B -> rep T A -> good A ->
  exists T', sweep_tile D n0 q T = Ret T' /\ rep T' (asweep q A) /\ good (asweep q A) /\
    Permutation (everything stays tgt B A) (everything stays tgt B (asweep q A)) /\
    settled stays tgt q (asweep q A q) /\
    (forall s, s <> q -> settled stays tgt s (A s) -> settled stays tgt s (asweep q A s)).
Proof.
  intros Hq HT HG. unfold sweep_tile. rewrite (rep_get T A q HT Hq). cbn [bind].
  pose proof HT as (_ & _ & HT'). destruct (HT' q Hq) as ((_ & _ & En & _) & _).
  unfold do_range_down. rewrite En. unfold zlen.
  replace (Z.to_nat (Z.of_nat (length (A q)) - 1 + 1)) with (length (A q)) by lia.
  apply down_refines; try assumption; [lia|]. rewrite skipn_all. intros p [].
Qed.

Fixpoint asweeps (l : list idx) (A : state) : state := match l with [] => A | q :: l' => asweeps l' (asweep q A) end.
Lemma tiles_refine l : (forall q, In q l -> In q B) -> forall T A, rep T A -> good A ->
  exists T', for_each (sweep_tile D n0) l T = Ret T' /\ rep T' (asweeps l A) /\ good (asweeps l A) /\
    Permutation (everything stays tgt B A) (everything stays tgt B (asweeps l A)) /\
    (forall s, In s l \/ settled stays tgt s (A s) -> settled stays tgt s (asweeps l A s)).
Proof.
  induction l as [|q l IH]; intros Hl T A HT HG.
  - exists T. cbn. split; [reflexivity|]. repeat (split; [assumption||reflexivity|]). intros s [[]|H]; exact H.
  - cbn [for_each asweeps]. destruct (tile_refines q T A (Hl q (or_introl eq_refl)) HT HG) as (T1 & E1 & HT1 & HG1 & P1 & S1 & O1).
    rewrite E1. cbn [bind].
    destruct (IH (fun s H => Hl s (or_intror H)) T1 _ HT1 HG1) as (T2 & E2 & HT2 & HG2 & P2 & S2).
    exists T2. split; [exact E2|]. split; [exact HT2|]. split; [exact HG2|]. split; [now transitivity (everything stays tgt B (asweep q A))|].
    intros s Hs. apply S2. destruct Hs as [[<-|Hs]|Hs]; [right; exact S1|now left|].
    right. destruct (idx_dec s q) as [->|Dn]; [exact S1|now apply O1].
Qed.

(** ** Parallel runs *)
(** invariant of one parallel loop: iterations that have started have settled the particles
    above the next one *)
Definition pinv (L : list idx) (pc : idx -> option Z) (A : state) : Prop :=
  forall q i, In q L -> pc q = Some i -> 0 <= i <= zlen (A q) /\ settled stays tgt q (skipn (Z.to_nat i) (A q)).

Lemma parallel_refines L : (forall q, In q L -> In q B) -> forall T pc r, parallel_sweep D n0 L T pc r ->
  forall A, rep T A -> good A -> pinv L pc A ->
  exists T' A', r = Ret T' /\ rep T' A' /\ good A' /\ Permutation (everything stays tgt B A) (everything stays tgt B A') /\
    (forall s, In s L \/ settled stays tgt s (A s) -> settled stays tgt s (A' s)).
Proof.
  intros HL T pc r H. induction H as [T pc Hd|T pc q t r Hq Hpc Ht H IH|T pc q Hq Hpc Ht|T pc q i T' r Hq Hpc Hi Hs H IH|T pc q i Hq Hpc Hi Hs]; intros A HT HG HI.
  - exists T, A. split; [reflexivity|]. repeat (split; [assumption||reflexivity|]). intros s [Hs|Hs]; [|exact Hs].
    destruct (Hd s Hs) as (i & E & Hi). destruct (HI s i Hs E) as (Hb & Hset). replace (Z.to_nat i) with O in Hset by lia. exact Hset.
  - apply IH; try assumption. intros s i Hs E. destruct (idx_dec q s) as [<-|Dn].
    + rewrite upd_same in E. injection E as <-. rewrite (rep_get T A q HT (HL q Hq)) in Ht. injection Ht as <-.
      pose proof HT as (_ & _ & HT'). destruct (HT' q (HL q Hq)) as ((_ & _ & En & _) & _). rewrite En. pose proof (zlen_nonneg (A q)). split; [lia|].
      unfold zlen. rewrite Nat2Z.id, skipn_all. intros p [].
    + rewrite upd_other in E by exact Dn. now apply HI.
  - rewrite (rep_get T A q HT (HL q Hq)) in Ht. discriminate.
  - destruct (HI q i Hq Hpc) as (Hb & Hset).
    destruct (sweep_refines T A q (Z.to_nat i) HT (proj1 HG) (proj2 HG) (HL q Hq)) as (T1 & E1 & HT1); [unfold zlen in Hb; lia|].
    rewrite Z2Nat.id in E1 by lia. rewrite E1 in Hs. injection Hs as <-.
    pose proof (good_step A q (Z.to_nat i) (HL q Hq) HG) as HG1.
    assert (Em : Z.to_nat i = S (Z.to_nat (i - 1))) by lia.
    assert (HP1 : Permutation (everything stays tgt B A) (everything stays tgt B (astep stays tgt q (Z.to_nat i) A))).
    { apply everything_step; [apply B_nodup|now apply HL|]. apply has_tile_lands, HG. }
    assert (Hst : forall s, settled stays tgt s (A s) -> settled stays tgt s (astep stays tgt q (Z.to_nat i) A s)).
    { intros s Hss. destruct (idx_dec q s) as [<-|Dn].
      - assert (X : astep stays tgt q (Z.to_nat i) A q = A q \/ exists p, In p (A q) /\ stays q p = false /\ forall x, In x (astep stays tgt q (Z.to_nat i) A q) -> In x (A q) \/ (q = tgt p /\ x = p)).
        { unfold astep. destruct (nth_error (A q) (Z.to_nat i - 1)) as [p|] eqn:E; [|now left]. destruct (stays q p) eqn:S; [now left|].
          right. exists p. split; [now apply nth_error_In in E|]. split; [exact S|]. intros x Hx. now apply (move_In _ _ _ _ _ _ _ E Hx). }
        destruct X as [->|(p & _ & _ & X)]; [exact Hss|]. intros x Hx. destruct (X x Hx) as [Hx'|[E ->]]; [now apply Hss|]. rewrite E at 1. rewrite goes_tgt. now symmetry.
      - now destruct (settled_other stays tgt q (Z.to_nat i) A s 0 ltac:(lia) Hss Dn). }
    destruct (IH _ HT1 HG1) as (T2 & A2 & -> & HT2 & HG2 & HP2 & HS2).
    + intros s j Hs E. destruct (idx_dec q s) as [<-|Dn].
      * rewrite upd_same in E. injection E as <-. rewrite Em. rewrite Em in Hset.
        destruct (step_here stays tgt q (Z.to_nat (i - 1)) A) as (L1 & S1 & _); [unfold zlen in Hb; lia|exact Hset|].
        split; [unfold zlen; lia|exact S1].
      * rewrite upd_other in E by exact Dn. destruct (HI s j Hs E) as (Hb' & Hset').
        destruct (settled_other stays tgt q (Z.to_nat i) A s (Z.to_nat j)) as (L1 & S1); [unfold zlen in Hb'; lia|exact Hset'|exact Dn|].
        split; [unfold zlen; lia|exact S1].
    + exists T2, A2. split; [reflexivity|]. split; [exact HT2|]. split; [exact HG2|]. split; [now rewrite HP1|].
      intros s [Hs|Hs]; apply HS2; [now left|]. right. now apply Hst.
  - destruct (HI q i Hq Hpc) as (Hb & Hset).
    destruct (sweep_refines T A q (Z.to_nat i) HT (proj1 HG) (proj2 HG) (HL q Hq)) as (T1 & E1 & HT1); [unfold zlen in Hb; lia|].
    rewrite Z2Nat.id in E1 by lia. rewrite E1 in Hs. discriminate.
Qed.

Lemma omp_refines cs : (forall c q, In c cs -> In q (colour D c) -> In q B) -> forall T r, omp_sweeps D n0 cs T r ->
  forall A, rep T A -> good A ->
  exists T' A', r = Ret T' /\ rep T' A' /\ good A' /\ Permutation (everything stays tgt B A) (everything stays tgt B A') /\
    (forall s, (exists c, In c cs /\ In s (colour D c)) \/ settled stays tgt s (A s) -> settled stays tgt s (A' s)).
Proof.
  intros Hcs T r H. induction H as [T|c cs T T' r HP H IH|c cs T HP]; intros A HT HG.
  - exists T, A. split; [reflexivity|]. repeat (split; [assumption||reflexivity|]). intros s [(c & [] & _)|Hs]; exact Hs.
  - destruct (parallel_refines (colour D c) (fun q => Hcs c q (or_introl eq_refl)) _ _ _ HP A HT HG) as (T1 & A1 & E1 & HT1 & HG1 & HP1 & HS1); [intros q i _ E; discriminate|].
    injection E1 as <-. destruct (IH (fun c q Hc => Hcs c q (or_intror Hc)) A1 HT1 HG1) as (T2 & A2 & -> & HT2 & HG2 & HP2 & HS2).
    exists T2, A2. split; [reflexivity|]. split; [exact HT2|]. split; [exact HG2|]. split; [now rewrite HP1|].
    intros s Hs. apply HS2. destruct Hs as [(c' & [<-|Hc] & Hs)|Hs].
    + right. apply HS1. now left.
    + left. now exists c'.
    + right. apply HS1. now right.
  - destruct (parallel_refines (colour D c) (fun q => Hcs c q (or_introl eq_refl)) _ _ _ HP A HT HG) as (T1 & A1 & E1 & _); [intros q i _ E; discriminate|discriminate].
Qed.

(** ** Independence of the schedule *)
Definition nbr (q r : idx) : Prop := let '(a, b, c) := q in let '(j, k, l) := r in
  Z.abs (j - a) <= 1 /\ Z.abs (k - b) <= 1 /\ Z.abs (l - c) <= 1.
Lemma nbr_refl q : nbr q q. Proof. destruct q as [[a b] c]. cbn. lia. Qed.
Definition apart (L : list idx) : Prop := forall q q' s, In q L -> In q' L -> nbr q s -> nbr q' s -> q = q'.

Notation nearA := (near stays tgt B nbr).
(** state of tile q's neighbourhood when the iteration has done its particles above i *)
Fixpoint solo (k : nat) (i : nat) (q : idx) (A : state) : state :=
  match k with O => A | S k' => solo k' (i - 1) q (astep stays tgt q i A) end.
Lemma solo_snoc k : forall i q A, solo (S k) i q A = astep stays tgt q (i - k) (solo k i q A).
Proof.
  induction k as [|k IH]; intros i q A; [cbn; now rewrite Nat.sub_0_r|].
  change (solo (S (S k)) i q A) with (solo (S k) (i - 1) q (astep stays tgt q i A)). rewrite IH. cbn [solo]. f_equal. lia.
Qed.
Lemma adown_solo n : forall q A, adown stays tgt n q A = solo n n q A.
Proof. induction n as [|n IH]; intros q A; [reflexivity|]. cbn [adown solo]. rewrite IH. now replace (S n - 1)%nat with n by lia. Qed.

(** all executions of a parallel loop give the state where the neighbourhood of each tile of the
    loop is what the sweep of that tile alone gives *)
Definition dinv (L : list idx) (A0 : state) (pc : idx -> option Z) (A : state) : Prop :=
  (forall q s, In q L -> nbr q s ->
     A s = match pc q with None => A0 s | Some i => solo (length (A0 q) - Z.to_nat i) (length (A0 q)) q A0 s end) /\
  (forall q i, In q L -> pc q = Some i -> 0 <= i <= zlen (A0 q)) /\
  (forall s, (forall q, In q L -> ~ nbr q s) -> A s = A0 s).
Definition together (L : list idx) (A0 A' : state) : Prop :=
  (forall q s, In q L -> nbr q s -> A' s = asweep q A0 s) /\ (forall s, (forall q, In q L -> ~ nbr q s) -> A' s = A0 s).

Lemma parallel_same L A0 : (forall q, In q L -> In q B) -> apart L -> forall T pc r, parallel_sweep D n0 L T pc r ->
  forall A, rep T A -> good A -> nearA A -> pinv L pc A -> dinv L A0 pc A ->
  exists T' A', r = Ret T' /\ rep T' A' /\ good A' /\ nearA A' /\ together L A0 A'.
Proof.
  intros HL Hap T pc r H. induction H as [T pc Hd|T pc q t r Hq Hpc Ht H IH|T pc q Hq Hpc Ht|T pc q i T' r Hq Hpc Hi Hs H IH|T pc q i Hq Hpc Hi Hs]; intros A HT HG HN HI (HD1 & HD2 & HD3).
  - exists T, A. split; [reflexivity|]. repeat (split; [assumption||reflexivity|]). split; [|exact HD3]. intros q s Hq Hs.
    destruct (Hd q Hq) as (i & E & Hi). rewrite (HD1 q s Hq Hs), E. unfold asweep. rewrite adown_solo. now replace (length (A0 q) - Z.to_nat i)%nat with (length (A0 q)) by lia.
  - assert (En : t_np t = zlen (A q)).
    { rewrite (rep_get T A q HT (HL q Hq)) in Ht. injection Ht as <-. pose proof HT as (_ & _ & HT'). now destruct (HT' q (HL q Hq)) as ((_ & _ & En & _) & _). }
    assert (E0 : A q = A0 q) by (rewrite (HD1 q q Hq (nbr_refl q)), Hpc; reflexivity).
    apply (IH A); try assumption.
    + intros s i Hs E. destruct (idx_dec q s) as [<-|Dn].
      * rewrite upd_same in E. injection E as <-. rewrite En. pose proof (zlen_nonneg (A q)). split; [lia|].
        unfold zlen. rewrite Nat2Z.id, skipn_all. intros p [].
      * rewrite upd_other in E by exact Dn. now apply HI.
    + split; [|split; [|exact HD3]].
      * intros s x Hs Hx. destruct (idx_dec q s) as [<-|Dn].
        -- rewrite upd_same, En, E0. unfold zlen. rewrite Nat2Z.id, Nat.sub_diag. cbn [solo]. rewrite (HD1 q x Hq Hx), Hpc. reflexivity.
        -- rewrite upd_other by exact Dn. now apply HD1.
      * intros s i Hs E. destruct (idx_dec q s) as [<-|Dn].
        -- rewrite upd_same in E. injection E as <-. rewrite En, E0. pose proof (zlen_nonneg (A0 q)). lia.
        -- rewrite upd_other in E by exact Dn. now apply (HD2 s).
  - rewrite (rep_get T A q HT (HL q Hq)) in Ht. discriminate.
  - destruct (HI q i Hq Hpc) as (Hb & Hset).
    destruct (sweep_refines T A q (Z.to_nat i) HT (proj1 HG) (proj2 HG) (HL q Hq)) as (T1 & E1 & HT1); [unfold zlen in Hb; lia|].
    rewrite Z2Nat.id in E1 by lia. rewrite E1 in Hs. injection Hs as <-.
    assert (Em : Z.to_nat i = S (Z.to_nat (i - 1))) by lia.
    apply (IH _ HT1 (good_step A q (Z.to_nat i) (HL q Hq) HG)).
    + apply near_step; [apply nbr_refl|now apply HL|exact HN].
    + intros s j Hs E. destruct (idx_dec q s) as [<-|Dn].
      * rewrite upd_same in E. injection E as <-. rewrite Em. rewrite Em in Hset.
        destruct (step_here stays tgt q (Z.to_nat (i - 1)) A) as (L1 & S1 & _); [unfold zlen in Hb; lia|exact Hset|].
        split; [unfold zlen; lia|exact S1].
      * rewrite upd_other in E by exact Dn. destruct (HI s j Hs E) as (Hb' & Hset').
        destruct (settled_other stays tgt q (Z.to_nat i) A s (Z.to_nat j)) as (L1 & S1); [unfold zlen in Hb'; lia|exact Hset'|exact Dn|].
        split; [unfold zlen; lia|exact S1].
    + pose proof (HD2 q i Hq Hpc) as Hb0. split; [|split].
      * intros s x Hs Hx. destruct (idx_dec q s) as [<-|Dn].
        -- rewrite upd_same. rewrite (astep_local stays tgt nbr nbr_refl q (Z.to_nat i) A (solo (length (A0 q) - Z.to_nat i) (length (A0 q)) q A0)); [|intros y Hy; now rewrite (HD1 q y Hq Hy), Hpc|exact Hx].
           unfold zlen in Hb0. replace (length (A0 q) - Z.to_nat (i - 1))%nat with (S (length (A0 q) - Z.to_nat i)) by lia.
           rewrite solo_snoc. now replace (length (A0 q) - (length (A0 q) - Z.to_nat i))%nat with (Z.to_nat i) by lia.
        -- rewrite upd_other by exact Dn. rewrite (astep_outside stays tgt B nbr nbr_refl q _ A x (HL q Hq) HN); [now apply HD1|].
           intros Hqx. apply Dn. now apply (Hap q s x).
      * intros s j Hs E. destruct (idx_dec q s) as [<-|Dn].
        -- rewrite upd_same in E. injection E as <-. lia.
        -- rewrite upd_other in E by exact Dn. now apply (HD2 s).
      * intros s Hs. rewrite (astep_outside stays tgt B nbr nbr_refl q _ A s (HL q Hq) HN); [now apply HD3|now apply Hs].
  - destruct (HI q i Hq Hpc) as (Hb & Hset).
    destruct (sweep_refines T A q (Z.to_nat i) HT (proj1 HG) (proj2 HG) (HL q Hq)) as (T1 & E1 & HT1); [unfold zlen in Hb; lia|].
    rewrite Z2Nat.id in E1 by lia. rewrite E1 in Hs. discriminate.
Qed.

(** running the tiles of a loop one after the other gives that state too *)
Lemma near_adown n q A : In q B -> nearA A -> nearA (adown stays tgt n q A).
Proof. intros Hq. revert A. induction n as [|n IH]; intros A HN; [exact HN|]. cbn [adown]. apply IH. now apply near_step; [apply nbr_refl|..]. Qed.
Lemma adown_outside n q A s : In q B -> nearA A -> ~ nbr q s -> adown stays tgt n q A s = A s.
Proof.
  intros Hq HN Hs. revert A HN. induction n as [|n IH]; intros A HN; [reflexivity|]. cbn [adown].
  rewrite IH by (now apply near_step; [apply nbr_refl|..]). now apply (astep_outside stays tgt B nbr nbr_refl).
Qed.
Lemma adown_local n q A A' : (forall s, nbr q s -> A s = A' s) -> forall s, nbr q s -> adown stays tgt n q A s = adown stays tgt n q A' s.
Proof.
  revert A A'. induction n as [|n IH]; intros A A' H; [exact H|]. cbn [adown]. apply IH.
  now apply (astep_local stays tgt nbr nbr_refl).
Qed.
Lemma asweep_local q A A' : (forall s, nbr q s -> A s = A' s) -> forall s, nbr q s -> asweep q A s = asweep q A' s.
Proof. intros H s Hs. unfold asweep. rewrite (H q (nbr_refl q)). now apply adown_local. Qed.

Lemma sequential_together L : NoDup L -> (forall q, In q L -> In q B) -> apart L -> forall A, nearA A ->
  nearA (asweeps L A) /\ together L A (asweeps L A).
Proof.
  intros ND HL Hap. induction L as [|q L IH]; intros A HN.
  - split; [exact HN|]. split; [intros q s []|]. intros s _. reflexivity.
  - cbn [asweeps]. inversion ND as [|q' L' Hn ND']; subst.
    assert (Hq : In q B) by (apply HL; now left).
    destruct (IH ND' (fun s H => HL s (or_intror H)) (fun a b s Ha Hb => Hap a b s (or_intror Ha) (or_intror Hb)) (asweep q A)) as (N1 & C1 & C2).
    { now apply near_adown. }
    split; [exact N1|]. split.
    + intros a s [<-|Ha] Hs.
      * apply C2. intros b Hb Hbs. apply Hn. rewrite (Hap q b s); [exact Hb|now left|now right|exact Hs|exact Hbs].
      * rewrite (C1 a s Ha Hs). apply asweep_local; [|exact Hs]. intros x Hx. apply adown_outside; [exact Hq|exact HN|].
        intros Hqx. apply Hn. rewrite (Hap q a x); [exact Ha|now left|now right|exact Hqx|exact Hx].
    + intros s Hs. rewrite C2 by (intros a Ha; apply Hs; now right). apply adown_outside; [exact Hq|exact HN|]. apply Hs. now left.
Qed.
Lemma nbr_dec q s : {nbr q s} + {~ nbr q s}.
Proof.
  destruct q as [[a b] c], s as [[j k] l]. cbn.
  destruct (Z_le_dec (Z.abs (j - a)) 1), (Z_le_dec (Z.abs (k - b)) 1), (Z_le_dec (Z.abs (l - c)) 1); (left; lia) || (right; lia).
Qed.
Lemma together_unique L A0 A A' : together L A0 A -> together L A0 A' -> forall s, A s = A' s.
Proof.
  intros (H1 & H2) (H1' & H2') s.
  assert (X : (exists q, In q L /\ nbr q s) \/ forall q, In q L -> ~ nbr q s).
  { clear. induction L as [|q L IH]; [right; intros q []|]. destruct (nbr_dec q s) as [Y|Y]; [left; exists q; split; [now left|exact Y]|].
    destruct IH as [(q' & Hq & Hs)|H]; [left; exists q'; split; [now right|exact Hs]|]. right. intros q' [<-|Hq]; [exact Y|now apply H]. }
  destruct X as [(q & Hq & Hs)|X]; [now rewrite (H1 q s Hq Hs), (H1' q s Hq Hs)|now rewrite (H2 s X), (H2' s X)].
Qed.
Lemma asweeps_app l l' A : asweeps (l ++ l') A = asweeps l' (asweeps l A).
Proof. revert A. induction l as [|q l IH]; intros A; [reflexivity|]. cbn. apply IH. Qed.
Lemma asweeps_ext l : forall A A', (forall s, A s = A' s) -> forall s, asweeps l A s = asweeps l A' s.
Proof.
  assert (X : forall q i A A', (forall s, A s = A' s) -> forall s, astep stays tgt q i A s = astep stays tgt q i A' s).
  { intros q i A A' H s. apply (astep_local stays tgt (fun _ _ => True) (fun _ => I)); [intros; apply H|exact I]. }
  assert (Y : forall n q A A', (forall s, A s = A' s) -> forall s, adown stays tgt n q A s = adown stays tgt n q A' s).
  { induction n as [|n IH]; intros q A A' H; [exact H|]. cbn [adown]. apply IH. now apply X. }
  induction l as [|q l IH]; intros A A' H; [exact H|]. cbn [asweeps]. apply IH. unfold asweep. rewrite (H q). now apply Y.
Qed.
Lemma good_ext A A' : (forall s, A s = A' s) -> good A -> good A'.
Proof.
  intros E (H1 & H2). split.
  - unfold room, items in *. erewrite flat_map_ext; [exact H1|]. intros q. now rewrite E.
  - intros q p Hq Hp. apply (H2 q p Hq). now rewrite E.
Qed.

Lemma omp_same cs : (forall c, In c cs -> NoDup (colour D c) /\ apart (colour D c) /\ forall q, In q (colour D c) -> In q B) ->
  forall T r, omp_sweeps D n0 cs T r -> forall A, rep T A -> good A -> nearA A ->
  exists T' A', r = Ret T' /\ rep T' A' /\ forall s, A' s = asweeps (flat_map (colour D) cs) A s.
Proof.
  intros Hcs T r H. induction H as [T|c cs T T' r HP H IH|c cs T HP]; intros A HT HG HN.
  - exists T, A. split; [reflexivity|]. split; [exact HT|]. reflexivity.
  - destruct (Hcs c (or_introl eq_refl)) as (ND & Hap & HL).
    destruct (parallel_same (colour D c) A HL Hap _ _ _ HP A HT HG HN) as (T1 & A1 & E1 & HT1 & HG1 & HN1 & C1).
    { intros q i _ E. discriminate. }
    { split; [reflexivity|]. split; [intros q i _ E; discriminate|reflexivity]. }
    injection E1 as <-. destruct (IH (fun c Hc => Hcs c (or_intror Hc)) A1 HT1 HG1 HN1) as (T2 & A2 & -> & HT2 & E2).
    exists T2, A2. split; [reflexivity|]. split; [exact HT2|]. intros s. rewrite E2. cbn [flat_map]. rewrite asweeps_app.
    apply asweeps_ext. destruct (sequential_together _ ND HL Hap A HN) as (_ & C2). exact (together_unique _ _ _ _ C1 C2).
  - destruct (Hcs c (or_introl eq_refl)) as (ND & Hap & HL).
    destruct (parallel_same (colour D c) A HL Hap _ _ _ HP A HT HG HN) as (T1 & A1 & E1 & _).
    { intros q i _ E. discriminate. }
    { split; [reflexivity|]. split; [intros q i _ E; discriminate|reflexivity]. }
    discriminate.
Qed.
End Sweep.
