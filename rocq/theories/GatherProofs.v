(** Proofs about the gathering of the fields in three dimensions. *)
From Coq Require Import ZArith Reals List Bool Lia Lra Psatz.
From Verif Require Import Cxx Num NumRX CxxLemmas Fortran FortranNum FortranLemmas Grid GridLemmas Pushers SpecPush PusherProofs Deposit SpecPhys SpecYee YeeReal SpecDeposit
  Splines Sums DepositProofs DepositMore Gather SpecGather GatherReal.
Import ListNotations.
Local Open Scope R_scope.

(** ** blocks of particles *)
Lemma blocks_loop {N : FNum} np lvect body xs (fs : list (fld N)) : (1 <= lvect)%Z -> over_blocks np lvect body xs fs = over_particles np body xs fs.
Proof.
  intros H. unfold over_blocks, over_particles. destruct (Z.eqb_spec lvect 0); [lia|].
  rewrite <- (do_step_blocks (at_particle body xs) np lvect H (Z.to_nat ((np - 1 + lvect) ÷ lvect)) 1%Z fs).
  - set (nb := Z.to_nat _). clearbody nb.
    enough (K : forall nb i fs, do_step nb i lvect (fun ip fs => do_range ip (Z.min (ip + lvect - 1) np) (at_particle body xs) fs) fs =
      do_step nb i lvect (fun ip => do_range 1 (Z.min lvect (np - ip + 1)) (fun k => at_particle body xs (ip + k - 1))) fs) by apply K.
    clear fs nb. induction nb as [|nb IH]; intros i fs; cbn [do_step]; [reflexivity|].
    replace (do_range i (Z.min (i + lvect - 1) np) (at_particle body xs) fs) with
      (do_range 1 (Z.min lvect (np - i + 1)) (fun k s => at_particle body xs (i + k - 1) s) fs).
    + destruct (do_range _ _ _ _); cbn [bind]; try reflexivity. apply IH.
    + unfold do_range. rewrite (do_loop_ext _ (fun k s => at_particle body xs ((i - 1) + k) s)) by (intros j t _; f_equal; lia).
      rewrite do_loop_shift. f_equal; lia.
  - destruct (Z_le_gt_dec 0 (np - 1 + lvect)) as [L|L].
    + rewrite Z.quot_div_nonneg by lia. pose proof (Z.div_pos (np - 1 + lvect) lvect L ltac:(lia)). lia.
    + assert ((np - 1 + lvect) ÷ lvect <= 0)%Z. { rewrite <- (Z.opp_involutive (np - 1 + lvect)), Z.quot_opp_l by lia. pose proof (Z.quot_pos (- (np - 1 + lvect)) lvect ltac:(lia) ltac:(lia)). lia. }
      assert ((np - 1 + lvect) / lvect <= 0)%Z by (apply Z.div_le_upper_bound; lia). lia.
Qed.

(** ** the loop over the particles on lists *)
Lemma set1_mid' {A} (d : list A) x y l : set1 (d ++ x :: l) (1 + zlen d) y = Ret (d ++ y :: l).
Proof. apply set1_mid. Qed.
Section Run.
Context {A : Type} (P : A -> pos3 FRX) {V : Type} (Q : V -> fld FRX) (body : pos3 FRX -> fld FRX -> out (fld FRX)) (ok : A -> bool) (h : A -> V -> V).
Hypothesis body_is : forall a v, body (P a) (Q v) = if ok a then Ret (Q (h a v)) else UB.
Lemma run_from : forall (ps : list A) (vs : list V) dp dv, length ps = length vs -> length dp = length dv ->
  do_loop (length ps) (1 + zlen dv) (at_particle body (map P (dp ++ ps))) (map Q (dv ++ vs)) =
  if forallb ok ps then Ret (map Q (dv ++ map (fun av => h (fst av) (snd av)) (combine ps vs))) else UB.
Proof.
  induction ps as [|a ps IH]; intros [|v vs] dp dv L1 L2; try discriminate; [reflexivity|]. cbn [length do_loop forallb combine map].
  assert (E1 : get1 (map P (dp ++ a :: ps)) (1 + zlen dv) = Ret (P a)).
  { rewrite map_app. cbn [map]. replace (zlen dv) with (zlen (map P dp)) by (unfold zlen; rewrite map_length; lia). apply get1_mid. }
  assert (E2 : get1 (map Q (dv ++ v :: vs)) (1 + zlen dv) = Ret (Q v)).
  { rewrite map_app. cbn [map]. replace (zlen dv) with (zlen (map Q dv)) by (unfold zlen; rewrite map_length; lia). apply get1_mid. }
  unfold at_particle at 1. rewrite E1. cbn [bind]. rewrite E2. cbn [bind]. rewrite body_is. destruct (ok a); cbn [andb bind]; [|reflexivity].
  assert (E3 : set1 (map Q (dv ++ v :: vs)) (1 + zlen dv) (Q (h a v)) = Ret (map Q ((dv ++ [h a v]) ++ vs))).
  { rewrite !map_app. cbn [map]. rewrite <- app_assoc. cbn [app]. replace (zlen dv) with (zlen (map Q dv)) by (unfold zlen; rewrite map_length; lia). apply set1_mid'. }
  rewrite E3. cbn [bind]. specialize (IH vs (dp ++ [a]) (dv ++ [h a v])). rewrite <- app_assoc in IH. cbn [app] in IH.
  replace (1 + zlen dv + 1)%Z with (1 + zlen (dv ++ [h a v]))%Z by (unfold zlen; rewrite app_length; cbn [length]; lia).
  rewrite IH; [|injection L1; auto|rewrite !app_length; cbn [length]; lia]. cbn [fst snd]. destruct (forallb ok ps); [|reflexivity]. rewrite <- app_assoc. reflexivity.
Qed.
Lemma run ps vs : length ps = length vs -> over_particles (zlen ps) body (map P ps) (map Q vs) =
  if forallb ok ps then Ret (map Q (map (fun av => h (fst av) (snd av)) (combine ps vs))) else UB.
Proof.
  intros L. unfold over_particles, do_range. replace (Z.to_nat (zlen ps - 1 + 1)) with (length ps) by (unfold zlen; lia).
  exact (run_from ps vs [] [] L eq_refl).
Qed.
End Run.

(** ** one particle *)
Definition nodes6 : Type := ((Z * Z * Z) * (Z * Z * Z))%type.
Definition nodes_of (s : scheme) (x y z : num FRX) : out nodes6 :=
  let o := sc_order s in let sh := stagger_shift (N := FRX) (sc_nodal s) in
  do j <- node (onx o) x; do k <- node (ony o) y; do l <- node (onz o) z;
  do j0 <- node0 (onx o) (sc_lower s) sh x; do k0 <- node0 (ony o) (sc_lower s) sh y; do l0 <- node0 (onz o) (sc_lower s) sh z; Ret ((j, k, l), (j0, k0, l0)).
Definition low_deg (s : scheme) (n : Z) : Z := (if sc_lower s then n - 1 else n)%Z.
Definition pax (sh : Z -> num FRX -> Z -> num FRX) zr n (x : num FRX) (j : Z) : axw FRX := AxW j (smin n) (smax n) (fun m => factor zr n (sh n (n_sub x (n_of_Z j)) m)).
Definition sax (sh : Z -> num FRX -> Z -> num FRX) zr s n (x : num FRX) (j : Z) : axw FRX :=
  AxW j (smin (low_deg s n)) (smax (low_deg s n)) (fun m => factor zr n (sh (low_deg s n) (n_sub (n_sub x (stagger_shift (sc_nodal s))) (n_of_Z j)) m)).
Definition axes6 sh zr (s : scheme) (x y z : num FRX) (ns : nodes6) : axes FRX :=
  let o := sc_order s in let '((j, k, l), (j0, k0, l0)) := ns in
  Axes (pax sh zr (onx o) x j) (pax sh zr (ony o) y k) (pax sh zr (onz o) z l) (sax sh zr s (onx o) x j0) (sax sh zr s (ony o) y k0) (sax sh zr s (onz o) z l0).
Lemma axes_of_nodes sh zr s x y z :
  axes_of sh zr (onx (sc_order s)) (ony (sc_order s)) (onz (sc_order s)) (sc_lower s) (sc_nodal s) x y z = (do ns <- nodes_of s x y z; Ret (axes6 sh zr s x y z ns)).
Proof.
  unfold axes_of, nodes_of, plain, stag. cbv zeta.
  destruct (node (onx (sc_order s)) x); cbn [bind]; try reflexivity. destruct (node (ony (sc_order s)) y); cbn [bind]; try reflexivity.
  destruct (node (onz (sc_order s)) z); cbn [bind]; try reflexivity. destruct (node0 (onx (sc_order s)) _ _ x); cbn [bind]; try reflexivity.
  destruct (node0 (ony (sc_order s)) _ _ y); cbn [bind]; try reflexivity. destruct (node0 (onz (sc_order s)) _ _ z); cbn [bind]; try reflexivity.
Qed.

(** the axes for component d *)
Definition axE (A : axes FRX) (d c : axis) : axw FRX := match d, c with
  | AX, AX => sX A | AX, AY => pY A | AX, AZ => pZ A | AY, AX => pX A | AY, AY => sY A | AY, AZ => pZ A | AZ, AX => pX A | AZ, AY => pY A | AZ, AZ => sZ A end.
Definition axB (A : axes FRX) (d c : axis) : axw FRX := match d, c with
  | AX, AX => pX A | AX, AY => sY A | AX, AZ => sZ A | AY, AX => sX A | AY, AY => pY A | AY, AZ => sZ A | AZ, AX => sX A | AZ, AY => sY A | AZ, AZ => pZ A end.
Definition ax_of (q : quantity) := match q with Electric => axE | Magnetic => axB end.
Definition fine (A : axes FRX) (q : quantity) (Q : arrays) (d : axis) : bool :=
  within (ax_of q A d AX) (ax_of q A d AY) (ax_of q A d AZ) (ar_lo Q d) (ar_hi Q d).
Definition fine3 A q Q : bool := fine A q Q AX && fine A q Q AY && fine A q Q AZ.
Definition good_axes (A : axes FRX) (W : quantity -> axis -> axis -> Z -> R) : Prop := forall q d c, good (ax_of q A d c) (W q d c).
Definition value (W : quantity -> axis -> axis -> Z -> R) (q : quantity) (Q : arrays) (d : axis) : R :=
  total (W q d AX) (W q d AY) (W q d AZ) (ar_lo Q d) (ar_hi Q d) (comp d (ar_at Q)).
Definition exact_weights (s : scheme) (u : axis -> R) : quantity -> axis -> axis -> Z -> R := fun q d c => weight_on s q d c (u c).
Lemma value_is s q g a Q d : value (exact_weights s (fun c => unit_on g c a)) q Q d = interpolated s q d g (ar_lo Q d) (ar_hi Q d) (comp d (ar_at Q)) a.
Proof. unfold value, total, interpolated, sum_box. apply sumR_ext. intros [[j k] l] _. reflexivity. Qed.

Section Body.
Variables (A : axes FRX) (W : quantity -> axis -> axis -> Z -> R) (E B : field (num FRX)) (QE QB : arrays).
Hypotheses (GA : good_axes A W) (HE : stored E QE) (HB : stored B QB).
Lemma gete_real sgx sgy sx sy v : (forall t, sgx (F t) = F (t * sx)) -> (forall t, sgy (F t) = F (t * sy)) ->
  gete sgx sgy A E (fld_of v) = if fine3 A Electric QE then
    Ret (fld_of (add3 (fst v) (mk3 (sx * value W Electric QE AX) (sy * value W Electric QE AY) (value W Electric QE AZ)), snd v)) else UB.
Proof.
  intros Sx Sy. destruct v as [v w]. unfold gete. cbn [fld_of ex ey ez bx by_ bz fst snd].
  rewrite (gather_real _ _ _ _ _ _ _ _ _ _ (GA Electric AX AX) (GA Electric AX AY) (GA Electric AX AZ) (HE AX) sgx sx) by exact Sx.
  unfold fine3. fold (fine A Electric QE AX). destruct (fine A Electric QE AX); cbn [bind andb]; [|reflexivity].
  rewrite (gather_real _ _ _ _ _ _ _ _ _ _ (GA Electric AY AX) (GA Electric AY AY) (GA Electric AY AZ) (HE AY) sgy sy) by exact Sy.
  fold (fine A Electric QE AY). destruct (fine A Electric QE AY); cbn [bind andb]; [|reflexivity].
  rewrite (gather_real _ _ _ _ _ _ _ _ _ _ (GA Electric AZ AX) (GA Electric AZ AY) (GA Electric AZ AZ) (HE AZ) same 1) by (intros t; unfold same; apply (f_equal Fin); ring).
  fold (fine A Electric QE AZ). destruct (fine A Electric QE AZ); cbn [bind andb]; [|reflexivity].
  unfold fld_of, add3. cbn [x3 y3 z3]. do 2 f_equal. apply (f_equal Fin). fold (value W Electric QE AZ). ring.
Qed.
Lemma getb_real sgx sgy sx sy v : (forall t, sgx (F t) = F (t * sx)) -> (forall t, sgy (F t) = F (t * sy)) ->
  getb sgx sgy A B (fld_of v) = if fine3 A Magnetic QB then
    Ret (fld_of (fst v, add3 (snd v) (mk3 (sx * value W Magnetic QB AX) (sy * value W Magnetic QB AY) (value W Magnetic QB AZ)))) else UB.
Proof.
  intros Sx Sy. destruct v as [w v]. unfold getb. cbn [fld_of ex ey ez bx by_ bz fst snd].
  rewrite (gather_real _ _ _ _ _ _ _ _ _ _ (GA Magnetic AX AX) (GA Magnetic AX AY) (GA Magnetic AX AZ) (HB AX) sgx sx) by exact Sx.
  unfold fine3. fold (fine A Magnetic QB AX). destruct (fine A Magnetic QB AX); cbn [bind andb]; [|reflexivity].
  rewrite (gather_real _ _ _ _ _ _ _ _ _ _ (GA Magnetic AY AX) (GA Magnetic AY AY) (GA Magnetic AY AZ) (HB AY) sgy sy) by exact Sy.
  fold (fine A Magnetic QB AY). destruct (fine A Magnetic QB AY); cbn [bind andb]; [|reflexivity].
  rewrite (gather_real _ _ _ _ _ _ _ _ _ _ (GA Magnetic AZ AX) (GA Magnetic AZ AY) (GA Magnetic AZ AZ) (HB AZ) same 1) by (intros t; unfold same; apply (f_equal Fin); ring).
  fold (fine A Magnetic QB AZ). destruct (fine A Magnetic QB AZ); cbn [bind andb]; [|reflexivity].
  unfold fld_of, add3. cbn [x3 y3 z3]. do 2 f_equal. apply (f_equal Fin). fold (value W Magnetic QB AZ). ring.
Qed.
Definition sampled : eb := (of_axes (value W Electric QE), of_axes (value W Magnetic QB)).
Lemma nested_body v : geteb_nested A E B (fld_of v) = if fine3 A Electric QE && fine3 A Magnetic QB then Ret (fld_of (add_eb v sampled)) else UB.
Proof.
  destruct v as [v w]. unfold geteb_nested, fine3. cbn [fld_of ex ey ez bx by_ bz].
  rewrite (nested_real _ _ _ _ _ _ _ _ _ _ (GA Electric AX AX) (GA Electric AX AY) (GA Electric AX AZ) (HE AX)).
  fold (fine A Electric QE AX). destruct (fine A Electric QE AX); cbn [bind andb]; [|reflexivity].
  rewrite (nested_real _ _ _ _ _ _ _ _ _ _ (GA Electric AY AX) (GA Electric AY AY) (GA Electric AY AZ) (HE AY)).
  fold (fine A Electric QE AY). destruct (fine A Electric QE AY); cbn [bind andb]; [|reflexivity].
  rewrite (nested_real _ _ _ _ _ _ _ _ _ _ (GA Electric AZ AX) (GA Electric AZ AY) (GA Electric AZ AZ) (HE AZ)).
  fold (fine A Electric QE AZ). destruct (fine A Electric QE AZ); cbn [bind andb]; [|reflexivity].
  rewrite (nested_real _ _ _ _ _ _ _ _ _ _ (GA Magnetic AX AX) (GA Magnetic AX AY) (GA Magnetic AX AZ) (HB AX)).
  fold (fine A Magnetic QB AX). destruct (fine A Magnetic QB AX); cbn [bind andb]; [|reflexivity].
  rewrite (nested_real _ _ _ _ _ _ _ _ _ _ (GA Magnetic AY AX) (GA Magnetic AY AY) (GA Magnetic AY AZ) (HB AY)).
  fold (fine A Magnetic QB AY). destruct (fine A Magnetic QB AY); cbn [bind andb]; [|reflexivity].
  rewrite (nested_real _ _ _ _ _ _ _ _ _ _ (GA Magnetic AZ AX) (GA Magnetic AZ AY) (GA Magnetic AZ AZ) (HB AZ)).
  fold (fine A Magnetic QB AZ). destruct (fine A Magnetic QB AZ); cbn [bind andb]; reflexivity.
Qed.
End Body.

Lemma weight_plain s q d c x i : between q d c = false -> (1 <= order_on (sc_order s) c)%Z -> weight_on s q d c x i = spline (order_on (sc_order s) c) x i.
Proof. intros Bt K. unfold weight_on, degree, offset. rewrite Bt. cbn [andb]. rewrite bspline_pos by exact K. f_equal. ring. Qed.
Lemma shift_fin nodal : stagger_shift (N := FRX) nodal = F (if nodal then 0 else 5 / 10).
Proof. destruct nodal; reflexivity. Qed.
Lemma weight_stag s q d c x i : between q d c = true -> weight_on s q d c x i = bspline (low_deg s (order_on (sc_order s) c)) (x - (if sc_nodal s then 0 else 5 / 10)) i.
Proof. intros Bt. unfold weight_on, degree, offset, low_deg. rewrite Bt. cbn [andb]. destruct (sc_lower s); f_equal; destruct (sc_nodal s); lra. Qed.
Lemma good_ext A w w' : (forall i, w i = w' i) -> good A w -> good A w'.
Proof. intros H (G1 & G2 & G3). split; [exact G1|]. split; [intros m B; rewrite <- H; auto | intros i B; rewrite <- H; auto]. Qed.

(** the shape factors of the orders used are exact *)
Definition exact_shape (sh : Z -> num FRX -> Z -> num FRX) (s : scheme) : Prop :=
  forall c t m, sh (order_on (sc_order s) c) (F t) m = F (rshape (order_on (sc_order s) c) t m) /\
    sh (low_deg s (order_on (sc_order s) c)) (F t) m = F (rshape (low_deg s (order_on (sc_order s) c)) t m).
Lemma proper_on s c : proper_scheme s -> (1 <= order_on (sc_order s) c <= 3)%Z.
Proof. intros (? & ? & ?). destruct c; cbn; assumption. Qed.
Lemma axes6_good sh zr s x y z ns : proper_scheme s -> exact_shape sh s -> nodes_of s (F x) (F y) (F z) = Ret ns ->
  good_axes (axes6 sh zr s (F x) (F y) (F z) ns) (exact_weights s (fun c => match c with AX => x | AY => y | AZ => z end)).
Proof.
  intros P S H. unfold nodes_of in H. cbv zeta in H.
  destruct (node (onx (sc_order s)) (F x)) as [j| | |] eqn:E1; cbn [bind] in H; try discriminate.
  destruct (node (ony (sc_order s)) (F y)) as [k| | |] eqn:E2; cbn [bind] in H; try discriminate.
  destruct (node (onz (sc_order s)) (F z)) as [l| | |] eqn:E3; cbn [bind] in H; try discriminate.
  rewrite shift_fin in H.
  destruct (node0 (onx (sc_order s)) _ _ (F x)) as [j0| | |] eqn:E4; cbn [bind] in H; try discriminate.
  destruct (node0 (ony (sc_order s)) _ _ (F y)) as [k0| | |] eqn:E5; cbn [bind] in H; try discriminate.
  destruct (node0 (onz (sc_order s)) _ _ (F z)) as [l0| | |] eqn:E6; cbn [bind] in H; try discriminate. injection H as <-.
  assert (PL : forall c n x j, n = order_on (sc_order s) c -> node n (F x) = Ret j -> good (pax sh zr n (F x) j) (spline n x)).
  { intros c n x' j' -> Hn. apply (plain_good sh zr (order_on (sc_order s) c) x').
    - apply proper_on; exact P.
    - intros t m. apply S.
    - unfold plain. rewrite Hn. reflexivity. }
  assert (ST : forall c n x j, n = order_on (sc_order s) c -> node0 n (sc_lower s) (F (if sc_nodal s then 0 else 5 / 10)) (F x) = Ret j ->
    good (sax sh zr s n (F x) j) (bspline (low_deg s n) (x - (if sc_nodal s then 0 else 5 / 10)))).
  { intros c n x' j' -> Hn. apply (stag_good sh zr (order_on (sc_order s) c) (sc_lower s) _ x' _ (proper_on s c P) (low_deg s (order_on (sc_order s) c)) eq_refl).
    - intros t m. apply S.
    - unfold stag. rewrite Hn. cbn [bind]. unfold sax. rewrite shift_fin. reflexivity. }
  assert (Pc : forall c, (1 <= order_on (sc_order s) c)%Z) by (intros c; pose proof (proper_on s c P); lia).
  assert (K1 : forall q d c t X, between q d c = false -> good X (spline (order_on (sc_order s) c) t) -> good X (weight_on s q d c t)).
  { intros q d c t X Bt. apply good_ext. intros i. symmetry. apply weight_plain; auto. }
  assert (K2 : forall q d c t X, between q d c = true -> good X (bspline (low_deg s (order_on (sc_order s) c)) (t - (if sc_nodal s then 0 else 5 / 10))) -> good X (weight_on s q d c t)).
  { intros q d c t X Bt. apply good_ext. intros i. symmetry. apply weight_stag; auto. }
  intros q d c. unfold axes6, exact_weights.
  destruct q, d, c; cbn [ax_of axE axB pX pY pZ sX sY sZ]; first [ apply K1; [reflexivity|] | apply K2; [reflexivity|] ].
  all: first [ apply (PL AX _ _ _ eq_refl E1) | apply (PL AY _ _ _ eq_refl E2) | apply (PL AZ _ _ _ eq_refl E3)
             | apply (ST AX _ _ _ eq_refl E4) | apply (ST AY _ _ _ eq_refl E5) | apply (ST AZ _ _ _ eq_refl E6) ].
Qed.
Lemma nodes_out s x y z : (exists ns, nodes_of s (F x) (F y) (F z) = Ret ns) \/ nodes_of s (F x) (F y) (F z) = UB.
Proof.
  unfold nodes_of. cbv zeta. rewrite shift_fin.
  destruct (node_out (onx (sc_order s)) x) as [(j & ->)| ->]; cbn [bind]; [|auto]. destruct (node_out (ony (sc_order s)) y) as [(k & ->)| ->]; cbn [bind]; [|auto].
  destruct (node_out (onz (sc_order s)) z) as [(l & ->)| ->]; cbn [bind]; [|auto].
  destruct (node0_out (onx (sc_order s)) (sc_lower s) (if sc_nodal s then 0 else 5 / 10) x) as [(j0 & ->)| ->]; cbn [bind]; [|auto].
  destruct (node0_out (ony (sc_order s)) (sc_lower s) (if sc_nodal s then 0 else 5 / 10) y) as [(k0 & ->)| ->]; cbn [bind]; [|auto].
  destruct (node0_out (onz (sc_order s)) (sc_lower s) (if sc_nodal s then 0 else 5 / 10) z) as [(l0 & ->)| ->]; cbn [bind]; eauto.
Qed.

(** the particle's nodes can be computed and all points read are in the arrays *)
Definition okE (s : scheme) (g : cells) (QE : arrays) (a : rpart) : bool :=
  match nodes_of s (F (unit_x g (rpx a))) (F (unit_y g (rpy a))) (F (unit_z g (rpz a))) with
  | Ret ns => fine3 (axes6 shape_half true s (F (unit_x g (rpx a))) (F (unit_y g (rpy a))) (F (unit_z g (rpz a))) ns) Electric QE | _ => false end.
Definition okB (s : scheme) (g : cells) (QB : arrays) (a : rpart) : bool :=
  match nodes_of s (F (unit_x g (rpx a))) (F (unit_y g (rpy a))) (F (unit_z g (rpz a))) with
  | Ret ns => fine3 (axes6 shape_half true s (F (unit_x g (rpx a))) (F (unit_y g (rpy a))) (F (unit_z g (rpz a))) ns) Magnetic QB | _ => false end.
Lemma fine3_sh sh zr s x y z ns q Q : fine3 (axes6 sh zr s x y z ns) q Q = fine3 (axes6 shape_half true s x y z ns) q Q.
Proof. destruct ns as [[[j k] l] [[j0 k0] l0]]. destruct q; reflexivity. Qed.
Lemma exact_half s : exact_shape shape_half s.
Proof. intros c t m. split; apply shape_half_fin. Qed.
Lemma exact_2d s : proper_scheme s -> (onx (sc_order s) <= 2 /\ ony (sc_order s) <= 2 /\ onz (sc_order s) <= 2)%Z -> exact_shape shape_2d s.
Proof.
  intros P H c t m. assert (K : (0 <= order_on (sc_order s) c <= 2)%Z) by (destruct P as (? & ? & ?); destruct c; cbn; lia).
  assert (K0 : (0 <= low_deg s (order_on (sc_order s) c) <= 2)%Z) by (destruct P as (? & ? & ?); destruct c; cbn in *; unfold low_deg; destruct (sc_lower s); lia).
  rewrite !shape2_fin, !rshape2_low by assumption. auto.
Qed.
Definition gains_E s g QE QB (a : rpart) (v : eb) : eb := add_eb v (fst (fields_at s g QE QB a), mk3 0 0 0).
Definition gains_B s g QE QB (a : rpart) (v : eb) : eb := add_eb v (mk3 0 0 0, snd (fields_at s g QE QB a)).
Lemma add3_0 v : add3 v (mk3 0 0 0) = v.
Proof. destruct v. unfold add3. cbn. f_equal; ring. Qed.
Definition uof (g : cells) (a : rpart) (c : axis) : R := match c with AX => unit_x g (rpx a) | AY => unit_y g (rpy a) | AZ => unit_z g (rpz a) end.
Lemma value_u s q g a Q d : value (exact_weights s (fun c => match c with AX => unit_x g (rpx a) | AY => unit_y g (rpy a) | AZ => unit_z g (rpz a) end)) q Q d =
  interpolated s q d g (ar_lo Q d) (ar_hi Q d) (comp d (ar_at Q)) a.
Proof. rewrite <- value_is. unfold value. reflexivity. Qed.

Section Particle.
Variables (s : scheme) (g : cells) (E B : field (num FRX)) (QE QB : arrays).
Hypotheses (Ps : proper_scheme s) (Pg : proper g) (HE : stored E QE) (HB : stored B QB).
Let o := sc_order s.
Lemma bodyE sh zr sg a v : exact_shape sh s -> (forall t, sg (F t) = F (t * 1)) ->
  (do A <- axes_of sh zr (onx o) (ony o) (onz o) (sc_lower s) (sc_nodal s) (gridx (geom_of g) (pos_of a)) (gridy (geom_of g) (pos_of a)) (gridz (geom_of g) (pos_of a));
    gete sg sg A E (fld_of v)) = if okE s g QE a then Ret (fld_of (gains_E s g QE QB a v)) else UB.
Proof.
  intros Sh Sg. destruct Pg as (P1 & P2 & P3). rewrite gridx_fin, gridy_fin, gridz_fin by assumption. unfold o. rewrite axes_of_nodes. unfold okE.
  destruct (nodes_out s (unit_x g (rpx a)) (unit_y g (rpy a)) (unit_z g (rpz a))) as [(ns & Hn)|Hn]; rewrite Hn; cbn [bind]; [|reflexivity].
  rewrite (gete_real _ _ E QE (axes6_good sh zr s _ _ _ ns Ps Sh Hn) HE sg sg 1 1 v Sg Sg). rewrite fine3_sh. destruct (fine3 _ Electric QE); [|reflexivity].
  do 2 f_equal. unfold gains_E, add_eb. cbn [fst snd]. rewrite add3_0. f_equal. unfold fields_at. cbn [fst]. unfold of_axes. rewrite !value_u. f_equal. f_equal; ring.
Qed.
Lemma bodyB sh zr sg a v : exact_shape sh s -> (forall t, sg (F t) = F (t * 1)) ->
  (do A <- axes_of sh zr (onx o) (ony o) (onz o) (sc_lower s) (sc_nodal s) (gridx (geom_of g) (pos_of a)) (gridy (geom_of g) (pos_of a)) (gridz (geom_of g) (pos_of a));
    getb sg sg A B (fld_of v)) = if okB s g QB a then Ret (fld_of (gains_B s g QE QB a v)) else UB.
Proof.
  intros Sh Sg. destruct Pg as (P1 & P2 & P3). rewrite gridx_fin, gridy_fin, gridz_fin by assumption. unfold o. rewrite axes_of_nodes. unfold okB.
  destruct (nodes_out s (unit_x g (rpx a)) (unit_y g (rpy a)) (unit_z g (rpz a))) as [(ns & Hn)|Hn]; rewrite Hn; cbn [bind]; [|reflexivity].
  rewrite (getb_real _ _ B QB (axes6_good sh zr s _ _ _ ns Ps Sh Hn) HB sg sg 1 1 v Sg Sg). rewrite fine3_sh. destruct (fine3 _ Magnetic QB); [|reflexivity].
  do 2 f_equal. unfold gains_B, add_eb. cbn [fst snd]. rewrite add3_0. f_equal. unfold fields_at. cbn [snd]. unfold of_axes. rewrite !value_u. f_equal. f_equal; ring.
Qed.
Lemma bodyN sh zr a v : exact_shape sh s ->
  (do A <- axes_of sh zr (onx o) (ony o) (onz o) (sc_lower s) (sc_nodal s) (gridx (geom_of g) (pos_of a)) (gridy (geom_of g) (pos_of a)) (gridz (geom_of g) (pos_of a));
    geteb_nested A E B (fld_of v)) = if okE s g QE a && okB s g QB a then Ret (fld_of (add_eb v (fields_at s g QE QB a))) else UB.
Proof.
  intros Sh. destruct Pg as (P1 & P2 & P3). rewrite gridx_fin, gridy_fin, gridz_fin by assumption. unfold o. rewrite axes_of_nodes. unfold okE, okB.
  destruct (nodes_out s (unit_x g (rpx a)) (unit_y g (rpy a)) (unit_z g (rpz a))) as [(ns & Hn)|Hn]; rewrite Hn; cbn [bind andb]; [|reflexivity].
  rewrite (nested_body _ _ E B QE QB (axes6_good sh zr s _ _ _ ns Ps Sh Hn) HE HB v).
  rewrite (fine3_sh sh zr s _ _ _ ns Electric), (fine3_sh sh zr s _ _ _ ns Magnetic). destruct (_ && _)%bool; [|reflexivity].
  do 3 f_equal. unfold sampled, fields_at, of_axes. rewrite !value_u. reflexivity.
Qed.
End Particle.

(** ** the vectorised routine of order one with the lower order along the staggered axes *)
Lemma zr00 : zrange 0 0 = [0%Z]. Proof. reflexivity. Qed.
Lemma zr01 : zrange 0 1 = [0%Z; 1%Z]. Proof. reflexivity. Qed.
Section Small.
Variables (g : grid (num FRX)) (lo hi : idx) (f : idx -> R).
Hypothesis Gg : isg g lo hi f.
Definition ax0 (j : Z) : axw FRX := AxW j 0 0 (fun _ => Ret (F 1)).
Definition ax1 (j : Z) (t : R) : axw FRX := AxW j 0 1 (fun m => Ret (if (m =? 0)%Z then F (1 - t) else F t)).
Local Ltac values := repeat match goal with |- context [get3 g ?p] => let v := fresh "v" in let H := fresh "H" in
  destruct (get3_any g lo hi f Gg p) as [(v & H)|H]; rewrite !H; cbn [bind]; try reflexivity end.
Local Ltac small := intros; unfold nested, plus_terms, ax0, ax1; cbn [ax_node ax_lo ax_hi ax_w]; rewrite ?zr00, ?zr01;
  change (zrange (0 + 1) 0) with (@nil Z); change (zrange (0 + 1) 1) with [1%Z]; cbn [each bind Z.eqb]; rewrite ?Z.add_0_r; values;
  apply (f_equal Ret); apply (f_equal Fin); ring.
Lemma small_011 e j k l y z : nested (ax0 j) (ax1 k y) (ax1 l z) g (F e) =
  (do e1 <- get3 g (j, k, l)%Z; do e2 <- get3 g (j, k + 1, l)%Z; do e3 <- get3 g (j, k, l + 1)%Z; do e4 <- get3 g (j, k + 1, l + 1)%Z;
   Ret (n_add (F e) (n_add (n_mul (n_add (n_mul (F (1 - y)) e1) (n_mul (F y) e2)) (F (1 - z))) (n_mul (n_add (n_mul (F (1 - y)) e3) (n_mul (F y) e4)) (F z))))).
Proof. small. Qed.
Lemma small_101 e j k l x z : nested (ax1 j x) (ax0 k) (ax1 l z) g (F e) =
  (do e1 <- get3 g (j, k, l)%Z; do e2 <- get3 g (j + 1, k, l)%Z; do e3 <- get3 g (j, k, l + 1)%Z; do e4 <- get3 g (j + 1, k, l + 1)%Z;
   Ret (n_add (F e) (n_add (n_mul (n_add (n_mul (F (1 - x)) e1) (n_mul (F x) e2)) (F (1 - z))) (n_mul (n_add (n_mul (F (1 - x)) e3) (n_mul (F x) e4)) (F z))))).
Proof. small. Qed.
Lemma small_110 e j k l x y : nested (ax1 j x) (ax1 k y) (ax0 l) g (F e) =
  (do e1 <- get3 g (j, k, l)%Z; do e2 <- get3 g (j + 1, k, l)%Z; do e3 <- get3 g (j, k + 1, l)%Z; do e4 <- get3 g (j + 1, k + 1, l)%Z;
   Ret (n_add (F e) (n_add (n_mul (n_add (n_mul (F (1 - x)) e1) (n_mul (F x) e2)) (F (1 - y))) (n_mul (n_add (n_mul (F (1 - x)) e3) (n_mul (F x) e4)) (F y))))).
Proof. small. Qed.
Lemma small_100 e j k l x : nested (ax1 j x) (ax0 k) (ax0 l) g (F e) =
  (do e1 <- get3 g (j, k, l)%Z; do e2 <- get3 g (j + 1, k, l)%Z; Ret (n_add (F e) (n_add (n_mul (F (1 - x)) e1) (n_mul (F x) e2)))).
Proof. small. Qed.
Lemma small_010 e j k l y : nested (ax0 j) (ax1 k y) (ax0 l) g (F e) =
  (do e1 <- get3 g (j, k, l)%Z; do e2 <- get3 g (j, k + 1, l)%Z; Ret (n_add (F e) (n_add (n_mul (F (1 - y)) e1) (n_mul (F y) e2)))).
Proof. small. Qed.
Lemma small_001 e j k l z : nested (ax0 j) (ax0 k) (ax1 l z) g (F e) =
  (do e1 <- get3 g (j, k, l)%Z; do e2 <- get3 g (j, k, l + 1)%Z; Ret (n_add (F e) (n_add (n_mul (F (1 - z)) e1) (n_mul (F z) e2)))).
Proof. small. Qed.
End Small.
Lemma bind_assoc' {A B C} (m : out A) (f : A -> out B) (h : B -> out C) : bind (bind m f) h = bind m (fun a => bind (f a) h).
Proof. destruct m; reflexivity. Qed.
Lemma nested_ext X X' Y Y' V V' (g : grid (num FRX)) e :
  (ax_node X = ax_node X' /\ ax_lo X = ax_lo X' /\ ax_hi X = ax_hi X' /\ forall m, (ax_lo X <= m <= ax_hi X)%Z -> ax_w X m = ax_w X' m) ->
  (ax_node Y = ax_node Y' /\ ax_lo Y = ax_lo Y' /\ ax_hi Y = ax_hi Y' /\ forall m, (ax_lo Y <= m <= ax_hi Y)%Z -> ax_w Y m = ax_w Y' m) ->
  (ax_node V = ax_node V' /\ ax_lo V = ax_lo V' /\ ax_hi V = ax_hi V' /\ forall m, (ax_lo V <= m <= ax_hi V)%Z -> ax_w V m = ax_w V' m) ->
  (ax_lo X <= ax_hi X)%Z -> (ax_lo Y <= ax_hi Y)%Z -> nested X Y V g e = nested X' Y' V' g e.
Proof.
  intros (X1 & X2 & X3 & X4) (Y1 & Y2 & Y3 & Y4) (V1 & V2 & V3 & V4) LX LY. unfold nested. rewrite <- X1, <- X2, <- X3, <- Y1, <- Y2, <- Y3, <- V1, <- V2, <- V3. rewrite !each_foldM.
  apply foldM_ext. intros ll e' Hl. rewrite in_zr in Hl. rewrite (V4 ll Hl).
  assert (PT : forall a b (h h' : Z -> out (num FRX)), (a <= b)%Z -> (forall i, (a <= i <= b)%Z -> h i = h' i) -> plus_terms a b h = plus_terms a b h').
  { intros a b h h' L H. unfold plus_terms. rewrite (H a) by lia. destruct (h' a); cbn [bind]; try reflexivity. rewrite !each_foldM. apply foldM_ext. intros i t Hi. rewrite in_zr in Hi. rewrite H by lia. reflexivity. }
  rewrite (PT _ _ _ (fun kk => do b <- plus_terms (ax_lo X) (ax_hi X) (fun jj => do sx <- ax_w X' jj; do v <- get3 g (ax_node X + jj, ax_node Y + kk, ax_node V + ll)%Z; Ret (n_mul sx v)); do sy <- ax_w Y' kk; Ret (n_mul b sy)) LY).
  - reflexivity.
  - intros kk Hk. rewrite (Y4 kk Hk).
    rewrite (PT _ _ (fun jj => do sx <- ax_w X jj; do v <- get3 g (ax_node X + jj, ax_node Y + kk, ax_node V + ll)%Z; Ret (n_mul sx v)) (fun jj => do sx <- ax_w X' jj; do v <- get3 g (ax_node X + jj, ax_node Y + kk, ax_node V + ll)%Z; Ret (n_mul sx v)) LX); [reflexivity|].
    intros jj Hj. rewrite (X4 jj Hj). reflexivity.
Qed.
Definition alike (X X' : axw FRX) : Prop := ax_node X = ax_node X' /\ ax_lo X = ax_lo X' /\ ax_hi X = ax_hi X' /\ forall m, (ax_lo X <= m <= ax_hi X)%Z -> ax_w X m = ax_w X' m.
Lemma pax_alike x j : alike (pax shape_half true 1 (F x) j) (ax1 j (x - IZR j)).
Proof.
  unfold alike, pax, ax1. cbn [ax_node ax_lo ax_hi ax_w]. change (smin 1) with 0%Z. change (smax 1) with 1%Z. split; [|split; [|split]]; try reflexivity.
Qed.
Lemma sax_alike s x j : sc_lower s = true -> alike (sax shape_half true s 1 (F x) j) (ax0 j).
Proof.
  intros L. unfold alike, sax, ax0, low_deg. rewrite L. cbn [ax_node ax_lo ax_hi ax_w]. change (smin (1 - 1)) with 0%Z. change (smax (1 - 1)) with 0%Z. split; [|split; [|split]]; try reflexivity.
Qed.
Lemma vec1_nested s x y z E B QE QB v : stored E QE -> stored B QB -> sc_order s = Build_orders 1 1 1 -> sc_lower s = true ->
  geteb_vec_1_lower (sc_nodal s) (F x) (F y) (F z) E B (fld_of v) =
  (do A <- axes_of shape_half true 1 1 1 true (sc_nodal s) (F x) (F y) (F z); geteb_nested A E B (fld_of v)).
Proof.
  intros HE HB O L. pose proof (axes_of_nodes shape_half true s (F x) (F y) (F z)) as AN. rewrite O, L in AN. cbn [onx ony onz] in AN. rewrite AN.
  unfold geteb_vec_1_lower, nodes_of. rewrite O, L. cbn [onx ony onz]. rewrite shift_fin. cbv zeta.
  assert (N1 : forall t, node 1 (F t) = floor32 (F t)) by reflexivity. rewrite !N1.
  assert (N2 : forall t u, node0 1 true (F u) (F t) = floor32 (F (t + 5 / 10 - u))) by reflexivity. rewrite !N2.
  set (h := if sc_nodal s then 0 else 5 / 10).
  change (n_sub (n_add (F x) (n_lit 5 (-1))) (F h)) with (F (x + 5 / 10 - h)).
  change (n_sub (n_add (F y) (n_lit 5 (-1))) (F h)) with (F (y + 5 / 10 - h)). change (n_sub (n_add (F z) (n_lit 5 (-1))) (F h)) with (F (z + 5 / 10 - h)).
  destruct (floor_out x) as [(j & ->)| ->]; cbn [bind]; [|reflexivity].
  destruct (floor_out (x + 5 / 10 - h)) as [(j0 & ->)| ->]; cbn [bind].
  2: { destruct (floor_out y) as [(? & ->)| ->]; cbn [bind]; [|reflexivity]. destruct (floor_out z) as [(? & ->)| ->]; reflexivity. }
  destruct (floor_out y) as [(k & ->)| ->]; cbn [bind]; [|reflexivity].
  destruct (floor_out (y + 5 / 10 - h)) as [(k0 & ->)| ->]; cbn [bind].
  2: { destruct (floor_out z) as [(? & ->)| ->]; reflexivity. }
  destruct (floor_out z) as [(l & ->)| ->]; cbn [bind]; [|reflexivity].
  destruct (floor_out (z + 5 / 10 - h)) as [(l0 & ->)| ->]; cbn [bind]; [|reflexivity].
  unfold axes6. rewrite O. cbn [onx ony onz]. unfold geteb_nested. cbn [pX pY pZ sX sY sZ].
  assert (le0 : forall x j, (ax_lo (pax shape_half true 1 (F x) j) <= ax_hi (pax shape_half true 1 (F x) j))%Z) by (intros; cbn; lia).
  assert (le1 : forall x j, (ax_lo (sax shape_half true s 1 (F x) j) <= ax_hi (sax shape_half true s 1 (F x) j))%Z) by (intros; unfold sax, low_deg; rewrite L; cbn; lia).
  rewrite (nested_ext _ _ _ _ _ _ _ _ (sax_alike s x j0 L) (pax_alike y k) (pax_alike z l)) by auto.
  rewrite (nested_ext _ _ _ _ _ _ _ _ (pax_alike x j) (sax_alike s y k0 L) (pax_alike z l)) by auto.
  rewrite (nested_ext _ _ _ _ _ _ _ _ (pax_alike x j) (pax_alike y k) (sax_alike s z l0 L)) by auto.
  rewrite (nested_ext _ _ _ _ _ _ _ _ (pax_alike x j) (sax_alike s y k0 L) (sax_alike s z l0 L)) by auto.
  rewrite (nested_ext _ _ _ _ _ _ _ _ (sax_alike s x j0 L) (pax_alike y k) (sax_alike s z l0 L)) by auto.
  rewrite (nested_ext _ _ _ _ _ _ _ _ (sax_alike s x j0 L) (sax_alike s y k0 L) (pax_alike z l)) by auto.
  destruct v as [v w]. cbn [fld_of ex ey ez bx by_ bz].
  rewrite (small_011 _ _ _ _ (HE AX)), (small_101 _ _ _ _ (HE AY)), (small_110 _ _ _ _ (HE AZ)), (small_100 _ _ _ _ (HB AX)), (small_010 _ _ _ _ (HB AY)), (small_001 _ _ _ _ (HB AZ)).
  cbn [array]. repeat match goal with |- context [@get3 ?T ?g ?p] => destruct (@get3 T g p); cbn [bind]; try reflexivity end.
Qed.

(** ** the routine *)
Definition okEB s g QE QB a : bool := okE s g QE a && okB s g QB a.
Definition gathered s g QE QB (ps : list rpart) (vs : list eb) : list eb := map (fun av => add_eb (snd av) (fields_at s g QE QB (fst av))) (combine ps vs).
Lemma combine_map {A B} (h : A -> B -> B) : forall (ps : list A) (vs : list B), combine ps (map (fun av => h (fst av) (snd av)) (combine ps vs)) = map (fun av => (fst av, h (fst av) (snd av))) (combine ps vs).
Proof. induction ps as [|a ps IH]; intros [|v vs]; cbn; try reflexivity. now rewrite IH. Qed.
Lemma two_parts s g QE QB a v : gains_B s g QE QB a (gains_E s g QE QB a v) = add_eb v (fields_at s g QE QB a).
Proof. unfold gains_B, gains_E, add_eb. cbn [fst snd]. now rewrite !add3_0. Qed.
Lemma forallb_and {A} (p q : A -> bool) l : forallb (fun a => p a && q a) l = (forallb p l && forallb q l)%bool.
Proof. induction l as [|a l IH]; cbn; [reflexivity|]. rewrite IH. destruct (p a), (q a), (forallb p l), (forallb q l); reflexivity. Qed.
Section Routine.
Variables (s : scheme) (g : cells) (E B : field (num FRX)) (QE QB : arrays).
Hypotheses (Ps : proper_scheme s) (Pg : proper g) (HE : stored E QE) (HB : stored B QB).
Lemma two_passes bodyE bodyB ps vs : length ps = length vs ->
  (forall a v, bodyE (pos_of a) (fld_of v) = if okE s g QE a then Ret (fld_of (gains_E s g QE QB a v)) else UB) ->
  (forall a v, bodyB (pos_of a) (fld_of v) = if okB s g QB a then Ret (fld_of (gains_B s g QE QB a v)) else UB) ->
  (do fs1 <- over_particles (zlen ps) bodyE (map pos_of ps) (map fld_of vs); over_particles (zlen ps) bodyB (map pos_of ps) fs1) =
  if forallb (okEB s g QE QB) ps then Ret (map fld_of (gathered s g QE QB ps vs)) else UB.
Proof.
  intros L H1 H2. rewrite (run pos_of fld_of bodyE _ _ H1 ps vs L). unfold okEB. rewrite forallb_and. destruct (forallb (okE s g QE) ps); cbn [bind andb]; [|reflexivity].
  rewrite (run pos_of fld_of bodyB _ _ H2 ps) by (rewrite map_length, combine_length; lia). destruct (forallb (okB s g QB) ps); [|reflexivity].
  f_equal. f_equal. rewrite combine_map, map_map. unfold gathered. apply map_ext. intros av. cbn [fst snd]. apply two_parts.
Qed.
Lemma blocks ps vs body lvect : (1 <= lvect)%Z -> length ps = length vs ->
  (forall a v, body (pos_of a) (fld_of v) = if okEB s g QE QB a then Ret (fld_of (add_eb v (fields_at s g QE QB a))) else UB) ->
  over_blocks (zlen ps) lvect body (map pos_of ps) (map fld_of vs) = if forallb (okEB s g QE QB) ps then Ret (map fld_of (gathered s g QE QB ps vs)) else UB.
Proof. intros Lv L H. rewrite blocks_loop by exact Lv. apply (run pos_of fld_of body _ _ H ps vs L). Qed.
Lemma any_run ps vs : length ps = length vs -> exact_shape shape_2d s ->
  geteb3d_any (zlen ps) (map pos_of ps) (map fld_of vs) (geom_of g) (onx (sc_order s)) (ony (sc_order s)) (onz (sc_order s)) E B false (sc_lower s) (sc_nodal s) =
  if forallb (okEB s g QE QB) ps then Ret (map fld_of (gathered s g QE QB ps vs)) else UB.
Proof.
  intros L Sh. unfold geteb3d_any, pxr_gete3d_n, pxr_getb3d_n. apply two_passes; [exact L| |]; intros a v; cbn [mirror].
  - apply bodyE; try assumption. intros t. reflexivity.
  - apply bodyB; try assumption. intros t. reflexivity.
Qed.
Lemma same_run ps vs n : length ps = length vs -> sc_order s = Build_orders n n n ->
  geteb3d_scalar n (zlen ps) (map pos_of ps) (map fld_of vs) (geom_of g) E B (sc_lower s) (sc_nodal s) =
  if forallb (okEB s g QE QB) ps then Ret (map fld_of (gathered s g QE QB ps vs)) else UB.
Proof.
  intros L O. unfold geteb3d_scalar, gete3d_scalar, getb3d_scalar. apply two_passes; [exact L| |]; intros a v.
  - pose proof (bodyE s g E QE QB Ps Pg HE shape_half false same a v (exact_half s)) as H. rewrite O in H. cbn [onx ony onz] in H. apply H. intros t. unfold same. apply (f_equal Fin). ring.
  - pose proof (bodyB s g B QE QB Ps Pg HB shape_half false same a v (exact_half s)) as H. rewrite O in H. cbn [onx ony onz] in H. apply H. intros t. unfold same. apply (f_equal Fin). ring.
Qed.
Lemma bodyV n a v : sc_order s = Build_orders n n n ->
  (do A <- axes_of shape_half true n n n (sc_lower s) (sc_nodal s) (gridx (geom_of g) (pos_of a)) (gridy (geom_of g) (pos_of a)) (gridz (geom_of g) (pos_of a)); geteb_nested A E B (fld_of v)) =
  if okEB s g QE QB a then Ret (fld_of (add_eb v (fields_at s g QE QB a))) else UB.
Proof. intros O. pose proof (bodyN s g E B QE QB Ps Pg HE HB shape_half true a v (exact_half s)) as H. rewrite O in H. exact H. Qed.
Lemma call_run ps vs lvect algo : length ps = length vs -> (1 <= lvect)%Z -> exact_choice algo (sc_order s) ->
  gather_call s g E B ps vs lvect algo = if forallb (okEB s g QE QB) ps then Ret (map fld_of (gathered s g QE QB ps vs)) else UB.
Proof.
  intros L Lv Ch. unfold geteb3d_energy_conserving_generic. cbv zeta.
  destruct (Z.eqb_spec (zlen ps) 0) as [E0|_].
  { destruct ps; [|unfold zlen in E0; cbn [length] in E0; lia]. destruct vs; [reflexivity|discriminate]. }
  destruct (Z.eqb_spec algo 2) as [->|A2].
  { apply any_run; [exact L|]. destruct Ch as [Ch|(Ch & _)]; [|lia]. apply exact_2d; assumption. }
  assert (Dv : forall n, (((onx (sc_order s) =? n) && (ony (sc_order s) =? n) && (onz (sc_order s) =? n))%Z = true -> sc_order s = Build_orders n n n) /\
    (((onx (sc_order s) =? n) && (ony (sc_order s) =? n) && (onz (sc_order s) =? n))%Z = false -> sc_order s <> Build_orders n n n)).
  { intros n. destruct (sc_order s) as [a b c]. cbn [onx ony onz]. split; intros H.
    - apply andb_prop in H. destruct H as [H H3]. apply andb_prop in H. destruct H as [H1 H2]. apply Z.eqb_eq in H1, H2, H3. now subst.
    - intros K. injection K as -> -> ->. now rewrite !Z.eqb_refl in H. }
  assert (Any : sc_order s <> Build_orders 1 1 1 -> sc_order s <> Build_orders 2 2 2 -> sc_order s <> Build_orders 3 3 3 -> exact_shape shape_2d s).
  { intros N1 N2 N3. apply exact_2d; [exact Ps|]. destruct Ch as [Ch|(_ & C1 & C2)]; [exact Ch|]. exfalso. destruct Ps as (P1 & _). destruct (sc_order s) as [a b c]. cbn [onx ony onz] in *. subst b c.
    assert (a = 1 \/ a = 2 \/ a = 3)%Z as [ -> |[ -> | -> ]] by lia; contradiction. }
  destruct (Z.eqb_spec algo 1) as [->|A1].
  - destruct (_ && _ && _)%bool eqn:E1; [apply same_run; [exact L|now apply Dv]|]. destruct (_ && _ && _)%bool eqn:E2 in |- *; [apply same_run; [exact L|now apply Dv]|].
    destruct (_ && _ && _)%bool eqn:E3 in |- *; [apply same_run; [exact L|now apply Dv]|]. apply any_run; [exact L|]. apply Any; apply Dv; assumption.
  - destruct (_ && _ && _)%bool eqn:E1.
    { assert (O := proj1 (Dv 1%Z) E1). apply blocks; [exact Lv|exact L|]. intros a v. destruct (sc_lower s) eqn:Lo.
      - pose proof Pg as (P1 & P2 & P3). rewrite gridx_fin, gridy_fin, gridz_fin by assumption. rewrite (vec1_nested s _ _ _ E B QE QB v HE HB O Lo).
        rewrite <- gridx_fin, <- gridy_fin, <- gridz_fin by assumption. pose proof (bodyV 1 a v O) as H. rewrite Lo in H. exact H.
      - pose proof (bodyV 1 a v O) as H. rewrite Lo in H. exact H. }
    destruct (_ && _ && _)%bool eqn:E2 in |- *. { apply blocks; [exact Lv|exact L|]. intros a v. apply bodyV. now apply Dv. }
    destruct (_ && _ && _)%bool eqn:E3 in |- *. { apply blocks; [exact Lv|exact L|]. intros a v. apply bodyV. now apply Dv. }
    apply any_run; [exact L|]. apply Any; apply Dv; assumption.
Qed.
End Routine.

(** ** the reach of a particle *)
Lemma degree_range s q d c : proper_scheme s -> (0 <= degree s q d c <= 3)%Z.
Proof. intros P. pose proof (proper_on s c P). unfold degree. destruct (_ && _)%bool; lia. Qed.
Lemma fits_cell m lo hi y j : (0 <= m <= 3)%Z -> fits m lo hi y -> cell m y j -> (lo <= j + smin m /\ j + smax m <= hi)%Z.
Proof.
  intros K. assert (G : forall a b : Z, IZR a < IZR b + 1 -> (a <= b)%Z) by (intros a b Hab; apply Z.lt_succ_r; apply lt_IZR; rewrite succ_IZR; exact Hab).
  pattern m. revert m K. apply four; unfold fits, cell, smin, smax.
  - change (0 =? 2 * (0 ÷ 2))%Z with true. change (0 ÷ 2)%Z with 0%Z. change ((0 + 1) ÷ 2)%Z with 0%Z. cbv iota. rewrite ?Z.add_0_r, ?Z.sub_0_r, ?Z.opp_0, ?Z.add_0_r. intros A B. split; apply G; lra.
  - change (1 =? 2 * (1 ÷ 2))%Z with false. change (1 ÷ 2)%Z with 0%Z. change ((1 + 1) ÷ 2)%Z with 1%Z. cbv iota. rewrite ?Z.add_0_r, ?Z.sub_0_r, ?Z.opp_0, ?Z.add_0_r. intros A B. assert (j < hi)%Z by (apply lt_IZR; lra). split; [|lia]. apply G. lra.
  - change (2 =? 2 * (2 ÷ 2))%Z with true. change (2 ÷ 2)%Z with 1%Z. change ((2 + 1) ÷ 2)%Z with 1%Z. cbv iota. rewrite plus_IZR, minus_IZR. intros A B. split; apply G; rewrite ?plus_IZR, ?minus_IZR, ?opp_IZR; lra.
  - change (3 =? 2 * (3 ÷ 2))%Z with false. change (3 ÷ 2)%Z with 1%Z. change ((3 + 1) ÷ 2)%Z with 2%Z. cbv iota. rewrite plus_IZR, minus_IZR. intros A B.
    assert (j < hi - 1)%Z by (apply lt_IZR; rewrite minus_IZR; lra). split; [|lia]. apply G. rewrite plus_IZR. change (IZR (- (1))) with (-1). lra.
Qed.
Lemma axes6_span s x y z ns q d c : proper_scheme s -> nodes_of s (F x) (F y) (F z) = Ret ns ->
  let A := ax_of q (axes6 shape_half true s (F x) (F y) (F z) ns) d c in
  first A = (ax_node A + smin (degree s q d c))%Z /\ last A = (ax_node A + smax (degree s q d c))%Z /\
  cell (degree s q d c) (match c with AX => x | AY => y | AZ => z end - offset s q d c) (ax_node A).
Proof.
  intros P H. unfold nodes_of in H. cbv zeta in H. rewrite shift_fin in H.
  destruct (node (onx (sc_order s)) (F x)) as [j| | |] eqn:E1; cbn [bind] in H; try discriminate.
  destruct (node (ony (sc_order s)) (F y)) as [k| | |] eqn:E2; cbn [bind] in H; try discriminate.
  destruct (node (onz (sc_order s)) (F z)) as [l| | |] eqn:E3; cbn [bind] in H; try discriminate.
  destruct (node0 (onx (sc_order s)) _ _ (F x)) as [j0| | |] eqn:E4; cbn [bind] in H; try discriminate.
  destruct (node0 (ony (sc_order s)) _ _ (F y)) as [k0| | |] eqn:E5; cbn [bind] in H; try discriminate.
  destruct (node0 (onz (sc_order s)) _ _ (F z)) as [l0| | |] eqn:E6; cbn [bind] in H; try discriminate. injection H as <-.
  apply node_is, is_node_cell in E1, E2, E3. apply node0_is, cell0_cell in E4, E5, E6. fold (low_deg s (onx (sc_order s))) in E4. fold (low_deg s (ony (sc_order s))) in E5. fold (low_deg s (onz (sc_order s))) in E6.
  assert (S : forall n t i, cell (low_deg s n) (t - (if sc_nodal s then 0 else 5 / 10)) i -> cell (if sc_lower s then n - 1 else n)%Z (t - (if sc_nodal s then 0 else 1 / 2)) i).
  { intros n t i. unfold low_deg. replace (5 / 10) with (1 / 2) by lra. auto. }
  apply S in E4, E5, E6. unfold axes6.
  destruct q, d, c; cbn [ax_of axE axB pX pY pZ sX sY sZ]; unfold degree, offset, first, last; cbn [between andb order_on pax sax ax_node ax_lo ax_hi];
    (split; [reflexivity|split; [reflexivity|]]); rewrite ?Rminus_0_r; assumption.
Qed.
Lemma low_box lo hi p : in_box lo hi p = true <-> forall c, (low_of lo c <= low_of p c <= low_of hi c)%Z.
Proof.
  destruct lo as [[a1 a2] a3], hi as [[b1 b2] b3], p as [[j k] l]. rewrite in_box_iff. split.
  - intros H c. destruct c; cbn; lia.
  - intros H. pose proof (H AX). pose proof (H AY). pose proof (H AZ). cbn in *. lia.
Qed.
Lemma fine_inside s g ns q Q d a : proper_scheme s -> nodes_of s (F (unit_x g (rpx a))) (F (unit_y g (rpy a))) (F (unit_z g (rpz a))) = Ret ns ->
  inside s q d g (ar_lo Q d) (ar_hi Q d) a -> fine (axes6 shape_half true s (F (unit_x g (rpx a))) (F (unit_y g (rpy a))) (F (unit_z g (rpz a))) ns) q Q d = true.
Proof.
  intros P Hn I. set (A := axes6 _ _ _ _ _ _ _). unfold fine, within.
  assert (K : forall c, (low_of (ar_lo Q d) c <= first (ax_of q A d c) /\ first (ax_of q A d c) <= last (ax_of q A d c) /\ last (ax_of q A d c) <= low_of (ar_hi Q d) c)%Z).
  { intros c. destruct (axes6_span s _ _ _ ns q d c P Hn) as (S1 & S2 & S3). fold A in S1, S2, S3. rewrite S1, S2. specialize (I c).
    assert (U : match c with AX => unit_x g (rpx a) | AY => unit_y g (rpy a) | AZ => unit_z g (rpz a) end = unit_on g c a) by (destruct c; reflexivity). rewrite U in S3.
    destruct (fits_cell _ _ _ _ _ (degree_range s q d c P) I S3) as (L & H). pose proof (smin_smax (degree s q d c) (proj1 (degree_range s q d c P))). lia. }
  apply andb_true_intro. split; apply low_box; intros c; specialize (K c); destruct c; cbn; lia.
Qed.
Lemma low_deg_degree s c : exists q d, degree s q d c = low_deg s (order_on (sc_order s) c) /\ offset s q d c = (if sc_nodal s then 0 else 5 / 10).
Proof. exists Electric, c. unfold degree, offset, low_deg. destruct c; cbn; (split; [reflexivity|destruct (sc_nodal s); lra]). Qed.
Lemma moderate_low A d c : sized A -> (-1000000000 <= low_of (ar_lo A d) c /\ low_of (ar_hi A d) c <= 1000000000)%Z.
Proof. intros S. specialize (S d). unfold moderate in S. destruct (ar_lo A d) as [[a1 a2] a3], (ar_hi A d) as [[b1 b2] b3]. destruct c; cbn; lia. Qed.
Lemma fits_moderate m lo hi y : (0 <= m)%Z -> (-1000000000 <= lo)%Z -> (hi <= 1000000000)%Z -> fits m lo hi y -> Rabs y <= 1000000000.
Proof.
  intros M L H (A & B). apply IZR_le in L, H. rewrite plus_IZR in A. rewrite minus_IZR in B.
  assert (0 <= IZR (m ÷ 2)) by (apply (IZR_le 0); apply Z.quot_pos; lia). apply Rabs_le. lra.
Qed.
Lemma node0_ex n lower u y : Rabs (y - u) <= 1000000000 -> exists j, node0 n lower (F u) (F y) = Ret j.
Proof.
  intros A. apply Rabs_le_inv in A. unfold node0. change (n_sub (F y) (F u)) with (F (y - u)). change (n_sub (n_add (F y) (n_lit 5 (-1))) (F u)) with (F (y + 5 / 10 - u)).
  destruct lower, (n =? 2 * (n ÷ 2))%Z; apply floor_ex; apply Rabs_le; lra.
Qed.
Lemma nodes_ex s g E B a : proper_scheme s -> sized E -> sized B -> all_inside s g E B a ->
  exists ns, nodes_of s (F (unit_x g (rpx a))) (F (unit_y g (rpy a))) (F (unit_z g (rpz a))) = Ret ns.
Proof.
  intros P SE SB I. unfold nodes_of. cbv zeta. rewrite shift_fin.
  assert (PL : forall c n, n = order_on (sc_order s) c -> exists j, node n (F (unit_on g c a)) = Ret j).
  { intros c n ->. apply node_ex.
    assert (X : exists d, between Electric d c = false) by (destruct c; [exists AY|exists AX|exists AX]; reflexivity). destruct X as (d & X).
    destruct (I d) as (I1 & _). specialize (I1 c). unfold degree, offset in I1. rewrite X in I1. cbn [andb] in I1. rewrite Rminus_0_r in I1.
    pose proof (moderate_low E d c SE). pose proof (proper_on s c P). apply (fits_moderate _ _ _ _) in I1; [exact I1| |lia|lia]. lia. }
  assert (ST : forall c n, n = order_on (sc_order s) c -> exists j, node0 n (sc_lower s) (F (if sc_nodal s then 0 else 5 / 10)) (F (unit_on g c a)) = Ret j).
  { intros c n ->. apply node0_ex. destruct (I c) as (I1 & _). specialize (I1 c).
    assert (O : offset s Electric c c = (if sc_nodal s then 0 else 5 / 10)) by (unfold offset; destruct c, (sc_nodal s); cbn; lra). rewrite O in I1.
    pose proof (moderate_low E c c SE). apply (fits_moderate _ _ _ _) in I1; [exact I1| |lia|lia]. apply degree_range; exact P. }
  destruct (PL AX _ eq_refl) as (j & J). destruct (PL AY _ eq_refl) as (k & K). destruct (PL AZ _ eq_refl) as (l & L).
  destruct (ST AX _ eq_refl) as (j0 & J0). destruct (ST AY _ eq_refl) as (k0 & K0). destruct (ST AZ _ eq_refl) as (l0 & L0). cbn [unit_on order_on] in *.
  rewrite J, K, L, J0, K0, L0. cbn [bind]. eauto.
Qed.
Lemma inside_ok s g E B a : proper_scheme s -> sized E -> sized B -> all_inside s g E B a -> okEB s g E B a = true.
Proof.
  intros P SE SB I. destruct (nodes_ex s g E B a P SE SB I) as (ns & Hn). unfold okEB, okE, okB, fine3. rewrite Hn.
  assert (XE : forall d, fine (axes6 shape_half true s (F (unit_x g (rpx a))) (F (unit_y g (rpy a))) (F (unit_z g (rpz a))) ns) Electric E d = true) by (intros d; apply fine_inside; [exact P|exact Hn|apply I]).
  assert (XB : forall d, fine (axes6 shape_half true s (F (unit_x g (rpx a))) (F (unit_y g (rpy a))) (F (unit_z g (rpz a))) ns) Magnetic B d = true) by (intros d; apply fine_inside; [exact P|exact Hn|apply I]).
  rewrite !XE, !XB. reflexivity.
Qed.
Lemma fine_weight s g ns q Q d a p : proper_scheme s -> nodes_of s (F (unit_x g (rpx a))) (F (unit_y g (rpy a))) (F (unit_z g (rpz a))) = Ret ns ->
  fine (axes6 shape_half true s (F (unit_x g (rpx a))) (F (unit_y g (rpy a))) (F (unit_z g (rpz a))) ns) q Q d = true -> node_weight s q d g a p <> 0 -> in_box (ar_lo Q d) (ar_hi Q d) p = true.
Proof.
  intros P Hn Fi W. pose proof (axes6_good shape_half true s _ _ _ ns P (exact_half s) Hn q d) as GA. set (A := axes6 _ _ _ _ _ _ _) in *.
  destruct p as [[j k] l]. unfold node_weight in W.
  assert (NZ : forall a b c : R, a * b * c <> 0 -> a <> 0 /\ b <> 0 /\ c <> 0) by (intros a0 b0 c0 H; repeat split; intros ->; apply H; ring). apply NZ in W. destruct W as (W1 & W2 & W3).
  assert (R : forall c i, weight_on s q d c (unit_on g c a) i <> 0 -> (first (ax_of q A d c) <= i <= last (ax_of q A d c))%Z).
  { intros c i H. destruct (GA c) as (_ & _ & G3). unfold first, last. destruct (Z_le_dec (ax_node (ax_of q A d c) + ax_lo (ax_of q A d c)) i), (Z_le_dec i (ax_node (ax_of q A d c) + ax_hi (ax_of q A d c))); try lia;
      exfalso; apply H; destruct c; apply G3; lia. }
  pose proof (R AX _ W1). pose proof (R AY _ W2). pose proof (R AZ _ W3). unfold fine, within in Fi. apply andb_prop in Fi. destruct Fi as (F1 & F2).
  destruct (ar_lo Q d) as [[a1 a2] a3], (ar_hi Q d) as [[b1 b2] b3]. apply in_box_iff in F1, F2. apply in_box_iff. lia.
Qed.

Section Call.
Variables (s : scheme) (g : cells) (E B : field (num FRX)) (QE QB : arrays) (ps : list rpart) (vs : list eb) (lvect algo : Z).
Hypotheses (Ps : proper_scheme s) (Pg : proper g) (HE : stored E QE) (HB : stored B QB) (L : length ps = length vs) (Lv : (1 <= lvect)%Z) (Ch : exact_choice algo (sc_order s)).
Lemma call_ok : sized QE -> sized QB -> (forall a, In a ps -> all_inside s g QE QB a) ->
  gather_call s g E B ps vs lvect algo = Ret (map fld_of (gathered s g QE QB ps vs)).
Proof.
  intros SE SB I. rewrite (call_run s g E B QE QB) by assumption.
  assert (forallb (okEB s g QE QB) ps = true) as ->; [|reflexivity]. apply forallb_forall. intros a Ha. apply inside_ok; auto.
Qed.
Lemma call_out : gather_call s g E B ps vs lvect algo = Ret (map fld_of (gathered s g QE QB ps vs)) \/ gather_call s g E B ps vs lvect algo = UB.
Proof. rewrite (call_run s g E B QE QB) by assumption. destruct (forallb _ ps); auto. Qed.
Lemma call_ub a q d p : In a ps -> node_weight s q d g a p <> 0 -> let Q := match q with Electric => QE | Magnetic => QB end in
  in_box (ar_lo Q d) (ar_hi Q d) p = false -> gather_call s g E B ps vs lvect algo = UB.
Proof.
  intros Ha W Q O. rewrite (call_run s g E B QE QB) by assumption. destruct (forallb _ ps) eqn:Al; [exfalso|reflexivity].
  rewrite forallb_forall in Al. specialize (Al a Ha). unfold okEB, okE, okB in Al.
  destruct (nodes_of s (F (unit_x g (rpx a))) (F (unit_y g (rpy a))) (F (unit_z g (rpz a)))) as [ns| | |] eqn:Hn; cbn [andb] in Al; try discriminate.
  apply andb_prop in Al. destruct Al as (A1 & A2). unfold fine3 in A1, A2. apply andb_prop in A1, A2. destruct A1 as (A1 & A13), A2 as (A2 & A23). apply andb_prop in A1, A2. destruct A1 as (A11 & A12), A2 as (A21 & A22).
  assert (in_box (ar_lo Q d) (ar_hi Q d) p = true); [|congruence].
  destruct q; cbn in Q; subst Q; destruct d; eapply fine_weight; eassumption.
Qed.
End Call.
