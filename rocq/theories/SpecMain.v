(** Vocabulary of the statements about the time loop of the test program. *)
From Coq Require Import ZArith Reals List Bool Permutation.
From Verif Require Import Cxx Num LookupTables VecFun Units Oracles BreitWheeler TestProgram SpecSpecies TestMain NumRX SpecPhys ChiProofs SpecMotion.
Import ListNotations.

Section Main.
Context {N : NumOps} (U : Units N) (Orc : Oracles N) (G : Rng N).

(** the program between two steps: the photons, electrons and positrons *)
Definition state_of (eng : bw_engine G) (ph el po : list (part N)) : state G :=
  (mkW eng (with_data electrons_new (data_of el)) (with_data positrons_new (data_of po)),
   mkS Photons n_zero n_zero (data_of ph)
     [(0%Z, Some (BW_opticaldepth U Orc G)); (777%Z, Some (BW_howmanyphotons G))] [(42%Z, Some (BW_pair_prod U G))] None).

(** a lepton in one step: fields at its position, Boris push, motion with the new
    momentum *)
Definition lepton_step (em : vec3 N -> num N -> vec3 N * vec3 N) (dt t charge : num N) (p : part N) : part N :=
  let '(e, b) := em (q_x p) t in
  let m := boris (n_lit 5 (-1) * charge * dt / n_one)%N (q_p p) e b in
  mkP (move p0_lep dt (q_x p) m) m e b (q_opt p) (q_flag p).

(** a photon in one step: fields at its position, motion during dt, evolution of
    the optical depth with these fields, and in case of an event a further motion
    during the time of the event *)
Definition photon_step (eng : bw_engine G) em (dt t : num N) (p q : part N) : Prop :=
  let '(e, b) := em (q_x p) t in
  let x := move p0_phot dt (q_x p) (q_p p) in
  exists ev dtp o, bw_evolve U Orc G eng (q_p p) e b dt (q_opt p) = Ret (ev, dtp, o) /\
    q = mkP (if ev : bool then move p0_phot dtp x (q_p p) else x) (q_p p) e b o ev.

(** a new lepton *)
Definition newborn (x m : vec3 N) : part N := mkP x m (V3 n_zero n_zero n_zero) (V3 n_zero n_zero n_zero) n_zero false.

(** a new lepton sits where a photon with an event was moved to *)
Definition created eng em (dt t : num N) (ph : list (part N)) (e : part N) : Prop :=
  exists p dtp o, In p ph /\
    (let '(ee, bb) := em (q_x p) t in bw_evolve U Orc G eng (q_p p) ee bb dt (q_opt p) = Ret (true, dtp, o)) /\
    q_x e = move p0_phot dtp (move p0_phot dt (q_x p) (q_p p)) (q_p p).

(** one pair per photon, generated in turn, at the place of the photon *)
Inductive born : bw_engine G -> list (part N) -> list (part N) -> list (part N) -> bw_engine G -> Prop :=
| born_nil : forall eng, born eng [] [] [] eng
| born_cons : forall eng eng1 eng2 q qs pe we pp wp els pos,
    bw_generate U G eng (q_p q) (q_e q) (q_b q) n_one 1 = Ret ([(pe, we)], [(pp, wp)], eng1) ->
    born eng1 qs els pos eng2 ->
    born eng (q :: qs) (newborn (q_x q) pe :: els) (newborn (q_x q) pp :: pos) eng2.
End Main.

(** a new lepton with real coordinates: it comes from a photon [r] for which the
    engine found an event at the time dtp, and sits on the line of flight of the
    photon, a time dt + dtp away from where the photon was before the step *)
Definition appears (tg : R -> R) (U : Units (RX tg)) (Orc : Oracles (RX tg)) (G : Rng (RX tg)) eng em (dt : R) (t : num (RX tg))
    (rs : list rpart) (e : part (RX tg)) : Prop :=
  exists r dtp o, In r rs /\
    (let '(ee, bb) := em (F3 tg (r_x r)) t in bw_evolve U Orc G eng (F3 tg (r_p r)) ee bb (Fin dt) (r_opt r) = Ret (true, dtp, o)) /\
    forall d, dtp = Fin d -> q_x e = F3 tg (add3 (r_x r) (scale3 (dt + d)%R (unit3 (r_p r)))).
