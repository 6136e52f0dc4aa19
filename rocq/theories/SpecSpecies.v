(** Vocabulary of the statements about the test program: a species as a list of
    particles. *)
From Coq Require Import ZArith List Bool.
From Verif Require Import Cxx Num VecFun TestProgram.
Import ListNotations.

Section Particles.
Context {N : NumOps}.

(** a particle: position, momentum, electric and magnetic field, optical depth, flag *)
Record part := mkP { q_x : vec3 N; q_p : vec3 N; q_e : vec3 N; q_b : vec3 N; q_opt : num N; q_flag : bool }.

(** the three component arrays of a vector attribute *)
Definition rows3 (f : part -> vec3 N) (ps : list part) : list (list (num N)) :=
  [map (fun p => vx (f p)) ps; map (fun p => vy (f p)) ps; map (fun p => vz (f p)) ps].

(** the attribute arrays holding these particles *)
Definition data_of (ps : list part) : data N :=
  mkD (rows3 q_x ps) (rows3 q_p ps) (rows3 q_e ps ++ rows3 q_b ps) (map q_opt ps) (map q_flag ps).

(** the arrays are consistent: there is one particle list they hold; in
    particular all have the same length *)
Definition consistent (d : data N) (n : nat) : Prop := exists ps, length ps = n /\ d = data_of ps.

(** the particles whose index satisfies P, in order *)
Fixpoint pick {A} (P : nat -> bool) (l : list A) : list A :=
  match l with
  | [] => []
  | a :: t => if P 0%nat then a :: pick (fun j => P (S j)) t else pick (fun j => P (S j)) t
  end.

(** the particles whose index is not listed *)
Definition survivors (kill : list Z) (ps : list part) : list part :=
  pick (fun j => negb (existsb (Z.eqb (Z.of_nat j)) kill)) ps.

(** strictly increasing indices of a list of n elements *)
Definition sorted_indices (kill : list Z) (n : nat) : Prop :=
  (forall i j a b, nth_error kill i = Some a -> nth_error kill j = Some b -> (i < j)%nat -> (a < b)%Z) /\
  Forall (fun k => (0 <= k < Z.of_nat n)%Z) kill.

(** one call of a process per particle, in order, until one raises: the verdicts *)
Fixpoint visit {W} (f : W -> part -> res (W * bool)) (w : W) (ps : list part) : res (W * list bool) :=
  match ps with
  | [] => Done (w, [])
  | p :: t => rbind (f w p) (fun '(w1, b) => rbind (visit f w1 t) (fun '(w2, bs) => Done (w2, b :: bs)) (fun '(w2, bs) => (w2, b :: bs)))
                            (fun '(w1, b) => (w1, [b]))
  end.
(** the particles whose verdict is false *)
Definition spared (bs : list bool) (ps : list part) : list part := pick (fun j => negb (nth j bs false)) ps.

(** exchange of the indices i and j *)
Definition transp (i j k : nat) : nat := if Nat.eqb k i then j else if Nat.eqb k j then i else k.
(** exchange of the components i and j of a vector *)
Definition comp (v : vec3 N) (k : nat) : num N := match k with 0%nat => vx v | 1%nat => vy v | _ => vz v end.
Definition exch (i j : nat) (v : vec3 N) : vec3 N := V3 (comp v (transp i j 0)) (comp v (transp i j 1)) (comp v (transp i j 2)).

End Particles.
Arguments part : clear implicits.

(** ** histories of operations on one species *)
Section Histories.
Context {N : NumOps} {W : Type}.

Inductive op :=
| OAdd (p m : vec3 N)
| OSwap (i j : Z)
| ORemove (i : Z)
| OToEnd (i : Z)
| OSorted (kill : list Z)
| OFields (em : vec3 N -> num N -> vec3 N * vec3 N) (t : num N)
| OPositions (dt : num N)
| OMomenta (dt : num N)
| OReplace (f : pusher N)
| ORegister (f : simple_process N W) (id : Z)
| ORegisterD (f : destruction N W) (id : Z)
| OAll (dt : num N)
| OSimple (id : Z) (dt : num N)
| ODestr (id : Z) (dt : num N).

Definition lift (w : W) (r : res (species N W)) : res (W * species N W) :=
  match r with Done s => Done (w, s) | Raised s => Raised (w, s) | Undef => Undef end.

Definition do_op (o : op) (ws : W * species N W) : res (W * species N W) :=
  let '(w, s) := ws in
  match o with
  | OAdd p m => lift w (add_particle p m s)
  | OSwap i j => lift w (swap_particles i j s)
  | ORemove i => lift w (remove_particle i s)
  | OToEnd i => lift w (remove_particles_from_toend i s)
  | OSorted kill => lift w (remove_particles_given_sorted_indices kill s)
  | OFields em t => lift w (calc_fields em t s)
  | OPositions dt => lift w (push_positions dt s)
  | OMomenta dt => lift w (push_momenta dt s)
  | OReplace f => Done (w, replace_pusher_momenta f s)
  | ORegister f id => lift w (add_simple_process f id s)
  | ORegisterD f id => lift w (add_process_with_destruction f id s)
  | OAll dt => do_all_simple_processes dt ws
  | OSimple id dt => do_simple_process id dt ws
  | ODestr id dt => do_process_with_destruction id dt ws
  end.

(** a history: exceptions are caught by the caller, who goes on *)
Inductive history : list op -> W * species N W -> W * species N W -> Prop :=
| h_nil : forall ws, history [] ws ws
| h_cons : forall o os ws ws1 ws2, (do_op o ws = Done ws1 \/ do_op o ws = Raised ws1) -> history os ws1 ws2 ->
    history (o :: os) ws ws2.

(** user functions that respect the arrays: as many entries as before *)
Definition respects_simple (f : simple_process N W) : Prop :=
  forall w (ps : list (part N)) mass charge dt w' p m o g, let d := data_of ps in
    (f w (d_pos d) (d_mom d) (d_fld d) (d_opt d) (d_flag d) mass charge dt = Done (w', (p, m, o, g)) \/
     f w (d_pos d) (d_mom d) (d_fld d) (d_opt d) (d_flag d) mass charge dt = Raised (w', (p, m, o, g))) ->
    consistent (mkD p m (d_fld d) o g) (length ps).
Definition respects_pusher (f : pusher N) : Prop :=
  forall (ps : list (part N)) mass charge dt m, let d := data_of ps in
    f (d_mom d) (d_fld d) mass charge dt = Ret m -> consistent (mkD (d_pos d) m (d_fld d) (d_opt d) (d_flag d)) (length ps).
Definition respectful (o : op) : Prop :=
  match o with
  | OReplace f => respects_pusher f
  | ORegister f _ => respects_simple f
  | _ => True
  end.

(** the simple process an ID stands for after a history: that of its first
    registration; [Some None] (an empty function) if the ID was run before *)
Fixpoint first_use (id : Z) (os : list op) : option (option (simple_process N W)) :=
  match os with
  | [] => None
  | ORegister f k :: t => if Z.eqb k id then Some (Some f) else first_use id t
  | OSimple k _ :: t => if Z.eqb k id then Some None else first_use id t
  | _ :: t => first_use id t
  end.

(** one operation per element, until one raises *)
Fixpoint one_by_one {A S} (f : A -> S -> res S) (l : list A) (s : S) : res S :=
  match l with [] => Done s | a :: t => rbind (f a s) (one_by_one f t) (fun x => x) end.

(** a process with destruction as it is called on a particle of the species *)
Definition on_part (f : destruction N W) (s : species N W) (dt : num N) : W -> part N -> res (W * bool) :=
  fun w p => f w (q_x p) (q_p p) (q_e p, q_b p) (q_opt p) (q_flag p) (s_mass s) (s_charge s) dt.
(** a species with other registries *)
Definition with_destr (s : species N W) m : species N W := mkS (s_kind s) (s_mass s) (s_charge s) (s_data s) (s_simple s) m (s_pusher s).
Definition with_simple (s : species N W) m : species N W := mkS (s_kind s) (s_mass s) (s_charge s) (s_data s) m (s_destr s) (s_pusher s).

(** a species as constructed: no particles, no processes *)
Definition fresh (s : species N W) : Prop := s = photons_new \/ s = electrons_new \/ s = positrons_new.

End Histories.
Arguments op : clear implicits.
