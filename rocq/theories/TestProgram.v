(** Model of the particle containers, pushers and time loop of
    src/multi_physics/test_program/src: species.cpp, leptons.cpp, photons.cpp,
    electrons.cpp, positrons.cpp, main.cpp.  [double] is an arbitrary arithmetic.
    Not modelled: names, headers, print_on_disk, floating point traps
    (feenableexcept), the get_ref/get_copy accessors. *)
From Coq Require Import ZArith List Bool.
From Verif Require Import Cxx Num LookupTables VecFun Units Oracles BreitWheeler.
Import ListNotations.
Local Open Scope Z_scope.

(** Outcome of an operation on an object: the new state, the state in which an
    exception leaves it, or undefined behaviour. *)
Inductive res (S : Type) := Done (s : S) | Raised (s : S) | Undef.
Arguments Done {S}. Arguments Raised {S}. Arguments Undef {S}.

Definition of_out {S T} (o : out S) (f : S -> T) (old : T) : res T :=
  match o with Ret s => Done (f s) | Throw => Raised old | UB => Undef | OutOfFuel => Undef end.

Definition rbind {S T} (r : res S) (f : S -> res T) (g : S -> T) : res T :=
  match r with Done s => f s | Raised s => Raised (g s) | Undef => Undef end.

(** std::map<int, std::function<...>> as a list sorted by ID; [None] is an empty
    std::function. *)
Definition registry (P : Type) : Type := list (Z * option P).

Fixpoint reg_find {P} (m : registry P) (id : Z) : option (option P) :=
  match m with
  | [] => None
  | (k, p) :: t => if k =? id then Some p else reg_find t id
  end.
(** insertion of a new key *)
Fixpoint reg_insert {P} (m : registry P) (id : Z) (p : option P) : registry P :=
  match m with
  | [] => [(id, p)]
  | (k, q) :: t => if id <? k then (id, p) :: m else (k, q) :: reg_insert t id p
  end.
(** std::map::operator[]: a missing key is inserted with an empty function *)
Definition reg_index {P} (m : registry P) (id : Z) : option P * registry P :=
  match reg_find m id with
  | Some p => (p, m)
  | None => (None, reg_insert m id None)
  end.

Section Species.
Context {N : NumOps} {W : Type}.
Local Notation vecs := (list (list (num N))).

(** species.h:58-62: the attribute arrays; [d_pos], [d_mom] have three rows,
    [d_fld] six *)
Record data := mkD { d_pos : vecs; d_mom : vecs; d_fld : vecs; d_opt : list (num N); d_flag : list bool }.

(** commons.h:21-28: processes.  [W] is the state the functions capture by
    reference.  The fields are const for a simple process; a process with
    destruction sees one particle. *)
Definition simple_process : Type :=
  W -> vecs -> vecs -> vecs -> list (num N) -> list bool -> num N -> num N -> num N ->
  res (W * (vecs * vecs * list (num N) * list bool)).
Definition destruction : Type :=
  W -> vec3 N -> vec3 N -> vec3 N * vec3 N -> num N -> bool -> num N -> num N -> num N -> res (W * bool).
Definition pusher : Type := vecs -> vecs -> num N -> num N -> num N -> out vecs.

Inductive kind := Photons | Leptons.

(** species.h:50-68, leptons.h:18-22 *)
Record species := mkS {
  s_kind : kind; s_mass : num N; s_charge : num N; s_data : data;
  s_simple : registry simple_process; s_destr : registry destruction;
  s_pusher : option pusher }.

Definition empty_data : data := mkD [[]; []; []] [[]; []; []] [[]; []; []; []; []; []] [] [].
(** photons.cpp:5-9, electrons.cpp:5-15, positrons.cpp:5-15 *)
Definition photons_new : species := mkS Photons n_zero n_zero empty_data [] [] None.
Definition electrons_new : species := mkS Leptons n_one (- n_one)%N empty_data [] [] None.
Definition positrons_new : species := mkS Leptons n_one n_one empty_data [] [] None.

Definition with_data (s : species) (d : data) : species :=
  mkS (s_kind s) (s_mass s) (s_charge s) d (s_simple s) (s_destr s) (s_pusher s).

(** a[k][i] and a[k][i] = v for std::array<std::vector<double>, n> a *)
Definition get2 {A} (l : list (list A)) (k : nat) (i : Z) : out A :=
  match nth_error l k with Some v => zget v i | None => UB end.
Definition set2 {A} (l : list (list A)) (k : nat) (i : Z) (a : A) : out (list (list A)) :=
  match nth_error l k with Some v => do v' <- zset v i a; Ret (lset l k v') | None => UB end.
Definition get_vec (l : vecs) (k : nat) (i : Z) : out (vec3 N) :=
  do x <- get2 l k i; do y <- get2 l (S k) i; do z <- get2 l (S (S k)) i; Ret (V3 x y z).
Definition set_vec (l : vecs) (k : nat) (i : Z) (v : vec3 N) : out vecs :=
  do l1 <- set2 l k i (vx v); do l2 <- set2 l1 (S k) i (vy v); set2 l2 (S (S k)) i (vz v).

(** pos[0].size() *)
Definition size0 (d : data) : out Z := match d_pos d with v :: _ => Ret (zlen v) | [] => UB end.

(** species.cpp:21-23 *)
Definition get_num_particles (s : species) : out Z := do n <- size0 (s_data s); Ret (to_int32 n).

(** species.cpp:65-76 *)
Definition add_particle_data (p m : vec3 N) (d : data) : out data :=
  match d_pos d, d_mom d, d_fld d with
  | [x; y; z], [px; py; pz], [e1; e2; e3; b1; b2; b3] =>
      Ret (mkD [x ++ [vx p]; y ++ [vy p]; z ++ [vz p]] [px ++ [vx m]; py ++ [vy m]; pz ++ [vz m]]
               [e1 ++ [n_zero]; e2 ++ [n_zero]; e3 ++ [n_zero]; b1 ++ [n_zero]; b2 ++ [n_zero]; b3 ++ [n_zero]]
               (d_opt d ++ [n_zero]) (d_flag d ++ [false]))
  | _, _, _ => UB
  end.

(** std::swap(v[i], v[j]) *)
Definition swap_at {A} (l : list A) (i j : Z) : out (list A) :=
  do a <- zget l i; do b <- zget l j; do l1 <- zset l i b; zset l1 j a.
(** repetition of a statement *)
Fixpoint times {A} (n : nat) (f : A -> out A) (a : A) : out A :=
  match n with O => Ret a | S m => do b <- f a; times m f b end.

(** species.cpp:78-88: the loop variable is not used, pos[index] is a component
    array *)
Definition swap_particles_data (i j : Z) (d : data) : out data :=
  do '(p, m) <- times 3 (fun '(p, m) => do p' <- swap_at p i j; do m' <- swap_at m i j; Ret (p', m')) (d_pos d, d_mom d);
  do f <- times 6 (fun f => swap_at f i j) (d_fld d);
  do o <- swap_at (d_opt d) i j;
  do g <- swap_at (d_flag d) i j;
  Ret (mkD p m f o g).

(** v.erase(v.begin() + i) and v.erase(v.begin() + i, v.end()) *)
Definition erase_at {A} (i : Z) (l : list A) : out (list A) :=
  if (0 <=? i) && (i <? zlen l) then Ret (firstn (Z.to_nat i) l ++ skipn (S (Z.to_nat i)) l) else UB.
Definition erase_from {A} (i : Z) (l : list A) : out (list A) :=
  if (0 <=? i) && (i <=? zlen l) then Ret (firstn (Z.to_nat i) l) else UB.

(** species.cpp:90-102 *)
Definition remove_particle_data (i : Z) (d : data) : out data :=
  do p <- mapM (erase_at i) (d_pos d); do m <- mapM (erase_at i) (d_mom d); do f <- mapM (erase_at i) (d_fld d);
  do o <- erase_at i (d_opt d); do g <- erase_at i (d_flag d);
  Ret (mkD p m f o g).

(** species.cpp:104-116 *)
Definition remove_toend_data (i : Z) (d : data) : out data :=
  do p <- mapM (erase_from i) (d_pos d); do m <- mapM (erase_from i) (d_mom d); do f <- mapM (erase_from i) (d_fld d);
  do o <- erase_from i (d_opt d); do g <- erase_from i (d_flag d);
  Ret (mkD p m f o g).

(** species.cpp:118-128 *)
Definition overwrite_particle (src dst : Z) (d : data) : out data :=
  do x <- get_vec (d_pos d) 0 src; do p <- set_vec (d_pos d) 0 dst x;
  do x <- get_vec (d_mom d) 0 src; do m <- set_vec (d_mom d) 0 dst x;
  do x <- get_vec (d_fld d) 0 src; do f <- set_vec (d_fld d) 0 dst x;
  do x <- get_vec f 3 src; do f <- set_vec f 3 dst x;
  do o <- zget (d_opt d) src; do o' <- zset (d_opt d) dst o;
  do g <- zget (d_flag d) src; do g' <- zset (d_flag d) dst g;
  Ret (mkD p m f o' g').

(** species.cpp:134-141: the while loop; std::binary_search on a sorted list is
    membership *)
Fixpoint kill_scan (fuel : nat) (kill : list Z) (ki ll : Z) (d : data) : out (Z * data) :=
  match fuel with
  | O => OutOfFuel
  | S f =>
      if ki <? ll then
        if negb (existsb (Z.eqb ll) kill) then
          do d' <- overwrite_particle ll ki d; Ret (wrap64 (ll - 1), d')
        else kill_scan f kill ki (wrap64 (ll - 1)) d
      else Ret (ll, d)
  end.

(** species.cpp:132-143: the loop over the indices *)
Fixpoint kill_loop (todo kill : list Z) (last : Z) (d : data) : out data :=
  match todo with
  | [] => Ret d
  | ki :: t =>
      do '(ll, d') <- kill_scan (S (Z.to_nat (last - ki))) kill ki last d;
      kill_loop t kill ll d'
  end.

(** species.cpp:130-145 *)
Definition remove_sorted_data (kill : list Z) (d : data) : out data :=
  do n <- size0 d;
  do d' <- kill_loop kill kill (wrap64 (n - 1)) d;
  do n' <- size0 d';
  remove_toend_data (wrap64 (n' - zlen kill)) d'.

(** species.cpp:147-156 *)
Fixpoint loop (body : Z -> data -> out data) (is : list Z) (d : data) : out data :=
  match is with [] => Ret d | i :: t => do d' <- body i d; loop body t d' end.
(** for (int i = 0; i < (int) pos[0].size(); i++) *)
Definition for_particles (body : Z -> data -> out data) (d : data) : out data :=
  do n <- size0 d; loop body (zseq (Z.to_nat (to_int32 n))) d.

Definition calc_fields_data (em : vec3 N -> num N -> vec3 N * vec3 N) (tt : num N) : data -> out data :=
  for_particles (fun i d =>
    do p <- get_vec (d_pos d) 0 i;
    let '(e, b) := em p tt in
    do f <- set_vec (d_fld d) 0 i e; do f <- set_vec f 3 i b;
    Ret (mkD (d_pos d) (d_mom d) f (d_opt d) (d_flag d))).

(** leptons.cpp:13-18, photons.cpp:17-22: [p0] is the number under the square root *)
Definition move (p0 : vec3 N -> num N) (dt : num N) (p m : vec3 N) : vec3 N :=
  let coeff := (dt * (n_one / n_sqrt (p0 m)))%N in
  V3 (vx p + coeff * vx m)%N (vy p + coeff * vy m)%N (vz p + coeff * vz m)%N.
Definition p0_lep (m : vec3 N) : num N := (n_one + vx m * vx m + vy m * vy m + vz m * vz m)%N.
Definition p0_phot (m : vec3 N) : num N := (vx m * vx m + vy m * vy m + vz m * vz m)%N.

(** leptons.cpp:9-20 and photons.cpp:13-24 *)
Definition push_positions_data (p0 : vec3 N -> num N) (dt : num N) : data -> out data :=
  for_particles (fun i d =>
    do m <- get_vec (d_mom d) 0 i; do p <- get_vec (d_pos d) 0 i;
    do p' <- set_vec (d_pos d) 0 i (move p0 dt p m);
    Ret (mkD p' (d_mom d) (d_fld d) (d_opt d) (d_flag d))).

(** leptons.cpp:36-65 *)
Definition boris (beta : num N) (m e b : vec3 N) : vec3 N :=
  let ptx := (vx m + beta * vx e)%N in
  let pty := (vy m + beta * vy e)%N in
  let ptz := (vz m + beta * vz e)%N in
  let ig := (beta / n_sqrt (n_one + vx m * vx m + vy m * vy m + vz m * vz m))%N in
  let bx := (ig * vx b)%N in
  let by_ := (ig * vy b)%N in
  let bz := (ig * vz b)%N in
  let b2 := (bx * bx + by_ * by_ + bz * bz)%N in
  let coeff := (n_one / (n_one + b2))%N in
  let ptvbx := (pty * bz - ptz * by_)%N in
  let ptvby := (ptz * bx - ptx * bz)%N in
  let ptvbz := (ptx * by_ - pty * bx)%N in
  let ptdb := (ptx * bx + pty * by_ + ptz * bz)%N in
  let pnx := (coeff * (ptx + ptvbx + ptdb * bx))%N in
  let pny := (coeff * (pty + ptvby + ptdb * by_))%N in
  let pnz := (coeff * (ptz + ptvbz + ptdb * bz))%N in
  V3 (n_two * pnx - vx m)%N (n_two * pny - vy m)%N (n_two * pnz - vz m)%N.

(** leptons.cpp:30-67 *)
Definition boris_data (mass charge dt : num N) : data -> out data :=
  let beta := (n_lit 5 (-1) * charge * dt / mass)%N in
  for_particles (fun i d =>
    do m <- get_vec (d_mom d) 0 i; do e <- get_vec (d_fld d) 0 i; do b <- get_vec (d_fld d) 3 i;
    do m' <- set_vec (d_mom d) 0 i (boris beta m e b);
    Ret (mkD (d_pos d) m' (d_fld d) (d_opt d) (d_flag d))).

Definition on_data (f : data -> out data) (s : species) : res species :=
  of_out (f (s_data s)) (with_data s) s.

Definition add_particle (p m : vec3 N) : species -> res species := on_data (add_particle_data p m).
Definition swap_particles (i j : Z) : species -> res species := on_data (swap_particles_data i j).
Definition remove_particle (i : Z) : species -> res species := on_data (remove_particle_data i).
Definition remove_particles_from_toend (i : Z) : species -> res species := on_data (remove_toend_data i).
Definition remove_particles_given_sorted_indices (k : list Z) : species -> res species := on_data (remove_sorted_data k).
Definition calc_fields (em : vec3 N -> num N -> vec3 N * vec3 N) (tt : num N) : species -> res species := on_data (calc_fields_data em tt).
(** leptons.cpp:9-20, photons.cpp:13-24 *)
Definition push_positions (dt : num N) (s : species) : res species :=
  on_data (push_positions_data (match s_kind s with Photons => p0_phot | Leptons => p0_lep end) dt) s.
(** leptons.cpp:22-27, 74-76, photons.cpp:25-27.  Simplification: the alternative
    pusher has no side effects. *)
Definition push_momenta (dt : num N) (s : species) : res species :=
  match s_kind s with
  | Photons => Done s
  | Leptons =>
      match s_pusher s with
      | None => on_data (boris_data (s_mass s) (s_charge s) dt) s
      | Some f => on_data (fun d => do m <- f (d_mom d) (d_fld d) (s_mass s) (s_charge s) dt;
                                    Ret (mkD (d_pos d) m (d_fld d) (d_opt d) (d_flag d))) s
      end
  end.
(** leptons.cpp:69-72 *)
Definition replace_pusher_momenta (f : pusher) (s : species) : species :=
  mkS (s_kind s) (s_mass s) (s_charge s) (s_data s) (s_simple s) (s_destr s) (Some f).

(** species.cpp:25-30, 42-47 *)
Definition add_simple_process (p : simple_process) (id : Z) (s : species) : res species :=
  match reg_find (s_simple s) id with
  | Some _ => Raised s
  | None => Done (mkS (s_kind s) (s_mass s) (s_charge s) (s_data s) (reg_insert (s_simple s) id (Some p)) (s_destr s) (s_pusher s))
  end.
Definition add_process_with_destruction (p : destruction) (id : Z) (s : species) : res species :=
  match reg_find (s_destr s) id with
  | Some _ => Raised s
  | None => Done (mkS (s_kind s) (s_mass s) (s_charge s) (s_data s) (s_simple s) (reg_insert (s_destr s) id (Some p)) (s_pusher s))
  end.

(** a call of a simple process on the arrays; an empty function raises
    bad_function_call *)
Definition call_simple (p : option simple_process) (dt : num N) (ws : W * species) : res (W * species) :=
  let '(w, s) := ws in
  let d := s_data s in
  let back x := let '(w', (p, m, o, g)) := x in (w', with_data s (mkD p m (d_fld d) o g)) in
  match p with
  | None => Raised (w, s)
  | Some f =>
      match f w (d_pos d) (d_mom d) (d_fld d) (d_opt d) (d_flag d) (s_mass s) (s_charge s) dt with
      | Done x => Done (back x)
      | Raised x => Raised (back x)
      | Undef => Undef
      end
  end.

(** species.cpp:32-36 *)
Fixpoint call_all (ps : registry simple_process) (dt : num N) (ws : W * species) : res (W * species) :=
  match ps with
  | [] => Done ws
  | (_, p) :: t => rbind (call_simple p dt ws) (call_all t dt) (fun x => x)
  end.
Definition do_all_simple_processes (dt : num N) (ws : W * species) : res (W * species) :=
  call_all (s_simple (snd ws)) dt ws.

(** species.cpp:38-40 *)
Definition do_simple_process (id : Z) (dt : num N) (ws : W * species) : res (W * species) :=
  let '(w, s) := ws in
  let '(p, m) := reg_index (s_simple s) id in
  call_simple p dt (w, mkS (s_kind s) (s_mass s) (s_charge s) (s_data s) m (s_destr s) (s_pusher s)).

(** species.cpp:50-59: the loop of do_process_with_destruction.  Simplification:
    the process does not modify the species it is called on. *)
Fixpoint destr_loop (is : list Z) (id : Z) (dt : num N) (w : W) (s : species) (acc : list Z) : res (W * species * list Z) :=
  match is with
  | [] => Done (w, s, acc)
  | i :: t =>
      let d := s_data s in
      let '(f, m) := reg_index (s_destr s) id in
      let s1 := mkS (s_kind s) (s_mass s) (s_charge s) d (s_simple s) m (s_pusher s) in
      match f with
      | None => Raised (w, s1, acc)
      | Some f =>
          match (do p <- get_vec (d_pos d) 0 i; do q <- get_vec (d_mom d) 0 i; do e <- get_vec (d_fld d) 0 i;
                 do b <- get_vec (d_fld d) 3 i; do o <- zget (d_opt d) i; do g <- zget (d_flag d) i;
                 Ret (f w p q (e, b) o g (s_mass s) (s_charge s) dt)) with
          | Ret r => rbind r (fun '(w', kill) => destr_loop t id dt w' s1 (if kill : bool then acc ++ [i] else acc))
                             (fun '(w', _) => (w', s1, acc))
          | _ => Undef
          end
      end
  end.

(** species.cpp:48-62 *)
Definition do_process_with_destruction (id : Z) (dt : num N) (ws : W * species) : res (W * species) :=
  let '(w, s) := ws in
  match size0 (s_data s) with
  | Ret n =>
      rbind (destr_loop (zseq (Z.to_nat n)) id dt w s [])
        (fun '(w', s', kill) =>
           match remove_sorted_data kill (s_data s') with
           | Ret d => Done (w', with_data s' d)
           | _ => Undef
           end)
        (fun '(w', s', _) => (w', s'))
  | _ => Undef
  end.

End Species.
Arguments data : clear implicits.
Arguments species : clear implicits.
Arguments simple_process : clear implicits.
Arguments destruction : clear implicits.
Arguments pusher : clear implicits.
