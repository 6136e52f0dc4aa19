(** Model of the exchange of guard cells between processes and of the summation of charges and currents over
    them: src/boundary_conditions/field_boundaries.F90, with the derived types of
    src/parallelization/mpi/mpi_derived_types.F90.  3D (c_dim = 3).  The routines repeat the same statements for
    x, y and z; the model has one definition with the axis as a parameter. *)
From Coq Require Import ZArith List Bool.
From Verif Require Import Cxx Num Grid Deposit PartBC.
Import ListNotations.
Local Open Scope Z_scope.

Definition comp (a : dir) (p : idx) : Z :=
  let '(x, y, z) := p in match a with DirX => x | DirY => y | DirZ => z end.
Definition set_comp (a : dir) (v : Z) (p : idx) : idx :=
  let '(x, y, z) := p in match a with DirX => (v, y, z) | DirY => (x, v, z) | DirZ => (x, y, v) end.
Definition map3 (f : Z -> Z -> Z) (p q : idx) : idx :=
  let '(x, y, z) := p in let '(u, v, w) := q in (f x u, f y v, f z w).
Definition step (a : dir) (s : Z) : idx := set_comp a s (0, 0, 0).

(** field_boundaries.F90:121-123, 134-136 (x), 178-180 (y), 224-226 (z) and the same in the other routines: nxg is g, nx_local is n *)
Definition sizes (n g : idx) : idx := map3 (fun m h => m + 1 + 2 * h) n g.
Definition subsizes (a : dir) (n g : idx) : idx := set_comp a (comp a g + 1) (sizes n g).
(** lower bounds of the dummy array: -nxg, -nyg, -nzg (field_boundaries.F90:115) *)
Definition lower (g : idx) : idx := opposite g.
Definition upper (n g : idx) : idx := map3 Z.add n g.

(** *** Memory *)
(** position of an element of an array in memory (Fortran order), and the element at a position *)
Definition extent {A} (G : grid A) : idx := map3 (fun hi lo => hi - lo + 1) (ghi G) (glo G).
Definition address {A} (G : grid A) (p : idx) : Z :=
  let '(s1, s2, _) := extent G in let '(x, y, z) := map3 Z.sub p (glo G) in x + s1 * (y + s2 * z).
Definition element {A} (G : grid A) (o : Z) : out idx :=
  let '(s1, s2, s3) := extent G in
  if (0 <=? o) && (o <? s1 * s2 * s3)
  then Ret (map3 Z.add (glo G) (o mod s1, (o / s1) mod s2, o / (s1 * s2))) else UB.

(** mpi_derived_types.F90:138-188 create_3d_array_derived_type with start = 1: n_local and n_global are all that it
    depends on *)
Definition dtype : Type := (idx * idx)%type.
(** the displacements of a derived type, in elements: blocks of n_local(1) elements with stride n_global(1), n_local(2) of
    them with extent n_global(1) * n_global(2), n_local(3) times *)
Definition displacements (t : dtype) : list Z :=
  let '(m, (t1, t2, _)) := t in
  map (fun e => let '(x, y, z) := e in x + t1 * (y + t2 * z)) (box (0, 0, 0) (map3 Z.sub m (1, 1, 1))).

(** the data of one element of type t at a(p) *)
Definition pack {A} (t : dtype) (G : grid A) (p : idx) : out (list A) :=
  mapM (fun o => do q <- element G (address G p + o); get3 G q) (displacements t).
(** receiving into one element of type t at a(p): a longer message is an error, which ends the program; after a
    shorter one the remaining elements have kept their values *)
Fixpoint store {A} (ps : list idx) (m : list A) (G : grid A) : out (grid A) :=
  match ps, m with
  | _, [] => Ret G
  | [], _ :: _ => Throw
  | p :: ps', v :: m' => do G' <- set3 G p v; store ps' m' G'
  end.
Definition unpack {A} (t : dtype) (G : grid A) (p : idx) (m : list A) : out (grid A) :=
  do ps <- mapM (fun o => element G (address G p + o)) (displacements t);
  store ps m G.
(** MPI_SENDRECV into temp with count sz (field_boundaries.F90:148-149): a longer message is an error, after a shorter one
    the remaining elements of temp have kept the values they had, None for those never set *)
Definition into_temp {A} (sz : Z) (old : option A) (m : list A) : out (list (option A)) :=
  if sz <? zlen m then Throw else Ret (map Some m ++ repeat old (Z.to_nat (sz - zlen m))).

(** field_boundaries.F90:152-160 (and the same for the other directions): the loop copies temp to the array *)
Fixpoint copy_temp {A} (ps : list idx) (temp : list (option A)) (G : grid A) : out (grid A) :=
  match ps, temp with
  | [], _ => Ret G
  | _ :: _, [] => UB
  | p :: ps', v :: temp' =>
      match v with Some v => do G' <- set3 G p v; copy_temp ps' temp' G' | None => UB end
  end.
Definition volume (m : idx) : Z := let '(x, y, z) := m in x * y * z.
(** the iterations of a section with first element p and extents m *)
Definition section (p m : idx) : list idx := box p (map3 Z.add p (map3 Z.sub m (1, 1, 1))).

(** *** Processes *)
(** one process: the array, and the derived types that it has created (mpi_dtypes(k), None if is_dtype_init(k); modules.F90:778-781) *)
Record pstate (A : Type) := PState { arr : grid A; types : Z -> option dtype }.
Arguments PState {A}. Arguments arr {A}. Arguments types {A}.
Definition world (A : Type) : Type := list (idx * pstate A).

Fixpoint process {A} (w : world A) (r : idx) : out (pstate A) :=
  match w with [] => UB | (s, st) :: w' => if idx_eqb s r then Ret st else process w' r end.
(** all processes do [f] *)
Definition each {A} (f : idx -> pstate A -> out (pstate A)) (w : world A) : out (world A) :=
  mapM (fun e => do st <- f (fst e) (snd e); Ret (fst e, st)) w.

(** field_boundaries.F90:140-143: a derived type is created once *)
Definition make_type {A} (k : Z) (t : dtype) (st : pstate A) : pstate A :=
  match types st k with
  | Some _ => st
  | None => PState (arr st) (fun j => if j =? k then Some t else types st j)
  end.

(** mpi_routines.F90:491-495, 519-528 proc_x_min, ..., set to MPI_PROC_NULL (None) at the ends of an absorbing axis by
    get_non_periodic_mpi_bcs (601-614); [ab] is absorbing_bcs_x, absorbing_bcs_y, absorbing_bcs_z; s = -1 or 1 *)
Definition proc (np : idx) (ab : dir -> bool) (a : dir) (s : Z) (r : idx) : option idx :=
  if ab a && (comp a r =? (if s =? -1 then 0 else comp a np - 1)) then None else Some (neighbour np r (step a s)).
(** mpi_routines.F90:562-582: neighbour(1, 0, 0), ..., which remain *)
Definition proc_periodic (np : idx) (a : dir) (s : Z) (r : idx) : option idx := Some (neighbour np r (step a s)).

Definition same_proc (p : option idx) (r : idx) : bool := match p with Some q => idx_eqb q r | None => false end.

Section Routines.
Context {A : Type}.
Variables (np : idx) (n : idx -> idx) (g : idx).

(** MPI_SENDRECV where every process sends in direction s along the axis a one element of its type k that starts at [start],
    and receives from the other direction: what process r receives.  A receive for which nothing is sent does not end. *)
Definition sendrecv (link : dir -> Z -> idx -> option idx) (k : Z) (a : dir) (s : Z) (start : idx -> idx) (w : world A) (r : idx) :
    out (option (list A)) :=
  match link a (- s) r with
  | None => Ret None
  | Some q =>
      if negb (same_proc (link a s q) r) then OutOfFuel else
      do st <- process w q;
      match types st k with
      | None => UB
      | Some t => do m <- pack t (arr st) (start q); Ret (Some m)
      end
  end.

(** first elements of the sections: field(0, ..), field(nx_local, ..), field(nx_local-nxg, ..), field(-nxg, ..) *)
Definition at_zero (a : dir) (r : idx) : idx := set_comp a 0 (lower g).
Definition at_n (a : dir) (r : idx) : idx := set_comp a (comp a (n r)) (lower g).
Definition at_n_minus_g (a : dir) (r : idx) : idx := set_comp a (comp a (n r) - comp a g) (lower g).
Definition at_lower (a : dir) (r : idx) : idx := lower g.

(** field_boundaries.F90:145-160 (x) *)
Definition move_edge (ab : dir -> bool) (k : Z) (a : dir) (s : Z) (from into : dir -> idx -> idx) (w : world A) : out (world A) :=
  each (fun r st =>
    do m <- sendrecv (proc np ab) k a s (from a) w r;
    match m with
    | None => Ret st
    | Some m =>
        do temp <- into_temp (volume (subsizes a (n r) g)) None m;
        do G <- copy_temp (section (into a r) (subsizes a (n r) g)) temp (arr st);
        Ret (PState G (types st))
    end) w.

Definition make_types (k : Z) (a : dir) (w : world A) : out (world A) :=
  each (fun r st => Ret (make_type k (subsizes a (n r) g, sizes (n r) g) st)) w.

(** field_boundaries.F90:134-176 (x), 178-221 (y), 224-264 (z) *)
Definition exchange_axis (ab : dir -> bool) (k : Z) (a : dir) (w : world A) : out (world A) :=
  do w <- make_types k a w;
  do w <- move_edge ab k a (-1) at_zero at_n w;
  move_edge ab k a 1 at_n_minus_g at_lower w.

(** field_boundaries.F90:107-269 exchange_mpi_3d_grid_array_with_guards *)
Definition exchange_blocking (ab : dir -> bool) (w : world A) : out (world A) :=
  do w <- exchange_axis ab 1 DirX w;
  do w <- exchange_axis ab 2 DirY w;
  exchange_axis ab 3 DirZ w.

(** field_boundaries.F90:312-319 (x): MPI_ISEND and MPI_IRECV directly into the array, then MPI_WAITALL.  Simplification: the
    message holds the values the sender's section has when the send is started (the sections of the two do not overlap in
    the situations of the theorems). *)
Definition move_edge_nb (ab : dir -> bool) (k : Z) (a : dir) (s : Z) (from into : dir -> idx -> idx) (w : world A) : out (world A) :=
  each (fun r st =>
    do m <- sendrecv (proc np ab) k a s (from a) w r;
    match m with
    | None => Ret st
    | Some m =>
        match types st k with
        | None => UB
        | Some t => do G <- unpack t (arr st) (into a r) m; Ret (PState G (types st))
        end
    end) w.
Definition exchange_axis_nb (ab : dir -> bool) (k : Z) (a : dir) (w : world A) : out (world A) :=
  do w <- make_types k a w;
  do w <- move_edge_nb ab k a (-1) at_zero at_n w;
  move_edge_nb ab k a 1 at_n_minus_g at_lower w.
(** field_boundaries.F90:283-389 exchange_mpi_3d_grid_array_with_guards_nonblocking *)
Definition exchange_nonblocking (ab : dir -> bool) (w : world A) : out (world A) :=
  do w <- exchange_axis_nb ab 4 DirX w;
  do w <- exchange_axis_nb ab 5 DirY w;
  exchange_axis_nb ab 6 DirZ w.

(** field_boundaries.F90:81-93 field_bc; [blocking] is mpicom_curr = 1 *)
Definition field_bc (blocking : bool) (ab : dir -> bool) (w : world A) : out (world A) :=
  if blocking then exchange_blocking ab w else exchange_nonblocking ab w.
End Routines.

Section Summation.
Context {N : NumOps}.
Variables (np : idx) (n : idx -> idx) (g : idx).
Local Open Scope num_scope.

(** array(0:nxg, :, :) = array(0:nxg, :, :) + temp (field_boundaries.F90:436 and others) *)
Fixpoint add_temp (ps : list idx) (temp : list (option (num N))) (G : grid (num N)) : out (grid (num N)) :=
  match ps, temp with
  | [], _ => Ret G
  | _ :: _, [] => UB
  | p :: ps', v :: temp' =>
      match v with
      | Some v => do x <- get3 G p; do G' <- set3 G p (x + v); add_temp ps' temp' G'
      | None => UB
      end
  end.
(** temp = 0.0_num; the message, if any, is received into it; and it is added to a section *)
Definition add_message (a : dir) (into : idx) (r : idx) (m : option (list (num N))) (st : pstate (num N)) : out (pstate (num N)) :=
  let sz := volume (subsizes a (n r) g) in
  do temp <- into_temp sz (Some (n_lit 0 0)) (match m with Some m => m | None => [] end);
  do G <- add_temp (section into (subsizes a (n r) g)) temp (arr st);
  Ret (PState G (types st)).

(** field_boundaries.F90:432-436 and 438-442 (x) *)
Definition add_edge (k : Z) (a : dir) (s : Z) (from into : dir -> idx -> idx) (w : world (num N)) : out (world (num N)) :=
  each (fun r st =>
    do m <- sendrecv (proc_periodic np) k a s (from a) w r;
    add_message a (into a r) r m st) w.
(** field_boundaries.F90:417-444 (x), 446-474 (y), 475-500 (z) *)
Definition sum_axis (k : Z) (a : dir) (w : world (num N)) : out (world (num N)) :=
  do w <- make_types n g k a w;
  do w <- add_edge k a 1 (at_n n g) (at_zero g) w;
  add_edge k a (-1) (at_lower g) (at_n_minus_g n g) w.

(** field_boundaries.F90:403-503 summation_bcs *)
Definition summation_bcs (blocking : bool) (ab : dir -> bool) (w : world (num N)) : out (world (num N)) :=
  do w <- sum_axis 7 DirX w;
  do w <- sum_axis 8 DirY w;
  do w <- sum_axis 9 DirZ w;
  field_bc np n g blocking ab w.

(** what process q sends to process r: the two messages in the order in which the sends are started (field_boundaries.F90:1165-1170) *)
Definition sent_to (ab : dir -> bool) (k : Z) (a : dir) (w : world (num N)) (q r : idx) : out (list (list (num N))) :=
  do st <- process w q;
  match types st k with
  | None => UB
  | Some t =>
      do m1 <- pack t (arr st) (at_n n g a q);
      do m2 <- pack t (arr st) (at_lower g a q);
      Ret ((if same_proc (proc np ab a 1 q) r then [m1] else []) ++ (if same_proc (proc np ab a (-1) q) r then [m2] else []))
  end.
(** MPI: of the messages from one process with the same tag the first receive gets the first one and the second receive the
    second one; a receive for which there is no message does not end *)
Definition nth_message (l : list (list (num N))) (i : nat) : out (option (list (num N))) :=
  match nth_error l i with Some m => Ret (Some m) | None => OutOfFuel end.
(** field_boundaries.F90:1148-1178 (x), 1180-1210 (y), 1213-1242 (z) *)
Definition sum_axis_nb (ab : dir -> bool) (k : Z) (a : dir) (w : world (num N)) : out (world (num N)) :=
  do w <- make_types n g k a w;
  each (fun r st =>
    let lo := proc np ab a (-1) r in let hi := proc np ab a 1 r in
    do m1 <- match lo with None => Ret None | Some q => do l <- sent_to ab k a w q r; nth_message l 0 end;
    do m2 <- match hi with
             | None => Ret None
             | Some q => do l <- sent_to ab k a w q r; nth_message l (if same_proc lo q then 1 else 0)
             end;
    do st <- add_message a (at_zero g a r) r m1 st;
    add_message a (at_n_minus_g n g a r) r m2 st) w.
(** field_boundaries.F90:1131-1246 summation_bcs_nonblocking *)
Definition summation_bcs_nonblocking (blocking : bool) (ab : dir -> bool) (w : world (num N)) : out (world (num N)) :=
  do w <- sum_axis_nb ab 10 DirX w;
  do w <- sum_axis_nb ab 11 DirY w;
  do w <- sum_axis_nb ab 12 DirZ w;
  field_bc np n g blocking ab w.

(** field_boundaries.F90:1910-1927 charge_bcs, and current_bcs for one component with mpicom_curr = 1 or 0 (1879-1889);
    [blocking] is mpicom_curr = 1 *)
Definition charge_bcs (blocking : bool) (ab : dir -> bool) (w : world (num N)) : out (world (num N)) :=
  if blocking then summation_bcs blocking ab w else summation_bcs_nonblocking blocking ab w.
End Summation.
