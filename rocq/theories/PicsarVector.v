(** Model of src/multi_physics/QED/src/picsar_vector.hpp: vectors as objects with
    a raw pointer, over an explicit heap.  Simplifications: allocation never fails,
    sizes are natural numbers, the element copy loops copy whole ranges at once. *)
From Coq Require Import List Bool Arith.
From Verif Require Import Cxx.
Import ListNotations.

Section Vector.
Context {A : Type}.

(** an element of an array: [None] while it has never been written
    ([new T\[n\]] leaves arithmetic types uninitialised) *)
Definition cell : Type := option A.

(** blocks returned by [new T\[n\]], in order of allocation; [None] once freed *)
Definition heap : Type := list (option (list cell)).

(** [PHeap k]: the k-th block of the heap; [PExt k]: the k-th buffer of the user,
    which outlives the program *)
Inductive ptr : Type := PNull | PHeap (k : nat) | PExt (k : nat).

(** picsar_vector.hpp:105-109: v_data, v_size, should_manage_memory *)
Record pvec : Type := mk_pvec { v_data : ptr; v_size : nat; v_own : bool }.

(** all objects ever created, in order of creation; [None] once destroyed *)
Record state : Type := mk_state { st_heap : heap; st_ext : list (list cell); st_objs : list (option pvec) }.

Definition alloc (h : heap) (l : list cell) : heap * ptr := (h ++ [Some l], PHeap (length h)).

(** [delete\[\] p] *)
Definition free (h : heap) (p : ptr) : out heap :=
  match p with
  | PNull => Ret h
  | PHeap k => match nth_error h k with Some (Some _) => Ret (lset h k None) | _ => UB end
  | PExt _ => UB
  end.

(** the array a pointer designates, if it may be accessed *)
Definition block (h : heap) (e : list (list cell)) (p : ptr) : option (list cell) :=
  match p with
  | PNull => None
  | PHeap k => match nth_error h k with Some (Some l) => Some l | _ => None end
  | PExt k => nth_error e k
  end.

(** reading n elements from p (no access when n = 0) *)
Definition load (h : heap) (e : list (list cell)) (p : ptr) (n : nat) : out (list cell) :=
  match n with
  | O => Ret []
  | _ => match block h e p with
         | Some l => if n <=? length l then Ret (firstn n l) else UB
         | None => UB
         end
  end.

(** p\[i\] = a *)
Definition store (s : state) (p : ptr) (i : nat) (a : A) : out state :=
  match block (st_heap s) (st_ext s) p with
  | None => UB
  | Some l =>
      if i <? length l then
        match p with
        | PNull => UB
        | PHeap k => Ret (mk_state (lset (st_heap s) k (Some (lset l i (Some a)))) (st_ext s) (st_objs s))
        | PExt k => Ret (mk_state (st_heap s) (lset (st_ext s) k (lset l i (Some a))) (st_objs s))
        end
      else UB
  end.

(** p\[i\] *)
Definition fetch (s : state) (p : ptr) (i : nat) : out cell :=
  match block (st_heap s) (st_ext s) p with
  | None => UB
  | Some l => match nth_error l i with Some c => Ret c | None => UB end
  end.

Inductive op : Type :=
| ONew (n : nat) | OFromList (l : list A) | OEmpty | ORaw (b n : nat) | OView (x n : nat)
| OCopy (x : nat) | OMove (x : nat) | OAssign (x y : nat) | OMoveAssign (x y : nat) | ODestroy (x : nat)
| OResize (x n : nat) | OWrite (x i : nat) (a : A) | ORead (x i : nat)
| OBack (x : nat) | OBackConst (x : nat) | OFront (x : nat) | OFrontConst (x : nat) | OSize (x : nat).

(** what a caller sees of an operation *)
Inductive obs : Type := Done | Value (c : cell) | SizeIs (n : nat) | Exception.

Definition obj (s : state) (x : nat) : out pvec :=
  match nth_error (st_objs s) x with Some (Some v) => Ret v | _ => UB end.
Definition set_obj (s : state) (x : nat) (v : option pvec) : state :=
  mk_state (st_heap s) (st_ext s) (lset (st_objs s) x v).
Definition add_obj (s : state) (h : heap) (v : pvec) : state :=
  mk_state h (st_ext s) (st_objs s ++ [Some v]).

Definition moved_from : pvec := mk_pvec PNull 0 false.

Definition step (o : op) (s : state) : out (state * obs) :=
  match o with
  (** picsar_vector.hpp:118-126 *)
  | ONew n => let (h, p) := alloc (st_heap s) (repeat None n) in Ret (add_obj s h (mk_pvec p n true), Done)
  (** picsar_vector.hpp:129-139 (std::vector) and 153-164 (list of values) *)
  | OFromList l => let (h, p) := alloc (st_heap s) (map Some l) in Ret (add_obj s h (mk_pvec p (length l) true), Done)
  (** picsar_vector.hpp:142-150 *)
  | OEmpty => Ret (add_obj s (st_heap s) (mk_pvec PNull 0 true), Done)
  (** picsar_vector.hpp:170-178, on a buffer of the user *)
  | ORaw b n => Ret (add_obj s (st_heap s) (mk_pvec (PExt b) n false), Done)
  (** picsar_vector.hpp:170-178 with the pointer x.data() *)
  | OView x n => do v <- obj s x; Ret (add_obj s (st_heap s) (mk_pvec (v_data v) n false), Done)
  (** picsar_vector.hpp:182-193 *)
  | OCopy x =>
      do v <- obj s x;
      do l <- load (st_heap s) (st_ext s) (v_data v) (v_size v);
      let (h, p) := alloc (st_heap s) l in Ret (add_obj s h (mk_pvec p (v_size v) true), Done)
  (** picsar_vector.hpp:197-208 *)
  | OMove x =>
      do v <- obj s x;
      Ret (add_obj (set_obj s x (Some moved_from)) (st_heap s) v, Done)
  (** picsar_vector.hpp:212-225: the new array is allocated and installed before
      the elements of [other] are read *)
  | OAssign x y =>
      do vx <- obj s x;
      do vy <- obj s y;
      let n := v_size vy in
      let (h, p) := alloc (st_heap s) (repeat None n) in
      let s1 := mk_state h (st_ext s) (lset (st_objs s) x (Some (mk_pvec p n true))) in
      do vy1 <- obj s1 y;
      do l <- load h (st_ext s) (v_data vy1) n;
      Ret (mk_state (lset h (length (st_heap s)) (Some l)) (st_ext s) (st_objs s1), Done)
  (** picsar_vector.hpp:229-243 *)
  | OMoveAssign x y =>
      do vx <- obj s x;
      do vy <- obj s y;
      Ret (set_obj (set_obj s x (Some vy)) y (Some moved_from), Done)
  (** picsar_vector.hpp:248-254 *)
  | ODestroy x =>
      do v <- obj s x;
      do h <- (if v_own v then free (st_heap s) (v_data v) else Ret (st_heap s));
      Ret (mk_state h (st_ext s) (lset (st_objs s) x None), Done)
  (** picsar_vector.hpp:257-276 *)
  | OResize x n =>
      do v <- obj s x;
      if negb (v_own v) then Ret (s, Exception)
      else
        let how_many := if n <? v_size v then n else v_size v in
        do l <- load (st_heap s) (st_ext s) (v_data v) how_many;
        let (h, p) := alloc (st_heap s) (l ++ repeat None (n - how_many)) in
        do h2 <- free h (v_data v);
        Ret (mk_state h2 (st_ext s) (lset (st_objs s) x (Some (mk_pvec p n true))), Done)
  (** picsar_vector.hpp:279-293 operator[] *)
  | OWrite x i a => do v <- obj s x; do s' <- store s (v_data v) i a; Ret (s', Done)
  | ORead x i => do v <- obj s x; do c <- fetch s (v_data v) i; Ret (s, Value c)
  (** picsar_vector.hpp:344-351: v_data[0] *)
  | OBack x => do v <- obj s x; do c <- fetch s (v_data v) 0; Ret (s, Value c)
  (** picsar_vector.hpp:362-368: v_data[v_size-1]; for an empty vector the index wraps *)
  | OBackConst x =>
      do v <- obj s x;
      match v_size v with O => UB | S k => do c <- fetch s (v_data v) k; Ret (s, Value c) end
  (** picsar_vector.hpp:353-359 *)
  | OFront x => do v <- obj s x; do c <- fetch s (v_data v) 0; Ret (s, Value c)
  (** picsar_vector.hpp:370-376 *)
  | OFrontConst x => do v <- obj s x; do c <- fetch s (v_data v) 0; Ret (s, Value c)
  (** picsar_vector.hpp:304-310 *)
  | OSize x => do v <- obj s x; Ret (s, SizeIs (v_size v))
  end.

(** a history of operations; an exception is caught by the caller *)
Fixpoint run (prog : list op) (s : state) : out (state * list obs) :=
  match prog with
  | [] => Ret (s, [])
  | o :: t => do '(s1, b) <- step o s; do '(s2, bs) <- run t s1; Ret (s2, b :: bs)
  end.

(** no object yet, the buffers of the user are [ext] *)
Definition start (ext : list (list cell)) : state := mk_state [] ext [].

End Vector.
Arguments op : clear implicits.
Arguments obs : clear implicits.
Arguments state : clear implicits.
Arguments cell : clear implicits.
