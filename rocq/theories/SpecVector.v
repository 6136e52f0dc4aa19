(** What a user expects of picsar_vector: independent lists.  This file mentions
    neither pointers nor blocks. *)
From Coq Require Import List Bool Arith.
From Verif Require Import Cxx PicsarVector.
Import ListNotations.

Section Spec.
Context {A : Type}.

(** content, and whether the vector may be resized (a moved-from one may not) *)
Definition value : Type := (list (cell A) * bool)%type.
Definition values : Type := list (option value).

Definition val (vs : values) (x : nat) : option value :=
  match nth_error vs x with Some (Some v) => Some v | _ => None end.

(** [None]: the program is wrong (dead object, index out of range) or does
    something excluded here (self-assignment, raw pointers) *)
Definition spec_step (o : op A) (vs : values) : option (values * obs A) :=
  match o with
  | ONew n => Some (vs ++ [Some (repeat None n, true)], Done)
  | OFromList l => Some (vs ++ [Some (map Some l, true)], Done)
  | OEmpty => Some (vs ++ [Some ([], true)], Done)
  | ORaw _ _ | OView _ _ => None
  | OCopy x => match val vs x with Some (l, _) => Some (vs ++ [Some (l, true)], Done) | None => None end
  | OMove x => match val vs x with Some v => Some (lset vs x (Some ([], false)) ++ [Some v], Done) | None => None end
  | OAssign x y =>
      match val vs x, val vs y with
      | Some _, Some (l, _) => if x =? y then None else Some (lset vs x (Some (l, true)), Done)
      | _, _ => None
      end
  | OMoveAssign x y =>
      match val vs x, val vs y with
      | Some _, Some v => if x =? y then None else Some (lset (lset vs x (Some v)) y (Some ([], false)), Done)
      | _, _ => None
      end
  | ODestroy x => match val vs x with Some _ => Some (lset vs x None, Done) | None => None end
  | OResize x n =>
      match val vs x with
      | Some (l, true) => Some (lset vs x (Some (firstn n l ++ repeat None (n - length l), true)), Done)
      | Some (_, false) => Some (vs, Exception)
      | None => None
      end
  | OWrite x i a =>
      match val vs x with
      | Some (l, f) => if i <? length l then Some (lset vs x (Some (lset l i (Some a), f)), Done) else None
      | None => None
      end
  | ORead x i =>
      match val vs x with
      | Some (l, _) => match nth_error l i with Some c => Some (vs, Value c) | None => None end
      | None => None
      end
  | OFront x | OFrontConst x =>
      match val vs x with Some (c :: _, _) => Some (vs, Value c) | _ => None end
  | OBackConst x =>
      match val vs x with Some (l, _) => match rev l with c :: _ => Some (vs, Value c) | [] => None end | None => None end
  (** excluded: see C06 *)
  | OBack x => None
  | OSize x => match val vs x with Some (l, _) => Some (vs, SizeIs (length l)) | None => None end
  end.

Fixpoint spec_run (prog : list (op A)) (vs : values) : option (values * list (obs A)) :=
  match prog with
  | [] => Some (vs, [])
  | o :: t =>
      match spec_step o vs with
      | Some (vs1, b) => match spec_run t vs1 with Some (vs2, bs) => Some (vs2, b :: bs) | None => None end
      | None => None
      end
  end.

(** ** legal use, in terms of lifetimes, sizes and the buffers of the user *)
Definition alive (s : state A) (x : nat) : Prop := exists v, nth_error (st_objs s) x = Some (Some v).
Definition in_size (s : state A) (x i : nat) : Prop := exists v, nth_error (st_objs s) x = Some (Some v) /\ i < v_size v.

Definition legal (s : state A) (o : op A) : Prop :=
  match o with
  | ONew _ | OFromList _ | OEmpty => True
  | ORaw b n => exists l, nth_error (st_ext s) b = Some l /\ n <= length l
  | OView _ _ => False
  | OCopy x | OMove x | ODestroy x | OResize x _ | OSize x => alive s x
  | OAssign x y | OMoveAssign x y => alive s x /\ alive s y
  | OWrite x i _ | ORead x i => in_size s x i
  | OBack x | OBackConst x | OFront x | OFrontConst x => in_size s x 0
  end.

(** every operation of the history is legal when its turn comes *)
Fixpoint legal_run (prog : list (op A)) (s : state A) : Prop :=
  match prog with
  | [] => True
  | o :: t => legal s o /\ forall s' b, step o s = Ret (s', b) -> legal_run t s'
  end.

(** the program is legal throughout and ends in state s *)
Definition reached (prog : list (op A)) (s : state A) : Prop :=
  exists e bs, legal_run prog (start e) /\ run prog (start e) = Ret (s, bs).

(** ** storage *)
Definition live_blocks (h : heap (A := A)) : nat := length (filter (fun b => match b with Some _ => true | None => false end) h).

(** the vector holds storage it must give back *)
Definition holds (v : pvec) : bool := v_own v && match v_data v with PNull => false | _ => true end.
Definition holders (objs : list (option pvec)) : nat :=
  length (filter (fun b => match b with Some v => holds v | None => false end) objs).

(** an assignment to a vector that holds storage *)
Definition overwrites (s : state A) (o : op A) : nat :=
  match o with
  | OAssign x _ | OMoveAssign x _ =>
      match nth_error (st_objs s) x with Some (Some v) => if holds v then 1 else 0 | _ => 0 end
  | _ => 0
  end.

Fixpoint overwritten (prog : list (op A)) (s : state A) : nat :=
  match prog with
  | [] => 0
  | o :: t => overwrites s o + match step o s with Ret (s', _) => overwritten t s' | _ => 0 end
  end.
End Spec.
