(** Vocabulary of the statements about histories of calls on engines: programs
    with several engines, and what a history leaves behind. *)
From Coq Require Import ZArith List Bool.
From Verif Require Import Cxx Num LookupTables Oracles BreitWheeler QuantumSync EngineCalls.
Import ListNotations.

Section Programs.
Context {E C A : Type}.
(** [sem c x]: the call [c] on an engine in state [x]; [cp]: state of a copy *)
Variables (sem : C -> E -> out (A * E)) (cp : E -> E).

(** a history of calls on one engine: the answers and the final state *)
Fixpoint run (cs : list C) (x : E) : out (list A * E) :=
  match cs with
  | [] => Ret ([], x)
  | c :: t => do '(a, x1) <- sem c x; do '(l, x2) <- run t x1; Ret (a :: l, x2)
  end.

(** a program with several engines, numbered in the order of their creation: a
    call on one of them, a copy construction, an assignment *)
Inductive action := On (i : nat) (c : C) | CopyOf (i : nat) | Assign (dst src : nat).

Definition step (a : action) (pool : list E) : out (list (nat * A) * list E) :=
  match a with
  | On i c =>
      match nth_error pool i with
      | Some x => do '(ans, x') <- sem c x; Ret ([(i, ans)], lset pool i x')
      | None => UB
      end
  | CopyOf i => match nth_error pool i with Some x => Ret ([], pool ++ [cp x]) | None => UB end
  | Assign d s =>
      match nth_error pool d, nth_error pool s with
      | Some _, Some x => Ret ([], lset pool d (cp x))
      | _, _ => UB
      end
  end.

Fixpoint program (h : list action) (pool : list E) : out (list (nat * A) * list E) :=
  match h with
  | [] => Ret ([], pool)
  | a :: t => do '(l, p1) <- step a pool; do '(l', p2) <- program t p1; Ret (l ++ l', p2)
  end.

(** the calls on engine i, in order *)
Fixpoint calls_on (i : nat) (h : list action) : list C :=
  match h with
  | [] => []
  | On j c :: t => if Nat.eqb i j then c :: calls_on i t else calls_on i t
  | _ :: t => calls_on i t
  end.

(** the answers engine i gave, in order *)
Definition answers_of (i : nat) (l : list (nat * A)) : list A :=
  map snd (filter (fun x => Nat.eqb i (fst x)) l).

Definition never_assigned (i : nat) (h : list action) : Prop := forall d s, In (Assign d s) h -> d <> i.

End Programs.
Arguments action : clear implicits.

(** ** what a history leaves behind *)
Section Histories.
Context {N : NumOps}.

(** random numbers drawn by a call *)
Inductive draw := DExp | DUnf.
Definition draws (c : call N) : list draw :=
  match c with
  | COpticalDepth => [DExp]
  | CGenerate _ _ _ _ s => repeat DUnf (Z.to_nat s)
  | _ => []
  end.
(** the generator after such draws: exponential with mean 1, uniform in [0,1) *)
Fixpoint drawn (G : Rng N) (ds : list draw) (s : rng_state G) : rng_state G :=
  match ds with
  | [] => s
  | DExp :: t => drawn G t (snd (rng_exp G s n_one))
  | DUnf :: t => drawn G t (snd (rng_unf G s n_zero n_one))
  end.

(** the last wavelength set *)
Fixpoint last_lambda (h : list (call N)) (l : num N) : num N :=
  match h with
  | [] => l
  | CSetLambda l' :: t => last_lambda t l'
  | _ :: t => last_lambda t l
  end.

(** the last rate table computed (always the same one, [made]) or read *)
Fixpoint last_rate_table (made : lookup_1d N) (h : list (call N)) (t : lookup_1d N) : lookup_1d N :=
  match h with
  | [] => t
  | CMakeRate :: r => last_rate_table made r made
  | CReadRate t' :: r => last_rate_table made r t'
  | _ :: r => last_rate_table made r t
  end.

(** [t'] is the last cumulative table computed or read *)
Fixpoint last_cum_table (make : num N -> out (lookup_2d N)) (h : list (call N)) (t t' : lookup_2d N) : Prop :=
  match h with
  | [] => t' = t
  | CMakeCum g :: r => exists t1, make g = Ret t1 /\ last_cum_table make r t1 t'
  | CReadCum t1 :: r => last_cum_table make r t1 t'
  | _ :: r => last_cum_table make r t t'
  end.

(** both tables are initialised and have one entry per (pair of) coordinates *)
Definition rate_table_ok (t : lookup_1d N) : Prop :=
  t1_init t = true /\ length (t1_data t) = length (t1_coords t).
Definition cum_table_ok (t : lookup_2d N) : Prop :=
  t2_init t = true /\ length (t2_data t) = (length (t2_x t) * length (t2_y t))%nat /\
  (Z.of_nat (length (t2_data t)) < 2 ^ 64)%Z.
End Histories.
