(** "#pragma omp parallel for" whose iterations write to a shared vector, as in
    breit_wheeler_engine.hpp:740-750 and quantum_sync_engine.hpp:693-724.  An
    iteration is the list of its writes: their targets and values are computed
    from read-only data and locals of the iteration. *)
From Coq Require Import ZArith List.
From Verif Require Import Cxx LookupTables.
Import ListNotations.

Definition write_op (A : Type) : Type := (Z * A)%type.

(** Performing writes in order. *)
Fixpoint apply_writes {A} (arr : list A) (ws : list (write_op A)) : out (list A) :=
  match ws with
  | [] => Ret arr
  | (i, a) :: t => do arr' <- vset arr i a; apply_writes arr' t
  end.

(** [interleaving its sched]: [sched] is a merge of the write lists of the
    iterations that keeps the order inside every iteration.  This covers every
    assignment of iterations to threads and every interleaving. *)
Inductive interleaving {A} : list (list A) -> list A -> Prop :=
| il_done : forall its, Forall (fun l => l = []) its -> interleaving its []
| il_step : forall pre w ws post sched,
    interleaving (pre ++ ws :: post) sched ->
    interleaving (pre ++ (w :: ws) :: post) (w :: sched).
