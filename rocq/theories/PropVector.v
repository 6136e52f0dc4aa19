(** C01-C06: picsar_vector (see properties.jsonl). *)
From Coq Require Import List Bool Arith Lia.
From Verif Require Import Cxx PicsarVector SpecVector VectorProofs.
Import ListNotations.

(** *** C01: whatever the history of legal operations (on objects that are alive,
    at indices below the size, with raw buffers long enough), no double free, no
    free of foreign memory, no access outside a live block *)
Theorem C01_memory_safe : forall A (prog : list (op A)) (ext : list (list (cell A))), legal_run prog (start ext) ->
  exists s bs, run prog (start ext) = Ret (s, bs).
Proof. intros A. exact memory_safe. Qed.
Print Assumptions C01_memory_safe.

Theorem C01_next_operation_safe : forall A (prog : list (op A)) s o, reached prog s -> legal s o ->
  exists s' b, step o s = Ret (s', b) /\ reached (prog ++ [o]) s'.
Proof. intros A. exact next_safe. Qed.
Print Assumptions C01_next_operation_safe.

(** the limit: a non-owning view built from the data() of another vector dangles *)
Theorem C01_view_refuted :
  run [OFromList [1; 2]; OView 0 2; ORead 1 1; ODestroy 0] (start []) <> UB /\
  run [OFromList [1; 2]; OView 0 2; ORead 1 1; ODestroy 0; ORead 1 1] (start []) = UB.
Proof. exact view_dangles. Qed.
Print Assumptions C01_view_refuted.

Definition demo : list (op nat) :=
  [OFromList [7; 8; 9]; ONew 2; OCopy 0; OMove 2; OAssign 1 3; OResize 1 5; OWrite 1 4 6; ORead 1 4; ORead 0 0;
   ORaw 0 2; OWrite 4 1 5; OMoveAssign 3 4; ODestroy 0; ODestroy 1; ODestroy 2; ODestroy 3; ODestroy 4].

Example C01_nonvacuous : legal_run demo (start [[None; None]]) /\ length demo = 17.
Proof.
  split; [|reflexivity]. unfold demo.
  repeat (split; [cbn; unfold alive, in_size; cbn; repeat split; first [exact I | eexists; (reflexivity || (split; [reflexivity|cbn; lia]))]
    | intros s0 b0 H0; vm_compute in H0; injection H0 as <- <-]). exact I.
Qed.

(** *** C02: the observations of any program agree with those of independent lists *)
Theorem C02_value_semantics : forall A (prog : list (op A)) (ext : list (list (cell A))) vs bs, spec_run prog [] = Some (vs, bs) ->
  exists s, run prog (start ext) = Ret (s, bs).
Proof. intros A. exact refines. Qed.
Print Assumptions C02_value_semantics.

Example C02_nonvacuous : spec_run [OFromList [1; 2]; OCopy 0; OWrite 0 1 9; ORead 1 1; OMove 0; OSize 0; OResize 0 4; OAssign 1 2; ORead 1 1] []
  = Some ([Some ([], false); Some ([Some 1; Some 9], true); Some ([Some 1; Some 9], true)],
      [Done; Done; Done; Value (Some 2); Done; SizeIs 0; Exception; Done; Value (Some 9)]).
Proof. reflexivity. Qed.

(** *** C03: exact accounting: blocks still allocated = vectors holding storage
    + assignments made so far onto a vector that was holding storage *)
Theorem C03_storage_accounting : forall A (prog : list (op A)) ext s bs, legal_run prog (start ext) -> run prog (start ext) = Ret (s, bs) ->
  live_blocks (st_heap s) = holders (st_objs s) + overwritten prog (start ext).
Proof. intros A. exact storage. Qed.
Print Assumptions C03_storage_accounting.

(** without such assignments nothing is left once all vectors are destroyed *)
Theorem C03_no_leak_without_overwrite : forall A (prog : list (op A)) ext s bs, legal_run prog (start ext) -> run prog (start ext) = Ret (s, bs) ->
  overwritten prog (start ext) = 0 -> (forall x, ~ alive s x) -> forall k l, nth_error (st_heap s) k <> Some (Some l).
Proof. intros A. exact no_leak_all_destroyed. Qed.
Print Assumptions C03_no_leak_without_overwrite.

(** an assignment onto a vector that holds storage: the block is lost for good *)
Theorem C03_assignment_refuted : 
  exists s, run [OFromList [1]; OFromList [2]; OAssign 0 1; ODestroy 0; ODestroy 1] (start []) = Ret (s, [Done; Done; Done; Done; Done]) /\
    (forall x, ~ alive s x) /\ live_blocks (st_heap s) = 1.
Proof. exact leak_example. Qed.
Print Assumptions C03_assignment_refuted.

Example C03_nonvacuous : overwritten demo (start [[None; None]]) = 2 /\
  overwritten [OFromList [1]; OCopy 0; OMove 1; OResize 2 7; OResize 0 0; ODestroy 0; ODestroy 1; ODestroy 2] (start []) = 0.
Proof. split; reflexivity. Qed.

(** *** C04: self-assignment destroys the content: the size is kept, every element
    becomes indeterminate *)
Theorem C04_self_copy_refuted : forall A (s : state A) x v, nth_error (st_objs s) x = Some (Some v) ->
  exists s' v', step (OAssign x x) s = Ret (s', Done) /\ nth_error (st_objs s') x = Some (Some v') /\
    v_size v' = v_size v /\ forall i, i < v_size v -> step (ORead x i) s' = Ret (s', Value None).
Proof. intros A. exact self_assign. Qed.
Print Assumptions C04_self_copy_refuted.

(** self-move empties the vector and releases nothing *)
Theorem C04_self_move_refuted : forall A (s : state A) x v, nth_error (st_objs s) x = Some (Some v) ->
  exists s', step (OMoveAssign x x) s = Ret (s', Done) /\ step (OSize x) s' = Ret (s', SizeIs 0) /\ st_heap s' = st_heap s /\
    nth_error (st_objs s') x = Some (Some moved_from).
Proof. intros A. exact self_move. Qed.
Print Assumptions C04_self_move_refuted.

Example C04_nonvacuous :
  match run [OFromList [4; 5]; ORead 0 1; OAssign 0 0; ORead 0 1; OFromList [6]; OMoveAssign 1 1; OSize 1] (start []) with
  | Ret (_, bs) => bs = [Done; Value (Some 5); Done; Value None; Done; Done; SizeIs 0] | _ => False end.
Proof. reflexivity. Qed.

(** *** C05 *)
Theorem C05_resize_owning : forall A (prog : list (op A)) s x v n, reached prog s -> nth_error (st_objs s) x = Some (Some v) -> v_own v = true ->
  exists s', step (OResize x n) s = Ret (s', Done) /\ step (OSize x) s' = Ret (s', SizeIs n) /\
    (forall i, i < v_size v -> i < n -> exists c, step (ORead x i) s = Ret (s, Value c) /\ step (ORead x i) s' = Ret (s', Value c)) /\
    (forall i, v_size v <= i -> i < n -> step (ORead x i) s' = Ret (s', Value None)) /\
    (forall y w i, y <> x -> nth_error (st_objs s) y = Some (Some w) -> i < v_size w ->
       exists c, step (ORead y i) s = Ret (s, Value c) /\ step (ORead y i) s' = Ret (s', Value c)).
Proof. intros A. exact resize_owning. Qed.
Print Assumptions C05_resize_owning.

Theorem C05_resize_refused : forall A (s : state A) x v n, nth_error (st_objs s) x = Some (Some v) -> v_own v = false ->
  step (OResize x n) s = Ret (s, Exception).
Proof. intros A. exact resize_refused. Qed.
Print Assumptions C05_resize_refused.

(** which vectors own: all of them but raw ones and moved-from ones *)
Theorem C05_raw_and_moved_do_not_own : forall A (s s' : state A) o b, step o s = Ret (s', b) ->
  match o with
  | ONew _ | OFromList _ | OEmpty | OCopy _ =>
      exists v, nth_error (st_objs s') (length (st_objs s)) = Some (Some v) /\ v_own v = true
  | ORaw _ _ => exists v, nth_error (st_objs s') (length (st_objs s)) = Some (Some v) /\ v_own v = false
  | OAssign x _ => exists v, nth_error (st_objs s') x = Some (Some v) /\ v_own v = true
  | OMove x => exists v, nth_error (st_objs s') x = Some (Some v) /\ v_own v = false
  | OMoveAssign _ y => exists v, nth_error (st_objs s') y = Some (Some v) /\ v_own v = false
  | _ => True
  end.
Proof. intros A. exact owning_after. Qed.
Print Assumptions C05_raw_and_moved_do_not_own.

Example C05_nonvacuous :
  match run [OFromList [4; 5]; OResize 0 3; ORead 0 1; ORead 0 2; OSize 0; OMove 0; OResize 0 1; OResize 1 1; ORead 1 0; OSize 1] (start []) with
  | Ret (_, bs) => bs = [Done; Done; Value (Some 5); Value None; SizeIs 3; Done; Exception; Done; Value (Some 4); SizeIs 1] | _ => False end.
Proof. reflexivity. Qed.

(** *** C06 *)
Theorem C06_front_and_const_back : forall A (s : state A) x v, nth_error (st_objs s) x = Some (Some v) -> 0 < v_size v ->
  step (OFront x) s = step (ORead x 0) s /\ step (OFrontConst x) s = step (ORead x 0) s /\
  step (OBackConst x) s = step (ORead x (v_size v - 1)) s.
Proof. intros A. exact ends. Qed.
Print Assumptions C06_front_and_const_back.

(** back() on a non-const vector is front(), for every vector *)
Theorem C06_back_is_front_refuted : forall A (s : state A) x, step (OBack x) s = step (OFront x) s.
Proof. intros A. exact back_is_front. Qed.
Print Assumptions C06_back_is_front_refuted.

Example C06_nonvacuous :
  match run [OFromList [4; 5; 6]; OFront 0; OFrontConst 0; OBackConst 0; OBack 0] (start []) with
  | Ret (_, bs) => bs = [Done; Value (Some 4); Value (Some 4); Value (Some 6); Value (Some 4)] | _ => False end.
Proof. reflexivity. Qed.
