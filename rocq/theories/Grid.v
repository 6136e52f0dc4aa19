(** Arrays of rank three with declared bounds, loops over them, and the meaning of an
    OpenMP worksharing loop.  This file models the language, not a file of /repo. *)
From Coq Require Import ZArith List Bool Permutation.
From Verif Require Import Cxx.
Import ListNotations.
Local Open Scope Z_scope.

Definition idx : Type := (Z * Z * Z)%type.

(** [DIMENSION(lo1:hi1, lo2:hi2, lo3:hi3)] *)
Record grid (A : Type) := Grid { glo : idx; ghi : idx; gat : idx -> A }.
Arguments Grid {A}. Arguments glo {A}. Arguments ghi {A}. Arguments gat {A}.

Definition in_box (lo hi p : idx) : bool :=
  let '(a1, a2, a3) := lo in let '(b1, b2, b3) := hi in let '(j, k, l) := p in
  (a1 <=? j) && (j <=? b1) && ((a2 <=? k) && (k <=? b2)) && ((a3 <=? l) && (l <=? b3)).

Definition idx_eqb (p q : idx) : bool :=
  let '(a, b, c) := p in let '(j, k, l) := q in (a =? j) && (b =? k) && (c =? l).

(** [a(j, k, l)]: an index outside the declared bounds is undefined behaviour *)
Definition get3 {A} (g : grid A) (p : idx) : out A :=
  if in_box (glo g) (ghi g) p then Ret (gat g p) else UB.
Definition set3 {A} (g : grid A) (p : idx) (v : A) : out (grid A) :=
  if in_box (glo g) (ghi g) p
  then Ret (Grid (glo g) (ghi g) (fun q => if idx_eqb p q then v else gat g q)) else UB.

(** the integers lo, lo+1, ..., hi *)
Definition zrange (lo hi : Z) : list Z := map (fun i => lo + i) (zseq (Z.to_nat (hi - lo + 1))).

(** iterations of [do l = lo3, hi3; do k = lo2, hi2; do j = lo1, hi1] in program order *)
Definition box (lo hi : idx) : list idx :=
  let '(a1, a2, a3) := lo in let '(b1, b2, b3) := hi in
  flat_map (fun l => flat_map (fun k => map (fun j => (j, k, l)) (zrange a1 b1)) (zrange a2 b2)) (zrange a3 b3).

(** One execution of a statement [a(p) = f(a(p))]. *)
Definition stmt (A : Type) : Type := (idx * (A -> out A))%type.
Definition exec1 {A} (s : stmt A) (g : grid A) : out (grid A) :=
  do x <- get3 g (fst s); do y <- snd s x; set3 g (fst s) y.
Fixpoint exec {A} (ss : list (stmt A)) (g : grid A) : out (grid A) :=
  match ss with [] => Ret g | s :: ss' => do g' <- exec1 s g; exec ss' g' end.

(** A loop nest whose iteration p executes the statements [body p] on one array. *)
Definition loop3 {A} (lo hi : idx) (body : idx -> list (stmt A)) (g : grid A) : out (grid A) :=
  exec (flat_map body (box lo hi)) g.

(** The orders in which the statements of several threads may be executed. *)
Inductive interleaves {A} : list (list A) -> list A -> Prop :=
| il_nil : forall ts, Forall (eq []) ts -> interleaves ts []
| il_step : forall ts1 a t ts2 s, interleaves (ts1 ++ t :: ts2) s -> interleaves (ts1 ++ (a :: t) :: ts2) (a :: s).

(** [ss] is an execution of a loop nest under [!$OMP DO COLLAPSE(3)]: every iteration is
    given to some thread, every thread runs its iterations one after the other in any
    order, and the statements of the threads are interleaved in any way.  Simplification:
    one statement is executed atomically. *)
Definition omp_execution {A} (lo hi : idx) (body : idx -> list (stmt A)) (ss : list (stmt A)) : Prop :=
  exists threads : list (list idx), Permutation (concat threads) (box lo hi) /\
    interleaves (map (flat_map body) threads) ss.

(** two arrays with the same bounds and the same elements *)
Definition same_grid {A} (g h : grid A) : Prop :=
  glo g = glo h /\ ghi g = ghi h /\ forall p, in_box (glo g) (ghi g) p = true -> gat g p = gat h p.

(** three components on the grid *)
Record field (A : Type) := Field3 { fx : grid A; fy : grid A; fz : grid A }.
Arguments Field3 {A}. Arguments fx {A}. Arguments fy {A}. Arguments fz {A}.

(** Three parallel loops one after the other, each updating one component: [r] is one of the
    possible outcomes. *)
Definition kernel (A : Type) : Type := (idx * idx * (idx -> list (stmt A)))%type.
Definition omp_outcome {A} (kx ky kz : kernel A) (F : field A) (r : out (field A)) : Prop :=
  exists sx sy sz,
    omp_execution (fst (fst kx)) (snd (fst kx)) (snd kx) sx /\
    omp_execution (fst (fst ky)) (snd (fst ky)) (snd ky) sy /\
    omp_execution (fst (fst kz)) (snd (fst kz)) (snd kz) sz /\
    r = do x <- exec sx (fx F); do y <- exec sy (fy F); do z <- exec sz (fz F); Ret (Field3 x y z).

(** the same outcome: the same elements in all arrays, or out of bounds in both *)
Definition same_field_out {A} (r r' : out (field A)) : Prop :=
  match r, r' with
  | Ret F, Ret G => same_grid (fx F) (fx G) /\ same_grid (fy F) (fy G) /\ same_grid (fz F) (fz G)
  | UB, UB => True
  | _, _ => False
  end.
