(** The public interface of the three engines as calls on an engine object:
    breit_wheeler_engine.hpp:174-256, quantum_sync_engine.hpp (same order),
    schwinger_pair_engine.hpp:40-125.  Every call returns an answer and the new
    state of the engine.  Not modelled: the diagnostic stream, the write_*
    functions (they leave the engine alone).  Simplification: the read_* functions
    receive the table the file holds (the file format is modelled in TableIO.v). *)
From Coq Require Import ZArith List Bool.
From Verif Require Import Cxx Num Utilities LookupTables VecFun Units Oracles BreitWheeler QuantumSync Schwinger.
Import ListNotations.

Section Calls.
Context {N : NumOps} (U : Units N) (Orc : Oracles N) (G : Rng N).

Inductive answer :=
| ANone
| ANum (v : num N)
| AEvent (event : bool) (dt opt : num N)
| APairs (els poss : list (particle N))
| APhotons (phs : list (particle N)) (p : vec3 N)
| APosition (x : list (num N)).

(** calls of breit_wheeler_engine and quantum_synchrotron_engine; [CMakeCum g]:
    [g] is the indeterminate initial content of the table under construction *)
Inductive call :=
| CGetLambda
| CSetLambda (l : num N)
| COpticalDepth
| CRate (energy chi : num N)
| CMakeRate
| CInterp (energy chi : num N)
| CEvolve (p e b : vec3 N) (dt opt : num N)
| CCumulative (chi chi2 : num N)
| CMakeCum (g : num N)
| CGenerate (p e b : vec3 N) (weight : num N) (sampling : Z)
| CReadRate (t : lookup_1d N)
| CReadCum (t : lookup_2d N).

(** breit_wheeler_engine.hpp:589-866 *)
Definition bw_call (c : call) (x : bw_engine G) : out (answer * bw_engine G) :=
  match c with
  | CGetLambda => Ret (ANum (bw_get_lambda G x), x)
  | CSetLambda l => Ret (ANone, bw_set_lambda U G x l)
  | COpticalDepth => let '(v, x') := bw_get_optical_depth G x in Ret (ANum v, x')
  | CRate energy chi => Ret (ANum (bw_compute_dN_dt U Orc (be_lambda x) energy chi), x)
  | CMakeRate => Ret (ANone, bw_make_dN_dt_table Orc G x)
  | CInterp energy chi => do v <- bw_engine_interp_dN_dt U G x energy chi; Ret (ANum v, x)
  | CEvolve p e b dt opt =>
      do '(ev, d, o) <- bw_evolve U Orc G x p e b dt opt; Ret (AEvent ev d o, x)
  | CCumulative chi chi2 => Ret (ANum (bw_cumulative_pair Orc chi chi2), x)
  | CMakeCum g => do x' <- bw_make_cum_table Orc G x g; Ret (ANone, x')
  | CGenerate p e b w s =>
      do '(els, poss, x') <- bw_generate U G x p e b w s; Ret (APairs els poss, x')
  | CReadRate t => Ret (ANone, mk_bw (be_lambda x) (be_rng x) (be_ctrl x) t (be_cum x))
  | CReadCum t => Ret (ANone, mk_bw (be_lambda x) (be_rng x) (be_ctrl x) (be_TT x) t)
  end.

(** quantum_sync_engine.hpp:533-832 *)
Definition qs_call (c : call) (x : qs_engine G) : out (answer * qs_engine G) :=
  match c with
  | CGetLambda => Ret (ANum (qs_get_lambda G x), x)
  | CSetLambda l => Ret (ANone, qs_set_lambda U G x l)
  | COpticalDepth => let '(v, x') := qs_get_optical_depth G x in Ret (ANum v, x')
  | CRate energy chi => Ret (ANum (qs_compute_dN_dt U Orc (qe_lambda x) energy chi), x)
  | CMakeRate => Ret (ANone, qs_make_dN_dt_table Orc G x)
  | CInterp energy chi => do v <- qs_engine_interp_dN_dt U G x energy chi; Ret (ANum v, x)
  | CEvolve p e b dt opt =>
      do '(ev, d, o) <- qs_evolve U Orc G x p e b dt opt; Ret (AEvent ev d o, x)
  | CCumulative chi chi2 => Ret (ANum (qs_cumulative Orc chi chi2), x)
  | CMakeCum g => do x' <- qs_make_cum_table Orc G x g; Ret (ANone, x')
  | CGenerate p e b w s =>
      do '(phs, p', x') <- qs_generate U G x p e b w s; Ret (APhotons phs p', x')
  | CReadRate t => Ret (ANone, mk_qs (qe_lambda x) (qe_rng x) (qe_ctrl x) t (qe_cum x))
  | CReadCum t => Ret (ANone, mk_qs (qe_lambda x) (qe_rng x) (qe_ctrl x) (qe_KK x) t)
  end.

(** the calls of schwinger_pair_engine that can be instantiated *)
Inductive sw_callid :=
| SGetLambda
| SSetLambda (l : num N)
| SRate (e b : vec3 N)
| SPosition.

(** schwinger_pair_engine.hpp:182-199, 322-345 *)
Definition sw_call (c : sw_callid) (x : sw_engine G) : out (answer * sw_engine G) :=
  match c with
  | SGetLambda => Ret (ANum (sw_get_lambda G x), x)
  | SSetLambda l => Ret (ANone, sw_set_lambda U G x l)
  | SRate e b => Ret (ANum (sw_engine_rate U G x e b), x)
  | SPosition => let '(v, x') := sw_new_position G x in Ret (APosition v, x')
  end.

End Calls.
Arguments answer : clear implicits.
Arguments call : clear implicits.
Arguments sw_callid : clear implicits.
