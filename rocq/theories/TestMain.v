(** Model of src/multi_physics/test_program/src/main.cpp: test_BW. *)
From Coq Require Import ZArith List Bool.
From Verif Require Import Cxx Num LookupTables VecFun Units Oracles BreitWheeler TestProgram.
Import ListNotations.
Local Open Scope Z_scope.

Section Main.
(** [U]: the units of the build (main.cpp:19 selects normalised units) *)
Context {N : NumOps} (U : Units N) (Orc : Oracles N) (G : Rng N).

(** what the processes of the photons capture: bw_clone, ptr_ele1, ptr_pos1 *)
Record world := mkW { w_eng : bw_engine G; w_ele : species N unit; w_pos : species N unit }.

(** main.cpp:126-145: one iteration of BW_opticaldepth; [d] holds the arrays *)
Definition bw_optical_body (eng : bw_engine G) (dt : num N) (i : Z) (d : data N) : out (data N) :=
  do m <- get_vec (d_mom d) 0 i; do e <- get_vec (d_fld d) 0 i; do b <- get_vec (d_fld d) 3 i; do o <- zget (d_opt d) i;
  do '(ev, dtp, o') <- bw_evolve U Orc G eng m e b dt o;
  do opt <- zset (d_opt d) i o'; do flg <- zset (d_flag d) i ev;
  if (ev : bool) then
    do p <- get_vec (d_pos d) 0 i; do p' <- set_vec (d_pos d) 0 i (move p0_phot dtp p m);
    Ret (mkD p' (d_mom d) (d_fld d) opt flg)
  else Ret (mkD (d_pos d) (d_mom d) (d_fld d) opt flg).

(** main.cpp:123-147 BW_opticaldepth: for (size_t i = 0; i < pos[0].size(); i++) *)
Definition BW_opticaldepth : simple_process N world :=
  fun w p m f o g _ _ dt =>
    let back d := (w, (d_pos d, d_mom d, d_opt d, d_flag d)) in
    let d := mkD p m f o g in
    of_out (do n <- size0 d; loop (bw_optical_body (w_eng w) dt) (zseq (Z.to_nat n)) d) back (back d).

(** main.cpp:151-156 BW_howmanyphotons prints a number *)
Definition BW_howmanyphotons : simple_process N world :=
  fun w p m f o g _ _ dt => Done (w, (p, m, o, g)).

(** main.cpp:165-186 BW_pair_prod *)
Definition BW_pair_prod : destruction N world :=
  fun w p m f o flag _ _ dt =>
    if negb flag then Done (w, false)
    else
      match bw_generate U G (w_eng w) m (fst f) (snd f) n_one 1 with
      | Ret (els, poss, eng') =>
          match zget els 0, zget poss 0 with
          | Ret (pe, _), Ret (pp, _) =>
              rbind (add_particle p pe (w_ele w))
                (fun ele => rbind (add_particle p pp (w_pos w))
                              (fun pos => Done (mkW eng' ele pos, true))
                              (fun pos => (mkW eng' ele pos, true)))
                (fun ele => (mkW eng' ele (w_pos w), true))
          | _, _ => Undef
          end
      | Throw => Raised (w, true)
      | _ => Undef
      end.

(** state of the program: the photons and the captured objects *)
Definition state : Type := world * species N world.

(** for (auto& sp : specs) f(sp); exceptions end the program *)
Definition on_all (f1 : species N world -> res (species N world)) (f2 : species N unit -> res (species N unit)) (st : state) : out state :=
  let '(w, ph) := st in
  match f1 ph, f2 (w_ele w), f2 (w_pos w) with
  | Done ph', Done el, Done po => Ret (mkW (w_eng w) el po, ph')
  | Undef, _, _ | _, Undef, _ | _, _, Undef => UB
  | _, _, _ => Throw
  end.

(** main.cpp:204-205: do_all_simple_processes of the three species *)
Definition all_processes (dt : num N) (st : state) : out state :=
  match do_all_simple_processes dt st with
  | Done (w, ph) =>
      match do_all_simple_processes dt (tt, w_ele w), do_all_simple_processes dt (tt, w_pos w) with
      | Done (_, el), Done (_, po) => Ret (mkW (w_eng w) el po, ph)
      | Undef, _ | _, Undef => UB
      | _, _ => Throw
      end
  | Raised _ => Throw
  | Undef => UB
  end.

(** main.cpp:197 the field of the test *)
Definition test_field : vec3 N -> num N -> vec3 N * vec3 N :=
  fun _ _ => (V3 n_zero n_zero n_zero, V3 (n_lit 2000 0) n_zero n_zero).

(** main.cpp:195-208: one iteration of the main loop *)
Definition main_step (em : vec3 N -> num N -> vec3 N * vec3 N) (dt tt_ : num N) (st : state) : out state :=
  do st <- on_all (calc_fields em tt_) (calc_fields em tt_) st;
  do st <- on_all (push_momenta dt) (push_momenta dt) st;
  do st <- on_all (push_positions dt) (push_positions dt) st;
  do st <- all_processes dt st;
  match do_process_with_destruction 42 dt st with
  | Done st' => Ret st'
  | Raised _ => Throw
  | Undef => UB
  end.

(** main.cpp:195-214: [n] iterations from iteration [i]; the time is i*dt *)
Fixpoint main_loop (em : vec3 N -> num N -> vec3 N * vec3 N) (dt : num N) (n : nat) (i : Z) (st : state) : out state :=
  match n with
  | O => Ret st
  | S m => do st' <- main_step em dt (n_of_Z i * dt)%N st; main_loop em dt m (i + 1) st'
  end.

(** main.cpp:102-114: the initial photons *)
Fixpoint init_photons (n : nat) (r : rng_state G) (s : species N world) : out (species N world) :=
  match n with
  | O => Ret s
  | S m =>
      let '(x, r1) := rng_unf G r (n_lit (-8000) 0) (n_lit 8000 0) in
      let '(y, r2) := rng_unf G r1 (n_lit (-8000) 0) (n_lit 8000 0) in
      let '(z, r3) := rng_unf G r2 (n_lit (-8000) 0) (n_lit 8000 0) in
      match add_particle (V3 n_zero n_zero n_zero) (V3 x y z) s with
      | Done s' => init_photons m r3 s'
      | Raised _ => Throw
      | Undef => UB
      end
  end.

(** main.cpp:116-117: for (auto& opt: ...) opt = bw_engine.get_optical_depth() *)
Fixpoint draw_depths (n : nat) (eng : bw_engine G) : list (num N) * bw_engine G :=
  match n with
  | O => ([], eng)
  | S m => let '(v, e1) := bw_get_optical_depth G eng in let '(vs, e2) := draw_depths m e1 in (v :: vs, e2)
  end.

(** main.cpp:46-192: everything before the main loop.  [eng] is bw_engine once its
    tables are made or read (70-85); the clone is built from its innards (88-90)
    before any optical depth is drawn *)
Definition setup (eng : bw_engine G) (n_phot : nat) (seed_photons : Z) : out state :=
  let clone := bw_of_innards G (bw_export_innards G eng) in
  do ph <- init_photons n_phot (rng_seed G seed_photons) photons_new;
  let '(depths, _) := draw_depths (length (d_opt (s_data ph))) eng in
  let d := s_data ph in
  let ph1 := with_data ph (mkD (d_pos d) (d_mom d) (d_fld d) depths (d_flag d)) in
  match add_simple_process BW_opticaldepth 0 ph1 with
  | Done ph2 =>
      match add_simple_process BW_howmanyphotons 777 ph2 with
      | Done ph3 =>
          match add_process_with_destruction BW_pair_prod 42 ph3 with
          | Done ph4 => Ret (mkW clone electrons_new positrons_new, ph4)
          | _ => Throw
          end
      | _ => Throw
      end
  | _ => Throw
  end.

(** main.cpp:46-216 test_BW *)
Definition test_BW (eng : bw_engine G) (n_phot : nat) (seed_photons : Z) (dt : num N) (num_steps : nat) : out state :=
  do st <- setup eng n_phot seed_photons;
  main_loop test_field dt num_steps 0 st.

End Main.
Arguments mkW {N G}. Arguments w_eng {N G}. Arguments w_ele {N G}. Arguments w_pos {N G}.
Arguments world {N}.
