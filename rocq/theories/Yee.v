(** Model of the finite difference Maxwell solvers: src/field_solvers/Maxwell/yee_solver/
    yee.F90, the callers in src/field_solvers/Maxwell/maxwell_solver_manager.F90, the
    library variants of src/init_external.F90 and the divergence diagnostics of
    src/diags/diags.F90.
    Simplifications: a statement [a(p) = a(p) + ...] is one step; an array of rank two
    (j, k) of the 2D routines is an array of rank three with the middle index 0; x**2 is
    x*x; timers are left out. *)
From Coq Require Import ZArith List Bool.
From Verif Require Import Cxx Num Fortran Grid Pushers.
Import ListNotations.
Local Open Scope Z_scope.

Section Solver.
Context {N : NumOps}.
Local Open Scope num_scope.
Notation gridN := (grid (num N)).
Notation fieldN := (field (num N)).
Notation stmtN := (stmt (num N)).

(** difference of two elements *)
Definition diff (b : gridN) (p q : idx) : out (num N) :=
  do x <- get3 b p; do y <- get3 b q; Ret (x - y).

(** ** second order, yee.F90:637-740 pxrpush_em3d_evec *)
(** yee.F90:693-695 *)
Definition e3_ex (B J : fieldN) (mudt dtsdy dtsdz : num N) (p : idx) : list stmtN :=
  let '(j, k, l) := p in
  [(p, fun e => do dz_ <- diff (fz B) (j, k, l) (j, (k - 1)%Z, l);
                do dy_ <- diff (fy B) (j, k, l) (j, k, (l - 1)%Z);
                do cur <- get3 (fx J) (j, k, l);
                Ret (e + dtsdy * dz_ - dtsdz * dy_ - mudt * cur))].
(** yee.F90:710-712 *)
Definition e3_ey (B J : fieldN) (mudt dtsdx dtsdz : num N) (p : idx) : list stmtN :=
  let '(j, k, l) := p in
  [(p, fun e => do dz_ <- diff (fz B) (j, k, l) ((j - 1)%Z, k, l);
                do dx_ <- diff (fx B) (j, k, l) (j, k, (l - 1)%Z);
                do cur <- get3 (fy J) (j, k, l);
                Ret (e - dtsdx * dz_ + dtsdz * dx_ - mudt * cur))].
(** yee.F90:727-729 *)
Definition e3_ez (B J : fieldN) (mudt dtsdx dtsdy : num N) (p : idx) : list stmtN :=
  let '(j, k, l) := p in
  [(p, fun e => do dy_ <- diff (fy B) (j, k, l) ((j - 1)%Z, k, l);
                do dx_ <- diff (fx B) (j, k, l) (j, (k - 1)%Z, l);
                do cur <- get3 (fz J) (j, k, l);
                Ret (e + dtsdx * dy_ - dtsdy * dx_ - mudt * cur))].
(** yee.F90:637-740 *)
Definition pxrpush_em3d_evec (xlo xhi ylo yhi zlo zhi : idx) (E B J : fieldN)
    (mudt dtsdx dtsdy dtsdz : num N) : out fieldN :=
  do ex <- loop3 xlo xhi (e3_ex B J mudt dtsdy dtsdz) (fx E);
  do ey <- loop3 ylo yhi (e3_ey B J mudt dtsdx dtsdz) (fy E);
  do ez <- loop3 zlo zhi (e3_ez B J mudt dtsdx dtsdy) (fz E);
  Ret (Field3 ex ey ez).

(** ** second order, yee.F90:1258-1347 pxrpush_em3d_bvec *)
(** yee.F90:1303-1304 *)
Definition b3_bx (E : fieldN) (dtsdy dtsdz : num N) (p : idx) : list stmtN :=
  let '(j, k, l) := p in
  [(p, fun b => do dz_ <- diff (fz E) (j, (k + 1)%Z, l) (j, k, l);
                do dy_ <- diff (fy E) (j, k, (l + 1)%Z) (j, k, l);
                Ret (b - dtsdy * dz_ + dtsdz * dy_))].
(** yee.F90:1319-1320 *)
Definition b3_by (E : fieldN) (dtsdx dtsdz : num N) (p : idx) : list stmtN :=
  let '(j, k, l) := p in
  [(p, fun b => do dz_ <- diff (fz E) ((j + 1)%Z, k, l) (j, k, l);
                do dx_ <- diff (fx E) (j, k, (l + 1)%Z) (j, k, l);
                Ret (b + dtsdx * dz_ - dtsdz * dx_))].
(** yee.F90:1335-1336 *)
Definition b3_bz (E : fieldN) (dtsdx dtsdy : num N) (p : idx) : list stmtN :=
  let '(j, k, l) := p in
  [(p, fun b => do dy_ <- diff (fy E) ((j + 1)%Z, k, l) (j, k, l);
                do dx_ <- diff (fx E) (j, (k + 1)%Z, l) (j, k, l);
                Ret (b - dtsdx * dy_ + dtsdy * dx_))].
(** yee.F90:1258-1347 *)
Definition pxrpush_em3d_bvec (xlo xhi ylo yhi zlo zhi : idx) (E B : fieldN)
    (dtsdx dtsdy dtsdz : num N) : out fieldN :=
  do bx <- loop3 xlo xhi (b3_bx E dtsdy dtsdz) (fx B);
  do by_ <- loop3 ylo yhi (b3_by E dtsdx dtsdz) (fy B);
  do bz <- loop3 zlo zhi (b3_bz E dtsdx dtsdy) (fz B);
  Ret (Field3 bx by_ bz).

(** ** any order, yee.F90:46-123 and 752-821 *)
(** [DO i = 1, n] of statements on element p *)
Definition stmts (p : idx) (n : Z) (f : Z -> num N -> out (num N)) : list stmtN :=
  map (fun i => (p, f i)) (zrange 1 n).
(** yee.F90:74, 78: number of terms used at index k of a direction with n cells *)
Definition terms (norder n nguard k : Z) : Z :=
  Z.min (Z.min (norder ÷ 2) (n - k + nguard)) (k + nguard).
(** yee.F90:61-65: ist *)
Definition stagger (l_nodalgrid : bool) : Z := if l_nodalgrid then 0%Z else 1%Z.

(** sizes and orders of the local grid *)
Record Sizes := { nx : Z; ny : Z; nz : Z; nxguard : Z; nyguard : Z; nzguard : Z;
  nxs : Z; nys : Z; nzs : Z; norderx : Z; nordery : Z; norderz : Z; l_nodalgrid : bool }.
(** yee.F90:70-72: loop limits *)
Definition slo (S : Sizes) : idx := ((- nxs S)%Z, (- nys S)%Z, (- nzs S)%Z).
Definition shi (S : Sizes) : idx := ((nx S + nxs S)%Z, (ny S + nys S)%Z, (nz S + nzs S)%Z).

(** one term of the sums: [e +- c(i) * (b(p) - b(q))] *)
Definition plus_term (c : list (num N)) (b : gridN) (i : Z) (p q : idx) (e : num N) : out (num N) :=
  do w <- get1 c i; do d <- diff b p q; Ret (e + w * d).
Definition minus_term (c : list (num N)) (b : gridN) (i : Z) (p q : idx) (e : num N) : out (num N) :=
  do w <- get1 c i; do d <- diff b p q; Ret (e - w * d).
(** yee.F90:73, 91, 109: the current *)
Definition cur_term (J : gridN) (mudt : num N) (p : idx) : stmtN :=
  (p, fun e => do cur <- get3 J p; Ret (e - mudt * cur)).

(** yee.F90:73-81 *)
Definition en_ex (S : Sizes) (B J : fieldN) (mudt : num N) (dtsdy dtsdz : list (num N)) (p : idx) : list stmtN :=
  let '(j, k, l) := p in let ist := stagger (l_nodalgrid S) in
  cur_term (fx J) mudt p ::
  stmts p (terms (nordery S) (ny S) (nyguard S) k)
    (fun i => plus_term dtsdy (fz B) i (j, (k + i - ist)%Z, l) (j, (k - i)%Z, l)) ++
  stmts p (terms (norderz S) (nz S) (nzguard S) l)
    (fun i => minus_term dtsdz (fy B) i (j, k, (l + i - ist)%Z) (j, k, (l - i)%Z)).
(** yee.F90:91-99 *)
Definition en_ey (S : Sizes) (B J : fieldN) (mudt : num N) (dtsdx dtsdz : list (num N)) (p : idx) : list stmtN :=
  let '(j, k, l) := p in let ist := stagger (l_nodalgrid S) in
  cur_term (fy J) mudt p ::
  stmts p (terms (norderx S) (nx S) (nxguard S) j)
    (fun i => minus_term dtsdx (fz B) i ((j + i - ist)%Z, k, l) ((j - i)%Z, k, l)) ++
  stmts p (terms (norderz S) (nz S) (nzguard S) l)
    (fun i => plus_term dtsdz (fx B) i (j, k, (l + i - ist)%Z) (j, k, (l - i)%Z)).
(** yee.F90:109-115 *)
Definition en_ez (S : Sizes) (B J : fieldN) (mudt : num N) (dtsdx dtsdy : list (num N)) (p : idx) : list stmtN :=
  let '(j, k, l) := p in let ist := stagger (l_nodalgrid S) in
  cur_term (fz J) mudt p ::
  stmts p (terms (norderx S) (nx S) (nxguard S) j)
    (fun i => plus_term dtsdx (fy B) i ((j + i - ist)%Z, k, l) ((j - i)%Z, k, l)) ++
  stmts p (terms (nordery S) (ny S) (nyguard S) k)
    (fun i => minus_term dtsdy (fx B) i (j, (k + i - ist)%Z, l) (j, (k - i)%Z, l)).
(** yee.F90:46-123 *)
Definition pxrpush_em3d_evec_norder (S : Sizes) (E B J : fieldN) (mudt : num N)
    (dtsdx dtsdy dtsdz : list (num N)) : out fieldN :=
  do ex <- loop3 (slo S) (shi S) (en_ex S B J mudt dtsdy dtsdz) (fx E);
  do ey <- loop3 (slo S) (shi S) (en_ey S B J mudt dtsdx dtsdz) (fy E);
  do ez <- loop3 (slo S) (shi S) (en_ez S B J mudt dtsdx dtsdy) (fz E);
  Ret (Field3 ex ey ez).

(** yee.F90:776-782 *)
Definition bn_bx (S : Sizes) (E : fieldN) (dtsdy dtsdz : list (num N)) (p : idx) : list stmtN :=
  let '(j, k, l) := p in let ist := stagger (l_nodalgrid S) in
  stmts p (terms (nordery S) (ny S) (nyguard S) k)
    (fun i => minus_term dtsdy (fz E) i (j, (k + i)%Z, l) (j, (k - i + ist)%Z, l)) ++
  stmts p (terms (norderz S) (nz S) (nzguard S) l)
    (fun i => plus_term dtsdz (fy E) i (j, k, (l + i)%Z) (j, k, (l - i + ist)%Z)).
(** yee.F90:792-798 *)
Definition bn_by (S : Sizes) (E : fieldN) (dtsdx dtsdz : list (num N)) (p : idx) : list stmtN :=
  let '(j, k, l) := p in let ist := stagger (l_nodalgrid S) in
  stmts p (terms (norderx S) (nx S) (nxguard S) j)
    (fun i => plus_term dtsdx (fz E) i ((j + i)%Z, k, l) ((j - i + ist)%Z, k, l)) ++
  stmts p (terms (norderz S) (nz S) (nzguard S) l)
    (fun i => minus_term dtsdz (fx E) i (j, k, (l + i)%Z) (j, k, (l - i + ist)%Z)).
(** yee.F90:808-813 *)
Definition bn_bz (S : Sizes) (E : fieldN) (dtsdx dtsdy : list (num N)) (p : idx) : list stmtN :=
  let '(j, k, l) := p in let ist := stagger (l_nodalgrid S) in
  stmts p (terms (norderx S) (nx S) (nxguard S) j)
    (fun i => minus_term dtsdx (fy E) i ((j + i)%Z, k, l) ((j - i + ist)%Z, k, l)) ++
  stmts p (terms (nordery S) (ny S) (nyguard S) k)
    (fun i => plus_term dtsdy (fx E) i (j, (k + i)%Z, l) (j, (k - i + ist)%Z, l)).
(** yee.F90:752-821 *)
Definition pxrpush_em3d_bvec_norder (S : Sizes) (E B : fieldN)
    (dtsdx dtsdy dtsdz : list (num N)) : out fieldN :=
  do bx <- loop3 (slo S) (shi S) (bn_bx S E dtsdy dtsdz) (fx B);
  do by_ <- loop3 (slo S) (shi S) (bn_by S E dtsdx dtsdz) (fy B);
  do bz <- loop3 (slo S) (shi S) (bn_bz S E dtsdx dtsdy) (fz B);
  Ret (Field3 bx by_ bz).

(** ** two dimensions, second order, yee.F90:216-310 and 912-994; the pair (j, k) of the
    source is (j, 0, k) *)
(** yee.F90:270-271 *)
Definition e2_ex (B J : fieldN) (mudt dtsdz : num N) (p : idx) : list stmtN :=
  let '(j, y, k) := p in
  [(p, fun e => do dy_ <- diff (fy B) (j, y, k) (j, y, (k - 1)%Z);
                do cur <- get3 (fx J) (j, y, k);
                Ret (e - dtsdz * dy_ - mudt * cur))].
(** yee.F90:284-286 *)
Definition e2_ey (B J : fieldN) (mudt dtsdx dtsdz : num N) (p : idx) : list stmtN :=
  let '(j, y, k) := p in
  [(p, fun e => do dz_ <- diff (fz B) (j, y, k) ((j - 1)%Z, y, k);
                do dx_ <- diff (fx B) (j, y, k) (j, y, (k - 1)%Z);
                do cur <- get3 (fy J) (j, y, k);
                Ret (e - dtsdx * dz_ + dtsdz * dx_ - mudt * cur))].
(** yee.F90:299-300 *)
Definition e2_ez (B J : fieldN) (mudt dtsdx : num N) (p : idx) : list stmtN :=
  let '(j, y, k) := p in
  [(p, fun e => do dy_ <- diff (fy B) (j, y, k) ((j - 1)%Z, y, k);
                do cur <- get3 (fz J) (j, y, k);
                Ret (e + dtsdx * dy_ - mudt * cur))].
(** yee.F90:216-310; [(a, c)] of the source is [(a, 0, c)] *)
Definition pxrpush_em2d_evec (xlo xhi ylo yhi zlo zhi : idx) (E B J : fieldN)
    (mudt dtsdx dtsdz : num N) : out fieldN :=
  do ex <- loop3 xlo xhi (e2_ex B J mudt dtsdz) (fx E);
  do ey <- loop3 ylo yhi (e2_ey B J mudt dtsdx dtsdz) (fy E);
  do ez <- loop3 zlo zhi (e2_ez B J mudt dtsdx) (fz E);
  Ret (Field3 ex ey ez).
(** yee.F90:958 *)
Definition b2_bx (E : fieldN) (dtsdz : num N) (p : idx) : list stmtN :=
  let '(j, y, k) := p in
  [(p, fun b => do dy_ <- diff (fy E) (j, y, (k + 1)%Z) (j, y, k); Ret (b + dtsdz * dy_))].
(** yee.F90:971-972 *)
Definition b2_by (E : fieldN) (dtsdx dtsdz : num N) (p : idx) : list stmtN :=
  let '(j, y, k) := p in
  [(p, fun b => do dz_ <- diff (fz E) ((j + 1)%Z, y, k) (j, y, k);
                do dx_ <- diff (fx E) (j, y, (k + 1)%Z) (j, y, k);
                Ret (b + dtsdx * dz_ - dtsdz * dx_))].
(** yee.F90:985 *)
Definition b2_bz (E : fieldN) (dtsdx : num N) (p : idx) : list stmtN :=
  let '(j, y, k) := p in
  [(p, fun b => do dy_ <- diff (fy E) ((j + 1)%Z, y, k) (j, y, k); Ret (b - dtsdx * dy_))].
(** yee.F90:912-994 *)
Definition pxrpush_em2d_bvec (xlo xhi ylo yhi zlo zhi : idx) (E B : fieldN)
    (dtsdx dtsdz : num N) : out fieldN :=
  do bx <- loop3 xlo xhi (b2_bx E dtsdz) (fx B);
  do by_ <- loop3 ylo yhi (b2_by E dtsdx dtsdz) (fy B);
  do bz <- loop3 zlo zhi (b2_bz E dtsdx) (fz B);
  Ret (Field3 bx by_ bz).

(** ** two dimensions, any order, yee.F90:135-198 and 833-892.  k is set to 0 before the
    parallel region (156, 853) and is PRIVATE in it (159, 855): inside the region it is
    a new, undefined variable.  The argument k is its value there; without OpenMP it is 0. *)
(** yee.F90:160-161 *)
Definition slo2 (S : Sizes) (k : Z) : idx := ((- nxs S)%Z, k, (- nzs S)%Z).
Definition shi2 (S : Sizes) (k : Z) : idx := ((nx S + nxs S)%Z, k, (nz S + nzs S)%Z).
(** yee.F90:162-165 *)
Definition en2_ex (S : Sizes) (B J : fieldN) (mudt : num N) (dtsdz : list (num N)) (p : idx) : list stmtN :=
  let '(j, k, l) := p in let ist := stagger (l_nodalgrid S) in
  cur_term (fx J) mudt p ::
  stmts p (norderz S ÷ 2) (fun i => minus_term dtsdz (fy B) i (j, k, (l + i - ist)%Z) (j, k, (l - i)%Z)).
(** yee.F90:174-180 *)
Definition en2_ey (S : Sizes) (B J : fieldN) (mudt : num N) (dtsdx dtsdz : list (num N)) (p : idx) : list stmtN :=
  let '(j, k, l) := p in let ist := stagger (l_nodalgrid S) in
  cur_term (fy J) mudt p ::
  stmts p (norderx S ÷ 2) (fun i => minus_term dtsdx (fz B) i ((j + i - ist)%Z, k, l) ((j - i)%Z, k, l)) ++
  stmts p (norderz S ÷ 2) (fun i => plus_term dtsdz (fx B) i (j, k, (l + i - ist)%Z) (j, k, (l - i)%Z)).
(** yee.F90:189-192 *)
Definition en2_ez (S : Sizes) (B J : fieldN) (mudt : num N) (dtsdx : list (num N)) (p : idx) : list stmtN :=
  let '(j, k, l) := p in let ist := stagger (l_nodalgrid S) in
  cur_term (fz J) mudt p ::
  stmts p (norderx S ÷ 2) (fun i => plus_term dtsdx (fy B) i ((j + i - ist)%Z, k, l) ((j - i)%Z, k, l)).
(** yee.F90:135-198 *)
Definition pxrpush_em2d_evec_norder (S : Sizes) (k : Z) (E B J : fieldN) (mudt : num N)
    (dtsdx dtsdz : list (num N)) : out fieldN :=
  do ex <- loop3 (slo2 S k) (shi2 S k) (en2_ex S B J mudt dtsdz) (fx E);
  do ey <- loop3 (slo2 S k) (shi2 S k) (en2_ey S B J mudt dtsdx dtsdz) (fy E);
  do ez <- loop3 (slo2 S k) (shi2 S k) (en2_ez S B J mudt dtsdx) (fz E);
  Ret (Field3 ex ey ez).
(** yee.F90:858-860 *)
Definition bn2_bx (S : Sizes) (E : fieldN) (dtsdz : list (num N)) (p : idx) : list stmtN :=
  let '(j, k, l) := p in let ist := stagger (l_nodalgrid S) in
  stmts p (norderz S ÷ 2) (fun i => plus_term dtsdz (fy E) i (j, k, (l + i)%Z) (j, k, (l - i + ist)%Z)).
(** yee.F90:869-874 *)
Definition bn2_by (S : Sizes) (E : fieldN) (dtsdx dtsdz : list (num N)) (p : idx) : list stmtN :=
  let '(j, k, l) := p in let ist := stagger (l_nodalgrid S) in
  stmts p (norderx S ÷ 2) (fun i => plus_term dtsdx (fz E) i ((j + i)%Z, k, l) ((j - i + ist)%Z, k, l)) ++
  stmts p (norderz S ÷ 2) (fun i => minus_term dtsdz (fx E) i (j, k, (l + i)%Z) (j, k, (l - i + ist)%Z)).
(** yee.F90:883-885 *)
Definition bn2_bz (S : Sizes) (E : fieldN) (dtsdx : list (num N)) (p : idx) : list stmtN :=
  let '(j, k, l) := p in let ist := stagger (l_nodalgrid S) in
  stmts p (norderx S ÷ 2) (fun i => minus_term dtsdx (fy E) i ((j + i)%Z, k, l) ((j - i + ist)%Z, k, l)).
(** yee.F90:833-892 *)
Definition pxrpush_em2d_bvec_norder (S : Sizes) (k : Z) (E B : fieldN)
    (dtsdx dtsdz : list (num N)) : out fieldN :=
  do bx <- loop3 (slo2 S k) (shi2 S k) (bn2_bx S E dtsdz) (fx B);
  do by_ <- loop3 (slo2 S k) (shi2 S k) (bn2_by S E dtsdx dtsdz) (fy B);
  do bz <- loop3 (slo2 S k) (shi2 S k) (bn2_bz S E dtsdx) (fz B);
  Ret (Field3 bx by_ bz).

(** ** divergence cleaning terms, yee.F90:1452-1532 pxrpush_em3d_evec_f *)
(** yee.F90:1491 *)
Definition f3_ex (F : gridN) (dtsdx : num N) (p : idx) : list stmtN :=
  let '(j, k, l) := p in
  [(p, fun e => do d <- diff F ((j + 1)%Z, k, l) (j, k, l); Ret (e + dtsdx * d))].
(** yee.F90:1506 *)
Definition f3_ey (F : gridN) (dtsdy : num N) (p : idx) : list stmtN :=
  let '(j, k, l) := p in
  [(p, fun e => do d <- diff F (j, (k + 1)%Z, l) (j, k, l); Ret (e + dtsdy * d))].
(** yee.F90:1521 *)
Definition f3_ez (F : gridN) (dtsdz : num N) (p : idx) : list stmtN :=
  let '(j, k, l) := p in
  [(p, fun e => do d <- diff F (j, k, (l + 1)%Z) (j, k, l); Ret (e + dtsdz * d))].
(** yee.F90:1452-1532 *)
Definition pxrpush_em3d_evec_f (xlo xhi ylo yhi zlo zhi : idx) (E : fieldN) (F : gridN)
    (dtsdx dtsdy dtsdz : num N) : out fieldN :=
  do ex <- loop3 xlo xhi (f3_ex F dtsdx) (fx E);
  do ey <- loop3 ylo yhi (f3_ey F dtsdy) (fy E);
  do ez <- loop3 zlo zhi (f3_ez F dtsdz) (fz E);
  Ret (Field3 ex ey ez).

(** yee.F90:1370-1432 pxrpush_em2d_evec_f (1410, 1423): Ey is not an argument of the loops *)
Definition pxrpush_em2d_evec_f (xlo xhi zlo zhi : idx) (E : fieldN) (F : gridN)
    (dtsdx dtsdz : num N) : out fieldN :=
  do ex <- loop3 xlo xhi (f3_ex F dtsdx) (fx E);
  do ez <- loop3 zlo zhi (f3_ez F dtsdz) (fz E);
  Ret (Field3 ex (fy E) ez).

(** ** the library interface, init_external.F90:134-288 *)
(** [DO i = 1, n] with [IF (hi i .GT. top .OR. lo i .LT. bot) CYCLE] *)
Definition stmts_in (p : idx) (n bot top : Z) (lo hi : Z -> Z) (f : Z -> num N -> out (num N)) : list stmtN :=
  flat_map (fun i => if (top <? hi i)%Z || (lo i <? bot)%Z then [] else [(p, f i)]) (zrange 1 n).
(** init_external.F90:157-167 *)
Definition le_ex (S : Sizes) (B J : fieldN) (dt_ : num N) (dtsdy dtsdz : list (num N)) (p : idx) : list stmtN :=
  let '(j, k, l) := p in
  cur_term (fx J) dt_ p ::
  stmts_in p (nordery S ÷ 2) (- nyguard S) (ny S + nyguard S) (fun i => k - i + 1)%Z (fun i => k + i)%Z
    (fun i => plus_term dtsdy (fz B) i (j, (k + i)%Z, l) (j, (k - i + 1)%Z, l)) ++
  stmts_in p (norderz S ÷ 2) (- nzguard S) (nz S + nzguard S) (fun i => l - i + 1)%Z (fun i => l + i)%Z
    (fun i => minus_term dtsdz (fy B) i (j, k, (l + i)%Z) (j, k, (l - i + 1)%Z)).
(** init_external.F90:178-188 *)
Definition le_ey (S : Sizes) (B J : fieldN) (dt_ : num N) (dtsdx dtsdz : list (num N)) (p : idx) : list stmtN :=
  let '(j, k, l) := p in
  cur_term (fy J) dt_ p ::
  stmts_in p (terms (norderx S) (nx S) (nxguard S) j) (- nxguard S) (nx S + nxguard S) (fun i => j - i + 1)%Z (fun i => j + i)%Z
    (fun i => minus_term dtsdx (fz B) i ((j + i)%Z, k, l) ((j - i + 1)%Z, k, l)) ++
  stmts_in p (terms (norderz S) (nz S) (nzguard S) l) (- nzguard S) (nz S + nzguard S) (fun i => l - i + 1)%Z (fun i => l + i)%Z
    (fun i => plus_term dtsdz (fx B) i (j, k, (l + i)%Z) (j, k, (l - i + 1)%Z)).
(** init_external.F90:198-206 *)
Definition le_ez (S : Sizes) (B J : fieldN) (dt_ : num N) (dtsdx dtsdy : list (num N)) (p : idx) : list stmtN :=
  let '(j, k, l) := p in
  cur_term (fz J) dt_ p ::
  stmts_in p (terms (norderx S) (nx S) (nxguard S) j) (- nxguard S) (nx S + nxguard S) (fun i => j - i + 1)%Z (fun i => j + i)%Z
    (fun i => plus_term dtsdx (fy B) i ((j + i)%Z, k, l) ((j - i + 1)%Z, k, l)) ++
  stmts_in p (terms (nordery S) (ny S) (nyguard S) k) (- nyguard S) (ny S + nyguard S) (fun i => k - i + 1)%Z (fun i => k + i)%Z
    (fun i => minus_term dtsdy (fx B) i (j, (k + i)%Z, l) (j, (k - i + 1)%Z, l)).
(** init_external.F90:134-213 evec3d_push_norder *)
Definition evec3d_push_norder (S : Sizes) (E B J : fieldN) (dt_ : num N)
    (dtsdx dtsdy dtsdz : list (num N)) : out fieldN :=
  let lo := ((- nxguard S)%Z, (- nyguard S)%Z, (- nzguard S)%Z) in
  let X := (nx S + nxguard S)%Z in let Y := (ny S + nyguard S)%Z in let Z_ := (nz S + nzguard S)%Z in
  do ex <- loop3 lo (X, (Y - 1)%Z, (Z_ - 1)%Z) (le_ex S B J dt_ dtsdy dtsdz) (fx E);
  do ey <- loop3 lo ((X - 1)%Z, Y, (Z_ - 1)%Z) (le_ey S B J dt_ dtsdx dtsdz) (fy E);
  do ez <- loop3 lo ((X - 1)%Z, (Y - 1)%Z, Z_) (le_ez S B J dt_ dtsdx dtsdy) (fz E);
  Ret (Field3 ex ey ez).
(** init_external.F90:235-243 *)
Definition lb_bx (S : Sizes) (E : fieldN) (dtsdy dtsdz : list (num N)) (p : idx) : list stmtN :=
  let '(j, k, l) := p in
  stmts_in p (terms (nordery S) (ny S) (nyguard S) k) (- nyguard S) (ny S + nyguard S) (fun i => k - i)%Z (fun i => k + i - 1)%Z
    (fun i => minus_term dtsdy (fz E) i (j, (k + i - 1)%Z, l) (j, (k - i)%Z, l)) ++
  stmts_in p (terms (norderz S) (nz S) (nzguard S) l) (- nzguard S) (nz S + nzguard S) (fun i => l - i)%Z (fun i => l + i - 1)%Z
    (fun i => plus_term dtsdz (fy E) i (j, k, (l + i - 1)%Z) (j, k, (l - i)%Z)).
(** init_external.F90:254-262 *)
Definition lb_by (S : Sizes) (E : fieldN) (dtsdx dtsdz : list (num N)) (p : idx) : list stmtN :=
  let '(j, k, l) := p in
  stmts_in p (terms (norderx S) (nx S) (nxguard S) j) (- nxguard S) (nx S + nxguard S) (fun i => j - i)%Z (fun i => j + i - 1)%Z
    (fun i => plus_term dtsdx (fz E) i ((j + i - 1)%Z, k, l) ((j - i)%Z, k, l)) ++
  stmts_in p (terms (norderz S) (nz S) (nzguard S) l) (- nzguard S) (nz S + nzguard S) (fun i => l - i)%Z (fun i => l + i - 1)%Z
    (fun i => minus_term dtsdz (fx E) i (j, k, (l + i - 1)%Z) (j, k, (l - i)%Z)).
(** init_external.F90:273-280 *)
Definition lb_bz (S : Sizes) (E : fieldN) (dtsdx dtsdy : list (num N)) (p : idx) : list stmtN :=
  let '(j, k, l) := p in
  stmts_in p (terms (norderx S) (nx S) (nxguard S) j) (- nxguard S) (nx S + nxguard S) (fun i => j - i)%Z (fun i => j + i - 1)%Z
    (fun i => minus_term dtsdx (fy E) i ((j + i - 1)%Z, k, l) ((j - i)%Z, k, l)) ++
  stmts_in p (terms (nordery S) (ny S) (nyguard S) k) (- nyguard S) (ny S + nyguard S) (fun i => k - i)%Z (fun i => k + i - 1)%Z
    (fun i => plus_term dtsdy (fx E) i (j, (k + i - 1)%Z, l) (j, (k - i)%Z, l)).
(** init_external.F90:215-288 bvec3d_push_norder *)
Definition bvec3d_push_norder (S : Sizes) (E B : fieldN) (dtsdx dtsdy dtsdz : list (num N)) : out fieldN :=
  let a := (- nxguard S)%Z in let b := (- nyguard S)%Z in let c := (- nzguard S)%Z in
  let hi := ((nx S + nxguard S - 1)%Z, (ny S + nyguard S - 1)%Z, (nz S + nzguard S - 1)%Z) in
  do bx <- loop3 (a, (b + 1)%Z, (c + 1)%Z) hi (lb_bx S E dtsdy dtsdz) (fx B);
  do by_ <- loop3 ((a + 1)%Z, b, (c + 1)%Z) hi (lb_by S E dtsdx dtsdz) (fy B);
  do bz <- loop3 ((a + 1)%Z, (b + 1)%Z, c) hi (lb_bz S E dtsdx dtsdy) (fz B);
  Ret (Field3 bx by_ bz).

(** ** callers, maxwell_solver_manager.F90 *)
(** time step, cell sizes and the stencil coefficients xcoeffs, ycoeffs, zcoeffs *)
Record Steps := { dt : num N; dx : num N; dy : num N; dz : num N;
  xcoeffs : list (num N); ycoeffs : list (num N); zcoeffs : list (num N) }.
Notation half := (n_lit 5 (-1)).

(** maxwell_solver_manager.F90:44-85 *)
Definition push_bfield (S : Sizes) (T : Steps) (E B : fieldN) : out fieldN :=
  if (norderx S =? 2)%Z && (nordery S =? 2)%Z && (norderz S =? 2)%Z
  then pxrpush_em3d_bvec (slo S) (shi S) (slo S) (shi S) (slo S) (shi S) E B
         (half * dt T / dx T) (half * dt T / dy T) (half * dt T / dz T)
  else pxrpush_em3d_bvec_norder S E B
         (map (fun c => half * dt T / dx T * c) (xcoeffs T))
         (map (fun c => half * dt T / dy T * c) (ycoeffs T))
         (map (fun c => half * dt T / dz T * c) (zcoeffs T)).
(** maxwell_solver_manager.F90:393-439 *)
Definition push_efield (K : Consts N) (S : Sizes) (T : Steps) (E B J : fieldN) : out fieldN :=
  let c2 := sq (clight K) in
  if (norderx S =? 2)%Z && (nordery S =? 2)%Z && (norderz S =? 2)%Z
  then pxrpush_em3d_evec (slo S) (shi S) (slo S) (shi S) (slo S) (shi S) E B J
         (c2 * mu0 K * dt T) (c2 * dt T / dx T) (c2 * dt T / dy T) (c2 * dt T / dz T)
  else pxrpush_em3d_evec_norder S E B J (c2 * mu0 K * dt T)
         (map (fun c => c2 * dt T / dx T * c) (xcoeffs T))
         (map (fun c => c2 * dt T / dy T * c) (ycoeffs T))
         (map (fun c => c2 * dt T / dz T * c) (zcoeffs T)).

(** maxwell_solver_manager.F90:452-495; the sections [ex(:,iy,:)] are the plane iy = 0, which
    the routine updates in place; [k] is the private k of the routine of any order *)
Definition push_bfield_2d (S : Sizes) (k : Z) (T : Steps) (E B : fieldN) : out fieldN :=
  if (norderx S =? 2)%Z && (norderz S =? 2)%Z
  then pxrpush_em2d_bvec (slo2 S 0) (shi2 S 0) (slo2 S 0) (shi2 S 0) (slo2 S 0) (shi2 S 0) E B
         (half * dt T / dx T) (half * dt T / dz T)
  else pxrpush_em2d_bvec_norder S k E B
         (map (fun c => half * dt T / dx T * c) (xcoeffs T))
         (map (fun c => half * dt T / dz T * c) (zcoeffs T)).
(** maxwell_solver_manager.F90:508-556 *)
Definition push_efield_2d (K : Consts N) (S : Sizes) (k : Z) (T : Steps) (E B J : fieldN) : out fieldN :=
  let c2 := sq (clight K) in let mdt := mu0 K * c2 * dt T in
  if (norderx S =? 2)%Z && (norderz S =? 2)%Z
  then pxrpush_em2d_evec (slo2 S 0) (shi2 S 0) (slo2 S 0) (shi2 S 0) (slo2 S 0) (shi2 S 0) E B J
         mdt (c2 * dt T / dx T) (c2 * dt T / dz T)
  else pxrpush_em2d_evec_norder S k E B J mdt
         (map (fun c => c2 * dt T / dx T * c) (xcoeffs T))
         (map (fun c => c2 * dt T / dz T * c) (zcoeffs T)).
(** init_external.F90:290-301 solve_maxwell_fdtd_pxr; xcoeffs was multiplied by dt/dx in 127-129 *)
Definition solve_maxwell_fdtd_pxr (S : Sizes) (T : Steps) (E B J : fieldN) : out (fieldN * fieldN) :=
  do E' <- evec3d_push_norder S E B J (dt T) (xcoeffs T) (ycoeffs T) (zcoeffs T);
  do B' <- bvec3d_push_norder S E' B (xcoeffs T) (ycoeffs T) (zcoeffs T);
  Ret (E', B').

(** ** diagnostics, diags.F90 *)
(** diags.F90:129-156 *)
Definition calc_field_div (nx ny nz : Z) (E : fieldN) (dx dy dz : num N) (div : gridN) : out gridN :=
  let invdx := n_lit 1 0 / dx in let invdy := n_lit 1 0 / dy in let invdz := n_lit 1 0 / dz in
  loop3 (0, 0, 0)%Z (nx, ny, nz) (fun p => let '(j, k, l) := p in
    [(p, fun _ => do a <- diff (fx E) (j, k, l) ((j - 1)%Z, k, l);
                  do b <- diff (fy E) (j, k, l) (j, (k - 1)%Z, l);
                  do c <- diff (fz E) (j, k, l) (j, k, (l - 1)%Z);
                  Ret (invdx * a + invdy * b + invdz * c))]) div.
(** diags.F90:170-197 *)
Definition calc_field_divB (nx ny nz : Z) (B : fieldN) (dx dy dz : num N) (div : gridN) : out gridN :=
  let invdx := n_lit 1 0 / dx in let invdy := n_lit 1 0 / dy in let invdz := n_lit 1 0 / dz in
  loop3 (1, 1, 1)%Z (nx, ny, nz) (fun p => let '(j, k, l) := p in
    [(p, fun _ => do a <- diff (fx B) ((j + 1)%Z, k, l) (j, k, l);
                  do b <- diff (fy B) (j, (k + 1)%Z, l) (j, k, l);
                  do c <- diff (fz B) (j, k, (l + 1)%Z) (j, k, l);
                  Ret (invdx * a + invdy * b + invdz * c))]) div.

End Solver.
