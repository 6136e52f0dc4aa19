(** Model of the particle pushers: src/particle_pushers/boris_pusher/boris_3d.F90,
    boris_2d.F90, vay_pusher/vay_3d.F90 and the sum of kin_energy.F90.
    Simplification: the dummy arrays uxp(np), uyp(np), ... all have the size np, so
    element ip of all of them is one record, and the arrays are one list of records.
    The constants of modules.F90:62-82 (clight, mu0, eps0, pi) are parameters, which
    covers both the SI and the normalised build.  x**2 is x*x. *)
From Coq Require Import ZArith List Bool.
From Verif Require Import Cxx Num Fortran.
Import ListNotations.
Local Open Scope Z_scope.

(** modules.F90:62-82 module constants *)
Record Consts (N : NumOps) := mkConsts { clight : num N; mu0 : num N; eps0 : num N; pi_ : num N }.
Arguments mkConsts {N}. Arguments clight {N}. Arguments mu0 {N}. Arguments eps0 {N}. Arguments pi_ {N}.

Section Push.
Context {N : NumOps}.
Local Open Scope num_scope.

(** momentum and inverse Lorentz factor of a particle: uxp(ip), uyp(ip), uzp(ip), gaminv(ip) *)
Record mom := Mom { ux : num N; uy : num N; uz : num N; gi : num N }.
(** fields at a particle: ex(ip), ey(ip), ez(ip), bx(ip), by(ip), bz(ip) *)
Record fld := Fld { ex : num N; ey : num N; ez : num N; bx : num N; by_ : num N; bz : num N }.
(** position: xp(ip), yp(ip), zp(ip) *)
Record pos3 := Pos { xp : num N; yp : num N; zp : num N }.

(** boris_3d.F90:105: [x**2] (simplification: one multiplication) *)
Definition sq (x : num N) : num N := x * x.
Notation one := (n_lit 1 0).
Notation half := (n_lit 5 (-1)).

(** boris_3d.F90:105, 129: usq *)
Definition usq (clghtisq a b c : num N) : num N := (sq a + sq b + sq c) * clghtisq.
(** boris_3d.F90:105-106, 129-130, 1095-1096 *)
Definition gaminv_of (clghtisq a b c : num N) : num N := one / n_sqrt (one + usq clghtisq a b c).

(** boris_3d.F90:109-121 (and 1015-1027): rotation by bx, by, bz with inverse Lorentz factor g *)
Definition rotate (const g : num N) (f : fld) (p : mom) : mom :=
  let tx := g * bx f * const in
  let ty := g * by_ f * const in
  let tz := g * bz f * const in
  let tsqi := n_lit 2 0 / (one + sq tx + sq ty + sq tz) in
  let sx := tx * tsqi in let sy := ty * tsqi in let sz := tz * tsqi in
  let uxppr := ux p + uy p * tz - uz p * ty in
  let uyppr := uy p + uz p * tx - ux p * tz in
  let uzppr := uz p + ux p * ty - uy p * tx in
  Mom (ux p + uyppr * sz - uzppr * sy) (uy p + uzppr * sx - uxppr * sz) (uz p + uxppr * sy - uyppr * sx) (gi p).

(** boris_3d.F90:100-102, 124-126, 947-949: kick by the electric field *)
Definition kick (const : num N) (f : fld) (p : mom) : mom :=
  Mom (ux p + ex f * const) (uy p + ey f * const) (uz p + ez f * const) (gi p).

(** boris_3d.F90:1095-1096: new inverse Lorentz factor *)
Definition set_gamma1 (clghtisq : num N) (p : mom) : mom :=
  Mom (ux p) (uy p) (uz p) (gaminv_of clghtisq (ux p) (uy p) (uz p)).

(** boris_3d.F90:98-132: body of the loop of pxr_boris_push_u_3d (gaminvtmp is the
    local variable g) *)
Definition boris1 (const clghtisq : num N) (f : fld) (p : mom) : mom :=
  let p := kick const f p in
  let g := gaminv_of clghtisq (ux p) (uy p) (uz p) in
  let p := rotate const g f p in
  let p := kick const f p in
  set_gamma1 clghtisq p.

(** boris_3d.F90:98 [DO ip=1, np] with a body that reads and writes element ip only *)
Definition for_particles {A B} (np : Z) (body : B -> A -> A) (fs : list B) (ps : list A) : out (list A) :=
  do_range 1 np (fun ip s => do p <- get1 s ip; do f <- get1 fs ip; set1 s ip (body f p)) ps.

(** boris_3d.F90:51-141 pxr_boris_push_u_3d *)
Definition pxr_boris_push_u_3d (K : Consts N) (np : Z) (ps : list mom) (fs : list fld) (q m dt : num N) : out (list mom) :=
  let const := q * dt * half / m in
  let clghtisq := one / sq (clight K) in
  for_particles np (boris1 const clghtisq) fs ps.

(** boris_3d.F90:760 [DO ip = lo, hi, step] with a positive step: the number of iterations is
    max(0, (hi - lo + step) / step) *)
Fixpoint do_step {S} (n : nat) (i step : Z) (f : Z -> S -> out S) (s : S) : out S :=
  match n with
  | O => Ret s
  | Datatypes.S n' => do s' <- f i s; do_step n' (i + step)%Z step f s'
  end.

(** boris_3d.F90:733-830 pxr_boris_push_u_3d_block *)
Definition pxr_boris_push_u_3d_block (K : Consts N) (np : Z) (ps : list mom) (fs : list fld) (q m dt : num N) (lvect : Z)
  : out (list mom) :=
  let const := q * dt * half / m in
  let clghtisq := one / sq (clight K) in
  do_step (Z.to_nat ((np - 1 + lvect) / lvect)) 1 lvect (fun ip s =>
    let blocksize := Z.min lvect (np - ip + 1) in
    do_range 1 blocksize (fun n s =>
      let nn := (ip + n - 1)%Z in
      do p <- get1 s nn; do f <- get1 fs nn; set1 s nn (boris1 const clghtisq f p)) s) ps.

(** boris_3d.F90:849-893 pxr_pushxyz *)
Definition push1 (dt : num N) (p : mom) (x : pos3) : pos3 :=
  Pos (xp x + ux p * gi p * dt) (yp x + uy p * gi p * dt) (zp x + uz p * gi p * dt).
Definition pxr_pushxyz (np : Z) (xs : list pos3) (ps : list mom) (dt : num N) : out (list pos3) :=
  for_particles np (push1 dt) ps xs.

(** boris_2d.F90:42-60 pxr_pushxz, 79-108 pxr_push2dxz: y is not touched *)
Definition push1_2d (dt : num N) (p : mom) (x : pos3) : pos3 :=
  Pos (xp x + ux p * gi p * dt) (yp x) (zp x + uz p * gi p * dt).
Definition pxr_push2dxz (np : Z) (xs : list pos3) (ps : list mom) (dt : num N) : out (list pos3) :=
  for_particles np (push1_2d dt) ps xs.

(** boris_3d.F90:917-957 pxr_epush_v *)
Definition pxr_epush_v (np : Z) (ps : list mom) (fs : list fld) (q m dt : num N) : out (list mom) :=
  let const := q * dt / m in for_particles np (kick const) fs ps.

(** boris_3d.F90:982-1037 pxr_bpush_v *)
Definition pxr_bpush_v (np : Z) (ps : list mom) (fs : list fld) (q m dt : num N) : out (list mom) :=
  let const := q * dt * half / m in for_particles np (fun f p => rotate const (gi p) f p) fs ps.

(** boris_3d.F90:1059-1107 pxr_set_gamma *)
Definition pxr_set_gamma (K : Consts N) (np : Z) (ps : list mom) : out (list mom) :=
  let clghtisq := one / sq (clight K) in
  do_range 1 np (fun ip s => do p <- get1 s ip; set1 s ip (set_gamma1 clghtisq p)) ps.

(** vay_3d.F90:104-107, 112-130, 208-231: gamma and momentum from U' and tau *)
Definition vay_solve (invclight invclightsq bconst : num N) (f : fld) (uxpr uypr uzpr : num N) : mom :=
  let taux := bconst * bx f in let tauy := bconst * by_ f in let tauz := bconst * bz f in
  let tausq := taux * taux + tauy * tauy + tauz * tauz in
  let gprsq := one + (uxpr * uxpr + uypr * uypr + uzpr * uzpr) * invclightsq in
  let ust := (uxpr * taux + uypr * tauy + uzpr * tauz) * invclight in
  let sigma := gprsq - tausq in
  let gisq := n_lit 2 0 / (sigma + n_sqrt (sigma * sigma + n_lit 4 0 * (tausq + ust * ust))) in
  let g := n_sqrt gisq in
  let bg := bconst * g in
  let tx := bg * bx f in let ty := bg * by_ f in let tz := bg * bz f in
  let s := one / (one + tausq * gisq) in
  let tu := tx * uxpr + ty * uypr + tz * uzpr in
  Mom (s * (uxpr + tx * tu + uypr * tz - uzpr * ty))
      (s * (uypr + ty * tu + uzpr * tx - uxpr * tz))
      (s * (uzpr + tz * tu + uxpr * ty - uypr * tx)) g.

(** vay_3d.F90:102-131: body of the full push (which = 0) *)
Definition vay_full1 (invclight invclightsq const bconst : num N) (f : fld) (p : mom) : mom :=
  let taux := bconst * bx f in let tauy := bconst * by_ f in let tauz := bconst * bz f in
  let uxpr := ux p + const * ex f + (uy p * tauz - uz p * tauy) * gi p in
  let uypr := uy p + const * ey f + (uz p * taux - ux p * tauz) * gi p in
  let uzpr := uz p + const * ez f + (ux p * tauy - uy p * taux) * gi p in
  vay_solve invclight invclightsq bconst f uxpr uypr uzpr.

(** vay_3d.F90:168-178: body of the first half push (which = 1) *)
Definition vay_first1 (invclightsq const : num N) (f : fld) (p : mom) : mom :=
  let vx := ux p * gi p in let vy := uy p * gi p in let vz := uz p * gi p in
  let a := ux p + const * (ex f + vy * bz f - vz * by_ f) in
  let b := uy p + const * (ey f + vz * bx f - vx * bz f) in
  let c := uz p + const * (ez f + vx * by_ f - vy * bx f) in
  Mom a b c (one / n_sqrt (one + (a * a + b * b + c * c) * invclightsq)).

(** vay_3d.F90:203-232: body of the second half push (which = 2) *)
Definition vay_second1 (invclight invclightsq const bconst : num N) (f : fld) (p : mom) : mom :=
  vay_solve invclight invclightsq bconst f (ux p + const * ex f) (uy p + const * ey f) (uz p + const * ez f).

(** vay_3d.F90:56-241 pxr_ebcancelpush3d *)
Definition pxr_ebcancelpush3d (K : Consts N) (np : Z) (ps : list mom) (fs : list fld) (q m dt : num N) (which : Z)
  : out (list mom) :=
  let invclight := one / clight K in
  let invclightsq := one / (clight K * clight K) in
  if (which =? 0)%Z then
    let const := q * dt / m in let bconst := half * const in
    for_particles np (vay_full1 invclight invclightsq const bconst) fs ps
  else if (which =? 1)%Z then
    let const := half * q * dt / m in
    for_particles np (vay_first1 invclightsq const) fs ps
  else if (which =? 2)%Z then
    let const := half * q * dt / m in let bconst := const in
    for_particles np (vay_second1 invclight invclightsq const bconst) fs ps
  else Ret ps.

(** boris_3d.F90:221-307: body of pxr_boris_push_rr_S09_u_3d *)
Definition rr_S09_1 (const dtinv clghtisq tau0inv dt : num N) (f : fld) (p : mom) : mom :=
  let p0 := p in
  let p := boris1 const clghtisq f p in
  let alx := (ux p - ux p0) * dtinv in
  let aly := (uy p - uy p0) * dtinv in
  let alz := (uz p - uz p0) * dtinv in
  let hx := (ux p + ux p0) * half in
  let hy := (uy p + uy p0) * half in
  let hz := (uz p + uz p0) * half in
  let gamtmp := n_sqrt (one + usq clghtisq hx hy hz) in
  let gaminvtmp := one / gamtmp in
  let ual := hx * alx + hy * aly + hz * alz in
  let ddv := one / (tau0inv + clghtisq * gaminvtmp * ual) in
  let dvx := ddv * (alx - clghtisq * sq gaminvtmp * ual * hx) in
  let dvy := ddv * (aly - clghtisq * sq gaminvtmp * ual * hy) in
  let dvz := ddv * (alz - clghtisq * sq gaminvtmp * ual * hz) in
  let dval := dvx * alx + dvy * aly + dvz * alz in
  let urx := n_lit 2 0 * const * (dvy * bz f - dvz * by_ f) - clghtisq * gamtmp * dval * hx * dt in
  let ury := n_lit 2 0 * const * (dvz * bx f - dvx * bz f) - clghtisq * gamtmp * dval * hy * dt in
  let urz := n_lit 2 0 * const * (dvx * by_ f - dvy * bx f) - clghtisq * gamtmp * dval * hz * dt in
  set_gamma1 clghtisq (Mom (ux p0 + urx + dt * alx) (uy p0 + ury + dt * aly) (uz p0 + urz + dt * alz) (gi p)).

(** boris_3d.F90:164-314 pxr_boris_push_rr_S09_u_3d *)
Definition pxr_boris_push_rr_S09_u_3d (K : Consts N) (np : Z) (ps : list mom) (fs : list fld) (q m dt : num N) : out (list mom) :=
  let const := q * dt * half / m in
  let dtinv := one / dt in
  let clghtisq := one / sq (clight K) in
  let tau0inv := n_lit 6 0 * pi_ K * m * clight K / (mu0 K * sq q) in
  for_particles np (rr_S09_1 const dtinv clghtisq tau0inv dt) fs ps.

(** boris_3d.F90:396-488: body of pxr_boris_push_rr_B08_u_3d.  q**3 is q*q*q,
    clight**5 the product of five factors. *)
Definition rr_B08_1 (K : Consts N) (const clghtisq q m : num N) (f : fld) (p : mom) : mom :=
  let p0 := p in
  let p := boris1 const clghtisq f p in
  let hx := (ux p + ux p0) * half in
  let hy := (uy p + uy p0) * half in
  let hz := (uz p + uz p0) * half in
  let gamtmp := n_sqrt (one + usq clghtisq hx hy hz) in
  let gaminvtmp := one / gamtmp in
  let c := clight K in
  let crr := - (n_lit 4 0 * const * (q * q * q) * gamtmp
                / (n_lit 3 0 * sq m * (c * c * c * c * c) * n_lit 4 0 * pi_ K * eps0 K)) in
  let upinvsq := one / (sq hx + sq hy + sq hz) in
  let epar := upinvsq * (ex f * hx + ey f * hy + ez f * hz) in
  let etx := ex f - epar * hx in let ety := ey f - epar * hy in let etz := ez f - epar * hz in
  let fsq := crr * (sq (etx + gaminvtmp * (hy * bz f - hz * by_ f)) +
                    sq (ety + gaminvtmp * (hz * bx f - hx * bz f)) +
                    sq (etz + gaminvtmp * (hx * by_ f - hy * bx f))) in
  set_gamma1 clghtisq (Mom (fsq * hx + ux p) (fsq * hy + uy p) (fsq * hz + uz p) (gi p)).

(** boris_3d.F90:337-495 pxr_boris_push_rr_B08_u_3d *)
Definition pxr_boris_push_rr_B08_u_3d (K : Consts N) (np : Z) (ps : list mom) (fs : list fld) (q m dt : num N) : out (list mom) :=
  let const := q * dt * half / m in
  let clghtisq := one / sq (clight K) in
  for_particles np (rr_B08_1 K const clghtisq q m) fs ps.

(** boris_3d.F90:589-700: body of pxr_boris_push_rr_LL_u_3d; [fo] are the fields of
    the previous step *)
Definition rr_LL_1 (const dtinv clghtisq crr qminv : num N) (ff : fld * fld) (p : mom) : mom :=
  let '(fo, f) := ff in
  let p0 := p in
  let p := boris1 const clghtisq f p in
  let ulx := ux p - ux p0 in let uly := uy p - uy p0 in let ulz := uz p - uz p0 in
  let dex := dtinv * (ex f - ex fo) in let dey := dtinv * (ey f - ey fo) in let dez := dtinv * (ez f - ez fo) in
  let dbx := dtinv * (bx f - bx fo) in let dby := dtinv * (by_ f - by_ fo) in let dbz := dtinv * (bz f - bz fo) in
  let hx := (ux p + ux p0) * half in
  let hy := (uy p + uy p0) * half in
  let hz := (uz p + uz p0) * half in
  let gamtmp := n_sqrt (one + usq clghtisq hx hy hz) in
  let gaminvtmp := one / gamtmp in
  let ubx := hy * bz f - hz * by_ f in let uby := hz * bx f - hx * bz f in let ubz := hx * by_ f - hy * bx f in
  let ebx := ey f * bz f - ez f * by_ f in let eby := ez f * bx f - ex f * bz f in let ebz := ex f * by_ f - ey f * bx f in
  let eup := ex f * hx + ey f * hy + ez f * hz in
  let bubx := by_ f * ubz - bz f * uby in let buby := bz f * ubx - bx f * ubz in let bubz := bx f * uby - by_ f * ubx in
  let fsq := sq (ex f + gaminvtmp * ubx) + sq (ey f + gaminvtmp * uby) + sq (ez f + gaminvtmp * ubz) in
  let fr := gamtmp * clghtisq * (fsq - sq gaminvtmp * clghtisq * sq eup) in
  let urx := crr * (gamtmp * (dex + gaminvtmp * (hy * dbz - hz * dby)) +
    qminv * ((ebx - gaminvtmp * bubx + clghtisq * gaminvtmp * eup * ex f) - fr * hx)) in
  let ury := crr * (gamtmp * (dey + gaminvtmp * (hz * dbx - hx * dbz)) +
    qminv * ((eby - gaminvtmp * buby + clghtisq * gaminvtmp * eup * ey f) - fr * hy)) in
  let urz := crr * (gamtmp * (dez + gaminvtmp * (hx * dby - hy * dbx)) +
    qminv * ((ebz - gaminvtmp * bubz + clghtisq * gaminvtmp * eup * ez f) - fr * hz)) in
  set_gamma1 clghtisq (Mom (ux p0 + ulx + urx) (uy p0 + uly + ury) (uz p0 + ulz + urz) (gi p)).

(** boris_3d.F90:521-708 pxr_boris_push_rr_LL_u_3d *)
Definition pxr_boris_push_rr_LL_u_3d (K : Consts N) (np : Z) (ps : list mom) (fs : list (fld * fld)) (q m dt : num N) : out (list mom) :=
  let const := q * dt * half / m in
  let dtinv := one / dt in
  let clghtisq := one / sq (clight K) in
  let c := clight K in
  let crr := (q * q * q) * dt / (n_lit 6 0 * sq m * (c * c * c) * pi_ K * eps0 K) in
  let qminv := q / m in
  for_particles np (rr_LL_1 const dtinv clghtisq crr qminv) fs ps.

(** kin_energy.F90:109-143 compute_kin_energy_vector, run without vectorisation (the
    SIMD directive has no reduction clause for kin_e) *)
Definition compute_kin_energy_vector (K : Consts N) (np : Z) (gaminv : list (num N)) (mass ppid : num N) : out (num N) :=
  let mclightsq := mass * sq (clight K) * ppid in
  do_range 1 np (fun ip kin_e => do g <- get1 gaminv ip; Ret (kin_e + (one / g - one) * mclightsq)) (n_lit 0 0).
End Push.
Arguments mom : clear implicits. Arguments fld : clear implicits. Arguments pos3 : clear implicits.
