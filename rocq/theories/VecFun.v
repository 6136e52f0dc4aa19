(** Model of src/multi_physics/QED/src/vec_functions.hpp. *)
From Verif Require Import Cxx Num.

Section Vec.
Context {N : NumOps}.

(** vec_functions.hpp:18 [vec3 = picsar_array<_REAL,3>] *)
Record vec3 := V3 { vx : num N; vy : num N; vz : num N }.

Local Open Scope num_scope.

(** vec_functions.hpp:75-80 *)
Definition norm2 (v : vec3) : num N := vx v * vx v + vy v * vy v + vz v * vz v.
(** vec_functions.hpp:83-88 *)
Definition norm (v : vec3) : num N := n_sqrt (norm2 v).
(** vec_functions.hpp:91-96 *)
Definition dot (a b : vec3) : num N := vx a * vx b + vy a * vy b + vz a * vz b.
(** vec_functions.hpp:99-109 *)
Definition cross (a b : vec3) : vec3 :=
  V3 (vy a * vz b - vz a * vy b) (vz a * vx b - vx a * vz b) (vx a * vy b - vy a * vx b).
(** vec_functions.hpp:112-122 *)
Definition vscale_r (v : vec3) (s : num N) : vec3 := V3 (vx v * s) (vy v * s) (vz v * s).
(** vec_functions.hpp:125-135 (the product is also computed as v[i]*s) *)
Definition vscale_l (s : num N) (v : vec3) : vec3 := V3 (vx v * s) (vy v * s) (vz v * s).
(** vec_functions.hpp:138-148 *)
Definition vdiv (v : vec3) (s : num N) : vec3 := V3 (vx v / s) (vy v / s) (vz v / s).
(** vec_functions.hpp:151-161 *)
Definition vadd (a b : vec3) : vec3 := V3 (vx a + vx b) (vy a + vy b) (vz a + vz b).
(** vec_functions.hpp:164-174 *)
Definition vsub (a b : vec3) : vec3 := V3 (vx a - vx b) (vy a - vy b) (vz a - vz b).

End Vec.
Arguments vec3 : clear implicits.
