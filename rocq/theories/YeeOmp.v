(** Every solver routine under every OpenMP schedule. *)
From Coq Require Import ZArith List Bool.
From Verif Require Import Cxx Num Fortran Grid Pushers Yee YeeProofs.
Import ListNotations.
Local Open Scope Z_scope.

Section G.
Context {N : NumOps}.
Notation fieldN := (field (num N)).

Theorem omp_bvec xlo xhi ylo yhi zlo zhi (E B : fieldN) cx cy cz r :
  omp_outcome (xlo, xhi, b3_bx E cy cz) (ylo, yhi, b3_by E cx cz) (zlo, zhi, b3_bz E cx cy) B r ->
  same_field_out r (pxrpush_em3d_bvec xlo xhi ylo yhi zlo zhi E B cx cy cz).
Proof. apply (omp_seq (xlo, xhi, b3_bx E cy cz) (ylo, yhi, b3_by E cx cz) (zlo, zhi, b3_bz E cx cy)); [apply ok_b3_bx | apply ok_b3_by | apply ok_b3_bz]. Qed.
Theorem omp_evec xlo xhi ylo yhi zlo zhi (E B J : fieldN) m cx cy cz r :
  omp_outcome (xlo, xhi, e3_ex B J m cy cz) (ylo, yhi, e3_ey B J m cx cz) (zlo, zhi, e3_ez B J m cx cy) E r ->
  same_field_out r (pxrpush_em3d_evec xlo xhi ylo yhi zlo zhi E B J m cx cy cz).
Proof. apply (omp_seq (xlo, xhi, e3_ex B J m cy cz) (ylo, yhi, e3_ey B J m cx cz) (zlo, zhi, e3_ez B J m cx cy)); [apply ok_e3_ex | apply ok_e3_ey | apply ok_e3_ez]. Qed.
Theorem omp_bvec_norder S (E B : fieldN) cx cy cz r :
  omp_outcome (slo S, shi S, bn_bx S E cy cz) (slo S, shi S, bn_by S E cx cz) (slo S, shi S, bn_bz S E cx cy) B r ->
  same_field_out r (pxrpush_em3d_bvec_norder S E B cx cy cz).
Proof. apply (omp_seq (slo S, shi S, bn_bx S E cy cz) (slo S, shi S, bn_by S E cx cz) (slo S, shi S, bn_bz S E cx cy)); [apply ok_bn_bx | apply ok_bn_by | apply ok_bn_bz]. Qed.
Theorem omp_evec_norder S (E B J : fieldN) m cx cy cz r :
  omp_outcome (slo S, shi S, en_ex S B J m cy cz) (slo S, shi S, en_ey S B J m cx cz) (slo S, shi S, en_ez S B J m cx cy) E r ->
  same_field_out r (pxrpush_em3d_evec_norder S E B J m cx cy cz).
Proof. apply (omp_seq (slo S, shi S, en_ex S B J m cy cz) (slo S, shi S, en_ey S B J m cx cz) (slo S, shi S, en_ez S B J m cx cy)); [apply ok_en_ex | apply ok_en_ey | apply ok_en_ez]. Qed.
Theorem omp_bvec_2d xlo xhi ylo yhi zlo zhi (E B : fieldN) cx cz r :
  omp_outcome (xlo, xhi, b2_bx E cz) (ylo, yhi, b2_by E cx cz) (zlo, zhi, b2_bz E cx) B r ->
  same_field_out r (pxrpush_em2d_bvec xlo xhi ylo yhi zlo zhi E B cx cz).
Proof. apply (omp_seq (xlo, xhi, b2_bx E cz) (ylo, yhi, b2_by E cx cz) (zlo, zhi, b2_bz E cx)); [apply ok_b2_bx | apply ok_b2_by | apply ok_b2_bz]. Qed.
Theorem omp_evec_2d xlo xhi ylo yhi zlo zhi (E B J : fieldN) m cx cz r :
  omp_outcome (xlo, xhi, e2_ex B J m cz) (ylo, yhi, e2_ey B J m cx cz) (zlo, zhi, e2_ez B J m cx) E r ->
  same_field_out r (pxrpush_em2d_evec xlo xhi ylo yhi zlo zhi E B J m cx cz).
Proof. apply (omp_seq (xlo, xhi, e2_ex B J m cz) (ylo, yhi, e2_ey B J m cx cz) (zlo, zhi, e2_ez B J m cx)); [apply ok_e2_ex | apply ok_e2_ey | apply ok_e2_ez]. Qed.
Theorem omp_bvec_norder_2d S k (E B : fieldN) cx cz r :
  omp_outcome (slo2 S k, shi2 S k, bn2_bx S E cz) (slo2 S k, shi2 S k, bn2_by S E cx cz) (slo2 S k, shi2 S k, bn2_bz S E cx) B r ->
  same_field_out r (pxrpush_em2d_bvec_norder S k E B cx cz).
Proof. apply (omp_seq (slo2 S k, shi2 S k, bn2_bx S E cz) (slo2 S k, shi2 S k, bn2_by S E cx cz) (slo2 S k, shi2 S k, bn2_bz S E cx)); [apply ok_bn2_bx | apply ok_bn2_by | apply ok_bn2_bz]. Qed.
Theorem omp_evec_norder_2d S k (E B J : fieldN) m cx cz r :
  omp_outcome (slo2 S k, shi2 S k, en2_ex S B J m cz) (slo2 S k, shi2 S k, en2_ey S B J m cx cz) (slo2 S k, shi2 S k, en2_ez S B J m cx) E r ->
  same_field_out r (pxrpush_em2d_evec_norder S k E B J m cx cz).
Proof. apply (omp_seq (slo2 S k, shi2 S k, en2_ex S B J m cz) (slo2 S k, shi2 S k, en2_ey S B J m cx cz) (slo2 S k, shi2 S k, en2_ez S B J m cx)); [apply ok_en2_ex | apply ok_en2_ey | apply ok_en2_ez]. Qed.
Theorem omp_evec_f xlo xhi ylo yhi zlo zhi (E : fieldN) F cx cy cz r :
  omp_outcome (xlo, xhi, f3_ex F cx) (ylo, yhi, f3_ey F cy) (zlo, zhi, f3_ez F cz) E r ->
  same_field_out r (pxrpush_em3d_evec_f xlo xhi ylo yhi zlo zhi E F cx cy cz).
Proof. apply (omp_seq (xlo, xhi, f3_ex F cx) (ylo, yhi, f3_ey F cy) (zlo, zhi, f3_ez F cz)); [apply ok_f3_ex | apply ok_f3_ey | apply ok_f3_ez]. Qed.
End G.
