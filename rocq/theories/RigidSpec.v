(** Rotations and angles, independent of the code. *)
From Coq Require Import Reals List.
From Verif Require Import RigidModel.
Local Open Scope R_scope.

Definition mtrans (m : mat) : mat := mkM (m00 m) (m10 m) (m20 m) (m01 m) (m11 m) (m21 m) (m02 m) (m12 m) (m22 m).
Definition mmul (a b : mat) : mat :=
  mkM (m00 a * m00 b + m01 a * m10 b + m02 a * m20 b) (m00 a * m01 b + m01 a * m11 b + m02 a * m21 b)
      (m00 a * m02 b + m01 a * m12 b + m02 a * m22 b)
      (m10 a * m00 b + m11 a * m10 b + m12 a * m20 b) (m10 a * m01 b + m11 a * m11 b + m12 a * m21 b)
      (m10 a * m02 b + m11 a * m12 b + m12 a * m22 b)
      (m20 a * m00 b + m21 a * m10 b + m22 a * m20 b) (m20 a * m01 b + m21 a * m11 b + m22 a * m21 b)
      (m20 a * m02 b + m21 a * m12 b + m22 a * m22 b).
Definition det (m : mat) : R :=
  m00 m * (m11 m * m22 m - m12 m * m21 m) - m01 m * (m10 m * m22 m - m12 m * m20 m)
  + m02 m * (m10 m * m21 m - m11 m * m20 m).
(** A proper rotation: orthogonal with determinant 1. *)
Definition rotation (m : mat) : Prop := mmul m (mtrans m) = ident /\ det m = 1.
Definition rigid (t : transform) : Prop := rotation (t_rot t).

(** The rotations about the axes by the right hand rule. *)
Definition about_x (a : R) : mat := mkM 1 0 0 0 (cos a) (- sin a) 0 (sin a) (cos a).
Definition about_y (a : R) : mat := mkM (cos a) 0 (sin a) 0 1 0 (- sin a) 0 (cos a).
Definition about_z (a : R) : mat := mkM (cos a) (- sin a) 0 (sin a) (cos a) 0 0 0 1.

(** All entries of two matrices differ by at most [d]. *)
Definition close (d : R) (a b : mat) : Prop :=
  Rabs (m00 a - m00 b) <= d /\ Rabs (m01 a - m01 b) <= d /\ Rabs (m02 a - m02 b) <= d /\
  Rabs (m10 a - m10 b) <= d /\ Rabs (m11 a - m11 b) <= d /\ Rabs (m12 a - m12 b) <= d /\
  Rabs (m20 a - m20 b) <= d /\ Rabs (m21 a - m21 b) <= d /\ Rabs (m22 a - m22 b) <= d.

(** The angle of the rotation that takes [a] to [b], from its trace. *)
Definition trace (m : mat) : R := m00 m + m11 m + m22 m.
Definition angle_between (a b : mat) : R := acos ((trace (mmul (mtrans a) b) - 1) / 2).
