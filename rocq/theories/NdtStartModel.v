(** Model of the start of the normal distributions transform: registrators/pclomp/ndt_omp_impl.hpp:96-112, in exact
    arithmetic, with the library functions called there.  [rotation_of] is Eigen's Transform::rotation() of an affine
    transform (the orthogonal factor by singular values): any function that gives a rotation, and a rotation back
    unchanged.  pcl::Registration::align calls computeTransformation with final_transformation_ the identity and with
    a copy of the input as output.  Not modelled: the float arithmetic of the guess, the sign of zeros in atan2. *)
From Coq Require Import Reals List Bool.
From Verif Require Import RigidModel NdtDerivModel.
Import ListNotations.
Local Open Scope R_scope.

(** Eigen's MatrixBase::eulerAngles(0, 1, 2), called at 109: i = 0, j = 1, k = 2, not odd. *)
Definition euler_angles (m : mat) : vec :=
  let res0 := atan2 (m12 m) (m22 m) in
  let c2 := sqrt (m00 m * m00 m + m01 m * m01 m) in
  let flip := if Rlt_dec 0 res0 then true else false in
  let res1 := if flip then atan2 (- m02 m) (- c2) else atan2 (- m02 m) c2 in
  let res0 := if flip then res0 - PI else res0 in
  let s1 := sin res0 in
  let c1 := cos res0 in
  let res2 := atan2 (s1 * m20 m - c1 * m10 m) (c1 * m11 m - s1 * m21 m) in
  mkV (- res0) (- res1) (- res2).

(** guess != Eigen::Matrix4f::Identity (), 96. *)
Definition eqb_R (a b : R) : bool := if Req_EM_T a b then true else false.
Definition is_identity (t : transform) : bool :=
  let m := t_rot t in let v := t_pos t in
  eqb_R (m00 m) 1 && eqb_R (m01 m) 0 && eqb_R (m02 m) 0 && eqb_R (m10 m) 0 && eqb_R (m11 m) 1 && eqb_R (m12 m) 0 &&
  eqb_R (m20 m) 0 && eqb_R (m21 m) 0 && eqb_R (m22 m) 1 && eqb_R (vx v) 0 && eqb_R (vy v) 0 && eqb_R (vz v) 0.

Section Start.
  Variable rotation_of : mat -> mat.

  (** 104-112: the six parameters of final_transformation_. *)
  Definition parameters (t : transform) : params :=
    let v := t_pos t in
    let e := euler_angles (rotation_of (t_rot t)) in
    fun i => match i with 0%nat => vx v | 1%nat => vy v | 2%nat => vz v | 3%nat => vx e | 4%nat => vy e | 5%nat => vz e | _ => 0 end.

  (** 96-112: final_transformation_, output and p before the first computeDerivatives, from what align left. *)
  Definition begin_from (final : transform) (output : list vec) (guess : transform) : transform * list vec * params :=
    let '(final, output) := if is_identity guess then (final, output) else (guess, map (apply guess) output) in
    (final, output, parameters final).
  (** pcl::Registration::align. *)
  Definition begin (input : list vec) (guess : transform) : transform * list vec * params :=
    begin_from identity input guess.
End Start.
