(** Model of the rotations and rigid transforms of common/math.h:105-212, 238-245, of MotionCompensation
    (builder/map_builder.cc:232-258) and of the parts of Eigen (3.3, Geometry) they call, over the real
    numbers: rounding, signed zeros, infinities and NaN are not modelled, float and double are the same. *)
From Coq Require Import Reals List Lra.
From Verif Require Import Outcome.
Import ListNotations.
Local Open Scope R_scope.

Record vec := mkV { vx : R; vy : R; vz : R }.
(** Row by row. *)
Record mat := mkM { m00 : R; m01 : R; m02 : R; m10 : R; m11 : R; m12 : R; m20 : R; m21 : R; m22 : R }.
Record quat := mkQ { qw : R; qx : R; qy : R; qz : R }.
(** Matrix4d with the last row 0 0 0 1: the rotation block and the translation block. *)
Record transform := mkT { t_rot : mat; t_pos : vec }.

Definition vadd (a b : vec) : vec := mkV (vx a + vx b) (vy a + vy b) (vz a + vz b).
Definition vsub (a b : vec) : vec := mkV (vx a - vx b) (vy a - vy b) (vz a - vz b).
Definition vscale (k : R) (a : vec) : vec := mkV (k * vx a) (k * vy a) (k * vz a).
Definition dot (a b : vec) : R := vx a * vx b + vy a * vy b + vz a * vz b.
Definition cross (a b : vec) : vec :=
  mkV (vy a * vz b - vz a * vy b) (vz a * vx b - vx a * vz b) (vx a * vy b - vy a * vx b).
Definition mvec (m : mat) (v : vec) : vec :=
  mkV (m00 m * vx v + m01 m * vy v + m02 m * vz v) (m10 m * vx v + m11 m * vy v + m12 m * vz v)
      (m20 m * vx v + m21 m * vy v + m22 m * vz v).
Definition ident : mat := mkM 1 0 0 0 1 0 0 0 1.
Definition zero_vec : vec := mkV 0 0 0.

(** std::atan2 on finite arguments; of the signs of zero it ignores, atan2(0, -1) = pi is kept. *)
Definition atan2 (y x : R) : R :=
  if Rlt_dec 0 x then atan (y / x)
  else if Rlt_dec x 0 then (if Rle_dec 0 y then atan (y / x) + PI else atan (y / x) - PI)
  else if Rlt_dec 0 y then PI / 2
  else if Rlt_dec y 0 then - (PI / 2)
  else 0.

(** RotationMatrixToEulerAngles, math.h:107-129. *)
Definition matrix_to_eulers (r : mat) : vec :=
  let sy := sqrt (m00 r * m00 r + m10 r * m10 r) in
  if Rlt_dec sy (1 / 1000000)
  then mkV (atan2 (- m12 r) (m11 r)) (atan2 (- m20 r) sy) 0
  else mkV (atan2 (m21 r) (m22 r)) (atan2 (- m20 r) sy) (atan2 (m10 r) (m00 r)).

(** Eigen: product of quaternions, conjugate, quaternion of an AngleAxis about a unit axis, rotation matrix,
    and the action on vectors (v + 2 w (u x v) + 2 u x (u x v)). *)
Definition qmul (a b : quat) : quat :=
  mkQ (qw a * qw b - qx a * qx b - qy a * qy b - qz a * qz b)
      (qw a * qx b + qx a * qw b + qy a * qz b - qz a * qy b)
      (qw a * qy b + qy a * qw b + qz a * qx b - qx a * qz b)
      (qw a * qz b + qz a * qw b + qx a * qy b - qy a * qx b).
Definition conj (q : quat) : quat := mkQ (qw q) (- qx q) (- qy q) (- qz q).
Definition angle_axis (a : R) (u : vec) : quat :=
  mkQ (cos (a / 2)) (sin (a / 2) * vx u) (sin (a / 2) * vy u) (sin (a / 2) * vz u).
Definition to_matrix (q : quat) : mat :=
  let tx := 2 * qx q in let ty := 2 * qy q in let tz := 2 * qz q in
  let twx := tx * qw q in let twy := ty * qw q in let twz := tz * qw q in
  let txx := tx * qx q in let txy := ty * qx q in let txz := tz * qx q in
  let tyy := ty * qy q in let tyz := tz * qy q in let tzz := tz * qz q in
  mkM (1 - (tyy + tzz)) (txy - twz) (txz + twy)
      (txy + twz) (1 - (txx + tzz)) (tyz - twx)
      (txz - twy) (tyz + twx) (1 - (txx + tyy)).
Definition qvec (q : quat) : vec := mkV (qx q) (qy q) (qz q).
Definition rotate (q : quat) (v : vec) : vec :=
  let uv := cross (qvec q) v in
  let uv := vadd uv uv in
  vadd (vadd v (vscale (qw q) uv)) (cross (qvec q) uv).
Definition qdot (a b : quat) : R := qw a * qw b + qx a * qx b + qy a * qy b + qz a * qz b.
Definition qscale (k : R) (a : quat) : quat := mkQ (k * qw a) (k * qx a) (k * qy a) (k * qz a).
Definition qadd (a b : quat) : quat := mkQ (qw a + qw b) (qx a + qx b) (qy a + qy b) (qz a + qz b).
(** normalized(): unchanged if the norm is zero. *)
Definition normalized (q : quat) : quat :=
  if Rlt_dec 0 (qdot q q) then qscale (/ sqrt (qdot q q)) q else q.

(** EulerAnglesToQuaternion, math.h:131-140, and EulerAnglesToRotationMatrix, 142-146. *)
Definition eulers_to_quat (e : vec) : quat :=
  qmul (qmul (angle_axis (vz e) (mkV 0 0 1)) (angle_axis (vy e) (mkV 0 1 0))) (angle_axis (vx e) (mkV 1 0 0)).
Definition eulers_to_matrix (e : vec) : mat := to_matrix (eulers_to_quat e).

(** TransformToVector6, math.h:153-161, and Vector6ToTransform, 163-177: translation and angles. *)
Definition transform_to_vector6 (t : transform) : vec * vec := (t_pos t, matrix_to_eulers (t_rot t)).
Definition vector6_to_transform (v : vec * vec) : transform := mkT (eulers_to_matrix (snd v)) (fst v).

(** Eigen: the quaternion of a 3x3 matrix (quaternionbase_assign_impl), for any matrix. *)
Definition quat_of_matrix (m : mat) : quat :=
  let tr := m00 m + m11 m + m22 m in
  if Rlt_dec 0 tr then
    let t := sqrt (tr + 1) in
    let k := (1 / 2) / t in
    mkQ (1 / 2 * t) ((m21 m - m12 m) * k) ((m02 m - m20 m) * k) ((m10 m - m01 m) * k)
  else
    let i := if Rlt_dec (m00 m) (m11 m) then 1%nat else 0%nat in
    let i := if Rlt_dec (match i with O => m00 m | _ => m11 m end) (m22 m) then 2%nat else i in
    match i with
    | O =>
        let t := sqrt (m00 m - m11 m - m22 m + 1) in
        let k := (1 / 2) / t in
        mkQ ((m21 m - m12 m) * k) (1 / 2 * t) ((m10 m + m01 m) * k) ((m20 m + m02 m) * k)
    | 1%nat =>
        let t := sqrt (m11 m - m22 m - m00 m + 1) in
        let k := (1 / 2) / t in
        mkQ ((m02 m - m20 m) * k) ((m01 m + m10 m) * k) (1 / 2 * t) ((m21 m + m12 m) * k)
    | _ =>
        let t := sqrt (m22 m - m00 m - m11 m + 1) in
        let k := (1 / 2) / t in
        mkQ ((m10 m - m01 m) * k) ((m02 m + m20 m) * k) ((m12 m + m21 m) * k) (1 / 2 * t)
    end.

(** NormalizeRotation, math.h:239-245. *)
Definition normalize_rotation (t : transform) : transform :=
  mkT (to_matrix (normalized (quat_of_matrix (t_rot t)))) (t_pos t).

(** Eigen: QuaternionBase::slerp; [eps] is NumTraits<double>::epsilon() = 2^-52. *)
Definition eps : R := / 4503599627370496.
Definition slerp (t : R) (a b : quat) : quat :=
  let d := qdot a b in
  let abs_d := Rabs d in
  let scales :=
    if Rle_dec (1 - eps) abs_d then (1 - t, t)
    else let theta := acos abs_d in (sin ((1 - t) * theta) / sin theta, sin (t * theta) / sin theta) in
  let s1 := if Rlt_dec d 0 then - snd scales else snd scales in
  qadd (qscale (fst scales) a) (qscale s1 b).

(** InterpolateTransform, math.h:199-212. *)
Definition interpolate (t1 t2 : transform) (f : R) : outcome transform :=
  if Rle_dec 0 f then
    if Rle_dec f 1 then
      Ok (mkT (to_matrix (slerp f (quat_of_matrix (t_rot t1)) (quat_of_matrix (t_rot t2))))
              (vadd (t_pos t1) (vscale f (vsub (t_pos t2) (t_pos t1)))))
    else Abort
  else Abort.

Definition apply (t : transform) (p : vec) : vec := vadd (mvec (t_rot t) p) (t_pos t).
Definition identity : transform := mkT ident zero_vec.

(** MotionCompensation, builder/map_builder.cc:232-258. *)
Record point := mkP { p_at : vec; p_intensity : R; p_factor : R }.
Fixpoint motion_compensation (ps : list point) (delta : transform) : outcome (list point) :=
  match ps with
  | [] => Ok []
  | p :: r =>
      (let* t := interpolate identity delta (p_factor p) in
       let* r' := motion_compensation r delta in
       Ok (mkP (apply t (p_at p)) (p_intensity p) (p_factor p) :: r'))%outcome
  end.
