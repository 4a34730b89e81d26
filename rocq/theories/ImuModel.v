(** Model of builder/imu_tracker.{h,cc}: ImuTracker, over the real numbers (see RigidModel), with
    Eigen's Quaternion::FromTwoVectors.  Differences of time stamps are exact. *)
From Coq Require Import Reals ZArith.
From Verif Require Import Outcome TimeModel RigidModel.
Local Open Scope R_scope.

(** MatrixBase::normalized. *)
Definition vnormalized (v : vec) : vec :=
  if Rlt_dec 0 (dot v v) then vscale (/ sqrt (dot v v)) v else v.

Section Tracker.
(** The last column of V in the singular value decomposition of the 2x3 matrix with the rows given
    (Eigen::JacobiSVD, used if they are nearly opposite). *)
Variable svd_axis : vec -> vec -> vec.
(** imu_gravity_time_constant_. *)
Variable tau : R.

(** Eigen: Quaternion::setFromTwoVectors; dummy_precision is 1e-12. *)
Definition from_two_vectors (a b : vec) : quat :=
  let v0 := vnormalized a in
  let v1 := vnormalized b in
  let c := dot v1 v0 in
  if Rlt_dec c (-1 + / 1000000000000) then
    let c := Rmax c (-1) in
    let axis := svd_axis v0 v1 in
    let w2 := (1 + c) * (1 / 2) in
    let k := sqrt (1 - w2) in
    mkQ (sqrt w2) (vx axis * k) (vy axis * k) (vz axis * k)
  else
    let axis := cross v0 v1 in
    let s := sqrt ((1 + c) * 2) in
    let invs := 1 / s in
    mkQ (s * (1 / 2)) (vx axis * invs) (vy axis * invs) (vz axis * invs).

(** ImuTracker, imu_tracker.h:66-75. *)
Record tracker := mkK { k_time : time; k_last : time; k_o : quat; k_g : vec; k_w : vec }.
Definition up : vec := mkV 0 0 1.

(** The constructor, imu_tracker.cc:31-38. *)
Definition new_tracker (t : time) : tracker := mkK t time_zero (mkQ 1 0 0 0) up zero_vec.

Definition seconds (from to : time) : R := IZR (to_nano to - to_nano from) / 1000000000.

(** Advance, imu_tracker.cc:40-48. *)
Definition advance (k : tracker) (t : time) : outcome tracker :=
  if t_le (k_time k) t then
    let dt := seconds (k_time k) t in
    let r := eulers_to_quat (vscale dt (k_w k)) in
    Ok (mkK t (k_last k) (normalized (qmul (k_o k) r)) (rotate (conj r) (k_g k)) (k_w k))
  else Abort.

(** The weight of a new acceleration, 54-58: the first one counts fully (delta_t is infinite). *)
Definition alpha (k : tracker) : R :=
  if t_gt (k_last k) time_zero then 1 - exp (- (seconds (k_last k) (k_time k)) / tau) else 1.
Definition new_gravity (k : tracker) (a : vec) : vec :=
  vadd (vscale (1 - alpha k) (k_g k)) (vscale (alpha k) a).

(** AddImuLinearAccelerationObservation, 50-70. *)
Definition observe (k : tracker) (a : vec) : outcome tracker :=
  let g := new_gravity k a in
  let r := from_two_vectors g (rotate (conj (k_o k)) up) in
  let o := normalized (qmul (k_o k) r) in
  if Rlt_dec 0 (vz (rotate o g)) then
    if Rlt_dec (99 / 100) (vz (vnormalized (rotate o g))) then
      Ok (mkK (k_time k) (k_time k) o g (k_w k))
    else Abort
  else Abort.

(** AddImuAngularVelocityObservation, 72-75. *)
Definition turn (k : tracker) (w : vec) : tracker := mkK (k_time k) (k_last k) (k_o k) (k_g k) w.

(** What a user can call. *)
Inductive op := Advance (t : time) | Accelerate (a : vec) | Turn (w : vec).
Definition step (k : tracker) (o : op) : outcome tracker :=
  match o with Advance t => advance k t | Accelerate a => observe k a | Turn w => Ok (turn k w) end.
Definition after (t : time) (h : list op) : outcome tracker := run step (new_tracker t) h.
End Tracker.
