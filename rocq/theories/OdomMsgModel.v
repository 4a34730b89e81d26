(** Model of the odometry messages: OdomMsg (builder/data/data_types.h:119-147, data_types.cc:34-45),
    their conversion (ros_node/msg_conversion.cc:73-95), the pose they are stored as
    (data_collector.cc:174-194) and the transform taken from a message in ros_node/tf_bridge.cc:29-40,
    over the real numbers (no rounding, infinities or NaN). *)
From Coq Require Import Reals List ZArith.
From Verif Require Import Outcome TimeModel GpsModel RigidModel.
Import ListNotations.
Local Open Scope R_scope.

(** nav_msgs::Odometry as far as it is used: stamp, pose, twist.  [X] is everything else that is copied
    field by field (header.seq, header.frame_id, both covariances). *)
Record ros_odom {X : Type} := mkRos { r_stamp : time; r_pos : vec; r_ori : quat; r_linear : vec; r_angular : vec; r_rest : X; r_child : nat }.
Arguments ros_odom : clear implicits. Arguments mkRos {X}.
(** struct OdomMsg, data_types.h:119-147.  [m_child] is child_frame_id. *)
Record odom_msg {X : Type} := mkMsg { m_stamp : time; m_pos : vec; m_ori : quat; m_linear : vec; m_angular : vec; m_rest : X; m_child : option nat }.
Arguments odom_msg : clear implicits. Arguments mkMsg {X}.

(** ToLocalOdom, msg_conversion.cc:73-95: child_frame_id stays empty.  (That ToLocalTime keeps the
    stamp is C129.) *)
Definition to_local {X : Type} (m : ros_odom X) : odom_msg X :=
  mkMsg (r_stamp m) (mkV (vx (r_pos m)) (vy (r_pos m)) (vz (r_pos m)))
    (mkQ (qw (r_ori m)) (qx (r_ori m)) (qy (r_ori m)) (qz (r_ori m)))
    (mkV (vx (r_linear m)) (vy (r_linear m)) (vz (r_linear m))) (mkV (vx (r_angular m)) (vy (r_angular m)) (vz (r_angular m)))
    (r_rest m) None.

(** OdomMsg::PoseInMatrix, data_types.cc:34-39: toRotationMatrix does not normalise. *)
Definition pose_in_matrix {X : Type} (m : odom_msg X) : transform := mkT (to_matrix (m_ori m)) (m_pos m).
(** OdomMsg::SetPose, data_types.cc:41-45. *)
Definition set_pose {X : Type} (m : odom_msg X) (t : transform) : odom_msg X :=
  mkMsg (m_stamp m) (t_pos t) (quat_of_matrix (t_rot t)) (m_linear m) (m_angular m) (m_rest m) (m_child m).
(** GeometryTransformToEigen, tf_bridge.cc:29-40. *)
Definition geometry_to_eigen (translation : vec) (rotation : quat) : transform :=
  mkT (to_matrix (mkQ (qw rotation) (qx rotation) (qy rotation) (qz rotation))) (mkV (vx translation) (vy translation) (vz translation)).

(** Matrix4d products and Matrix4d::inverse() of matrices whose last row is 0 0 0 1: the cofactors over
    the determinant. *)
Definition product (a b : mat) : mat :=
  mkM (m00 a * m00 b + m01 a * m10 b + m02 a * m20 b) (m00 a * m01 b + m01 a * m11 b + m02 a * m21 b) (m00 a * m02 b + m01 a * m12 b + m02 a * m22 b)
      (m10 a * m00 b + m11 a * m10 b + m12 a * m20 b) (m10 a * m01 b + m11 a * m11 b + m12 a * m21 b) (m10 a * m02 b + m11 a * m12 b + m12 a * m22 b)
      (m20 a * m00 b + m21 a * m10 b + m22 a * m20 b) (m20 a * m01 b + m21 a * m11 b + m22 a * m21 b) (m20 a * m02 b + m21 a * m12 b + m22 a * m22 b).
Definition compose (t u : transform) : transform := mkT (product (t_rot t) (t_rot u)) (vadd (mvec (t_rot t) (t_pos u)) (t_pos t)).
Definition inverse (t : transform) : transform :=
  let m := t_rot t in
  let c00 := m11 m * m22 m - m12 m * m21 m in let c10 := m12 m * m20 m - m10 m * m22 m in let c20 := m10 m * m21 m - m11 m * m20 m in
  let k := / (m00 m * c00 + m01 m * c10 + m02 m * c20) in
  let i := mkM (k * c00) (k * (m02 m * m21 m - m01 m * m22 m)) (k * (m01 m * m12 m - m02 m * m11 m))
               (k * c10) (k * (m00 m * m22 m - m02 m * m20 m)) (k * (m02 m * m10 m - m00 m * m12 m))
               (k * c20) (k * (m01 m * m20 m - m00 m * m21 m)) (k * (m00 m * m11 m - m01 m * m10 m)) in
  mkT i (vscale (-1) (mvec i (t_pos t))).

(** AddSensorData(const OdomMsg&), data_collector.cc:174-194 (GpsModel.v), with these poses, for each
    message the node gets. *)
Definition insert {X : Type} (s : odom_state transform) (m : ros_odom X) : odom_state transform :=
  add_odom compose inverse s (mkOdom (m_stamp (to_local m)) (pose_in_matrix (to_local m))).
Definition track {X : Type} (ms : list (ros_odom X)) : list (odom transform) := os_track (fold_left insert ms odom_init).
