(** Model of builder/deprecated/offline_calibration.{h,cc}: the mounting of the odometry from the submaps of a trajectory.
    The file is not part of the build.

    Numbers are reals without rounding.  [solve] is Ceres: from the residuals (CostModel.v) and the start, new values of
    the parameters; the Huber loss, cc:86, is part of it.  The last row of *result, which the function leaves as it was, is not modelled. *)
From Coq Require Import List Reals.
From Verif Require Import Outcome RigidModel OdomMsgModel CostModel.
Import ListNotations.
Local Open Scope outcome_scope.
Local Open Scope R_scope.

(** Of a submap: GlobalTranslation() with GlobalRotation(), and GetRelatedOdom(), if HasOdom(). *)
Record submap := mkSubmap { s_pose : transform; s_odom : option transform }.
(** The direction of the path at a submap, cc:61-65. *)
Definition heading (r : mat) : vec :=
  let e := matrix_to_eulers r in mkV (cos (vz e) * cos (vy e)) (sin (vz e) * cos (vy e)) (sin (vy e)).
(** The loop over the submaps, cc:51-70, with the cost function of each, cc:83-86. *)
Fixpoint residuals (l : list submap) : list (vec -> vec -> R) :=
  match l with
  | [] => []
  | s :: l =>
      match s_odom s with
      | None => residuals l
      | Some o => odom_path (t_pos (s_pose s)) o (heading (t_rot (s_pose s))) :: residuals l
      end
  end.

Section Calib.
Variable solve : list (vec -> vec -> R) -> vec * vec -> vec * vec.
(** OfflineCalibrationOdomToLidar, cc:34-106; [None] is a null pointer. *)
Definition calibrate (trajectory : option (list submap)) (init : transform) (result : option transform) : outcome (bool * transform) :=
  match trajectory, result with
  | Some l, Some old =>
      if (length l <=? 1)%nat then Ok (false, old)
      else
        match residuals l with
        | [] => Ok (false, old)
        | fs =>
            let '(t, r) := solve fs (transform_to_vector6 init) in
            Ok (true, mkT (eulers_to_matrix r) t)
        end
  | _, _ => Abort
  end.
End Calib.
