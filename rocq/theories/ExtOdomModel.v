(** Model of the odometry of builder/pose_extrapolator.{h,cc} and of EstimateGravityOrientation and
    InitRoughLinearVelocity.  It extends ExtrapModel.v, which leaves odometry_data_ empty; nothing in the project
    calls these three.

    Positions and linear velocities are real vectors without rounding; orientations, angular velocities and the
    state of a tracker are values of arbitrary types, their arithmetic is a parameter: [secs_of] (ToSec),
    [velocity] (231-239), [turn] (298-301), [turn_imu] (290-292), [odo_angular] (155-159; a duration of 0 divides
    by zero there and gives infinite or undefined numbers, which are not modelled), [orient] (orientation()). *)
From Coq Require Import List Bool ZArith Reals.
From Verif Require Import Outcome TimeModel RigidModel ExtrapModel.
Import ListNotations.
Local Open Scope outcome_scope.

Section ExtOdom.
Variables Rot A I O : Type.
Definition pose : Type := (vec * Rot)%type.
Definition vel : Type := (vec * A)%type.
Variable grav_ok : list (tev vel I) -> bool.
Variable secs_of : time -> R.
Variable velocity : (time * pose) -> (time * pose) -> vel.
Variable shorter : time -> time -> bool.
Variable turn : Rot -> A -> time -> Rot.
Variable turn_imu : Rot -> tracker vel I -> tracker vel I -> Rot.
Variable odo_angular : O -> O -> time -> A.
Variable orient : tracker vel I -> Rot.
Variable level : Rot.
Variable a0 : A.

(** The prediction, 181-191 with 311-318: the position moves with the linear velocity. *)
Definition predict (p : pose) (v : vel) (d : time) : pose :=
  (vadd (vscale (secs_of d) (fst v)) (fst p), turn (snd p) (snd v) d).
Definition predict_imu (p : pose) (v : vel) (k x : tracker vel I) (d : time) : pose :=
  (vadd (vscale (secs_of d) (fst v)) (fst p), turn_imu (snd p) k x).
Notation extr := (ext pose vel I).

(** The object with odometry_data_, odometry_imu_tracker_ and the velocities from odometry, h:104-111. *)
Record oext := mkO {
  core : extr;
  odo : list (time * O);
  otr : option (tracker vel I);
  olin : vec;
  oang : A }.
Definition start (e : extr) : oext := mkO e [] None zero_vec a0.

(** TrimOdometryData, 249-254. *)
Fixpoint trim_odo (lp : option time) (d : list (time * O)) : list (time * O) :=
  match lp, d with
  | Some t, a :: ((b :: _ :: _) as r) => if t_le (fst b) t then trim_odo lp r else d
  | _, _ => d
  end.
(** The velocities AdvanceImuTracker (265-266) and ExtrapolateTranslation (315-318) use in IMU mode; [v]: those from
    poses. *)
Definition chosen (d : list (time * O)) (v : vel) (l : vec) (a : A) : vel :=
  if (length d <? 2)%nat then v else (l, a).

(** AddPose, 90-122. *)
Definition o_pose (t : time) (p : pose) (s : oext) : outcome oext :=
  let e := core s in
  let q := e_queue e ++ [(t, p)] in
  match e_queue e with
  | [] => Ok (mkO (mkExt pose vel I (e_mode e) (e_dur e) q (e_vel e) (e_imu e) (e_tr e) (e_xtr e) (t, p))
                  (odo s) (otr s) (olin s) (oang s))
  | _ :: _ =>
      let* lim := t_sub t (e_dur e) in
      let q := trim_poses pose (length q) lim q in
      let* v := update_velocity pose vel I velocity shorter e q in
      match e_mode e with
      | CTRV => Ok (mkO (mkExt pose vel I (e_mode e) (e_dur e) q v (e_imu e) (e_tr e) (e_xtr e) (e_cache e))
                        (odo s) (otr s) (olin s) (oang s))
      | WithImu =>
          let k := match e_tr e with
            | Some k => k
            | None =>
                match e_imu e with
                | [] => mkTr t []
                | (u, _) :: _ => mkTr (if t_lt u t then u else t) []
                end
            end in
          let* k1 := advance_tracker vel I grav_ok (e_imu e) (chosen (odo s) v (olin s) (oang s)) t k in
          Ok (mkO (mkExt pose vel I (e_mode e) (e_dur e) q v (trim_imu I (last_time q) (e_imu e)) (Some k1) (Some k1) (e_cache e))
                  (trim_odo (last_time q) (odo s)) (Some k1) (olin s) (oang s))
      end
  end.
(** AddImuData, 124-133. *)
Definition o_imu (u : time) (i : I) (s : oext) : outcome oext :=
  let* e := add_imu pose vel I u i (core s) in
  Ok (mkO e (odo s) (otr s) (olin s) (oang s)).
(** AddOdometryData, 135-175.  The orientation of the newest pose is taken as Matrix3d(pose.block(0, 3, 3, 1)), 166-168:
    a 3 x 1 block as a 3 x 3 matrix, which reads past the pose (or breaks an assertion of Eigen).  The other
    factor of the product (169-170) may fail a CHECK before; that is UB here, too. *)
Definition o_odom (u : time) (o : O) (s : oext) : outcome oext :=
  let e := core s in
  match e_mode e with
  | CTRV => Ok s
  | WithImu =>
      let* _ := check (match last_time (e_queue e) with None => true | Some t => t_ge u t end) in
      let d := trim_odo (last_time (e_queue e)) (odo s ++ [(u, o)]) in
      match d, back d with
      | (u1, o1) :: _ :: _, Some (u2, o2) =>
          let* dt := t_sub u2 u1 in
          let a := odo_angular o1 o2 dt in
          match e_queue e with
          | [] => Ok (mkO e d (otr s) (olin s) a)
          | _ :: _ => UB
          end
      | _, _ => Ok (mkO e d (otr s) (olin s) (oang s))
      end
  end.
(** ExtrapolatePose, 177-197. *)
Definition o_query (t : time) (s : oext) : outcome (pose * oext) :=
  let e := core s in
  match back (e_queue e) with
  | None => UB
  | Some (tl, pl) =>
      let* _ := check (t_ge t tl) in
      let* ne := t_ne (fst (e_cache e)) t in
      if negb ne then Ok (snd (e_cache e), s)
      else
        let* d := t_sub t tl in
        match e_mode e with
        | CTRV =>
            let p := predict pl (e_vel e) d in
            Ok (p, mkO (mkExt pose vel I (e_mode e) (e_dur e) (e_queue e) (e_vel e) (e_imu e) (e_tr e) (e_xtr e) (t, p))
                       (odo s) (otr s) (olin s) (oang s))
        | WithImu =>
            match e_xtr e, e_tr e with
            | Some x, Some k =>
                let* _ := check (t_ge t (tr_time x)) in
                let v := chosen (odo s) (e_vel e) (olin s) (oang s) in
                let* x1 := advance_tracker vel I grav_ok (e_imu e) v t x in
                let p := predict_imu pl v k x1 d in
                Ok (p, mkO (mkExt pose vel I (e_mode e) (e_dur e) (e_queue e) (e_vel e) (e_imu e) (e_tr e) (Some x1) (t, p))
                           (odo s) (otr s) (olin s) (oang s))
            | _, _ => UB
            end
        end
  end.
(** EstimateGravityOrientation, 199-208: a copy of the tracker is advanced. *)
Definition gravity (t : time) (s : oext) : outcome Rot :=
  let e := core s in
  match e_mode e with
  | CTRV => Ok level
  | WithImu =>
      match e_tr e with
      | None => UB
      | Some k =>
          let* k1 := advance_tracker vel I grav_ok (e_imu e) (chosen (odo s) (e_vel e) (olin s) (oang s)) t k in
          Ok (orient k1)
      end
  end.
(** InitRoughLinearVelocity, 210-214. *)
Definition rough (l : vec) (s : oext) : oext :=
  let e := core s in
  mkO (mkExt pose vel I (e_mode e) (e_dur e) (e_queue e) (l, snd (e_vel e)) (e_imu e) (e_tr e) (e_xtr e) (e_cache e))
      (odo s) (otr s) (olin s) (oang s).

Inductive oop := OCore (o : eop pose I) | OOdom (u : time) (o : O) | OGravity (t : time) | ORough (l : vec).
Definition ostep (s : oext) (o : oop) : outcome oext :=
  match o with
  | OCore (EPose t p) => o_pose t p s
  | OCore (EImu u i) => o_imu u i s
  | OCore (EQuery t) => let* r := o_query t s in Ok (snd r)
  | OOdom u o => o_odom u o s
  | OGravity t => let* _ := gravity t s in Ok s
  | ORough l => Ok (rough l s)
  end.
End ExtOdom.
