(** Model of builder/pose_extrapolator.{h,cc} and of the interface of builder/imu_tracker.cc.

    Poses and velocities are values of arbitrary types.  The numerical parts are parameters:
    [velocity] (pose_extrapolator.cc:231-239, the velocities from the oldest and the newest
    pose), [shorter] (the comparison of the two double durations, 225), [predict] (180-191
    with 311-318 and, in CTRV mode, 295-302) and [predict_imu] (the same with the
    orientations of the two trackers, 288-293).  An ImuTracker is the list of the calls made
    on it, newest first, and its time; [grav_ok] says whether the two CHECKs on the gravity
    direction (imu_tracker.cc:74-75) hold.  No caller in the project adds
    odometry to an extrapolator: odometry_data_ is empty here, and ExtOdomModel.v adds it.  The mutex makes the calls atomic. *)
From Coq Require Import List Bool ZArith.
From Verif Require Import Outcome TimeModel.
Import ListNotations.
Local Open Scope Z_scope.
Local Open Scope outcome_scope.

Inductive mode := WithImu | CTRV.

Section Ext.
Variable Pz : Type.
Variable V : Type.
Variable I : Type.
(** the readings of an IMU message; [level] is UnitZ with the given angular velocity, the
    replacement of pose_extrapolator.cc:263-266 *)
Inductive obs := OImu (i : I) | OLevel (v : V).
Inductive tev := TAdv (t : time) | TAcc (o : obs) | TGyr (o : obs).
Record tracker := mkTr { tr_time : time; tr_log : list tev }.
Variable grav_ok : list tev -> bool.
Variable velocity : (time * Pz) -> (time * Pz) -> V.
Variable shorter : time -> time -> bool.
Variable predict : Pz -> V -> time -> Pz.
Variable predict_imu : Pz -> V -> tracker -> tracker -> time -> Pz.
Variable init_pose : tracker -> Pz.
Variable ident : Pz.
Variable v0 : V.

(** ** ImuTracker, imu_tracker.cc:31-82 *)
Definition advance (t : time) (k : tracker) : outcome tracker :=
  let* _ := check (t_le (tr_time k) t) in
  Ok (mkTr t (TAdv t :: tr_log k)).
Definition add_acc (o : obs) (k : tracker) : outcome tracker :=
  let l := TAcc o :: tr_log k in
  let* _ := check (grav_ok l) in Ok (mkTr (tr_time k) l).
Definition add_gyr (o : obs) (k : tracker) : tracker := mkTr (tr_time k) (TGyr o :: tr_log k).

(** ** PoseExtrapolator, pose_extrapolator.h:85-106 *)
Record ext := mkExt {
  e_mode : mode;
  e_dur : time;
  e_queue : list (time * Pz);
  e_vel : V;
  e_imu : list (time * I);
  e_tr : option tracker;        (** imu_tracker_ *)
  e_xtr : option tracker;       (** extrapolation_imu_tracker_ *)
  e_cache : time * Pz }.

(** Constructor, pose_extrapolator.cc:39-45; InitialSimpleCTRV 68-72 *)
Definition new_ext (m : mode) (d : time) : ext := mkExt m d [] v0 [] None None (time_zero, ident).

Definition back {A} (l : list A) : option A := nth_error l (length l - 1).

(** GetLastPoseTime, 74-80 *)
Definition last_pose_time (e : ext) : time :=
  match back (e_queue e) with Some (t, _) => t | None => time_zero end.

(** The loop of AddPose, 100-103; [fuel] is the queue length. *)
Fixpoint trim_poses (fuel : nat) (lim : time) (q : list (time * Pz)) : list (time * Pz) :=
  match fuel, q with
  | S f, a :: b :: c :: r => if t_le (fst b) lim then trim_poses f lim (b :: c :: r) else q
  | _, _ => q
  end.

(** UpdateVelocitiesFromPoses, 216-240 *)
Definition update_velocity (e : ext) (q : list (time * Pz)) : outcome V :=
  match q, back q with
  | f :: _ :: _, Some b =>
      let* d := t_sub (fst b) (fst f) in
      if shorter d (e_dur e) then Ok (e_vel e) else Ok (velocity f b)
  | _, _ => Ok (e_vel e)
  end.

(** TrimImuData, 242-247 *)
Fixpoint trim_imu (lp : option time) (d : list (time * I)) : list (time * I) :=
  match lp, d with
  | Some t, a :: ((b :: _) as r) => if t_le (fst b) t then trim_imu lp r else d
  | _, _ => d
  end.
Definition last_time (q : list (time * Pz)) : option time := option_map fst (back q).

(** AdvanceImuTracker, 256-283.  std::lower_bound is the first entry not older than the
    tracker (for data in time order). *)
Fixpoint lower_bound (t : time) (d : list (time * I)) : list (time * I) :=
  match d with
  | [] => []
  | a :: r => if t_lt (fst a) t then lower_bound t r else d
  end.
Fixpoint feed (t : time) (d : list (time * I)) (k : tracker) : outcome tracker :=
  match d with
  | (s, i) :: r =>
      if t_lt s t then
        let* k1 := advance s k in
        let* k2 := add_acc (OImu i) k1 in
        feed t r (add_gyr (OImu i) k2)
      else Ok k
  | [] => Ok k
  end.
Definition advance_tracker (imu : list (time * I)) (vel : V) (t : time) (k : tracker) : outcome tracker :=
  let* _ := check (t_ge t (tr_time k)) in
  match imu with
  | [] =>
      let* k1 := advance t k in let* k2 := add_acc (OLevel vel) k1 in Ok (add_gyr (OLevel vel) k2)
  | (s0, _) :: _ =>
      if t_lt t s0 then
        let* k1 := advance t k in let* k2 := add_acc (OLevel vel) k1 in Ok (add_gyr (OLevel vel) k2)
      else
        let* k1 := (if t_lt (tr_time k) s0 then advance s0 k else Ok k) in
        let* k2 := feed t (lower_bound (tr_time k1) imu) k1 in
        advance t k2
  end.

(** AddPose, 90-122 *)
Definition add_pose (t : time) (p : Pz) (e : ext) : outcome ext :=
  let q := e_queue e ++ [(t, p)] in
  match e_queue e with
  | [] => Ok (mkExt (e_mode e) (e_dur e) q (e_vel e) (e_imu e) (e_tr e) (e_xtr e) (t, p))
  | _ :: _ =>
      let* lim := t_sub t (e_dur e) in
      let q := trim_poses (length q) lim q in
      let* v := update_velocity e q in
      match e_mode e with
      | CTRV => Ok (mkExt (e_mode e) (e_dur e) q v (e_imu e) (e_tr e) (e_xtr e) (e_cache e))
      | WithImu =>
          let k := match e_tr e with
            | Some k => k
            | None =>
                match e_imu e with
                | [] => mkTr t []
                | (s, _) :: _ => mkTr (if t_lt s t then s else t) []
                end
            end in
          let* k1 := advance_tracker (e_imu e) v t k in
          Ok (mkExt (e_mode e) (e_dur e) q v (trim_imu (last_time q) (e_imu e))
                (Some k1) (Some k1) (e_cache e))
      end
  end.

(** AddImuData, 124-133 *)
Definition add_imu (s : time) (i : I) (e : ext) : outcome ext :=
  match e_mode e with
  | CTRV => Ok e
  | WithImu =>
      let* _ := check (match last_time (e_queue e) with None => true | Some t => t_ge s t end) in
      Ok (mkExt (e_mode e) (e_dur e) (e_queue e) (e_vel e)
            (trim_imu (last_time (e_queue e)) (e_imu e ++ [(s, i)])) (e_tr e) (e_xtr e) (e_cache e))
  end.

(** InitializeWithImu, 47-66 *)
Definition initialize_with_imu (d : time) (s : time) (i : I) : outcome ext :=
  let* e := add_imu s i (new_ext WithImu d) in
  let* k1 := add_acc (OImu i) (mkTr s []) in
  let* k2 := advance s (add_gyr (OImu i) k1) in
  add_pose s (init_pose k2)
    (mkExt (e_mode e) (e_dur e) (e_queue e) (e_vel e) (e_imu e) (Some k2) (e_xtr e) (e_cache e)).

(** ExtrapolatePose, 177-197, with ExtrapolateRotation 285-309 and ExtrapolateTranslation
    311-318: the answer and the object afterwards. *)
Definition extrapolate (t : time) (e : ext) : outcome (Pz * ext) :=
  match back (e_queue e) with
  | None => UB
  | Some (tl, pl) =>
      let* _ := check (t_ge t tl) in
      let* ne := t_ne (fst (e_cache e)) t in
      if negb ne then Ok (snd (e_cache e), e)
      else
        let* d := t_sub t tl in
        match e_mode e with
        | CTRV =>
            let p := predict pl (e_vel e) d in
            Ok (p, mkExt (e_mode e) (e_dur e) (e_queue e) (e_vel e) (e_imu e) (e_tr e) (e_xtr e) (t, p))
        | WithImu =>
            match e_xtr e, e_tr e with
            | Some x, Some k =>
                let* _ := check (t_ge t (tr_time x)) in
                let* x1 := advance_tracker (e_imu e) (e_vel e) t x in
                let p := predict_imu pl (e_vel e) k x1 d in
                Ok (p, mkExt (e_mode e) (e_dur e) (e_queue e) (e_vel e) (e_imu e) (e_tr e) (Some x1) (t, p))
            | _, _ => UB
            end
        end
  end.

(** Calls on an extrapolator. *)
Inductive eop := EPose (t : time) (p : Pz) | EImu (t : time) (i : I) | EQuery (t : time).
Definition estep (e : ext) (o : eop) : outcome ext :=
  match o with
  | EPose t p => add_pose t p e
  | EImu t i => add_imu t i e
  | EQuery t => let* r := extrapolate t e in Ok (snd r)
  end.
End Ext.
Arguments e_mode {Pz V I}. Arguments e_dur {Pz V I}. Arguments e_queue {Pz V I}. Arguments e_vel {Pz V I}.
Arguments e_imu {Pz V I}. Arguments e_tr {Pz V I}. Arguments e_xtr {Pz V I}. Arguments e_cache {Pz V I}.
Arguments tr_time {V I}. Arguments tr_log {V I}. Arguments mkTr {V I}.
Arguments EPose {Pz I}. Arguments EImu {Pz I}. Arguments EQuery {Pz I}.
Arguments last_time {Pz}. Arguments last_pose_time {Pz V I}.
