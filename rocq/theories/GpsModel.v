(** Model of the GPS, odometry and trimming parts of builder/data/data_collector.{h,cc}.
    Doubles are exact rationals here: rounding of ToSec() and of the interpolation is
    not modelled.  The mutexes make every method atomic; the model runs the methods one
    after another. *)
From Coq Require Import ZArith QArith Qabs List Bool.
From Verif Require Import Outcome TimeModel.
Import ListNotations.
Local Open Scope Z_scope.
Local Open Scope outcome_scope.

(** SimpleTime::ToSec, simple_time.h:113-115 (exact instead of double). *)
Definition to_sec (t : time) : Q :=
  ((secs t # 1) + (nsecs t # 1000000000))%Q.

(** Comparison of doubles by exact rational comparison. *)
Definition Qltb (a b : Q) : bool := negb (Qle_bool b a).

(** Eigen::Vector3d with the two operations used in InterpolateGps. *)
Record vec3 := mkVec { vx : Q; vy : Q; vz : Q }.
Definition vadd (a b : vec3) : vec3 :=
  mkVec (vx a + vx b)%Q (vy a + vy b)%Q (vz a + vz b)%Q.
Definition vsub (a b : vec3) : vec3 :=
  mkVec (vx a - vx b)%Q (vy a - vy b)%Q (vz a - vz b)%Q.
Definition vscale (f : Q) (a : vec3) : vec3 :=
  mkVec (f * vx a)%Q (f * vy a)%Q (f * vz a)%Q.

Section Gps.

(** Latitude/longitude/altitude triples and GeographicLib's
    LocalCartesian(reference).Forward(point), used as an arbitrary function. *)
Variable L : Type.
Variable forward : L -> L -> vec3.

(** struct NavSatFixMsg, data_types.h:96-112: the fields AddSensorData reads. *)
Record navsat := mkNav { n_stamp : time; n_status : Z; n_lla : L }.

(** struct GpsData, data_collector.h:74-79. *)
Record gps := mkGps { g_time : time; g_fixed : bool; g_enu : vec3; g_lla : L }.

(** The members reference_gps_point_, gps_data_, enu_path_cloud_ (the path keeps the
    position and the status as intensity), data_collector.h:141-151. *)
Record gps_state := mkGS {
  gs_ref : option L;
  gs_track : list gps;
  gs_path : list (vec3 * Z) }.

Definition gps_init : gps_state := mkGS None [] [].

(** [v.back()] of a non-empty vector. *)
Definition back {A} (l : list A) : option A := nth_error l (length l - 1)%nat.

(** AddSensorData(const NavSatFixMsg&), data_collector.cc:83-118.
    STATUS_FIX is 0 (data_types.h:83). *)
Definition add_gps (s : gps_state) (m : navsat) : outcome gps_state :=
  let fixed := n_status m =? 0 in
  match (match gs_ref s with
         | Some r => Some r
         | None => if fixed then Some (n_lla m) else None
         end) with
  | None => Ok s
  | Some r =>
    let d := mkGps (n_stamp m) fixed (forward r (n_lla m)) (n_lla m) in
    let* _ := (match back (gs_track s) with
               | None => Ok tt
               | Some b => check (t_gt (g_time d) (g_time b))
               end) in
    Ok (mkGS (Some r) (gs_track s ++ [d]) (gs_path s ++ [(g_enu d, n_status m)]))
  end.

(** InterpolateGps, data_collector.cc:196-245.  Result: the returned pointer (None =
    nullptr) and the new gps_data_.  The outer option is the fuel of the search. *)
Definition interpolate_gps (track : list gps) (t : time) (thr : Q) (trim : bool)
  : option (outcome (option vec3 * list gps)) :=
  if negb (Qle_bool thr (1 # 2)) then Some Abort
  else match track with
  | [] => Some (Ok (None, track))
  | [g] =>
    if Qle_bool (Qabs (to_sec t - to_sec (g_time g))) thr && g_fixed g
    then Some (Ok (Some (g_enu g), track))
    else Some (Ok (None, track))
  | front :: _ =>
    match back track with
    | None => Some UB
    | Some last =>
      if t_lt t (g_time front) || t_gt t (g_time last)
      then Some (Ok (None, track))
      else match binary_search (map g_time track) t with
      | None => None
      | Some r => Some (
        let* ind := r in
        let* former := at_ track (fst ind) in
        let* latter := at_ track (snd ind) in
        let track' := if trim then skipn (Z.to_nat (fst ind)) track else track in
        let* _ := check (t_ge t (g_time former) && t_le t (g_time latter)) in
        let* dt := t_sub (g_time latter) (g_time former) in
        let delta_time := to_sec dt in
        let* _ := check (Qltb (1 # 1000000) delta_time) in
        if Qltb (1 # 5) delta_time || negb (g_fixed former) || negb (g_fixed latter)
        then Ok (None, track')
        else
          let* ft := t_sub t (g_time former) in
          let factor := (to_sec ft / delta_time)%Q in
          let* _ := check (Qle_bool 0 factor && Qle_bool factor 1) in
          let delta := vscale factor (vsub (g_enu latter) (g_enu former)) in
          Ok (Some (vadd (g_enu former) delta), track'))
      end
    end
  end.

End Gps.
Arguments mkNav {L}. Arguments n_stamp {L}. Arguments n_status {L}. Arguments n_lla {L}.
Arguments mkGps {L}. Arguments g_time {L}. Arguments g_fixed {L}.
Arguments g_enu {L}. Arguments g_lla {L}.
Arguments mkGS {L}. Arguments gs_ref {L}. Arguments gs_track {L}. Arguments gs_path {L}.
Arguments gps_init {L}.
Arguments add_gps {L} forward s m.
Arguments interpolate_gps {L} track t thr trim.

(** The loop of the macro TRIM_DATA, data_collector.cc:330-341: the final value of [i]
    when started at [i] with [n = data_size - 2 - i] iterations left on the suffix. *)
Fixpoint trim_count {A} (stamp : A -> time) (t : time) (n : nat) (l : list A) : nat :=
  match n, l with
  | S n', x :: l' => if t_ge (stamp x) t then O else S (trim_count stamp t n' l')
  | _, _ => O
  end.

(** TRIM_DATA, data_collector.cc:330-341 (TrimGpsData and TrimImuData). *)
Definition trim_data {A} (stamp : A -> time) (t : time) (l : list A) : list A :=
  if (Z.of_nat (length l) <=? 2) then l
  else skipn (trim_count stamp t (length l - 2) l) l.

Section Odom.

(** Poses with the group operations used (Eigen::Matrix4d) and
    common::InterpolateTransform (math.h:199-212) as an arbitrary function. *)
Variable P : Type.
Variable compose : P -> P -> P.
Variable inverse : P -> P.
Variable interpolate : P -> P -> Q -> P.

(** struct OdometryData, data_collector.h:81-88. *)
Record odom := mkOdom { o_time : time; o_pose : P }.

(** odom_init_offset_ and odom_data_, data_collector.h:139-141. *)
Record odom_state := mkOS { os_offset : option P; os_track : list odom }.
Definition odom_init : odom_state := mkOS None [].

(** AddSensorData(const OdomMsg&), data_collector.cc:174-194 (path cloud omitted). *)
Definition add_odom (s : odom_state) (m : odom) : odom_state :=
  let off := match os_offset s with Some o => o | None => o_pose m end in
  mkOS (Some off)
       (os_track s ++ [mkOdom (o_time m) (compose (inverse off) (o_pose m))]).

(** InterpolateOdom, data_collector.cc:247-296. *)
Definition interpolate_odom (track : list odom) (t : time) (thr : Q) (trim : bool)
  : option (outcome (option P * list odom)) :=
  if negb (Qle_bool thr (1 # 2)) then Some Abort
  else match track with
  | [] => Some (Ok (None, track))
  | [g] =>
    if Qle_bool (Qabs (to_sec t - to_sec (o_time g))) thr
    then Some (Ok (Some (o_pose g), track))
    else Some (Ok (None, track))
  | front :: _ =>
    match back track with
    | None => Some UB
    | Some last =>
      if t_lt t (o_time front) || t_gt t (o_time last)
      then Some (Ok (None, track))
      else match binary_search (map o_time track) t with
      | None => None
      | Some r => Some (
        let* ind := r in
        let* former := at_ track (fst ind) in
        let* latter := at_ track (snd ind) in
        let track' := if trim then skipn (Z.to_nat (fst ind)) track else track in
        let* dt := t_sub (o_time latter) (o_time former) in
        let delta_time := to_sec dt in
        let* _ := check (Qltb (1 # 1000000) delta_time) in
        if Qltb 1 delta_time then Ok (None, track')
        else
          let* _ := check (t_ge t (o_time former) && t_le t (o_time latter)) in
          let* ft := t_sub t (o_time former) in
          let factor := (to_sec ft / delta_time)%Q in
          let* _ := check (Qle_bool 0 factor && Qle_bool factor 1) in
          Ok (Some (interpolate (o_pose former) (o_pose latter) factor), track'))
      end
    end
  end.

End Odom.
Arguments mkOdom {P}. Arguments o_time {P}. Arguments o_pose {P}.
Arguments mkOS {P}. Arguments os_offset {P}. Arguments os_track {P}.
Arguments odom_init {P}.
Arguments add_odom {P} compose inverse s m.
Arguments interpolate_odom {P} interpolate track t thr trim.
