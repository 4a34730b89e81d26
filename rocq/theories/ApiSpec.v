(** What the calls of MapBuilder mean, in terms of the calls made before. *)
From Coq Require Import ZArith List Bool.
From Verif Require Import Outcome TimeModel GpsModel ApiModel.
Import ListNotations.

Section Spec.
Context {T P V L : Type}.
Notation op := (op T P V L).

(** The argument of the latest call that [f] selects. *)
Definition latest {A} (f : op -> option A) (h : list op) : option A :=
  fold_left (fun r o => match f o with Some a => Some a | None => r end) h None.
Definition lidar_tf (o : op) : option T := match o with SetTrackingToLidar t => Some t | _ => None end.
Definition imu_tf (o : op) : option T := match o with SetTrackingToImu t => Some t | _ => None end.
Definition odom_tf (o : op) : option T := match o with SetTransformOdomToLidar t => Some t | _ => None end.
Definition gps_tf (o : op) : option T := match o with SetTrackingToGps t => Some t | _ => None end.
Definition odom_flag (o : op) : option bool := match o with EnableUsingOdom b => Some b | _ => None end.
Definition gps_flag (o : op) : option bool := match o with EnableUsingGps b => Some b | _ => None end.
Definition pose (o : op) : option time := match o with AddPose t => Some t | _ => None end.

(** The calls before Initialise, its settings, and the calls since. *)
Fixpoint begun (h : list op) : option (list op * settings * list op) :=
  match h with
  | [] => None
  | o :: r => match o with
              | Initialise c => Some ([], c, r)
              | _ => match begun r with Some (p, c, l) => Some (o :: p, c, l) | None => None end
              end
  end.
Definition finished (h : list op) : bool :=
  existsb (fun o => match o with Finish => true | _ => false end) h.
(** The first IMU message. *)
Fixpoint first_imu (l : list op) : option (imu V) :=
  match l with
  | [] => None
  | InsertImu (Some m) :: _ => Some m
  | _ :: r => first_imu r
  end.
(** The time of the latest pose known to the extrapolator; [l] are the calls since Initialise. *)
Definition pose_time (c : settings) (l : list op) : time :=
  match latest pose l with
  | Some t => t
  | None => match first_imu l with
            | Some m => if imu_on c then i_stamp m else time_zero
            | None => time_zero
            end
  end.

(** The scan match thread works only on clouds that were accepted: it adds poses between Initialise and
    Finish, and with the IMU on only after an IMU message. *)
Definition legal (h : list op) : Prop :=
  forall h1 t h2, h = h1 ++ AddPose t :: h2 ->
  exists p c l, begun h1 = Some (p, c, l) /\ finished l = false /\ (imu_on c = true -> first_imu l <> None).

(** A cloud is taken iff the builder is initialised and not finished, has had an IMU message if it uses
    the IMU, and the cloud is not older than the latest pose. *)
Definition takes_cloud (h : list op) (m : cloud P) : Prop :=
  exists p c l, begun h = Some (p, c, l) /\ finished l = false /\
    (imu_on c = true -> first_imu l <> None) /\ (to_nano (pose_time c l) <= to_nano (c_stamp m))%Z.
(** IMU messages are used iff the IMU is on and the builder is not finished. *)
Definition takes_imu (h : list op) : Prop :=
  exists p c l, begun h = Some (p, c, l) /\ finished l = false /\ imu_on c = true.
(** GPS messages are looked at iff GPS was enabled last and the builder is not finished. *)
Definition takes_gps (h : list op) : Prop := latest gps_flag h = Some true /\ finished h = false.
End Spec.
