(** Model of the calls of MapBuilder as seen by its user: constructor, Initialise, the setters, the
    Insert functions, EnableUsingGps, EnableUsingOdom and FinishAllComputations
    (builder/map_builder.cc:53-59, 62-112, 115-226, 715-746, 780-805), the first part of
    PoseExtrapolator::InitializeWithImu, GetLastPoseTime and AddImuData
    (builder/pose_extrapolator.cc:46-91, 123-133) and AddSensorData (builder/data/data_collector.cc:71-118,
    data_collector.h:161-163).

    The calls come from one thread, as in ros_node/static_mapping_node.cpp.  The scan match thread is
    present only by the poses it adds to the extrapolator, as a separate step at any time.  Initialise is
    given a file that passes all checks (see ConfigModel for those); [settings] are the flags read from it.
    A second Initialise is not modelled: the model gives UB (while the threads run it is a data race).
    Transforms and messages are of arbitrary types.  A matrix or flag that the constructor does not
    initialise is None; to copy it is allowed, to compute with it is UB. *)
From Coq Require Import ZArith List Bool.
From Verif Require Import Outcome TimeModel GpsModel.
Import ListNotations.
Local Open Scope outcome_scope.

(** The options that matter here: imu_options.enabled, isam_optimizer_options.use_gps and use_odom,
    loop_detector_setting.use_gps. *)
Record settings := mkSettings { imu_on : bool; isam_gps : bool; isam_odom : bool; loop_gps : bool }.
Inductive phase := Fresh | Running | Joined.

Section Api.
Variables T P V L : Type.
Variable act : T -> P -> P.              (* pcl::transformPointCloud *)
Variable rotate : T -> V -> V.           (* the rotation of an IMU message *)
Variable upright : T -> bool.            (* the CHECK in SetTrackingToImu *)
Variable level : V -> bool.              (* the CHECKs of ImuTracker on the first acceleration *)
Variable forward : L -> L -> vec3.

Record cloud := mkCloud { c_stamp : time; c_points : P }.
Record imu := mkImu { i_stamp : time; i_data : V }.
(** What IsamOptimizer keeps: its own copy of the options, isam_optimizer.h:131, and the transforms. *)
Record optimizer := mkOpt { o_gps : bool; o_odom : bool; o_loop_gps : bool; o_odom_tf : option T; o_gps_tf : option T }.
(** DataCollector: what it was given. *)
Record collector := mkCol { q_clouds : list cloud; q_imus : list imu; q_odoms : list V; q_gps : gps_state L }.
(** The extrapolator: mode and time of the last pose. *)
Record extrap := mkExt { x_imu : bool; x_last : option time }.
Record state := mkState {
  s_opts : settings; s_phase : phase; s_end : bool;
  s_imu : bool; s_odom : option bool; s_gps : bool;
  s_lidar_tf : option T; s_imu_tf : option T; s_odom_tf : option T; s_gps_tf : option T;
  s_ext : option extrap; s_opt : option optimizer; s_col : option collector }.

(** Default options: back_end/isam_optimizer.h:60-61, loop_detector_options.h:30; constructor,
    map_builder.cc:53-58. *)
Definition new_builder : state :=
  mkState (mkSettings true false false false) Fresh false false None false None None None None None None None.

Inductive op :=
| Initialise (c : settings)
| SetTrackingToLidar (t : T) | SetTrackingToImu (t : T) | SetTransformOdomToLidar (t : T) | SetTrackingToGps (t : T)
| EnableUsingOdom (b : bool) | EnableUsingGps (b : bool)
| InsertCloud (m : option cloud) | InsertImu (m : option imu)
| InsertOdom (m : option V) | InsertGps (m : option (navsat L))
| Finish
| AddPose (t : time).                    (* by the scan match thread *)
(** What the caller finds in its message afterwards. *)
Inductive reply := Nothing | CloudIs (m : cloud) | ImuIs (m : imu).

(** ** Setters *)
Definition set_phase s c p e i x o q :=
  mkState c p e i (s_odom s) (s_gps s) (s_lidar_tf s) (s_imu_tf s) (s_odom_tf s) (s_gps_tf s) x o q.
Definition set_flags s c o g :=
  mkState c (s_phase s) (s_end s) (s_imu s) o g (s_lidar_tf s) (s_imu_tf s) (s_odom_tf s) (s_gps_tf s)
          (s_ext s) (s_opt s) (s_col s).
Definition set_tf s l i o g :=
  mkState (s_opts s) (s_phase s) (s_end s) (s_imu s) (s_odom s) (s_gps s) l i o g (s_ext s) (s_opt s) (s_col s).
Definition set_data s x q :=
  mkState (s_opts s) (s_phase s) (s_end s) (s_imu s) (s_odom s) (s_gps s) (s_lidar_tf s) (s_imu_tf s) (s_odom_tf s)
          (s_gps_tf s) x (s_opt s) q.

(** InitialiseInside, map_builder.cc:62-112. *)
Definition initialise (s : state) (c : settings) : outcome state :=
  match s_phase s with
  | Fresh =>
      Ok (set_phase s c Running (s_end s) (imu_on c)
            (if imu_on c then s_ext s else Some (mkExt false None))
            (Some (mkOpt (isam_gps c) (isam_odom c) (loop_gps c) (s_odom_tf s) (s_gps_tf s)))
            (Some (mkCol [] [] [] gps_init)))
  | _ => UB
  end.

(** GetLastPoseTime, pose_extrapolator.cc:76-82. *)
Definition last_pose (x : extrap) : time := match x_last x with Some t => t | None => time_zero end.

(** data_collector_-> with a null unique_ptr. *)
Definition collect {A} (s : state) (k : collector -> outcome A) : outcome A :=
  match s_col s with None => UB | Some q => k q end.
Definition with_tf {A} (t : option T) (k : T -> outcome A) : outcome A :=
  match t with None => UB | Some t => k t end.
Definition deref {M A} (m : option M) (k : M -> outcome A) : outcome A :=
  match m with None => UB | Some m => k m end.

(** InsertPointcloudMsg, map_builder.cc:156-169. *)
Definition insert_cloud (s : state) (p : option cloud) : outcome (state * reply) :=
  if s_end s || (s_imu s && match s_ext s with None => true | _ => false end)
  then Ok (s, match p with Some m => CloudIs m | None => Nothing end)
  else deref p (fun m =>
    if match s_ext s with Some x => t_lt (c_stamp m) (last_pose x) | None => false end
    then Ok (s, CloudIs m)
    else with_tf (s_lidar_tf s) (fun t =>
      let m' := mkCloud (c_stamp m) (act t (c_points m)) in
      collect s (fun q =>
        Ok (set_data s (s_ext s) (Some (mkCol (q_clouds q ++ [m']) (q_imus q) (q_odoms q) (q_gps q))), CloudIs m')))).

(** InsertImuMsg, map_builder.cc:171-191. *)
Definition insert_imu (s : state) (p : option imu) : outcome (state * reply) :=
  if negb (s_imu s) || s_end s then Ok (s, match p with Some m => ImuIs m | None => Nothing end)
  else with_tf (s_imu_tf s) (fun t => deref p (fun m =>
    let m' := mkImu (i_stamp m) (rotate t (i_data m)) in
    collect s (fun q =>
      let q' := mkCol (q_clouds q) (q_imus q ++ [m']) (q_odoms q) (q_gps q) in
      match s_ext s with
      | None =>
          (* InitializeWithImu *)
          let* _ := check (level (i_data m')) in
          Ok (set_data s (Some (mkExt true (Some (i_stamp m')))) (Some q'), ImuIs m')
      | Some x =>
          (* AddImuData *)
          let* _ := check (negb (x_imu x) || match x_last x with Some t => t_ge (i_stamp m') t | None => true end) in
          Ok (set_data s (s_ext s) (Some q'), ImuIs m')
      end))).

(** InsertOdomMsg, map_builder.cc:193-203. *)
Definition insert_odom (s : state) (p : option V) : outcome state :=
  match s_odom s with
  | None => UB
  | Some b => if negb b || s_end s then Ok s else Abort
  end.

(** InsertGpsMsg, map_builder.cc:205-210. *)
Definition insert_gps (s : state) (p : option (navsat L)) : outcome state :=
  if negb (s_gps s) || s_end s then Ok s
  else deref p (fun m => collect s (fun q =>
    let* g := add_gps forward (q_gps q) m in
    Ok (set_data s (s_ext s) (Some (mkCol (q_clouds q) (q_imus q) (q_odoms q) g))))).

(** FinishAllComputations, map_builder.cc:715-746: join of a joined thread throws.  It waits for
    ConnectAllSubmap, which reads use_odom_ (569). *)
Definition finish (s : state) : outcome state :=
  match s_phase s with
  | Fresh => UB
  | Running => match s_odom s with
               | None => UB
               | Some _ => Ok (set_phase s (s_opts s) Joined true (s_imu s) (s_ext s) (s_opt s) (s_col s))
               end
  | Joined => Throw
  end.

(** EnableUsingOdom and EnableUsingGps, map_builder.cc:780-805. *)
Definition enable_odom (s : state) (b : bool) : state :=
  let c := s_opts s in
  set_flags s (if b then c else mkSettings (imu_on c) (isam_gps c) false (loop_gps c)) (Some b) (s_gps s).
Definition enable_gps (s : state) (b : bool) : state :=
  let c := s_opts s in
  set_flags s (if b then c else mkSettings (imu_on c) false (isam_odom c) false) (s_odom s) b.

(** ScanMatchProcessing adds a pose only if the extrapolator exists, map_builder.cc:290, 357. *)
Definition add_pose (s : state) (t : time) : state :=
  match s_phase s, s_ext s with
  | Running, Some x => set_data s (Some (mkExt (x_imu x) (Some t))) (s_col s)
  | _, _ => s
  end.

Definition silent (m : outcome state) : outcome (state * reply) := let* s := m in Ok (s, Nothing).
Definition call (s : state) (o : op) : outcome (state * reply) :=
  match o with
  | Initialise c => silent (initialise s c)
  | SetTrackingToLidar t => Ok (set_tf s (Some t) (s_imu_tf s) (s_odom_tf s) (s_gps_tf s), Nothing)
  | SetTrackingToImu t =>
      let* _ := check (upright t) in
      Ok (set_tf s (s_lidar_tf s) (Some t) (s_odom_tf s) (s_gps_tf s), Nothing)
  | SetTransformOdomToLidar t => Ok (set_tf s (s_lidar_tf s) (s_imu_tf s) (Some t) (s_gps_tf s), Nothing)
  | SetTrackingToGps t => Ok (set_tf s (s_lidar_tf s) (s_imu_tf s) (s_odom_tf s) (Some t), Nothing)
  | EnableUsingOdom b => Ok (enable_odom s b, Nothing)
  | EnableUsingGps b => Ok (enable_gps s b, Nothing)
  | InsertCloud m => insert_cloud s m
  | InsertImu m => insert_imu s m
  | InsertOdom m => silent (insert_odom s m)
  | InsertGps m => silent (insert_gps s m)
  | Finish => silent (finish s)
  | AddPose t => Ok (add_pose s t, Nothing)
  end.
Definition step (s : state) (o : op) : outcome state := let* x := call s o in Ok (fst x).
Definition after (h : list op) : outcome state := run step new_builder h.
End Api.
Arguments mkCloud {P}. Arguments c_stamp {P}. Arguments c_points {P}.
Arguments mkImu {V}. Arguments i_stamp {V}. Arguments i_data {V}.
Arguments o_gps {T}. Arguments o_odom {T}. Arguments o_loop_gps {T}. Arguments o_odom_tf {T}. Arguments o_gps_tf {T}.
Arguments mkOpt {T}.
Arguments mkCol {P V L}. Arguments q_clouds {P V L}. Arguments q_imus {P V L}. Arguments q_odoms {P V L}. Arguments q_gps {P V L}.
Arguments s_opts {T P V L}. Arguments s_phase {T P V L}. Arguments s_end {T P V L}. Arguments s_imu {T P V L}.
Arguments s_odom {T P V L}. Arguments s_gps {T P V L}. Arguments s_lidar_tf {T P V L}. Arguments s_imu_tf {T P V L}.
Arguments s_odom_tf {T P V L}. Arguments s_gps_tf {T P V L}. Arguments s_ext {T P V L}. Arguments s_opt {T P V L}.
Arguments s_col {T P V L}.
Arguments Initialise {T P V L}. Arguments SetTrackingToLidar {T P V L}. Arguments SetTrackingToImu {T P V L}.
Arguments SetTransformOdomToLidar {T P V L}. Arguments SetTrackingToGps {T P V L}.
Arguments EnableUsingOdom {T P V L}. Arguments EnableUsingGps {T P V L}.
Arguments InsertCloud {T P V L}. Arguments InsertImu {T P V L}. Arguments InsertOdom {T P V L}. Arguments InsertGps {T P V L}.
Arguments Finish {T P V L}. Arguments AddPose {T P V L}.
Arguments Nothing {P V}. Arguments CloudIs {P V}. Arguments ImuIs {P V}.
Arguments call {T P V L}. Arguments step {T P V L}. Arguments after {T P V L}.
