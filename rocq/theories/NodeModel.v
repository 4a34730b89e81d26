(** Model of main of ros_node/static_mapping_node.cpp (92-456) with its callbacks (61-90), of
    LoopUpTransfrom (ros_node/tf_bridge.cc:43-77), of ReadStaticTransformsFromUrdf (ros_node/urdf_reader.cc:33-68)
    and of the time stamps of ros_node/msg_conversion.cc, on top of the calls of MapBuilder (ApiModel).

    Messages of any one topic arrive with the type the node subscribes to or with another type; the other
    fields of a message are copied one by one by msg_conversion.cc and are one value here.  The bag loop
    hands over the messages of the bag in their order (BagModel); the KITTI loop hands over the files
    (KittiModel); ros::spin hands over what arrives.  The messages, files and the poses of the scan match
    thread are one list of events.  The display functions and publishers are left out (DisplayModel), so
    is the profiler, the progress output and the sleep between messages. *)
From Coq Require Import String ZArith List Bool.
From Verif Require Import Outcome TimeModel GpsModel ApiModel.
Import ListNotations.
Local Open Scope string_scope.
Local Open Scope outcome_scope.

(** ** Arguments *)
(** pcl::console::parse_argument: the string after the first argument equal to the name; argv[0] is skipped. *)
Fixpoint find_value (l : list string) (name : string) : option string :=
  match l with
  | [] => None
  | x :: r => if String.eqb x name then match r with v :: _ => Some v | [] => None end else find_value r name
  end.
Definition argument (argv : list string) (name default : string) : string :=
  match find_value (tl argv) name with Some v => v | None => default end.
Record args := mkArgs {
  a_pc : string; a_pc_frame : string; a_imu : string; a_imu_frame : string; a_odom : string; a_odom_frame : string;
  a_gps : string; a_gps_frame : string; a_cfg : string; a_urdf : string; a_track : string; a_bag : string; a_kitti : string }.
(** static_mapping_node.cpp:106-194.  The frame of the IMU is looked for only with a topic; without one it is
    not used. *)
Definition parse (argv : list string) : args :=
  let get := argument argv in
  mkArgs (get "-pc" "") (get "-pc_frame_id" "base_link") (get "-imu" "") (get "-imu_frame_id" "/novatel_imu")
         (get "-odom" "") (get "-odom_frame_id" "") (get "-gps" "") (get "-gps_frame_id" "")
         (get "-cfg" "") (get "-urdf" "") (get "-track" "base_link") (get "-bag" "") (get "-kitti" "").
Definition empty (s : string) : bool := String.eqb s "".
Definition use_imu (a : args) : bool := negb (empty (a_imu a)).
Definition use_odom (a : args) : bool := negb (empty (a_odom a)) && negb (empty (a_odom_frame a)).
Definition use_gps (a : args) : bool := negb (empty (a_gps a)) && negb (empty (a_gps_frame a)).

(** ** Transforms *)
Section Node.
Variables T Pt V L G : Type.
Variable act : T -> list Pt -> list Pt.
Variable rotate : T -> V -> V.
Variable upright : T -> bool.
Variable level : V -> bool.
Variable forward : L -> L -> vec3.
Variable finite : Pt -> bool.            (* all coordinates of the point are finite *)
Notation op := (op T (list Pt) V L).
Notation state := (state T (list Pt) V L).
Notation step := (step act rotate upright level forward).

(** A link of the URDF: its name, its parent, the kind of joint between them and the origin of the joint. *)
Record link := mkLink { k_name : string; k_parent : option string; k_fixed : bool; k_origin : G }.
(** What surrounds the process. *)
Record world := mkWorld {
  w_exists : string -> bool;                                     (* boost::filesystem::exists *)
  w_wait : string -> string -> nat -> bool;                      (* the results of waitForTransform, one after another *)
  w_tf : string -> string -> T;                                  (* lookupTransform of the listener *)
  w_urdf : string -> option (list link);                         (* urdf::Model::initFile and getLinks *)
  w_static : list (string * string * G) -> string -> string -> option T;  (* canTransform and lookupTransform of a
                                                                    buffer that holds these transforms *)
  w_config : string -> outcome settings }.                       (* Initialise, see ConfigModel *)

(** urdf_reader.cc:44-66: parent, child, transform. *)
Definition static_transforms (l : list link) : list (string * string * G) :=
  flat_map (fun k => match k_parent k with
                     | Some p => if k_fixed k then [(p, k_name k, k_origin k)] else []
                     | None => []
                     end) l.
(** The loop, tf_bridge.cc:47-55; [n] is wait_count. *)
Fixpoint wait (f : nat -> bool) (i n : nat) : outcome unit :=
  if f i then Ok tt
  else match n with
       | O => Abort
       | S n' => match n' with O => Abort | _ => wait f (S i) n' end
       end.
(** static_mapping_node.cpp:318-356: the two ways to find a transform. *)
Definition finder (w : world) (a : args) : outcome (string -> string -> outcome T) :=
  if empty (a_urdf a)
  then Ok (fun target source => let* _ := wait (w_wait w target source) 0 30 in Ok (w_tf w target source))
  else match w_urdf w (a_urdf a) with
       | None => Abort
       | Some l => Ok (fun target source => match w_static w (static_transforms l) target source with
                                            | Some t => Ok t
                                            | None => Abort
                                            end)
       end.
(** static_mapping_node.cpp:321-355.  SetTrackingToOdom sets a member that is not read. *)
Definition set_transforms (w : world) (a : args) (s : state) : outcome state :=
  let* find := finder w a in
  let* t := find (a_track a) (a_pc_frame a) in
  let* s := step s (SetTrackingToLidar t) in
  let* s := if use_imu a
            then let* t := find (a_track a) (a_imu_frame a) in step s (SetTrackingToImu t)
            else Ok s in
  let* s := if use_odom a
            then let* t := find (a_odom_frame a) (a_pc_frame a) in
                 let* s := step s (SetTransformOdomToLidar t) in
                 let* _ := find (a_track a) (a_odom_frame a) in Ok s
            else Ok s in
  if use_gps a
  then let* t := find (a_track a) (a_gps_frame a) in step s (SetTrackingToGps t)
  else Ok s.

(** ** Messages *)
(** sensor_msgs::PointCloud2. *)
Record ros_cloud := mkRos { r_stamp : time; r_dense : bool; r_points : list Pt }.
Inductive body := BCloud (m : ros_cloud) | BImu (m : imu V) | BOdom (m : V) | BFix (m : navsat L) | BOther.
Inductive event :=
| Message (topic : string) (b : body)
| File (stamp : Z) (points : list Pt)      (* a file of the KITTI folder, read at this time in microseconds *)
| Pose (t : time).                         (* by the scan match thread *)
(** pointcloud_callback, static_mapping_node.cpp:61-70: pcl_conversions keeps microseconds;
    removeNaNFromPointCloud copies a cloud that says it is dense. *)
Definition cloud_of (m : ros_cloud) : cloud (list Pt) :=
  mkCloud (to_local_time (to_pcl_time (r_stamp m)))
          (if r_dense m then r_points m else List.filter finite (r_points m)).
(** The calls made for one event: 398-416 for a bag, the subscriptions 115-160 for ros::spin, and 433-451 for KITTI.
    [kitti]: the KITTI loop runs; no callback is called then. *)
Definition calls (a : args) (kitti : bool) (e : event) : list op :=
  match e with
  | Pose t => [AddPose t]
  | File us p => if kitti then [InsertCloud (Some (mkCloud (to_local_time us) p))] else []
  | Message topic b =>
      if kitti then []
      else match b with
           | BCloud m => if String.eqb topic (a_pc a) then [InsertCloud (Some (cloud_of m))] else []
           | BImu m => if String.eqb topic (a_imu a) && use_imu a then [InsertImu (Some m)] else []
           | BOdom m => if String.eqb topic (a_odom a) && use_odom a then [InsertOdom (Some m)] else []
           | BFix m => if String.eqb topic (a_gps a) && use_gps a then [InsertGps (Some m)] else []
           | BOther => []
           end
  end.

(** ** main *)
(** The exit code and the builder, if there is one. *)
Record result := mkExit { e_code : Z; e_builder : option state }.
Definition main (w : world) (argv : list string) (events : list event) : outcome result :=
  let a := parse argv in
  if empty (a_pc a) then Ok (mkExit (-1) None)
  else
    let* _ := check (negb (empty (a_track a))) in
    let bag := negb (empty (a_bag a)) && w_exists w (a_bag a) in
    let kitti := negb (empty (a_kitti a)) && w_exists w (a_kitti a) in
    if kitti && bag then Ok (mkExit (-1) None)
    else
      let* s := set_transforms w a (new_builder T (list Pt) V L) in
      if empty (a_cfg a) then UB                        (* Initialise(NULL), map_builder_options.cc:77 *)
      else
        let* c := w_config w (a_cfg a) in
        let* s := step s (Initialise c) in
        if imu_on c && negb (use_imu a)
        then let* s := step s Finish in Ok (mkExit 0 (Some s))
        else
          let* s := step s (EnableUsingOdom (use_odom a)) in
          let* s := step s (EnableUsingGps (use_gps a)) in
          let* s := run step s (flat_map (calls a kitti) events) in
          let* s := step s Finish in Ok (mkExit 0 (Some s)).
End Node.
Arguments mkLink {G}. Arguments k_name {G}. Arguments k_parent {G}. Arguments k_fixed {G}. Arguments k_origin {G}.
Arguments mkWorld {T G}. Arguments w_exists {T G}. Arguments w_wait {T G}. Arguments w_tf {T G}. Arguments w_urdf {T G}.
Arguments w_static {T G}. Arguments w_config {T G}. Arguments static_transforms {G}.
Arguments finder {T G}. Arguments mkRos {Pt}. Arguments r_stamp {Pt}. Arguments r_dense {Pt}. Arguments r_points {Pt}.
Arguments BCloud {Pt V L}. Arguments BImu {Pt V L}. Arguments BOdom {Pt V L}. Arguments BFix {Pt V L}. Arguments BOther {Pt V L}.
Arguments Message {Pt V L}. Arguments File {Pt V L}. Arguments Pose {Pt V L}.
Arguments mkExit {T Pt V L}. Arguments e_code {T Pt V L}. Arguments e_builder {T Pt V L}.
Arguments cloud_of {Pt}. Arguments calls {T Pt V L}. Arguments set_transforms {T Pt V L G}. Arguments main {T Pt V L G}.
