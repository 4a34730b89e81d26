(** Model of the last part of MapBuilder::ConnectAllSubmap, builder/map_builder.cc:594-615, with
    CalculateCoordTransformToGps (748-762), OutputPath (617-642), GenerateMapPackage (807-814),
    the hand-over to SaveMapPackage (816-823) and SaveMaps (825-912, modelled in ExportModel.v),
    Trajectory::OutputPathToPointcloud (builder/trajectory.cc:73-143), Trajectory::ToXmlNode
    (32-58) and DataCollector::RawGpsDataToFile / RawOdomDataToFile
    (builder/data/data_collector.cc:59-71).

    Poses are elements of a group which acts on points; rounding and the printing of a pose
    (six numbers in path.csv and map.xml, twelve in kitti_pose.txt, three floats in path.pcd) are
    not modelled, so a file holds the poses themselves.  There is one trajectory
    (trajectories_ gets one element, map_builder.cc:214). *)
From Coq Require Import List Bool ZArith String.
From Verif Require Import Outcome TimeModel Pose FilterModel ConfigModel ExportModel.
Import ListNotations.
Local Open Scope outcome_scope.
Local Open Scope Z_scope.

(** The directory export_file_path: PCL throws an IOException if it cannot open a file, an
    ofstream is then not open. *)
Inductive dir := Missing | Unwritable | Writable.
Definition opens (d : dir) : bool := match d with Writable => true | _ => false end.

Section Output.
Variable G : group.
Variable point : Type.
Variable act : G -> point -> point.     (* ApplyTransformToOutput, per point *)
Variables enu odom : Type.              (* EnuPosition, OdomPose *)
Notation cloud := (list point).

(** The parts of Frame and Submap that are used, builder/frame_base.h, builder/submap.h. *)
Record frame := mkF { f_local : G; f_global : G; f_cloud : cloud }.
Record submap := mkS {
  s_index : Z; s_global : G; s_enu : option enu; s_odom : option odom;
  s_file : string; s_links : list (Z * Z); s_cloud : cloud; s_frames : list frame }.

(** Submap::UpdateInnerFramePose and SetGlobalPose, submap.cc:268-274. *)
Definition update_frames (s : submap) : submap :=
  mkS (s_index s) (s_global s) (s_enu s) (s_odom s) (s_file s) (s_links s) (s_cloud s)
      (map (fun f => mkF (f_local f) (gmul (s_global s) (f_local f)) (f_cloud f)) (s_frames s)).
Definition set_global (g : G) (s : submap) : submap :=
  mkS (s_index s) g (s_enu s) (s_odom s) (s_file s) (s_links s) (s_cloud s) (s_frames s).

(** What the phase depends on: export_file_path, use_gps_, the optimizer's use_gps and its
    estimate for GPS_COORD_KEY (None: no such key), output_kitti_pose, map_package_options.enable,
    whether map.xml can be opened, the other whole_options and the recorded raw GPS and odom
    positions. *)
Record config := mkC {
  c_dir : dir; c_gps : bool; c_opt_gps : bool; c_coord : option G; c_kitti : bool;
  c_pack : bool; c_xml : bool; c_maps : wopts; c_raw_gps : list enu; c_raw_odom : list odom }.

(** IsamOptimizer::GetGpsCoordTransform, back_end/isam_optimizer.cc:370-382. *)
Definition coord_transform (c : config) : G :=
  if c_opt_gps c then match c_coord c with Some g => g | None => gone end else gone.
(** CalculateCoordTransformToGps, map_builder.cc:748-762. *)
Definition to_gps (c : config) (t : list submap) : list submap :=
  if negb (c_gps c) then t
  else map (fun s => update_frames (set_global (gmul (coord_transform c) (s_global s)) s)) t.

(** One <Submap> of map.xml: id, file, pose, connections. *)
Record entry := mkE { e_id : Z; e_file : string; e_pose : G; e_links : list (Z * Z) }.
Inductive file :=
| PathCsv (rows : list (Z * G))       (* path.csv: index and pose *)
| PathPcd (points : list (G * fl))    (* path.pcd: position and intensity *)
| EnuPcd (points : list enu)          (* enu_path.pcd *)
| OdomPcd (points : list odom)        (* odom_path.pcd *)
| RawGps (points : list enu)          (* original_gps.pcd *)
| RawOdom (points : list odom)        (* original_odom.pcd *)
| KittiPose (rows : list G)           (* kitti_pose.txt *)
| MapXml (entries : list entry)       (* map.xml *)
| Package (input : list (G * cloud))  (* what SaveTrajectoriesAsMapPackage is given: the pose of
                                         each submap and its cloud moved there,
                                         map_package.cc:153-159; PackModel.v has the rest *)
| Map (f : ExportModel.file point).   (* the files of SaveMaps *)

(** pcl::io::savePCDFileBinaryCompressed of a cloud, called if it is not empty. *)
Definition save {A} (d : dir) (l : list A) (f : list A -> file) : outcome (list file) :=
  match l with [] => Ok [] | _ => if opens d then Ok [f l] else Throw end.

(** trajectory.cc:108-129: one frame after the other; path_point_index is an int. *)
Fixpoint frame_loop (k : Z) (fs : list frame) : outcome (Z * list (Z * G)) :=
  match fs with
  | [] => Ok (k, [])
  | f :: r => let* k' := i32 (k + 1) in
              let* x := frame_loop k' r in
              Ok (fst x, (k, f_global f) :: snd x)
  end.
(** trajectory.cc:85-130, the map path. *)
Fixpoint submap_loop (k : Z) (t : list submap) : outcome (Z * list (Z * G)) :=
  match t with
  | [] => Ok (k, [])
  | s :: r => let* x := frame_loop k (s_frames s) in
              let* y := submap_loop (fst x) r in
              Ok (fst y, snd x ++ snd y)
  end.
Definition somes {A B} (f : A -> option B) (l : list A) : list B :=
  flat_map (fun a => match f a with Some b => [b] | None => [] end) l.
(** OutputPathToPointcloud, trajectory.cc:73-143. *)
Definition output_path (d : dir) (t : list submap) : outcome (list file) :=
  match d with
  | Missing => Ok []
  | _ =>
      let* x := submap_loop 0 t in
      let* a := save d (map (fun r => (snd r, int_to_float (fst r))) (snd x)) PathPcd in
      let* b := save d (somes s_enu t) EnuPcd in
      let* e := save d (somes s_odom t) OdomPcd in
      Ok (a ++ b ++ e ++ (if opens d then [PathCsv (snd x)] else []))
  end.

(** ToXmlNode, trajectory.cc:32-58. *)
Definition to_entry (s : submap) : entry := mkE (s_index s) (s_file s) (s_global s) (s_links s).

(** OutputPath, map_builder.cc:617-642. *)
Definition output_paths (c : config) (t : list submap) : outcome (list file) :=
  let* a := output_path (c_dir c) t in
  let* b := save (c_dir c) (c_raw_gps c) RawGps in
  let* e := save (c_dir c) (c_raw_odom c) RawOdom in
  Ok (a ++ b ++ e ++ (if c_kitti c && opens (c_dir c) then [KittiPose (map s_global t)] else [])).

(** The clouds SaveMaps puts together, map_builder.cc:841-857: every frame at its global pose. *)
Definition frame_clouds (t : list submap) : list (list cloud) :=
  map (fun s => map (fun f => map (act (f_global f)) (f_cloud f)) (s_frames s)) t.

(** A static map is not written if the voxel map has nothing to show,
    multi_resolution_voxel_map.cc:217-228; when that is so is left open. *)
Variable shows : list cloud -> bool.
Definition written (f : ExportModel.file point) : bool :=
  match f with StaticMap v => shows v | StaticPart _ v => shows v | _ => true end.
Definition output_maps (c : config) (t : list submap) : outcome (list file) :=
  let* l := save_maps point (c_maps c) (frame_clouds t) in
  if opens (c_dir c) || negb (existsb written l) then Ok (map Map l) else Throw.

(** map_builder.cc:594-612.  The result of SaveTrajectoriesAsMapPackage is ignored there and
    PackModel.v says what it writes. *)
Definition output (c : config) (t0 : list submap) : outcome (list file) :=
  let t := to_gps c (map update_frames t0) in
  let* a := output_paths c t in
  let b := if c_xml c then [MapXml (map to_entry t)] else [] in
  let e := if c_pack c then [Package (map (fun s => (s_global s, map (act (s_global s)) (s_cloud s))) t)] else [] in
  let* m := output_maps c t in
  Ok (a ++ b ++ e ++ m).
End Output.
Arguments mkF {G point}. Arguments mkS {G point enu odom}. Arguments mkC {G enu odom}. Arguments mkE {G}.
Arguments f_local {G point}. Arguments f_global {G point}. Arguments f_cloud {G point}.
Arguments s_index {G point enu odom}. Arguments s_global {G point enu odom}. Arguments s_enu {G point enu odom}.
Arguments s_odom {G point enu odom}. Arguments s_file {G point enu odom}. Arguments s_links {G point enu odom}.
Arguments s_cloud {G point enu odom}. Arguments s_frames {G point enu odom}.
Arguments c_dir {G enu odom}. Arguments c_gps {G enu odom}. Arguments c_opt_gps {G enu odom}. Arguments c_coord {G enu odom}.
Arguments c_kitti {G enu odom}. Arguments c_pack {G enu odom}. Arguments c_xml {G enu odom}. Arguments c_maps {G enu odom}.
Arguments c_raw_gps {G enu odom}. Arguments c_raw_odom {G enu odom}.
Arguments e_id {G}. Arguments e_file {G}. Arguments e_pose {G}. Arguments e_links {G}.
Arguments PathCsv {G point enu odom}. Arguments PathPcd {G point enu odom}. Arguments EnuPcd {G point enu odom}.
Arguments OdomPcd {G point enu odom}. Arguments RawGps {G point enu odom}. Arguments RawOdom {G point enu odom}.
Arguments KittiPose {G point enu odom}. Arguments MapXml {G point enu odom}. Arguments Package {G point enu odom}.
Arguments Map {G point enu odom}.
