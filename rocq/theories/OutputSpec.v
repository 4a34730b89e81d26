(** Specification vocabulary for the output phase (C125). *)
From Coq Require Import List Bool ZArith.
From Verif Require Import Pose ExportModel OutputModel.
Import ListNotations.
Local Open Scope pose_scope.

Section Spec.
Variable G : group.
Variable point enu odom : Type.
Variable act : G -> point -> point.
Notation submap := (submap G point enu odom).
Notation config := (config G enu odom).
Notation file := (OutputModel.file G point enu odom).

(** The transform between the coordinates of the map and those of the output: what the optimizer
    estimated if GPS is enabled both in the builder and in the optimizer and there is an
    estimate, no change otherwise. *)
Definition between (c : config) (g : G) : Prop :=
  (c_gps c = true /\ c_opt_gps c = true /\ c_coord c = Some g) \/
  (g = 1 /\ (c_gps c = false \/ c_opt_gps c = false \/ c_coord c = None)).

(** All frames of the trajectory, in order: submap pose, pose in the submap, cloud. *)
Definition all_frames (t : list submap) : list (G * G * list point) :=
  flat_map (fun s => map (fun f => (s_global s, f_local f, f_cloud f)) (s_frames s)) t.
(** Their poses in the coordinates of the output. *)
Definition poses (g : G) (t : list submap) : list G :=
  map (fun x => g * fst (fst x) * snd (fst x)) (all_frames t).
(** The points of all clouds in the coordinates of the output. *)
Definition all_points (g : G) (t : list submap) : list point :=
  flat_map (fun x => map (act (g * fst (fst x) * snd (fst x))) (snd x)) (all_frames t).

(** A file with all its contents moved by [g]. *)
Definition move_map (g : G) (f : ExportModel.file point) : ExportModel.file point :=
  match f with
  | PartMap k c => PartMap k (map (act g) c)
  | StaticPart k v => StaticPart k (map (map (act g)) v)
  | StaticMap v => StaticMap (map (map (act g)) v)
  | WholeMap c => WholeMap (map (act g) c)
  end.
Definition move_file (g : G) (f : file) : file :=
  match f with
  | PathCsv r => PathCsv (map (fun x => (fst x, g * snd x)) r)
  | PathPcd p => PathPcd (map (fun x => (g * fst x, snd x)) p)
  | KittiPose r => KittiPose (map (gmul g) r)
  | MapXml l => MapXml (map (fun e => mkE (e_id e) (e_file e) (g * e_pose e) (e_links e)) l)
  | Package l => Package (map (fun x => (g * fst x, map (act g) (snd x))) l)
  | Map m => Map (move_map g m)
  | EnuPcd p => EnuPcd p
  | OdomPcd p => OdomPcd p
  | RawGps p => RawGps p
  | RawOdom p => RawOdom p
  end.
(** The same settings with GPS switched off in the builder. *)
Definition without_gps (c : config) : config :=
  mkC (c_dir c) false (c_opt_gps c) (c_coord c) (c_kitti c) (c_pack c) (c_xml c) (c_maps c)
      (c_raw_gps c) (c_raw_odom c).
End Spec.
