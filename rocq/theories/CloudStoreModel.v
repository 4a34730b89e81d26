(** Model of InnerPointCloudData, builder/data/cloud_types.cc:370-462: the cloud of a
    frame or submap with its eviction to disk.  One thread (the class is internally
    locked); the disk is a map from file names to contents, shared with other objects.

    EigenPointCloud is reduced to the numbers of columns of its point and normal
    matrices. *)
From Coq Require Import List Bool ZArith.
From Verif Require Import Outcome CloudFileModel.
Import ListNotations.
Local Open Scope outcome_scope.

Section Store.
Variable name : Type.
Variable name_eqb : name -> name -> bool.
(** Transformations and their action on a point (TransformPoint, cloud_types.cc:167-178;
    float arithmetic, left abstract). *)
Variable motion : Type.
Variable move : motion -> point -> point.
(** Largest allocatable vector. *)
Variable limit : Z.
(** stamp of a default-constructed SimpleTime. *)
Variable stamp0 : stamp.

Record eigen := mkEigen { e_cols : nat; e_normals : nat }.

Record store := mkStore {
  inner : cloud;                  (* *inner_cloud_, never null after construction *)
  eig : eigen;                    (* *eigen_cloud_ *)
  time_ : stamp;
  filename : option name;         (* filename_; None = the empty string *)
  in_memory : bool }.             (* is_cloud_in_memory_ *)

Definition disk := name -> option (list Z).
Definition write (d : disk) (f : name) (bytes : list Z) : disk :=
  fun g => if name_eqb g f then Some bytes else d g.

(** SetInnerCloudImpl, cc:418-426, with EigenPointCloud(points), cc:323-345, which CHECKs
    that there are points. *)
Definition set_inner (s : store) (c : cloud) : outcome store :=
  let* _ := check (negb (Nat.eqb (length (c_points c)) 0)) in
  Ok (mkStore c (mkEigen (length (c_points c)) 0) (c_stamp c) (filename s) true).

(** InnerPointCloudData(cloud), cc:370-372. *)
Definition make (c : cloud) : outcome store :=
  set_inner (mkStore c (mkEigen 0 0) stamp0 None false) c.

(** Clear, cc:383-393. *)
Definition clear (s : store) : store :=
  if negb (in_memory s) then s
  else mkStore (mkCloud stamp0 []) (mkEigen 0 0) (time_ s) (filename s) false.

(** EmptyImpl, cc:379-381. *)
Definition is_empty (s : store) : bool := Nat.eqb (length (c_points (inner s))) 0.

(** EigenPointCloud::ApplyTransform, cc:288-302: only its CHECKs. *)
Definition eigen_transform (e : eigen) : outcome eigen :=
  let* _ := check (Nat.ltb 0 (e_cols e)) in
  let* _ := (if Nat.ltb 0 (e_normals e) then check (Nat.eqb (e_normals e) (e_cols e)) else Ok tt) in
  Ok e.

(** TransformCloud, cc:395-404. *)
Definition transform (s : store) (T : motion) : outcome store :=
  let inner' := if is_empty s then inner s
                else mkCloud (c_stamp (inner s)) (map (move T) (c_points (inner s))) in
  let* e := eigen_transform (eig s) in
  Ok (mkStore inner' e (time_ s) (filename s) (in_memory s)).

(** CalculateNormals, cc:406-410: [kept] columns remain in both matrices
    (cc:347-368; how many depends on the geometry, see the Normals model). *)
Definition calculate_normals (s : store) (kept : nat) : store :=
  mkStore (inner s) (mkEigen kept kept) (time_ s) (filename s) (in_memory s).

(** SaveToFile, cc:428-439 (the file name is not empty and the file can be created). *)
Definition save (s : store) (d : disk) (f : name) : outcome (store * disk) :=
  let* _ := check (negb (is_empty s)) in
  Ok (mkStore (inner s) (eig s) (time_ s) (Some f) (in_memory s),
      write d f (serialize (inner s))).

(** CloudInMemory, cc:441-457; the return value of Deserialize is ignored. *)
Definition cloud_in_memory (s : store) (d : disk) : outcome store :=
  if in_memory s then Ok s else
  match filename s with
  | None => Abort
  | Some f =>
      match d f with
      | None => Abort
      | Some bytes =>
          let* r := deserialize limit (mkCloud stamp0 []) bytes in
          set_inner s (snd r)
      end
  end.

(** The calls on one object, interleaved with other objects writing other files. *)
Inductive op :=
| OSave (f : name)
| OClear
| OTransform (T : motion)
| ONormals (kept : nat)
| ORead                               (* CloudInMemory, then the getters *)
| OForeign (f : name) (bytes : list Z).

Definition exec (sd : store * disk) (o : op) : outcome (store * disk) :=
  let '(s, d) := sd in
  match o with
  | OSave f => save s d f
  | OClear => Ok (clear s, d)
  | OTransform T => let* s' := transform s T in Ok (s', d)
  | ONormals k => Ok (calculate_normals s k, d)
  | ORead => let* s' := cloud_in_memory s d in Ok (s', d)
  | OForeign f b => Ok (s, write d f b)
  end.

(** registrators/icp_fast.cc:427-431: SetInputTarget CHECKs HasNormals
    (cloud_types.cc:304). *)
Definition icp_set_target (s : store) : outcome unit := check (Nat.ltb 0 (e_normals (eig s))).
End Store.
Arguments inner {name}. Arguments eig {name}. Arguments time_ {name}.
Arguments filename {name}. Arguments in_memory {name}. Arguments mkStore {name}.
Arguments make {name}. Arguments clear {name}. Arguments is_empty {name}.
Arguments transform {name motion}. Arguments calculate_normals {name}.
Arguments save {name}. Arguments cloud_in_memory {name}. Arguments set_inner {name}.
Arguments OSave {name motion}. Arguments OClear {name motion}. Arguments OTransform {name motion}.
Arguments ONormals {name motion}. Arguments ORead {name motion}. Arguments OForeign {name motion}.
Arguments exec {name} name_eqb {motion}. Arguments icp_set_target {name}.
Arguments write {name}.
