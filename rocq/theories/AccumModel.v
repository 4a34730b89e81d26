(** Model of the cloud insertion of builder/data/data_collector.h:160-211 and of the
    conversion builder/data/cloud_types.cc:257-269. *)
From Coq Require Import ZArith QArith List Bool.
From Verif Require Import Outcome TimeModel.
Import ListNotations.
Local Open Scope Z_scope.

Section Accum.

(** PCL point type (PointXYZ or PointXYZI) and the payload (x, y, z, intensity) of an
    InnerPointType; ToInnerPoint, cloud_types.h:79-90, as an arbitrary function. *)
Variable PclPoint Payload : Type.
Variable to_payload : PclPoint -> Payload.

(** pcl::PointCloud: header.stamp in microseconds and the points. *)
Record pcl_cloud := mkPcl { pc_stamp : Z; pc_points : list PclPoint }.

(** InnerPointType, cloud_types.h:45-55; the float [factor] is an exact rational. *)
Record ipoint := mkIP { ip_payload : Payload; ip_factor : Q }.

(** InnerCloudType, cloud_types.h:59-61. *)
Record icloud := mkIC { ic_stamp : time; ic_points : list ipoint }.

(** ToInnerPointCloud, cloud_types.cc:257-269 (never returns null). *)
Definition to_inner (c : pcl_cloud) : icloud :=
  mkIC (to_local_time (pc_stamp c)) (map (fun p => mkIP (to_payload p) 0) (pc_points c)).

(** InnerCloudType::operator+=, cloud_types.cc:249-254: appends the points and, contrary
    to the comment at data_collector.h:171-173, leaves the stamp alone. *)
Definition append (a b : icloud) : icloud :=
  mkIC (ic_stamp a) (ic_points a ++ ic_points b).

(** A default constructed InnerCloudType (cloud_types.h:59-61, simple_time.cc:27). *)
Definition empty_cloud : icloud := mkIC time_zero [].

(** The loop data_collector.h:201-203: point i gets factor i / size. *)
Fixpoint number_from (i : Z) (size : Z) (l : list ipoint) : list ipoint :=
  match l with
  | [] => []
  | p :: l' => mkIP (ip_payload p) (inject_Z i / inject_Z size)
               :: number_from (i + 1) size l'
  end.
Definition number (l : list ipoint) : list ipoint :=
  number_from 0 (Z.of_nat (length l)) l.

(** The members accumulated_point_cloud_, accumulated_cloud_count_ (unsigned, 32 bit),
    first_time_in_accmulated_cloud_ and cloud_data_before_preprocessing_,
    data_collector.h:128-155. *)
Record acc_state := mkAS {
  as_cloud : icloud;
  as_count : Z;
  as_first : time;
  as_queue : list icloud }.

(** Initial values, data_collector.cc:41, data_collector.h:151.  accumulated_point_cloud_
    is null at first; it is always assigned before it is read, so a dummy is used. *)
Definition acc_init : acc_state := mkAS empty_cloud 0 time_zero [].

(** AddSensorData<PointT>, data_collector.h:160-211, [n] = accumulate_cloud_num.  The
    argument is not null.  The comparison at h:188 converts the int [n] to unsigned. *)
Definition add_cloud (n : Z) (s : acc_state) (c : pcl_cloud) : acc_state :=
  let emit (acc : icloud) (first : time) :=
    mkAS acc 0 first (as_queue s ++ [mkIC first (number (ic_points acc))]) in
  if n >? 1 then
    let '(acc0, first) :=
      if as_count s =? 0 then (empty_cloud, to_local_time (pc_stamp c))
      else (as_cloud s, as_first s) in
    let acc := append acc0 (to_inner c) in
    let count := u32 (as_count s + 1) in
    if count <? u32 n then mkAS acc count first (as_queue s)
    else emit acc first
  else emit (to_inner c) (to_local_time (pc_stamp c)).

Definition insert_clouds (n : Z) (l : list pcl_cloud) : acc_state :=
  fold_left (add_cloud n) l acc_init.

End Accum.
Arguments mkPcl {PclPoint}. Arguments pc_stamp {PclPoint}. Arguments pc_points {PclPoint}.
Arguments mkIP {Payload}. Arguments ip_payload {Payload}. Arguments ip_factor {Payload}.
Arguments mkIC {Payload}. Arguments ic_stamp {Payload}. Arguments ic_points {Payload}.
Arguments mkAS {Payload}. Arguments as_cloud {Payload}. Arguments as_count {Payload}.
Arguments as_first {Payload}. Arguments as_queue {Payload}. Arguments acc_init {Payload}.
Arguments number {Payload}. Arguments number_from {Payload}.
Arguments empty_cloud {Payload}. Arguments append {Payload}.
Arguments to_inner {PclPoint Payload}.
Arguments add_cloud {PclPoint Payload}.
Arguments insert_clouds {PclPoint Payload}.
