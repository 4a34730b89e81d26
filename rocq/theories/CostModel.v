(** Model of builder/cost_functions/gps_map_match.h and odom_map_match.h: the residuals that match GPS positions and
    odometry with the path of a map.  Only files under deprecated/ use them.

    Numbers are reals without rounding.  Of Ceres only the residual is modelled, not its derivatives; the Create
    functions just wrap the objects.  A pose is a matrix with the last row 0 0 0 1. *)
From Coq Require Import Reals.
From Verif Require Import RigidModel OdomMsgModel.
Local Open Scope R_scope.

(** A vector of the plane, and r * enu + t, gps_map_match.h:44-50 and 79-84. *)
Definition vec2 : Type := (R * R)%type.
Definition in_map (enu t : vec2) (theta : R) : vec2 :=
  (cos theta * fst enu + - sin theta * snd enu + fst t, sin theta * fst enu + cos theta * snd enu + snd t).
(** GpsEnuToMapPath, gps_map_match.h:41-56. *)
Definition gps_path (map enu t : vec2) (theta : R) : R :=
  let p := in_map enu t theta in sqrt ((fst p - fst map) ^ 2 + (snd p - snd map) ^ 2).
(** Eigen's normalized(): a vector of length zero stays as it is. *)
Definition unit2 (n : vec2) : vec2 :=
  let z := fst n * fst n + snd n * snd n in
  if Rlt_dec 0 z then (fst n / sqrt z, snd n / sqrt z) else n.
(** GpsEnuToMapPathNormal, gps_map_match.h:76-91: the product is with normal_ as given. *)
Definition gps_normal (map enu normal t : vec2) (theta : R) : R :=
  let p := in_map enu t theta in
  let a := (fst p - fst map, snd p - snd map) in
  let dot := fst a * fst normal + snd a * snd normal in
  let n := unit2 normal in
  let e := (fst a - fst n * dot, snd a - snd n * dot) in
  sqrt (fst e * fst e + snd e * snd e).

Definition unit3 (d : vec) : vec :=
  let z := dot d d in
  if Rlt_dec 0 z then mkV (vx d / sqrt z) (vy d / sqrt z) (vz d / sqrt z) else d.
(** The last lines of both, gps_map_match.h:125-131 and odom_map_match.h:59-65. *)
Definition beside (direction a : vec) : R :=
  let d := unit3 direction in
  let e := vsub a (vscale (dot a d) d) in
  sqrt (dot e e).
(** GpsEnuToMap3D, gps_map_match.h:113-133. *)
Definition gps_3d (map enu direction t r : vec) : R :=
  beside direction (vsub (vadd (mvec (eulers_to_matrix r) enu) t) map).
(** OdomToMapPath, odom_map_match.h:42-67. *)
Definition odom_path (map : vec) (odom_pose : transform) (direction t r : vec) : R :=
  let tf := mkT (eulers_to_matrix r) t in
  beside direction (vsub (t_pos (compose (compose (inverse tf) odom_pose) tf)) map).
