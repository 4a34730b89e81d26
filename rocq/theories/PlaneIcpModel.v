(** Model of the geometry of one ICP call: the point to plane step and the frames of Align,
    registrators/icp_fast.cc.

    Exact real arithmetic, so no NaN: the repair of a NaN result (icp_fast.cc:315-321) does nothing.  Which
    matches are kept, when the loop ends and which calls abort is the subject of IcpModel.v; here both are
    arbitrary.  ComputePointToPoint is in KabschModel.v. *)
From Coq Require Import Reals List.
From Verif Require Import RigidModel.
Import ListNotations.
Local Open Scope R_scope.

(** One column of ErrorElements, icp_fast.cc:100-165: a point of the moved source cloud with its factor,
    its closest target point with normal, its weight and the squared distance of the two. *)
Record pair := mkPair { reading : vec; reference : vec; normal : vec; weight : R; factor : R; sqdist : R }.
Definition rsum (l : list R) : R := fold_right Rplus 0 l.

(** CrossProduct, icp_fast.cc:182-202, for one column. *)
Definition cross_product (a b : vec) : vec :=
  mkV (vy a * vz b - vz a * vy b) (vz a * vx b - vx a * vz b) (vx a * vy b - vy a * vx b).
(** A column of F, icp_fast.cc:267-289: cross product and normal, times the factor with [comp]. *)
Definition entry (u v : vec) (k : nat) : R :=
  match k with 0 => vx u | 1 => vy u | 2 => vz u | 3 => vx v | 4 => vy v | _ => vz v end%nat.
Definition col (comp : bool) (m : pair) (k : nat) : R :=
  let f := entry (cross_product (reading m) (normal m)) (normal m) k in
  if comp then f * factor m else f.
(** A column of wF, icp_fast.cc:275-289. *)
Definition wcol (comp : bool) (m : pair) (k : nat) : R :=
  let f := weight m * entry (cross_product (reading m) (normal m)) (normal m) k in
  if comp then f * factor m else f.
(** A = wF * F', icp_fast.cc:292. *)
Definition mat_a (comp : bool) (ms : list pair) (r c : nat) : R :=
  rsum (map (fun m => wcol comp m r * col comp m c) ms).
(** dotProd and b = -(wF * dot'), icp_fast.cc:293-302. *)
Definition dot_prod (m : pair) : R :=
  let d := vsub (reading m) (reference m) in
  vx d * vx (normal m) + vy d * vy (normal m) + vz d * vz (normal m).
Definition rhs (comp : bool) (ms : list pair) (r : nat) : R :=
  - rsum (map (fun m => wcol comp m r * dot_prod m) ms).

(** Eigen::MatrixBase::normalized: the zero vector is left as it is. *)
Definition unit_of (w : vec) : vec := if Rlt_dec 0 (dot w w) then vscale (/ sqrt (dot w w)) w else w.
(** Eigen::AngleAxis::toRotationMatrix. *)
Definition axis_matrix (angle : R) (u : vec) : mat :=
  let s := vscale (sin angle) u in
  let c := cos angle in
  let d := vscale (1 - c) u in
  mkM (vx d * vx u + c) (vx d * vy u - vz s) (vx d * vz u + vy s)
      (vx d * vy u + vz s) (vy d * vy u + c) (vy d * vz u - vx s)
      (vx d * vz u - vy s) (vy d * vz u + vx s) (vz d * vz u + c).
(** The transform of a solution x, icp_fast.cc:306-323. *)
Definition motion (x : nat -> R) : transform :=
  let w := mkV (x 0%nat) (x 1%nat) (x 2%nat) in
  mkT (axis_matrix (sqrt (dot w w)) (unit_of w)) (mkV (x 3%nat) (x 4%nat) (x 5%nat)).
(** ComputePointToPlane, icp_fast.cc:256-324.  [solve]: SolvePossiblyUnderdeterminedLinearSystem, 204-254. *)
Definition point_to_plane (solve : (nat -> nat -> R) -> (nat -> R) -> nat -> R) (comp : bool) (ms : list pair) : transform :=
  motion (solve (mat_a comp ms) (rhs comp ms)).

(** Product of two transforms. *)
Definition compose (a b : transform) : transform :=
  let m := t_rot a in let n := t_rot b in
  mkT (mkM (m00 m * m00 n + m01 m * m10 n + m02 m * m20 n) (m00 m * m01 n + m01 m * m11 n + m02 m * m21 n)
           (m00 m * m02 n + m01 m * m12 n + m02 m * m22 n)
           (m10 m * m00 n + m11 m * m10 n + m12 m * m20 n) (m10 m * m01 n + m11 m * m11 n + m12 m * m21 n)
           (m10 m * m02 n + m11 m * m12 n + m12 m * m22 n)
           (m20 m * m00 n + m21 m * m10 n + m22 m * m20 n) (m20 m * m01 n + m21 m * m11 n + m22 m * m21 n)
           (m20 m * m02 n + m21 m * m12 n + m22 m * m22 n))
      (vadd (mvec m (t_pos b)) (t_pos a)).
(** rowwise().sum() / count, icp_fast.cc:457-459. *)
Definition mean_of (l : list vec) : vec :=
  vscale (/ INR (length l)) (fold_right vadd zero_vec l).
(** The loop, icp_fast.cc:482-524, for [n] more iterations.  [matched]: the kept matches of a moved source cloud
    and the shifted target (without inner compensation).  The score is the one of the last iteration. *)
Section Align.
  Variable solve : (nat -> nat -> R) -> (nat -> R) -> nat -> R.
  Variable matched : list vec -> list vec -> list pair.
  Definition score (ms : list pair) : R := exp (- (rsum (map (fun m => sqrt (sqdist m)) ms) / INR (length ms))).
  Fixpoint loop (n : nat) (source target : list vec) (T : transform) (s : R) : transform * R :=
    match n with
    | O => (T, s)
    | S k =>
        let ms := matched (map (apply T) source) target in
        loop k source target (compose (point_to_plane solve false ms) T) (score ms)
    end.
  (** Align, icp_fast.cc:455-529, with [n] iterations.  Result: transform, final_score_ and the target cloud
      that is left. *)
  Definition align (n : nat) (source target : list vec) (guess : transform) (s : R) : (transform * R) * list vec :=
    let mean := mean_of target in
    let t_mean := mkT ident mean in
    let target' := map (fun q => vsub q mean) target in
    let init := compose (mkT ident (vscale (-1) mean)) guess in
    let '(T, s') := loop n (map (apply init) source) target' identity s in
    ((compose (compose t_mean T) init, s'), map (fun q => vadd q mean) target').
End Align.
