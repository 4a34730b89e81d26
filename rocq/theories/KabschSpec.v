(** Least squares, independent of how the minimum is found. *)
From Coq Require Import Reals List.
From Verif Require Import RigidModel RigidSpec PlaneIcpModel.
Import ListNotations.
Local Open Scope R_scope.

(** Weighted sum of the squared distances between the moved source points and the target points. *)
Fixpoint misfit (T : transform) (source target : list vec) (ws : list R) : R :=
  match source, target, ws with
  | p :: source, q :: target, w :: ws =>
      w * dot (vsub (apply T p) q) (vsub (apply T p) q) + misfit T source target ws
  | _, _, _ => 0
  end.
(** Weighted sum of points. *)
Fixpoint weighted_sum (ws : list R) (pts : list vec) : vec :=
  match ws, pts with
  | w :: ws, p :: pts => vadd (vscale w p) (weighted_sum ws pts)
  | _, _ => zero_vec
  end.

(** What a singular value decomposition of a 3 x 3 matrix is: [m] = [u] diag([s]) [v]^T. *)
Definition orthonormal (m : mat) : Prop := mmul (mtrans m) m = ident.
Definition diag (s : vec) : mat := mkM (vx s) 0 0 0 (vy s) 0 0 0 (vz s).
Definition is_svd (m : mat) (d : mat * vec * mat) : Prop :=
  let '(u, s, v) := d in
  orthonormal u /\ orthonormal v /\ 0 <= vz s <= vy s /\ vy s <= vx s /\ m = mmul u (mmul (diag s) (mtrans v)).
(** Sum over the points of (target - mean of target) (source - mean of source)^T with weights. *)
Fixpoint covariance (a b : vec) (ws : list R) (target source : list vec) : mat :=
  match ws, target, source with
  | w :: ws, q :: target, p :: source =>
      let q' := vsub q a in let p' := vsub p b in
      let c := covariance a b ws target source in
      mkM (w * vx q' * vx p' + m00 c) (w * vx q' * vy p' + m01 c) (w * vx q' * vz p' + m02 c)
          (w * vy q' * vx p' + m10 c) (w * vy q' * vy p' + m11 c) (w * vy q' * vz p' + m12 c)
          (w * vz q' * vx p' + m20 c) (w * vz q' * vy p' + m21 c) (w * vz q' * vz p' + m22 c)
  | _, _, _ => mkM 0 0 0 0 0 0 0 0 0
  end.

(** Sum of the squared distances of points from the plane through [a] with unit normal [n]. *)
Definition plane_misfit (a n : vec) (pts : list vec) : R := rsum (map (fun p => Rsqr (dot (vsub p a) n)) pts).
(** [u] holds the left singular vectors of the matrix with columns [cols]: there are singular values [s] and rows
    [vs] of the right matrix, whose columns are orthonormal, or 0 if there are fewer points than columns. *)
Definition sum_of (f : vec -> R) (l : list vec) : R := rsum (map f l).
Definition is_left (cols : list vec) (u : mat) : Prop :=
  orthonormal u /\
  exists (s : vec) (vs : list vec), 0 <= vz s <= vy s /\ vy s <= vx s /\
    cols = map (fun v => mvec u (mkV (vx s * vx v) (vy s * vy v) (vz s * vz v))) vs /\
    sum_of (fun v => vx v * vy v) vs = 0 /\ sum_of (fun v => vx v * vz v) vs = 0 /\ sum_of (fun v => vy v * vz v) vs = 0 /\
    (sum_of (fun v => vx v * vx v) vs = 1 \/ vx s = 0) /\
    (sum_of (fun v => vy v * vy v) vs = 1 \/ vy s = 0) /\
    (sum_of (fun v => vz v * vz v) vs = 1 \/ vz s = 0).
