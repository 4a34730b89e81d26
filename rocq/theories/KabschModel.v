(** Model of ComputePointToPoint (registrators/icp_fast.cc:326-375) and PlaneFitting (common/math.cc:201-238)
    over the real numbers: rounding, infinities and NaN are not modelled, float and double are the same.  Neither
    has a caller in the repository.  Singular value decompositions (Eigen::JacobiSVD) are a parameter. *)
From Coq Require Import Reals List Lra Arith Bool.
From Verif Require Import Outcome RigidModel PlaneIcpModel.
Import ListNotations.
Local Open Scope R_scope.

(** w.sum(), icp_fast.cc:337. *)
Definition weight_sum (ws : list R) : R := fold_right Rplus 0 ws.
(** Mean of the columns of a cloud with weights, icp_fast.cc:338-347.  A weight sum of 0 gives NaN in the code. *)
Definition weighted_mean (ws : list R) (pts : list vec) : vec :=
  vscale (/ weight_sum ws) (fold_right (fun wp s => vadd (vscale (fst wp) (snd wp)) s) zero_vec (combine ws pts)).
(** points.colwise() -= mean, icp_fast.cc:350-351. *)
Definition without (mean : vec) (pts : list vec) : list vec := map (fun p => vsub p mean) pts.
(** target * diag(w) * source^T, icp_fast.cc:354-355: a sum over the columns of products of a target and a source
    coordinate. *)
Definition outer (w : R) (q p : vec) : mat :=
  mkM (vx q * w * vx p) (vx q * w * vy p) (vx q * w * vz p)
      (vy q * w * vx p) (vy q * w * vy p) (vy q * w * vz p)
      (vz q * w * vx p) (vz q * w * vy p) (vz q * w * vz p).
Definition madd (a b : mat) : mat :=
  mkM (m00 a + m00 b) (m01 a + m01 b) (m02 a + m02 b) (m10 a + m10 b) (m11 a + m11 b) (m12 a + m12 b)
      (m20 a + m20 b) (m21 a + m21 b) (m22 a + m22 b).
Definition zero_mat : mat := mkM 0 0 0 0 0 0 0 0 0.
Definition spread (ws : list R) (target source : list vec) : mat :=
  fold_right (fun x s => madd (outer (fst x) (fst (snd x)) (snd (snd x))) s) zero_mat
    (combine ws (combine target source)).
(** Product with the transpose, icp_fast.cc:358 and 366. *)
Definition mul_t (a b : mat) : mat :=
  mkM (m00 a * m00 b + m01 a * m01 b + m02 a * m02 b) (m00 a * m10 b + m01 a * m11 b + m02 a * m12 b)
      (m00 a * m20 b + m01 a * m21 b + m02 a * m22 b)
      (m10 a * m00 b + m11 a * m01 b + m12 a * m02 b) (m10 a * m10 b + m11 a * m11 b + m12 a * m12 b)
      (m10 a * m20 b + m11 a * m21 b + m12 a * m22 b)
      (m20 a * m00 b + m21 a * m01 b + m22 a * m02 b) (m20 a * m10 b + m21 a * m11 b + m22 a * m12 b)
      (m20 a * m20 b + m21 a * m21 b + m22 a * m22 b).
(** tmpV.row(kDim - 1) *= -1 on the transpose of V, icp_fast.cc:364-365: the last column of V. *)
Definition flip_last (v : mat) : mat :=
  mkM (m00 v) (m01 v) (m02 v * -1) (m10 v) (m11 v) (m12 v * -1) (m20 v) (m21 v) (m22 v * -1).
(** Matrix::determinant. *)
Definition determinant (m : mat) : R :=
  m00 m * (m11 m * m22 m - m12 m * m21 m) - m01 m * (m10 m * m22 m - m12 m * m20 m)
  + m02 m * (m10 m * m21 m - m11 m * m20 m).
(** The repair of a reflection, icp_fast.cc:358-367. *)
Definition rotation_from (u v : mat) : mat :=
  let r := mul_t u v in
  if Rlt_dec (determinant r) 0 then mul_t u (flip_last v) else r.
(** ComputePointToPoint, icp_fast.cc:326-375.  [svd]: matrixU(), singularValues(), matrixV().  The CHECK compares the
    numbers of points; a different number of weights breaks an assertion of Eigen, which a release build does not
    have.  [matches] is not used.  Result: the transform and both clouds, which are shifted in place. *)
Definition point_to_point (svd : mat -> mat * vec * mat) (source target : list vec) (ws : list R)
    : outcome (transform * list vec * list vec) :=
  if negb (length source =? length target)%nat then Abort
  else if negb (length ws =? length source)%nat then UB
  else
    let mr := weighted_mean ws source in
    let mt := weighted_mean ws target in
    let s := without mr source in
    let t := without mt target in
    let '(u, _, v) := svd (spread ws t s) in
    let r := rotation_from u v in
    Ok (mkT r (vsub mt (mvec r mr)), s, t).

(** PlaneFitting, math.cc:201-233.  [left]: matrixU() of the decomposition of the matrix with the given columns;
    [limit]: numeric_limits<Scalar>::max(). *)
Definition last_column (u : mat) : vec := mkV (m02 u) (m12 u) (m22 u).
Definition plane_fitting (left : list vec -> mat) (limit : R) (pts : list vec) : vec * vec :=
  if (length pts <? 2)%nat then (mkV limit limit limit, mkV limit limit limit)
  else
    let n := INR (length pts) in
    let c := mkV (rsum (map vx pts) / n) (rsum (map vy pts) / n) (rsum (map vz pts) / n) in
    let coord := map (fun p => mkV (vx p - vx c) (vy p - vy c) (vz p - vz c)) pts in
    (c, last_column (left coord)).
