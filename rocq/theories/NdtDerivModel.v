(** Model of the score of the normal distributions transform and of its derivatives:
    registrators/pclomp/ndt_omp_impl.hpp:62-66 and 89-93 (constants), 176-280 (computeDerivatives), 283-402
    (computeAngleDerivatives), 405-439 and 442-480 (computePointDerivatives, twice the same formulas), 483-536
    (updateDerivatives), 539-595 (computeHessian)
    and 598-630 (updateHessian).  calculateScore, 923-953, which nothing calls, is not modelled.
    Over the real numbers: the mixture of float and double, rounding, infinities and NaN are not modelled.  The
    search for the cells near a point (target_cells_, a parameter here) is any function of the point. *)
From Coq Require Import Reals List Lra.
From Verif Require Import RigidModel RigidSpec.
Import ListNotations.
Local Open Scope R_scope.

(** computeAngleDerivatives, 286-322: cosine and sine of the three angles, those of angles below 10e-5 as of 0. *)
Record angles := mkA { cx : R; sx : R; cy : R; sy : R; cz : R; sz : R }.
Definition cos_of (a : R) : R := if Rlt_dec (Rabs a) (10 / 100000) then 1 else cos a.
Definition sin_of (a : R) : R := if Rlt_dec (Rabs a) (10 / 100000) then 0 else sin a.
(** The vector p of six parameters: translation and angles. *)
Definition params := nat -> R.
Definition angles_of (p : params) : angles :=
  mkA (cos_of (p 3%nat)) (sin_of (p 3%nat)) (cos_of (p 4%nat)) (sin_of (p 4%nat)) (cos_of (p 5%nat)) (sin_of (p 5%nat)).

(** 325-332 (and 335-342, the same as rows of j_ang). *)
Section Rows.
  Variable g : angles.
  Definition j_a := mkV (- sx g * sz g + cx g * sy g * cz g) (- sx g * cz g - cx g * sy g * sz g) (- cx g * cy g).
  Definition j_b := mkV (cx g * sz g + sx g * sy g * cz g) (cx g * cz g - sx g * sy g * sz g) (- sx g * cy g).
  Definition j_c := mkV (- sy g * cz g) (sy g * sz g) (cy g).
  Definition j_d := mkV (sx g * cy g * cz g) (- sx g * cy g * sz g) (sx g * sy g).
  Definition j_e := mkV (- cx g * cy g * cz g) (cx g * cy g * sz g) (- cx g * sy g).
  Definition j_f := mkV (- cy g * sz g) (- cy g * cz g) 0.
  Definition j_g := mkV (cx g * cz g - sx g * sy g * sz g) (- cx g * sz g - sx g * sy g * cz g) 0.
  Definition j_h := mkV (sx g * cz g + cx g * sy g * sz g) (cx g * sy g * cz g - sx g * sz g) 0.

  (** 347-368 (and 371-399, the same as rows of h_ang). *)
  Definition h_a2 := mkV (- cx g * sz g - sx g * sy g * cz g) (- cx g * cz g + sx g * sy g * sz g) (sx g * cy g).
  Definition h_a3 := mkV (- sx g * sz g + cx g * sy g * cz g) (- cx g * sy g * sz g - sx g * cz g) (- cx g * cy g).
  Definition h_b2 := mkV (cx g * cy g * cz g) (- cx g * cy g * sz g) (cx g * sy g).
  Definition h_b3 := mkV (sx g * cy g * cz g) (- sx g * cy g * sz g) (sx g * sy g).
  Definition h_c2 := mkV (- sx g * cz g - cx g * sy g * sz g) (sx g * sz g - cx g * sy g * cz g) 0.
  Definition h_c3 := mkV (cx g * cz g - sx g * sy g * sz g) (- sx g * sy g * cz g - cx g * sz g) 0.
  Definition h_d1 := mkV (- cy g * cz g) (cy g * sz g) (sy g).
  Definition h_d2 := mkV (- sx g * sy g * cz g) (sx g * sy g * sz g) (sx g * cy g).
  Definition h_d3 := mkV (cx g * sy g * cz g) (- cx g * sy g * sz g) (- cx g * cy g).
  Definition h_e1 := mkV (sy g * sz g) (sy g * cz g) 0.
  Definition h_e2 := mkV (- sx g * cy g * sz g) (- sx g * cy g * cz g) 0.
  Definition h_e3 := mkV (cx g * cy g * sz g) (cx g * cy g * cz g) 0.
  Definition h_f1 := mkV (- cy g * cz g) (cy g * sz g) 0.
  Definition h_f2 := mkV (- cx g * sz g - sx g * sy g * cz g) (- cx g * cz g + sx g * sy g * sz g) 0.
  Definition h_f3 := mkV (- sx g * sz g + cx g * sy g * cz g) (- cx g * sy g * sz g - sx g * cz g) 0.

  (** computePointDerivatives, 405-439: column [k] of point_gradient_ (columns 0-2 are the identity, 218-219). *)
  Definition point_gradient (x : vec) (k : nat) : vec :=
    match k with
    | 0 => mkV 1 0 0 | 1 => mkV 0 1 0 | 2 => mkV 0 0 1
    | 3 => mkV 0 (dot j_a x) (dot j_b x)
    | 4 => mkV (dot j_c x) (dot j_d x) (dot j_e x)
    | 5 => mkV (dot j_f x) (dot j_g x) (dot j_h x)
    | _ => zero_vec
    end%nat.

  (** 417-438: the block of point_hessian_ at row block [i] and column [j]; the others are zero (220). *)
  Definition point_hessian (x : vec) (i j : nat) : vec :=
    let a := mkV 0 (dot h_a2 x) (dot h_a3 x) in
    let b := mkV 0 (dot h_b2 x) (dot h_b3 x) in
    let c := mkV 0 (dot h_c2 x) (dot h_c3 x) in
    let d := mkV (dot h_d1 x) (dot h_d2 x) (dot h_d3 x) in
    let e := mkV (dot h_e1 x) (dot h_e2 x) (dot h_e3 x) in
    let f := mkV (dot h_f1 x) (dot h_f2 x) (dot h_f3 x) in
    match i, j with
    | 3, 3 => a | 4, 3 => b | 5, 3 => c
    | 3, 4 => b | 4, 4 => d | 5, 4 => e
    | 3, 5 => c | 4, 5 => e | 5, 5 => f
    | _, _ => zero_vec
    end%nat.
End Rows.

(** 62-66 and 89-93. *)
Definition gauss_c1 (outlier : R) : R := 10 * (1 - outlier).
Definition gauss_c2 (outlier resolution : R) : R := outlier / resolution ^ 3.
Definition gauss_d3 (outlier resolution : R) : R := - ln (gauss_c2 outlier resolution).
Definition gauss_d1 (outlier resolution : R) : R :=
  - ln (gauss_c1 outlier + gauss_c2 outlier resolution) - gauss_d3 outlier resolution.
Definition gauss_d2 (outlier resolution : R) : R :=
  -2 * ln ((- ln (gauss_c1 outlier * exp (-1 / 2) + gauss_c2 outlier resolution) - gauss_d3 outlier resolution)
           / gauss_d1 outlier resolution).

(** A cell of the target: getMean() and getInverseCov(). *)
Record cell := mkCell { mean : vec; c_inv : mat }.

(** What updateDerivatives adds for one point and one cell: to the score, the gradient and the Hessian. *)
Record contribution := mkC { c_score : R; c_gradient : nat -> R; c_hessian : nat -> nat -> R }.
Definition nothing : contribution := mkC 0 (fun _ => 0) (fun _ _ => 0).

(** updateDerivatives, 483-536: the values are dropped if e_x_cov_x is not in [0, 1].  [x_trans] is the
    transformed point minus the mean. *)
Definition update_derivatives (d1 d2 : R) (gradient : nat -> vec) (hessian : nat -> nat -> vec) (x_trans : vec)
    (ci : mat) : contribution :=
  let e := exp (- d2 * dot x_trans (mvec (mtrans ci) x_trans) * (1 / 2)) in
  let score_inc := - d1 * e in
  let e := d2 * e in
  if Rlt_dec 1 e then nothing
  else if Rlt_dec e 0 then nothing
  else
    let e := e * d1 in
    let cg := fun k => mvec ci (gradient k) in
    let xcg := fun k => dot x_trans (cg k) in
    let xc := mvec (mtrans ci) x_trans in
    mkC score_inc (fun k => e * xcg k)
        (fun i j => e * (- d2 * xcg i * xcg j + dot xc (hessian i j) + dot (gradient j) (cg i))).

(** updateHessian, 598-630: what it adds to the Hessian. *)
Definition update_hessian (d1 d2 : R) (gradient : nat -> vec) (hessian : nat -> nat -> vec) (x_trans : vec)
    (ci : mat) : nat -> nat -> R :=
  let e := d2 * exp (- d2 * dot x_trans (mvec ci x_trans) / 2) in
  if Rlt_dec 1 e then fun _ _ => 0
  else if Rlt_dec e 0 then fun _ _ => 0
  else
    let e := e * d1 in
    fun i j => e * (- d2 * dot x_trans (mvec ci (gradient i)) * dot x_trans (mvec ci (gradient j))
                    + dot x_trans (mvec ci (hessian i j)) + dot (gradient j) (mvec ci (gradient i))).

Fixpoint rsum (l : list R) : R := match l with [] => 0 | x :: l => x + rsum l end.

(** computeDerivatives, 246-268: one point [x] with its image [y]: the sums over the cells near [y]. *)
Definition per_cell (d1 d2 : R) (p : params) (x y : vec) (c : cell) : contribution :=
  update_derivatives d1 d2 (point_gradient (angles_of p) x) (point_hessian (angles_of p) x)
                     (vsub y (mean c)) (c_inv c).
Definition point_sum (cells : vec -> list cell) (d1 d2 : R) (p : params) (value : contribution -> R) (xy : vec * vec) : R :=
  rsum (map (fun c => value (per_cell d1 d2 p (fst xy) (snd xy) c)) (cells (snd xy))).

(** 176-280: every thread adds up the points it is given ([thread]: the number of the thread that takes a point),
    then the sums of the [threads] threads are added. *)
Definition by_threads (threads : nat) (thread : nat -> nat) (value : nat -> R) (points : nat) : R :=
  rsum (map (fun i => rsum (map value (filter (fun k => Nat.eqb (thread k) i) (seq 0 points)))) (seq 0 threads)).

Record derivatives := mkD { score : R; gradient : nat -> R; hessian : nat -> nat -> R }.
(** [input] are the points of the source, [output] their images (trans_cloud). *)
Definition compute_derivatives (cells : vec -> list cell) (d1 d2 : R) (threads : nat) (thread : nat -> nat)
    (input output : list vec) (p : params) : derivatives :=
  let point := fun k => (nth k input zero_vec, nth k output zero_vec) in
  let total := fun value => by_threads threads thread (fun k => point_sum cells d1 d2 p value (point k)) (length input) in
  mkD (total c_score) (fun k => total (fun c => c_gradient c k)) (fun i j => total (fun c => c_hessian c i j)).

(** computeHessian, 539-595: the angles are those of the last computeDerivatives. *)
Definition compute_hessian (cells : vec -> list cell) (d1 d2 : R) (input output : list vec) (p : params) : nat -> nat -> R :=
  fun i j =>
    rsum (map (fun k =>
      let x := nth k input zero_vec in let y := nth k output zero_vec in
      rsum (map (fun c => update_hessian d1 d2 (point_gradient (angles_of p) x) (point_hessian (angles_of p) x)
                                         (vsub y (mean c)) (c_inv c) i j) (cells y))) (seq 0 (length input))).
