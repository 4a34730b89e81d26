(** C130: the score of the normal distributions transform and its derivatives. *)
From Coq Require Import Reals List Lra Lia.
From Verif Require Import RigidModel RigidSpec NdtDerivModel NdtDerivSpec NdtDerivProofs.
Import ListNotations.
Local Open Scope R_scope.

(** The matrix of first derivatives of a moved point is right, up to treating angles below 10e-5 as zero: it is the
    one at the parameters with these angles set to zero. *)
Theorem C130_gradient : forall p x k, (k < 6)%nat ->
  let g := point_gradient (angles_of p) x k in
  partial (fun q => vx (position q x)) k (snapped p) (vx g) /\
  partial (fun q => vy (position q x)) k (snapped p) (vy g) /\
  partial (fun q => vz (position q x)) k (snapped p) (vz g).
Proof.
  intros p x k Hk g. subst g. rewrite exact_snapped.
  split; [|split]; apply position_partial; try exact Hk; constructor.
Qed.

(** It differs from the matrix at the parameters themselves by at most 5e-4 times the size of the point. *)
Theorem C130_near_zero : forall p x k a b c, (k < 6)%nat ->
  partial (fun q => vx (position q x)) k p a ->
  partial (fun q => vy (position q x)) k p b ->
  partial (fun q => vz (position q x)) k p c ->
  let g := point_gradient (angles_of p) x k in
  let bound := 5 / 10000 * (Rabs (vx x) + Rabs (vy x) + Rabs (vz x)) in
  Rabs (vx g - a) <= bound /\ Rabs (vy g - b) <= bound /\ Rabs (vz g - c) <= bound.
Proof.
  intros p x k a b c Hk A B C g bound.
  rewrite (partial_unique _ _ _ _ _ A (position_partial p x k vx Hk co_x)).
  rewrite (partial_unique _ _ _ _ _ B (position_partial p x k vy Hk co_y)).
  rewrite (partial_unique _ _ _ _ _ C (position_partial p x k vz Hk co_z)).
  replace bound with (5 * eps * (Rabs (vx x) + Rabs (vy x) + Rabs (vz x))) by (unfold bound, eps; field).
  split; [|split]; apply gradient_close; try exact Hk; constructor.
Qed.

(** Not the exact derivative there: a roll of 5e-5 moves the point (0,1,0) along y, which the code takes for 0. *)
Definition tilted : params := put (fun _ => 0) 3 (5 / 100000).
Theorem C130_near_zero_exact_refuted :
  ~ forall p x k, (k < 6)%nat -> partial (fun q => vy (position q x)) k p (vy (point_gradient (angles_of p) x k)).
Proof.
  intro H. specialize (H tilted (mkV 0 1 0) 3%nat ltac:(lia)).
  pose proof (partial_unique _ _ _ _ _ H (position_partial tilted (mkV 0 1 0) 3%nat vy ltac:(lia) co_y)) as E.
  assert (S : 0 < sin (5 / 100000)).
  { pose proof PI2_1. apply sin_gt_0; [lra|]. pose proof PI_RGT_0. lra. }
  assert (E1 : vy (point_gradient (angles_of tilted) (mkV 0 1 0) 3) = 0).
  { unfold point_gradient, angles_of, tilted, put, cos_of, sin_of, j_a, dot. cbn [Nat.eqb vx vy vz cx sx cy sy cz sz].
    destruct (Rlt_dec (Rabs (5 / 100000)) (10 / 100000)) as [L|L].
    - destruct (Rlt_dec (Rabs 0) (10 / 100000)) as [M|M]; [lra|]. rewrite Rabs_R0 in M. lra.
    - rewrite Rabs_pos_eq in L; lra. }
  assert (E2 : vy (point_gradient (exact tilted) (mkV 0 1 0) 3) = - sin (5 / 100000)).
  { unfold point_gradient, exact, tilted, put, j_a, dot. cbn [Nat.eqb vx vy vz cx sx cy sy cz sz]. rewrite cos_0, sin_0. ring. }
  rewrite E1, E2 in E. lra.
Qed.

(** The second derivatives of a moved point are right except for one entry: the first coordinate, twice in the pitch
    angle, is too large by twice the sine of the pitch times the z coordinate (h_ang_d1_ has the wrong sign). *)
Theorem C130_hessian : forall p x i j, (i < 6)%nat -> (j < 6)%nat ->
  let h := point_hessian (angles_of p) x i j in
  let q := snapped p in
  (second_partial (fun q => vx (position q x)) i j q
     (vx h - (if (Nat.eqb i 4 && Nat.eqb j 4)%bool then 2 * sin (q 4%nat) * vz x else 0))) /\
  second_partial (fun q => vy (position q x)) i j q (vy h) /\
  second_partial (fun q => vz (position q x)) i j q (vz h).
Proof.
  intros p x i j Hi Hj h q. subst h. rewrite exact_snapped. fold q.
  assert (G : forall co, coordinate co -> second_partial (fun q => co (position q x)) i j q (co (true_hessian (exact q) x i j))).
  { intros co Hc. exists (fun q => co (point_gradient (exact q) x i)). split.
    - intro r. now apply position_partial.
    - now apply gradient_partial. }
  pose proof (G vx co_x) as X. pose proof (G vy co_y) as Y. pose proof (G vz co_z) as Z. unfold true_hessian in *.
  destruct (Nat.eqb i 4 && Nat.eqb j 4)%bool; cbn [vsub vx vy vz] in *; rewrite ?Rminus_0_r in *; repeat split; assumption.
Qed.

(** The score, its gradient and its Hessian: with symmetric positive semidefinite inverse covariances, a ratio of
    outliers strictly between 0 and 1 and a positive resolution, and no angle strictly between 0 and 10e-5, they are
    the score, its first and its second derivatives, the cells near the points being kept; whatever thread takes
    which point.  One entry of the Hessian is off by the amount that follows from the wrong second derivative. *)
Definition outlier_and_resolution (o r : R) : Prop := 0 < o < 1 /\ 0 < r.
Definition good_cells (cells : vec -> list cell) : Prop :=
  forall y c, In c (cells y) -> symmetric (c_inv c) /\ semidefinite (c_inv c).
Theorem C130_score : forall cells o r threads thread input p,
  outlier_and_resolution o r -> good_cells cells ->
  (forall k, (k < length input)%nat -> (thread k < threads)%nat) ->
  (forall k, (3 <= k < 6)%nat -> p k = 0 \/ 10 / 100000 <= Rabs (p k)) ->
  let d1 := gauss_d1 o r in let d2 := gauss_d2 o r in
  let result := compute_derivatives cells d1 d2 threads thread input (map (position p) input) p in
  let f := total_score d1 d2 (nearby cells p input) in
  score result = f p /\
  (forall k, (k < 6)%nat -> partial f k p (gradient result k)) /\
  (forall i j, (i < 6)%nat -> (j < 6)%nat -> (i, j) <> (4, 4)%nat -> second_partial f i j p (hessian result i j)) /\
  second_partial f 4 4 p (hessian result 4%nat 4%nat
    - rsum (map (fun xc => rsum (map (fun c =>
        d1 * d2 * bell d2 c (position p (fst xc)) *
        dot (vsub (position p (fst xc)) (mean c)) (mvec (c_inv c) (mkV (2 * sin (p 4%nat) * vz (fst xc)) 0 0)))
        (snd xc))) (nearby cells p input))).
Proof.
  intros cells o r threads thread input p [Ho Hr] Good Th Pl d1 d2 result f.
  assert (Sym : forall y c, In c (cells y) -> symmetric (c_inv c)) by (intros y c H; exact (proj1 (Good y c H))).
  assert (Kept : forall x c, In x input -> In c (cells (position p x)) -> kept d2 c (position p x)).
  { intros x c _ H. apply always_kept; try assumption. exact (proj2 (Good _ _ H)). }
  split; [now apply whole_score|]. split; [intros; now apply whole_gradient|].
  pose proof (whole_hessian cells d1 d2 threads thread input p Sym Th Kept Pl) as W. split.
  - intros i j Hi Hj N. specialize (W i j Hi Hj).
    assert (E : (Nat.eqb i 4 && Nat.eqb j 4)%bool = false).
    { destruct (Nat.eqb_spec i 4), (Nat.eqb_spec j 4); try reflexivity. subst. now elim N. }
    rewrite E, Rminus_0_r in W. exact W.
  - exact (W 4%nat 4%nat ltac:(lia) ltac:(lia)).
Qed.

(** The constants: every point scores positively in every cell, and the test for invalid values never drops one. *)
Theorem C130_never_dropped : forall o r gr he y c, outlier_and_resolution o r ->
  symmetric (c_inv c) -> semidefinite (c_inv c) ->
  let u := update_derivatives (gauss_d1 o r) (gauss_d2 o r) gr he (vsub y (mean c)) (c_inv c) in
  gauss_d1 o r < 0 /\ 0 < gauss_d2 o r <= 1 /\ 0 < c_score u <= - gauss_d1 o r.
Proof.
  intros o r gr he y c [Ho Hr] S P u. destruct (constants o r Ho Hr) as [D1 D2].
  split; [exact D1|]. split; [exact D2|].
  destruct (update_kept (gauss_d1 o r) (gauss_d2 o r) gr he y c S (always_kept o r c y Ho Hr P)) as (E & _).
  fold u in E. rewrite E.
  pose proof (exp_pos (- gauss_d2 o r * (dot (vsub y (mean c)) (mvec (c_inv c) (vsub y (mean c))) / 2))) as B.
  fold (bell (gauss_d2 o r) c y) in B.
  assert (B1 : bell (gauss_d2 o r) c y <= 1).
  { unfold bell. specialize (P (vsub y (mean c))). set (q := dot _ _) in *.
    assert (0 <= gauss_d2 o r * (q / 2)) by (apply Rmult_le_pos; lra).
    rewrite <- exp_0. destruct (Req_dec (gauss_d2 o r * (q / 2)) 0) as [Z|Z].
    - replace (- gauss_d2 o r * (q / 2)) with 0 by lra. lra.
    - left. apply exp_increasing. lra. }
  split; [apply Rmult_lt_0_compat; lra|].
  replace (- gauss_d1 o r) with (- gauss_d1 o r * 1) at 2 by ring. apply Rmult_le_compat_l; lra.
Qed.

(** Without a semidefinite matrix a point may be dropped: no score, no gradient. *)
Theorem C130_dropped : forall d1 d2 gr he y c, symmetric (c_inv c) ->
  ~ 0 <= d2 * bell d2 c y <= 1 ->
  let u := update_derivatives d1 d2 gr he (vsub y (mean c)) (c_inv c) in
  c_score u = 0 /\ (forall k, c_gradient u k = 0) /\ (forall i j, c_hessian u i j = 0).
Proof. intros d1 d2 gr he y c S K u. unfold u. rewrite update_dropped by assumption. repeat split. Qed.

(** The Hessian of the line search (computeHessian) is the one of computeDerivatives. *)
Theorem C130_same_hessian : forall cells d1 d2 threads thread input output p i j,
  (forall y c, In c (cells y) -> symmetric (c_inv c)) ->
  (forall k, (k < length input)%nat -> (thread k < threads)%nat) ->
  compute_hessian cells d1 d2 input output p i j
  = hessian (compute_derivatives cells d1 d2 threads thread input output p) i j.
Proof.
  intros cells d1 d2 threads thread input output p i j S T. unfold compute_hessian, compute_derivatives. cbn [hessian].
  rewrite by_threads_sum by exact T. apply rsum_ext. intros k _. unfold point_sum. cbn [fst snd].
  apply rsum_ext. intros c Hc. unfold per_cell. apply update_hessian_same. now apply S with (nth k output zero_vec).
Qed.

(** A concrete case: one cell at the origin with the identity as inverse covariance, the point (0,0,1) and a pitch
    of a quarter turn. *)
Definition one_cell : vec -> list cell := fun _ => [mkCell zero_vec ident].
Definition quarter : params := put (fun _ => 0) 4 (PI / 2).
Definition point_z : vec := mkV 0 0 1.
Lemma one_cell_good : good_cells one_cell.
Proof.
  intros y c [<-|[]]. split; [reflexivity|]. intros [a b d]. unfold dot, mvec, ident, c_inv. cbn.
  pose proof (Rle_0_sqr a). pose proof (Rle_0_sqr b). pose proof (Rle_0_sqr d). unfold Rsqr in *. lra.
Qed.
Lemma quarter_plain : forall k, (3 <= k < 6)%nat -> quarter k = 0 \/ 10 / 100000 <= Rabs (quarter k).
Proof.
  intros k Hk. destruct k as [|[|[|[|[|[|k]]]]]]; try lia; cbn; try (left; reflexivity).
  right. pose proof PI2_1. rewrite Rabs_pos_eq; lra.
Qed.
Lemma defaults : outlier_and_resolution (55 / 100) 1.
Proof. unfold outlier_and_resolution. lra. Qed.
Lemma quarter_position : position quarter point_z = mkV 1 0 0.
Proof.
  unfold position, quarter, point_z, put, about_x, about_y, about_z, mvec, vadd. cbn [Nat.eqb vx vy vz m00 m01 m02 m10 m11 m12 m20 m21 m22].
  rewrite cos_0, sin_0, cos_PI2, sin_PI2. f_equal; ring.
Qed.

(** The Hessian the code computes is not the matrix of second derivatives of the score. *)
Theorem C130_hessian_refuted :
  ~ forall cells o r input p i j, outlier_and_resolution o r -> good_cells cells ->
      (forall k, (3 <= k < 6)%nat -> p k = 0 \/ 10 / 100000 <= Rabs (p k)) -> (i < 6)%nat -> (j < 6)%nat ->
      let d1 := gauss_d1 o r in let d2 := gauss_d2 o r in
      second_partial (total_score d1 d2 (nearby cells p input)) i j p
        (hessian (compute_derivatives cells d1 d2 1 (fun _ => 0%nat) input (map (position p) input) p) i j).
Proof.
  intro H. specialize (H one_cell (55 / 100) 1 [point_z] quarter 4%nat 4%nat defaults one_cell_good quarter_plain ltac:(lia) ltac:(lia)).
  cbn zeta in H.
  destruct (C130_score one_cell (55 / 100) 1 1 (fun _ => 0%nat) [point_z] quarter defaults one_cell_good
    ltac:(intros; cbn; lia) quarter_plain) as (_ & _ & _ & W).
  pose proof (second_unique _ _ _ _ _ _ H W) as E. clear H W.
  destruct (constants (55 / 100) 1 ltac:(lra) ltac:(lra)) as [D1 [D2 _]].
  match type of E with _ = _ - ?s => set (ex := s) in E; assert (X : ex = 0) by lra end. clear E.
  unfold ex, nearby in X. cbn [map one_cell rsum fst snd] in X. rewrite quarter_position in X.
  unfold dot, vsub, mvec, zero_vec, ident, point_z, quarter, put in X.
  cbn [mean c_inv vx vy vz m00 m01 m02 m10 m11 m12 m20 m21 m22 Nat.eqb] in X. rewrite sin_PI2 in X.
  match type of X with context [bell ?d ?c ?y] => pose proof (exp_pos (- d * (dot (vsub y (mean c)) (mvec (c_inv c) (vsub y (mean c))) / 2))) as B;
    fold (bell d c y) in B; set (be := bell d c y) in * end.
  set (d1 := gauss_d1 (55 / 100) 1) in *. set (d2 := gauss_d2 (55 / 100) 1) in *.
  assert (P : 0 < - d1 * d2 * be) by (apply Rmult_lt_0_compat; [apply Rmult_lt_0_compat; lra|exact B]). lra.
Qed.

Example C130_ex_hypotheses :
  outlier_and_resolution (55 / 100) 1 /\ good_cells one_cell /\
  (forall k, (k < length [point_z])%nat -> ((fun _ => 5%nat) k < 6)%nat) /\
  (forall k, (3 <= k < 6)%nat -> quarter k = 0 \/ 10 / 100000 <= Rabs (quarter k)) /\
  nearby one_cell quarter [point_z] = [(point_z, [mkCell zero_vec ident])].
Proof.
  split; [exact defaults|]. split; [exact one_cell_good|]. split; [intros; lia|]. split; [exact quarter_plain|]. reflexivity.
Qed.
(** A matrix that is not semidefinite: the point is dropped. *)
Example C130_ex_dropped :
  let c := mkCell zero_vec (mkM (-1) 0 0 0 (-1) 0 0 0 (-1)) in
  symmetric (c_inv c) /\ ~ 0 <= 1 * bell 1 c (mkV 1 0 0) <= 1.
Proof.
  cbn zeta. split; [reflexivity|]. intros [_ H]. unfold bell, dot, vsub, mvec, zero_vec in H. cbn in H.
  pose proof (exp_increasing 0 (1 / 2) ltac:(lra)) as I. rewrite exp_0 in I.
  match type of H with 1 * exp ?e <= 1 => replace e with (1 / 2) in H by field end. lra.
Qed.
(** A point of the plain kind has all three partial derivatives. *)
Example C130_ex_near_zero : exists a b c,
  partial (fun q => vx (position q point_z)) 4 quarter a /\
  partial (fun q => vy (position q point_z)) 4 quarter b /\
  partial (fun q => vz (position q point_z)) 4 quarter c.
Proof.
  exists (vx (point_gradient (exact quarter) point_z 4)), (vy (point_gradient (exact quarter) point_z 4)), (vz (point_gradient (exact quarter) point_z 4)).
  split; [|split]; apply position_partial; try lia; constructor.
Qed.
(** The constants: with these d1 and d2 the score of a point at distance x (in standard deviations) from a mean is that of
    Magnusson's mixture of a normal and a uniform distribution at 0 and at 1, up to the constant of the uniform part. *)
Theorem C130_constants : forall o r, 0 < o < 1 -> 0 < r ->
  let mixture x := - ln (10 * (1 - o) * exp (- x * x / 2) + o / (r * r * r)) in
  let uniform := - ln (o / (r * r * r)) in
  let fitted x := gauss_d1 o r * exp (- gauss_d2 o r * x * x / 2) in
  fitted 0 = mixture 0 - uniform /\ fitted 1 = mixture 1 - uniform.
Proof.
  intros o r Ho Hr mixture uniform fitted. destruct (constants o r Ho Hr) as [D1 _].
  assert (E0 : gauss_d1 o r = mixture 0 - uniform).
  { unfold gauss_d1, gauss_d3, gauss_c1, gauss_c2, mixture, uniform. replace (- 0 * 0 / 2) with 0 by field. rewrite exp_0, Rmult_1_r. replace (r ^ 3) with (r * r * r) by ring. reflexivity. }
  assert (E1 : mixture 1 - uniform < 0).
  { unfold mixture, uniform.
    assert (C1 : 0 < 10 * (1 - o)) by lra.
    assert (C2 : 0 < o / (r * r * r)) by (apply Rdiv_lt_0_compat; [lra|repeat apply Rmult_lt_0_compat; lra]).
    pose proof (Rmult_lt_0_compat _ _ C1 (exp_pos (- (1) * 1 / 2))) as C3.
    pose proof (ln_increasing _ (10 * (1 - o) * exp (- (1) * 1 / 2) + o / (r * r * r)) C2 ltac:(lra)). lra. }
  split.
  - unfold fitted. replace (- gauss_d2 o r * 0 * 0 / 2) with 0 by field. rewrite exp_0, Rmult_1_r. exact E0.
  - unfold fitted. replace (- gauss_d2 o r * 1 * 1 / 2) with (- gauss_d2 o r / 2) by field. unfold gauss_d2.
    match goal with |- context [ln (?a / gauss_d1 o r)] => assert (Ea : a = mixture 1 - uniform) end.
    { unfold gauss_d3, gauss_c1, gauss_c2, mixture, uniform. replace (-1 / 2) with (- (1) * 1 / 2) by field. replace (r ^ 3) with (r * r * r) by ring. reflexivity. }
    rewrite Ea. clear Ea. generalize dependent (mixture 1 - uniform). intros m M.
    replace (- (-2 * ln (m / gauss_d1 o r)) / 2) with (ln (m / gauss_d1 o r)) by field.
    rewrite exp_ln; [field; lra|]. replace (m / gauss_d1 o r) with (- m / - gauss_d1 o r) by (field; lra). apply Rdiv_lt_0_compat; lra.
Qed.
(** The defaults, ndt_omp_impl.hpp:46-66 and ndt_omp.h. *)
Example C130_ex_constants : 0 < 55 / 100 < 1 /\ 0 < 1.
Proof. lra. Qed.
Print Assumptions C130_constants.
Print Assumptions C130_gradient.
Print Assumptions C130_near_zero.
Print Assumptions C130_near_zero_exact_refuted.
Print Assumptions C130_hessian.
Print Assumptions C130_score.
Print Assumptions C130_never_dropped.
Print Assumptions C130_dropped.
Print Assumptions C130_same_hessian.
Print Assumptions C130_hessian_refuted.
