(** C144, C145: the best rigid motion between two clouds and the best plane through points. *)
From Coq Require Import Reals List Lra Lia Arith Bool.
From Verif Require Import Outcome RigidModel RigidSpec RigidProofs PlaneIcpModel KabschModel KabschSpec KabschProofs.
Import ListNotations.
Local Open Scope R_scope.

(** The result is rigid, takes the weighted mean [b] of the source to the weighted mean [a] of the target, and no
    rigid motion has a smaller weighted sum of squared distances.  Single weights may be negative. *)
Theorem C144_least_squares : forall svd source target ws a b T s' t', 0 < rsum ws ->
  weighted_sum ws source = vscale (rsum ws) b -> weighted_sum ws target = vscale (rsum ws) a ->
  is_svd (covariance a b ws target source) (svd (covariance a b ws target source)) ->
  point_to_point svd source target ws = Ok (T, s', t') ->
  rigid T /\ apply T b = a /\ forall T', rigid T' -> misfit T source target ws <= misfit T' source target ws.
Proof.
  intros svd source target ws a b T s' t' W B A S E.
  assert (L2 : length source = length target).
  { unfold point_to_point in E. destruct (length source =? length target)%nat eqn:L; [apply Nat.eqb_eq, L|discriminate]. }
  assert (L1 : length ws = length source).
  { unfold point_to_point in E. rewrite L2, Nat.eqb_refl in E. cbn [negb] in E. rewrite <- L2 in E.
    destruct (length ws =? length source)%nat eqn:L; [apply Nat.eqb_eq, L|discriminate]. }
  rewrite (point_to_point_eq svd source target ws a b L1 L2 ltac:(lra) B A) in E. cbv zeta in E.
  assert (T = mkT (rotation_from (fst (fst (svd (covariance a b ws target source)))) (snd (svd (covariance a b ws target source))))
     (vsub a (mvec (rotation_from (fst (fst (svd (covariance a b ws target source)))) (snd (svd (covariance a b ws target source)))) b))) as -> by congruence.
  apply (point_to_point_least svd source target ws a b L1 L2 W B A S).
Qed.
Print Assumptions C144_least_squares.

(** It returns just if there are as many points in both clouds, and as many weights; the clouds of the caller
    are shifted, so that their weighted mean is 0. *)
Theorem C144_ends : forall svd source target ws,
  (point_to_point svd source target ws = Abort <-> length source <> length target) /\
  (point_to_point svd source target ws = UB <-> length source = length target /\ length ws <> length source) /\
  (forall T s' t', point_to_point svd source target ws = Ok (T, s', t') ->
     length s' = length source /\ length t' = length target /\
     (rsum ws <> 0 -> weighted_sum ws s' = zero_vec /\ weighted_sum ws t' = zero_vec) /\
     exists a b, s' = map (fun p => vsub p b) source /\ t' = map (fun q => vsub q a) target).
Proof.
  intros. unfold point_to_point.
  destruct (length source =? length target)%nat eqn:L2; cbn [negb].
  2: { apply Nat.eqb_neq in L2. split; [split; auto|]. split; [split; [discriminate|intros [? _]; contradiction]|discriminate]. }
  apply Nat.eqb_eq in L2. destruct (length ws =? length source)%nat eqn:L1; cbn [negb].
  2: { apply Nat.eqb_neq in L1. split; [split; [discriminate|intros; contradiction]|]. split; [split; auto|discriminate]. }
  apply Nat.eqb_eq in L1. destruct (svd _) as [[u s] v].
  split; [split; [discriminate|intros; contradiction]|]. split; [split; [discriminate|intros [_ ?]; contradiction]|].
  intros T s' t' E.
  assert (Es : s' = without (weighted_mean ws source) source) by congruence.
  assert (Et : t' = without (weighted_mean ws target) target) by congruence. subst s' t'. clear E.
  unfold without. rewrite !map_length. split; [reflexivity|]. split; [reflexivity|]. split; [|eauto].
  assert (G : forall c ws pts, length ws = length pts -> weighted_sum ws (map (fun p => vsub p c) pts) = vsub (weighted_sum ws pts) (vscale (weight_sum ws) c)).
  { clear. intros c. induction ws as [|w ws IH]; intros [|p pts] L; try discriminate.
    - cbn. unfold vsub, vscale, zero_vec. cbn [vx vy vz]. f_equal; ring.
    - cbn [map weighted_sum]. rewrite IH by (cbn in L; congruence). change (weight_sum (w :: ws)) with (w + weight_sum ws).
      unfold vsub, vscale, vadd. cbn [vx vy vz]. f_equal; ring. }
  intros W. split; (rewrite G by congruence; apply mean_balance; exact W).
Qed.
Print Assumptions C144_ends.

(** A target that is the moved source is met by every point with weight; if three of them are not on a line,
    the motion is found exactly. *)
Theorem C144_exact_motion_found : forall svd source ws a b T0 T s' t', rigid T0 -> (forall w, In w ws -> 0 <= w) -> 0 < rsum ws ->
  weighted_sum ws source = vscale (rsum ws) b -> weighted_sum ws (map (apply T0) source) = vscale (rsum ws) a ->
  is_svd (covariance a b ws (map (apply T0) source) source) (svd (covariance a b ws (map (apply T0) source) source)) ->
  point_to_point svd source (map (apply T0) source) ws = Ok (T, s', t') ->
  (forall i p w, nth_error source i = Some p -> nth_error ws i = Some w -> 0 < w -> apply T p = apply T0 p) /\
  (forall i j k p q r u v w, nth_error source i = Some p -> nth_error source j = Some q -> nth_error source k = Some r ->
     nth_error ws i = Some u -> nth_error ws j = Some v -> nth_error ws k = Some w -> 0 < u -> 0 < v -> 0 < w ->
     cross (vsub q p) (vsub r p) <> zero_vec -> T = T0).
Proof.
  intros svd source ws a b T0 T s' t' R0 N W B A S E.
  destruct (C144_least_squares svd source _ ws a b T s' t' W B A S E) as (R & _ & Best).
  specialize (Best T0 R0). rewrite misfit_exact in Best.
  assert (L1 : length ws = length source).
  { destruct (proj1 (proj2 (C144_ends svd source (map (apply T0) source) ws))) as [_ U].
    destruct (Nat.eq_dec (length ws) (length source)); auto. rewrite U in E by (rewrite map_length; auto). discriminate. }
  assert (P : forall i p w, nth_error source i = Some p -> nth_error ws i = Some w -> 0 < w -> apply T p = apply T0 p).
  { intros i p w Ep Ew W'. apply (misfit_zero T source (map (apply T0) source) ws N Best L1 ltac:(rewrite map_length; reflexivity) i p (apply T0 p) w Ep); auto.
    apply map_nth_error. exact Ep. }
  split; [exact P|]. intros. eapply (rigid_unique T T0 p q r); eauto.
Qed.
Print Assumptions C144_exact_motion_found.

(** Four points, turned by a quarter about z and moved; the decomposition gives a reflection, which is repaired. *)
Definition cross_points : list vec := [mkV 2 0 0; mkV (-2) 0 0; mkV 0 1 0; mkV 0 (-1) 0].
Definition quarter : transform := mkT (mkM 0 (-1) 0 1 0 0 0 0 1) (mkV 5 6 7).
Definition mirror_svd (_ : mat) : mat * vec * mat := (mkM 0 (-1) 0 1 0 0 0 0 (-1), mkV 8 2 0, ident).
Example C144_ex_quarter : rigid quarter /\
  is_svd (covariance (mkV 5 6 7) zero_vec [1; 1; 1; 1] (map (apply quarter) cross_points) cross_points)
    (mirror_svd (covariance (mkV 5 6 7) zero_vec [1; 1; 1; 1] (map (apply quarter) cross_points) cross_points)) /\
  exists s' t', point_to_point mirror_svd cross_points (map (apply quarter) cross_points) [1; 1; 1; 1] = Ok (quarter, s', t').
Proof.
  assert (R : rigid quarter).
  { unfold rigid, rotation, quarter, mmul, mtrans, ident, det. cbn [t_rot m00 m01 m02 m10 m11 m12 m20 m21 m22]. split; [f_equal; ring|ring]. }
  assert (Sv : is_svd (covariance (mkV 5 6 7) zero_vec [1; 1; 1; 1] (map (apply quarter) cross_points) cross_points)
    (mirror_svd (covariance (mkV 5 6 7) zero_vec [1; 1; 1; 1] (map (apply quarter) cross_points) cross_points))).
  { unfold is_svd, mirror_svd, orthonormal, mmul, mtrans, ident, diag, cross_points, quarter, apply, mvec, vadd.
    cbn [map covariance vx vy vz t_rot t_pos m00 m01 m02 m10 m11 m12 m20 m21 m22]. unfold vsub, zero_vec. cbn [vx vy vz].
    split; [f_equal; ring|]. split; [f_equal; ring|]. split; [lra|]. split; [lra|]. f_equal; ring. }
  split; [exact R|]. split; [exact Sv|].
  assert (B : weighted_sum [1; 1; 1; 1] cross_points = vscale (rsum [1; 1; 1; 1]) zero_vec).
  { unfold cross_points, zero_vec, vscale. cbn [weighted_sum]. unfold vadd, vscale, zero_vec. cbn [vx vy vz]. f_equal; ring. }
  assert (A : weighted_sum [1; 1; 1; 1] (map (apply quarter) cross_points) = vscale (rsum [1; 1; 1; 1]) (mkV 5 6 7)).
  { unfold cross_points, quarter, apply, mvec. cbn [map weighted_sum t_rot t_pos m00 m01 m02 m10 m11 m12 m20 m21 m22 vx vy vz].
    unfold vadd, vscale, zero_vec, rsum. cbn [vx vy vz fold_right]. f_equal; ring. }
  assert (W : 0 < rsum [1; 1; 1; 1]) by (unfold rsum; cbn [fold_right]; lra).
  pose proof (point_to_point_eq mirror_svd cross_points (map (apply quarter) cross_points) [1; 1; 1; 1] (mkV 5 6 7) zero_vec
    eq_refl eq_refl ltac:(lra) B A) as E.
  cbv zeta in E.
  match type of E with _ = Ok (?T, ?s, ?t) => assert (ET : T = quarter); [|rewrite ET in E; eauto] end.
  eapply (proj2 (C144_exact_motion_found mirror_svd cross_points [1; 1; 1; 1] (mkV 5 6 7) zero_vec quarter _ _ _ R _ W B A Sv E) 0%nat 1%nat 2%nat);
    try reflexivity; try lra.
  unfold cross, vsub, zero_vec. cbn [vx vy vz]. intros F. injection F. intros. lra.
  Unshelve. intros w I. cbn in I. repeat (destruct I as [<-|I]; [lra|]). destruct I.
Qed.

(** "The result is best for all weights": false if their sum is negative. *)
Theorem C144_any_weights_refuted : exists svd source target ws a b T s' t', rsum ws <> 0 /\
  weighted_sum ws source = vscale (rsum ws) b /\ weighted_sum ws target = vscale (rsum ws) a /\
  is_svd (covariance a b ws target source) (svd (covariance a b ws target source)) /\
  point_to_point svd source target ws = Ok (T, s', t') /\
  exists T', rigid T' /\ misfit T' source target ws < misfit T source target ws.
Proof.
  set (svd := fun _ : mat => (ident, zero_vec, ident)).
  assert (B : weighted_sum [-1] [zero_vec] = vscale (rsum [-1]) zero_vec) by (unfold rsum, zero_vec, vscale; cbn; unfold vadd, vscale, zero_vec; cbn [vx vy vz]; f_equal; ring).
  assert (W : rsum [-1] <> 0) by (unfold rsum; cbn [fold_right]; lra).
  pose proof (point_to_point_eq svd [zero_vec] [zero_vec] [-1] zero_vec zero_vec eq_refl eq_refl W B B) as E. cbv zeta in E.
  do 9 eexists. split; [exact W|]. split; [exact B|]. split; [exact B|]. split; [|split; [exact E|]].
  - unfold svd, is_svd, orthonormal. unfold mmul, mtrans, diag, ident, zero_vec. cbn [covariance]. unfold vsub. cbn [m00 m01 m02 m10 m11 m12 m20 m21 m22 vx vy vz].
    split; [f_equal; ring|]. split; [f_equal; ring|]. split; [lra|]. split; [lra|]. f_equal; ring.
  - exists (mkT ident (mkV 1 0 0)). split; [exact rotation_ident|].
    cbn [misfit]. unfold apply, vsub, vadd, mvec, dot, svd, zero_vec. cbn [fst snd t_rot t_pos m00 m01 m02 m10 m11 m12 m20 m21 m22 vx vy vz]. unfold ident. cbn [m00 m01 m02 m10 m11 m12 m20 m21 m22]. lra.
Qed.
Print Assumptions C144_any_weights_refuted.

(** "The result aligns the clouds the caller has afterwards": false, it belongs to the clouds before. *)
Theorem C144_aligns_clouds_left_refuted : exists svd source target ws T s' t', 0 < rsum ws /\ (forall w, In w ws -> 0 <= w) /\
  (forall a b, weighted_sum ws source = vscale (rsum ws) b -> weighted_sum ws target = vscale (rsum ws) a ->
     is_svd (covariance a b ws target source) (svd (covariance a b ws target source))) /\
  point_to_point svd source target ws = Ok (T, s', t') /\
  misfit T source target ws = 0 /\ misfit identity s' t' ws < misfit T s' t' ws.
Proof.
  set (svd := fun _ : mat => (ident, zero_vec, ident)).
  assert (B : weighted_sum [1] [zero_vec] = vscale (rsum [1]) zero_vec) by (unfold rsum, zero_vec, vscale; cbn; unfold vadd, vscale, zero_vec; cbn [vx vy vz]; f_equal; ring).
  assert (A : weighted_sum [1] [mkV 1 0 0] = vscale (rsum [1]) (mkV 1 0 0)) by (unfold rsum, vscale; cbn; unfold vadd, vscale, zero_vec; cbn [vx vy vz]; f_equal; ring).
  assert (W : rsum [1] <> 0) by (unfold rsum; cbn [fold_right]; lra).
  pose proof (point_to_point_eq svd [zero_vec] [mkV 1 0 0] [1] (mkV 1 0 0) zero_vec eq_refl eq_refl W B A) as E. cbv zeta in E.
  exists svd, [zero_vec], [mkV 1 0 0], [1]. do 3 eexists.
  split; [unfold rsum; cbn [fold_right]; lra|]. split; [intros w [<-|[]]; lra|]. split; [|split; [exact E|]].
  - intros a b Hb Ha. unfold rsum, vscale in Ha, Hb. cbn in Ha, Hb. unfold vadd, vscale, zero_vec in Ha, Hb. cbn [vx vy vz] in Ha, Hb.
    injection Ha as A1 A2 A3. injection Hb as B1 B2 B3.
    unfold svd, is_svd, orthonormal. unfold mmul, mtrans, diag, ident, zero_vec. cbn [covariance]. unfold vsub. cbn [m00 m01 m02 m10 m11 m12 m20 m21 m22 vx vy vz].
    split; [f_equal; ring|]. split; [f_equal; ring|]. split; [lra|]. split; [lra|].
    assert (vx b = 0) as -> by lra. assert (vy b = 0) as -> by lra. assert (vz b = 0) as -> by lra. f_equal; ring.
  - assert (R : rotation_from ident ident = ident).
    { unfold rotation_from. destruct (Rlt_dec (determinant (mul_t ident ident)) 0) as [D|_].
      - unfold determinant, mul_t, ident in D. cbn [m00 m01 m02 m10 m11 m12 m20 m21 m22] in D. lra.
      - unfold mul_t, ident. cbn [m00 m01 m02 m10 m11 m12 m20 m21 m22]. f_equal; ring. }
    unfold svd. cbn [fst snd]. rewrite R.
    assert (V : vsub (mkV 1 0 0) (mvec ident zero_vec) = mkV 1 0 0) by (unfold vsub, mvec, ident, zero_vec; cbn [m00 m01 m02 m10 m11 m12 m20 m21 m22 vx vy vz]; f_equal; ring).
    rewrite V. cbn [misfit map].
    assert (Z : vsub zero_vec zero_vec = zero_vec /\ vsub (mkV 1 0 0) (mkV 1 0 0) = zero_vec) by (split; unfold vsub, zero_vec; cbn [vx vy vz]; f_equal; ring).
    destruct Z as [-> ->].
    assert (P : apply (mkT ident (mkV 1 0 0)) zero_vec = mkV 1 0 0 /\ apply identity zero_vec = zero_vec).
    { split; unfold apply, identity, vadd, mvec, ident, zero_vec; cbn [t_rot t_pos m00 m01 m02 m10 m11 m12 m20 m21 m22 vx vy vz]; f_equal; ring. }
    destruct P as [-> ->].
    unfold dot, vsub, zero_vec. cbn [vx vy vz]. lra.
Qed.
Print Assumptions C144_aligns_clouds_left_refuted.

(** The plane through the centroid with the last left singular vector: the normal has length 1, and no plane has
    a smaller sum of squared distances. *)
Theorem C145_least_squares : forall left limit pts c n, (2 <= length pts)%nat -> plane_fitting left limit pts = (c, n) ->
  (forall cols, cols = map (fun p => vsub p c) pts -> is_left cols (left cols)) ->
  dot n n = 1 /\ forall a m, dot m m = 1 -> plane_misfit c n pts <= plane_misfit a m pts.
Proof.
  intros left limit pts c n L E S. rewrite plane_fitting_eq in E by exact L.
  apply pair_equal_spec in E. destruct E as [<- <-]. specialize (S _ eq_refl). split.
  - apply last_unit. apply S.
  - intros a m M. eapply Rle_trans; [|apply (centroid_least pts a m); intros ->; cbn in L; lia].
    rewrite !misfit_of_cols. apply left_least; auto.
Qed.
Print Assumptions C145_least_squares.

(** Points that lie on some plane all lie on the result: always for two or three points. *)
Theorem C145_coplanar : forall left limit pts c n, (2 <= length pts)%nat -> plane_fitting left limit pts = (c, n) ->
  (forall cols, cols = map (fun p => vsub p c) pts -> is_left cols (left cols)) ->
  (length pts <= 3)%nat \/ (exists a m, dot m m = 1 /\ forall p, In p pts -> dot (vsub p a) m = 0) ->
  forall p, In p pts -> dot (vsub p c) n = 0.
Proof.
  intros left limit pts c n L E S H. destruct (C145_least_squares left limit pts c n L E S) as [_ Best].
  assert (X : exists a m, dot m m = 1 /\ forall p, In p pts -> dot (vsub p a) m = 0).
  { destruct H as [H|H]; auto. destruct pts as [|p [|q pts]]; cbn in L; try lia.
    assert (Z : forall m, dot (vsub p p) m = 0) by (intros; unfold dot, vsub; cbn [vx vy vz]; ring).
    destruct pts as [|r [|? ?]]; [| |cbn in H; lia].
    - destruct (perp_one (vsub q p)) as (m & M & Q). exists p, m. split; auto. intros x [<-|[<-|[]]]; auto.
    - destruct (perp_two (vsub q p) (vsub r p)) as (m & M & Q & R). exists p, m. split; auto. intros x [<-|[<-|[<-|[]]]]; auto. }
  destruct X as (a & m & M & O). apply plane_zero. rewrite <- (plane_on a m pts O). apply Best, M.
Qed.
Print Assumptions C145_coplanar.

(** Fewer than two points: all six numbers are the largest of the type; no plane through the point is. *)
Theorem C145_too_few : forall left limit pts, (length pts < 2)%nat -> 1 < limit ->
  exists v, plane_fitting left limit pts = (v, v) /\ vx v = limit /\ vy v = limit /\ vz v = limit /\ dot v v <> 1.
Proof.
  intros left limit pts L G. exists (mkV limit limit limit). unfold plane_fitting.
  assert ((length pts <? 2)%nat = true) as -> by (apply Nat.ltb_lt; exact L).
  split; [reflexivity|]. cbn [vx vy vz]. repeat split. unfold dot. cbn [vx vy vz]. nra.
Qed.
Print Assumptions C145_too_few.

(** The side the normal points to is left to the decomposition. *)
Theorem C145_side_open : forall left limit pts c n, (2 <= length pts)%nat -> plane_fitting left limit pts = (c, n) ->
  (forall cols, cols = map (fun p => vsub p c) pts -> is_left cols (left cols)) ->
  exists left', (forall cols, cols = map (fun p => vsub p c) pts -> is_left cols (left' cols)) /\
    plane_fitting left' limit pts = (c, vscale (-1) n).
Proof.
  intros left limit pts c n L E S. exists (fun cols => flip_last (left cols)). split; [intros; apply flip_left, S; assumption|].
  rewrite plane_fitting_eq in * by exact L. apply pair_equal_spec in E. destruct E as [<- <-]. f_equal.
  unfold last_column, flip_last, vscale. cbn [m00 m01 m02 m10 m11 m12 m20 m21 m22 vx vy vz]. f_equal; ring.
Qed.
Print Assumptions C145_side_open.

(** "The points determine the plane": false for two points, which are accepted. *)
Definition two_points : list vec := [mkV 1 0 0; mkV (-1) 0 0].
Lemma two_left : forall u, u = ident \/ u = mkM 1 0 0 0 0 1 0 1 0 -> is_left two_points u.
Proof.
  intros u U.
  assert (O : orthonormal u) by (destruct U as [->| ->]; unfold orthonormal, mmul, mtrans, ident; cbn [m00 m01 m02 m10 m11 m12 m20 m21 m22]; f_equal; ring).
  split; auto. exists (mkV (sqrt 2) 0 0), [mkV (/ sqrt 2) 0 0; mkV (- / sqrt 2) 0 0]. cbn [vx vy vz].
  pose proof (sqrt_lt_R0 2 ltac:(lra)) as Q. pose proof (sqrt_sqrt 2 ltac:(lra)) as E.
  split; [lra|]. split; [lra|]. unfold sum_of, rsum. cbn [map fold_right vx vy vz].
  assert (X : sqrt 2 * / sqrt 2 = 1) by (field; lra). assert (Y : sqrt 2 * - / sqrt 2 = -1) by (field; lra). rewrite X, Y.
  assert (I2 : / sqrt 2 * / sqrt 2 = / 2) by (rewrite <- Rinv_mult; rewrite E; reflexivity).
  split.
  { unfold two_points. destruct U as [->| ->]; unfold mvec, ident; cbn [m00 m01 m02 m10 m11 m12 m20 m21 m22 vx vy vz]; f_equal; [f_equal; ring|f_equal; f_equal; ring|f_equal; ring|f_equal; f_equal; ring]. }
  repeat split; try ring; [left; lra|right; reflexivity|right; reflexivity].
Qed.
Theorem C145_two_points_refuted : exists pts left left' limit, length pts = 2%nat /\
  (forall c, c = fst (plane_fitting left limit pts) \/ c = fst (plane_fitting left' limit pts) ->
     forall cols, cols = map (fun p => vsub p c) pts -> is_left cols (left cols) /\ is_left cols (left' cols)) /\
  dot (snd (plane_fitting left limit pts)) (snd (plane_fitting left' limit pts)) = 0.
Proof.
  exists two_points, (fun _ => ident), (fun _ => mkM 1 0 0 0 0 1 0 1 0), 2. split; [reflexivity|].
  rewrite !plane_fitting_eq by (cbn; lia). cbn [fst snd]. split.
  - intros c C cols ->. assert (c = centroid two_points) as -> by tauto.
    assert (E : map (fun p => vsub p (centroid two_points)) two_points = two_points).
    { unfold two_points, centroid, rsum, vsub. cbn [map length fold_right vx vy vz INR]. f_equal; [f_equal; field|f_equal; f_equal; field]. }
    rewrite E. split; apply two_left; auto.
  - unfold dot, last_column, ident. cbn [m00 m01 m02 m10 m11 m12 m20 m21 m22 vx vy vz]. ring.
Qed.
Print Assumptions C145_two_points_refuted.

(** Four corners of a square, two of them raised by 1 and two lowered: the plane between them. *)
Definition bent : list vec := [mkV 3 3 1; mkV (-3) 3 (-1); mkV (-3) (-3) 1; mkV 3 (-3) (-1)].
Example C145_ex_bent : is_left bent ident /\
  plane_fitting (fun _ => ident) 9 bent = (zero_vec, mkV 0 0 1) /\ plane_misfit zero_vec (mkV 0 0 1) bent = 4.
Proof.
  split; [|split].
  - split; [unfold orthonormal, mmul, mtrans, ident; cbn [m00 m01 m02 m10 m11 m12 m20 m21 m22]; f_equal; ring|].
    exists (mkV 6 6 2), [mkV (1/2) (1/2) (1/2); mkV (-1/2) (1/2) (-1/2); mkV (-1/2) (-1/2) (1/2); mkV (1/2) (-1/2) (-1/2)].
    unfold sum_of, rsum, bent, mvec, ident. cbn [map fold_right vx vy vz m00 m01 m02 m10 m11 m12 m20 m21 m22].
    split; [lra|]. split; [lra|]. split; [repeat (f_equal; try lra)|]. repeat split; try lra; left; lra.
  - rewrite plane_fitting_eq by (cbn; lia). f_equal.
    unfold centroid, bent, rsum, zero_vec. cbn [map length fold_right vx vy vz INR]. f_equal; field.
  - unfold plane_misfit, bent, rsum, Rsqr, dot, vsub, zero_vec. cbn [map fold_right vx vy vz]. ring.
Qed.
