(** C138: odometry messages as poses. *)
From Coq Require Import Reals List ZArith Lra Lia.
From Verif Require Import Outcome TimeModel GpsModel RigidModel RigidSpec RigidProofs OdomMsgModel OdomMsgProofs.
Import ListNotations.
Local Open Scope R_scope.

(** For the examples. *)
Lemma track_eq : forall s s' r p r' p' u q u' q',
  r = u -> p = q -> r' = u' -> p' = q' -> [mkOdom s (mkT r p); mkOdom s' (mkT r' p')] = [mkOdom s (mkT u q); mkOdom s' (mkT u' q')].
Proof. intros. subst. reflexivity. Qed.
Lemma vec_eq : forall p q, vx p = vx q -> vy p = vy q -> vz p = vz q -> p = q.
Proof. intros [] []. cbn. intros. subst. reflexivity. Qed.
Ltac entries := cbn [map r_stamp r_pos r_ori t_rot t_pos vx vy vz m00 m01 m02 m10 m11 m12 m20 m21 m22 qw qx qy qz].
Ltac tracks q m i := rewrite track_spec; entries;
  replace (to_matrix q) with m by (apply mat_eq; unfold to_matrix, ident; entries; ring);
  replace (inverse (mkT m _)) with i by (unfold inverse, ident, mvec, vscale, vsub, zero_vec; entries; f_equal; [apply mat_eq|apply vec_eq]; entries; field);
  unfold compose, product, mvec, vadd, vsub, identity, ident, zero_vec; entries;
  apply track_eq; (apply mat_eq || apply vec_eq); entries; field.

(** Setting the pose of a message and asking for it gives the pose back, for every rigid pose; nothing
    else of the message changes. *)
Theorem C138_roundtrip : forall X (m : odom_msg X) t, rigid t ->
  pose_in_matrix (set_pose m t) = t /\ qdot (m_ori (set_pose m t)) (m_ori (set_pose m t)) = 1 /\
  m_stamp (set_pose m t) = m_stamp m /\ m_linear (set_pose m t) = m_linear m /\ m_angular (set_pose m t) = m_angular m /\
  m_rest (set_pose m t) = m_rest m /\ m_child (set_pose m t) = m_child m.
Proof.
  intros X m [r p] H. destruct (unit_quat r H) as (U & E). unfold pose_in_matrix, set_pose. cbn [m_ori m_pos t_rot t_pos]. rewrite E. auto 10.
Qed.
Print Assumptions C138_roundtrip.

(** A message arrives with its stamp, pose, twist and covariances, but without the child frame. *)
Theorem C138_copied : forall X (m : ros_odom X),
  to_local m = mkMsg (r_stamp m) (r_pos m) (r_ori m) (r_linear m) (r_angular m) (r_rest m) None /\
  forall p q, geometry_to_eigen p q = mkT (to_matrix q) p.
Proof. intros X [s [] [] [] [] r c]. split; [reflexivity|]. intros [] []. reflexivity. Qed.
Print Assumptions C138_copied.

(** Neither normalises the quaternion it is given.  A quaternion of squared length n moves a vector n
    times as far as the rotation it stands for, and one without a vector part (also 0 0 0 0, as in a
    message that was not filled in) is the identity. *)
Theorem C138_matrix : forall q v,
  (0 < qdot q q -> mvec (to_matrix q) v = vadd v (vscale (qdot q q) (vsub (mvec (to_matrix (normalized q)) v) v))) /\
  (qvec q = zero_vec -> mvec (to_matrix q) v = v).
Proof. intros q v. split; [apply matrix_mix|apply matrix_zero]. Qed.
Print Assumptions C138_matrix.

(** So the error is at most twice the error of the squared length, relative to the vector. *)
Theorem C138_error : forall q v, 0 < qdot q q ->
  rotation (to_matrix (normalized q)) /\
  sqrt (dist2 (mvec (to_matrix q) v) (mvec (to_matrix (normalized q)) v)) <= 2 * Rabs (qdot q q - 1) * sqrt (dot v v).
Proof.
  intros q v H. split; [apply unit_rotation, normalized_unit; exact H|].
  pose proof (matrix_error q v H) as E. cbv zeta in E.
  assert (V : 0 <= dot v v) by (destruct v as [x y z]; unfold dot; cbn [vx vy vz]; pose proof (Rle_0_sqr x); pose proof (Rle_0_sqr y); pose proof (Rle_0_sqr z); unfold Rsqr in *; lra).
  apply sqrt_le_1_alt in E. eapply Rle_trans; [exact E|]. rewrite sqrt_mult by (assumption || apply Rle_0_sqr).
  fold (Rsqr (2 * (qlen q - 1))). rewrite sqrt_Rsqr_abs, Rabs_mult, (Rabs_right 2) by lra. apply Rle_refl.
Qed.
Print Assumptions C138_error.

(** The pose is rigid just if the quaternion has length 1 or no vector part; it cannot be inverted just if
    the quaternion has no scalar part and squared length 1/2. *)
Theorem C138_rigid : forall X (m : odom_msg X),
  (rigid (pose_in_matrix m) <-> qdot (m_ori m) (m_ori m) = 1 \/ qvec (m_ori m) = zero_vec) /\
  (det (t_rot (pose_in_matrix m)) = 0 <-> qw (m_ori m) = 0 /\ qdot (m_ori m) (m_ori m) = 1 / 2) /\
  0 <= det (t_rot (pose_in_matrix m)).
Proof.
  intros X m. unfold rigid, pose_in_matrix. cbn [t_rot]. split; [apply rotation_iff|]. split.
  - rewrite singular_iff. fold (qlen (m_ori m)). rewrite qlen_split. split; intros (A & B); split; auto; rewrite A in *; lra.
  - rewrite det_matrix_sq. pose proof (ulen_nonneg (m_ori m)) as U. pose proof (Rle_0_sqr (1 - 2 * ulen (m_ori m))) as A. unfold Rsqr in A.
    pose proof (Rle_0_sqr (qw (m_ori m))) as B. unfold Rsqr in B. pose proof (Rmult_le_pos _ _ B U). lra.
Qed.
Print Assumptions C138_rigid.

(** What is stored of a series of messages: one pose for each with its stamp, the first is the identity, and
    the first message's pose times a stored one is that of its message. *)
Theorem C138_track : forall X (first : ros_odom X) tl, let ms := first :: tl in
  ~ (qw (r_ori first) = 0 /\ qdot (r_ori first) (r_ori first) = 1 / 2) ->
  length (track ms) = length ms /\
  (exists o r, track ms = o :: r /\ o_pose o = identity) /\
  forall i m o, nth_error ms i = Some m -> nth_error (track ms) i = Some o ->
    o_time o = r_stamp m /\
    compose (mkT (to_matrix (r_ori first)) (r_pos first)) (o_pose o) = mkT (to_matrix (r_ori m)) (r_pos m).
Proof.
  intros X first tl ms H. unfold ms. rewrite track_spec.
  assert (D : det (t_rot (mkT (to_matrix (r_ori first)) (r_pos first))) <> 0).
  { cbn [t_rot]. rewrite singular_iff. intros (A & B). apply H. split; [assumption|]. fold (qlen (r_ori first)). rewrite qlen_split, A, B. lra. }
  split; [now rewrite map_length|]. split.
  - cbn [map]. eexists. eexists. split; [reflexivity|]. cbn [o_pose]. apply inverse_left. exact D.
  - intros i m o Em Eo. rewrite nth_error_map, Em in Eo. cbn in Eo. injection Eo as <-. cbn [o_time o_pose]. split; [reflexivity|]. now apply inverse_right.
Qed.
Print Assumptions C138_track.

(** Distances between stored positions are those between the positions of the messages, up to a factor
    that depends on the length of the first quaternion; they are equal if that is 1. *)
Theorem C138_distances : forall X (first : ros_odom X) tl i j m m' o o', let ms := first :: tl in let n := qdot (r_ori first) (r_ori first) in
  ~ (qw (r_ori first) = 0 /\ n = 1 / 2) ->
  nth_error ms i = Some m -> nth_error ms j = Some m' -> nth_error (track ms) i = Some o -> nth_error (track ms) j = Some o' ->
  let stored := dist2 (t_pos (o_pose o)) (t_pos (o_pose o')) in
  Rabs (dist2 (r_pos m) (r_pos m') - stored) <= 4 * Rabs (n - 1) * n * stored /\
  (n = 1 -> stored = dist2 (r_pos m) (r_pos m')).
Proof.
  intros X first tl i j m m' o o' ms n H Em Em' Eo Eo' stored.
  destruct (C138_track X first tl H) as (_ & _ & T).
  destruct (T i m o Em Eo) as (_ & A). destruct (T j m' o' Em' Eo') as (_ & B).
  pose proof (compose_diff (mkT (to_matrix (r_ori first)) (r_pos first)) (o_pose o) (o_pose o')) as C. rewrite A, B in C. cbn [t_pos t_rot] in C.
  assert (E : dist2 (r_pos m) (r_pos m') = dot (mvec (to_matrix (r_ori first)) (vsub (t_pos (o_pose o)) (t_pos (o_pose o')))) (mvec (to_matrix (r_ori first)) (vsub (t_pos (o_pose o)) (t_pos (o_pose o'))))).
  { unfold dist2. rewrite C. reflexivity. }
  assert (G : Rabs (dist2 (r_pos m) (r_pos m') - stored) <= 4 * Rabs (n - 1) * n * stored) by (rewrite E; apply matrix_length_bound).
  split; [exact G|]. intros N. rewrite N in G. replace (1 - 1) with 0 in G by ring. rewrite Rabs_R0 in G.
  pose proof (Rabs_pos (dist2 (r_pos m) (r_pos m') - stored)) as P. assert (Z : Rabs (dist2 (r_pos m) (r_pos m') - stored) = 0) by lra.
  destruct (Req_dec (dist2 (r_pos m) (r_pos m') - stored) 0) as [Q|Q]; [lra|]. apply Rabs_no_R0 in Q. contradiction.
Qed.
Print Assumptions C138_distances.

(** "The stored track has the size of the message's track" is false without that: a first quaternion
    1 0 0 1 (a quarter turn about z, not normalised) shrinks all distances in the plane. *)
Definition turned (x : R) : ros_odom unit := mkRos time_zero (mkV x 0 0) (mkQ 1 0 0 1) zero_vec zero_vec tt 0.
Example C138_ex_track : track [turned 0; turned 1] = [mkOdom time_zero identity; mkOdom time_zero (mkT ident (mkV (-1 / 5) (-2 / 5) 0))].
Proof.
  unfold turned. tracks (mkQ 1 0 0 1) (mkM (-1) (-2) 0 2 (-1) 0 0 0 1) (mkT (mkM (-1/5) (2/5) 0 (-2/5) (-1/5) 0 0 0 1) zero_vec).
Qed.
Theorem C138_distances_refuted : ~ (forall (ms : list (ros_odom unit)) i j m m' o o',
  nth_error ms i = Some m -> nth_error ms j = Some m' -> nth_error (track ms) i = Some o -> nth_error (track ms) j = Some o' ->
  dist2 (t_pos (o_pose o)) (t_pos (o_pose o')) = dist2 (r_pos m) (r_pos m')).
Proof.
  intros H. specialize (H [turned 0; turned 1] 0%nat 1%nat (turned 0) (turned 1)). rewrite C138_ex_track in H.
  specialize (H _ _ eq_refl eq_refl eq_refl eq_refl). unfold dist2, dot, vsub, turned, identity, zero_vec in H. cbn in H. lra.
Qed.
Print Assumptions C138_distances_refuted.
(** "Asking for the pose gives what a message says" in the sense that an orientation set from a pose is the
    one the message had is false: it may be its negative. *)
Theorem C138_orientation_refuted : ~ (forall (m : odom_msg unit), qdot (m_ori m) (m_ori m) = 1 -> m_ori (set_pose m (pose_in_matrix m)) = m_ori m).
Proof.
  intros H. specialize (H (mkMsg time_zero zero_vec (mkQ (-1) 0 0 0) zero_vec zero_vec tt None) ltac:(unfold qdot; cbn; lra)).
  unfold set_pose, pose_in_matrix in H. cbn [m_ori m_pos t_rot] in H. apply (f_equal qw) in H. cbn [qw] in H.
  unfold quat_of_matrix, to_matrix in H. cbn [m00 m01 m02 m10 m11 m12 m20 m21 m22 qw qx qy qz] in H.
  match type of H with context [Rlt_dec 0 ?t] => destruct (Rlt_dec 0 t) as [L|L]; [|apply L; lra] end.
  cbn [qw] in H. match type of H with context [sqrt ?t] => pose proof (sqrt_pos t) end. lra.
Qed.
Print Assumptions C138_orientation_refuted.

(** A message of unit length: the hypotheses of the theorems and the stored poses. *)
Definition plain (x y : R) : ros_odom unit := mkRos time_zero (mkV x y 0) (mkQ 0 0 0 1) zero_vec zero_vec tt 0.
Example C138_ex_plain : track [plain 1 1; plain 3 1] = [mkOdom time_zero identity; mkOdom time_zero (mkT ident (mkV (-2) 0 0))] /\
  qdot (r_ori (plain 1 1)) (r_ori (plain 1 1)) = 1 /\ rigid (pose_in_matrix (to_local (plain 1 1))).
Proof.
  split; [|split].
  - unfold plain. tracks (mkQ 0 0 0 1) (mkM (-1) 0 0 0 (-1) 0 0 0 1) (mkT (mkM (-1) 0 0 0 (-1) 0 0 0 1) (mkV 1 1 0)).
  - unfold qdot. cbn. lra.
  - apply C138_rigid. left. unfold qdot. cbn. lra.
Qed.
(** Messages without an orientation: only the positions count. *)
Example C138_ex_empty : forall X s s' p p' l a r c, track [mkRos (X := X) s p (mkQ 0 0 0 0) l a r c; mkRos s' p' (mkQ 0 0 0 0) l a r c] =
  [mkOdom s identity; mkOdom s' (mkT ident (vsub p' p))].
Proof.
  intros X s s' [x y z] [x' y' z'] l a r c. tracks (mkQ 0 0 0 0) ident (mkT ident (mkV (- x) (- y) (- z))).
Qed.
