(** C109 to C111: Euler angles, rotation blocks and interpolation of poses. *)
From Coq Require Import Reals List Lra Lia.
From Verif Require Import Outcome RigidModel RigidSpec RigidProofs.
Import ListNotations.
Local Open Scope R_scope.

(** ** C109: poses written as translation and Euler angles *)

(** The angles stand for turns about x, then y, then z (fixed axes). *)
Theorem C109_angles_to_rotation : forall e,
  eulers_to_matrix e = mmul (about_z (vz e)) (mmul (about_y (vy e)) (about_x (vx e))) /\ rotation (eulers_to_matrix e).
Proof. intros e. rewrite eulers_zyx. split; [apply zyx_product|apply rotation_zyx]. Qed.
Print Assumptions C109_angles_to_rotation.

(** A pose survives the conversion to six numbers and back if its x axis is not within 1e-6 of the vertical. *)
Theorem C109_pose_roundtrip : forall t, rigid t ->
  1 / 1000000 <= sqrt (m00 (t_rot t) * m00 (t_rot t) + m10 (t_rot t) * m10 (t_rot t)) ->
  vector6_to_transform (transform_to_vector6 t) = t.
Proof.
  intros [r p] H B. unfold vector6_to_transform, transform_to_vector6. cbn [t_rot t_pos fst snd] in *.
  rewrite euler_roundtrip by auto. reflexivity.
Qed.
Print Assumptions C109_pose_roundtrip.

(** Near the vertical it changes by less than 2e-6 in each entry; if the x axis is vertical it survives. *)
Theorem C109_pose_near_vertical : forall t, rigid t ->
  let s := sqrt (m00 (t_rot t) * m00 (t_rot t) + m10 (t_rot t) * m10 (t_rot t)) in
  s < 1 / 1000000 ->
  close (2 * s) (t_rot (vector6_to_transform (transform_to_vector6 t))) (t_rot t) /\
  t_pos (vector6_to_transform (transform_to_vector6 t)) = t_pos t.
Proof.
  intros [r p] H s B. unfold vector6_to_transform, transform_to_vector6. cbn [t_rot t_pos fst snd] in *. subst s.
  split; auto. apply euler_singular; auto.
Qed.
Print Assumptions C109_pose_near_vertical.

Lemma close_zero : forall a b, close 0 a b -> a = b.
Proof.
  intros a b H. unfold close in H. assert (Z : forall x y, Rabs (x - y) <= 0 -> x = y).
  { intros x y L. pose proof (Rabs_pos (x - y)). assert (E : Rabs (x - y) = 0) by lra.
    destruct (Req_dec (x - y) 0) as [|N]; [lra|]. apply Rabs_no_R0 in N. lra. }
  destruct a, b. cbn in H. decompose [and] H. f_equal; auto.
Qed.
Theorem C109_pose_vertical : forall t, rigid t -> m00 (t_rot t) = 0 -> m10 (t_rot t) = 0 ->
  vector6_to_transform (transform_to_vector6 t) = t.
Proof.
  intros t H A B. assert (S : sqrt (m00 (t_rot t) * m00 (t_rot t) + m10 (t_rot t) * m10 (t_rot t)) = 0).
  { rewrite A, B. replace (0 * 0 + 0 * 0) with 0 by ring. apply sqrt_0. }
  destruct (C109_pose_near_vertical t H) as [C D]; rewrite S in *; [lra|].
  rewrite Rmult_0_r in C. apply close_zero in C.
  destruct (vector6_to_transform (transform_to_vector6 t)), t. cbn in *. congruence.
Qed.
Print Assumptions C109_pose_vertical.

(** Angles in their ranges survive the conversion to a matrix and back. *)
Theorem C109_angles_roundtrip : forall e, - PI < vx e <= PI -> - (PI / 2) < vy e < PI / 2 -> - PI < vz e <= PI ->
  1 / 1000000 <= cos (vy e) -> matrix_to_eulers (eulers_to_matrix e) = e.
Proof. exact euler_angles_roundtrip. Qed.
Print Assumptions C109_angles_roundtrip.

(** The ranges of the angles, for any matrix. *)
Theorem C109_ranges : forall m, let e := matrix_to_eulers m in
  - PI <= vx e <= PI /\ - (PI / 2) <= vy e <= PI / 2 /\ - PI <= vz e <= PI.
Proof.
  intros m. cbv zeta. unfold matrix_to_eulers. set (s := sqrt _). assert (P : 0 <= s) by apply sqrt_pos.
  pose proof PI_RGT_0.
  assert (H2 : - (PI / 2) <= atan2 (- m20 m) s <= PI / 2).
  { unfold atan2. destruct (Rlt_dec 0 s). { pose proof (atan_bound (- m20 m / s)). lra. }
    destruct (Rlt_dec s 0); [lra|]. destruct (Rlt_dec _ _); [lra|]. destruct (Rlt_dec _ _); lra. }
  assert (R : forall y x, - PI <= atan2 y x <= PI).
  { intros y x. destruct (atan2_range y x). lra. }
  destruct (Rlt_dec s (1 / 1000000)); cbn [vx vy vz]; repeat split; try apply R; try apply H2; lra.
Qed.
Print Assumptions C109_ranges.

Example C109_ex : let e := mkV (PI / 6) (PI / 3) PI in matrix_to_eulers (eulers_to_matrix e) = e.
Proof.
  cbv zeta. pose proof PI_RGT_0. apply C109_angles_roundtrip; cbn [vx vy vz]; try lra. rewrite cos_PI3. lra.
Qed.
(** The x axis is vertical: roll and yaw turn about the same line, the yaw is given as 0. *)
Example C109_ex_vertical : let m := eulers_to_matrix (mkV 0 (PI / 2) (PI / 2)) in
  matrix_to_eulers m = mkV (- (PI / 2)) (PI / 2) 0.
Proof.
  cbv zeta. rewrite eulers_zyx. unfold zyx, matrix_to_eulers. cbn [m00 m01 m02 m10 m11 m12 m20 m21 m22 vx vy vz].
  rewrite cos_0, sin_0, cos_PI2, sin_PI2.
  match goal with |- context [sqrt ?x] => replace x with 0 by ring end. rewrite sqrt_0.
  destruct (Rlt_dec 0 _) as [_|]; [|lra]. unfold atan2.
  repeat (match goal with |- context [Rlt_dec ?a ?b] => destruct (Rlt_dec a b); try lra | |- context [Rle_dec ?a ?b] => destruct (Rle_dec a b); try lra end).
  all: f_equal; lra.
Qed.

(** Near the vertical a pose does not survive: the small yaw of its x axis is lost. *)
Definition steep : mat := eulers_to_matrix (mkV 0 (acos (1 / 2000000)) (PI / 2)).
Lemma steep_angle : cos (acos (1 / 2000000)) = 1 / 2000000 /\ 0 < sin (acos (1 / 2000000)).
Proof.
  assert (C : cos (acos (1 / 2000000)) = 1 / 2000000) by (apply cos_acos; lra). split; auto.
  rewrite sin_acos by lra. apply sqrt_lt_R0. unfold Rsqr. lra.
Qed.
Theorem C109_roundtrip_refuted : ~ (forall t, rigid t -> vector6_to_transform (transform_to_vector6 t) = t).
Proof.
  intros H. specialize (H (mkT steep zero_vec)). destruct steep_angle as [C S].
  assert (R : rigid (mkT steep zero_vec)) by (apply C109_angles_to_rotation). specialize (H R).
  apply (f_equal (fun t => m10 (t_rot t))) in H. revert H.
  unfold vector6_to_transform, transform_to_vector6, steep. cbn [t_rot t_pos fst snd].
  rewrite !eulers_zyx. unfold matrix_to_eulers, zyx. cbn [m00 m01 m02 m10 m11 m12 m20 m21 m22 vx vy vz].
  rewrite cos_PI2, sin_PI2, C.
  replace (0 * (1 / 2000000) * (0 * (1 / 2000000)) + 1 * (1 / 2000000) * (1 * (1 / 2000000))) with ((1 / 2000000) * (1 / 2000000)) by ring.
  rewrite sqrt_square by lra. destruct (Rlt_dec _ _) as [_|L]; [|lra]. cbn [vx vy vz]. rewrite sin_0. lra.
Qed.
Print Assumptions C109_roundtrip_refuted.

(** ** C110: NormalizeRotation *)
Theorem C110_result_rigid : forall t, rigid (normalize_rotation t) /\ t_pos (normalize_rotation t) = t_pos t.
Proof. intros t. split; [apply normalize_rigid|reflexivity]. Qed.
Print Assumptions C110_result_rigid.
Theorem C110_rigid_unchanged : forall t, rigid t -> normalize_rotation t = t.
Proof. exact normalize_id. Qed.
Print Assumptions C110_rigid_unchanged.
Theorem C110_idempotent : forall t, normalize_rotation (normalize_rotation t) = normalize_rotation t.
Proof. intros t. apply normalize_id, normalize_rigid. Qed.
Print Assumptions C110_idempotent.
(** The quaternion of a rotation gives the rotation back, in all four branches of Eigen's conversion. *)
Theorem C110_quaternion : forall m, rotation m ->
  to_matrix (quat_of_matrix m) = m /\ qdot (quat_of_matrix m) (quat_of_matrix m) = 1.
Proof. intros m H. destruct (unit_quat m H). auto. Qed.
Print Assumptions C110_quaternion.
Example C110_ex : normalize_rotation (mkT (mkM 2 0 0 0 2 0 0 0 2) (mkV 5 6 7)) = mkT ident (mkV 5 6 7).
Proof.
  unfold normalize_rotation, quat_of_matrix. cbn [t_rot t_pos m00 m01 m02 m10 m11 m12 m20 m21 m22].
  destruct (Rlt_dec _ _) as [_|]; [|lra]. f_equal. cbv zeta. set (s := sqrt (2 + 2 + 2 + 1)).
  assert (P : 0 < s) by (apply sqrt_lt_R0; lra). set (k := 1 / 2 / s).
  unfold normalized. assert (D : qdot (mkQ (1 / 2 * s) ((0 - 0) * k) ((0 - 0) * k) ((0 - 0) * k)) (mkQ (1 / 2 * s) ((0 - 0) * k) ((0 - 0) * k) ((0 - 0) * k)) = (1 / 2 * s) * (1 / 2 * s)).
  { unfold qdot. cbn [qw qx qy qz]. ring. }
  destruct (Rlt_dec _ _); unfold to_matrix, ident, qscale; cbn [qw qx qy qz]; f_equal; ring.
Qed.
Example C110_ex_half_turn : rotation (mkM (-1) 0 0 0 1 0 0 0 (-1)) /\
  normalize_rotation (mkT (mkM (-1) 0 0 0 1 0 0 0 (-1)) zero_vec) = mkT (mkM (-1) 0 0 0 1 0 0 0 (-1)) zero_vec.
Proof.
  assert (R : rotation (mkM (-1) 0 0 0 1 0 0 0 (-1))).
  { unfold rotation, mmul, mtrans, ident, det. cbn [m00 m01 m02 m10 m11 m12 m20 m21 m22]. split; [f_equal; ring|ring]. }
  split; auto. apply C110_rigid_unchanged. exact R.
Qed.

(** ** C111: InterpolateTransform and MotionCompensation *)
Theorem C111_factor : forall t1 t2 f,
  (0 <= f <= 1 -> exists t, interpolate t1 t2 f = Ok t) /\ (~ 0 <= f <= 1 -> interpolate t1 t2 f = Abort).
Proof.
  intros. unfold interpolate. destruct (Rle_dec 0 f), (Rle_dec f 1); split; intros; try (exfalso; lra); eauto.
Qed.
Print Assumptions C111_factor.

Lemma interp_ok : forall t1 t2 f t, interpolate t1 t2 f = Ok t -> 0 <= f <= 1 /\
  t_rot t = to_matrix (slerp f (quat_of_matrix (t_rot t1)) (quat_of_matrix (t_rot t2))) /\
  t_pos t = vadd (t_pos t1) (vscale f (vsub (t_pos t2) (t_pos t1))).
Proof.
  intros t1 t2 f t H. unfold interpolate in H. destruct (Rle_dec 0 f), (Rle_dec f 1); try discriminate. inversion H; subst. cbn. auto.
Qed.
Lemma transform_eq : forall a b, t_rot a = t_rot b -> t_pos a = t_pos b -> a = b.
Proof. intros [] []; cbn; congruence. Qed.

Theorem C111_ends : forall t1 t2, rigid t1 -> rigid t2 -> interpolate t1 t2 0 = Ok t1 /\ interpolate t1 t2 1 = Ok t2.
Proof.
  intros t1 t2 H1 H2. destruct (unit_quat _ H1) as [U1 M1]. destruct (unit_quat _ H2) as [U2 M2].
  destruct (slerp_ends _ _ U1 U2) as [S0 S1].
  split; unfold interpolate; (destruct (Rle_dec _ _); [|lra]); (destruct (Rle_dec _ _); [|lra]); f_equal; apply transform_eq; cbn [t_rot t_pos]; try congruence;
    destruct (t_pos t1) as [a1 a2 a3], (t_pos t2) as [b1 b2 b3]; unfold vadd, vscale, vsub; cbn [vx vy vz]; f_equal; ring.
Qed.
Print Assumptions C111_ends.

Theorem C111_same : forall t f, rigid t -> 0 <= f <= 1 -> interpolate t t f = Ok t.
Proof.
  intros t f H F. destruct (unit_quat _ H) as [U M]. unfold interpolate. destruct (Rle_dec _ _); [|lra]. destruct (Rle_dec _ _); [|lra].
  f_equal. apply transform_eq; cbn [t_rot t_pos].
  - rewrite slerp_same; auto. rewrite U. apply Rabs_R1.
  - destruct (t_pos t) as [a1 a2 a3]. unfold vadd, vscale, vsub; cbn [vx vy vz]; f_equal; ring.
Qed.
Print Assumptions C111_same.

(** The translation moves along the line at constant speed. *)
Theorem C111_translation : forall t1 t2 f t, interpolate t1 t2 f = Ok t ->
  vx (t_pos t) = (1 - f) * vx (t_pos t1) + f * vx (t_pos t2) /\
  vy (t_pos t) = (1 - f) * vy (t_pos t1) + f * vy (t_pos t2) /\
  vz (t_pos t) = (1 - f) * vz (t_pos t1) + f * vz (t_pos t2).
Proof.
  intros t1 t2 f t H. destruct (interp_ok _ _ _ _ H) as [_ [_ ->]]. unfold vadd, vscale, vsub. cbn [vx vy vz]. repeat split; ring.
Qed.
Print Assumptions C111_translation.

Lemma half_angle : forall a b, qdot a a = 1 -> qdot b b = 1 ->
  angle_between (to_matrix a) (to_matrix b) = 2 * acos (Rabs (qdot a b)) /\ 0 <= acos (Rabs (qdot a b)) <= PI / 2 /\
  cos (acos (Rabs (qdot a b))) = Rabs (qdot a b).
Proof.
  intros a b A B. pose proof (cauchy a b A B) as K. pose proof (Rabs_pos (qdot a b)). pose proof PI_RGT_0.
  assert (C : cos (acos (Rabs (qdot a b))) = Rabs (qdot a b)) by (apply cos_acos; lra).
  pose proof (acos_bound (Rabs (qdot a b))) as Bd.
  assert (L : 0 <= acos (Rabs (qdot a b)) <= PI / 2).
  { split; [lra|]. apply Rnot_lt_le. intros G. assert (cos (acos (Rabs (qdot a b))) < 0) by (apply cos_lt_0; lra). lra. }
  split; [|auto]. apply angle_dot; auto. rewrite C. rewrite <- Rabs_mult. symmetry. apply Rabs_right. nra.
Qed.

(** The rotation turns at constant speed about one axis, by the short way, if the poses are not almost equal. *)
Theorem C111_rotation : forall t1 t2 f t, rigid t1 -> rigid t2 -> interpolate t1 t2 f = Ok t ->
  let a := angle_between (t_rot t1) (t_rot t2) in
  cos (a / 2) < 1 - / 4503599627370496 ->
  rigid t /\ angle_between (t_rot t1) (t_rot t) = f * a /\ angle_between (t_rot t) (t_rot t2) = (1 - f) * a.
Proof.
  intros t1 t2 f t H1 H2 H. cbv zeta. destruct (interp_ok _ _ _ _ H) as [F [R _]].
  destruct (unit_quat _ H1) as [U1 M1]. destruct (unit_quat _ H2) as [U2 M2].
  set (q1 := quat_of_matrix (t_rot t1)) in *. set (q2 := quat_of_matrix (t_rot t2)) in *.
  unfold rigid. rewrite R, <- M1, <- M2. destruct (half_angle q1 q2 U1 U2) as [E [B C]]. rewrite E.
  set (th := acos (Rabs (qdot q1 q2))) in *. replace (2 * th / 2) with th by field. intros L. rewrite C in L.
  destruct (slerp_curved f q1 q2 U1 U2) as [S1 [S2 S3]]; [exact L|]. cbv zeta in *. fold th in S2, S3.
  split; [apply unit_rotation; auto|]. split.
  - rewrite (angle_dot q1 (slerp f q1 q2) (f * th)); auto; [ring|rewrite S2; reflexivity|]. split; [apply Rmult_le_pos; lra|].
    apply Rle_trans with (1 * th); [apply Rmult_le_compat_r; lra|lra].
  - rewrite <- (near_matrix q1 q2). rewrite (angle_dot (slerp f q1 q2) (near q1 q2) ((1 - f) * th)); auto using near_unit; [ring|rewrite S3; reflexivity|].
    split; [apply Rmult_le_pos; lra|]. apply Rle_trans with (1 * th); [apply Rmult_le_compat_r; lra|lra].
Qed.
Print Assumptions C111_rotation.

(** In any case the rotation block is a rotation up to 2^-52 in each entry. *)
Theorem C111_rotation_close : forall t1 t2 f t, rigid t1 -> rigid t2 -> interpolate t1 t2 f = Ok t ->
  exists r, rotation r /\ close (/ 4503599627370496) (t_rot t) r.
Proof.
  intros t1 t2 f t H1 H2 H. destruct (interp_ok _ _ _ _ H) as [F [R _]]. rewrite R.
  destruct (unit_quat _ H1) as [U1 M1]. destruct (unit_quat _ H2) as [U2 M2]. pose proof eps_pos as EP.
  destruct (Rle_dec (1 - eps) (Rabs (qdot (quat_of_matrix (t_rot t1)) (quat_of_matrix (t_rot t2))))) as [L|L].
  - destruct (slerp_flat f _ _ U1 U2 L F) as [S1 S2].
    destruct (nearly_rotation (slerp f (quat_of_matrix (t_rot t1)) (quat_of_matrix (t_rot t2))) (eps / 2)) as [r [A B]]; [lra|auto|].
    exists r. split; auto. replace (2 * (eps / 2)) with eps in B by field. exact B.
  - destruct (slerp_curved f _ _ U1 U2) as [S1 _]; [lra|]. eexists. split; [apply unit_rotation; exact S1|].
    unfold close, eps in *. rewrite !Rminus_diag_eq, Rabs_R0 by reflexivity. repeat split; lra.
Qed.
Print Assumptions C111_rotation_close.

(** MotionCompensation: it stops iff the factor of some point is not in [0, 1]. *)
Theorem C111_compensation_aborts : forall ps d,
  (Forall (fun p => 0 <= p_factor p <= 1) ps -> exists qs, motion_compensation ps d = Ok qs) /\
  (Exists (fun p => ~ 0 <= p_factor p <= 1) ps -> motion_compensation ps d = Abort).
Proof.
  intros ps d. induction ps as [|p ps [IH1 IH2]]; cbn [motion_compensation].
  - split; [eauto|intros H; inversion H].
  - destruct (C111_factor identity d (p_factor p)) as [G1 G2]. split; intros H.
    + inversion H; subst. destruct (G1 H2) as [t ->]. destruct (IH1 H3) as [qs ->]. cbn [bind]. eauto.
    + assert (D : 0 <= p_factor p <= 1 \/ ~ 0 <= p_factor p <= 1) by (destruct (Rle_dec 0 (p_factor p)), (Rle_dec (p_factor p) 1); auto; right; lra).
      destruct D as [D|D].
      * destruct (G1 D) as [t ->]. cbn [bind]. inversion H; subst; [contradiction|]. rewrite IH2 by auto. reflexivity.
      * rewrite G2 by auto. reflexivity.
Qed.
Print Assumptions C111_compensation_aborts.

(** The points keep their order, intensities and factors; each is moved by the motion up to its own time:
    the first of the scan not at all, the last by the whole motion. *)
Theorem C111_compensation : forall ps d qs, rigid d -> motion_compensation ps d = Ok qs ->
  Forall2 (fun p q => p_intensity q = p_intensity p /\ p_factor q = p_factor p /\
    (p_factor p = 0 -> p_at q = p_at p) /\ (p_factor p = 1 -> p_at q = apply d (p_at p)) /\
    exists t, interpolate identity d (p_factor p) = Ok t /\ p_at q = apply t (p_at p)) ps qs.
Proof.
  intros ps d. induction ps as [|p ps IH]; intros qs D H; cbn [motion_compensation] in H.
  - inversion H; subst. constructor.
  - destruct (interpolate identity d (p_factor p)) as [t| | |] eqn:E; try discriminate. cbn [bind] in H.
    destruct (motion_compensation ps d) as [r| | |]; try discriminate. cbn [bind] in H. inversion H; subst. constructor; auto.
    cbn [p_at p_intensity p_factor]. assert (I : rigid identity) by apply rotation_ident.
    destruct (C111_ends identity d I D) as [E0 E1]. repeat split; auto.
    + intros Z. rewrite Z, E0 in E. inversion E; subst. destruct (p_at p) as [a1 a2 a3]. unfold apply, identity, mvec, ident, zero_vec, vadd. cbn [t_rot t_pos m00 m01 m02 m10 m11 m12 m20 m21 m22 vx vy vz]. f_equal; ring.
    + intros Z. rewrite Z, E1 in E. inversion E; subst. reflexivity.
    + exists t. auto.
Qed.
Print Assumptions C111_compensation.

(** Half a quarter turn about z: at factor 1/2 the sensor has turned by 45 degrees. *)
Definition quarter : transform := mkT (about_z (PI / 2)) (mkV 2 0 0).
Example C111_ex : rigid quarter /\ angle_between (t_rot identity) (t_rot quarter) = PI / 2 /\
  exists t, interpolate identity quarter (1 / 2) = Ok t /\ t_pos t = mkV 1 0 0 /\ rigid t /\ angle_between (t_rot identity) (t_rot t) = PI / 4.
Proof.
  pose proof PI_RGT_0. assert (R : rigid quarter) by apply rotation_about. assert (I : rigid identity) by apply rotation_ident.
  assert (A : angle_between (t_rot identity) (t_rot quarter) = PI / 2).
  { unfold angle_between, trace, quarter, identity, about_z, mmul, mtrans, ident. cbn [t_rot m00 m01 m02 m10 m11 m12 m20 m21 m22]. rewrite cos_PI2, sin_PI2.
    match goal with |- acos ?x = _ => replace x with (cos (PI / 2)) by (rewrite cos_PI2; field) end. apply acos_cos. lra. }
  split; auto. split; auto. destruct (C111_factor identity quarter (1 / 2)) as [G _]. destruct G as [t E]; [lra|]. exists t. split; auto.
  destruct (C111_translation _ _ _ _ E) as [T1 [T2 T3]]. split.
  - destruct (t_pos t) as [a1 a2 a3]. cbn in *. f_equal; lra.
  - destruct (C111_rotation _ _ _ _ I R E) as [K1 [K2 _]].
    + rewrite A. replace (PI / 2 / 2) with (PI / 4) by field. rewrite cos_PI4.
      assert (1 < sqrt 2) by (rewrite <- sqrt_1 at 1; apply sqrt_lt_1; lra).
      assert (S2 : sqrt 2 * sqrt 2 = 2) by (apply sqrt_sqrt; lra).
      assert (sqrt 2 < 3 / 2) by nra. replace (1 / sqrt 2) with (sqrt 2 / 2).
      * assert (/ 4503599627370496 < 1 / 4) by (unfold Rdiv; rewrite Rmult_1_l; apply Rinv_lt_contravar; lra). lra.
      * apply Rmult_eq_reg_r with (sqrt 2); [|lra]. replace (sqrt 2 / 2 * sqrt 2) with (sqrt 2 * sqrt 2 / 2) by field. rewrite S2. field. lra.
    + split; auto. rewrite K2, A. field.
Qed.
