(** Proofs about the odometry messages. *)
From Coq Require Import Reals List ZArith Lra Lia Psatz.
From Verif Require Import Outcome TimeModel GpsModel RigidModel RigidSpec RigidProofs OdomMsgModel.
Import ListNotations.
Local Open Scope R_scope.

Definition qlen (q : quat) : R := qdot q q.
Definition ulen (q : quat) : R := dot (qvec q) (qvec q).
Definition dist2 (p q : vec) : R := dot (vsub p q) (vsub p q).
Ltac vecs := unfold mvec, vadd, vsub, vscale, dot, qvec, to_matrix, qscale, zero_vec, ident in *; cbn [vx vy vz m00 m01 m02 m10 m11 m12 m20 m21 m22 qw qx qy qz] in *.

Lemma det_matrix : forall q, det (to_matrix q) = 1 + 4 * ulen q * (qlen q - 1).
Proof. intros [w x y z]. unfold det, ulen, qlen, qdot. vecs. ring. Qed.
Lemma det_matrix_sq : forall q, det (to_matrix q) = (1 - 2 * ulen q) * (1 - 2 * ulen q) + 4 * (qw q * qw q) * ulen q.
Proof. intros [w x y z]. unfold det, ulen. vecs. ring. Qed.
Lemma ulen_nonneg : forall q, 0 <= ulen q.
Proof. intros [w x y z]. unfold ulen. vecs. nra. Qed.
Lemma ulen_zero : forall q, ulen q = 0 -> qvec q = zero_vec.
Proof. intros [w x y z] H. unfold ulen in H. vecs. assert (x = 0) by nra. assert (y = 0) by nra. assert (z = 0) by nra. subst. reflexivity. Qed.
Lemma qlen_split : forall q, qlen q = qw q * qw q + ulen q.
Proof. intros [w x y z]. unfold qlen, ulen, qdot. vecs. ring. Qed.

Lemma rotation_iff : forall q, rotation (to_matrix q) <-> qlen q = 1 \/ qvec q = zero_vec.
Proof.
  intros q. split.
  - intros [_ D]. rewrite det_matrix in D. assert (P : ulen q * (qlen q - 1) = 0) by lra. apply Rmult_integral in P.
    destruct P as [P|P]; [right; apply ulen_zero; assumption|left; lra].
  - intros [H|H]; [apply unit_rotation; exact H|]. replace (to_matrix q) with ident; [apply rotation_ident|].
    destruct q as [w x y z]. vecs. injection H as -> -> ->. f_equal; ring.
Qed.
Lemma singular_iff : forall q, det (to_matrix q) = 0 <-> qw q = 0 /\ ulen q = 1 / 2.
Proof.
  intros q. rewrite det_matrix_sq. pose proof (ulen_nonneg q) as U. split.
  - intros H. pose proof (Rle_0_sqr (1 - 2 * ulen q)) as A. unfold Rsqr in A.
    pose proof (Rle_0_sqr (qw q)) as B'. unfold Rsqr in B'. pose proof (Rmult_le_pos _ _ B' U) as B.
    assert (C : (1 - 2 * ulen q) * (1 - 2 * ulen q) = 0) by lra. apply Rmult_integral in C. assert (E : ulen q = 1 / 2) by (destruct C; lra).
    split; [|assumption]. rewrite E in H. assert (W : qw q * qw q = 0) by lra. apply Rmult_integral in W. destruct W; assumption.
  - intros (-> & ->). lra.
Qed.

(** The matrix of a quaternion of any length. *)
Lemma matrix_mix : forall q v, 0 < qlen q -> mvec (to_matrix q) v = vadd v (vscale (qlen q) (vsub (mvec (to_matrix (normalized q)) v) v)).
Proof.
  intros q v H. unfold normalized. fold (qlen q). destruct (Rlt_dec 0 (qlen q)) as [L|L]; [|contradiction].
  set (k := sqrt (qlen q)). assert (K : k * k = qlen q) by (apply sqrt_sqrt; lra).
  assert (K0 : k <> 0) by (intros E; rewrite E in K; lra).
  assert (I : qlen q * (/ k * / k) = 1) by (rewrite <- K; field; assumption).
  destruct q as [w x y z], v as [a b c]. fold k. clearbody k. generalize dependent (/ k). intros i I. generalize dependent (qlen (mkQ w x y z)). intros n H _ K I.
  vecs. assert (E : forall u v, n * (i * u * (i * v)) = u * v) by (intros u v; transitivity (n * (i * i) * (u * v)); [ring|rewrite I; ring]).
  f_equal.
  - transitivity (a + ((- 2 * (n * (i * y * (i * y))) - 2 * (n * (i * z * (i * z)))) * a + (2 * (n * (i * y * (i * x))) - 2 * (n * (i * z * (i * w)))) * b + (2 * (n * (i * z * (i * x))) + 2 * (n * (i * y * (i * w)))) * c)); [rewrite !E; ring|ring].
  - transitivity (b + ((2 * (n * (i * y * (i * x))) + 2 * (n * (i * z * (i * w)))) * a + (- 2 * (n * (i * x * (i * x))) - 2 * (n * (i * z * (i * z)))) * b + (2 * (n * (i * z * (i * y))) - 2 * (n * (i * x * (i * w)))) * c)); [rewrite !E; ring|ring].
  - transitivity (c + ((2 * (n * (i * z * (i * x))) - 2 * (n * (i * y * (i * w)))) * a + (2 * (n * (i * z * (i * y))) + 2 * (n * (i * x * (i * w)))) * b + (- 2 * (n * (i * x * (i * x))) - 2 * (n * (i * y * (i * y)))) * c)); [rewrite !E; ring|ring].
Qed.
Lemma matrix_zero : forall q v, qvec q = zero_vec -> mvec (to_matrix q) v = v.
Proof. intros [w x y z] [a b c] H. vecs. injection H as -> -> ->. f_equal; ring. Qed.

Lemma rotation_dot : forall m v, rotation m -> dot (mvec m v) (mvec m v) = dot v v.
Proof.
  intros m v H. apply rot_trans in H. destruct m as [a b c d e f g h i], v as [x y z]. unfold mmul, mtrans, ident in H. vecs. injection H as H1 H2 H3 H4 H5 H6 H7 H8 H9.
  transitivity (x * x * (a * a + d * d + g * g) + y * y * (b * b + e * e + h * h) + z * z * (c * c + f * f + i * i)
    + 2 * x * y * (a * b + d * e + g * h) + 2 * x * z * (a * c + d * f + g * i) + 2 * y * z * (b * c + e * f + h * i)); [ring|].
  rewrite H1, H2, H3, H5, H6, H9. ring.
Qed.
Lemma matrix_error : forall q v, 0 < qlen q ->
  let d := vsub (mvec (to_matrix q) v) (mvec (to_matrix (normalized q)) v) in
  dot d d <= (2 * (qlen q - 1)) * (2 * (qlen q - 1)) * dot v v.
Proof.
  intros q v H d. unfold d. rewrite matrix_mix by assumption.
  assert (R : rotation (to_matrix (normalized q))) by (apply unit_rotation, normalized_unit; exact H).
  pose proof (rotation_dot _ v R) as D. generalize dependent (mvec (to_matrix (normalized q)) v). intros [a b c] _ D. destruct v as [x y z]. generalize dependent (qlen q). intros n H.
  vecs. pose proof (Rle_0_sqr (a + x)) as A. pose proof (Rle_0_sqr (b + y)) as B. pose proof (Rle_0_sqr (c + z)) as C. unfold Rsqr in *.
  assert (S : (a - x) * (a - x) + (b - y) * (b - y) + (c - z) * (c - z) <= 4 * (x * x + y * y + z * z)) by lra.
  pose proof (Rle_0_sqr (n - 1)) as N. unfold Rsqr in N. pose proof (Rmult_le_compat_l _ _ _ N S) as M.
  match goal with |- ?l <= ?r => replace l with ((n - 1) * (n - 1) * ((a - x) * (a - x) + (b - y) * (b - y) + (c - z) * (c - z))) by ring; replace r with ((n - 1) * (n - 1) * (4 * (x * x + y * y + z * z))) by ring end. exact M.
Qed.

(** How a matrix of a quaternion of any length changes lengths. *)
Lemma matrix_length : forall q v, dot (mvec (to_matrix q) v) (mvec (to_matrix q) v) =
  dot v v + 4 * (qlen q - 1) * (ulen q * dot v v - dot (qvec q) v * dot (qvec q) v).
Proof. intros [w x y z] [a b c]. unfold qlen, ulen, qdot. vecs. ring. Qed.
Lemma matrix_length_bound : forall q v, Rabs (dot (mvec (to_matrix q) v) (mvec (to_matrix q) v) - dot v v) <= 4 * Rabs (qlen q - 1) * qlen q * dot v v.
Proof.
  intros q v. rewrite matrix_length. set (c := ulen q * dot v v - dot (qvec q) v * dot (qvec q) v).
  assert (V : 0 <= dot v v) by (destruct v as [x y z]; vecs; pose proof (Rle_0_sqr x); pose proof (Rle_0_sqr y); pose proof (Rle_0_sqr z); unfold Rsqr in *; lra).
  assert (C0 : 0 <= c).
  { unfold c, ulen. destruct q as [w x y z], v as [p q r]. vecs.
    replace ((x * x + y * y + z * z) * (p * p + q * q + r * r) - (x * p + y * q + z * r) * (x * p + y * q + z * r))
      with ((x * q - y * p)² + (x * r - z * p)² + (y * r - z * q)²) by (unfold Rsqr; ring).
    pose proof (Rle_0_sqr (x * q - y * p)). pose proof (Rle_0_sqr (x * r - z * p)). pose proof (Rle_0_sqr (y * r - z * q)). lra. }
  assert (C1 : c <= qlen q * dot v v).
  { unfold c. pose proof (Rle_0_sqr (dot (qvec q) v)) as S. unfold Rsqr in S. rewrite qlen_split. pose proof (Rle_0_sqr (qw q)) as W. unfold Rsqr in W.
    pose proof (Rmult_le_pos _ _ W V). lra. }
  replace (dot v v + 4 * (qlen q - 1) * c - dot v v) with (4 * (qlen q - 1) * c) by ring. rewrite !Rabs_mult. rewrite (Rabs_right 4) by lra. rewrite (Rabs_right c) by lra.
  rewrite (Rmult_assoc _ (qlen q)). apply Rmult_le_compat_l; [|assumption]. pose proof (Rabs_pos (qlen q - 1)). lra.
Qed.

(** The inverse. *)
Lemma inverse_left : forall t, det (t_rot t) <> 0 -> compose (inverse t) t = identity.
Proof.
  intros [[a b c d e f g h i] [x y z]] H. unfold det in H. cbn [t_rot m00 m01 m02 m10 m11 m12 m20 m21 m22] in H.
  unfold compose, inverse, identity, product. cbn [t_rot t_pos]. vecs.
  assert (D : a * (e * i - f * h) + b * (f * g - d * i) + c * (d * h - e * g) <> 0) by (intros E; apply H; rewrite <- E; ring).
  f_equal; f_equal; field; assumption.
Qed.
Lemma inverse_right : forall t u, det (t_rot t) <> 0 -> compose t (compose (inverse t) u) = u.
Proof.
  intros [[a b c d e f g h i] [x y z]] [[a' b' c' d' e' f' g' h' i'] [x' y' z']] H. unfold det in H. cbn [t_rot m00 m01 m02 m10 m11 m12 m20 m21 m22] in H.
  unfold compose, inverse, product. cbn [t_rot t_pos]. vecs.
  assert (D : a * (e * i - f * h) + b * (f * g - d * i) + c * (d * h - e * g) <> 0) by (intros E; apply H; rewrite <- E; ring).
  f_equal; f_equal; field; assumption.
Qed.
Lemma compose_diff : forall t a b, vsub (t_pos (compose t a)) (t_pos (compose t b)) = mvec (t_rot t) (vsub (t_pos a) (t_pos b)).
Proof. intros [[] []] [ra [x y z]] [rb [x' y' z']]. unfold compose. cbn [t_rot t_pos]. vecs. f_equal; ring. Qed.

(** The stored poses. *)
Lemma track_spec : forall X (first : ros_odom X) tl,
  track (first :: tl) = map (fun m => mkOdom (r_stamp m) (compose (inverse (mkT (to_matrix (r_ori first)) (r_pos first))) (mkT (to_matrix (r_ori m)) (r_pos m)))) (first :: tl).
Proof.
  intros X first tl. unfold track.
  assert (L : forall m : ros_odom X, mkOdom (m_stamp (to_local m)) (pose_in_matrix (to_local m)) = mkOdom (r_stamp m) (mkT (to_matrix (r_ori m)) (r_pos m))).
  { intros [s [x y z] [w a b c] l an r ch]. reflexivity. }
  assert (G : forall (ms : list (ros_odom X)) s off, os_offset s = Some off ->
    os_track (fold_left insert ms s) = os_track s ++ map (fun m => mkOdom (r_stamp m) (compose (inverse off) (mkT (to_matrix (r_ori m)) (r_pos m)))) ms).
  { induction ms as [|m ms IH]; intros s off E; [cbn; now rewrite app_nil_r|]. cbn [fold_left map]. rewrite (IH _ off).
    - unfold insert, add_odom. rewrite L, E. cbn [os_track o_time o_pose]. now rewrite <- app_assoc.
    - unfold insert, add_odom. rewrite E. reflexivity. }
  cbn [fold_left]. rewrite (G tl _ (mkT (to_matrix (r_ori first)) (r_pos first))).
  - unfold insert, add_odom. rewrite L. reflexivity.
  - unfold insert, add_odom. rewrite L. reflexivity.
Qed.

