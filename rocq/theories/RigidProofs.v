(** Lemmas about rotations, Euler angles and quaternions. *)
From Coq Require Import Reals List Lra Lia Psatz.
From Verif Require Import Outcome RigidModel RigidSpec.
Import ListNotations.
Local Open Scope R_scope.

(** ** Rotations *)
Definition adj (m : mat) : mat :=
  mkM (m11 m * m22 m - m12 m * m21 m) (m02 m * m21 m - m01 m * m22 m) (m01 m * m12 m - m02 m * m11 m)
      (m12 m * m20 m - m10 m * m22 m) (m00 m * m22 m - m02 m * m20 m) (m02 m * m10 m - m00 m * m12 m)
      (m10 m * m21 m - m11 m * m20 m) (m01 m * m20 m - m00 m * m21 m) (m00 m * m11 m - m01 m * m10 m).
Ltac mat_ext := unfold mmul, mtrans, ident; cbn [m00 m01 m02 m10 m11 m12 m20 m21 m22]; f_equal; try ring.
Lemma mat_eq : forall a b, m00 a = m00 b -> m01 a = m01 b -> m02 a = m02 b -> m10 a = m10 b -> m11 a = m11 b ->
  m12 a = m12 b -> m20 a = m20 b -> m21 a = m21 b -> m22 a = m22 b -> a = b.
Proof. intros [] []. cbn. intros. subst. reflexivity. Qed.
Lemma mmul_assoc : forall a b c, mmul a (mmul b c) = mmul (mmul a b) c.
Proof. intros. mat_ext. Qed.
Lemma mmul_ident_r : forall a, mmul a ident = a.
Proof. intros []. mat_ext. Qed.
Lemma mmul_ident_l : forall a, mmul ident a = a.
Proof. intros []. mat_ext. Qed.
Lemma adj_mul : forall m, det m = 1 -> mmul (adj m) m = ident.
Proof.
  intros m H. unfold det in H. apply mat_eq; unfold mmul, adj, ident; cbn [m00 m01 m02 m10 m11 m12 m20 m21 m22];
    try ring; rewrite <- H; ring.
Qed.
Lemma rot_adj : forall m, rotation m -> adj m = mtrans m.
Proof.
  intros m [O D]. rewrite <- (mmul_ident_r (adj m)), <- O, mmul_assoc, (adj_mul m D), mmul_ident_l. reflexivity.
Qed.
Lemma rot_trans : forall m, rotation m -> mmul (mtrans m) m = ident.
Proof. intros m H. rewrite <- (rot_adj m H). apply adj_mul, H. Qed.

(** Everything an entry of a rotation satisfies. *)
Lemma rot_facts : forall m, rotation m ->
  (m11 m * m22 m - m12 m * m21 m = m00 m /\ m02 m * m21 m - m01 m * m22 m = m10 m /\ m01 m * m12 m - m02 m * m11 m = m20 m /\
   m12 m * m20 m - m10 m * m22 m = m01 m /\ m00 m * m22 m - m02 m * m20 m = m11 m /\ m02 m * m10 m - m00 m * m12 m = m21 m /\
   m10 m * m21 m - m11 m * m20 m = m02 m /\ m01 m * m20 m - m00 m * m21 m = m12 m /\ m00 m * m11 m - m01 m * m10 m = m22 m) /\
  (m00 m * m00 m + m01 m * m01 m + m02 m * m02 m = 1 /\ m10 m * m10 m + m11 m * m11 m + m12 m * m12 m = 1 /\
   m20 m * m20 m + m21 m * m21 m + m22 m * m22 m = 1 /\ m00 m * m00 m + m10 m * m10 m + m20 m * m20 m = 1 /\
   m01 m * m01 m + m11 m * m11 m + m21 m * m21 m = 1 /\ m02 m * m02 m + m12 m * m12 m + m22 m * m22 m = 1).
Proof.
  intros m H. pose proof (rot_adj m H) as A. pose proof (rot_trans m H) as B. destruct H as [C _].
  unfold adj, mtrans in A. injection A as A1 A2 A3 A4 A5 A6 A7 A8 A9.
  unfold mmul, mtrans, ident in B, C. cbn [m00 m01 m02 m10 m11 m12 m20 m21 m22] in B, C.
  injection B as B1 B2 B3 B4 B5 B6 B7 B8 B9. injection C as C1 C2 C3 C4 C5 C6 C7 C8 C9.
  repeat split; assumption.
Qed.
Lemma rotation_of : forall m, mmul (mtrans m) m = ident -> det m = 1 -> rotation m.
Proof.
  intros m H D. split; auto. pose proof (adj_mul m D) as A.
  assert (E : mmul m (adj m) = ident).
  { unfold det in D. apply mat_eq; unfold mmul, adj, ident; cbn [m00 m01 m02 m10 m11 m12 m20 m21 m22]; try ring; rewrite <- D; ring. }
  assert (mtrans m = adj m) as ->; auto.
  rewrite <- (mmul_ident_r (mtrans m)), <- E, mmul_assoc, H, mmul_ident_l. reflexivity.
Qed.
Lemma det_mmul : forall a b, det (mmul a b) = det a * det b.
Proof. intros. unfold det, mmul. cbn [m00 m01 m02 m10 m11 m12 m20 m21 m22]. ring. Qed.
Lemma mtrans_mmul : forall a b, mtrans (mmul a b) = mmul (mtrans b) (mtrans a).
Proof. intros. mat_ext. Qed.
Lemma rotation_mmul : forall a b, rotation a -> rotation b -> rotation (mmul a b).
Proof.
  intros a b [A1 A2] [B1 B2]. split.
  - rewrite mtrans_mmul, mmul_assoc, <- (mmul_assoc a b), B1, mmul_ident_r. exact A1.
  - rewrite det_mmul, A2, B2. ring.
Qed.
Lemma rotation_ident : rotation ident.
Proof. split; [mat_ext|unfold det, ident; cbn; ring]. Qed.

(** ** atan2 *)
Lemma sq_sum_pos : forall x y, x <> 0 \/ y <> 0 -> 0 < x * x + y * y.
Proof. intros x y [H|H]; nra. Qed.
Lemma atan_polar : forall x y, 0 < x -> sqrt (x * x + y * y) = x * sqrt (1 + (y / x)²).
Proof.
  intros x y H. rewrite <- (sqrt_square x) at 3 by lra. rewrite <- sqrt_mult by (try nra; unfold Rsqr; nra). f_equal.
  unfold Rsqr. field. lra.
Qed.
Lemma cos_sin_atan2 : forall y x, x <> 0 \/ y <> 0 ->
  cos (atan2 y x) * sqrt (x * x + y * y) = x /\ sin (atan2 y x) * sqrt (x * x + y * y) = y.
Proof.
  intros y x N. unfold atan2.
  assert (S : forall t, 0 < sqrt (1 + t²)). { intros. apply sqrt_lt_R0. unfold Rsqr. nra. }
  destruct (Rlt_dec 0 x) as [P|P].
  - rewrite atan_polar, cos_atan, sin_atan by auto. pose proof (S (y / x)). split; field; lra.
  - destruct (Rlt_dec x 0) as [Q|Q].
    + assert (E : sqrt (x * x + y * y) = - x * sqrt (1 + (y / x)²)).
      { replace (x * x + y * y) with ((- x) * (- x) + (- y) * (- y)) by ring. rewrite atan_polar by lra.
        replace (- y / - x) with (y / x) by (field; lra). reflexivity. }
      pose proof (S (y / x)). rewrite E.
      assert (Hc : forall a, cos (a + PI) = - cos a) by (intros; apply neg_cos).
      assert (Hs : forall a, sin (a + PI) = - sin a) by (intros; apply neg_sin).
      assert (Hc' : forall a, cos (a - PI) = - cos a).
      { intros. replace (cos a) with (- cos (a - PI)); [ring|]. rewrite <- Hc. f_equal. ring. }
      assert (Hs' : forall a, sin (a - PI) = - sin a).
      { intros. replace (sin a) with (- sin (a - PI)); [ring|]. rewrite <- Hs. f_equal. ring. }
      destruct (Rle_dec 0 y).
      * rewrite Hc, Hs, cos_atan, sin_atan. split; field; lra.
      * rewrite Hc', Hs', cos_atan, sin_atan. split; field; lra.
    + assert (x = 0) by lra. subst. destruct (Rlt_dec 0 y).
      * rewrite cos_PI2, sin_PI2. replace (0 * 0 + y * y) with (y * y) by ring. rewrite sqrt_square by lra. lra.
      * destruct (Rlt_dec y 0).
        -- rewrite cos_neg, sin_neg, cos_PI2, sin_PI2. replace (0 * 0 + y * y) with ((- y) * (- y)) by ring.
           rewrite sqrt_square by lra. lra.
        -- destruct N; lra.
Qed.
Lemma atan2_range : forall y x, - PI < atan2 y x <= PI.
Proof.
  intros y x. unfold atan2. pose proof PI_RGT_0. pose proof (atan_bound (y / x)) as [B1 B2].
  destruct (Rlt_dec 0 x); [lra|]. destruct (Rlt_dec x 0).
  - destruct (Rle_dec 0 y).
    + assert (y / x <= 0). { unfold Rdiv. assert (/ x < 0) by (apply Rinv_lt_0_compat; auto). nra. }
      assert (atan (y / x) <= 0). { destruct (Req_dec (y / x) 0) as [->|]; [rewrite atan_0; lra|]. left. rewrite <- atan_0. apply atan_increasing. lra. }
      lra.
    + assert (0 < y / x). { unfold Rdiv. assert (/ x < 0) by (apply Rinv_lt_0_compat; auto). nra. }
      assert (0 < atan (y / x)) by (rewrite <- atan_0; apply atan_increasing; lra). lra.
  - destruct (Rlt_dec 0 y); [lra|]. destruct (Rlt_dec y 0); lra.
Qed.
(** Two angles in (-pi, pi] with the same cosine and sine are equal. *)
Lemma angle_unique : forall a b, - PI < a <= PI -> - PI < b <= PI -> cos a = cos b -> sin a = sin b -> a = b.
Proof.
  intros a b A B C S. pose proof PI_RGT_0.
  assert (K : forall d, -2 * PI < d < 2 * PI -> cos d = 1 -> d = 0).
  { intros d D E. destruct (Req_dec d 0); auto. exfalso.
    assert (cos d < 1); [|lra].
    assert (M : forall e, 0 < e < 2 * PI -> cos e < 1).
    { intros e He. destruct (Rle_dec e PI).
      - rewrite <- cos_0. apply cos_decreasing_1; lra.
      - replace (cos e) with (cos (2 * PI - e)).
        + rewrite <- cos_0. apply cos_decreasing_1; lra.
        + rewrite cos_minus, cos_2PI, sin_2PI. ring. }
    destruct (Rlt_dec 0 d); [apply M; lra|]. rewrite <- cos_neg. apply M. lra. }
  assert (E : a - b = 0); [|lra]. apply K; [lra|]. rewrite cos_minus, C, S. pose proof (sin2_cos2 b) as T. unfold Rsqr in T. lra.
Qed.
Lemma atan2_polar : forall r a, 0 < r -> - PI < a <= PI -> atan2 (r * sin a) (r * cos a) = a.
Proof.
  intros r a P A. pose proof (sin2_cos2 a) as T. unfold Rsqr in T.
  assert (N : r * cos a <> 0 \/ r * sin a <> 0).
  { destruct (Req_dec (cos a) 0) as [C|C].
    - right. intros E. rewrite C in T. apply Rmult_integral in E. destruct E as [E|E]; [lra|rewrite E in T; lra].
    - left. intros E. apply Rmult_integral in E. lra. }
  destruct (cos_sin_atan2 (r * sin a) (r * cos a) N) as [C S].
  assert (Q : sqrt (r * cos a * (r * cos a) + r * sin a * (r * sin a)) = r).
  { replace (r * cos a * (r * cos a) + r * sin a * (r * sin a)) with (r * r * (sin a * sin a + cos a * cos a)) by ring.
    rewrite T, Rmult_1_r. apply sqrt_square. lra. }
  rewrite Q in C, S. apply angle_unique; auto using atan2_range.
  - apply (Rmult_eq_reg_r r); lra.
  - apply (Rmult_eq_reg_r r); lra.
Qed.

(** ** Euler angles *)
Lemma half_cos : forall a, cos a = cos (a / 2) * cos (a / 2) - sin (a / 2) * sin (a / 2).
Proof. intros. replace a with (a / 2 + a / 2) at 1 by field. rewrite cos_plus. reflexivity. Qed.
Lemma half_sin : forall a, sin a = 2 * sin (a / 2) * cos (a / 2).
Proof. intros. replace a with (a / 2 + a / 2) at 1 by field. rewrite sin_plus. ring. Qed.
Lemma half_sq : forall a, sin (a / 2) * sin (a / 2) = 1 - cos (a / 2) * cos (a / 2).
Proof. intros. pose proof (sin2_cos2 (a / 2)) as T. unfold Rsqr in T. lra. Qed.

(** The matrix of the Euler angles, written out. *)
Definition zyx (e : vec) : mat :=
  let cx := cos (vx e) in let sx := sin (vx e) in
  let cy := cos (vy e) in let sy := sin (vy e) in
  let cz := cos (vz e) in let sz := sin (vz e) in
  mkM (cz * cy) (cz * sy * sx - sz * cx) (cz * sy * cx + sz * sx)
      (sz * cy) (sz * sy * sx + cz * cx) (sz * sy * cx - cz * sx)
      (- sy) (cy * sx) (cy * cx).
Lemma eulers_zyx : forall e, eulers_to_matrix e = zyx e.
Proof.
  intros [x y z]. unfold eulers_to_matrix, eulers_to_quat, zyx. cbn [vx vy vz].
  rewrite (half_cos x), (half_sin x), (half_cos y), (half_sin y), (half_cos z), (half_sin z).
  pose proof (half_sq x) as X. pose proof (half_sq y) as Y. pose proof (half_sq z) as Z.
  unfold angle_axis, qmul, to_matrix. cbn [qw qx qy qz vx vy vz].
  set (cx := cos (x / 2)) in *. set (sx := sin (x / 2)) in *. set (cy := cos (y / 2)) in *. set (sy := sin (y / 2)) in *.
  set (cz := cos (z / 2)) in *. set (sz := sin (z / 2)) in *. clearbody cx sx cy sy cz sz.
  apply mat_eq; cbn [m00 m01 m02 m10 m11 m12 m20 m21 m22]; ring [X Y Z].
Qed.
Lemma zyx_product : forall e, zyx e = mmul (about_z (vz e)) (mmul (about_y (vy e)) (about_x (vx e))).
Proof.
  intros [x y z]. unfold zyx, mmul, about_x, about_y, about_z. cbn [m00 m01 m02 m10 m11 m12 m20 m21 m22 vx vy vz].
  f_equal; ring.
Qed.
Lemma rotation_about : forall a, rotation (about_x a) /\ rotation (about_y a) /\ rotation (about_z a).
Proof.
  intros a. pose proof (sin2_cos2 a) as T. unfold Rsqr in T. assert (S : sin a * sin a = 1 - cos a * cos a) by lra.
  repeat split; unfold about_x, about_y, about_z, det, mmul, mtrans, ident; cbn [m00 m01 m02 m10 m11 m12 m20 m21 m22];
    try (f_equal; ring [S]); ring [S].
Qed.
Lemma rotation_zyx : forall e, rotation (zyx e).
Proof. intros. rewrite zyx_product. repeat apply rotation_mmul; apply rotation_about. Qed.

Lemma euler_facts : forall m, rotation m ->
  let s := sqrt (m00 m * m00 m + m10 m * m10 m) in
  let y := atan2 (- m20 m) s in
  0 <= s /\ s * s = m00 m * m00 m + m10 m * m10 m /\ s * s = m21 m * m21 m + m22 m * m22 m /\ s * s = 1 - m20 m * m20 m /\
  cos y = s /\ sin y = - m20 m.
Proof.
  intros m H s y. destruct (rot_facts m H) as [_ [F1 [F2 [F3 [F4 [F5 F6]]]]]].
  assert (P : 0 <= s) by apply sqrt_pos. assert (S : s * s = m00 m * m00 m + m10 m * m10 m) by (apply sqrt_sqrt; nra).
  split; auto. split; auto. split; [lra|]. split; [lra|].
  assert (N : s <> 0 \/ - m20 m <> 0).
  { destruct (Req_dec s 0) as [E|E]; auto. right. rewrite E in S. intros G. assert (G' : m20 m = 0) by lra. rewrite G' in F4. lra. }
  destruct (cos_sin_atan2 (- m20 m) s N) as [C D]. replace (s * s + - m20 m * - m20 m) with 1 in C, D by lra.
  rewrite sqrt_1 in C, D. fold y in C, D. lra.
Qed.

Lemma euler_roundtrip : forall m, rotation m -> 1 / 1000000 <= sqrt (m00 m * m00 m + m10 m * m10 m) ->
  eulers_to_matrix (matrix_to_eulers m) = m.
Proof.
  intros m H Big. rewrite eulers_zyx. unfold matrix_to_eulers. destruct (Rlt_dec _ _) as [L|_]; [lra|].
  destruct (euler_facts m H) as [P [S1 [S2 [S3 [Cy Sy]]]]]. destruct (rot_facts m H) as [[A1 [A2 [A3 [A4 [A5 [A6 [A7 [A8 A9]]]]]]]] _].
  set (s := sqrt (m00 m * m00 m + m10 m * m10 m)) in *.
  assert (Ps : 0 < s) by lra.
  assert (N1 : m00 m <> 0 \/ m10 m <> 0).
  { destruct (Req_dec (m00 m) 0) as [E|]; auto. destruct (Req_dec (m10 m) 0) as [E'|]; auto. rewrite E, E' in S1. clear - S1 Ps. nra. }
  assert (N2 : m22 m <> 0 \/ m21 m <> 0).
  { destruct (Req_dec (m22 m) 0) as [E|]; auto. destruct (Req_dec (m21 m) 0) as [E'|]; auto. rewrite E, E' in S2. clear - S2 Ps. nra. }
  destruct (cos_sin_atan2 (m10 m) (m00 m) N1) as [Cz Sz]. fold s in Cz, Sz.
  destruct (cos_sin_atan2 (m21 m) (m22 m) N2) as [Cx Sx].
  replace (sqrt (m22 m * m22 m + m21 m * m21 m)) with s in Cx, Sx.
  2: { unfold s. f_equal. lra. }
  set (x := atan2 (m21 m) (m22 m)) in *. set (z := atan2 (m10 m) (m00 m)) in *. set (y := atan2 (- m20 m) s) in *.
  unfold zyx. cbn [vx vy vz]. rewrite Cy, Sy. clearbody x y z s.
  assert (Cx' : cos x = m22 m / s) by (rewrite <- Cx; field; lra).
  assert (Sx' : sin x = m21 m / s) by (rewrite <- Sx; field; lra).
  assert (Cz' : cos z = m00 m / s) by (rewrite <- Cz; field; lra).
  assert (Sz' : sin z = m10 m / s) by (rewrite <- Sz; field; lra).
  rewrite Cx', Sx', Cz', Sz'. clear Cx Sx Cz Sz Cx' Sx' Cz' Sz' Cy Sy x y z.
  assert (E : forall a b : R, a = b * (s * s) -> a / (s * s) = b) by (intros a b ->; field; lra).
  pose proof (f_equal (Rmult (m20 m)) A4) as B4. pose proof (f_equal (Rmult (m20 m)) A5) as B5.
  pose proof (f_equal (Rmult (m20 m)) A7) as B7. pose proof (f_equal (Rmult (m20 m)) A8) as B8.
  apply mat_eq; cbn [m00 m01 m02 m10 m11 m12 m20 m21 m22]; try (field; lra); try lra.
  - transitivity ((- (m00 m * m20 m * m21 m) - m10 m * m22 m) / (s * s)); [field; lra|]. apply E. rewrite S3. lra.
  - transitivity ((- (m00 m * m20 m * m22 m) + m10 m * m21 m) / (s * s)); [field; lra|]. apply E. rewrite S3. lra.
  - transitivity ((- (m10 m * m20 m * m21 m) + m00 m * m22 m) / (s * s)); [field; lra|]. apply E. rewrite S3. lra.
  - transitivity ((- (m10 m * m20 m * m22 m) - m00 m * m21 m) / (s * s)); [field; lra|]. apply E. rewrite S3. lra.
Qed.

(** In the singular band the result is off by at most twice the length of the column. *)
Lemma Rabs_sq : forall a s, 0 <= s -> a * a <= s * s -> Rabs a <= s.
Proof. intros a s P H. apply Rabs_le. nra. Qed.
Lemma euler_singular : forall m, rotation m -> sqrt (m00 m * m00 m + m10 m * m10 m) < 1 / 1000000 ->
  close (2 * sqrt (m00 m * m00 m + m10 m * m10 m)) (eulers_to_matrix (matrix_to_eulers m)) m.
Proof.
  intros m H Small. rewrite eulers_zyx. unfold matrix_to_eulers. destruct (Rlt_dec _ _) as [_|L]; [|lra].
  destruct (euler_facts m H) as [P [S1 [S2 [S3 [Cy Sy]]]]].
  destruct (rot_facts m H) as [[A1 [A2 [A3 [A4 [A5 [A6 [A7 [A8 A9]]]]]]]] [F1 [F2 [F3 [F4 [F5 F6]]]]]].
  set (s := sqrt (m00 m * m00 m + m10 m * m10 m)) in *.
  assert (G : m11 m * m11 m + m12 m * m12 m = 1 - m10 m * m10 m) by lra.
  assert (Sq : forall a, 0 <= a * a) by (intros a; apply Rle_0_sqr).
  assert (B10 : m10 m * m10 m <= s * s) by (pose proof (Sq (m00 m)); lra).
  assert (N : m11 m <> 0 \/ - m12 m <> 0).
  { destruct (Req_dec (m11 m) 0) as [E|]; auto. destruct (Req_dec (m12 m) 0) as [E'|]; [|right; lra].
    rewrite E, E' in G. clear - G B10 Small P. nra. }
  destruct (cos_sin_atan2 (- m12 m) (m11 m) N) as [Cx Sx].
  set (r := sqrt (m11 m * m11 m + - m12 m * - m12 m)) in *.
  assert (R0 : 0 <= r) by apply sqrt_pos. assert (R2 : r * r = 1 - m10 m * m10 m).
  { unfold r. rewrite sqrt_sqrt; [lra|]. apply Rplus_le_le_0_compat; apply Sq. }
  assert (R1 : 1 - s * s <= r <= 1) by (pose proof (Sq (m10 m)); clear - R0 R2 H0 B10; nra).
  set (x := atan2 (- m12 m) (m11 m)) in *. set (y := atan2 (- m20 m) s) in *. unfold zyx. cbn [vx vy vz].
  rewrite Cy, Sy, cos_0, sin_0. clearbody x y s r.
  pose proof (sin2_cos2 x) as T. unfold Rsqr in T.
  assert (C1 : Rabs (cos x) <= 1) by (pose proof (Sq (sin x)); apply Rabs_sq; lra). assert (C2 : Rabs (sin x) <= 1) by (pose proof (Sq (cos x)); apply Rabs_sq; lra).
  assert (D1 : Rabs (cos x - m11 m) <= s * s).
  { rewrite <- Cx. replace (cos x - cos x * r) with (cos x * (1 - r)) by ring. rewrite Rabs_mult.
    rewrite (Rabs_pos_eq (1 - r)) by lra. rewrite <- (Rmult_1_l (s * s)). apply Rmult_le_compat; auto using Rabs_pos; lra. }
  assert (D2 : Rabs (sin x + m12 m) <= s * s).
  { replace (m12 m) with (- (sin x * r)) by lra. replace (sin x + - (sin x * r)) with (sin x * (1 - r)) by ring.
    rewrite Rabs_mult. rewrite (Rabs_pos_eq (1 - r)) by lra. rewrite <- (Rmult_1_l (s * s)). apply Rmult_le_compat; auto using Rabs_pos; lra. }
  assert (K00 : Rabs (m00 m) <= s) by (pose proof (Sq (m10 m)); apply Rabs_sq; lra). assert (K10 : Rabs (m10 m) <= s) by (pose proof (Sq (m00 m)); apply Rabs_sq; lra).
  assert (K21 : Rabs (m21 m) <= s) by (pose proof (Sq (m22 m)); apply Rabs_sq; lra). assert (K22 : Rabs (m22 m) <= s) by (pose proof (Sq (m21 m)); apply Rabs_sq; lra).
  assert (K20 : Rabs (m20 m) <= 1) by (pose proof (Sq s); apply Rabs_sq; lra).
  assert (Lin : forall a b, Rabs a <= s * s -> Rabs b <= 1 -> Rabs (b * a) <= s * s).
  { intros a b Ha Hb. rewrite Rabs_mult, <- (Rmult_1_l (s * s)). apply Rmult_le_compat; auto using Rabs_pos. }
  assert (Lin2 : forall a b, Rabs a <= s -> Rabs b <= s -> Rabs (a * b) <= s * s).
  { intros a b Ha Hb. rewrite Rabs_mult. apply Rmult_le_compat; auto using Rabs_pos. }
  assert (Lin3 : forall a, Rabs a <= 1 -> Rabs (s * a) <= s).
  { intros a Ha. rewrite Rabs_mult, (Rabs_pos_eq s) by auto. rewrite <- (Rmult_1_r s) at 2. apply Rmult_le_compat_l; auto. }
  assert (Q : s * s <= s) by (rewrite <- (Rmult_1_r s) at 3; apply Rmult_le_compat_l; lra).
  repeat split; cbn [m00 m01 m02 m10 m11 m12 m20 m21 m22].
  - replace (1 * s - m00 m) with (s + - m00 m) by ring. eapply Rle_trans; [apply Rabs_triang|].
    rewrite Rabs_Ropp, (Rabs_pos_eq s) by auto. lra.
  - replace (1 * - m20 m * sin x - 0 * cos x - m01 m) with (- m20 m * (sin x + m12 m) + m10 m * m22 m) by lra.
    eapply Rle_trans; [apply Rabs_triang|]. specialize (Lin2 _ _ K10 K22).
    assert (Rabs (- m20 m * (sin x + m12 m)) <= s * s) by (apply Lin; [auto|rewrite Rabs_Ropp; auto]). lra.
  - replace (1 * - m20 m * cos x + 0 * sin x - m02 m) with (- m20 m * (cos x - m11 m) + - (m10 m * m21 m)) by lra.
    eapply Rle_trans; [apply Rabs_triang|]. specialize (Lin2 _ _ K10 K21). rewrite Rabs_Ropp.
    assert (Rabs (- m20 m * (cos x - m11 m)) <= s * s) by (apply Lin; [auto|rewrite Rabs_Ropp; auto]). lra.
  - replace (0 * s - m10 m) with (- m10 m) by ring. rewrite Rabs_Ropp. lra.
  - replace (0 * - m20 m * sin x + 1 * cos x - m11 m) with (cos x - m11 m) by ring. lra.
  - replace (0 * - m20 m * cos x - 1 * sin x - m12 m) with (- (sin x + m12 m)) by ring. rewrite Rabs_Ropp. lra.
  - replace (- - m20 m - m20 m) with 0 by ring. rewrite Rabs_R0. lra.
  - replace (s * sin x - m21 m) with (s * sin x + - m21 m) by ring. eapply Rle_trans; [apply Rabs_triang|]. rewrite Rabs_Ropp.
    specialize (Lin3 _ C2). lra.
  - replace (s * cos x - m22 m) with (s * cos x + - m22 m) by ring. eapply Rle_trans; [apply Rabs_triang|]. rewrite Rabs_Ropp.
    specialize (Lin3 _ C1). lra.
Qed.

(** Angles come back if the pitch is not within about 1e-6 of a right angle. *)
Lemma euler_angles_roundtrip : forall e, - PI < vx e <= PI -> - (PI / 2) < vy e < PI / 2 -> - PI < vz e <= PI ->
  1 / 1000000 <= cos (vy e) -> matrix_to_eulers (eulers_to_matrix e) = e.
Proof.
  intros [x y z] X Y Z C. rewrite eulers_zyx. unfold matrix_to_eulers, zyx in *. cbn [m00 m01 m02 m10 m11 m12 m20 m21 m22 vx vy vz] in *.
  pose proof (sin2_cos2 z) as Tz. pose proof (sin2_cos2 y) as Ty. unfold Rsqr in Tz, Ty. pose proof PI_RGT_0.
  replace (cos z * cos y * (cos z * cos y) + sin z * cos y * (sin z * cos y)) with (cos y * cos y * (sin z * sin z + cos z * cos z)) by ring.
  rewrite Tz, Rmult_1_r, sqrt_square by lra. destruct (Rlt_dec _ _) as [L|_]; [lra|]. f_equal.
  - apply atan2_polar; lra.
  - rewrite Ropp_involutive. rewrite <- (Rmult_1_l (sin y)), <- (Rmult_1_l (cos y)). apply atan2_polar; lra.
  - rewrite (Rmult_comm (sin z)), (Rmult_comm (cos z)). apply atan2_polar; lra.
Qed.

(** ** Quaternions *)
Lemma unit_rotation : forall q, qdot q q = 1 -> rotation (to_matrix q).
Proof.
  intros [w x y z] H. unfold qdot in H. cbn in H. assert (W : w * w = 1 - x * x - y * y - z * z) by lra.
  split; unfold to_matrix, det, mmul, mtrans, ident; cbn [qw qx qy qz m00 m01 m02 m10 m11 m12 m20 m21 m22].
  - f_equal; ring [W].
  - ring [W].
Qed.
Lemma qdot_scale : forall k q, qdot (qscale k q) (qscale k q) = k * k * qdot q q.
Proof. intros k []. unfold qdot, qscale. cbn. ring. Qed.
Lemma normalized_unit : forall q, 0 < qdot q q -> qdot (normalized q) (normalized q) = 1.
Proof.
  intros q H. unfold normalized. destruct (Rlt_dec _ _); [|lra].
  assert (S : 0 < sqrt (qdot q q)) by (apply sqrt_lt_R0; auto).
  rewrite qdot_scale. rewrite <- (sqrt_sqrt (qdot q q)) at 3 by lra. field. lra.
Qed.
Lemma normalized_id : forall q, qdot q q = 1 -> normalized q = q.
Proof.
  intros [w x y z] H. unfold normalized. destruct (Rlt_dec _ _); auto. rewrite H, sqrt_1, Rinv_1.
  unfold qscale. cbn. f_equal; ring.
Qed.
Lemma rot_orth : forall m, rotation m ->
  m00 m * m10 m + m01 m * m11 m + m02 m * m12 m = 0 /\ m00 m * m20 m + m01 m * m21 m + m02 m * m22 m = 0 /\
  m10 m * m20 m + m11 m * m21 m + m12 m * m22 m = 0 /\ m00 m * m01 m + m10 m * m11 m + m20 m * m21 m = 0 /\
  m00 m * m02 m + m10 m * m12 m + m20 m * m22 m = 0 /\ m01 m * m02 m + m11 m * m12 m + m21 m * m22 m = 0.
Proof.
  intros m H. pose proof (rot_trans m H) as B. destruct H as [C _].
  unfold mmul, mtrans, ident in B, C. cbn [m00 m01 m02 m10 m11 m12 m20 m21 m22] in B, C.
  injection B as B1 B2 B3 B4 B5 B6 B7 B8 B9. injection C as C1 C2 C3 C4 C5 C6 C7 C8 C9.
  repeat split; assumption.
Qed.

(** The ten products of the components of the quaternion of a rotation. *)
Definition products (q : quat) (m : mat) : Prop :=
  4 * (qw q * qw q) = 1 + m00 m + m11 m + m22 m /\ 4 * (qx q * qx q) = 1 + m00 m - m11 m - m22 m /\
  4 * (qy q * qy q) = 1 - m00 m + m11 m - m22 m /\ 4 * (qz q * qz q) = 1 - m00 m - m11 m + m22 m /\
  4 * (qx q * qw q) = m21 m - m12 m /\ 4 * (qy q * qw q) = m02 m - m20 m /\ 4 * (qz q * qw q) = m10 m - m01 m /\
  4 * (qx q * qy q) = m01 m + m10 m /\ 4 * (qx q * qz q) = m02 m + m20 m /\ 4 * (qy q * qz q) = m12 m + m21 m.
Lemma products_matrix : forall q m, products q m -> to_matrix q = m /\ qdot q q = 1.
Proof.
  intros q m [H1 [H2 [H3 [H4 [H5 [H6 [H7 [H8 [H9 H10]]]]]]]]]. split; [|unfold qdot; lra].
  apply mat_eq; unfold to_matrix; cbn [m00 m01 m02 m10 m11 m12 m20 m21 m22]; lra.
Qed.
Lemma matrix_products : forall q, qdot q q = 1 -> products q (to_matrix q).
Proof.
  intros [w x y z] H. unfold qdot in H. cbn in H. unfold products, to_matrix. cbn [qw qx qy qz m00 m01 m02 m10 m11 m12 m20 m21 m22].
  repeat split; lra.
Qed.
(** The symmetric matrix of the ten products has rank one. *)
Lemma rank_one : forall m, rotation m ->
  let T := 1 + m00 m + m11 m + m22 m in let X := 1 + m00 m - m11 m - m22 m in
  let Y := 1 - m00 m + m11 m - m22 m in let Z := 1 - m00 m - m11 m + m22 m in
  let a := m21 m - m12 m in let b := m02 m - m20 m in let c := m10 m - m01 m in
  let d := m01 m + m10 m in let e := m02 m + m20 m in let f := m12 m + m21 m in
  (a * a = T * X /\ b * b = T * Y /\ c * c = T * Z /\ d * d = X * Y /\ e * e = X * Z /\ f * f = Y * Z) /\
  (a * b = T * d /\ a * c = T * e /\ b * c = T * f /\ a * d = X * b /\ a * e = X * c /\ d * e = X * f /\
   b * d = Y * a /\ b * f = Y * c /\ d * f = Y * e /\ c * e = Z * a /\ c * f = Z * b /\ e * f = Z * d).
Proof.
  intros m H. destruct (rot_facts m H) as [[A1 [A2 [A3 [A4 [A5 [A6 [A7 [A8 A9]]]]]]]] [F1 [F2 [F3 [F4 [F5 F6]]]]]].
  destruct (rot_orth m H) as [O1 [O2 [O3 [O4 [O5 O6]]]]]. cbv zeta.
  repeat split; lra.
Qed.

Lemma sqrt_facts : forall t2, 0 < t2 -> let t := sqrt t2 in let k := 1 / 2 / t in
  0 < t /\ t * t = t2 /\ k * t = 1 / 2 /\ k * k * t2 = 1 / 4.
Proof.
  intros t2 P t k. assert (0 < t) by (apply sqrt_lt_R0; auto). assert (E : t * t = t2) by (apply sqrt_sqrt; lra).
  repeat split; auto.
  - unfold k. field. lra.
  - rewrite <- E. unfold k. field. lra.
Qed.
(** With [t] and [k] as in Eigen: products of the components. *)
Lemma comp1 : forall t k u, k * t = 1 / 2 -> 4 * (1 / 2 * t * (u * k)) = u.
Proof. intros t k u H. transitivity (4 * (1 / 2) * u * (k * t)); [ring|rewrite H; field]. Qed.
Lemma comp2 : forall k t2 u v g, k * k * t2 = 1 / 4 -> u * v = t2 * g -> 4 * (u * k * (v * k)) = g.
Proof. intros k t2 u v g H E. transitivity (4 * (u * v) * (k * k)); [ring|]. rewrite E. transitivity (4 * g * (k * k * t2)); [ring|]. rewrite H. field. Qed.

Lemma quat_products : forall m, rotation m -> products (quat_of_matrix m) m.
Proof.
  intros m H. destruct (rank_one m H) as [[Sa [Sb [Sc [Sd [Se Sf]]]]] [Pab [Pac [Pbc [Pad [Pae [Pde [Pbd [Pbf [Pdf [Pce [Pcf Pef]]]]]]]]]]]].
  cbv zeta in *. unfold quat_of_matrix.
  assert (C : forall a b : R, a * b = b * a) by (intros; ring).
  destruct (Rlt_dec 0 (m00 m + m11 m + m22 m)) as [P|P].
  - destruct (sqrt_facts (m00 m + m11 m + m22 m + 1)) as [T0 [TT [KT KK]]]; [lra|]. cbv zeta.
    set (t := sqrt _) in *. set (k := 1 / 2 / t) in *. clearbody k t.
    replace (m00 m + m11 m + m22 m + 1) with (1 + m00 m + m11 m + m22 m) in * by ring.
    unfold products. cbn [qw qx qy qz]. repeat split; try lra; try apply comp1; auto;
      try (rewrite (C (_ * k)); apply comp1; auto); try (eapply comp2; [exact KK|lra]).
  - destruct (Rlt_dec (m00 m) (m11 m)) as [Q|Q]; destruct (Rlt_dec _ (m22 m)) as [L|L].
    + destruct (sqrt_facts (m22 m - m00 m - m11 m + 1)) as [T0 [TT [KT KK]]]; [lra|]. cbv zeta.
      set (t := sqrt _) in *. set (k := 1 / 2 / t) in *. clearbody k t.
      unfold products. cbn [qw qx qy qz]. repeat split; try lra;
      try (eapply comp2; [exact KK|lra]); first [rewrite (C (_ * k))|idtac]; rewrite (comp1 t k) by auto; lra.
    + destruct (sqrt_facts (m11 m - m22 m - m00 m + 1)) as [T0 [TT [KT KK]]]; [lra|]. cbv zeta.
      set (t := sqrt _) in *. set (k := 1 / 2 / t) in *. clearbody k t.
      unfold products. cbn [qw qx qy qz]. repeat split; try lra;
      try (eapply comp2; [exact KK|lra]); first [rewrite (comp1 t k) by auto; lra|rewrite (C (_ * k)), (comp1 t k) by auto; lra].
    + destruct (sqrt_facts (m22 m - m00 m - m11 m + 1)) as [T0 [TT [KT KK]]]; [lra|]. cbv zeta.
      set (t := sqrt _) in *. set (k := 1 / 2 / t) in *. clearbody k t.
      unfold products. cbn [qw qx qy qz]. repeat split; try lra;
      try (eapply comp2; [exact KK|lra]); first [rewrite (comp1 t k) by auto; lra|rewrite (C (_ * k)), (comp1 t k) by auto; lra].
    + destruct (sqrt_facts (m00 m - m11 m - m22 m + 1)) as [T0 [TT [KT KK]]]; [lra|]. cbv zeta.
      set (t := sqrt _) in *. set (k := 1 / 2 / t) in *. clearbody k t.
      unfold products. cbn [qw qx qy qz]. repeat split; try lra;
      try (eapply comp2; [exact KK|lra]); first [rewrite (comp1 t k) by auto; lra|rewrite (C (_ * k)), (comp1 t k) by auto; lra].
Qed.

(** The quaternion of any matrix is not zero. *)
Lemma quat_nonzero : forall m, 0 < qdot (quat_of_matrix m) (quat_of_matrix m).
Proof.
  intros m. unfold quat_of_matrix.
  assert (S : forall a b c d, 0 < a * a \/ 0 < b * b \/ 0 < c * c \/ 0 < d * d -> 0 < qdot (mkQ a b c d) (mkQ a b c d)).
  { intros a b c d K. unfold qdot. cbn [qw qx qy qz]. assert (0 <= a * a) by nra. assert (0 <= b * b) by nra.
    assert (0 <= c * c) by nra. assert (0 <= d * d) by nra. lra. }
  assert (Q : forall t2, 0 < t2 -> 0 < 1 / 2 * sqrt t2 * (1 / 2 * sqrt t2)).
  { intros t2 P. assert (0 < sqrt t2) by (apply sqrt_lt_R0; auto). nra. }
  destruct (Rlt_dec 0 (m00 m + m11 m + m22 m)) as [P|P].
  - apply S. left. apply Q. lra.
  - destruct (Rlt_dec (m00 m) (m11 m)) as [L|L]; destruct (Rlt_dec _ (m22 m)) as [K|K]; apply S.
    + do 3 right. apply Q. lra.
    + do 2 right. left. apply Q. lra.
    + do 3 right. apply Q. lra.
    + right. left. apply Q. lra.
Qed.
Lemma normalize_rigid : forall t, rigid (normalize_rotation t).
Proof. intros t. apply unit_rotation, normalized_unit, quat_nonzero. Qed.
Lemma normalize_id : forall t, rigid t -> normalize_rotation t = t.
Proof.
  intros [r p] H. unfold normalize_rotation. cbn [t_rot t_pos]. destruct (products_matrix _ _ (quat_products r H)) as [E N].
  rewrite normalized_id by auto. rewrite E. reflexivity.
Qed.

(** ** Interpolation *)
Lemma to_matrix_neg : forall q, to_matrix (qscale (-1) q) = to_matrix q.
Proof. intros [w x y z]. unfold to_matrix, qscale. cbn [qw qx qy qz]. f_equal; ring. Qed.
(** A multiple of a quaternion gives a mixture with the identity. *)
Lemma to_matrix_scale : forall k q, close 0 (to_matrix (qscale k q))
  (mkM (1 - k * k + k * k * m00 (to_matrix q)) (k * k * m01 (to_matrix q)) (k * k * m02 (to_matrix q))
       (k * k * m10 (to_matrix q)) (1 - k * k + k * k * m11 (to_matrix q)) (k * k * m12 (to_matrix q))
       (k * k * m20 (to_matrix q)) (k * k * m21 (to_matrix q)) (1 - k * k + k * k * m22 (to_matrix q))).
Proof.
  intros k [w x y z]. unfold to_matrix, qscale, close. cbn [qw qx qy qz m00 m01 m02 m10 m11 m12 m20 m21 m22].
  repeat split; match goal with |- Rabs ?x <= 0 => replace x with 0 by ring; rewrite Rabs_R0; lra end.
Qed.
Lemma rotation_entries : forall m, rotation m ->
  Rabs (m00 m) <= 1 /\ Rabs (m01 m) <= 1 /\ Rabs (m02 m) <= 1 /\ Rabs (m10 m) <= 1 /\ Rabs (m11 m) <= 1 /\
  Rabs (m12 m) <= 1 /\ Rabs (m20 m) <= 1 /\ Rabs (m21 m) <= 1 /\ Rabs (m22 m) <= 1.
Proof.
  intros m H. destruct (rot_facts m H) as [_ [F1 [F2 [F3 _]]]].
  assert (Z : forall x : R, 0 <= x * x) by (intros; nra).
  pose proof (Z (m00 m)); pose proof (Z (m01 m)); pose proof (Z (m02 m)); pose proof (Z (m10 m)); pose proof (Z (m11 m));
  pose proof (Z (m12 m)); pose proof (Z (m20 m)); pose proof (Z (m21 m)); pose proof (Z (m22 m)).
  repeat split; apply Rabs_sq; lra.
Qed.

Lemma cauchy : forall a b, qdot a a = 1 -> qdot b b = 1 -> Rabs (qdot a b) <= 1.
Proof.
  intros a b A B. apply Rabs_sq; [lra|].
  assert (0 <= qdot a a * qdot b b - qdot a b * qdot a b); [|nra].
  unfold qdot. destruct a as [a0 a1 a2 a3], b as [b0 b1 b2 b3]. cbn [qw qx qy qz].
  replace (_ - _) with ((a0*b1-a1*b0)*(a0*b1-a1*b0) + (a0*b2-a2*b0)*(a0*b2-a2*b0) + (a0*b3-a3*b0)*(a0*b3-a3*b0) +
    (a1*b2-a2*b1)*(a1*b2-a2*b1) + (a1*b3-a3*b1)*(a1*b3-a3*b1) + (a2*b3-a3*b2)*(a2*b3-a3*b2)) by ring.
  assert (Z : forall x : R, 0 <= x * x) by (intros; nra).
  pose proof (Z (a0*b1-a1*b0)); pose proof (Z (a0*b2-a2*b0)); pose proof (Z (a0*b3-a3*b0));
  pose proof (Z (a1*b2-a2*b1)); pose proof (Z (a1*b3-a3*b1)); pose proof (Z (a2*b3-a3*b2)). lra.
Qed.

(** The scales of slerp, with [d] made positive. *)
Definition weights (t ad : R) : R * R :=
  if Rle_dec (1 - eps) ad then (1 - t, t)
  else (sin ((1 - t) * acos ad) / sin (acos ad), sin (t * acos ad) / sin (acos ad)).
(** [b] or [-b], whichever is closer to [a]. *)
Definition near (a b : quat) : quat := if Rlt_dec (qdot a b) 0 then qscale (-1) b else b.
Lemma slerp_weights : forall t a b,
  slerp t a b = qadd (qscale (fst (weights t (Rabs (qdot a b)))) a) (qscale (snd (weights t (Rabs (qdot a b)))) (near a b)).
Proof.
  intros. unfold slerp, weights, near. cbv zeta. destruct (Rlt_dec (qdot a b) 0); destruct (Rle_dec _ _); cbn [fst snd]; try reflexivity;
    f_equal; unfold qscale; cbn [qw qx qy qz]; f_equal; ring.
Qed.
Lemma near_dot : forall a b, qdot a (near a b) = Rabs (qdot a b).
Proof.
  intros. unfold near. destruct (Rlt_dec (qdot a b) 0).
  - rewrite Rabs_left by auto. unfold qdot, qscale. cbn [qw qx qy qz]. ring.
  - rewrite Rabs_right by lra. reflexivity.
Qed.
Lemma near_unit : forall a b, qdot b b = 1 -> qdot (near a b) (near a b) = 1.
Proof. intros. unfold near. destruct (Rlt_dec _ _); auto. rewrite qdot_scale. lra. Qed.
Lemma near_matrix : forall a b, to_matrix (near a b) = to_matrix b.
Proof. intros. unfold near. destruct (Rlt_dec _ _); auto using to_matrix_neg. Qed.
Lemma qdot_comb : forall s u a b c, qdot c (qadd (qscale s a) (qscale u b)) = s * qdot c a + u * qdot c b.
Proof. intros. unfold qdot, qadd, qscale. cbn [qw qx qy qz]. ring. Qed.
Lemma qdot_comb2 : forall s u a b, qdot (qadd (qscale s a) (qscale u b)) (qadd (qscale s a) (qscale u b)) =
  s * s * qdot a a + u * u * qdot b b + 2 * (s * u) * qdot a b.
Proof. intros. unfold qdot, qadd, qscale. cbn [qw qx qy qz]. ring. Qed.

Lemma eps_pos : 0 < eps < 1.
Proof.
  unfold eps. split; [apply Rinv_0_lt_compat; lra|]. rewrite <- Rinv_1. apply Rinv_lt_contravar; lra.
Qed.
Lemma acos_small : forall ad, 0 <= ad -> ad < 1 - eps -> 0 < acos ad <= PI / 2 /\ cos (acos ad) = ad /\ 0 < sin (acos ad).
Proof.
  intros ad P L. pose proof eps_pos. pose proof PI_RGT_0.
  assert (C : cos (acos ad) = ad) by (apply cos_acos; lra). pose proof (acos_bound ad) as B.
  assert (0 < acos ad).
  { destruct (Req_dec (acos ad) 0) as [E|]; [|lra]. rewrite E, cos_0 in C. lra. }
  assert (acos ad <= PI / 2).
  { destruct (Rle_dec (acos ad) (PI / 2)); auto. assert (cos (acos ad) < 0) by (apply cos_lt_0; lra). lra. }
  repeat split; auto. apply sin_gt_0; lra.
Qed.
(** On the curved branch the result is at the angle [t theta] from [a] and [(1 - t) theta] from [b]. *)
Lemma weights_curved : forall t ad, 0 <= ad -> ad < 1 - eps ->
  let s := fst (weights t ad) in let u := snd (weights t ad) in
  s + u * ad = cos (t * acos ad) /\ s * ad + u = cos ((1 - t) * acos ad) /\ s * s + u * u + 2 * (s * u) * ad = 1.
Proof.
  intros t ad P L. unfold weights. destruct (Rle_dec _ _) as [K|_]; [lra|]. cbn [fst snd]. cbv zeta.
  destruct (acos_small ad P L) as [_ [C S]]. set (th := acos ad) in *. rewrite <- C. clearbody th.
  replace ((1 - t) * th) with (th - t * th) by ring. set (x := t * th). clearbody x.
  pose proof (sin2_cos2 th) as A. pose proof (sin2_cos2 x) as B. unfold Rsqr in A, B.
  rewrite sin_minus, cos_minus. split; [|split].
  - field. lra.
  - apply (Rmult_eq_reg_r (sin th)); [|lra].
    transitivity (sin th * cos x * cos th - (cos th * cos th) * sin x + sin x); [field; lra|].
    replace (cos th * cos th) with (1 - sin th * sin th) by lra. ring.
  - assert (E : cos th * cos th = 1 - sin th * sin th) by lra. assert (F : cos x * cos x = 1 - sin x * sin x) by lra.
    apply (Rmult_eq_reg_r (sin th * sin th)); [|nra]. 
    transitivity ((sin th * cos x - cos th * sin x) * (sin th * cos x - cos th * sin x) + sin x * sin x
      + 2 * ((sin th * cos x - cos th * sin x) * sin x) * cos th); [field; lra|].
    transitivity (sin th * sin th * (cos x * cos x) + sin x * sin x * (1 - cos th * cos th)); [ring|].
    rewrite E, F. ring.
Qed.

Lemma trace_dot : forall a b, qdot a a = 1 -> qdot b b = 1 ->
  trace (mmul (mtrans (to_matrix a)) (to_matrix b)) = 4 * (qdot a b * qdot a b) - 1.
Proof.
  intros [a0 a1 a2 a3] [b0 b1 b2 b3] A B. unfold qdot in *. cbn [qw qx qy qz] in *.
  assert (WA : a0 * a0 = 1 - a1 * a1 - a2 * a2 - a3 * a3) by lra.
  assert (WB : b0 * b0 = 1 - b1 * b1 - b2 * b2 - b3 * b3) by lra.
  unfold trace, mmul, mtrans, to_matrix. cbn [qw qx qy qz m00 m01 m02 m10 m11 m12 m20 m21 m22]. ring [WA WB].
Qed.
Lemma angle_dot : forall a b ph, qdot a a = 1 -> qdot b b = 1 -> qdot a b * qdot a b = cos ph * cos ph -> 0 <= ph <= PI / 2 ->
  angle_between (to_matrix a) (to_matrix b) = 2 * ph.
Proof.
  intros a b ph A B E P. unfold angle_between. rewrite trace_dot by auto. rewrite E.
  replace ((4 * (cos ph * cos ph) - 1 - 1) / 2) with (cos (2 * ph)).
  - apply acos_cos. lra.
  - rewrite cos_2a_cos. field.
Qed.
Lemma unit_quat : forall m, rotation m -> qdot (quat_of_matrix m) (quat_of_matrix m) = 1 /\ to_matrix (quat_of_matrix m) = m.
Proof. intros m H. destruct (products_matrix _ _ (quat_products m H)). auto. Qed.

Lemma weights_ends : forall ad, 0 <= ad -> weights 0 ad = (1, 0) /\ weights 1 ad = (0, 1).
Proof.
  intros ad P. unfold weights. destruct (Rle_dec _ _) as [L|L].
  - split; f_equal; ring.
  - destruct (acos_small ad P) as [_ [_ S]]; [lra|].
    split; f_equal; repeat (rewrite ?Rminus_0_r, ?Rmult_1_l, ?Rmult_0_l, ?sin_0, ?Rminus_diag_eq by reflexivity); try (field; lra).
Qed.
Lemma same_unit : forall a b, qdot a a = 1 -> qdot b b = 1 -> qdot a b = 1 -> a = b.
Proof.
  intros [a0 a1 a2 a3] [b0 b1 b2 b3] A B D. unfold qdot in *. cbn [qw qx qy qz] in *.
  assert (Z : (a0-b0)*(a0-b0) + (a1-b1)*(a1-b1) + (a2-b2)*(a2-b2) + (a3-b3)*(a3-b3) = 0) by lra.
  assert (N : forall x : R, 0 <= x * x) by (intros; nra).
  pose proof (N (a0-b0)); pose proof (N (a1-b1)); pose proof (N (a2-b2)); pose proof (N (a3-b3)).
  assert (K : forall x : R, x * x = 0 -> x = 0) by (intros; nra).
  f_equal; apply Rminus_diag_uniq, K; lra.
Qed.
(** Both ends of the interpolation, and its length. *)
Lemma slerp_ends : forall a b, qdot a a = 1 -> qdot b b = 1 ->
  to_matrix (slerp 0 a b) = to_matrix a /\ to_matrix (slerp 1 a b) = to_matrix b.
Proof.
  intros a b A B. rewrite !slerp_weights. destruct (weights_ends (Rabs (qdot a b)) (Rabs_pos _)) as [-> ->]. cbn [fst snd].
  rewrite <- (near_matrix a b). split; f_equal.
  - destruct a as [w x y z]. unfold qadd, qscale. cbn [qw qx qy qz]. f_equal; ring.
  - destruct (near a b) as [w x y z]. unfold qadd, qscale. cbn [qw qx qy qz]. f_equal; ring.
Qed.
Lemma slerp_curved : forall t a b, qdot a a = 1 -> qdot b b = 1 -> Rabs (qdot a b) < 1 - eps ->
  let th := acos (Rabs (qdot a b)) in
  qdot (slerp t a b) (slerp t a b) = 1 /\ qdot a (slerp t a b) = cos (t * th) /\ qdot (slerp t a b) (near a b) = cos ((1 - t) * th).
Proof.
  intros t a b A B L. cbv zeta. rewrite !slerp_weights. pose proof (near_unit a b B) as N. pose proof (near_dot a b) as D.
  destruct (weights_curved t (Rabs (qdot a b)) (Rabs_pos _) L) as [W1 [W2 W3]]. cbv zeta in *.
  set (s := fst (weights t (Rabs (qdot a b)))) in *. set (u := snd (weights t (Rabs (qdot a b)))) in *.
  split; [|split].
  - rewrite qdot_comb2, A, N, D. lra.
  - rewrite qdot_comb, A, D. lra.
  - replace (qdot (qadd (qscale s a) (qscale u (near a b))) (near a b)) with (s * qdot a (near a b) + u * qdot (near a b) (near a b)).
    + rewrite D, N. lra.
    + unfold qdot, qadd, qscale. cbn [qw qx qy qz]. ring.
Qed.
Lemma slerp_flat : forall t a b, qdot a a = 1 -> qdot b b = 1 -> 1 - eps <= Rabs (qdot a b) -> 0 <= t <= 1 ->
  1 - eps / 2 <= qdot (slerp t a b) (slerp t a b) <= 1.
Proof.
  intros t a b A B L T. rewrite slerp_weights. unfold weights. destruct (Rle_dec _ _) as [_|K]; [|lra]. cbn [fst snd].
  rewrite qdot_comb2, A, (near_unit a b B), near_dot. pose proof (cauchy a b A B) as C. set (d := Rabs (qdot a b)) in *. clearbody d.
  replace ((1 - t) * (1 - t) * 1 + t * t * 1 + 2 * ((1 - t) * t) * d) with (1 - 2 * ((1 - t) * t) * (1 - d)) by ring.
  assert (T1 : 0 <= (1 - t) * t) by (apply Rmult_le_pos; lra).
  assert (T2 : (1 - t) * t <= 1 / 4) by (pose proof (Rle_0_sqr (t - 1 / 2)) as Q; unfold Rsqr in Q; lra).
  set (u := (1 - t) * t) in *. clearbody u. pose proof eps_pos.
  assert (0 <= u * (1 - d)) by (apply Rmult_le_pos; lra).
  assert (u * (1 - d) <= 1 / 4 * eps) by (apply Rmult_le_compat; lra). lra.
Qed.
Lemma slerp_same : forall t a b, qdot a a = 1 -> qdot b b = 1 -> Rabs (qdot a b) = 1 -> slerp t a b = a.
Proof.
  intros t a b A B D. rewrite slerp_weights. unfold weights. pose proof eps_pos. destruct (Rle_dec _ _) as [_|K]; [|lra]. cbn [fst snd].
  assert (near a b = a) as ->.
  { symmetry. apply same_unit; auto using near_unit. rewrite near_dot. auto. }
  destruct a as [w x y z]. unfold qadd, qscale. cbn [qw qx qy qz]. f_equal; ring.
Qed.
(** A quaternion a little shorter than 1 gives nearly a rotation. *)
Lemma nearly_rotation : forall q d, 0 < qdot q q -> 1 - d <= qdot q q <= 1 ->
  exists r, rotation r /\ close (2 * d) (to_matrix q) r.
Proof.
  intros q d P [D1 D2]. exists (to_matrix (normalized q)). split; [apply unit_rotation, normalized_unit; auto|].
  pose proof (unit_rotation _ (normalized_unit q P)) as Rt.
  assert (S : 0 < sqrt (qdot q q)) by (apply sqrt_lt_R0; auto).
  assert (E : q = qscale (sqrt (qdot q q)) (normalized q)).
  { unfold normalized. destruct (Rlt_dec _ _); [|lra]. set (k := sqrt (qdot q q)) in *. clearbody k.
    destruct q as [w x y z]. unfold qscale. cbn [qw qx qy qz]. f_equal; field; lra. }
  pose proof (to_matrix_scale (sqrt (qdot q q)) (normalized q)) as K. rewrite <- E in K.
  rewrite sqrt_sqrt in K by lra. set (n := qdot q q) in *. clearbody n.
  destruct (rotation_entries _ Rt) as [R0 [R1 [R2 [R3 [R4 [R5 [R6 [R7 R8]]]]]]]].
  set (r := to_matrix (normalized q)) in *. clearbody r. clear E S. unfold close in *. cbn [m00 m01 m02 m10 m11 m12 m20 m21 m22] in K.
  assert (Z : forall x : R, Rabs x <= 0 -> x = 0). { intros x Hx. pose proof (Rabs_pos x). destruct (Req_dec x 0); auto. pose proof (Rabs_pos_lt x H0). lra. }
  assert (G : forall x y : R, Rabs (x - n * y) <= 0 -> Rabs y <= 1 -> Rabs (x - y) <= 2 * d).
  { intros x y Hx Hy. apply Z in Hx. replace (x - y) with (- ((1 - n) * y)) by lra.
    rewrite Rabs_Ropp, Rabs_mult, (Rabs_pos_eq (1 - n)) by lra. pose proof (Rabs_pos y). nra. }
  assert (G' : forall x y : R, Rabs (x - (1 - n + n * y)) <= 0 -> Rabs y <= 1 -> Rabs (x - y) <= 2 * d).
  { intros x y Hx Hy. apply Z in Hx. replace (x - y) with ((1 - n) * (1 - y)) by lra.
    rewrite Rabs_mult, (Rabs_pos_eq (1 - n)) by lra. assert (Rabs (1 - y) <= 2). { apply Rabs_le. revert Hy. unfold Rabs. destruct (Rcase_abs y); lra. } pose proof (Rabs_pos (1 - y)). nra. }
  destruct K as [K0 [K1 [K2 [K3 [K4 [K5 [K6 [K7 K8]]]]]]]]. repeat split; auto.
Qed.
