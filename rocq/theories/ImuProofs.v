(** Lemmas about quaternions acting on vectors and the IMU tracker. *)
From Coq Require Import Reals ZArith List Lra Lia.
From Verif Require Import Outcome TimeModel RigidModel RigidSpec RigidProofs ImuModel.
Import ListNotations.
Local Open Scope R_scope.

Ltac vcomp := cbn [qw qx qy qz vx vy vz m00 m01 m02 m10 m11 m12 m20 m21 m22] in *.
Lemma vec_eq : forall a b, vx a = vx b -> vy a = vy b -> vz a = vz b -> a = b.
Proof. intros [] []. cbn. intros. subst. reflexivity. Qed.
Lemma rotate_matrix : forall q v, rotate q v = mvec (to_matrix q) v.
Proof.
  intros q v. apply vec_eq; unfold rotate, mvec, to_matrix, cross, vadd, vscale, qvec; vcomp; ring.
Qed.
Lemma qmul_unit : forall a b, qdot a a = 1 -> qdot b b = 1 -> qdot (qmul a b) (qmul a b) = 1.
Proof.
  intros a b A B. transitivity (qdot a a * qdot b b); [|rewrite A, B; ring]. unfold qdot, qmul. vcomp. ring.
Qed.
Lemma conj_unit : forall a, qdot a a = 1 -> qdot (conj a) (conj a) = 1.
Proof. intros a A. rewrite <- A. unfold qdot, conj. vcomp. ring. Qed.
(** The matrix of a unit quaternion as a homogeneous polynomial. *)
Definition hmat (q : quat) : mat :=
  let w := qw q in let x := qx q in let y := qy q in let z := qz q in
  mkM (w * w + x * x - y * y - z * z) (2 * (x * y - w * z)) (2 * (x * z + w * y))
      (2 * (x * y + w * z)) (w * w - x * x + y * y - z * z) (2 * (y * z - w * x))
      (2 * (x * z - w * y)) (2 * (y * z + w * x)) (w * w - x * x - y * y + z * z).
Lemma hmat_unit : forall q, qdot q q = 1 -> to_matrix q = hmat q.
Proof.
  intros q H. unfold qdot in H. apply mat_eq; unfold to_matrix, hmat; vcomp; lra.
Qed.
Lemma hmat_qmul : forall a b, hmat (qmul a b) = mmul (hmat a) (hmat b).
Proof. intros a b. apply mat_eq; unfold hmat, qmul, mmul; vcomp; ring. Qed.
Lemma to_matrix_qmul : forall a b, qdot a a = 1 -> qdot b b = 1 -> to_matrix (qmul a b) = mmul (to_matrix a) (to_matrix b).
Proof. intros. rewrite !hmat_unit by auto using qmul_unit. apply hmat_qmul. Qed.
Lemma mvec_mmul : forall a b v, mvec (mmul a b) v = mvec a (mvec b v).
Proof. intros. apply vec_eq; unfold mvec, mmul; vcomp; ring. Qed.
Lemma rotate_qmul : forall a b v, qdot a a = 1 -> qdot b b = 1 -> rotate (qmul a b) v = rotate a (rotate b v).
Proof. intros. rewrite !rotate_matrix, to_matrix_qmul by auto. apply mvec_mmul. Qed.
Lemma to_matrix_conj : forall q, to_matrix (conj q) = mtrans (to_matrix q).
Proof. intros. apply mat_eq; unfold to_matrix, conj, mtrans; vcomp; ring. Qed.
Lemma mvec_ident : forall v, mvec ident v = v.
Proof. intros. apply vec_eq; unfold mvec, ident; vcomp; ring. Qed.
Lemma rotate_conj : forall a v, qdot a a = 1 -> rotate a (rotate (conj a) v) = v.
Proof.
  intros a v A. rewrite !rotate_matrix, to_matrix_conj, <- mvec_mmul. destruct (unit_rotation a A) as [-> _]. apply mvec_ident.
Qed.
Lemma conj_conj : forall a, conj (conj a) = a.
Proof. intros [w x y z]. unfold conj. vcomp. f_equal; ring. Qed.
Lemma dot_mvec : forall m u v, dot (mvec m u) (mvec m v) = dot u (mvec (mmul (mtrans m) m) v).
Proof. intros. unfold dot, mvec, mmul, mtrans. vcomp. ring. Qed.
Lemma rotate_dot : forall a u v, qdot a a = 1 -> dot (rotate a u) (rotate a v) = dot u v.
Proof.
  intros a u v A. rewrite !rotate_matrix, dot_mvec, (rot_trans _ (unit_rotation a A)), mvec_ident. reflexivity.
Qed.
Lemma rotate_scale : forall a k v, rotate a (vscale k v) = vscale k (rotate a v).
Proof. intros. apply vec_eq; unfold rotate, cross, vadd, vscale, qvec; vcomp; ring. Qed.
Lemma angle_axis_unit : forall t u, dot u u = 1 -> qdot (angle_axis t u) (angle_axis t u) = 1.
Proof.
  intros t [x y z] H. unfold dot in H. vcomp. unfold qdot, angle_axis. vcomp. pose proof (half_sq t) as S.
  assert (X : x * x = 1 - y * y - z * z) by lra. ring [S X].
Qed.
Lemma eulers_unit : forall e, qdot (eulers_to_quat e) (eulers_to_quat e) = 1.
Proof.
  intros. unfold eulers_to_quat. repeat apply qmul_unit; apply angle_axis_unit; unfold dot; vcomp; ring.
Qed.

(** ** Lengths *)
Lemma dot_nonneg : forall v, 0 <= dot v v.
Proof. intros [x y z]. unfold dot. vcomp. nra. Qed.
Lemma dot_zero : forall v, dot v v = 0 -> v = zero_vec.
Proof.
  intros [x y z] H. unfold dot in H. vcomp. assert (N : forall x : R, 0 <= x * x) by (intros; nra).
  pose proof (N x); pose proof (N y); pose proof (N z). assert (K : forall x : R, x * x = 0 -> x = 0) by (intros; nra).
  unfold zero_vec. f_equal; apply K; lra.
Qed.
Lemma dot_scale : forall k v, dot (vscale k v) (vscale k v) = k * k * dot v v.
Proof. intros. unfold dot, vscale. vcomp. ring. Qed.
Lemma vnormalized_unit : forall v, v <> zero_vec -> dot (vnormalized v) (vnormalized v) = 1 /\
  v = vscale (sqrt (dot v v)) (vnormalized v) /\ 0 < sqrt (dot v v).
Proof.
  intros v N. assert (P : 0 < dot v v). { pose proof (dot_nonneg v). destruct (Req_dec (dot v v) 0) as [E|]; [|lra]. apply dot_zero in E. contradiction. }
  unfold vnormalized. destruct (Rlt_dec _ _); [|lra]. assert (S : 0 < sqrt (dot v v)) by (apply sqrt_lt_R0; auto).
  assert (SS : sqrt (dot v v) * sqrt (dot v v) = dot v v) by (apply sqrt_sqrt; lra). split; [|split; auto].
  - rewrite dot_scale. rewrite <- SS at 3. field. lra.
  - set (k := sqrt (dot v v)) in *. clearbody k. destruct v as [x y z]. unfold vscale. vcomp. f_equal; field; lra.
Qed.
Lemma vnormalized_id : forall v, dot v v = 1 -> vnormalized v = v.
Proof.
  intros [x y z] H. unfold vnormalized. destruct (Rlt_dec _ _); auto. rewrite H, sqrt_1, Rinv_1. unfold vscale. vcomp. f_equal; ring.
Qed.
Lemma vnormalized_scale : forall k v, 0 < k -> dot v v = 1 -> vnormalized (vscale k v) = v.
Proof.
  intros k v P H. unfold vnormalized. rewrite dot_scale, H, Rmult_1_r. destruct (Rlt_dec _ _) as [_|L]; [|nra].
  rewrite sqrt_square by lra. destruct v as [x y z]. unfold vscale. vcomp. f_equal; field; lra.
Qed.
Lemma dot_bound : forall u v, dot u u = 1 -> dot v v = 1 -> -1 <= dot u v <= 1.
Proof.
  intros [a b c] [d e f] U V. unfold dot in *. vcomp. assert (N : forall x : R, 0 <= x * x) by (intros; nra).
  pose proof (N (a - d)); pose proof (N (b - e)); pose proof (N (c - f)); pose proof (N (a + d)); pose proof (N (b + e)); pose proof (N (c + f)).
  lra.
Qed.
Lemma dot_comm : forall u v, dot u v = dot v u.
Proof. intros. unfold dot. ring. Qed.

(** ** FromTwoVectors *)
Definition sing : R := / 1000000000000.
Lemma sing_pos : 0 < sing < 1 / 1000.
Proof. unfold sing. lra. Qed.
Section Align.
Variable svd_axis : vec -> vec -> vec.
(** The axis is a unit vector perpendicular to both. *)
Definition axis_ok : Prop := forall u v, dot u u = 1 -> dot v v = 1 ->
  dot (svd_axis u v) (svd_axis u v) = 1 /\ dot (svd_axis u v) u = 0 /\ dot (svd_axis u v) v = 0.
Notation ftv := (from_two_vectors svd_axis).

Lemma align_regular : forall u v, dot u u = 1 -> dot v v = 1 -> -1 + sing <= dot v u ->
  qdot (ftv u v) (ftv u v) = 1 /\ rotate (ftv u v) u = v.
Proof.
  intros u v U V C. unfold from_two_vectors. rewrite (vnormalized_id u U), (vnormalized_id v V). fold sing.
  destruct (Rlt_dec _ _) as [L|_]; [lra|]. pose proof sing_pos. cbv zeta.
  set (c := dot v u) in *. set (s := sqrt ((1 + c) * 2)).
  assert (S : 0 < s) by (apply sqrt_lt_R0; lra). assert (SS : s * s = (1 + c) * 2) by (apply sqrt_sqrt; lra).
  set (k := 1 / s). assert (KS : k * s = 1) by (unfold k; field; lra). assert (KK : k * k * ((1 + c) * 2) = 1) by (rewrite <- SS; unfold k; field; lra).
  clearbody k s. assert (AA : dot (cross u v) (cross u v) = 1 - c * c).
  { transitivity (dot u u * dot v v - c * c); [|rewrite U, V; ring]. unfold c, dot, cross. vcomp. ring. }
  assert (KA : k * k * (1 - c * c) = (1 - c) / 2).
  { transitivity (k * k * ((1 + c) * 2) * (1 - c) / 2); [field|rewrite KK; field]. }
  split.
  - transitivity (s * s * (1 / 4) + k * k * dot (cross u v) (cross u v)).
    + unfold qdot, dot. vcomp. field.
    + rewrite AA, KA, SS. field.
  - transitivity (vadd (vadd u (vscale (k * s) (cross (cross u v) u))) (vscale (2 * (k * k)) (cross (cross u v) (cross (cross u v) u)))).
    + apply vec_eq; unfold rotate, vadd, vscale, qvec, cross; vcomp; field.
    + rewrite KS. assert (X : cross (cross u v) u = vsub (vscale (dot u u) v) (vscale c u)).
      { unfold c. apply vec_eq; unfold cross, vsub, vscale, dot; vcomp; ring. }
      assert (Y : cross (cross u v) (cross (cross u v) u) = vscale (- (1 - c * c)) u).
      { rewrite <- AA. apply vec_eq; unfold cross, vscale, dot; vcomp; ring. }
      rewrite Y, X, U. replace (vscale (2 * (k * k)) (vscale (- (1 - c * c)) u)) with (vscale (- (1 - c)) u).
      * apply vec_eq; unfold vadd, vsub, vscale; vcomp; ring.
      * transitivity (vscale (- 2 * (k * k * (1 - c * c))) u); [rewrite KA|]; apply vec_eq; unfold vscale; vcomp; try field; ring.
Qed.
Lemma align_singular : axis_ok -> forall u v, dot u u = 1 -> dot v v = 1 -> dot v u < -1 + sing ->
  qdot (ftv u v) (ftv u v) = 1 /\ 2 * (dot v u * dot v u) - 1 <= dot v (rotate (ftv u v) u) <= 1 /\
  (dot v u = -1 -> rotate (ftv u v) u = v).
Proof.
  intros Ax u v U V C. unfold from_two_vectors. rewrite (vnormalized_id u U), (vnormalized_id v V). fold sing.
  destruct (Rlt_dec _ _) as [_|L]; [|lra]. pose proof sing_pos. cbv zeta.
  destruct (Ax u v U V) as [A1 [A2 A3]]. set (a := svd_axis u v) in *. clearbody a. pose proof (dot_bound v u V U) as B.
  rewrite Rmax_left by lra. set (c := dot v u) in *.
  set (w2 := (1 + c) * (1 / 2)). assert (W : 0 <= w2) by (unfold w2; lra). set (w := sqrt w2). set (k := sqrt (1 - w2)).
  assert (WW : w * w = w2) by (apply sqrt_sqrt; auto). assert (KK : k * k = 1 - w2) by (apply sqrt_sqrt; unfold w2; lra).
  assert (W0 : 0 <= w) by apply sqrt_pos. assert (K0 : 0 <= k) by apply sqrt_pos. clearbody w k.
  assert (E : rotate (mkQ w (vx a * k) (vy a * k) (vz a * k)) u = vadd (vscale c u) (vscale (2 * w * k) (cross a u))).
  { transitivity (vadd (vadd u (vscale (2 * w * k) (cross a u))) (vscale (2 * (k * k)) (vsub (vscale (dot a u) a) (vscale (dot a a) u)))).
    - apply vec_eq; unfold rotate, vadd, vsub, vscale, qvec, cross, dot; vcomp; ring.
    - rewrite A1, A2, KK. replace c with (2 * w2 - 1) by (unfold w2; field). apply vec_eq; unfold vadd, vsub, vscale; vcomp; ring. }
  assert (Un : qdot (mkQ w (vx a * k) (vy a * k) (vz a * k)) (mkQ w (vx a * k) (vy a * k) (vz a * k)) = 1).
  { transitivity (w * w + k * k * dot a a); [unfold qdot, dot; vcomp; ring|]. rewrite A1, WW, KK. ring. }
  split; [auto|]. split.
  - split.
    + rewrite E. set (n := cross a u).
      assert (N1 : dot n n = 1).
      { unfold n. transitivity (dot a a * dot u u - dot a u * dot a u); [unfold dot, cross; vcomp; ring|]. rewrite A1, A2, U. ring. }
      assert (N2 : dot n u = 0) by (unfold n, dot, cross; vcomp; ring).
      replace (dot v (vadd (vscale c u) (vscale (2 * w * k) n))) with (c * c + 2 * w * k * dot v n).
      2: { unfold c. unfold dot, vadd, vscale. vcomp. ring. }
      (* Bessel *)
      assert (Be : c * c + dot v n * dot v n <= 1).
      { pose proof (dot_nonneg (vsub (vsub v (vscale c u)) (vscale (dot v n) n))) as D.
        replace (dot (vsub (vsub v (vscale c u)) (vscale (dot v n) n)) (vsub (vsub v (vscale c u)) (vscale (dot v n) n)))
          with (dot v v + c * c * dot u u + dot v n * dot v n * dot n n - 2 * c * dot v u - 2 * dot v n * dot v n
                + 2 * (c * dot v n) * dot n u) in D by (unfold dot, vsub, vscale; vcomp; ring).
        fold c in D. rewrite V, U, N1, N2 in D. lra. }
      assert (S4 : (2 * w * k) * (2 * w * k) = 1 - c * c).
      { transitivity (4 * (w * w) * (k * k)); [ring|]. rewrite WW, KK. unfold w2. field. }
      assert (P : 0 <= 2 * w * k) by (apply Rmult_le_pos; lra). set (p := 2 * w * k) in *. clearbody p. set (q := dot v n) in *. clearbody q.
      assert (- p <= q). { destruct (Rle_dec (- p) q); auto. assert (p < - q) by lra. assert (p * p < (- q) * (- q)) by nra. lra. }
      nra.
    + pose proof (dot_bound v (rotate (mkQ w (vx a * k) (vy a * k) (vz a * k)) u)) as D. apply D; auto. rewrite rotate_dot; auto.
  - intros Cm. rewrite E. assert (w = 0). { unfold w2 in WW. rewrite Cm in WW. nra. }
    subst w. rewrite Cm. pose proof (dot_nonneg (vadd u v)) as D.
    assert (Z : dot (vadd u v) (vadd u v) = 0).
    { transitivity (dot u u + dot v v + 2 * c); [unfold c, dot, vadd; vcomp; ring|]. rewrite U, V, Cm. ring. }
    apply dot_zero in Z. unfold vadd, zero_vec in Z. injection Z as Z1 Z2 Z3.
    apply vec_eq; unfold vadd, vscale; vcomp; lra.
Qed.
End Align.
