(** Lemmas about the start of the normal distributions transform. *)
From Coq Require Import Reals List Bool Lra FunctionalExtensionality.
From Verif Require Import RigidModel RigidSpec RigidProofs NdtDerivModel NdtDerivSpec NdtStartModel.
Import ListNotations.
Local Open Scope R_scope.

Lemma about_mul_inv : forall a, mmul (about_x (- a)) (about_x a) = ident.
Proof.
  intro a. pose proof (sin2_cos2 a) as T. unfold Rsqr in T. unfold about_x, mmul, ident. rewrite cos_neg, sin_neg.
  apply mat_eq; cbn; lra.
Qed.

(** Cosine and sine of atan2 of a unit vector. *)
Lemma atan2_unit : forall y x, x * x + y * y = 1 -> cos (atan2 y x) = x /\ sin (atan2 y x) = y.
Proof.
  intros y x H. assert (N : x <> 0 \/ y <> 0).
  { destruct (Req_dec x 0) as [E|]; auto. destruct (Req_dec y 0) as [E'|]; auto. rewrite E, E' in H. lra. }
  destruct (cos_sin_atan2 y x N) as [C S]. rewrite H, sqrt_1 in C, S. lra.
Qed.

(** The first angle turns the last column into the plane y = 0. *)
Lemma first_angle : forall y x, let a := atan2 y x in
  cos a * y - sin a * x = 0 /\ sin a * y + cos a * x = sqrt (x * x + y * y).
Proof.
  intros y x a. destruct (Req_dec x 0) as [Ex|Ex]; destruct (Req_dec y 0) as [Ey|Ey].
  - subst x y. replace (0 * 0 + 0 * 0) with 0 by ring. rewrite sqrt_0. lra.
  - destruct (cos_sin_atan2 y x (or_intror Ey)) as [C S]. fold a in C, S. set (r := sqrt (x * x + y * y)) in *.
    pose proof (sin2_cos2 a) as T. unfold Rsqr in T. clearbody r. rewrite <- C, <- S. split; [ring|].
    transitivity (r * (sin a * sin a + cos a * cos a)); [ring|rewrite T; ring].
  - destruct (cos_sin_atan2 y x (or_introl Ex)) as [C S]. fold a in C, S. set (r := sqrt (x * x + y * y)) in *.
    pose proof (sin2_cos2 a) as T. unfold Rsqr in T. clearbody r. rewrite <- C, <- S. split; [ring|].
    transitivity (r * (sin a * sin a + cos a * cos a)); [ring|rewrite T; ring].
  - destruct (cos_sin_atan2 y x (or_introl Ex)) as [C S]. fold a in C, S. set (r := sqrt (x * x + y * y)) in *.
    pose proof (sin2_cos2 a) as T. unfold Rsqr in T. clearbody r. rewrite <- C, <- S. split; [ring|].
    transitivity (r * (sin a * sin a + cos a * cos a)); [ring|rewrite T; ring].
Qed.

Lemma cos_less_pi : forall a, cos (a - PI) = - cos a /\ sin (a - PI) = - sin a.
Proof.
  intro a. split.
  - replace (cos a) with (- cos (a - PI)); [ring|]. rewrite <- neg_cos. f_equal. ring.
  - replace (sin a) with (- sin (a - PI)); [ring|]. rewrite <- neg_sin. f_equal. ring.
Qed.

(** A rotation whose second row has no z part is a rotation about z, then about y. *)
Lemma two_angles : forall n b g, rotation n -> m12 n = 0 -> cos b = m22 n -> sin b = - m02 n -> cos g = m11 n -> sin g = - m10 n ->
  mmul (about_y (- b)) (about_z (- g)) = n.
Proof.
  intros n b g H Z Cb Sb Cg Sg. destruct (rot_facts n H) as [(A1 & A2 & A3 & A4 & A5 & A6 & A7 & A8 & A9) _].
  unfold about_y, about_z, mmul. rewrite !cos_neg, !sin_neg, Cb, Sb, Cg, Sg.
  apply mat_eq; cbn [m00 m01 m02 m10 m11 m12 m20 m21 m22]; rewrite ?Z in *; lra.
Qed.

Lemma euler_matrix : forall m, rotation m -> let e := euler_angles m in
  mmul (about_x (vx e)) (mmul (about_y (vy e)) (about_z (vz e))) = m.
Proof.
  intros m H. unfold euler_angles. cbn zeta. cbn [vx vy vz].
  set (a0 := atan2 (m12 m) (m22 m)). set (c2 := sqrt (m00 m * m00 m + m01 m * m01 m)).
  set (flip := if Rlt_dec 0 a0 then true else false).
  set (a := if flip then a0 - PI else a0). set (b := if flip then atan2 (- m02 m) (- c2) else atan2 (- m02 m) c2).
  set (g := atan2 _ _).
  destruct (rot_facts m H) as [_ (F1 & F2 & F3 & F4 & F5 & F6)].
  assert (Rn : rotation (mmul (about_x a) m)) by (apply rotation_mmul; [apply rotation_about|exact H]).
  destruct (first_angle (m12 m) (m22 m)) as [P1 P2]. fold a0 in P1, P2.
  assert (C2 : c2 = sqrt (m22 m * m22 m + m12 m * m12 m)) by (unfold c2; f_equal; lra).
  assert (Sq : c2 * c2 = m00 m * m00 m + m01 m * m01 m) by (apply sqrt_sqrt; nra).
  rewrite <- C2 in P2.
  assert (Z : m12 (mmul (about_x a) m) = 0).
  { unfold a. destruct flip; cbn; [destruct (cos_less_pi a0) as [-> ->]|]; lra. }
  assert (K : m22 (mmul (about_x a) m) = if flip then - c2 else c2).
  { unfold a. destruct flip; cbn; [destruct (cos_less_pi a0) as [-> ->]|]; lra. }
  assert (U : m02 (mmul (about_x a) m) = m02 m) by (cbn; lra).
  assert (B : cos b = m22 (mmul (about_x a) m) /\ sin b = - m02 (mmul (about_x a) m)).
  { rewrite K, U. unfold b. destruct flip; apply atan2_unit; lra. }
  assert (G : cos g = m11 (mmul (about_x a) m) /\ sin g = - m10 (mmul (about_x a) m)).
  { destruct (rot_facts _ Rn) as [_ Q].
    assert (E1 : m11 (mmul (about_x a) m) = cos a * m11 m - sin a * m21 m) by (cbn; ring).
    assert (E2 : - m10 (mmul (about_x a) m) = sin a * m20 m - cos a * m10 m) by (cbn; ring).
    unfold g. rewrite <- E1, <- E2. apply atan2_unit.
    destruct Q as (_ & Q2 & _). rewrite Z in Q2. lra. }
  destruct B as [B1 B2]. destruct G as [G1 G2].
  rewrite (two_angles (mmul (about_x a) m) b g Rn Z B1 B2 G1 G2), mmul_assoc, about_mul_inv. apply mmul_ident_l.
Qed.

Lemma euler_range : forall m, let e := euler_angles m in
  0 <= vx e < PI /\ - PI <= vy e < PI /\ - PI <= vz e < PI.
Proof.
  intros m e. unfold e, euler_angles. cbn zeta. cbn [vx vy vz].
  pose proof (atan2_range (m12 m) (m22 m)) as R0. set (a0 := atan2 (m12 m) (m22 m)) in *.
  match goal with |- _ /\ _ /\ - PI <= - atan2 ?y ?x < PI => pose proof (atan2_range y x) end.
  pose proof (atan2_range (- m02 m) (- sqrt (m00 m * m00 m + m01 m * m01 m))).
  pose proof (atan2_range (- m02 m) (sqrt (m00 m * m00 m + m01 m * m01 m))).
  destruct (Rlt_dec 0 a0); lra.
Qed.

Lemma mvec_mmul : forall a b v, mvec (mmul a b) v = mvec a (mvec b v).
Proof. intros [? ? ? ? ? ? ? ? ?] [? ? ? ? ? ? ? ? ?] [? ? ?]. unfold mvec, mmul. cbn. f_equal; ring. Qed.

Lemma eqb_R_true : forall a b, eqb_R a b = true -> a = b.
Proof. intros a b. unfold eqb_R. destruct (Req_EM_T a b); [auto|discriminate]. Qed.
Lemma is_identity_true : forall t, is_identity t = true -> t = identity.
Proof.
  intros [[a b c d e f g h i] [x y z]] H. unfold is_identity in H. cbn in H.
  repeat (apply andb_true_iff in H; let K := fresh in destruct H as [H K]; apply eqb_R_true in K). apply eqb_R_true in H.
  subst. reflexivity.
Qed.
Lemma apply_identity : forall v, apply identity v = v.
Proof. intros [x y z]. unfold apply, identity, mvec, vadd, ident, zero_vec. cbn. f_equal; ring. Qed.

Section Start.
  Variable rotation_of : mat -> mat.
  Hypothesis unchanged : forall m, rotation m -> rotation_of m = m.

  Lemma position_parameters : forall t x, position (parameters rotation_of t) x
    = apply (mkT (let e := euler_angles (rotation_of (t_rot t)) in
                  mmul (about_x (vx e)) (mmul (about_y (vy e)) (about_z (vz e)))) (t_pos t)) x.
  Proof. intros t x. unfold position, apply, parameters. cbn [t_rot t_pos]. rewrite !mvec_mmul. now destruct (t_pos t). Qed.

  Lemma position_start : forall t x, rigid t -> position (parameters rotation_of t) x = apply t x.
  Proof.
    intros t x H. rewrite position_parameters. cbn zeta. rewrite (unchanged _ H), (euler_matrix _ H). now destruct t.
  Qed.

  Lemma begin_value : forall input guess,
    begin rotation_of input guess = (guess, map (apply guess) input, parameters rotation_of guess).
  Proof.
    intros input guess. unfold begin, begin_from. destruct (is_identity guess) eqn:E; [|reflexivity].
    apply is_identity_true in E. subst guess. f_equal. f_equal. symmetry. erewrite map_ext; [apply map_id|apply apply_identity].
  Qed.
End Start.
