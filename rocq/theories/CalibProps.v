(** C154: the mounting of the odometry. *)
From Coq Require Import List Arith Reals Lra Lia Psatz.
From Verif Require Import Outcome RigidModel RigidSpec RigidProofs OdomMsgModel OdomMsgProofs CostModel CostProps CalibModel.
Import ListNotations.
Local Open Scope outcome_scope.
Local Open Scope R_scope.

(** ** The residuals *)
(** One for every submap with odometry, in order. *)
Theorem C154_residuals : forall l, residuals l =
  map (fun p => odom_path (t_pos (fst p)) (snd p) (heading (t_rot (fst p))))
      (flat_map (fun s => match s_odom s with Some o => [(s_pose s, o)] | None => [] end) l).
Proof. induction l as [|[p [o|]] l IH]; cbn; [reflexivity| |exact IH]. rewrite IH. reflexivity. Qed.
Lemma compose_assoc : forall a b c, compose (compose a b) c = compose a (compose b c).
Proof.
  intros a b c. unfold compose. cbn [t_rot t_pos]. f_equal; [change product with mmul; symmetry; apply mmul_assoc|].
  apply vec_eq; unfold mvec, vadd, product; cbn [vx vy vz m00 m01 m02 m10 m11 m12 m20 m21 m22]; ring.
Qed.
(** With odometry that moves as the submaps do, as seen from the mounting, the right mounting has no residual. *)
Theorem C154_right : forall l t r, let tf := mkT (eulers_to_matrix r) t in
  Forall (fun s => forall o, s_odom s = Some o -> compose o tf = compose tf (s_pose s)) l -> Forall (fun f => f t r = 0) (residuals l).
Proof.
  intros l t r tf H. assert (Rm : rotation (eulers_to_matrix r)) by (rewrite eulers_zyx; apply rotation_zyx).
  assert (D : det (t_rot tf) <> 0) by (cbn [t_rot tf]; rewrite (proj2 Rm); lra).
  induction H as [|[p [o|]] l H _ IH]; cbn [residuals s_odom s_pose]; [constructor| |exact IH]. constructor; [|exact IH].
  specialize (H o eq_refl). cbn [s_pose] in H. unfold odom_path. cbv zeta. fold tf. rewrite compose_assoc, H, <- compose_assoc, (inverse_left tf D).
  assert (E : t_pos (compose identity p) = t_pos p).
  { apply vec_eq; unfold compose, identity, ident, zero_vec, mvec, vadd; cbn [t_rot t_pos vx vy vz m00 m01 m02 m10 m11 m12 m20 m21 m22]; ring. }
  rewrite E. clear. set (d := heading (t_rot p)). unfold beside. cbv zeta. match goal with |- sqrt ?x = 0 => replace x with 0; [apply sqrt_0|] end.
  generalize (unit3 d). intros u. unfold dot, vsub, vscale. cbn [vx vy vz]. ring.
Qed.

(** ** The direction *)
(** Away from the poles it is the first axis of the submap, upside down, and of length one. *)
Theorem C154_direction : forall m, rotation m -> 1 / 1000000 <= sqrt (m00 m * m00 m + m10 m * m10 m) ->
  heading m = mkV (m00 m) (m10 m) (- m20 m) /\ dot (heading m) (heading m) = 1.
Proof.
  intros m H B. assert (E : heading m = mkV (m00 m) (m10 m) (- m20 m)).
  { pose proof (euler_roundtrip m H B) as Q. rewrite eulers_zyx in Q. unfold heading. cbv zeta. set (e := matrix_to_eulers m) in *. clearbody e. rewrite <- Q.
    unfold zyx, about_x, about_y, about_z, product. cbn [m00 m01 m02 m10 m11 m12 m20 m21 m22]. f_equal; ring. }
  split; [exact E|]. rewrite E. destruct (rot_facts m H) as [_ (_ & _ & _ & F & _)]. unfold dot. cbn [vx vy vz]. rewrite <- F. ring.
Qed.
(** "It is the direction of the first axis": false unless the submap is level. *)
Theorem C154_direction_refuted : exists m, rotation m /\ 1 / 1000000 <= sqrt (m00 m * m00 m + m10 m * m10 m) /\ heading m <> mvec m (mkV 1 0 0).
Proof.
  exists (about_y (PI / 6)). destruct (rotation_about (PI / 6)) as (_ & Ry & _).
  assert (B : 1 / 1000000 <= sqrt (m00 (about_y (PI / 6)) * m00 (about_y (PI / 6)) + m10 (about_y (PI / 6)) * m10 (about_y (PI / 6)))).
  { unfold about_y. cbn [m00 m10]. rewrite cos_PI6. apply Rle_trans with (sqrt (1 / 2 * (1 / 2))); [rewrite sqrt_square; lra|].
    apply sqrt_le_1_alt. pose proof (sqrt_sqrt 3 ltac:(lra)). nra. }
  split; [exact Ry|]. split; [exact B|]. destruct (C154_direction _ Ry B) as [-> _]. unfold mvec, about_y. cbn [vx vy vz m00 m01 m02 m10 m11 m12 m20 m21 m22].
  rewrite sin_PI6. intros X. injection X. intros. lra.
Qed.
Theorem C154_level : forall m, rotation m -> m20 m = 0 -> heading m = mvec m (mkV 1 0 0).
Proof.
  intros m H Z. destruct (rot_facts m H) as [_ (_ & _ & _ & F & _)]. rewrite Z in F.
  destruct (C154_direction m H) as [-> _]. { replace (m00 m * m00 m + m10 m * m10 m) with 1 by lra. rewrite sqrt_1. lra. }
  unfold mvec. cbn [vx vy vz]. rewrite Z. f_equal; ring.
Qed.

(** ** The calibration *)
Section Calib.
Variable solve : list (vec -> vec -> R) -> vec * vec -> vec * vec.
(** It fails, without touching the result, exactly for less than two submaps or none with odometry; it aborts exactly
    for null pointers. *)
Theorem C154_failures : forall l init old, 
  (calibrate solve None init old = Abort /\ calibrate solve l init None = Abort) /\
  forall l0 old0, l = Some l0 -> old = Some old0 -> exists b res, calibrate solve l init old = Ok (b, res) /\
    (b = false <-> (length l0 < 2)%nat \/ Forall (fun s => s_odom s = None) l0) /\ (b = false -> res = old0) /\
    (b = true -> rigid res).
Proof.
  intros l init old. split; [split; [reflexivity|destruct l; reflexivity]|]. intros l0 old0 -> ->. unfold calibrate.
  assert (N : residuals l0 = [] <-> Forall (fun s => s_odom s = None) l0).
  { clear. induction l0 as [|[p [o|]] l IH]; cbn [residuals s_odom]; [split; constructor| |].
    - split; [discriminate|]. intros H. apply Forall_inv in H. discriminate H.
    - rewrite IH. split; [constructor; auto|]. intros H. apply Forall_inv_tail in H. exact H. }
  destruct (Nat.leb_spec (length l0) 1) as [L|L].
  - do 2 eexists. split; [reflexivity|]. split; [split; [left; lia|reflexivity]|]. split; [reflexivity|discriminate].
  - destruct (residuals l0) as [|f fs] eqn:E.
    + do 2 eexists. split; [reflexivity|]. split; [split; [intros _; right; apply N; reflexivity|reflexivity]|]. split; [reflexivity|discriminate].
    + destruct (solve (f :: fs) (transform_to_vector6 init)) as [t r]. do 2 eexists. split; [reflexivity|]. split; [split; [discriminate|]|].
      * intros [X|X]; [lia|]. apply N in X. discriminate X.
      * split; [discriminate|]. intros _. unfold rigid. cbn [t_rot]. rewrite eulers_zyx. apply rotation_zyx.
Qed.
(** The result is what the solver finds, starting from the first estimate; a solver that leaves it there gives it back. *)
Theorem C154_result : forall l init old, (2 <= length l)%nat -> residuals l <> [] ->
  exists t r, solve (residuals l) (transform_to_vector6 init) = (t, r) /\ calibrate solve (Some l) init (Some old) = Ok (true, mkT (eulers_to_matrix r) t) /\
  (rigid init -> 1 / 1000000 <= sqrt (m00 (t_rot init) * m00 (t_rot init) + m10 (t_rot init) * m10 (t_rot init)) ->
   (t, r) = transform_to_vector6 init -> mkT (eulers_to_matrix r) t = init).
Proof.
  intros l init old L N. destruct (solve (residuals l) (transform_to_vector6 init)) as [t r] eqn:S. exists t, r. split; [reflexivity|]. split.
  - unfold calibrate. destruct (Nat.leb_spec (length l) 1); [lia|]. destruct (residuals l) as [|f fs]; [contradiction|]. rewrite S. reflexivity.
  - intros Ri B E. unfold transform_to_vector6 in E. injection E as -> ->. rewrite (euler_roundtrip _ Ri B). destruct init; reflexivity.
Qed.
End Calib.
Print Assumptions C154_residuals.
Print Assumptions C154_right.
Print Assumptions C154_direction.
Print Assumptions C154_direction_refuted.
Print Assumptions C154_level.
Print Assumptions C154_failures.
Print Assumptions C154_result.

(** ** A concrete trajectory: the odometer sits 2 beside the submaps' origin, which turns by a quarter. *)
Definition quarter : transform := mkT (about_z (PI / 2)) (mkV 1 0 0).
Definition seen : transform := mkT (about_z (PI / 2)) (mkV 3 (-2) 0).
Example C154_ex_right : let l := [mkSubmap identity (Some identity); mkSubmap quarter None; mkSubmap quarter (Some seen)] in
  let tf := mkT (eulers_to_matrix zero_vec) (mkV 2 0 0) in
  Forall (fun s => forall o, s_odom s = Some o -> compose o tf = compose tf (s_pose s)) l /\ length (residuals l) = 2%nat.
Proof.
  cbv zeta. split; [|reflexivity]. rewrite eulers_zyx, (proj1 C151_ex_space). repeat constructor; cbn [s_odom s_pose]; intros o [= <-].
  - unfold compose, identity, ident, zero_vec, product, mvec, vadd. cbn [t_rot t_pos vx vy vz m00 m01 m02 m10 m11 m12 m20 m21 m22]. f_equal; f_equal; ring.
  - unfold compose, seen, quarter, about_z, product, mvec, vadd, ident. cbn [t_rot t_pos vx vy vz m00 m01 m02 m10 m11 m12 m20 m21 m22]. rewrite cos_PI2, sin_PI2.
    f_equal; f_equal; ring.
Qed.
Example C154_ex_level : rotation (about_z (PI / 2)) /\ m20 (about_z (PI / 2)) = 0 /\ heading (about_z (PI / 2)) = mkV 0 1 0.
Proof.
  destruct (rotation_about (PI / 2)) as (_ & _ & Rz). assert (Z : m20 (about_z (PI / 2)) = 0) by reflexivity. split; [exact Rz|]. split; [exact Z|].
  rewrite (C154_level _ Rz Z). unfold about_z, mvec. cbn [vx vy vz m00 m01 m02 m10 m11 m12 m20 m21 m22]. rewrite cos_PI2, sin_PI2. f_equal; ring.
Qed.
(** One submap is too few; two without odometry fail; two of which one has odometry give what the solver finds. *)
Example C154_ex_run : let solve := fun (_ : list (vec -> vec -> R)) (_ : vec * vec) => (mkV 2 0 0, zero_vec) in
  calibrate solve (Some [mkSubmap identity (Some identity)]) identity (Some seen) = Ok (false, seen) /\
  calibrate solve (Some [mkSubmap identity None; mkSubmap quarter None]) identity (Some seen) = Ok (false, seen) /\
  calibrate solve (Some [mkSubmap identity None; mkSubmap quarter (Some seen)]) identity (Some seen) = Ok (true, mkT (eulers_to_matrix zero_vec) (mkV 2 0 0)).
Proof. repeat split; reflexivity. Qed.
