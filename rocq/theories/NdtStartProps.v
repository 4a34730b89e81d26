(** C133: the start of the normal distributions transform. *)
From Coq Require Import Reals ZArith List Bool Lra Lia FunctionalExtensionality.
From Verif Require Import RigidModel RigidSpec RigidProofs NdtDerivModel NdtDerivSpec NdtDerivProofs NdtDerivProps
  NdtStepModel NdtStepSpec NdtStepProofs NdtStepProps NdtStartModel NdtStartProofs.
Import ListNotations.
Local Open Scope R_scope.

(** For every rigid guess, also at the poles of the Euler angles and for the identity: the transform at the start is
    the guess, the cloud is moved by it, and the six parameters stand for exactly this motion. *)
Theorem C133_start : forall rotation_of input guess, (forall m, rotation m -> rotation_of m = m) -> rigid guess ->
  let '(final, output, p) := begin rotation_of input guess in
  final = guess /\ output = map (apply guess) input /\ forall x, position p x = apply guess x.
Proof.
  intros rotation_of input guess U H. rewrite begin_value. split; [reflexivity|]. split; [reflexivity|].
  intro x. now apply position_start.
Qed.

(** The angles are in [0, pi), [-pi, pi) and [-pi, pi). *)
Theorem C133_range : forall rotation_of input guess, let '(_, _, p) := begin rotation_of input guess in
  0 <= p 3%nat < PI /\ - PI <= p 4%nat < PI /\ - PI <= p 5%nat < PI.
Proof. intros. rewrite begin_value. apply euler_range. Qed.

(** So the first score is the score of the guess, and the first gradient its derivative (C130), whenever no angle is
    nearly but not exactly zero. *)
Theorem C133_first_score : forall rotation_of cells o r threads thread input guess,
  (forall m, rotation m -> rotation_of m = m) -> rigid guess ->
  outlier_and_resolution o r -> good_cells cells ->
  (forall k, (k < length input)%nat -> (thread k < threads)%nat) ->
  let '(_, output, p) := begin rotation_of input guess in
  (forall k, (3 <= k < 6)%nat -> p k = 0 \/ 10 / 100000 <= Rabs (p k)) ->
  let d1 := gauss_d1 o r in let d2 := gauss_d2 o r in
  let result := compute_derivatives cells d1 d2 threads thread input output p in
  score result = rsum (map (fun x => rsum (map (fun c => - d1 * bell d2 c (apply guess x)) (cells (apply guess x)))) input) /\
  forall k, (k < 6)%nat -> partial (total_score d1 d2 (map (fun x => (x, cells (apply guess x))) input)) k p (gradient result k).
Proof.
  intros rotation_of cells o r threads thread input guess U H O G T. rewrite begin_value. intros A d1 d2.
  assert (E : forall x, apply guess x = position (parameters rotation_of guess) x) by (intro; symmetry; now apply position_start).
  assert (E1 : map (apply guess) input = map (position (parameters rotation_of guess)) input) by (apply map_ext; exact E).
  assert (E2 : map (fun x => (x, cells (apply guess x))) input = nearby cells (parameters rotation_of guess) input).
  { apply map_ext. intro x. now rewrite E. }
  rewrite E1, E2. intro result.
  destruct (C130_score cells o r threads thread input (parameters rotation_of guess) O G T A) as (S & D & _).
  split; [|exact D]. unfold result, d1, d2. rewrite S. unfold total_score, nearby. rewrite map_map. f_equal. apply map_ext.
  intro x. cbn [fst snd]. now rewrite <- E.
Qed.

(** And the transform returned is always the motion of the parameters reached, also if no step was taken. *)
Theorem C133_result : forall rotation_of input guess mat6 solve score_at gradient_at (hessian_at hessian_again : (nat -> R) -> mat6)
    zero_matrix step_size epsilon max_iterations score gradient hess converged s,
  (forall m, rotation m -> rotation_of m = m) -> rigid guess ->
  (0 <= max_iterations)%Z -> 0 < epsilon -> epsilon / 2 <= step_size ->
  let '(final, _, p0) := begin rotation_of input guess in
  ralign mat6 solve score_at gradient_at hessian_at hessian_again zero_matrix step_size epsilon max_iterations
    p0 score gradient hess = Some (converged, s) ->
  forall x, match placed _ _ s with Some q => position q x | None => apply final x end = position (p _ _ s) x.
Proof.
  intros rotation_of input guess mat6 solve score_at gradient_at hessian_at hessian_again zero_matrix step_size epsilon max_iterations
    score gradient hess converged s U H Hm He Hs. rewrite begin_value. intros A x.
  destruct (C131_distance _ _ _ _ _ _ _ _ _ _ _ _ _ _ _ _ Hm He Hs A) as (_ & _ & P).
  destruct (placed _ _ s) as [q|].
  - replace q with (p _ _ s); [reflexivity|]. apply functional_extensionality. intro i. now rewrite P.
  - destruct P as [P _]. replace (p _ _ s) with (parameters rotation_of guess).
    + symmetry. now apply position_start.
    + apply functional_extensionality. intro i. now rewrite P.
Qed.

(** False: a guess that turns little gives small angles.  Turning about x by a small negative angle gives three angles
    near pi. *)
Lemma small_turn : forall a, 0 < a < PI -> euler_angles (about_x (- a)) = mkV (PI - a) (- PI) (- PI).
Proof.
  intros a Ha. pose proof PI_RGT_0. unfold euler_angles, about_x. cbn [m00 m01 m02 m10 m11 m12 m20 m21 m22].
  assert (E0 : atan2 (- sin (- a)) (cos (- a)) = a).
  { rewrite sin_neg, cos_neg, Ropp_involutive. pose proof (atan2_polar 1 a) as P. rewrite !Rmult_1_l in P. apply P; lra. }
  rewrite E0. destruct (Rlt_dec 0 a) as [_|N]; [|lra]. cbn zeta. cbn [negb].
  replace (1 * 1 + 0 * 0) with 1 by ring. rewrite sqrt_1.
  assert (E1 : atan2 (- 0) (- (1)) = PI).
  { pose proof (atan2_polar 1 PI) as P. rewrite sin_PI, cos_PI in P. replace (- 0) with (1 * 0) by ring.
    replace (- (1)) with (1 * -1) by ring. apply P; lra. }
  rewrite E1. destruct (cos_less_pi a) as [-> ->]. rewrite sin_neg, cos_neg.
  replace (- sin a * 0 - - cos a * 0) with (- 0) by ring.
  replace (- cos a * cos a - - sin a * - sin a) with (- (1)).
  2:{ pose proof (sin2_cos2 a) as T. unfold Rsqr in T. lra. }
  rewrite E1. f_equal; ring.
Qed.
Theorem C133_small_refuted : forall rotation_of input a, (forall m, rotation m -> rotation_of m = m) -> 0 < a < PI ->
  let guess := mkT (about_x (- a)) zero_vec in
  rigid guess /\
  let '(_, _, p) := begin rotation_of input guess in
  Rabs (p 3%nat) = PI - a /\ Rabs (p 4%nat) = PI /\ Rabs (p 5%nat) = PI.
Proof.
  intros rotation_of input a U Ha guess. assert (Rg : rigid guess) by apply rotation_about. split; [exact Rg|].
  rewrite begin_value. unfold parameters. cbn [t_rot guess]. rewrite U by exact Rg. rewrite small_turn by exact Ha. cbn [vx vy vz].
  pose proof PI_RGT_0. rewrite !Rabs_Ropp, !Rabs_pos_eq by lra. lra.
Qed.

(** False: the parameters stand for the guess also if it is not rigid.  With a guess that doubles all lengths, the
    cloud and the transform at the start are doubled, but the parameters stand for a rotation. *)
Theorem C133_scaled_refuted : forall rotation_of, (forall m, rotation (rotation_of m)) ->
  let guess := mkT (mkM 2 0 0 0 2 0 0 0 2) zero_vec in
  let x := mkV 1 0 0 in
  let '(final, output, p) := begin rotation_of [x] guess in
  final = guess /\ output = [mkV 2 0 0] /\ dot (position p x) (position p x) = 1.
Proof.
  intros rotation_of U guess x. rewrite begin_value. split; [reflexivity|]. split.
  - cbn [map]. f_equal. unfold apply, guess, x, mvec, vadd, zero_vec. cbn. f_equal; ring.
  - rewrite position_parameters. cbn zeta. rewrite (euler_matrix _ (U _)). set (m := rotation_of _).
    destruct (rot_facts m (U _)) as [_ (_ & _ & _ & F & _)].
    unfold apply, guess, x, dot, mvec, vadd, zero_vec. cbn. lra.
Qed.

Print Assumptions C133_start.
Print Assumptions C133_range.
Print Assumptions C133_first_score.
Print Assumptions C133_result.
Print Assumptions C133_small_refuted.
Print Assumptions C133_scaled_refuted.

(** A guess at the pole: a quarter turn about y. *)
Example C133_ex_pole : forall input, let guess := mkT (about_y (PI / 2)) (mkV 1 2 3) in
  let '(final, output, p) := begin (fun m => m) input guess in
  rigid guess /\ output = map (apply guess) input /\ position p (mkV 1 0 0) = mkV 1 2 2.
Proof.
  intros input guess. assert (H : rigid guess) by apply rotation_about.
  pose proof (C133_start (fun m => m) input guess (fun m _ => eq_refl) H) as P.
  destruct (begin (fun m => m) input guess) as [[final output] p]. destruct P as (_ & P1 & P2).
  split; [exact H|]. split; [exact P1|]. rewrite P2. unfold apply, guess, mvec, vadd, about_y. cbn [t_rot t_pos m00 m01 m02 m10 m11 m12 m20 m21 m22 vx vy vz].
  rewrite cos_PI2, sin_PI2. f_equal; ring.
Qed.
(** A run that ends at once: the gradient is zero at the guess. *)
Example C133_ex_result : let guess := mkT (about_x (1 / 2)) (mkV 1 2 3) in
  let '(final, _, p0) := begin (fun m => m) [] guess in
  exists s, ralign R (fun _ _ _ => 0) (fun _ => 0) (fun _ _ => 0) (fun _ => 0) (fun _ => 0) 0 (1 / 10) (1 / 10) 35
              p0 0 (fun _ => 0) 0 = Some (true, s) /\ placed _ _ s = None /\ apply final (mkV 0 0 0) = mkV 1 2 3.
Proof.
  intro guess. rewrite begin_value. eexists. split; [|split].
  - unfold ralign, align. cbn [loop]. unfold turn. cbn [cur_hessian cur_gradient start].
    assert (N : norm6 (fun _ : nat => 0) = 0).
    { unfold norm6. replace (dot6 (fun _ => 0) (fun _ => 0)) with 0; [apply sqrt_0|]. unfold dot6. cbn. ring. }
    rewrite N. assert (E0 : req 0 0 = true) by (unfold req; destruct (Req_EM_T 0 0); [reflexivity|contradiction]).
    unfold zero. rewrite Q2R_0, E0. cbn [orb]. reflexivity.
  - reflexivity.
  - unfold apply, guess, mvec, vadd, about_x. cbn [t_rot t_pos m00 m01 m02 m10 m11 m12 m20 m21 m22 vx vy vz]. f_equal; ring.
Qed.
