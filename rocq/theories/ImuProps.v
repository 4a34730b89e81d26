(** C112 and C113: the IMU tracker. *)
From Coq Require Import Reals ZArith List Lra Lia.
From Verif Require Import Outcome TimeModel RigidModel RigidSpec RigidProofs ImuModel ImuProofs.
Import ListNotations.
Local Open Scope R_scope.

Section Props.
Variable svd_axis : vec -> vec -> vec.
Variable tau : R.
Hypothesis Ax : axis_ok svd_axis.
Notation observe := (observe svd_axis tau).
Notation after := (after svd_axis tau).
Notation step := (step svd_axis tau).
Notation new_gravity := (new_gravity tau).

(** The cosine of the angle between the estimated gravity and the vertical of the last orientation. *)
Definition tilt (k : tracker) (g : vec) : R := dot (rotate (conj (k_o k)) up) (vnormalized g).

Lemma up_unit : dot up up = 1.
Proof. unfold dot, up. vcomp. ring. Qed.
Lemma vz_dot : forall v, vz v = dot up v.
Proof. intros. unfold dot, up. vcomp. ring. Qed.
Lemma rotate_zero : forall q, rotate q zero_vec = zero_vec.
Proof. intros. apply vec_eq; unfold rotate, cross, vadd, vscale, qvec, zero_vec; vcomp; ring. Qed.
Lemma ftv_normalized : forall g v, g <> zero_vec -> from_two_vectors svd_axis g v = from_two_vectors svd_axis (vnormalized g) v.
Proof.
  intros g v N. destruct (vnormalized_unit g N) as [U _]. unfold from_two_vectors. rewrite (vnormalized_id (vnormalized g) U). reflexivity.
Qed.

(** C112: an acceleration is accepted iff the new gravity estimate is not zero.  The orientation then turns it
    upward: exactly, except that it may be off by 1e-5 rad or less if the estimate has turned almost upside down. *)
Theorem C112_observe : forall k a, qdot (k_o k) (k_o k) = 1 ->
  let g := new_gravity k a in
  (g = zero_vec -> observe k a = Abort) /\
  (g <> zero_vec -> exists k', observe k a = Ok k' /\ k_time k' = k_time k /\ k_w k' = k_w k /\ k_g k' = g /\
     qdot (k_o k') (k_o k') = 1 /\
     (tilt k g = -1 \/ -1 + / 1000000000000 <= tilt k g -> rotate (k_o k') g = mkV 0 0 (sqrt (dot g g))) /\
     (1 - 4 / 1000000000000) * sqrt (dot g g) <= vz (rotate (k_o k') g) <= sqrt (dot g g)).
Proof.
  intros k a O g. unfold ImuModel.observe. fold g. cbv zeta. split.
  - intros ->. rewrite rotate_zero. unfold zero_vec. cbn [vz]. destruct (Rlt_dec 0 0); [lra|reflexivity].
  - intros N. destruct (vnormalized_unit g N) as [U [Eg Pn]]. set (u := vnormalized g) in *. set (n := sqrt (dot g g)) in *.
    set (v := rotate (conj (k_o k)) up). assert (V : dot v v = 1) by (unfold v; rewrite rotate_dot; auto using conj_unit, up_unit).
    rewrite (ftv_normalized g v N). fold u. set (r := from_two_vectors svd_axis u v).
    unfold tilt. fold u v.
    assert (K : qdot r r = 1 /\ (1 - 4 * sing <= dot v (rotate r u) <= 1) /\
                (dot v u = -1 \/ -1 + sing <= dot v u -> rotate r u = v)).
    { destruct (Rle_dec (-1 + sing) (dot v u)) as [L|L].
      - destruct (align_regular svd_axis u v U V L) as [R1 R2]. fold r in R1, R2. pose proof sing_pos. rewrite R2, V. split; [auto|]. split; [lra|auto].
      - destruct (align_singular svd_axis Ax u v U V) as [R1 [[R2 R3] R4]]; [lra|]. fold r in R1, R2, R3, R4. pose proof sing_pos.
        pose proof (dot_bound v u V U) as B. split; auto. split.
        + split; auto. eapply Rle_trans; [|exact R2]. assert (E : - dot v u >= 1 - sing) by lra.
          assert ((1 - sing) * (1 - sing) <= (- dot v u) * (- dot v u)) by (apply Rmult_le_compat; lra).
          assert (0 <= sing * sing) by nra. lra.
        + intros [E|E]; [auto|lra]. }
    clearbody r. destruct K as [R1 [R2 R3]]. fold sing in *. 
    rewrite (normalized_id _ (qmul_unit _ _ O R1)).
    set (o := qmul (k_o k) r). assert (Ou : qdot o o = 1) by (apply qmul_unit; auto).
    set (y := rotate o u). assert (Yg : rotate o g = vscale n y) by (rewrite Eg at 1; apply rotate_scale).
    assert (Yy : dot y y = 1) by (unfold y; rewrite rotate_dot; auto).
    assert (Yz : vz y = dot v (rotate r u)).
    { unfold y, o. rewrite rotate_qmul by auto. rewrite vz_dot. unfold v.
      rewrite <- (rotate_dot (k_o k) (rotate (conj (k_o k)) up)) by auto. rewrite rotate_conj by auto. reflexivity. }
    pose proof sing_pos. rewrite Yg, (vnormalized_scale n y Pn Yy).
    assert (Z : vz (vscale n y) = n * vz y) by reflexivity. rewrite Z.
    destruct (Rlt_dec 0 (n * vz y)) as [_|F].
    2: { exfalso. apply F. apply Rmult_lt_0_compat; lra. }
    destruct (Rlt_dec (99 / 100) (vz y)) as [_|F]; [|lra].
    eexists. split; [reflexivity|]. cbn [k_time k_w k_g k_o]. repeat split; auto.
    + intros T. rewrite Yg. specialize (R3 T). assert (y = up) as ->.
      { unfold y, o. rewrite rotate_qmul by auto. rewrite R3. unfold v. apply rotate_conj; auto. }
      apply vec_eq; unfold vscale, up; vcomp; ring.
    + rewrite Yg, Z. rewrite (Rmult_comm n). apply Rmult_le_compat_r; [lra|]. unfold sing in *. lra.
    + rewrite Yg, Z. rewrite <- (Rmult_1_r n) at 2. apply Rmult_le_compat_l; lra.
Qed.

(** Turning keeps the gravity where it is in the world. *)
Lemma advance_facts : forall k t k', qdot (k_o k) (k_o k) = 1 -> advance k t = Ok k' ->
  qdot (k_o k') (k_o k') = 1 /\ rotate (k_o k') (k_g k') = rotate (k_o k) (k_g k) /\ dot (k_g k') (k_g k') = dot (k_g k) (k_g k) /\
  k_time k' = t /\ k_w k' = k_w k.
Proof.
  intros k t k' O H. unfold advance in H. destruct (t_le (k_time k) t); [|discriminate]. inversion H; subst; clear H.
  cbn [k_time k_w k_g k_o]. set (r := eulers_to_quat _). assert (R1 : qdot r r = 1) by apply eulers_unit.
  rewrite normalized_id by (apply qmul_unit; auto). split; [apply qmul_unit; auto|]. split; [|split; auto].
  - rewrite rotate_qmul, rotate_conj by auto. reflexivity.
  - apply rotate_dot, conj_unit. auto.
Qed.

(** For every sequence of calls: the orientation is a rotation, the gravity estimate is not zero and the
    orientation turns it upward. *)
Theorem C112_always_upright : forall t h k, after t h = Ok k ->
  rotation (to_matrix (k_o k)) /\ k_g k <> zero_vec /\
  (1 - 4 / 1000000000000) * sqrt (dot (k_g k) (k_g k)) <= vz (rotate (k_o k) (k_g k)) <= sqrt (dot (k_g k) (k_g k)).
Proof.
  intros t h k H.
  assert (I : qdot (k_o k) (k_o k) = 1 /\ k_g k <> zero_vec /\
    (1 - 4 / 1000000000000) * sqrt (dot (k_g k) (k_g k)) <= vz (rotate (k_o k) (k_g k)) <= sqrt (dot (k_g k) (k_g k))).
  2: { split; [apply unit_rotation|]; tauto. }
  unfold ImuModel.after in H. revert H.
  assert (B : let k := new_tracker t in qdot (k_o k) (k_o k) = 1 /\ k_g k <> zero_vec /\
    (1 - 4 / 1000000000000) * sqrt (dot (k_g k) (k_g k)) <= vz (rotate (k_o k) (k_g k)) <= sqrt (dot (k_g k) (k_g k))).
  { cbv zeta. unfold new_tracker. cbn [k_o k_g]. repeat split.
    - unfold qdot. vcomp. ring.
    - unfold up, zero_vec. intros E. injection E. lra.
    - rewrite up_unit, sqrt_1. unfold rotate, cross, vadd, vscale, qvec, up. vcomp. lra.
    - rewrite up_unit, sqrt_1. unfold rotate, cross, vadd, vscale, qvec, up. vcomp. lra. }
  generalize dependent (new_tracker t). clear t. revert k. induction h as [|o h IH]; intros k k0 B H; cbn [run] in H.
  - inversion H; subst. exact B.
  - destruct (step k0 o) as [k1| | |] eqn:E; try discriminate. apply (IH k k1); [|exact H]. clear IH H.
    destruct B as [B1 [B2 B3]]. destruct o as [t|a|w]; cbn [ImuModel.step] in E.
    + destruct (advance_facts k0 t k1 B1 E) as [F1 [F2 [F3 _]]]. cbv zeta. rewrite F2, F3. repeat split; try tauto.
      intros Z. apply B2. apply dot_zero. rewrite <- F3, Z. unfold dot, zero_vec. vcomp. ring.
    + destruct (C112_observe k0 a B1) as [F1 F2]. destruct (Req_dec (dot (new_gravity k0 a) (new_gravity k0 a)) 0) as [Z|Z].
      * apply dot_zero in Z. rewrite (F1 Z) in E. discriminate.
      * assert (N : new_gravity k0 a <> zero_vec) by (intros C; apply Z; rewrite C; unfold dot, zero_vec; vcomp; ring).
        destruct (F2 N) as [k' [E' [_ [_ [G [U [_ Q]]]]]]]. rewrite E in E'. inversion E'; subst. cbv zeta. rewrite G. tauto.
    + inversion E; subst. cbv zeta. unfold turn. cbn [k_o k_g]. tauto.
Qed.

(** The calls that abort, for every sequence of calls before. *)
Theorem C112_failures : forall t h k o, after t h = Ok k ->
  (step k o = Abort <->
   match o with
   | Advance t => (to_nano t < to_nano (k_time k))%Z
   | Accelerate a => new_gravity k a = zero_vec
   | Turn _ => False
   end) /\ step k o <> Throw /\ step k o <> UB.
Proof.
  intros t h k o H. destruct (C112_always_upright t h k H) as [_ [_ _]].
  assert (U : qdot (k_o k) (k_o k) = 1).
  { clear o. unfold ImuModel.after in H. revert H. assert (B : qdot (k_o (new_tracker t)) (k_o (new_tracker t)) = 1) by (unfold qdot, new_tracker; cbn; ring).
    generalize dependent (new_tracker t). clear t. revert k. induction h as [|o h IH]; intros k k0 B H; cbn [run] in H.
    - inversion H; subst. exact B.
    - destruct (step k0 o) as [k1| | |] eqn:E; try discriminate. apply (IH k k1); [|exact H].
      destruct o as [t|a|w]; cbn [ImuModel.step] in E.
      + apply (advance_facts k0 t k1 B E).
      + destruct (C112_observe k0 a B) as [F1 F2]. destruct (Req_dec (dot (new_gravity k0 a) (new_gravity k0 a)) 0) as [Z|Z].
        * apply dot_zero in Z. rewrite (F1 Z) in E. discriminate.
        * assert (N : new_gravity k0 a <> zero_vec) by (intros C; apply Z; rewrite C; unfold dot, zero_vec; vcomp; ring).
          destruct (F2 N) as [k' [E' [_ [_ [_ [Q _]]]]]]. rewrite E in E'. inversion E'; subst. exact Q.
      + inversion E; subst. exact B. }
  destruct o as [t'|a|w]; cbn [ImuModel.step].
  - unfold advance, t_le. destruct (Z.leb_spec (to_nano (k_time k)) (to_nano t')); repeat split; try discriminate; try lia; auto.
  - destruct (C112_observe k a U) as [F1 F2]. destruct (Req_dec (dot (new_gravity k a) (new_gravity k a)) 0) as [Z|Z].
    + apply dot_zero in Z. rewrite (F1 Z). repeat split; try discriminate; auto.
    + assert (N : new_gravity k a <> zero_vec) by (intros C; apply Z; rewrite C; unfold dot, zero_vec; vcomp; ring).
      destruct (F2 N) as [k' [E' _]]. rewrite E'. repeat split; try discriminate. intros C. contradiction.
  - repeat split; try discriminate. contradiction.
Qed.

(** The first message levels the pose without turning it about the vertical; the tilt is limited to less
    than a straight angle. *)
Theorem C112_first_message : forall t a w k, after t [Accelerate a; Turn w; Advance t] = Ok k ->
  -1 + / 1000000000000 <= dot up (vnormalized a) ->
  rotate (k_o k) a = mkV 0 0 (sqrt (dot a a)) /\ qz (k_o k) = 0.
Proof.
  intros t a w k H C. unfold ImuModel.after in H. cbn [run ImuModel.step] in H.
  assert (G : new_gravity (new_tracker t) a = a).
  { unfold ImuModel.new_gravity, alpha, new_tracker, t_gt. cbn [k_last k_g]. rewrite Z.ltb_irrefl.
    apply vec_eq; unfold vadd, vscale, up; vcomp; ring. }
  assert (O : qdot (k_o (new_tracker t)) (k_o (new_tracker t)) = 1) by (unfold qdot, new_tracker; cbn; ring).
  destruct (C112_observe (new_tracker t) a O) as [F1 F2]. cbv zeta in *. rewrite G in *.
  destruct (Req_dec (dot a a) 0) as [Z|Z].
  { apply dot_zero in Z. rewrite (F1 Z) in H. discriminate. }
  assert (N : a <> zero_vec) by (intros E; apply Z; rewrite E; unfold dot, zero_vec; vcomp; ring).
  destruct (F2 N) as [k1 [E1 [T1 [W1 [G1 [U1 [A1 _]]]]]]]. rewrite E1 in H. cbn [bind] in H.
  unfold turn at 1 in H. cbn [bind] in H.
  assert (TL : tilt (new_tracker t) a = dot up (vnormalized a)).
  { unfold tilt, new_tracker. cbn [k_o]. f_equal. apply vec_eq; unfold rotate, conj, cross, vadd, vscale, qvec, up; vcomp; ring. }
  rewrite TL in A1. specialize (A1 (or_intror C)).
  assert (Q1 : qz (k_o k1) = 0).
  { unfold ImuModel.observe in E1. rewrite G in E1. cbv zeta in E1.
    set (v := rotate (conj (k_o (new_tracker t))) up) in E1.
    assert (V : v = up). { unfold v, new_tracker. cbn [k_o]. apply vec_eq; unfold rotate, conj, cross, vadd, vscale, qvec, up; vcomp; ring. }
    rewrite V in E1. destruct (Rlt_dec 0 _); [|discriminate]. destruct (Rlt_dec (99 / 100) _); [|discriminate]. inversion E1; subst k1.
    cbn [k_o]. destruct (vnormalized_unit a N) as [U _]. rewrite (ftv_normalized a up N).
    destruct (align_regular svd_axis (vnormalized a) up U up_unit) as [R1 _]; [unfold sing; exact C|].
    rewrite normalized_id by (apply qmul_unit; auto). unfold new_tracker. cbn [k_o]. unfold from_two_vectors.
    rewrite (vnormalized_id _ U), (vnormalized_id up up_unit). destruct (Rlt_dec _ _) as [L|_]; [lra|].
    unfold qmul, cross, up. vcomp. ring. }
  destruct (advance _ t) as [k2| | |] eqn:E2 in H; try discriminate. inversion H; subst k2.
  unfold advance in E2. cbn [k_time] in E2. rewrite T1 in E2. unfold new_tracker in E2. cbn [k_time] in E2.
  destruct (t_le t t) eqn:L; [|discriminate]. inversion E2; subst k. cbn [k_o].
  replace (seconds t t) with 0 by (unfold seconds; rewrite Z.sub_diag; field).
  assert (I : eulers_to_quat (vscale 0 w) = mkQ 1 0 0 0).
  { unfold eulers_to_quat, angle_axis, vscale. vcomp. replace (0 * vx w / 2) with 0 by field. replace (0 * vy w / 2) with 0 by field.
    replace (0 * vz w / 2) with 0 by field. rewrite cos_0, sin_0. unfold qmul. vcomp. f_equal; ring. }
  rewrite I. assert (J : qmul (k_o k1) (mkQ 1 0 0 0) = k_o k1).
  { destruct (k_o k1) as [q0 q1 q2 q3]. unfold qmul. vcomp. f_equal; ring. }
  unfold turn. cbn [k_o]. rewrite J, normalized_id by auto. auto.
Qed.
End Props.
Print Assumptions C112_observe.
Print Assumptions C112_always_upright.
Print Assumptions C112_failures.
Print Assumptions C112_first_message.

(** An axis as the theorems ask for exists. *)
Definition some_axis (u v : vec) : vec :=
  if Req_EM_T (dot (cross u v) (cross u v)) 0
  then (if Req_EM_T (dot (mkV (- vy u) (vx u) 0) (mkV (- vy u) (vx u) 0)) 0 then mkV 1 0 0 else vnormalized (mkV (- vy u) (vx u) 0))
  else vnormalized (cross u v).
Lemma nonzero : forall v, dot v v <> 0 -> v <> zero_vec.
Proof. intros v H ->. apply H. unfold dot, zero_vec. vcomp. ring. Qed.
Lemma normalized_perp : forall a u, a <> zero_vec -> dot a u = 0 -> dot (vnormalized a) u = 0.
Proof.
  intros a u N D. destruct (vnormalized_unit a N) as [_ [E P]]. rewrite E in D.
  assert (K : dot (vscale (sqrt (dot a a)) (vnormalized a)) u = sqrt (dot a a) * dot (vnormalized a) u) by (unfold dot at 1, vscale; vcomp; unfold dot; ring).
  rewrite K in D. apply Rmult_integral in D. destruct D; [lra|auto].
Qed.
Lemma parallel : forall u v, dot u u = 1 -> dot (cross u v) (cross u v) = 0 -> v = vscale (dot u v) u.
Proof.
  intros [u0 u1 u2] [v0 v1 v2] U C. apply dot_zero in C. unfold cross, zero_vec in C. cbn [vx vy vz] in C. injection C as C1 C2 C3.
  unfold dot in *. cbn [vx vy vz] in *. unfold vscale. cbn [vx vy vz]. f_equal.
  - transitivity (v0 * (u0 * u0 + u1 * u1 + u2 * u2)); [rewrite U; ring|]. replace (v0 * (u0 * u0 + u1 * u1 + u2 * u2)) with ((u0 * v0 + u1 * v1 + u2 * v2) * u0 - u1 * (u0 * v1 - u1 * v0) + u2 * (u2 * v0 - u0 * v2)) by ring. rewrite C2, C3. ring.
  - transitivity (v1 * (u0 * u0 + u1 * u1 + u2 * u2)); [rewrite U; ring|]. replace (v1 * (u0 * u0 + u1 * u1 + u2 * u2)) with ((u0 * v0 + u1 * v1 + u2 * v2) * u1 + u0 * (u0 * v1 - u1 * v0) - u2 * (u1 * v2 - u2 * v1)) by ring. rewrite C1, C3. ring.
  - transitivity (v2 * (u0 * u0 + u1 * u1 + u2 * u2)); [rewrite U; ring|]. replace (v2 * (u0 * u0 + u1 * u1 + u2 * u2)) with ((u0 * v0 + u1 * v1 + u2 * v2) * u2 - u0 * (u2 * v0 - u0 * v2) + u1 * (u1 * v2 - u2 * v1)) by ring. rewrite C1, C2. ring.
Qed.
Example C112_ex_axis : axis_ok some_axis.
Proof.
  intros u v U V. unfold some_axis. destruct (Req_EM_T _ 0) as [C|C].
  - assert (P : forall a, dot a u = 0 -> dot a v = 0).
    { intros a A. rewrite (parallel u v U C). transitivity (dot u v * dot a u); [unfold dot at 1, vscale; vcomp; unfold dot; ring|rewrite A; ring]. }
    destruct (Req_EM_T _ 0) as [D|D].
    + assert (K : vx u = 0 /\ vy u = 0). { apply dot_zero in D. unfold zero_vec in D. injection D. intros. lra. }
      assert (dot (mkV 1 0 0) u = 0) by (unfold dot; vcomp; lra). repeat split; auto. unfold dot. vcomp. ring.
    + pose proof (nonzero _ D) as N. destruct (vnormalized_unit _ N) as [W _]. split; auto.
      assert (dot (vnormalized (mkV (- vy u) (vx u) 0)) u = 0) by (apply normalized_perp; auto; unfold dot; vcomp; ring). auto.
  - pose proof (nonzero _ C) as N. destruct (vnormalized_unit _ N) as [W _]. split; auto.
    split; apply normalized_perp; auto; unfold dot, cross; vcomp; ring.
Qed.

(** A tilted sensor: the first message levels it. *)
Example C112_ex : exists k, after some_axis 10 (mkTime 5 0) [Accelerate (mkV 3 0 4); Turn (mkV 0 0 1); Advance (mkTime 5 0)] = Ok k /\
  rotate (k_o k) (mkV 3 0 4) = mkV 0 0 5.
Proof.
  set (h := [Accelerate (mkV 3 0 4); Turn (mkV 0 0 1); Advance (mkTime 5 0)]).
  assert (Nz : mkV 3 0 4 <> zero_vec) by (unfold zero_vec; intros E; injection E; lra).
  assert (E : exists k, after some_axis 10 (mkTime 5 0) h = Ok k).
  { unfold after, h. cbn [run step].
    assert (G : new_gravity 10 (new_tracker (mkTime 5 0)) (mkV 3 0 4) = mkV 3 0 4).
    { unfold new_gravity, alpha, new_tracker, t_gt. cbn [k_last k_g]. rewrite Z.ltb_irrefl. apply vec_eq; unfold vadd, vscale, up; vcomp; ring. }
    assert (O : qdot (k_o (new_tracker (mkTime 5 0))) (k_o (new_tracker (mkTime 5 0))) = 1) by (unfold qdot, new_tracker; cbn; ring).
    destruct (C112_observe some_axis 10 C112_ex_axis (new_tracker (mkTime 5 0)) (mkV 3 0 4) O) as [_ F]. rewrite G in F.
    destruct (F Nz) as [k' [-> [T _]]]. cbn [bind]. unfold advance, turn. cbn [k_time]. rewrite T. unfold new_tracker. cbn [k_time bind].
    replace (t_le (mkTime 5 0) (mkTime 5 0)) with true by reflexivity. eexists. reflexivity. }
  destruct E as [k E]. exists k. split; auto.
  assert (D : dot (mkV 3 0 4) (mkV 3 0 4) = 5 * 5) by (unfold dot; vcomp; ring).
  destruct (C112_first_message some_axis 10 C112_ex_axis _ _ _ _ E) as [A _].
  - unfold vnormalized. rewrite D, sqrt_square by lra. destruct (Rlt_dec _ _); [|lra]. unfold dot, up, vscale. vcomp.
    pose proof sing_pos. unfold sing in *. lra.
  - rewrite A, D, sqrt_square by lra. reflexivity.
Qed.

(** ** C113: steps of the integration *)

(** Turning about one of the axes of the sensor: the rotation of a step is the rotation about that axis by rate times time. *)
Theorem C113_one_axis : forall k t e r, advance k t = Ok r -> qdot (k_o k) (k_o k) = 1 ->
  In e [mkV 1 0 0; mkV 0 1 0; mkV 0 0 1] -> forall s, k_w k = vscale s e ->
  k_o r = qmul (k_o k) (angle_axis (s * (IZR (to_nano t - to_nano (k_time k)) / 1000000000)) e).
Proof.
  intros k t e r H O I s W. unfold advance in H. destruct (t_le _ _); [|discriminate]. inversion H; subst; clear H. cbn [k_o].
  rewrite normalized_id by (apply qmul_unit; auto using eulers_unit). f_equal. rewrite W. unfold seconds. set (dt := _ / 1000000000). clearbody dt.
  unfold eulers_to_quat, angle_axis, vscale.
  destruct I as [<-|[<-|[<-|[]]]]; vcomp; rewrite ?Rmult_0_r, ?Rmult_1_r; replace (0 / 2) with 0 by field; rewrite cos_0, sin_0;
    rewrite (Rmult_comm dt s); unfold qmul; vcomp; f_equal; ring.
Qed.
Print Assumptions C113_one_axis.

Lemma angle_axis_add : forall a b u, dot u u = 1 -> qmul (angle_axis a u) (angle_axis b u) = angle_axis (a + b) u.
Proof.
  intros a b [x y z] U. unfold dot in U. cbn [vx vy vz] in U. unfold angle_axis, qmul. vcomp.
  replace ((a + b) / 2) with (a / 2 + b / 2) by field. rewrite cos_plus, sin_plus. set (c := cos (a / 2)). set (d := cos (b / 2)). set (p := sin (a / 2)). set (q := sin (b / 2)).
  f_equal; try ring. replace (c * d - p * q) with (c * d - p * q * (x * x + y * y + z * z)) by (rewrite U; ring). ring.
Qed.
Lemma qmul_assoc : forall a b c, qmul (qmul a b) c = qmul a (qmul b c).
Proof. intros. unfold qmul. vcomp. f_equal; ring. Qed.

(** Then advancing in two steps, or in one, gives the same orientation. *)
Theorem C113_steps : forall k t1 t2 e s k1 k2 k3, qdot (k_o k) (k_o k) = 1 ->
  In e [mkV 1 0 0; mkV 0 1 0; mkV 0 0 1] -> k_w k = vscale s e ->
  advance k t1 = Ok k1 -> advance k1 t2 = Ok k2 -> advance k t2 = Ok k3 -> k_o k2 = k_o k3.
Proof.
  intros k t1 t2 e s k1 k2 k3 O I W A1 A2 A3. destruct (advance_facts k t1 k1 O A1) as [O1 [_ [_ [T1 W1]]]].
  rewrite (C113_one_axis k1 t2 e k2 A2 O1 I s) by congruence. rewrite (C113_one_axis k t1 e k1 A1 O I s W), (C113_one_axis k t2 e k3 A3 O I s W).
  rewrite T1, qmul_assoc, angle_axis_add.
  - do 2 f_equal. rewrite <- Rmult_plus_distr_l. f_equal. rewrite !minus_IZR. field.
  - destruct I as [<-|[<-|[<-|[]]]]; unfold dot; vcomp; ring.
Qed.
Print Assumptions C113_steps.

(** With rates about several axes the orientation depends on the steps: the rates are used as Euler angles. *)
Definition rolling : tracker := turn (new_tracker time_zero) (mkV PI 0 PI).
Definition half : time := mkTime 0 500000000.
Definition one : time := mkTime 1 0.
Theorem C113_steps_refuted : ~ (forall k t1 t2 k1 k2 k3, qdot (k_o k) (k_o k) = 1 ->
  advance k t1 = Ok k1 -> advance k1 t2 = Ok k2 -> advance k t2 = Ok k3 ->
  to_matrix (k_o k2) = to_matrix (k_o k3)).
Proof.
  intros H. assert (O : qdot (k_o rolling) (k_o rolling) = 1) by (unfold qdot, rolling, turn, new_tracker; cbn; ring).
  assert (U : forall k t, t_le (k_time k) t = true -> advance k t = Ok (mkK t (k_last k) (normalized (qmul (k_o k) (eulers_to_quat (vscale (seconds (k_time k) t) (k_w k)))))
     (rotate (conj (eulers_to_quat (vscale (seconds (k_time k) t) (k_w k)))) (k_g k)) (k_w k))).
  { intros k t E. unfold advance. rewrite E. reflexivity. }
  pose proof (U rolling half eq_refl) as A1.
  set (q := eulers_to_quat (vscale (seconds (k_time rolling) half) (k_w rolling))) in *.
  set (k1 := mkK half (k_last rolling) (normalized (qmul (k_o rolling) q)) (rotate (conj q) (k_g rolling)) (k_w rolling)) in *.
  pose proof (U k1 one eq_refl) as A2. pose proof (U rolling one eq_refl) as A3.
  specialize (H _ _ _ _ _ _ O A1 A2 A3). revert H. cbn [k_o].
  assert (S0 : seconds (k_time rolling) half = 1 / 2) by (unfold seconds; cbn [rolling turn new_tracker k_time]; replace (to_nano half - to_nano time_zero)%Z with 500000000%Z by reflexivity; field).
  assert (S1 : seconds (k_time k1) one = 1 / 2) by (unfold seconds; cbn [k1 k_time]; replace (to_nano one - to_nano half)%Z with 500000000%Z by reflexivity; field).
  assert (S2 : seconds (k_time rolling) one = 1) by (unfold seconds; cbn [rolling turn new_tracker k_time]; replace (to_nano one - to_nano time_zero)%Z with 1000000000%Z by reflexivity; field).
  assert (Wr : k_w rolling = mkV PI 0 PI) by reflexivity. assert (W1 : k_w k1 = mkV PI 0 PI) by reflexivity.
  assert (Qe : q = mkQ (1 / 2) (1 / 2) (1 / 2) (1 / 2)).
  { unfold q. rewrite S0, Wr. unfold eulers_to_quat, angle_axis, vscale. vcomp.
    replace (1 / 2 * PI / 2) with (PI / 4) by field. replace (1 / 2 * 0 / 2) with 0 by field. rewrite cos_0, sin_0, cos_PI4, sin_PI4.
    assert (Sq : 1 / sqrt 2 * (1 / sqrt 2) = 1 / 2).
    { assert (P : 0 < sqrt 2) by (apply sqrt_lt_R0; lra). replace (1 / sqrt 2 * (1 / sqrt 2)) with (1 / (sqrt 2 * sqrt 2)) by (field; lra). rewrite sqrt_sqrt by lra. reflexivity. }
    set (x := 1 / sqrt 2) in *. unfold qmul. vcomp. f_equal; ring [Sq]. }
  rewrite S1, S2, Wr, W1. assert (Ro : k_o rolling = mkQ 1 0 0 0) by reflexivity. rewrite Ro.
  replace (eulers_to_quat (vscale (1 / 2) (mkV PI 0 PI))) with q by (unfold q; rewrite S0, Wr; reflexivity).
  assert (E3 : eulers_to_quat (vscale 1 (mkV PI 0 PI)) = mkQ 0 0 1 0).
  { unfold eulers_to_quat, angle_axis, vscale. vcomp. replace (1 * PI / 2) with (PI / 2) by field. replace (1 * 0 / 2) with 0 by field.
    rewrite cos_0, sin_0, cos_PI2, sin_PI2. unfold qmul. vcomp. f_equal; ring. }
  rewrite E3. assert (K1 : k_o k1 = mkQ (1 / 2) (1 / 2) (1 / 2) (1 / 2)).
  { cbn [k1 k_o]. rewrite Ro, Qe. rewrite normalized_id.
    - unfold qmul. vcomp. f_equal; ring.
    - unfold qdot, qmul. vcomp. field. }
  rewrite K1, Qe. rewrite !normalized_id by (unfold qdot, qmul; vcomp; field).
  intros E. apply (f_equal m00) in E. unfold to_matrix, qmul in E. vcomp. lra.
Qed.
Print Assumptions C113_steps_refuted.
Example C113_ex : exists k1 k2 k3, let k := turn (new_tracker time_zero) (mkV 0 0 2) in
  advance k half = Ok k1 /\ advance k1 one = Ok k2 /\ advance k one = Ok k3 /\ k_o k2 = k_o k3 /\ k_o k3 = mkQ (cos 1) 0 0 (sin 1).
Proof.
  set (k := turn (new_tracker time_zero) (mkV 0 0 2)).
  assert (U : forall k t, t_le (k_time k) t = true -> exists r, advance k t = Ok r /\ k_time r = t).
  { intros k0 t E. unfold advance. rewrite E. eexists. split; reflexivity. }
  destruct (U k half eq_refl) as [k1 [E1 T1]]. destruct (U k1 one) as [k2 [E2 T2]]; [rewrite T1; reflexivity|]. destruct (U k one eq_refl) as [k3 [E3 T3]].
  assert (O : qdot (k_o k) (k_o k) = 1) by (unfold qdot, k, turn, new_tracker; cbn; ring).
  assert (W : k_w k = vscale 2 (mkV 0 0 1)) by (unfold k, turn, vscale; cbn [k_w vx vy vz]; f_equal; ring).
  exists k1, k2, k3. cbv zeta. repeat split; auto.
  - apply (C113_steps k half one (mkV 0 0 1) 2 k1 k2 k3 O); auto; cbn; auto.
  - rewrite (C113_one_axis k one (mkV 0 0 1) k3 E3 O) with (s := 2) by (cbn; auto). cbn [k turn new_tracker k_time k_o].
    replace (to_nano one - to_nano time_zero)%Z with 1000000000%Z by reflexivity. unfold angle_axis, qmul. vcomp.
    replace (2 * (1000000000 / 1000000000) / 2) with 1 by field. f_equal; ring.
Qed.
