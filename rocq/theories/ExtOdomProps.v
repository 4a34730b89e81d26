(** C146: odometry, gravity and the rough velocity of the pose extrapolator. *)
From Coq Require Import List Bool ZArith Reals Lia Lra.
From Verif Require Import Outcome TimeModel RigidModel ExtrapModel ExtrapProofs ExtOdomModel ExtOdomSpec ExtOdomProofs.
Import ListNotations.
Local Open Scope outcome_scope.

Section C146.
Variables Rot A I O : Type.
Variable grav_ok : list (tev (vel A) I) -> bool.
Variable secs_of : time -> R.
Variable velocity : (time * pose Rot) -> (time * pose Rot) -> vel A.
Variable shorter : time -> time -> bool.
Variable turn : Rot -> A -> time -> Rot.
Variable turn_imu : Rot -> tracker (vel A) I -> tracker (vel A) I -> Rot.
Variable odo_angular : O -> O -> time -> A.
Variable orient : tracker (vel A) I -> Rot.
Variable level : Rot.
Variable a0 : A.
Notation ostep := (ExtOdomModel.ostep Rot A I O grav_ok secs_of velocity shorter turn turn_imu odo_angular orient level).
Notation start := (ExtOdomModel.start Rot A I O a0).
Notation core := (ExtOdomModel.core Rot A I O).
Notation odo := (ExtOdomModel.odo Rot A I O).
Notation query := (ExtOdomModel.o_query Rot A I O grav_ok secs_of turn turn_imu).
Notation gravity := (ExtOdomModel.gravity Rot A I O grav_ok orient level).
Notation rough := (ExtOdomModel.rough Rot A I O).
Notation estep := (ExtrapModel.estep (pose Rot) (vel A) I grav_ok velocity shorter
  (ExtOdomModel.predict Rot A secs_of turn) (ExtOdomModel.predict_imu Rot A I secs_of turn_imu)).

(** Without odometry the object is that of ExtrapModel. *)
Theorem C146_no_odometry : forall e ops, omap core (run ostep (start e) (map (OCore Rot I O) ops)) = run estep e ops.
Proof. intros. apply (core_run Rot A I O grav_ok secs_of velocity shorter turn turn_imu odo_angular orient level ops (start e)). reflexivity. Qed.

(** In the mode without IMU odometry has no effect. *)
Theorem C146_ctrv_ignores_odometry : forall e ops, e_mode e = CTRV ->
  run ostep (start e) ops = run ostep (start e) (filter (fun o => negb (is_odom o)) ops).
Proof. intros e ops M. apply run_ctrv. exact M. Qed.

(** With IMU, once there is a pose, only one odometry message can be added in all: the next one aborts if it is
    older than the newest pose, and is undefined otherwise. *)
Theorem C146_second_message_undefined : forall e ops s t p u o, e_mode e = WithImu -> run ostep (start e) ops = Ok s ->
  (1 <= odoms ops)%nat -> newest (back (e_queue e)) ops = Some (t, p) ->
  ostep s (OOdom Rot I O u o) = if t_ge u t then UB else Abort.
Proof.
  intros e ops s t p u o M H N B. destruct (run_facts H) as (M' & _ & B' & _ & D & _).
  cbn [ExtOdomModel.start ExtOdomModel.core ExtOdomModel.odo length] in *. rewrite B in B'. specialize (D M).
  assert (Q : e_queue (core s) <> []) by (intros X; rewrite X in B'; discriminate).
  assert (O' : odo s <> []) by (intros X; rewrite X in D; cbn [length] in D; lia).
  destruct (odom_with_pose Rot A I O secs_of shorter turn turn_imu odo_angular level u o s ltac:(congruence) Q O') as [Ab Ub].
  cbn [ExtOdomModel.ostep]. destruct (t_ge u t) eqn:G; [exact (Ub t p B' G)|exact (Ab t p B' G)].
Qed.

(** With two odometry messages the extrapolated position is that of the newest pose, however far ahead. *)
Theorem C146_stands_still : forall e ops s t p s' tl pl, e_mode e = WithImu -> run ostep (start e) ops = Ok s ->
  (2 <= odoms ops)%nat -> newest (back (e_queue e)) ops = Some (tl, pl) ->
  t_ne (fst (e_cache (core s))) t = Ok true -> query t s = Ok (p, s') -> fst p = fst pl.
Proof.
  intros e ops s t p s' tl pl M H N B C Q. destruct (run_facts H) as (M' & L & B' & _ & D & _).
  cbn [ExtOdomModel.start ExtOdomModel.core ExtOdomModel.odo ExtOdomModel.olin length] in *. rewrite B in B'. specialize (D M).
  destruct (query_position Q B' C) as (d & _ & ->). rewrite M', M.
  assert ((length (odo s) <? 2)%nat = false) as -> by (apply Nat.ltb_ge; lia).
  rewrite L. destruct (fst pl) as [x1 x2 x3]. unfold vadd, vscale, zero_vec. cbn [vx vy vz]. f_equal; ring.
Qed.

(** Until the first pose every message is kept. *)
Theorem C146_kept_until_pose : forall e ops s, e_mode e = WithImu -> run ostep (start e) ops = Ok s ->
  newest (back (e_queue e)) ops = None -> length (odo s) = odoms ops.
Proof.
  intros e ops s M H B. destruct (run_facts H) as (_ & _ & B' & _ & _ & D).
  cbn [ExtOdomModel.start ExtOdomModel.core ExtOdomModel.odo length] in *. apply D; auto. apply back_none. congruence.
Qed.

(** The gravity orientation needs a tracker, which there is from the second pose on. *)
Theorem C146_gravity_needs_two_poses : forall d id v0 ops s t, run ostep (start (new_ext (pose Rot) (vel A) I id v0 WithImu d)) ops = Ok s ->
  (poses_in ops < 2)%nat -> gravity t s = UB.
Proof.
  intros d id v0 ops s t H N. destruct (run_facts H) as (M & _).
  pose proof (run_tracker H eq_refl ltac:(exact N)) as T.
  unfold ExtOdomModel.gravity. rewrite M, T. reflexivity.
Qed.
Theorem C146_gravity_ctrv : forall e ops s t, e_mode e = CTRV -> run ostep (start e) ops = Ok s -> gravity t s = Ok level.
Proof.
  intros e ops s t M H. destruct (run_facts H) as (M' & _).
  unfold ExtOdomModel.gravity. rewrite M'. cbn [ExtOdomModel.start ExtOdomModel.core]. rewrite M. reflexivity.
Qed.

(** A rough velocity moves the next extrapolated position, unless two odometry messages were added. *)
Theorem C146_rough_velocity : forall e ops s l t p s' tl pl, run ostep (start e) ops = Ok s ->
  e_mode e = CTRV \/ (odoms ops < 2)%nat -> newest (back (e_queue e)) ops = Some (tl, pl) ->
  t_ne (fst (e_cache (core s))) t = Ok true -> query t (rough l s) = Ok (p, s') ->
  exists d, t_sub t tl = Ok d /\ fst p = vadd (vscale (secs_of d) l) (fst pl).
Proof.
  intros e ops s l t p s' tl pl H Mo B C Q. destruct (run_facts H) as (M' & _ & B' & _ & D & _).
  cbn [ExtOdomModel.start ExtOdomModel.core ExtOdomModel.odo length] in *. rewrite B in B'.
  destruct (query_position (tl := tl) (pl := pl) Q B' C) as (d & E & ->). exists d. split; [exact E|].
  unfold ExtOdomModel.rough. cbn [ExtOdomModel.core ExtOdomModel.odo e_mode e_vel fst]. rewrite M'.
  destruct (e_mode e); [|reflexivity].
  assert ((length (odo s) <? 2)%nat = true) as ->; [|reflexivity].
  apply Nat.ltb_lt. destruct Mo as [X|X]; [discriminate X|]. specialize (D eq_refl). lia.
Qed.
End C146.
Print Assumptions C146_no_odometry.
Print Assumptions C146_ctrv_ignores_odometry.
Print Assumptions C146_second_message_undefined.
Print Assumptions C146_stands_still.
Print Assumptions C146_kept_until_pose.
Print Assumptions C146_gravity_needs_two_poses.
Print Assumptions C146_gravity_ctrv.
Print Assumptions C146_rough_velocity.

(** ** A concrete object *)
Definition sec (k : Z) : time := from_nano (k * 1000000000).
Definition along (a b : time * pose unit) : vel unit := (vsub (fst (snd b)) (fst (snd a)), tt).
Definition ostep1 := ExtOdomModel.ostep unit unit unit unit (fun _ => true) (fun t => IZR (secs t)) along (fun _ _ => false)
  (fun _ _ _ => tt) (fun _ _ _ => tt) (fun _ _ _ => tt) (fun _ => tt) tt.
Definition query1 := ExtOdomModel.o_query unit unit unit unit (fun _ => true) (fun t => IZR (secs t)) (fun _ _ _ => tt) (fun _ _ _ => tt).
Definition start1 := ExtOdomModel.start unit unit unit unit tt (new_ext (pose unit) (vel unit) unit (zero_vec, tt) (zero_vec, tt) WithImu (sec 1)).
Definition moving : list (oop unit unit unit) :=
  [OCore _ _ _ (EPose (sec 10) (mkV 0 0 0, tt)); OCore _ _ _ (EPose (sec 11) (mkV 1 0 0, tt))].
Definition odometry : list (oop unit unit unit) := [OOdom _ _ _ (sec 1) tt; OOdom _ _ _ (sec 2) tt].
Example C146_ex_history : exists s, run ostep1 start1 (odometry ++ moving) = Ok s /\ odoms (odometry ++ moving) = 2%nat /\
  newest None (odometry ++ moving) = Some (sec 11, (mkV 1 0 0, tt)) /\
  t_ne (fst (e_cache (core _ _ _ _ s))) (sec 12) = Ok true /\ ostep1 s (OOdom _ _ _ (sec 12) tt) = UB /\
  exists p s', query1 (sec 12) s = Ok (p, s').
Proof.
  eexists. split; [reflexivity|]. split; [reflexivity|]. split; [reflexivity|]. split; [reflexivity|]. split; [reflexivity|].
  do 2 eexists. reflexivity.
Qed.

(** "With odometry the pose is extrapolated with the motion, as without": false.  The same poses, one metre in one
    second: without odometry the next second adds one metre, with two messages before the first pose none. *)
Theorem C146_follows_motion_refuted : exists ops1 ops2 s1 s2 p1 p2 s1' s2' t,
  filter (fun o => negb (is_odom o)) ops2 = ops1 /\
  run ostep1 start1 ops1 = Ok s1 /\ run ostep1 start1 ops2 = Ok s2 /\
  query1 t s1 = Ok (p1, s1') /\ query1 t s2 = Ok (p2, s2') /\ vx (fst p1) = 2%R /\ vx (fst p2) = 1%R.
Proof.
  assert (A1 : exists s, run ostep1 start1 moving = Ok s /\ e_mode (core _ _ _ _ s) = WithImu /\ odo _ _ _ _ s = [] /\
    fst (e_vel (core _ _ _ _ s)) = vsub (mkV 1 0 0) (mkV 0 0 0) /\ back (e_queue (core _ _ _ _ s)) = Some (sec 11, (mkV 1 0 0, tt)) /\
    t_ne (fst (e_cache (core _ _ _ _ s))) (sec 12) = Ok true /\ exists p s', query1 (sec 12) s = Ok (p, s')).
  { eexists. split; [reflexivity|]. repeat (split; [reflexivity|]). do 2 eexists. reflexivity. }
  assert (A2 : exists s, run ostep1 start1 (odometry ++ moving) = Ok s /\ exists p s', query1 (sec 12) s = Ok (p, s') /\
    t_ne (fst (e_cache (core _ _ _ _ s))) (sec 12) = Ok true).
  { eexists. split; [reflexivity|]. do 2 eexists. split; reflexivity. }
  destruct A1 as (s1 & R1 & M1 & O1 & V1 & B1 & N1 & p1 & s1' & Q1). destruct A2 as (s2 & R2 & p2 & s2' & Q2 & N2).
  exists moving, (odometry ++ moving), s1, s2, p1, p2, s1', s2', (sec 12).
  split; [reflexivity|]. do 4 (split; [assumption|]). split.
  - destruct (query_position Q1 B1 N1) as (d & D & ->). rewrite M1, O1, V1. injection D as <-.
    cbn [length Nat.ltb Nat.leb fst vadd vscale vsub vx]. change (secs _) with 1%Z. lra.
  - assert (S : fst p2 = mkV 1 0 0); [|rewrite S; reflexivity].
    apply (C146_stands_still unit unit unit unit (fun _ => true) (fun t => IZR (secs t)) along (fun _ _ => false)
      (fun _ _ _ => tt) (fun _ _ _ => tt) (fun _ _ _ => tt) (fun _ => tt) tt tt
      (new_ext (pose unit) (vel unit) unit (zero_vec, tt) (zero_vec, tt) WithImu (sec 1))
      (odometry ++ moving) s2 (sec 12) p2 s2' (sec 11) (mkV 1 0 0, tt)); auto.
Qed.
Print Assumptions C146_follows_motion_refuted.
