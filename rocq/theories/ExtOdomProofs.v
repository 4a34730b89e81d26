(** Lemmas about the odometry of the pose extrapolator. *)
From Coq Require Import List Bool ZArith Reals Lia.
From Verif Require Import Outcome TimeModel RigidModel ExtrapModel ExtrapProofs ExtOdomModel ExtOdomSpec.
Import ListNotations.
Local Open Scope outcome_scope.

Lemma back_in : forall A (l : list A), l <> [] -> exists x, back l = Some x.
Proof. intros A l N. destruct (back l) eqn:E; eauto. apply back_none in E. contradiction. Qed.

Section P.
Variables Rot A I O : Type.
Variable grav_ok : list (tev (vel A) I) -> bool.
Variable secs_of : time -> R.
Variable velocity : (time * pose Rot) -> (time * pose Rot) -> vel A.
Variable shorter : time -> time -> bool.
Variable turn : Rot -> A -> time -> Rot.
Variable turn_imu : Rot -> tracker (vel A) I -> tracker (vel A) I -> Rot.
Variable odo_angular : O -> O -> time -> A.
Variable orient : tracker (vel A) I -> Rot.
Variable level : Rot.
Notation ostep := (ExtOdomModel.ostep Rot A I O grav_ok secs_of velocity shorter turn turn_imu odo_angular orient level).
Notation oext := (ExtOdomModel.oext Rot A I O).
Notation oop := (ExtOdomModel.oop Rot I O).
Notation core := (ExtOdomModel.core Rot A I O).
Notation odo := (ExtOdomModel.odo Rot A I O).
Notation olin := (ExtOdomModel.olin Rot A I O).
Notation estep := (ExtrapModel.estep (pose Rot) (vel A) I grav_ok velocity shorter
  (ExtOdomModel.predict Rot A secs_of turn) (ExtOdomModel.predict_imu Rot A I secs_of turn_imu)).

Lemma trim_odo_short : forall lp (d : list (time * O)), (length d < 3)%nat -> trim_odo O lp d = d.
Proof. intros [t|] [|a [|b [|c d]]] L; cbn in *; try reflexivity; lia. Qed.
Lemma trim_odo_min : forall lp (d : list (time * O)), (Nat.min 2 (length d) <= length (trim_odo O lp d) <= length d)%nat.
Proof.
  intros [t|] d; [|destruct d; cbn [trim_odo]; lia].
  induction d as [|a d IH]; [cbn; lia|]. destruct d as [|b [|c d]]; try (cbn; lia).
  change (trim_odo O (Some t) (a :: b :: c :: d)) with (if t_le (fst b) t then trim_odo O (Some t) (b :: c :: d) else a :: b :: c :: d).
  destruct (t_le (fst b) t); [|cbn [length]; lia]. revert IH. generalize (trim_odo O (Some t) (b :: c :: d)). cbn [length]. intros. lia.
Qed.

(** ** No odometry *)
Lemma core_step : forall s o, odo s = [] -> omap core (ostep s (OCore Rot I O o)) = estep (core s) o /\
  forall s', ostep s (OCore Rot I O o) = Ok s' -> odo s' = [].
Proof.
  intros s o E. destruct o as [t p|u i|t]; cbn [ExtOdomModel.ostep ExtrapModel.estep].
  - unfold o_pose, add_pose. destruct (e_queue (core s)) as [|x q]; [split; [reflexivity|intros s' H; injection H as <-; first [exact E|reflexivity]]|].
    destruct (t_sub _ _); cbn [bind omap]; try (split; [reflexivity|discriminate]).
    destruct (update_velocity _ _ _ _ _ _ _) as [v| | |]; cbn [bind omap]; try (split; [reflexivity|discriminate]).
    destruct (e_mode (core s)).
    + rewrite E. unfold chosen. cbn [length Nat.ltb Nat.leb].
      destruct (advance_tracker _ _ _ _ _ _ _); cbn [bind omap]; try (split; [reflexivity|discriminate]).
      split; [reflexivity|]. intros s' H. injection H as <-. cbn [ExtOdomModel.odo]. destruct (last_time _); reflexivity.
    + split; [reflexivity|]. intros s' H. injection H as <-; first [exact E|reflexivity].
  - unfold o_imu. destruct (add_imu _ _ _ _ _ _); cbn [bind omap]; try (split; [reflexivity|discriminate]).
    split; [reflexivity|]. intros s' H. injection H as <-; first [exact E|reflexivity].
  - unfold o_query, extrapolate. destruct (back (e_queue (core s))) as [[tl pl]|]; cbn [bind omap]; [|split; [reflexivity|discriminate]].
    destruct (check _); cbn [bind omap]; try (split; [reflexivity|discriminate]).
    destruct (t_ne _ _) as [b| | |]; cbn [bind omap]; try (split; [reflexivity|discriminate]).
    destruct b; cbn [negb bind omap snd]; [|split; [reflexivity|intros s' H; injection H as <-; first [exact E|reflexivity]]].
    destruct (t_sub _ _); cbn [bind omap]; try (split; [reflexivity|discriminate]).
    destruct (e_mode (core s)).
    + destruct (e_xtr (core s)) as [x|]; cbn [bind omap]; [|split; [reflexivity|discriminate]].
      destruct (e_tr (core s)) as [k|]; cbn [bind omap]; [|split; [reflexivity|discriminate]].
      destruct (check _); cbn [bind omap]; try (split; [reflexivity|discriminate]).
      rewrite E. unfold chosen. cbn [length Nat.ltb Nat.leb].
      destruct (advance_tracker _ _ _ _ _ _ _); cbn [bind omap]; try (split; [reflexivity|discriminate]).
      split; [reflexivity|]. intros s' H. injection H as <-; first [exact E|reflexivity].
    + cbn [bind omap snd]. split; [reflexivity|]. intros s' H. injection H as <-; first [exact E|reflexivity].
Qed.
Lemma core_run : forall ops s, odo s = [] -> omap core (run ostep s (map (OCore Rot I O) ops)) = run estep (core s) ops.
Proof.
  induction ops as [|o ops IH]; intros s E; [reflexivity|]. cbn [map run].
  destruct (core_step s o E) as [C K]. rewrite <- C.
  destruct (ostep s _) as [s'| | |]; cbn [bind omap]; try reflexivity. apply IH, K. reflexivity.
Qed.

(** ** What never changes *)
Ltac burst H := repeat (first [discriminate H
  | match type of H with context [match ?x with _ => _ end] => let E := fresh "E" in destruct x eqn:E; cbn [bind] in H end]).
Lemma pose_facts : forall t p s s', o_pose Rot A I O grav_ok velocity shorter t p s = Ok s' ->
  e_mode (core s') = e_mode (core s) /\ olin s' = olin s /\ (Nat.min 2 (length (odo s)) <= length (odo s'))%nat /\
  (length (odo s') <= length (odo s))%nat /\ e_queue (core s') <> [] /\ back (e_queue (core s')) = Some (t, p) /\
  (e_queue (core s) = [] -> odo s' = odo s /\ e_queue (core s') = [(t, p)] /\ e_tr (core s') = e_tr (core s)) /\
  (e_mode (core s) = CTRV -> e_tr (core s') = e_tr (core s)).
Proof.
  intros t p s s' H. unfold o_pose in H.
  assert (TB : forall lim fuel (q : list (time * pose Rot)), back (trim_poses (pose Rot) fuel lim (q ++ [(t, p)])) = Some (t, p)).
  { intros lim fuel. induction fuel as [|fuel IH]; intros q; [cbn [trim_poses]; apply back_last|].
    destruct q as [|a [|b [|c q]]]; cbn [app trim_poses]; try reflexivity.
    - destruct (t_le (fst b) lim); [apply (IH [b])|reflexivity].
    - destruct (t_le (fst b) lim); [apply (IH (b :: c :: q))|apply (back_last _ (a :: b :: c :: q))]. }
  assert (NB : forall (q : list (time * pose Rot)) x, back q = Some x -> q <> []) by (intros q x B ->; discriminate).
  destruct (e_queue (core s)) as [|x q] eqn:Q.
  - injection H as <-. cbn [ExtOdomModel.core ExtOdomModel.odo ExtOdomModel.olin e_mode e_queue e_tr app]. repeat split; try lia; auto; try discriminate.
  - destruct (t_sub t (e_dur (core s))) as [lim| | |]; cbn [bind] in H; try discriminate H.
    destruct (update_velocity _ _ _ _ _ _ _) as [v| | |]; cbn [bind] in H; try discriminate H.
    specialize (TB lim (length ((x :: q) ++ [(t, p)])) (x :: q)).
    destruct (e_mode (core s)) eqn:M.
    + destruct (advance_tracker _ _ _ _ _ _ _) as [k1| | |]; cbn [bind] in H; try discriminate H.
      injection H as <-. cbn [ExtOdomModel.core ExtOdomModel.odo ExtOdomModel.olin e_mode e_queue e_tr].
      match goal with |- context [trim_odo O ?a (odo s)] => pose proof (trim_odo_min a (odo s)) end.
      repeat split; try discriminate; try lia; eauto.
    + injection H as <-. cbn [ExtOdomModel.core ExtOdomModel.odo ExtOdomModel.olin e_mode e_queue e_tr].
      repeat split; try discriminate; try lia; eauto.
Qed.
Lemma imu_facts : forall u i s s', o_imu Rot A I O u i s = Ok s' ->
  e_mode (core s') = e_mode (core s) /\ olin s' = olin s /\ odo s' = odo s /\ e_queue (core s') = e_queue (core s) /\
  e_tr (core s') = e_tr (core s) /\ e_vel (core s') = e_vel (core s).
Proof.
  intros u i s s' H. unfold o_imu, add_imu in H. destruct (e_mode (core s)) eqn:M.
  - destruct (check _); cbn [bind] in H; try discriminate H. injection H as <-. cbn. auto 10.
  - cbn [bind] in H. injection H as <-. cbn. auto 10.
Qed.
Lemma query_facts : forall t s p s', o_query Rot A I O grav_ok secs_of turn turn_imu t s = Ok (p, s') ->
  e_mode (core s') = e_mode (core s) /\ olin s' = olin s /\ odo s' = odo s /\ e_queue (core s') = e_queue (core s) /\
  e_tr (core s') = e_tr (core s) /\ e_vel (core s') = e_vel (core s).
Proof.
  intros t s p s' H. unfold o_query in H. destruct (back _) as [[tl pl]|]; [|discriminate H].
  destruct (check _); cbn [bind] in H; try discriminate H. destruct (t_ne _ _) as [b| | |]; cbn [bind] in H; try discriminate H.
  destruct b; cbn [negb] in H; [|injection H as <- <-; auto 10].
  destruct (t_sub _ _); cbn [bind] in H; try discriminate H.
  destruct (e_mode (core s)) eqn:M.
  - destruct (e_xtr _); [|discriminate H]. destruct (e_tr (core s)) eqn:T; [|discriminate H]. destruct (check _); cbn [bind] in H; try discriminate H.
    destruct (advance_tracker _ _ _ _ _ _ _); cbn [bind] in H; try discriminate H.
    match type of H with Ok (_, ?b) = _ => assert (E : b = s') by congruence end.
    subst s'. cbn. auto 10.
  - injection H as <- <-. cbn. auto 10.
Qed.
Lemma odom_facts : forall u o s s', o_odom Rot A I O odo_angular u o s = Ok s' ->
  core s' = core s /\ olin s' = olin s /\
  (e_mode (core s) = CTRV -> s' = s) /\
  (e_mode (core s) = WithImu -> (Nat.min 2 (S (length (odo s))) <= length (odo s') <= S (length (odo s)))%nat /\
     (e_queue (core s) = [] -> length (odo s') = S (length (odo s)))).
Proof.
  intros u o s s' H. unfold o_odom in H. destruct (e_mode (core s)) eqn:M.
  - destruct (check _); cbn [bind] in H; try discriminate H.
    pose proof (trim_odo_min (last_time (e_queue (core s))) (odo s ++ [(u, o)])) as T. rewrite app_length in T. cbn [length] in T.
    assert (K : e_queue (core s) = [] -> length (trim_odo O (last_time (e_queue (core s))) (odo s ++ [(u, o)])) = S (length (odo s))).
    { intros ->. cbn. destruct (odo s ++ [(u, o)]) eqn:X; [destruct (odo s); discriminate|].
      replace (trim_odo O None (p :: l)) with (p :: l) by reflexivity. rewrite <- X, app_length. cbn. lia. }
    revert T K H. set (d := trim_odo O _ _). clearbody d. intros T K H.
    destruct d as [|[u1 o1] [|y d]].
    + injection H as <-. cbn [ExtOdomModel.core ExtOdomModel.odo ExtOdomModel.olin]. repeat split; auto; try discriminate; cbn [length] in *; lia.
    + injection H as <-. cbn [ExtOdomModel.core ExtOdomModel.odo ExtOdomModel.olin]. repeat split; auto; try discriminate; cbn [length] in *; lia.
    + destruct (back _) as [[u2 o2]|].
      2: { injection H as <-. cbn [ExtOdomModel.core ExtOdomModel.odo ExtOdomModel.olin]. repeat split; auto; try discriminate; cbn [length] in *; lia. }
      destruct (t_sub u2 u1); cbn [bind] in H; try discriminate H.
      destruct (e_queue (core s)); [|discriminate H].
      injection H as <-. cbn [ExtOdomModel.core ExtOdomModel.odo ExtOdomModel.olin]. repeat split; auto; try discriminate; cbn [length] in *; lia.
  - injection H as <-. repeat split; auto; discriminate.
Qed.
Lemma odom_with_pose : forall u o s, e_mode (core s) = WithImu -> e_queue (core s) <> [] -> odo s <> [] ->
  (forall t p, back (e_queue (core s)) = Some (t, p) -> t_ge u t = false -> o_odom Rot A I O odo_angular u o s = Abort) /\
  (forall t p, back (e_queue (core s)) = Some (t, p) -> t_ge u t = true -> o_odom Rot A I O odo_angular u o s = UB).
Proof.
  intros u o s M Q D. unfold o_odom. rewrite M.
  pose proof (trim_odo_min (last_time (e_queue (core s))) (odo s ++ [(u, o)])) as T. rewrite app_length in T. cbn [length] in T.
  split; intros t p B G; unfold last_time in *; rewrite B in *; cbn [option_map fst] in *; rewrite G; cbn [check bind]; [reflexivity|].
  revert T. generalize (trim_odo O (Some t) (odo s ++ [(u, o)])). intros d T.
  assert (0 < length (odo s))%nat by (destruct (odo s); [congruence|cbn; lia]).
  destruct d as [|[u1 o1] [|y d]]; try (cbn [length] in T; lia).
  destruct (back_in _ ((u1, o1) :: y :: d) ltac:(discriminate)) as [[u2 o2] ->].
  unfold t_sub. destruct (i64 _) eqn:X; cbn [bind].
  - destruct (e_queue (core s)); [congruence|reflexivity].
  - unfold i64 in X. destruct (_ && _) in X; discriminate X.
  - unfold i64 in X. destruct (_ && _) in X; discriminate X.
  - reflexivity.
Qed.

(** ** Histories *)
Lemma step_facts : forall s o s', ostep s o = Ok s' ->
  e_mode (core s') = e_mode (core s) /\ olin s' = olin s /\
  back (e_queue (core s')) = newest (back (e_queue (core s))) [o] /\
  (e_queue (core s) <> [] -> e_queue (core s') <> []) /\
  (e_mode (core s) = WithImu -> (Nat.min 2 (length (odo s) + odoms [o]) <= length (odo s') <= length (odo s) + odoms [o])%nat) /\
  (e_mode (core s) = WithImu -> e_queue (core s') = [] -> (length (odo s') = length (odo s) + odoms [o])%nat) /\
  (is_pose o = false -> e_tr (core s') = e_tr (core s) /\ e_queue (core s') = e_queue (core s)) /\
  (e_queue (core s) = [] -> e_tr (core s') = e_tr (core s)).
Proof.
  intros s o s' H. destruct o as [[t p|u i|t]|u o|t|l]; cbn [ExtOdomModel.ostep] in H; unfold odoms; cbn [filter is_odom is_pose length newest].
  - destruct (pose_facts _ _ _ _ H) as (M & L & D1 & D2 & Q & B & Q0 & T). rewrite Nat.add_0_r.
    repeat split; auto; try discriminate; try contradiction. intros E. apply Q0, E.
  - destruct (imu_facts _ _ _ _ H) as (M & L & D & Q & T & _). rewrite D, Q, T, Nat.add_0_r. repeat split; auto; lia.
  - destruct (o_query _ _ _ _ _ _ _ _ t s) as [[p s1]| | |] eqn:E; cbn [bind snd] in H; try discriminate H. injection H as <-.
    destruct (query_facts _ _ _ _ E) as (M & L & D & Q & T & _). rewrite D, Q, T, Nat.add_0_r. repeat split; auto; lia.
  - destruct (odom_facts _ _ _ _ H) as (C & L & _ & W). rewrite C, Nat.add_1_r.
    repeat split; auto; try lia; intros M; destruct (W M) as [W1 W2]; auto; try lia.
  - destruct (gravity _ _ _ _ _ _ _ t s); cbn [bind] in H; try discriminate H. injection H as <-. rewrite Nat.add_0_r. repeat split; auto; lia.
  - injection H as <-. cbn [rough ExtOdomModel.core ExtOdomModel.odo ExtOdomModel.olin e_mode e_queue e_tr]. rewrite Nat.add_0_r. repeat split; auto; lia.
Qed.
Lemma newest_cons : forall b (o : oop) ops, newest b (o :: ops) = newest (newest b [o]) ops.
Proof. intros b [[]| | |] ops; reflexivity. Qed.
Lemma odoms_cons : forall (o : oop) ops, odoms (o :: ops) = (odoms [o] + odoms ops)%nat.
Proof. intros o ops. unfold odoms. cbn [filter]. destruct (is_odom o); reflexivity. Qed.
Lemma run_facts : forall ops s s', run ostep s ops = Ok s' ->
  e_mode (core s') = e_mode (core s) /\ olin s' = olin s /\
  back (e_queue (core s')) = newest (back (e_queue (core s))) ops /\
  (e_queue (core s) <> [] -> e_queue (core s') <> []) /\
  (e_mode (core s) = WithImu -> (Nat.min 2 (length (odo s) + odoms ops) <= length (odo s') <= length (odo s) + odoms ops)%nat) /\
  (e_mode (core s) = WithImu -> e_queue (core s') = [] -> (length (odo s') = length (odo s) + odoms ops)%nat).
Proof.
  induction ops as [|o ops IH]; intros s s' H; cbn [run] in H.
  - injection H as <-. unfold odoms. cbn [filter length newest]. rewrite Nat.add_0_r. repeat split; auto; lia.
  - destruct (ostep s o) as [s1| | |] eqn:E; cbn [bind] in H; try discriminate H.
    destruct (step_facts _ _ _ E) as (M & L & B & Q & D & D0 & _ & _). destruct (IH _ _ H) as (M' & L' & B' & Q' & D' & D0').
    rewrite newest_cons, <- B, odoms_cons, M', L'. rewrite M in D', D0'.
    split; [exact M|]. split; [exact L|]. split; [exact B'|]. split; [auto|]. split.
    + intros W. specialize (D W). specialize (D' W). lia.
    + intros W X. specialize (D0' W X).
      destruct (e_queue (core s1)) eqn:Q1; [specialize (D0 W eq_refl); lia|]. exfalso. apply Q'; [discriminate|exact X].
Qed.
(** Before the second pose an object without a tracker gets none. *)
Lemma run_tracker : forall ops s s', run ostep s ops = Ok s' -> e_tr (core s) = None -> (length (e_queue (core s)) + poses_in ops < 2)%nat ->
  e_tr (core s') = None.
Proof.
  induction ops as [|o ops IH]; intros s s' H T N; cbn [run] in H; [injection H as <-; exact T|].
  destruct (ostep s o) as [s1| | |] eqn:E; cbn [bind] in H; try discriminate H.
  destruct (step_facts _ _ _ E) as (_ & _ & _ & _ & _ & _ & P & P0).
  unfold poses_in in N. cbn [filter] in N. destruct (is_pose o) eqn:Po.
  - cbn [length] in N. destruct (e_queue (core s)) eqn:Q; [|cbn [length] in N; lia].
    apply (IH s1); auto; [rewrite P0; auto|]. destruct o as [[t p|u i|t]|u o|t|l]; try discriminate Po.
    cbn [ExtOdomModel.ostep] in E. destruct (pose_facts _ _ _ _ E) as (_ & _ & _ & _ & _ & _ & Q0 & _). destruct (Q0 Q) as (_ & -> & _).
    cbn [length] in *. unfold poses_in. lia.
  - destruct (P eq_refl) as [P1 P2]. apply (IH s1); auto; [congruence|]. rewrite P2. exact N.
Qed.
(** In CTRV mode odometry does nothing. *)
Lemma run_ctrv : forall ops s, e_mode (core s) = CTRV -> run ostep s ops = run ostep s (filter (fun o => negb (is_odom o)) ops).
Proof.
  induction ops as [|o ops IH]; intros s M; [reflexivity|]. cbn [filter]. destruct (is_odom o) eqn:X; cbn [negb].
  - destruct o as [[]|u o|t|l]; try discriminate X. cbn [run ExtOdomModel.ostep]. unfold o_odom. rewrite M. cbn [bind]. apply IH, M.
  - cbn [run]. destruct (ostep s o) as [s1| | |] eqn:E; cbn [bind]; auto. apply IH. destruct (step_facts _ _ _ E) as (M' & _). congruence.
Qed.
(** A position computed anew. *)
Lemma query_position : forall t s p s' tl pl, o_query Rot A I O grav_ok secs_of turn turn_imu t s = Ok (p, s') ->
  back (e_queue (core s)) = Some (tl, pl) -> t_ne (fst (e_cache (core s))) t = Ok true ->
  exists d, t_sub t tl = Ok d /\
    fst p = vadd (vscale (secs_of d) (if (match e_mode (core s) with CTRV => true | WithImu => (length (odo s) <? 2)%nat end)
                                      then fst (e_vel (core s)) else olin s)) (fst pl).
Proof.
  intros t s p s' tl pl H B N. unfold o_query in H. rewrite B, N in H.
  destruct (check _); cbn [bind negb] in H; try discriminate H.
  destruct (t_sub t tl) as [d| | |]; cbn [bind] in H; try discriminate H. exists d. split; [reflexivity|].
  destruct (e_mode (core s)).
  - destruct (e_xtr _); [|discriminate H]. destruct (e_tr (core s)); [|discriminate H]. destruct (check _); cbn [bind] in H; try discriminate H.
    destruct (advance_tracker _ _ _ _ _ _ _); cbn [bind] in H; try discriminate H.
    match type of H with Ok (?b, _) = _ => assert (E : b = p) by congruence end. subst p. unfold predict_imu, chosen. cbn [fst].
    destruct (length (odo s) <? 2)%nat; reflexivity.
  - injection H as <- _. reflexivity.
Qed.
End P.
Arguments run_facts {Rot A I O grav_ok secs_of velocity shorter turn turn_imu odo_angular orient level ops s s'}.
Arguments run_tracker {Rot A I O grav_ok secs_of velocity shorter turn turn_imu odo_angular orient level ops s s'}.
Arguments query_position {Rot A I O grav_ok secs_of turn turn_imu t s p s' tl pl}.
