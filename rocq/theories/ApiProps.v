(** C106 to C108: the calls of MapBuilder. *)
From Coq Require Import ZArith QArith List Bool Lia.
From Verif Require Import Outcome TimeModel GpsModel ApiModel ApiSpec ApiProofs.
Import ListNotations.

Section Props.
Context {T P V L : Type}.
Notation op := (op T P V L).
Notation state := (state T P V L).
Variable act : T -> P -> P.
Variable rotate : T -> V -> V.
Variable upright : T -> bool.
Variable level : V -> bool.
Variable forward : L -> L -> vec3.
Notation call := (call act rotate upright level forward).
Notation after := (after act rotate upright level forward).

Lemma ext_last : forall (h : list op) p c l x, legal h -> begun h = Some (p, c, l) -> ext_of c l = Some x ->
  last_pose x = pose_time c l /\ x_imu x = imu_on c /\
  (imu_on c = true -> x_last x = Some (pose_time c l) /\ first_imu l <> None).
Proof.
  intros h p c l x Lg B E. unfold ext_of, last_pose, pose_time in *. destruct (imu_on c) eqn:On.
  - destruct (first_imu l) as [m|]; [|discriminate]. inversion E; subst. cbn. destruct (latest pose l); repeat split; auto; discriminate.
  - inversion E; subst. cbn. destruct (latest pose l); repeat split; auto; try discriminate. destruct (first_imu l); auto.
Qed.
Lemma ext_none : forall c (l : list op), ext_of c l = None <-> imu_on c = true /\ first_imu l = None.
Proof.
  intros. unfold ext_of. destruct (imu_on c); [|split; [discriminate|intros [? _]; discriminate]].
  destruct (first_imu l); cbn; split; auto; try discriminate. intros [_ ?]; discriminate.
Qed.
Lemma takes_cloud_ext : forall (h : list op) s p c l m, legal h -> after h = Ok s -> begun h = Some (p, c, l) ->
  (takes_cloud h m <-> s_end s = false /\ exists x, s_ext s = Some x /\ t_lt (c_stamp m) (last_pose x) = false).
Proof.
  intros h s p c l m Lg A B. destruct (after_inv _ _ _ _ _ h s Lg A) as [_ [I1 I2]]. rewrite B in I2.
  destruct I2 as [J1 [J2 [_ [_ [_ J6]]]]]. split.
  - intros [p' [c' [l' [B' [F [N Lt]]]]]]. rewrite B in B'. inversion B'; subst. split; [congruence|]. specialize (J6 F).
    destruct (ext_of c' l') as [x|] eqn:X.
    + exists x. split; auto. destruct (ext_last _ _ _ _ _ Lg B X) as [-> _]. unfold t_lt. apply Z.ltb_ge. auto.
    + apply ext_none in X. destruct X as [X1 X2]. specialize (N X1). congruence.
  - intros [E [x [X Lt]]]. assert (finished l = false) as F by congruence. specialize (J6 F). rewrite X in J6. symmetry in J6.
    exists p, c, l. repeat split; auto.
    + intros On. destruct (ext_last _ _ _ _ _ Lg B J6) as [_ [_ K]]. apply K; auto.
    + destruct (ext_last _ _ _ _ _ Lg B J6) as [<- _]. unfold t_lt in Lt. apply Z.ltb_ge in Lt. auto.
Qed.
Lemma takes_cloud_begun : forall (h : list op) m, takes_cloud h m -> begun h <> None.
Proof. intros h m [p [c [l [-> _]]]]. discriminate. Qed.

(** C106: a cloud is taken iff the builder is initialised and not finished, has seen an IMU message if it
    uses the IMU, and the cloud is not older than the latest pose.  It is moved into the tracking frame, also
    in the hands of the caller. *)
Theorem C106_clouds : forall (h : list op) s m t, legal h -> after h = Ok s ->
  begun h <> None -> latest lidar_tf h = Some t ->
  (takes_cloud h m ->
   exists s' q q', call s (InsertCloud (Some m)) = Ok (s', CloudIs (mkCloud (c_stamp m) (act t (c_points m)))) /\
     s_col s = Some q /\ s_col s' = Some q' /\
     q_clouds q' = q_clouds q ++ [mkCloud (c_stamp m) (act t (c_points m))] /\
     q_imus q' = q_imus q /\ q_odoms q' = q_odoms q /\ q_gps q' = q_gps q) /\
  (~ takes_cloud h m -> call s (InsertCloud (Some m)) = Ok (s, CloudIs m)).
Proof.
  intros h s m t Lg A N Lt. pose proof (after_inv _ _ _ _ _ h s Lg A) as [[I1 _] [I7 I8]].
  destruct (begun h) as [[[p c] l]|] eqn:B; [|congruence].
  pose proof (takes_cloud_ext h s p c l m Lg A B) as K. destruct I8 as [J1 [J2 [_ [[q [Q _]] [_ J6]]]]].
  cbn [ApiModel.call]. unfold insert_cloud, deref, with_tf, collect. split.
  - intros Tk. apply K in Tk. destruct Tk as [E [x [X Ty]]]. rewrite E, X. cbn [orb]. rewrite andb_false_r, Ty, I1, Lt, Q.
    do 3 eexists. split; [reflexivity|]. cbn. split; [reflexivity|]. split; [reflexivity|]. repeat split.
  - intros Tk. destruct (s_end s) eqn:E; [reflexivity|]. cbn [orb].
    assert (F : finished l = false) by congruence. specialize (J6 F).
    destruct (s_ext s) as [x|] eqn:X.
    + rewrite andb_false_r. destruct (t_lt (c_stamp m) (last_pose x)) eqn:Y; [reflexivity|].
      exfalso. apply Tk, K. split; auto. exists x. auto.
    + symmetry in J6. apply ext_none in J6. rewrite J1, (proj1 J6). reflexivity.
Qed.

(** IMU messages are used iff the builder is initialised with the IMU on and not finished. *)
Theorem C106_imus : forall (h : list op) s m t, legal h -> after h = Ok s -> latest imu_tf h = Some t ->
  let m' := mkImu (i_stamp m) (rotate t (i_data m)) in
  (forall s' r, takes_imu h -> call s (InsertImu (Some m)) = Ok (s', r) ->
     r = ImuIs m' /\ exists q q', s_col s = Some q /\ s_col s' = Some q' /\
       q_imus q' = q_imus q ++ [m'] /\ q_clouds q' = q_clouds q /\ q_odoms q' = q_odoms q /\ q_gps q' = q_gps q) /\
  (~ takes_imu h -> call s (InsertImu (Some m)) = Ok (s, ImuIs m)).
Proof.
  intros h s m t Lg A Lt m'. pose proof (after_inv _ _ _ _ _ h s Lg A) as [[_ [I2 _]] [I7 I8]].
  cbn [ApiModel.call]. unfold insert_imu, deref, with_tf, collect. split.
  - intros s' r [p [c [l [B [F On]]]]] C. rewrite B in I8. destruct I8 as [J1 [J2 [_ [[q [Q _]] _]]]].
    rewrite J1, On, I7, J2, F, I2, Lt, Q in C. cbn [negb orb] in C.
    destruct (s_ext s); match type of C with context [check ?b] => destruct b end; cbn in C; inversion C; subst; cbn;
      (split; [reflexivity|]); do 2 eexists; split; eauto; split; reflexivity.
  - intros N. destruct (begun h) as [[[p c] l]|] eqn:B.
    + destruct I8 as [J1 [J2 _]]. rewrite J1, I7, J2.
      destruct (imu_on c) eqn:On; [|reflexivity]. destruct (finished l) eqn:F; [reflexivity|].
      exfalso. apply N. exists p, c, l. auto.
    + destruct I8 as [_ [-> _]]. reflexivity.
Qed.

(** GPS messages reach the collector iff GPS was enabled last and the builder is not finished. *)
Theorem C106_gps : forall (h : list op) s m, legal h -> after h = Ok s -> begun h <> None ->
  (forall s' r, takes_gps h -> call s (InsertGps (Some m)) = Ok (s', r) ->
     exists q q', s_col s = Some q /\ s_col s' = Some q' /\ add_gps forward (q_gps q) m = Ok (q_gps q') /\
       q_imus q' = q_imus q /\ q_clouds q' = q_clouds q /\ q_odoms q' = q_odoms q) /\
  (~ takes_gps h -> call s (InsertGps (Some m)) = Ok (s, Nothing)).
Proof.
  intros h s m Lg A N. pose proof (after_inv _ _ _ _ _ h s Lg A) as [[_ [_ [_ [_ [_ I6]]]]] [I7 I8]].
  cbn [ApiModel.call]. unfold silent, insert_gps, deref, collect. split.
  - intros s' r [G F] C. rewrite I6, G, I7, F in C. cbn [negb orb] in C.
    destruct (begun h) as [[[p c] l]|] eqn:B; [|congruence]. destruct I8 as [_ [_ [_ [[q [Q _]] _]]]]. rewrite Q in C.
    destruct (add_gps forward (q_gps q) m) as [g| | |] eqn:E; cbn in C; inversion C; subst.
    exists q. eexists. split; auto. cbn. split; [reflexivity|]. split; [exact E|]. repeat split.
  - intros K. rewrite I6, I7. unfold takes_gps in K. destruct (latest gps_flag h) as [[|]|]; try reflexivity.
    destruct (finished h); [reflexivity|]. exfalso. apply K. auto.
Qed.

(** No odometry ever reaches the collector. *)
Theorem C106_no_odometry : forall (h : list op) s q, legal h -> after h = Ok s -> s_col s = Some q -> q_odoms q = [].
Proof.
  intros h s q Lg A Q. pose proof (after_inv _ _ _ _ _ h s Lg A) as [_ [_ I8]].
  destruct (begun h) as [[[p c] l]|]; [|intuition congruence]. destruct I8 as [_ [_ [_ [[q' [Q' [O _]]] _]]]]. congruence.
Qed.

(** The scan match thread never finds a cloud without an extrapolator. *)
Theorem C106_extrapolator_first : forall (h : list op) s q, legal h -> after h = Ok s -> s_col s = Some q ->
  q_clouds q <> [] -> finished h = false -> s_ext s <> None.
Proof.
  intros h s q Lg A Q N F. pose proof (after_inv _ _ _ _ _ h s Lg A) as [_ [_ I8]].
  destruct (begun h) as [[[p c] l]|]; [|intuition congruence].
  destruct I8 as [_ [J2 [_ [[q' [Q' [_ K]]] [_ J6]]]]]. rewrite Q in Q'. inversion Q'; subst. rewrite J6 by congruence.
  intros E. apply ext_none in E. destruct E as [E1 E2]. exact (K N E1 E2).
Qed.

(** C107: which calls are undefined, abort or throw. *)
Theorem C107_undefined : forall (h : list op) s o, legal h -> after h = Ok s ->
  (call s o = UB <->
   match o with
   | Initialise _ => begun h <> None
   | InsertCloud None => begun h = None \/
       exists p c l, begun h = Some (p, c, l) /\ finished l = false /\ (imu_on c = true -> first_imu l <> None)
   | InsertCloud (Some m) => begun h = None \/ takes_cloud h m /\ latest lidar_tf h = None
   | InsertImu m => takes_imu h /\ (m = None \/ latest imu_tf h = None)
   | InsertOdom _ => latest odom_flag h = None
   | InsertGps m => takes_gps h /\ (m = None \/ begun h = None)
   | Finish => begun h = None \/ finished h = false /\ latest odom_flag h = None
   | _ => False
   end).
Proof.
  intros h s o Lg A. pose proof (after_inv _ _ _ _ _ h s Lg A) as [[I1 [I2 [I3 [I4 [I5 I6]]]]] [I7 I8]].
  destruct o as [c|t|t|t|t|b|b|m|m|m|m| |t]; cbn [ApiModel.call]; unfold silent.
  - unfold initialise. destruct (begun h) as [[[p c'] l]|].
    + destruct I8 as [_ [_ [_ [_ [-> _]]]]]. destruct (finished l); cbn; split; auto; discriminate.
    + destruct I8 as [-> _]. cbn. split; [discriminate|congruence].
  - split; [discriminate|contradiction].
  - destruct (upright t); cbn; split; try discriminate; contradiction.
  - split; [discriminate|contradiction].
  - split; [discriminate|contradiction].
  - split; [discriminate|contradiction].
  - split; [discriminate|contradiction].
  - unfold insert_cloud, deref, with_tf, collect. destruct (begun h) as [[[p c] l]|] eqn:B.
    + destruct I8 as [J1 [J2 [_ [[q [Q _]] [_ J6]]]]]. destruct m as [m|].
      * pose proof (takes_cloud_ext h s p c l m Lg A B) as K. split.
        -- intros H. destruct (s_end s) eqn:E; [discriminate|]. cbn [orb] in H. assert (F : finished l = false) by congruence.
           specialize (J6 F). destruct (s_ext s) as [x|] eqn:X.
           ++ rewrite andb_false_r in H. destruct (t_lt (c_stamp m) (last_pose x)) eqn:Y; [discriminate|].
              destruct (s_lidar_tf s) eqn:Z; [rewrite Q in H; discriminate|]. right. split; [|congruence].
              apply K. split; auto. exists x. auto.
           ++ symmetry in J6. apply ext_none in J6. rewrite J1, (proj1 J6) in H. discriminate.
        -- intros [H|[Tk N]]; [discriminate|]. apply K in Tk. destruct Tk as [E [x [X Y]]].
           rewrite E, X. cbn [orb]. rewrite andb_false_r, Y, I1, N. reflexivity.
      * split.
        -- intros H. right. exists p, c, l. destruct (s_end s) eqn:E; [discriminate|]. assert (F : finished l = false) by congruence.
           repeat split; auto. intros On N. specialize (J6 F). rewrite (proj2 (ext_none c l) (conj On N)) in J6.
           rewrite J6, J1, On in H. discriminate.
        -- intros [H|[p' [c' [l' [B' [F N]]]]]]; [discriminate|]. inversion B'; subst. rewrite I7, J2, F, J1, J6 by auto.
           destruct (ext_of c' l') eqn:X; [rewrite andb_false_r; reflexivity|]. apply ext_none in X. destruct X as [X1 X2].
           exfalso. apply N; auto.
    + destruct I8 as [_ [-> [-> [_ [-> F]]]]]. rewrite I7, F. cbn [orb andb].
      destruct m as [m|]; [|split; auto]. split; auto. intros _. destruct (s_lidar_tf s); auto.
  - unfold insert_imu, deref, with_tf, collect. split.
    + intros H. destruct (begun h) as [[[p c] l]|] eqn:B.
      * destruct I8 as [J1 [J2 [_ [[q [Q _]] _]]]]. rewrite J1, I7, J2, Q in H.
        destruct (imu_on c) eqn:On; [|discriminate]. destruct (finished l) eqn:F; [discriminate|]. cbn [negb orb] in H.
        split; [exists p, c, l; auto|]. destruct (s_imu_tf s) eqn:Z; [|right; congruence].
        destruct m as [m|]; auto. destruct (s_ext s); match type of H with context [check ?b] => destruct b end; discriminate.
      * destruct I8 as [_ [E _]]. rewrite E in H. discriminate.
    + intros [[p [c [l [B [F On]]]]] H]. rewrite B in I8. destruct I8 as [J1 [J2 _]]. rewrite J1, I7, J2, On, F. cbn [negb orb].
      rewrite I2. destruct H as [->| ->]; auto. destruct (latest imu_tf h); auto.
  - unfold insert_odom. rewrite I5. destruct (latest odom_flag h) as [b|]; [|split; auto].
    destruct (negb b || s_end s); cbn; split; discriminate.
  - unfold insert_gps, deref, collect, takes_gps. rewrite I6, I7. split.
    + intros H. destruct (latest gps_flag h) as [[|]|]; try discriminate. destruct (finished h); [discriminate|].
      cbn [negb orb] in H. split; auto. destruct m as [m|]; auto. right.
      destruct (begun h) as [[[p c] l]|]; auto. destruct I8 as [_ [_ [_ [[q [Q _]] _]]]]. rewrite Q in H.
      unfold add_gps in H. destruct (match gs_ref (q_gps q) with Some r => _ | None => _ end); [|discriminate].
      destruct (back _); [|discriminate]. destruct (check _) eqn:Ck; try discriminate.
      unfold check in Ck. destruct (t_gt _ _) in Ck; discriminate.
    + intros [[-> ->] H]. cbn [negb orb]. destruct H as [->|B]; auto. destruct m; auto. rewrite B in I8.
      destruct I8 as [_ [_ [_ [_ [-> _]]]]]. reflexivity.
  - unfold finish. destruct (begun h) as [[[p c] l]|].
    + destruct I8 as [_ [J2 [_ [_ [-> _]]]]]. rewrite J2, I5. destruct (finished l), (latest odom_flag h); cbn; split; intros H;
        try discriminate; try (destruct H as [H|[H1 H2]]; discriminate); auto.
    + destruct I8 as [-> _]. split; auto.
  - split; [discriminate|contradiction].
Qed.

Theorem C107_abort : forall (h : list op) s o, legal h -> after h = Ok s ->
  (call s o = Abort <->
   match o with
   | SetTrackingToImu t => upright t = false
   | InsertImu (Some m) =>
       exists p c l t, begun h = Some (p, c, l) /\ finished l = false /\ imu_on c = true /\ latest imu_tf h = Some t /\
         (first_imu l = None /\ level (rotate t (i_data m)) = false \/
          first_imu l <> None /\ (to_nano (i_stamp m) < to_nano (pose_time c l))%Z)
   | InsertOdom _ => latest odom_flag h = Some true /\ finished h = false
   | InsertGps (Some m) =>
       takes_gps h /\ exists q d, s_col s = Some q /\ (gs_ref (q_gps q) <> None \/ n_status m = 0%Z) /\
         back (gs_track (q_gps q)) = Some d /\ (to_nano (n_stamp m) <= to_nano (g_time d))%Z
   | _ => False
   end).
Proof.
  intros h s o Lg A. pose proof (after_inv _ _ _ _ _ h s Lg A) as [[I1 [I2 [I3 [I4 [I5 I6]]]]] [I7 I8]].
  destruct o as [c|t|t|t|t|b|b|m|m|m|m| |t]; cbn [ApiModel.call]; unfold silent.
  - unfold initialise. destruct (s_phase s); cbn; split; try discriminate; contradiction.
  - split; [discriminate|contradiction].
  - destruct (upright t); cbn; split; auto; discriminate.
  - split; [discriminate|contradiction].
  - split; [discriminate|contradiction].
  - split; [discriminate|contradiction].
  - split; [discriminate|contradiction].
  - split; [|contradiction]. unfold insert_cloud, deref, with_tf, collect. destruct (s_end s || _); [discriminate|].
    destruct m as [m|]; [|discriminate]. match goal with |- (if ?b then _ else _) = _ -> _ => destruct b end; [discriminate|].
    destruct (s_lidar_tf s); [|discriminate]. destruct (s_col s); discriminate.
  - unfold insert_imu, deref, with_tf, collect. destruct m as [m|].
    2: { split; [|contradiction]. destruct (negb (s_imu s) || s_end s); [discriminate|]. destruct (s_imu_tf s); discriminate. }
    split.
    + intros H. destruct (begun h) as [[[p c] l]|] eqn:B.
      * destruct I8 as [J1 [J2 [_ [[q [Q _]] [_ J6]]]]]. rewrite J1, I7, J2, Q in H.
        destruct (imu_on c) eqn:On; [|discriminate]. destruct (finished l) eqn:F; [discriminate|]. cbn [negb orb] in H.
        destruct (s_imu_tf s) as [t|] eqn:Z; [|discriminate]. exists p, c, l, t. repeat split; auto; try congruence.
        rewrite (J6 eq_refl) in H. destruct (ext_of c l) as [x|] eqn:X.
        -- destruct (ext_last _ _ _ _ _ Lg B X) as [_ [X1 X2]]. destruct (X2 On) as [X3 X4]. right. split; auto.
           rewrite X1, On, X3 in H. cbn [negb orb i_stamp] in H. unfold t_ge in H.
           destruct (Z.leb_spec (to_nano (pose_time c l)) (to_nano (i_stamp m))); [discriminate|auto].
        -- left. apply ext_none in X. split; [apply X|]. cbn [i_data] in H. destruct (level _); [discriminate|auto].
      * destruct I8 as [_ [E _]]. rewrite E in H. discriminate.
    + intros [p [c [l [t [B [F [On [Z K]]]]]]]]. rewrite B in I8. destruct I8 as [J1 [J2 [_ [[q [Q _]] [_ J6]]]]].
      rewrite J1, I7, J2, On, F, I2, Z, Q, (J6 F). cbn [negb orb i_stamp i_data]. destruct K as [[K1 K2]|[K1 K2]].
      * rewrite (proj2 (ext_none c l)) by auto. rewrite K2. reflexivity.
      * destruct (ext_of c l) as [x|] eqn:X; [|apply ext_none in X; destruct X; congruence].
        destruct (ext_last _ _ _ _ _ Lg B X) as [_ [X1 X2]]. destruct (X2 On) as [X3 X4]. rewrite X1, On, X3.
        cbn [negb orb]. unfold t_ge. destruct (Z.leb_spec (to_nano (pose_time c l)) (to_nano (i_stamp m))); [lia|reflexivity].
  - unfold insert_odom. rewrite I5, I7. destruct (latest odom_flag h) as [[|]|]; cbn.
    + destruct (finished h); cbn; split; auto; try discriminate. intros [_ ?]; discriminate.
    + split; [discriminate|]. intros [? _]; discriminate.
    + split; [discriminate|]. intros [? _]; discriminate.
  - unfold insert_gps, deref, collect, takes_gps. rewrite I6, I7. destruct m as [m|].
    2: { split; [|contradiction]. destruct (latest gps_flag h) as [[|]|]; try discriminate. destruct (finished h); discriminate. }
    split.
    + intros H. destruct (latest gps_flag h) as [[|]|]; try discriminate. destruct (finished h); [discriminate|].
      cbn [negb orb] in H. destruct (s_col s) as [q|]; [|discriminate]. unfold add_gps in H.
      split; auto. exists q. destruct (gs_ref (q_gps q)) as [r|] eqn:R.
      * cbn [g_time] in H. destruct (back (gs_track (q_gps q))) as [d|]; [|discriminate].
        exists d. split; auto. split; [left; congruence|]. split; auto. unfold t_gt, check in H.
        destruct (Z.ltb_spec (to_nano (g_time d)) (to_nano (n_stamp m))); [discriminate|auto].
      * destruct (Z.eqb_spec (n_status m) 0) as [S0|]; [|discriminate].
        cbn [g_time] in H. destruct (back (gs_track (q_gps q))) as [d|]; [|discriminate].
        exists d. split; auto. split; [right; auto|]. split; auto. unfold t_gt, check in H.
        destruct (Z.ltb_spec (to_nano (g_time d)) (to_nano (n_stamp m))); [discriminate|auto].
    + intros [[-> ->] [q [d [-> [R [D Lt]]]]]]; cbn [negb orb]; unfold add_gps. rewrite D.
      destruct (gs_ref (q_gps q)) as [r|].
      * cbn [g_time]. unfold t_gt. destruct (Z.ltb_spec (to_nano (g_time d)) (to_nano (n_stamp m))); [lia|]. reflexivity.
      * destruct R as [R|S0]; [congruence|]. rewrite S0, Z.eqb_refl. cbn [g_time]. unfold t_gt.
        destruct (Z.ltb_spec (to_nano (g_time d)) (to_nano (n_stamp m))); [lia|]. reflexivity.
  - unfold finish. destruct (s_phase s), (s_odom s); cbn; split; try discriminate; contradiction.
  - split; [discriminate|contradiction].
Qed.

Theorem C107_throw : forall (h : list op) s o, legal h -> after h = Ok s ->
  (call s o = Throw <-> o = Finish /\ finished h = true).
Proof.
  intros h s o Lg A. pose proof (after_inv _ _ _ _ _ h s Lg A) as [_ [I7 I8]].
  destruct o as [c|t|t|t|t|b|b|m|m|m|m| |t]; cbn [ApiModel.call]; unfold silent;
    try (split; [|intros [? _]; discriminate]); try discriminate.
  - unfold initialise. destruct (s_phase s); discriminate.
  - destruct (upright t); discriminate.
  - unfold insert_cloud, deref, with_tf, collect. destruct (s_end s || _); [discriminate|].
    destruct m as [m|]; [|discriminate]. match goal with |- (if ?b then _ else _) = _ -> _ => destruct b end; [discriminate|].
    destruct (s_lidar_tf s); [|discriminate]. destruct (s_col s); discriminate.
  - unfold insert_imu, deref, with_tf, collect. destruct (negb (s_imu s) || s_end s); [discriminate|].
    destruct (s_imu_tf s); [|discriminate]. destruct m as [m|]; [|discriminate]. destruct (s_col s); [|discriminate].
    destruct (s_ext s); match goal with |- context [check ?b] => destruct b end; discriminate.
  - unfold insert_odom. destruct (s_odom s) as [b|]; [|discriminate]. destruct (negb b || s_end s); discriminate.
  - unfold insert_gps, deref, collect. destruct (negb (s_gps s) || s_end s); [discriminate|]. destruct m as [m|]; [|discriminate].
    destruct (s_col s) as [q|]; [|discriminate]. unfold add_gps.
    destruct (match gs_ref (q_gps q) with Some r => _ | None => _ end); [|discriminate].
    destruct (back _); [|discriminate]. destruct (check _) eqn:Ck; try discriminate. unfold check in Ck. destruct (t_gt _ _) in Ck; discriminate.
  - unfold finish. destruct (begun h) as [[[p c] l]|].
    + destruct I8 as [_ [J2 [_ [_ [-> _]]]]]. rewrite J2. destruct (finished l), (s_odom s); cbn; split; auto; try discriminate;
        intros [_ ?]; discriminate.
    + destruct I8 as [-> [_ [_ [_ [_ F]]]]]. cbn. split; [discriminate|]. intros [_ ?]. congruence.
Qed.

(** C108: the optimizer keeps the options of the file and the transforms set before Initialise, whatever is
    called later. *)
Theorem C108_optimizer_settings : forall (h : list op) s p c l, legal h -> after h = Ok s -> begun h = Some (p, c, l) ->
  exists o, s_opt s = Some o /\ o_gps o = isam_gps c /\ o_odom o = isam_odom c /\ o_loop_gps o = loop_gps c /\
    o_odom_tf o = latest odom_tf p /\ o_gps_tf o = latest gps_tf p.
Proof.
  intros h s p c l Lg A B. pose proof (after_inv _ _ _ _ _ h s Lg A) as [_ [_ I8]]. rewrite B in I8.
  destruct I8 as [_ [_ [J3 _]]]. eexists. split; [exact J3|]. repeat split.
Qed.
End Props.

(** ** Concrete runs: transforms, clouds and IMU data are numbers, a transform adds. *)
Definition z_after := after Z.add Z.add (fun t => Z.leb 0 t) (fun v => Z.leb 0 v) (fun a b : Z => mkVec (inject_Z (b - a)) 0 0).
Definition z_call := call Z.add Z.add (fun t => Z.leb 0 t) (fun v => Z.leb 0 v) (fun a b : Z => mkVec (inject_Z (b - a)) 0 0).
Definition all_on : settings := mkSettings true true true true.
Notation at_ n := (mkTime n 0).
Definition cloud5 : cloud Z := mkCloud (at_ 5) 100%Z.
Definition setup : list (op Z Z Z Z) :=
  [SetTrackingToLidar 1%Z; SetTrackingToImu 2%Z; SetTransformOdomToLidar 3%Z; SetTrackingToGps 4%Z; Initialise all_on;
   EnableUsingOdom false; EnableUsingGps true].
Definition drive : list (op Z Z Z Z) :=
  setup ++ [InsertCloud (Some cloud5); InsertImu (Some (mkImu (at_ 3) 7%Z)); InsertCloud (Some cloud5); AddPose (at_ 5)].

Lemma drive_legal : legal drive.
Proof.
  intros h1 t h2 E. unfold drive, setup in E.
  repeat (destruct h1 as [|? h1]; cbn in E; [try discriminate E|first [discriminate E|injection E as ? E; subst]]).
  do 3 eexists. split; [reflexivity|]. split; [reflexivity|]. discriminate.
Qed.

(** C106: the first cloud of [drive] came before any IMU message and is dropped, the second is kept. *)
Example C106_example : exists s q, z_after drive = Ok s /\ s_col s = Some q /\
  q_clouds q = [mkCloud (at_ 5) 101%Z] /\ q_imus q = [mkImu (at_ 3) 9%Z] /\
  takes_cloud drive cloud5 /\ ~ takes_cloud drive (mkCloud (at_ 4) 0%Z) /\ takes_imu drive /\ takes_gps drive.
Proof.
  do 2 eexists. split; [vm_compute; reflexivity|]. split; [reflexivity|]. split; [reflexivity|]. split; [reflexivity|].
  repeat split.
  - do 3 eexists. split; [reflexivity|]. repeat split; vm_compute; congruence.
  - intros [p [c [l [B [_ [_ K]]]]]]. inversion B; subst. vm_compute in K. congruence.
  - do 3 eexists. split; [reflexivity|]. split; reflexivity.
Qed.

(** The caller's message is changed: handing in what came back moves the points twice. *)
Theorem C106_message_unchanged_refuted :
  ~ (forall s m s' r, legal drive -> z_after drive = Ok s -> z_call s (InsertCloud (Some m)) = Ok (s', r) -> r = CloudIs m).
Proof.
  intros H. destruct (z_after drive) as [s| | |] eqn:E; try discriminate E.
  assert (K : z_call s (InsertCloud (Some cloud5)) = Ok (match z_call s (InsertCloud (Some cloud5)) with Ok (s', _) => s' | _ => s end, CloudIs (mkCloud (at_ 5) 101%Z))).
  { vm_compute in E. inversion E; subst. vm_compute. reflexivity. }
  specialize (H s cloud5 _ _ drive_legal eq_refl K). discriminate.
Qed.
Theorem C106_twice_refuted : exists s m s1 r1 s2 r2, legal drive /\ z_after drive = Ok s /\
  z_call s (InsertCloud (Some m)) = Ok (s1, CloudIs r1) /\ z_call s1 (InsertCloud (Some r1)) = Ok (s2, CloudIs r2) /\
  c_points r1 = (c_points m + 1)%Z /\ c_points r2 = (c_points m + 2)%Z.
Proof.
  destruct (z_after drive) as [s| | |] eqn:E; try discriminate E. exists s, cloud5. vm_compute in E. inversion E; subst.
  do 4 eexists. split; [exact drive_legal|]. split; [reflexivity|]. split; [vm_compute; reflexivity|].
  split; [vm_compute; reflexivity|]. split; reflexivity.
Qed.

(** C107: an IMU message older than the latest pose is not skipped like a cloud: it aborts. *)
Theorem C107_late_imu_ignored_refuted : exists s m, legal drive /\ z_after drive = Ok s /\
  z_call s (InsertCloud (Some (mkCloud (i_stamp m) 0%Z))) = Ok (s, CloudIs (mkCloud (i_stamp m) 0%Z)) /\
  z_call s (InsertImu (Some m)) = Abort.
Proof.
  destruct (z_after drive) as [s| | |] eqn:E; try discriminate E. exists s, (mkImu (at_ 4) 7%Z). vm_compute in E. inversion E; subst.
  split; [exact drive_legal|]. split; [reflexivity|]. split; vm_compute; reflexivity.
Qed.
(** Enabling odometry makes every odometry message fatal. *)
Theorem C107_odometry_usable_refuted : forall s m, z_after (drive ++ [EnableUsingOdom true]) = Ok s -> z_call s (InsertOdom m) = Abort.
Proof. intros s m E. vm_compute in E. inversion E; subst. reflexivity. Qed.
Example C107_example : exists s, z_after drive = Ok s /\ z_call s Finish <> Throw /\
  (exists s', z_after (drive ++ [Finish]) = Ok s' /\ z_call s' Finish = Throw /\ z_call s' (InsertImu None) = Ok (s', Nothing)) /\
  z_call s (InsertImu None) = UB /\ z_call s (SetTrackingToImu (-1)%Z) = Abort /\
  z_call (new_builder Z Z Z Z) (InsertOdom (Some 1%Z)) = UB /\ z_call (new_builder Z Z Z Z) Finish = UB /\
  z_call (new_builder Z Z Z Z) (InsertCloud (Some cloud5)) = UB.
Proof.
  eexists. split; [vm_compute; reflexivity|]. split; [vm_compute; discriminate|].
  split; [eexists; split; [vm_compute; reflexivity|]; split; vm_compute; reflexivity|].
  repeat split; vm_compute; reflexivity.
Qed.

(** C108: with the order of calls of the node, switching GPS and odometry off after Initialise changes the
    options of the builder but not the optimizer. *)
Definition off : list (op Z Z Z Z) :=
  [SetTrackingToLidar 1%Z; SetTrackingToImu 2%Z; Initialise all_on; EnableUsingOdom false; EnableUsingGps false].
Theorem C108_disable_refuted : exists s o, legal off /\ z_after off = Ok s /\ s_opt s = Some o /\
  latest odom_flag off = Some false /\ latest gps_flag off = Some false /\
  isam_gps (s_opts s) = false /\ isam_odom (s_opts s) = false /\ loop_gps (s_opts s) = false /\
  o_gps o = true /\ o_odom o = true /\ o_loop_gps o = true.
Proof.
  do 2 eexists. split.
  - intros h1 t h2 E. unfold off in E.
    repeat (destruct h1 as [|? h1]; cbn in E; [try discriminate E|first [discriminate E|injection E as ? E; subst]]).
  - split; [vm_compute; reflexivity|]. repeat split.
Qed.
Example C108_example : exists s o, z_after drive = Ok s /\ s_opt s = Some o /\ o_odom_tf o = Some 3%Z /\ o_gps_tf o = Some 4%Z /\
  exists s', z_after (drive ++ [SetTrackingToGps 9%Z]) = Ok s' /\ s_opt s' = Some o /\ s_gps_tf s' = Some 9%Z.
Proof.
  do 2 eexists. split; [vm_compute; reflexivity|]. split; [reflexivity|]. split; [reflexivity|]. split; [reflexivity|].
  eexists. split; [vm_compute; reflexivity|]. split; reflexivity.
Qed.
Print Assumptions C106_clouds.
Print Assumptions C106_imus.
Print Assumptions C106_gps.
Print Assumptions C106_no_odometry.
Print Assumptions C106_extrapolator_first.
Print Assumptions C107_undefined.
Print Assumptions C107_abort.
Print Assumptions C107_throw.
Print Assumptions C108_optimizer_settings.
Print Assumptions C106_message_unchanged_refuted.
Print Assumptions C106_twice_refuted.
Print Assumptions C107_late_imu_ignored_refuted.
Print Assumptions C107_odometry_usable_refuted.
Print Assumptions C108_disable_refuted.
