(** C129: what the node does with its arguments and messages. *)
From Coq Require Import String ZArith List Bool Lia Relations.
From Verif Require Import Outcome TimeModel GpsModel ApiModel ApiSpec ApiProofs ApiProps NodeModel NodeProofs.
Import ListNotations.
Local Open Scope string_scope.
Local Open Scope list_scope.

Lemma empty_spec : forall s, (empty s = true /\ s = "") \/ (empty s = false /\ s <> "").
Proof. intros s. unfold empty. destruct (String.eqb_spec s ""); auto. Qed.

Section Props.
Context {T Pt V L G : Type}.
Variable act : T -> list Pt -> list Pt.
Variable rotate : T -> V -> V.
Variable upright : T -> bool.
Variable level : V -> bool.
Variable forward : L -> L -> vec3.
Variable finite : Pt -> bool.
Notation op := (op T (list Pt) V L).
Notation state := (state T (list Pt) V L).
Notation step := (step act rotate upright level forward).
Notation after := (after act rotate upright level forward).
Notation main := (main act rotate upright level forward finite).
Notation calls := (calls finite : args -> bool -> event Pt V L -> list op).
Implicit Types (w : world T G) (argv : list string) (ev : list (event Pt V L)).

(** A bag or a KITTI folder is named and exists. *)
Definition has_bag w a : Prop := a_bag a <> "" /\ w_exists w (a_bag a) = true.
Definition has_kitti w a : Prop := a_kitti a <> "" /\ w_exists w (a_kitti a) = true.
Definition kittib w a : bool := negb (empty (a_kitti a)) && w_exists w (a_kitti a).
(** The node gets past its arguments and transforms. *)
Definition starts w a : Prop :=
  a_pc a <> "" /\ a_track a <> "" /\ ~ (has_bag w a /\ has_kitti w a) /\
  exists tl ti to tg, all_given upright w a tl ti to tg.

Lemma kittib_spec : forall w a, kittib w a = true <-> has_kitti w a.
Proof.
  intros w a. unfold kittib, has_kitti. destruct (empty_spec (a_kitti a)) as [[-> K]|[-> K]]; cbn.
  - split; [discriminate|intros [? _]; contradiction].
  - split; [auto|intros [_ ?]; assumption].
Qed.
Lemma both_spec : forall w a, kittib w a && (negb (empty (a_bag a)) && w_exists w (a_bag a)) = true <-> has_bag w a /\ has_kitti w a.
Proof.
  intros w a. rewrite andb_true_iff, kittib_spec. unfold has_bag.
  destruct (empty_spec (a_bag a)) as [[-> K]|[-> K]]; cbn.
  - split; [intros [_ ?]; discriminate|intros [[? _] _]; contradiction].
  - split; [intros [A B]; auto|intros [[_ A] B]; auto].
Qed.

(** The rest of main, after the transforms. *)
Definition rest w a ev (s : state) : outcome (result T Pt V L) :=
  if empty (a_cfg a) then UB
  else
    bind (w_config w (a_cfg a)) (fun c =>
    bind (step s (Initialise c)) (fun s =>
    if imu_on c && negb (use_imu a)
    then bind (step s Finish) (fun s => Ok (mkExit 0 (Some s)))
    else
      bind (step s (EnableUsingOdom (use_odom a))) (fun s =>
      bind (step s (EnableUsingGps (use_gps a))) (fun s =>
      bind (run step s (flat_map (calls a (kittib w a)) ev)) (fun s =>
      bind (step s Finish) (fun s => Ok (mkExit 0 (Some s)))))))).
Lemma main_cases : forall w argv ev a, a = parse argv ->
  (main w argv ev = Ok (mkExit (-1) None) /\ (a_pc a = "" \/ a_track a <> "" /\ has_bag w a /\ has_kitti w a)) \/
  (main w argv ev = Abort /\ a_pc a <> "" /\ ~ starts w a) \/
  (starts w a /\ exists s tl ti to tg, all_given upright w a tl ti to tg /\
     after (setters a tl ti to tg) = Ok s /\ main w argv ev = rest w a ev s).
Proof.
  intros w argv ev a Ea. unfold NodeModel.main. rewrite <- Ea.
  destruct (empty_spec (a_pc a)) as [[-> P]|[-> P]]; [left; auto|].
  destruct (empty_spec (a_track a)) as [[-> Tr]|[-> Tr]]; cbn [negb check bind].
  { right. left. split; [reflexivity|]. split; [exact P|]. intros [_ [? _]]. contradiction. }
  fold (kittib w a). pose proof (both_spec w a) as Bo.
  destruct (kittib w a && _) eqn:B; [left; split; [reflexivity|]; right; tauto|].
  destruct (set_transforms_spec act rotate upright level forward w a) as [[s [tl [ti [to [tg [E [A Gi]]]]]]]|[E N]]; rewrite E; cbn [bind].
  - right. right. split.
    + split; [exact P|]. split; [exact Tr|]. split; [intros H; apply Bo in H; discriminate|]. eauto 6.
    + exists s, tl, ti, to, tg. split; [exact Gi|]. split; [exact A|]. reflexivity.
  - right. left. split; [reflexivity|]. split; [exact P|]. intros [_ [_ [_ [tl [ti [to [tg H]]]]]]]. exact (N _ _ _ _ H).
Qed.
(** [rest] by cases. *)
Lemma rest_cases : forall w a ev s tl ti to tg, after (setters a tl ti to tg) = Ok s -> a_cfg a <> "" ->
  (forall c, w_config w (a_cfg a) = Ok c -> poses_after_imu a (kittib w a) c ev) ->
  match w_config w (a_cfg a) with
  | Ok c =>
      if imu_on c && negb (use_imu a) then rest w a ev s = UB
      else (exists s1 s2, after (prelude a c tl ti to tg ++ flat_map (calls a (kittib w a)) ev) = Ok s1 /\
              legal (prelude a c tl ti to tg ++ flat_map (calls a (kittib w a)) ev) /\
              step s1 Finish = Ok s2 /\ s_col s2 = s_col s1 /\ rest w a ev s = Ok (mkExit 0 (Some s2))) \/
           (rest w a ev s = Abort /\ exists s0, after (prelude a c tl ti to tg) = Ok s0 /\
              run step s0 (flat_map (calls a (kittib w a)) ev) = Abort)
  | Abort => rest w a ev s = Abort
  | Throw => rest w a ev s = Throw
  | UB => rest w a ev s = UB
  end.
Proof.
  intros w a ev s tl ti to tg A Cf Ps. unfold rest.
  destruct (empty_spec (a_cfg a)) as [[-> C]|[-> C]]; [contradiction|].
  destruct (w_config w (a_cfg a)) as [c| | |] eqn:W; cbn [bind]; try reflexivity.
  destruct (prelude_run act rotate upright level forward a c tl ti to tg s A) as
    [s1 [s2 [s3 [E1 [E2 [E3 [A3 [Ph [Od _]]]]]]]]].
  rewrite E1. cbn [bind]. destruct (imu_on c && negb (use_imu a)) eqn:Ex.
  - unfold ApiModel.step. cbn [ApiModel.call]. unfold silent, finish. rewrite Ph, Od. reflexivity.
  - assert (Im : imu_on c = true -> use_imu a = true).
    { intros On. rewrite On in Ex. cbn in Ex. destruct (use_imu a); [reflexivity|discriminate]. }
    assert (Lg : legal (prelude a c tl ti to tg ++ flat_map (calls a (kittib w a)) ev)).
    { apply (node_legal finite); [|apply Ps; reflexivity]. destruct (imu_on c); auto. }
    rewrite E2. cbn [bind]. rewrite E3. cbn [bind].
    destruct (run_safe act rotate upright level forward a c (flat_map (calls a (kittib w a)) ev) _ s3 A3 Lg
                (prelude_set_up a c tl ti to tg) Im (feed_calls finite a (kittib w a) ev)) as [[s4 [R A4]]|R].
    + rewrite R. cbn [bind]. left.
      destruct (finish_ok act rotate upright level forward a c _ s4 Lg A4
                  (set_up_app a c _ _ (prelude_set_up a c tl ti to tg) (feed_calls finite a (kittib w a) ev))) as [s5 [F5 C5]].
      exists s4, s5. rewrite F5. cbn [bind]. auto.
    + right. rewrite R. split; [reflexivity|]. exists s3. auto.
Qed.

(** ** Results *)
(** The node refuses to start, with the exit code -1, exactly without a cloud topic and with two sources. *)
Theorem C129_refused : forall w argv ev b, let a := parse argv in
  main w argv ev = Ok (mkExit (-1) b) <->
  b = None /\ (a_pc a = "" \/ a_track a <> "" /\ has_bag w a /\ has_kitti w a).
Proof.
  intros w argv ev b a. destruct (main_cases w argv ev a eq_refl) as [[E H]|[[E [P N]]|[S [s [tl [ti [to [tg [Gi [A E]]]]]]]]]].
  - rewrite E. split; [intros X; inversion X; auto|intros [-> _]; reflexivity].
  - rewrite E. split; [discriminate|]. intros [_ [K|[K1 [K2 K3]]]]; [contradiction|].
    exfalso. revert E. unfold NodeModel.main. fold a.
    destruct (empty_spec (a_pc a)) as [[_ K]|[-> _]]; [contradiction|].
    destruct (empty_spec (a_track a)) as [[_ K]|[-> _]]; [contradiction|]. cbn [negb check bind]. fold (kittib w a).
    rewrite (proj2 (both_spec w a) (conj K2 K3)). discriminate.
  - rewrite E. split.
    + unfold rest. destruct (empty (a_cfg a)); [discriminate|].
      intros X. repeat match type of X with
                       | bind ?m _ = _ => destruct m; cbn [bind] in X; try discriminate
                       | (if ?b then _ else _) = _ => destruct b
                       end.
    + intros [_ [K|[_ [K1 K2]]]]; exfalso; destruct S as [S1 [_ [S2 _]]]; tauto.
Qed.

(** Started with a configuration and, if that uses the IMU, with an IMU topic, the node never calls the builder in
    an undefined way and never ends with an exception. *)
Theorem C129_defined : forall w argv ev, let a := parse argv in
  a_cfg a <> "" -> w_config w (a_cfg a) <> UB -> w_config w (a_cfg a) <> Throw ->
  (forall c, w_config w (a_cfg a) = Ok c -> imu_on c = true -> a_imu a <> "") ->
  (forall c, w_config w (a_cfg a) = Ok c -> poses_after_imu a (kittib w a) c ev) ->
  main w argv ev <> UB /\ main w argv ev <> Throw.
Proof.
  intros w argv ev a Cf C1 C2 Im Ps.
  destruct (main_cases w argv ev a eq_refl) as [[-> H]|[[-> [P N]]|[S [s [tl [ti [to [tg [Gi [A ->]]]]]]]]]];
    [split; discriminate|split; discriminate|].
  pose proof (rest_cases w a ev s tl ti to tg A Cf Ps) as R.
  destruct (w_config w (a_cfg a)) as [c| | |] eqn:W; try contradiction; [|rewrite R; split; discriminate].
  destruct (imu_on c && negb (use_imu a)) eqn:Ex.
  - exfalso. apply andb_true_iff in Ex. destruct Ex as [On U]. specialize (Im c eq_refl On). unfold use_imu in U.
    destruct (empty_spec (a_imu a)) as [[_ K]|[K _]]; [contradiction|]. rewrite K in U. discriminate.
  - destruct R as [[s1 [s2 [_ [_ [_ [_ ->]]]]]]|[-> _]]; split; discriminate.
Qed.

(** Without a configuration file it is undefined (a null file name is passed on). *)
Theorem C129_default_options_refuted : forall w argv ev, starts w (parse argv) -> a_cfg (parse argv) = "" -> main w argv ev = UB.
Proof.
  intros w argv ev S C. destruct (main_cases w argv ev _ eq_refl) as [[_ H]|[[_ [_ N]]|[_ [s [tl [ti [to [tg [_ [_ ->]]]]]]]]]].
  - exfalso. destruct S as [S1 [S2 [S3 _]]]. destruct H as [H|[_ H]]; tauto.
  - contradiction.
  - unfold rest. rewrite C. reflexivity.
Qed.
(** With the IMU on in the configuration and no IMU topic the node prints an error and means to stop with the exit
    code 0, but it finishes a builder whose odometry flag was never set: undefined. *)
Theorem C129_stops_cleanly_refuted : forall w argv ev c, starts w (parse argv) -> a_cfg (parse argv) <> "" ->
  w_config w (a_cfg (parse argv)) = Ok c -> imu_on c = true -> a_imu (parse argv) = "" -> main w argv ev = UB.
Proof.
  intros w argv ev c S Cf W On Ni. destruct (main_cases w argv ev _ eq_refl) as [[_ H]|[[_ [_ N]]|[_ [s [tl [ti [to [tg [_ [A ->]]]]]]]]]].
  - exfalso. destruct S as [S1 [S2 [S3 _]]]. destruct H as [H|[_ H]]; tauto.
  - contradiction.
  - unfold rest. destruct (empty_spec (a_cfg (parse argv))) as [[_ K]|[-> _]]; [contradiction|]. rewrite W. cbn [bind].
    destruct (prelude_run act rotate upright level forward _ c tl ti to tg s A) as [s1 [s2 [s3 [E1 [_ [_ [_ [Ph [Od _]]]]]]]]].
    rewrite E1. cbn [bind]. unfold use_imu. rewrite On, Ni. cbn.
    unfold ApiModel.step. cbn [ApiModel.call]. unfold silent, finish. rewrite Ph, Od. reflexivity.
Qed.

(** The transforms of the node are those it asked for; without one it aborts. *)
Theorem C129_transforms : forall w argv ev, let a := parse argv in
  (forall r, main w argv ev = Ok r -> e_code r = 0%Z -> starts w a) /\
  (a_pc a <> "" -> ~ (has_bag w a /\ has_kitti w a) -> ~ starts w a -> main w argv ev = Abort).
Proof.
  intros w argv ev a. destruct (main_cases w argv ev a eq_refl) as [[E H]|[[E [P N]]|[S _]]].
  - split; [intros r Er C; rewrite E in Er; inversion Er; subst; discriminate|]. intros. tauto.
  - split; [intros r Er; rewrite E in Er; discriminate|auto].
  - split; [auto|contradiction].
Qed.
(** The listener is asked at most 30 times: one success suffices, 30 failures abort. *)
Theorem C129_waits : forall f, (wait f 0 30 = Ok tt <-> exists k, k < 30 /\ f k = true) /\
  (wait f 0 30 = Abort <-> forall k, k < 30 -> f k = false).
Proof.
  intros f. destruct (wait_spec f 29 0) as [[E [k [K1 K2]]]|[E N]]; rewrite E.
  - split; split; try discriminate; auto.
    + intros _. exists k. split; [lia|exact K2].
    + intros F. cbn in K2. rewrite F in K2; [discriminate|lia].
  - split; split; try discriminate; auto.
    + intros [k [K1 K2]]. specialize (N k). cbn in N. rewrite N in K2; [discriminate|lia].
    + intros _ k K. apply (N k). lia.
Qed.
(** Of a URDF only the fixed joints count. *)
Definition fixed (l : list (link G)) (x y : string) : Prop :=
  exists k, In k l /\ k_fixed k = true /\ k_parent k = Some x /\ k_name k = y.
Theorem C129_urdf : forall (l : list (link G)) x y g, In (x, y, g) (static_transforms l) <->
  exists k, In k l /\ k_fixed k = true /\ k_parent k = Some x /\ k_name k = y /\ k_origin k = g.
Proof.
  intros l x y g. unfold static_transforms. rewrite in_flat_map. split.
  - intros [k [I J]]. exists k. destruct (k_parent k) as [p|]; [|destruct J]. destruct (k_fixed k); [|destruct J].
    destruct J as [J|[]]. inversion J; subst. repeat split; auto.
  - intros [k [I [F [P [N O]]]]]. exists k. split; [exact I|]. rewrite P, F, N, O. left. reflexivity.
Qed.
(** If the buffer connects only frames between which it holds transforms, the node runs with a URDF only if fixed
    joints connect the tracking frame with the frames of its sensors. *)
Theorem C129_urdf_connected : forall w argv ev r, let a := parse argv in
  (forall tr x y t, w_static w tr x y = Some t -> clos_refl_sym_trans string (fun p c => exists g, In (p, c, g) tr) x y) ->
  a_urdf a <> "" -> main w argv ev = Ok r -> e_code r = 0%Z ->
  exists l, w_urdf w (a_urdf a) = Some l /\
    clos_refl_sym_trans string (fixed l) (a_track a) (a_pc_frame a) /\
    (a_imu a <> "" -> clos_refl_sym_trans string (fixed l) (a_track a) (a_imu_frame a)).
Proof.
  intros w argv ev r a Lib Ur E C. destruct (proj1 (C129_transforms w argv ev) r E C) as [_ [_ [_ [tl [ti [to [tg [Gl [Gi _]]]]]]]]].
  fold a in Gl, Gi. unfold given in Gl, Gi. destruct (empty_spec (a_urdf a)) as [[_ K]|[K _]]; [contradiction|]. rewrite K in Gl, Gi.
  destruct Gl as [l [W St]]. exists l. split; [exact W|].
  assert (Mono : forall x y, clos_refl_sym_trans string (fun p c => exists g, In (p, c, g) (static_transforms l)) x y -> clos_refl_sym_trans string (fixed l) x y).
  { intros x y H. induction H as [x y [g I]| | |].
    - apply rst_step. apply C129_urdf in I. destruct I as [k [I1 [I2 [I3 [I4 _]]]]]. exists k. auto.
    - apply rst_refl.
    - apply rst_sym. assumption.
    - eapply rst_trans; eassumption. }
  split; [exact (Mono _ _ (Lib _ _ _ _ St))|]. intros Ni. unfold use_imu in Gi.
  destruct (empty_spec (a_imu a)) as [[_ Q]|[Q _]]; [contradiction|]. rewrite Q in Gi. destruct (Gi eq_refl) as [[l' [W' St']] _].
  rewrite W in W'. inversion W'; subst. exact (Mono _ _ (Lib _ _ _ _ St')).
Qed.

(** ** Messages *)
(** The clouds and IMU messages on the topics of the node. *)
Definition clouds_heard a (kitti : bool) ev : list (cloud (list Pt)) :=
  flat_map (fun e => match e with
                     | Message topic (BCloud m) => if negb kitti && String.eqb topic (a_pc a) then [cloud_of finite m] else []
                     | File us p => if kitti then [mkCloud (to_local_time us) p] else []
                     | _ => []
                     end) ev.
Definition imus_heard a (kitti : bool) ev : list (imu V) :=
  flat_map (fun e => match e with
                     | Message topic (BImu m) => if negb kitti && String.eqb topic (a_imu a) then [m] else []
                     | _ => []
                     end) ev.
Lemma clouds_in_calls : forall a k ev, clouds_in (flat_map (calls a k) ev) = clouds_heard a k ev.
Proof.
  intros a k ev. induction ev as [|e ev IH]; [reflexivity|]. cbn [flat_map]. unfold clouds_in in *. rewrite flat_map_app, IH.
  unfold clouds_heard. cbn [flat_map]. f_equal. destruct e as [topic b|us p|t]; cbn; [|destruct k; reflexivity|reflexivity].
  destruct k; cbn; [destruct b; reflexivity|]. destruct b as [m|m|m|m|]; try destruct (String.eqb topic _); cbn; try reflexivity;
    try destruct (use_imu a); try destruct (use_odom a); try destruct (use_gps a); reflexivity.
Qed.
Lemma imus_in_calls : forall a k ev, use_imu a = true -> imus_in (flat_map (calls a k) ev) = imus_heard a k ev.
Proof.
  intros a k ev U. induction ev as [|e ev IH]; [reflexivity|]. cbn [flat_map]. unfold imus_in in *. rewrite flat_map_app, IH.
  unfold imus_heard. cbn [flat_map]. f_equal. destruct e as [topic b|us p|t]; cbn; [|destruct k; reflexivity|reflexivity].
  destruct k; cbn; [destruct b; reflexivity|]. destruct b as [m|m|m|m|]; try destruct (String.eqb topic _); cbn; try reflexivity;
    try rewrite U; try destruct (use_odom a); try destruct (use_gps a); reflexivity.
Qed.

(** A run to the end: the builder has had the IMU messages of the topic, all and in order, rotated into the tracking
    frame, if the configuration uses the IMU, and otherwise none; it has some of the clouds of the topic, in order,
    moved into the tracking frame. *)
Theorem C129_collected : forall w argv ev s, let a := parse argv in
  (forall c, w_config w (a_cfg a) = Ok c -> poses_after_imu a (kittib w a) c ev) ->
  main w argv ev = Ok (mkExit 0 (Some s)) ->
  exists c q kept tl, w_config w (a_cfg a) = Ok c /\ (imu_on c = true -> a_imu a <> "") /\
    s_col s = Some q /\ given w a (a_track a) (a_pc_frame a) tl /\
    subseq kept (clouds_heard a (kittib w a) ev) /\
    q_clouds q = map (fun m => mkCloud (c_stamp m) (act tl (c_points m))) kept /\
    (imu_on c = true -> exists ti, given w a (a_track a) (a_imu_frame a) ti /\
       q_imus q = map (fun m => mkImu (i_stamp m) (rotate ti (i_data m))) (imus_heard a (kittib w a) ev)).
Proof.
  intros w argv ev s a Ps E. destruct (main_cases w argv ev a eq_refl) as [[E' _]|[[E' _]|[S [s0 [tl [ti [to [tg [Gi [A E']]]]]]]]]];
    try (rewrite E' in E; discriminate). rewrite E' in E.
  assert (Cf : a_cfg a <> "").
  { intros K. unfold rest in E. rewrite K in E. discriminate. }
  pose proof (rest_cases w a ev s0 tl ti to tg A Cf Ps) as R.
  destruct (w_config w (a_cfg a)) as [c| | |] eqn:W; try congruence.
  destruct (imu_on c && negb (use_imu a)) eqn:Ex; [congruence|].
  destruct R as [[s1 [s2 [A1 [Lg [F [Col R]]]]]]|[R _]]; [|congruence].
  assert (s2 = s) by congruence. subst s2.
  assert (Im : imu_on c = true -> use_imu a = true).
  { intros On. rewrite On in Ex. cbn in Ex. destruct (use_imu a); [reflexivity|discriminate]. }
  destruct (prelude_run act rotate upright level forward a c tl ti to tg s0 A) as
    [t1 [t2 [t3 [_ [_ [_ [A3 [_ [_ [q0 [Q0 [I0 C0]]]]]]]]]]]].
  rewrite after_app, A3 in A1. cbn [bind] in A1.
  destruct (collected act rotate upright level forward a c _ _ t3 s1 q0 A3 Lg (prelude_set_up a c tl ti to tg) Im
              (feed_calls finite a (kittib w a) ev) Q0 A1) as [q [kept [tl' [Q [TL [Sub [Cl Is]]]]]]].
  assert (tl' = tl).
  { unfold prelude, setters in TL. destruct (use_imu a), (use_odom a), (use_gps a); cbn in TL; congruence. } subst tl'.
  destruct Gi as [Gl [Gm _]].
  exists c, q, kept, tl. split; [reflexivity|].
  split. { intros On. specialize (Im On). unfold use_imu in Im. destruct (empty_spec (a_imu a)) as [[K _]|[_ K]]; [rewrite K in Im; discriminate|exact K]. }
  split; [congruence|]. split; [exact Gl|]. split; [rewrite <- clouds_in_calls; exact Sub|].
  split; [rewrite Cl, C0; reflexivity|].
  intros On. exists ti. split; [apply Gm; auto|].
  rewrite (Is ti); [rewrite I0, On, imus_in_calls by auto; reflexivity|].
  unfold prelude, setters. rewrite (Im On). destruct (use_odom a), (use_gps a); reflexivity.
Qed.

(** An odometry message on the topic of the node ends it. *)
Theorem C129_odometry_fatal : forall w argv ev m, let a := parse argv in
  starts w a -> a_cfg a <> "" ->
  (forall c, w_config w (a_cfg a) = Ok c -> imu_on c = true -> a_imu a <> "") ->
  (forall c, w_config w (a_cfg a) = Ok c -> poses_after_imu a (kittib w a) c ev) ->
  (exists c, w_config w (a_cfg a) = Ok c) -> ~ has_kitti w a ->
  a_odom a <> "" -> a_odom_frame a <> "" -> In (Message (a_odom a) (BOdom m)) ev -> main w argv ev = Abort.
Proof.
  intros w argv ev m a St Cf Im Ps [c W] Nk O1 O2 I.
  destruct (main_cases w argv ev a eq_refl) as [[E' H]|[[E' _]|[S [s0 [tl [ti [to [tg [Gi [A E']]]]]]]]]].
  - exfalso. destruct St as [S1 [_ [S2 _]]]. destruct H as [H|[_ H]]; tauto.
  - exact E'.
  - rewrite E'. pose proof (rest_cases w a ev s0 tl ti to tg A Cf Ps) as R. rewrite W in R.
    destruct (imu_on c && negb (use_imu a)) eqn:Ex.
    + exfalso. apply andb_true_iff in Ex. destruct Ex as [On U]. specialize (Im c W On). unfold use_imu in U.
      destruct (empty_spec (a_imu a)) as [[_ K]|[K _]]; [contradiction|]. rewrite K in U. discriminate.
    + destruct R as [[s1 [s2 [A1 [Lg _]]]]|[R _]]; [|exact R]. exfalso.
      assert (Uo : use_odom a = true).
      { unfold use_odom. destruct (empty_spec (a_odom a)) as [[_ K]|[-> _]]; [contradiction|].
        destruct (empty_spec (a_odom_frame a)) as [[_ K]|[-> _]]; [contradiction|]. reflexivity. }
      assert (Kf : kittib w a = false).
      { destruct (kittib w a) eqn:K; [|reflexivity]. apply kittib_spec in K. contradiction. }
      rewrite Kf in A1, Lg. apply in_split in I. destruct I as [e1 [e2 ->]].
      rewrite flat_map_app in A1, Lg. cbn [flat_map] in A1, Lg.
      assert (Co : calls a false (Message (a_odom a) (BOdom m)) = [InsertOdom (Some m)]).
      { cbn. rewrite String.eqb_refl, Uo. reflexivity. }
      rewrite Co in A1, Lg. rewrite app_assoc in A1, Lg. rewrite after_app in A1.
      pose proof (legal_prefix _ _ Lg) as Lg1.
      destruct (after (prelude a c tl ti to tg ++ flat_map (calls a false) e1)) as [s| | |] eqn:As; try discriminate A1.
      cbn [bind app run] in A1.
      assert (Ab : ApiModel.call act rotate upright level forward s (InsertOdom (Some m)) = Abort).
      { apply (C107_abort act rotate upright level forward _ s (InsertOdom (Some m)) Lg1 As).
        destruct (set_up_app a c _ _ (prelude_set_up a c tl ti to tg) (feed_calls finite a false e1)) as [_ [F [_ [_ [Of _]]]]].
        rewrite Of, Uo. auto. }
      unfold ApiModel.step at 1 in A1. rewrite Ab in A1. discriminate A1.
Qed.

(** Reading a KITTI folder with the IMU on: no file is used. *)
Theorem C129_kitti_imu_refuted : forall w argv ev s c, let a := parse argv in
  (forall c, w_config w (a_cfg a) = Ok c -> poses_after_imu a (kittib w a) c ev) ->
  has_kitti w a -> w_config w (a_cfg a) = Ok c -> imu_on c = true ->
  main w argv ev = Ok (mkExit 0 (Some s)) -> exists q, s_col s = Some q /\ q_clouds q = [].
Proof.
  intros w argv ev s c a Ps Hk W On E. destruct (main_cases w argv ev a eq_refl) as [[E' _]|[[E' _]|[S [s0 [tl [ti [to [tg [Gi [A E']]]]]]]]]];
    try (rewrite E' in E; discriminate). rewrite E' in E.
  assert (Cf : a_cfg a <> "").
  { intros K. unfold rest in E. rewrite K in E. discriminate. }
  pose proof (rest_cases w a ev s0 tl ti to tg A Cf Ps) as R. rewrite W in R.
  destruct (imu_on c && negb (use_imu a)) eqn:Ex; [congruence|].
  destruct R as [[s1 [s2 [A1 [Lg [F [Col R]]]]]]|[R _]]; [|congruence].
  assert (s2 = s) by congruence. subst s2. rewrite Col.
  pose proof (after_inv act rotate upright level forward _ s1 Lg A1) as [_ [_ I8]].
  assert (Bp : begun (prelude a c tl ti to tg : list op) = Some (setters a tl ti to tg, c, [EnableUsingOdom (use_odom a); EnableUsingGps (use_gps a)])).
  { unfold prelude, setters. destruct (use_imu a), (use_odom a), (use_gps a); reflexivity. }
  rewrite (begun_app _ (flat_map (calls a (kittib w a)) ev) _ _ _ Bp) in I8.
  destruct I8 as [_ [_ [_ [[q [Q [_ K]]] _]]]]. exists q. split; [exact Q|].
  destruct (q_clouds q) as [|m l] eqn:Qc; [reflexivity|]. exfalso. apply K; auto; [discriminate|].
  rewrite (proj2 (kittib_spec w a) Hk). cbn [first_imu app]. clear. induction ev as [|e ev IH]; [reflexivity|].
  cbn [flat_map]. destruct e as [topic b|us p|t]; cbn; exact IH.
Qed.

(** The cloud made of a message: its time in whole microseconds; the points that are not finite are dropped, unless
    the message says that there are none. *)
Theorem C129_cloud : forall (m : ros_cloud Pt), normal (r_stamp m) ->
  to_nano (c_stamp (cloud_of finite m)) = (to_nano (r_stamp m) / 1000 * 1000)%Z /\
  (forall p, In p (c_points (cloud_of finite m)) <-> In p (r_points m) /\ (r_dense m = true \/ finite p = true)).
Proof.
  intros [[sc ns] dn pts] [N1 N2]. cbn [r_stamp secs nsecs] in *. split.
  - cbn [cloud_of c_stamp r_stamp]. unfold to_local_time, to_pcl_time.
    assert (TN : to_nano (mkTime sc ns) = (sc * NS + ns)%Z).
    { unfold to_nano, u64. cbn [secs nsecs]. unfold NS in *. rewrite Z.mod_small by lia.
      replace (sc * 1000000000 + ns <? 2 ^ 63)%Z with true; [reflexivity|]. symmetry. apply Z.ltb_lt. lia. }
    rewrite TN. unfold NS in *. set (x := (sc * 1000000000 + ns)%Z) in *.
    assert (X : (0 <= x < 2 ^ 32 * 1000000000)%Z) by (subst x; lia).
    replace (u64 x) with x by (unfold u64; rewrite Z.mod_small; lia).
    assert (D : (0 <= x / 1000 * 1000 <= x)%Z).
    { pose proof (Z.mul_div_le x 1000 ltac:(lia)). pose proof (Z.div_pos x 1000 ltac:(lia) ltac:(lia)). lia. }
    set (y := (x / 1000 * 1000)%Z) in *. replace (u64 y) with y by (unfold u64; rewrite Z.mod_small; lia).
    unfold from_nano, NS, to_nano, u64, u32. cbn [secs nsecs].
    assert (D2 : (0 <= y / 1000000000 < 2 ^ 32)%Z).
    { split; [apply Z.div_pos; lia|]. apply Z.div_lt_upper_bound; lia. }
    pose proof (Z.mod_pos_bound y 1000000000 ltac:(lia)) as M.
    rewrite (Z.mod_small (y / 1000000000)) by lia. rewrite (Z.mod_small (y mod 1000000000)) by lia.
    pose proof (Z.div_mod y 1000000000 ltac:(lia)) as DM.
    unfold NS. rewrite Z.mod_small by lia.
    replace (y / 1000000000 * 1000000000 + y mod 1000000000)%Z with y by lia.
    replace (y <? 2 ^ 63)%Z with true; [reflexivity|]. symmetry. apply Z.ltb_lt. lia.
  - intros p. cbn [cloud_of c_points r_dense r_points]. destruct dn.
    + intuition.
    + rewrite filter_In. intuition congruence.
Qed.
End Props.
Print Assumptions C129_refused.
Print Assumptions C129_defined.
Print Assumptions C129_default_options_refuted.
Print Assumptions C129_stops_cleanly_refuted.
Print Assumptions C129_transforms.
Print Assumptions C129_waits.
Print Assumptions C129_urdf.
Print Assumptions C129_urdf_connected.
Print Assumptions C129_collected.
Print Assumptions C129_odometry_fatal.
Print Assumptions C129_kitti_imu_refuted.
Print Assumptions C129_cloud.

(** ** A run *)
Definition z_main := @main Z Z Z Z Z (fun t l => map (Z.add t) l) Z.add (fun t => Z.leb 0 t) (fun v => Z.leb 0 v)
  (fun a b : Z => let q := QArith_base.inject_Z (b - a) in mkVec q q q) (fun p => Z.ltb p 1000).
Definition house : list (link Z) :=
  [mkLink "base_link" None false 0%Z; mkLink "velodyne" (Some "base_link") true 4%Z; mkLink "imu" (Some "base_link") true 2%Z;
   mkLink "arm" (Some "base_link") false 9%Z].
Definition here : world Z Z :=
  mkWorld (fun f => String.eqb f "drive.bag" || String.eqb f "kitti")
          (fun _ _ k => Nat.leb 29 k) (fun _ _ => 7%Z)
          (fun f => if String.eqb f "car.urdf" then Some house else None)
          (fun tr x y => match find (fun e => String.eqb (fst (fst e)) x && String.eqb (snd (fst e)) y) tr with
                         | Some e => Some (snd e) | None => None end)
          (fun f => if String.eqb f "imu.xml" then Ok (mkSettings true false false false)
                    else Ok (mkSettings false false false false)).
Definition clean_argv : list string :=
  ["node"; "-pc"; "/points"; "-pc_frame_id"; "velodyne"; "-imu"; "/imu"; "-imu_frame_id"; "imu"; "-cfg"; "imu.xml"; "-urdf"; "car.urdf"; "-bag"; "drive.bag"].
Definition trip : list (event Z Z Z) :=
  [Message "/points" (BCloud (mkRos (mkTime 1 0) false [1; 2]%Z)); Message "/imu" (BImu (mkImu (mkTime 2 0) 5%Z));
   Message "/points" (BCloud (mkRos (mkTime 3 1999) false [1; 2000; 3]%Z)); Pose (mkTime 3 0); Message "/odom" (BOdom 1%Z);
   Message "/points" (BCloud (mkRos (mkTime 4 0) true [2000]%Z)); Message "/other" (BCloud (mkRos (mkTime 5 0) true [8]%Z))].
Definition collected_by (r : outcome (result Z Z Z Z)) :=
  match r with Ok (mkExit 0 (Some s)) => option_map (fun q => (q_clouds q, q_imus q)) (s_col s) | _ => None end.
(** The first cloud comes before the first IMU message and is lost; the point that is not finite is dropped from
    the second cloud and kept in the third, which is marked as dense. *)
Example C129_ex_run : collected_by (z_main here clean_argv trip) =
  Some ([mkCloud (mkTime 3 1000) [5; 7]%Z; mkCloud (mkTime 4 0) [2004]%Z], [mkImu (mkTime 2 0) 7%Z]).
Proof. vm_compute. reflexivity. Qed.
Example C129_ex_hypotheses :
  (forall c : settings, w_config here (a_cfg (parse clean_argv)) = Ok c ->
    poses_after_imu (parse clean_argv) (kittib here (parse clean_argv)) c trip) /\
  starts (fun t => Z.leb 0 t) here (parse clean_argv).
Proof.
  split.
  - intros c _ _ e1 t e2 E. split; [reflexivity|]. exists (mkImu (mkTime 2 0) 5%Z).
    unfold trip in E.
    repeat (destruct e1 as [|? e1]; cbn in E; [first [discriminate E|solve [cbn; auto]]|first [discriminate E|injection E as <- E]]).
  - split; [discriminate|]. split; [discriminate|]. split; [intros [_ [K _]]; vm_compute in K; congruence|].
    exists 4%Z, 2%Z, 0%Z, 0%Z. unfold all_given, given. cbn.
    split; [eexists; split; reflexivity|]. split; [intros _; split; [eexists; split; reflexivity|reflexivity]|]. split; discriminate.
Qed.
(** The other ends: no topic, two sources, a joint that moves, a transform in the 30th attempt, odometry, no
    configuration, no IMU topic; a topic that looks like an option. *)
Example C129_ex_ends :
  z_main here ["node"] trip = Ok (mkExit (-1) None) /\
  z_main here ["node"; "-pc"; "/points"; "-bag"; "drive.bag"; "-kitti"; "kitti"] trip = Ok (mkExit (-1) None) /\
  z_main here ["node"; "-pc"; "/points"; "-pc_frame_id"; "arm"; "-cfg"; "a.xml"; "-urdf"; "car.urdf"] trip = Abort /\
  collected_by (z_main here ["node"; "-pc"; "/points"; "-cfg"; "a.xml"] [File 0 [1]%Z; Message "/points" (BCloud (mkRos (mkTime 1 0) true [1]%Z))]) =
    Some ([mkCloud (mkTime 1 0) [8]%Z], []) /\
  z_main here ["node"; "-pc"; "/points"; "-cfg"; "a.xml"; "-odom"; "/odom"; "-odom_frame_id"; "odom"] trip = Abort /\
  z_main here ["node"; "-pc"; "/points"] trip = UB /\
  z_main here ["node"; "-pc"; "/points"; "-cfg"; "imu.xml"] trip = UB /\
  a_pc (parse ["node"; "-pc"; "-imu"; "/imu"]) = "-imu" /\ a_imu (parse ["node"; "-pc"; "-imu"; "/imu"]) = "/imu".
Proof. repeat split; vm_compute; reflexivity. Qed.

(** *** Arguments *)
(** [v] stands after the first argument equal to [name]; the name of the program is not an argument. *)
Definition given (argv : list string) (name v : string) : Prop := exists prog pre post, argv = prog :: pre ++ name :: v :: post /\ ~ In name pre.
Definition value_of (argv : list string) (name default v : string) : Prop :=
  given argv name v \/ (forall x, ~ given argv name x) /\ v = default.
Lemma find_value_spec : forall l name v, find_value l name = Some v <-> exists pre post, l = pre ++ name :: v :: post /\ ~ In name pre.
Proof.
  intros l name v. induction l as [|x l IH]; cbn [find_value].
  - split; [discriminate|]. intros (pre & post & E & _). destruct pre; discriminate.
  - destruct (String.eqb_spec x name) as [->|N].
    + split.
      * destruct l as [|y l]; [discriminate|]. intros H. injection H as ->. exists [], l. split; [reflexivity|intros []].
      * intros (pre & post & E & Np). destruct pre as [|z pre]; [cbn in E; injection E as ->; reflexivity|].
        cbn in E. injection E as <- _. exfalso. apply Np. left. reflexivity.
    + rewrite IH. split.
      * intros (pre & post & -> & Np). exists (x :: pre), post. split; [reflexivity|]. intros [H|H]; congruence.
      * intros (pre & post & E & Np). destruct pre as [|z pre]; [cbn in E; congruence|]. cbn in E. injection E as <- ->. exists pre, post. split; [reflexivity|].
        intros H. apply Np. right. exact H.
Qed.
Lemma argument_spec : forall argv name default, value_of argv name default (argument argv name default).
Proof.
  intros argv name default. unfold argument, value_of, given. destruct argv as [|prog l]; cbn [tl].
  - right. split; [|reflexivity]. intros x (p & pre & post & E & _). discriminate.
  - destruct (find_value l name) as [v|] eqn:E.
    + left. apply find_value_spec in E. destruct E as (pre & post & -> & N). exists prog, pre, post. auto.
    + right. split; [|reflexivity]. intros x (p & pre & post & E' & N). injection E' as _ E'.
      assert (find_value l name = Some x) by (apply find_value_spec; eauto). congruence.
Qed.
(** Every setting is the argument after its own option, or its default. *)
Theorem C129_arguments : forall argv, let a := parse argv in
  value_of argv "-pc" "" (a_pc a) /\ value_of argv "-pc_frame_id" "base_link" (a_pc_frame a) /\
  value_of argv "-imu" "" (a_imu a) /\ value_of argv "-imu_frame_id" "/novatel_imu" (a_imu_frame a) /\
  value_of argv "-odom" "" (a_odom a) /\ value_of argv "-odom_frame_id" "" (a_odom_frame a) /\
  value_of argv "-gps" "" (a_gps a) /\ value_of argv "-gps_frame_id" "" (a_gps_frame a) /\
  value_of argv "-cfg" "" (a_cfg a) /\ value_of argv "-urdf" "" (a_urdf a) /\ value_of argv "-track" "base_link" (a_track a) /\
  value_of argv "-bag" "" (a_bag a) /\ value_of argv "-kitti" "" (a_kitti a).
Proof. intros argv a. repeat split; apply argument_spec. Qed.
Print Assumptions C129_arguments.
(** Messages reach the builder, without a KITTI folder, exactly if they come on the topic of their sensor and this is in use: the IMU with its
    topic, odometer and GPS with their topic and frame. *)
Theorem C129_sensors : forall (T Pt V L : Type) (finite : Pt -> bool) a topic (b : body Pt V L),
  let told := NodeModel.calls finite a false (Message topic b) : list (op T (list Pt) V L) in
  (told <> [] <->
   match b with
   | BCloud _ => topic = a_pc a
   | BImu _ => topic = a_imu a /\ topic <> ""
   | BOdom _ => topic = a_odom a /\ topic <> "" /\ a_odom_frame a <> ""
   | BFix _ => topic = a_gps a /\ topic <> "" /\ a_gps_frame a <> ""
   | BOther => False
   end).
Proof.
  intros T Pt V L finite a topic b told. unfold told. clear told. destruct b; cbn [NodeModel.calls]; unfold use_imu, use_odom, use_gps.
  - destruct (String.eqb_spec topic (a_pc a)); split; congruence.
  - destruct (String.eqb_spec topic (a_imu a)) as [->|N]; cbn [andb]; [|split; [congruence|tauto]].
    destruct (empty_spec (a_imu a)) as [[-> E]|[-> E]]; cbn [negb]; split; try congruence; tauto.
  - destruct (String.eqb_spec topic (a_odom a)) as [->|N]; cbn [andb]; [|split; [congruence|tauto]].
    destruct (empty_spec (a_odom a)) as [[-> E]|[-> E]], (empty_spec (a_odom_frame a)) as [[-> F]|[-> F]]; cbn [negb andb]; split; try congruence; tauto.
  - destruct (String.eqb_spec topic (a_gps a)) as [->|N]; cbn [andb]; [|split; [congruence|tauto]].
    destruct (empty_spec (a_gps a)) as [[-> E]|[-> E]], (empty_spec (a_gps_frame a)) as [[-> F]|[-> F]]; cbn [negb andb]; split; try congruence; tauto.
  - split; [congruence|tauto].
Qed.
Print Assumptions C129_sensors.
Example C129_ex_arguments : let a := parse ["-pc"; "node"; "-pc"; "/points"; "-gps"; "/fix"; "-gps_frame_id"; "gps"; "-pc"; "other"] in
  a_pc a = "/points" /\ a_gps_frame a = "gps" /\ a_track a = "base_link" /\ a_odom a = "" /\
  given ["-pc"; "node"; "-pc"; "/points"] "-pc" "/points" /\ ~ given ["-pc"; "node"] "-pc" "node".
Proof.
  vm_compute. repeat split. - exists "-pc", ["node"], []. split; [reflexivity|]. intros [H|[]]. discriminate.
  - intros (p & pre & post & E & _). injection E as _ E. destruct pre as [|x [|y pre]]; discriminate.
Qed.
