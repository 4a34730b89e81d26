(** Proofs about the model of the node. *)
From Coq Require Import String ZArith List Bool Lia.
From Verif Require Import Outcome TimeModel GpsModel ApiModel ApiSpec ApiProofs ApiProps NodeModel.
Import ListNotations.

(** ** Waiting for a transform *)
Lemma wait_spec : forall f n i,
  (wait f i (S n) = Ok tt /\ exists k, k <= n /\ f (i + k) = true) \/
  (wait f i (S n) = Abort /\ forall k, k <= n -> f (i + k) = false).
Proof.
  intros f n. induction n as [|n IH]; intros i; cbn [wait].
  - destruct (f i) eqn:E.
    + left. split; [reflexivity|]. exists 0. rewrite Nat.add_0_r. split; [lia|exact E].
    + right. split; [reflexivity|]. intros k K. replace k with 0 by lia. rewrite Nat.add_0_r. exact E.
  - destruct (f i) eqn:E.
    + left. split; [reflexivity|]. exists 0. rewrite Nat.add_0_r. split; [lia|exact E].
    + destruct (IH (S i)) as [[W [k [K1 K2]]]|[W F]].
      * left. split; [exact W|]. exists (S k). split; [lia|]. rewrite <- K2. f_equal. lia.
      * right. split; [exact W|]. intros k K. destruct k as [|k]; [rewrite Nat.add_0_r; exact E|].
        replace (i + S k) with (S i + k) by lia. apply F. lia.
Qed.

Section Proofs.
Context {T Pt V L G : Type}.
Variable act : T -> list Pt -> list Pt.
Variable rotate : T -> V -> V.
Variable upright : T -> bool.
Variable level : V -> bool.
Variable forward : L -> L -> vec3.
Variable finite : Pt -> bool.
Notation op := (op T (list Pt) V L).
Notation state := (state T (list Pt) V L).
Notation step := (step act rotate upright level forward).
Notation call := (call act rotate upright level forward).
Notation after := (after act rotate upright level forward).
Notation set_transforms := (set_transforms act rotate upright level forward).
Notation calls := (calls finite : args -> bool -> event Pt V L -> list op).
Implicit Types (w : world T G) (a : args).

(** A transform the node can get: from the listener within 30 attempts, or from the URDF. *)
Definition given w a (target source : string) (t : T) : Prop :=
  if empty (a_urdf a)
  then (exists k, k < 30 /\ w_wait w target source k = true) /\ t = w_tf w target source
  else exists l, w_urdf w (a_urdf a) = Some l /\ w_static w (static_transforms l) target source = Some t.
(** All transforms of the node. *)
Definition setters a tl ti to tg : list op :=
  SetTrackingToLidar tl :: (if use_imu a then [SetTrackingToImu ti] else []) ++
  (if use_odom a then [SetTransformOdomToLidar to] else []) ++ (if use_gps a then [SetTrackingToGps tg] else []).
Definition all_given w a tl ti to tg : Prop :=
  given w a (a_track a) (a_pc_frame a) tl /\
  (use_imu a = true -> given w a (a_track a) (a_imu_frame a) ti /\ upright ti = true) /\
  (use_odom a = true -> given w a (a_odom_frame a) (a_pc_frame a) to /\
                        exists t, given w a (a_track a) (a_odom_frame a) t) /\
  (use_gps a = true -> given w a (a_track a) (a_gps_frame a) tg).

Lemma finder_spec : forall w a,
  (exists F, finder w a = Ok F /\
     forall x y, (exists t, F x y = Ok t /\ given w a x y t) \/ (F x y = Abort /\ forall t, ~ given w a x y t)) \/
  (finder w a = Abort /\ forall x y t, ~ given w a x y t).
Proof.
  intros w a. unfold finder, given. destruct (empty (a_urdf a)).
  - left. eexists. split; [reflexivity|]. intros x y.
    destruct (wait_spec (w_wait w x y) 29 0) as [[-> [k [K1 K2]]]|[-> F]]; cbn.
    + left. eexists. split; [reflexivity|]. split; [|reflexivity]. exists k. split; [lia|exact K2].
    + right. split; [reflexivity|]. intros t [[k [K1 K2]] _]. specialize (F k). cbn in F. rewrite F in K2; [discriminate|lia].
  - destruct (w_urdf w (a_urdf a)) as [l|].
    + left. eexists. split; [reflexivity|]. intros x y. cbn. destruct (w_static w (static_transforms l) x y) as [t|] eqn:E.
      * left. exists t. split; [reflexivity|]. exists l. auto.
      * right. split; [reflexivity|]. intros t [l' [A B]]. inversion A; subst. congruence.
    + right. split; [reflexivity|]. intros x y t [l [A _]]. discriminate.
Qed.

Lemma given_fun : forall w a x y t t', given w a x y t -> given w a x y t' -> t = t'.
Proof.
  unfold given. intros w a x y t t'. destruct (empty (a_urdf a)).
  - intros [_ ->] [_ ->]. reflexivity.
  - intros [l [A B]] [l' [A' B']]. rewrite A in A'. inversion A'; subst. congruence.
Qed.

Lemma step_lidar : forall s t, step s (SetTrackingToLidar t) = Ok (set_tf _ _ _ _ s (Some t) (s_imu_tf s) (s_odom_tf s) (s_gps_tf s)).
Proof. reflexivity. Qed.
Lemma step_imu : forall s t, step s (SetTrackingToImu t) =
  if upright t then Ok (set_tf _ _ _ _ s (s_lidar_tf s) (Some t) (s_odom_tf s) (s_gps_tf s)) else Abort.
Proof. intros. unfold ApiModel.step. cbn [ApiModel.call]. unfold check. destruct (upright t); reflexivity. Qed.
Lemma step_odom : forall s t, step s (SetTransformOdomToLidar t) = Ok (set_tf _ _ _ _ s (s_lidar_tf s) (s_imu_tf s) (Some t) (s_gps_tf s)).
Proof. reflexivity. Qed.
Lemma set_transforms_spec : forall w a,
  (exists s tl ti to tg, set_transforms w a (new_builder T (list Pt) V L) = Ok s /\
     after (setters a tl ti to tg) = Ok s /\ all_given w a tl ti to tg) \/
  (set_transforms w a (new_builder T (list Pt) V L) = Abort /\ forall tl ti to tg, ~ all_given w a tl ti to tg).
Proof.
  intros w a. unfold NodeModel.set_transforms, all_given, setters.
  destruct (finder_spec w a) as [[F [-> H]]|[-> N]]; cbn [bind].
  2: { right. split; [reflexivity|]. intros tl ti to tg [A _]. exact (N _ _ _ A). }
  destruct (H (a_track a) (a_pc_frame a)) as [[tl [-> Gl]]|[-> N]]; cbn [bind].
  2: { right. split; [reflexivity|]. intros tl ti to tg [A _]. exact (N _ A). }
  rewrite step_lidar. cbn [bind].
  destruct (use_imu a) eqn:Ui.
  - destruct (H (a_track a) (a_imu_frame a)) as [[ti [-> Gi]]|[-> N]]; cbn [bind].
    2: { right. split; [reflexivity|]. intros tl' ti to tg [_ [A _]]. exact (N _ (proj1 (A eq_refl))). }
    rewrite step_imu. destruct (upright ti) eqn:Up; cbn [bind].
    2: { right. split; [reflexivity|]. intros tl' ti' to tg [_ [A _]]. destruct (A eq_refl) as [A1 A2].
         rewrite (given_fun _ _ _ _ _ _ A1 Gi) in A2. congruence. }
    destruct (use_odom a) eqn:Uo.
    + destruct (H (a_odom_frame a) (a_pc_frame a)) as [[to [-> Go]]|[-> N]]; cbn [bind].
      2: { right. split; [reflexivity|]. intros tl' ti' to tg [_ [_ [A _]]]. exact (N _ (proj1 (A eq_refl))). }
      rewrite step_odom. cbn [bind].
      destruct (H (a_track a) (a_odom_frame a)) as [[t2 [-> G2]]|[-> N]]; cbn [bind].
      2: { right. split; [reflexivity|]. intros tl' ti' to' tg [_ [_ [A _]]]. destruct (A eq_refl) as [_ [t A2]]. exact (N _ A2). }
      destruct (use_gps a) eqn:Ug.
      * destruct (H (a_track a) (a_gps_frame a)) as [[tg [-> Gg]]|[-> N]]; cbn [bind].
        2: { right. split; [reflexivity|]. intros tl' ti' to' tg [_ [_ [_ A]]]. exact (N _ (A eq_refl)). }
        left. eexists. exists tl, ti, to, tg. split; [reflexivity|]. split; [unfold ApiModel.after, ApiModel.step; cbn; rewrite Up; reflexivity|]. eauto 10.
      * left. eexists. exists tl, ti, to, tl. split; [reflexivity|]. split; [unfold ApiModel.after, ApiModel.step; cbn; rewrite Up; reflexivity|].
        split; [exact Gl|]. split; [auto|]. split; [eauto|discriminate].
    + cbn [bind]. destruct (use_gps a) eqn:Ug.
      * destruct (H (a_track a) (a_gps_frame a)) as [[tg [-> Gg]]|[-> N]]; cbn [bind].
        2: { right. split; [reflexivity|]. intros tl' ti' to' tg [_ [_ [_ A]]]. exact (N _ (A eq_refl)). }
        left. eexists. exists tl, ti, tl, tg. split; [reflexivity|]. split; [unfold ApiModel.after, ApiModel.step; cbn; rewrite Up; reflexivity|].
        split; [exact Gl|]. split; [auto|]. split; [discriminate|auto].
      * left. eexists. exists tl, ti, tl, tl. split; [reflexivity|]. split; [unfold ApiModel.after, ApiModel.step; cbn; rewrite Up; reflexivity|].
        split; [exact Gl|]. split; [auto|]. split; discriminate.
  - cbn [bind]. destruct (use_odom a) eqn:Uo.
    + destruct (H (a_odom_frame a) (a_pc_frame a)) as [[to [-> Go]]|[-> N]]; cbn [bind].
      2: { right. split; [reflexivity|]. intros tl' ti' to tg [_ [_ [A _]]]. exact (N _ (proj1 (A eq_refl))). }
      rewrite step_odom. cbn [bind].
      destruct (H (a_track a) (a_odom_frame a)) as [[t2 [-> G2]]|[-> N]]; cbn [bind].
      2: { right. split; [reflexivity|]. intros tl' ti' to' tg [_ [_ [A _]]]. destruct (A eq_refl) as [_ [t A2]]. exact (N _ A2). }
      destruct (use_gps a) eqn:Ug.
      * destruct (H (a_track a) (a_gps_frame a)) as [[tg [-> Gg]]|[-> N]]; cbn [bind].
        2: { right. split; [reflexivity|]. intros tl' ti' to' tg [_ [_ [_ A]]]. exact (N _ (A eq_refl)). }
        left. eexists. exists tl, tl, to, tg. split; [reflexivity|]. split; [reflexivity|].
        split; [exact Gl|]. split; [discriminate|]. split; eauto.
      * left. eexists. exists tl, tl, to, tl. split; [reflexivity|]. split; [reflexivity|].
        split; [exact Gl|]. split; [discriminate|]. split; [eauto|discriminate].
    + cbn [bind]. destruct (use_gps a) eqn:Ug.
      * destruct (H (a_track a) (a_gps_frame a)) as [[tg [-> Gg]]|[-> N]]; cbn [bind].
        2: { right. split; [reflexivity|]. intros tl' ti' to' tg [_ [_ [_ A]]]. exact (N _ (A eq_refl)). }
        left. eexists. exists tl, tl, tl, tg. split; [reflexivity|]. split; [reflexivity|].
        split; [exact Gl|]. split; [discriminate|]. split; [discriminate|auto].
      * left. eexists. exists tl, tl, tl, tl. split; [reflexivity|]. split; [reflexivity|].
        split; [exact Gl|]. split; [discriminate|]. split; discriminate.
Qed.

(** ** Runs of calls *)
Lemma run_app : forall (l1 l2 : list op) s, run step s (l1 ++ l2) = bind (run step s l1) (fun s' => run step s' l2).
Proof. induction l1 as [|o l1 IH]; intros l2 s; cbn [app run]; [reflexivity|]. destruct (step s o); cbn [bind]; auto. Qed.
Lemma after_app : forall (h l : list op), after (h ++ l) = bind (after h) (fun s => run step s l).
Proof. intros. unfold ApiModel.after. apply run_app. Qed.
Lemma legal_prefix : forall (h l : list op), legal (h ++ l) -> legal h.
Proof. intros h l H h1 t h2 E. apply (H h1 t (h2 ++ l)). rewrite E, <- app_assoc. reflexivity. Qed.
Lemma step_call : forall s o, step s o = bind (call s o) (fun x => Ok (fst x)).
Proof. reflexivity. Qed.

(** What the calls of the loop look like. *)
Definition feed a (o : op) : Prop :=
  match o with
  | AddPose _ | InsertCloud (Some _) => True
  | InsertImu (Some _) => use_imu a = true
  | InsertOdom (Some _) => use_odom a = true
  | InsertGps (Some _) => use_gps a = true
  | _ => False
  end.
Lemma calls_feed : forall a k e, Forall (feed a) (calls a k e).
Proof.
  intros a k [topic b|us p|t]; cbn.
  - destruct k; [constructor|]. destruct b as [m|m|m|m|];
      try (destruct (String.eqb topic _); cbn; try constructor; cbn; auto); auto.
    + destruct (use_imu a) eqn:E; cbn; constructor; cbn; auto.
    + destruct (use_odom a) eqn:E; cbn; constructor; cbn; auto.
    + destruct (use_gps a) eqn:E; cbn; constructor; cbn; auto.
  - destruct k; repeat constructor.
  - repeat constructor.
Qed.
Lemma feed_calls : forall a k ev, Forall (feed a) (flat_map (calls a k) ev).
Proof. intros a k ev. induction ev as [|e ev IH]; cbn; [constructor|]. apply Forall_app. split; [apply calls_feed|exact IH]. Qed.

(** The state of the calls before the loop, kept by it. *)
Definition set_up a (c : settings) (h : list op) : Prop :=
  (exists p l, begun h = Some (p, c, l) /\ finished l = false) /\ finished h = false /\
  latest lidar_tf h <> None /\ (use_imu a = true -> latest imu_tf h <> None) /\
  latest odom_flag h = Some (use_odom a) /\ latest gps_flag h = Some (use_gps a).
Lemma set_up_snoc : forall a c h o, set_up a c h -> feed a o -> set_up a c (h ++ [o]).
Proof.
  intros a c h o [[p [l [B F]]] [Fh [Tl [Ti [To Tg]]]]] Fo. unfold set_up.
  rewrite !latest_snoc, begun_snoc, finished_snoc, B.
  destruct o as [?|?|?|?|?|?|?|m|m|m|m| |?]; cbn in Fo; try contradiction; try (destruct m; [|contradiction]);
    (split; [do 2 eexists; split; [reflexivity|]; rewrite finished_snoc, F; reflexivity|]);
    cbn; rewrite Fh; auto 10.
Qed.
Lemma set_up_app : forall a c l h, set_up a c h -> Forall (feed a) l -> set_up a c (h ++ l).
Proof.
  intros a c l. induction l as [|o l IH]; intros h S F; [rewrite app_nil_r; exact S|].
  inversion F; subst. replace (h ++ o :: l) with ((h ++ [o]) ++ l) by (rewrite <- app_assoc; reflexivity).
  apply IH; [|assumption]. apply set_up_snoc; assumption.
Qed.

Lemma feed_safe : forall a c h s o, legal h -> after h = Ok s -> set_up a c h -> (imu_on c = true -> use_imu a = true) ->
  feed a o -> call s o <> UB /\ call s o <> Throw.
Proof.
  intros a c h s o Lg A [[p [l [B F]]] [Fh [Tl [Ti [To Tg]]]]] Im Fo. split.
  - intros U. apply (C107_undefined act rotate upright level forward h s o Lg A) in U.
    destruct o as [?|?|?|?|?|?|?|m|m|m|m| |?]; cbn in Fo; try contradiction; try (destruct m; [|contradiction]).
    + destruct U as [U|[_ U]]; congruence.
    + destruct U as [[p' [c' [l' [B' [F' On]]]]] [U|U]]; [discriminate|]. rewrite B in B'. inversion B'; subst. exact (Ti (Im On) U).
    + congruence.
    + destruct U as [_ [U|U]]; congruence.
  - intros U. apply (C107_throw act rotate upright level forward h s o Lg A) in U. destruct U as [-> _]. exact Fo.
Qed.

Lemma run_safe : forall a c l h s, after h = Ok s -> legal (h ++ l) -> set_up a c h -> (imu_on c = true -> use_imu a = true) ->
  Forall (feed a) l -> (exists s', run step s l = Ok s' /\ after (h ++ l) = Ok s') \/ run step s l = Abort.
Proof.
  intros a c l. induction l as [|o l IH]; intros h s A Lg S Im F; cbn [run].
  - left. exists s. rewrite app_nil_r. auto.
  - inversion F; subst. replace (h ++ o :: l) with ((h ++ [o]) ++ l) in * by (rewrite <- app_assoc; reflexivity).
    destruct (feed_safe a c h s o (legal_prefix _ _ (legal_prefix _ _ Lg)) A S Im H1) as [U1 U2].
    pose proof (after_snoc act rotate upright level forward h o) as A'. rewrite A in A'. cbn [bind] in A'.
    destruct (step s o) as [s1| | |] eqn:E; cbn [bind].
    + apply IH; auto. apply set_up_snoc; assumption.
    + auto.
    + rewrite step_call in E. destruct (call s o); cbn in E; congruence.
    + rewrite step_call in E. destruct (call s o); cbn in E; congruence.
Qed.

Lemma finish_ok : forall a c h s, legal h -> after h = Ok s -> set_up a c h -> exists s', step s Finish = Ok s' /\ s_col s' = s_col s.
Proof.
  intros a c h s Lg A [[p [l [B F]]] [Fh [Tl [Ti [To Tg]]]]].
  pose proof (C107_undefined act rotate upright level forward h s Finish Lg A) as U.
  pose proof (C107_abort act rotate upright level forward h s Finish Lg A) as Ab.
  pose proof (C107_throw act rotate upright level forward h s Finish Lg A) as Th.
  unfold ApiModel.step in *. cbn [ApiModel.call] in *. unfold silent, finish in *.
  destruct (s_phase s).
  - cbn [bind] in U. destruct (proj1 U eq_refl) as [K|[_ K]]; congruence.
  - destruct (s_odom s).
    + cbn. eexists. split; reflexivity.
    + cbn [bind] in U. destruct (proj1 U eq_refl) as [K|[_ K]]; congruence.
  - cbn [bind] in Th. destruct (proj1 Th eq_refl) as [_ K]. congruence.
Qed.

(** ** The start *)
Definition prelude a c tl ti to tg : list op :=
  setters a tl ti to tg ++ [Initialise c; EnableUsingOdom (use_odom a); EnableUsingGps (use_gps a)].
Lemma prelude_set_up : forall a c tl ti to tg, set_up a c (prelude a c tl ti to tg).
Proof.
  intros. unfold set_up, prelude, setters. destruct (use_imu a), (use_odom a), (use_gps a); cbn;
    (split; [do 2 eexists; split; [reflexivity|reflexivity]|]); repeat split; discriminate.
Qed.
Lemma prelude_no_pose : forall a c tl ti to tg h1 t h2, prelude a c tl ti to tg <> h1 ++ AddPose t :: h2.
Proof.
  intros a c tl ti to tg h1 t h2 E.
  assert (I : In (AddPose t) (prelude a c tl ti to tg)) by (rewrite E; apply in_elt).
  unfold prelude, setters in I. destruct (use_imu a), (use_odom a), (use_gps a); cbn in I;
    repeat (destruct I as [I|I]; [discriminate|]); exact I.
Qed.
Lemma prelude_run : forall a c tl ti to tg s, after (setters a tl ti to tg) = Ok s ->
  exists s1 s2 s3, step s (Initialise c) = Ok s1 /\ step s1 (EnableUsingOdom (use_odom a)) = Ok s2 /\
    step s2 (EnableUsingGps (use_gps a)) = Ok s3 /\ after (prelude a c tl ti to tg) = Ok s3 /\
    s_phase s1 = Running /\ s_odom s1 = None /\ exists q, s_col s3 = Some q /\ q_imus q = [] /\ q_clouds q = [].
Proof.
  intros a c tl ti to tg s A. unfold prelude. rewrite after_app, A. cbn [bind run].
  assert (K : s_phase s = Fresh /\ s_odom s = None).
  { unfold setters, ApiModel.after in A. revert A. destruct (use_imu a), (use_odom a), (use_gps a); unfold ApiModel.step; cbn;
      unfold check; try destruct (upright ti); cbn; intros A; inversion A; subst; cbn; auto. }
  destruct K as [K1 K2]. unfold ApiModel.step. cbn [ApiModel.call]. unfold silent, initialise. rewrite K1. cbn.
  do 3 eexists. split; [reflexivity|]. split; [reflexivity|]. split; [reflexivity|]. split; [reflexivity|].
  split; [reflexivity|]. split; [exact K2|]. eexists. split; [reflexivity|]. auto.
Qed.

(** Poses come from clouds that were accepted: with the IMU on, there was an IMU message before. *)
Definition poses_after_imu a (kitti : bool) (c : settings) (ev : list (event Pt V L)) : Prop :=
  imu_on c = true -> forall e1 t e2, ev = e1 ++ Pose t :: e2 ->
  kitti = false /\ exists m, In (Message (a_imu a) (BImu m)) e1.
Lemma first_imu_in : forall (l : list op) m, In (InsertImu (Some m)) l -> first_imu l <> None.
Proof.
  induction l as [|o l IH]; intros m I; [destruct I|]. destruct I as [->|I]; cbn [first_imu]; [discriminate|].
  specialize (IH m I). destruct o as [| | | | | | | |[|]| | | |]; try exact IH. discriminate.
Qed.
Lemma calls_pose : forall a k ev h1 t h2, flat_map (calls a k) ev = h1 ++ AddPose t :: h2 ->
  exists e1 e2, ev = e1 ++ Pose t :: e2 /\ h1 = flat_map (calls a k) e1.
Proof.
  intros a k ev. induction ev as [|e ev IH]; intros h1 t h2 E; [destruct h1; discriminate|].
  cbn [flat_map] in E.
  assert (C : (exists t', e = Pose t') \/ calls a k e = [] \/ exists o, calls a k e = [o] /\ forall t, o <> AddPose t).
  { destruct e as [topic b|us p|t']; cbn; [|destruct k; eauto; right; right; eexists; split; [reflexivity|discriminate]|eauto].
    right. destruct k; [auto|]. destruct b as [m|m|m|m|]; try (auto; fail); destruct (String.eqb topic _); cbn; auto;
      try destruct (use_imu a); try destruct (use_odom a); try destruct (use_gps a); cbn; auto;
      right; eexists; (split; [reflexivity|discriminate]). }
  destruct C as [[t' ->]|[C|[o [C N]]]].
  - cbn in E. destruct h1 as [|x h1]; cbn in E.
    + inversion E; subst. exists [], ev. auto.
    + inversion E; subst. destruct (IH _ _ _ H1) as [e1 [e2 [-> ->]]]. exists (Pose t' :: e1), e2. auto.
  - rewrite C in E. cbn in E. destruct (IH _ _ _ E) as [e1 [e2 [-> ->]]]. exists (e :: e1), e2. cbn. rewrite C. auto.
  - rewrite C in E. cbn in E. destruct h1 as [|x h1]; cbn in E.
    + inversion E. subst. exfalso. exact (N _ eq_refl).
    + inversion E; subst. destruct (IH _ _ _ H1) as [e1 [e2 [-> ->]]]. exists (e :: e1), e2. cbn. rewrite C. auto.
Qed.
Lemma app_split2 : forall A (x y : list A) h1 t h2, x ++ y = h1 ++ t :: h2 ->
  (exists z, x = h1 ++ t :: z) \/ exists z, h1 = x ++ z /\ y = z ++ t :: h2.
Proof.
  intros A x. induction x as [|b x IH]; intros y h1 t h2 E.
  - right. exists h1. auto.
  - destruct h1 as [|c h1]; cbn in E; inversion E; subst.
    + left. exists x. reflexivity.
    + destruct (IH _ _ _ _ H1) as [[z ->]|[z [-> ->]]]; [left|right]; exists z; auto.
Qed.
Lemma node_legal : forall a k c tl ti to tg ev, use_imu a = true \/ imu_on c = false -> poses_after_imu a k c ev ->
  legal (prelude a c tl ti to tg ++ flat_map (calls a k) ev).
Proof.
  intros a k c tl ti to tg ev Im Ps h1 t h2 E.
  apply app_split2 in E. destruct E as [[z E]|[z [-> E]]]; [destruct (prelude_no_pose _ _ _ _ _ _ _ _ _ E)|].
  apply calls_pose in E. destruct E as [e1 [e2 [-> ->]]].
  destruct (set_up_app a c (flat_map (calls a k) e1) _ (prelude_set_up a c tl ti to tg) (feed_calls a k e1)) as [[p [l [B F]]] _].
  exists p, c, l. split; [exact B|]. split; [exact F|]. intros On.
  destruct (Ps On e1 t e2 eq_refl) as [-> [m I]].
  assert (J : In (InsertImu (Some m)) (flat_map (calls a false) e1)).
  { apply in_flat_map. eexists. split; [exact I|]. cbn. rewrite String.eqb_refl. destruct Im as [Im|Im]; [|congruence].
    rewrite Im. left. reflexivity. }
  pose proof (begun_split _ _ _ _ B) as Sp.
  assert (Bp : begun (prelude a c tl ti to tg) = Some (setters a tl ti to tg, c, [EnableUsingOdom (use_odom a); EnableUsingGps (use_gps a)])).
  { unfold prelude, setters. destruct (use_imu a), (use_odom a), (use_gps a); reflexivity. }
  rewrite (begun_app _ (flat_map (calls a false) e1) _ _ _ Bp) in B. inversion B; subst.
  apply first_imu_in with m. right. right. exact J.
Qed.

(** ** What the data collector holds *)
Inductive subseq {A} : list A -> list A -> Prop :=
| sub_nil : subseq [] []
| sub_skip x l l' : subseq l l' -> subseq l (x :: l')
| sub_take x l l' : subseq l l' -> subseq (x :: l) (x :: l').
Definition clouds_in (l : list op) : list (cloud (list Pt)) :=
  flat_map (fun o => match o with InsertCloud (Some m) => [m] | _ => [] end) l.
Definition imus_in (l : list op) : list (imu V) :=
  flat_map (fun o => match o with InsertImu (Some m) => [m] | _ => [] end) l.
Lemma subseq_app : forall A (a b c d : list A), subseq a b -> subseq c d -> subseq (a ++ c) (b ++ d).
Proof. intros A a b c d H K. induction H; cbn; [exact K|apply sub_skip; assumption|apply sub_take; assumption]. Qed.

Lemma collected : forall a c l h s s' q, after h = Ok s -> legal (h ++ l) -> set_up a c h -> (imu_on c = true -> use_imu a = true) ->
  Forall (feed a) l -> s_col s = Some q -> run step s l = Ok s' ->
  exists q' kept tl, s_col s' = Some q' /\ latest lidar_tf h = Some tl /\ subseq kept (clouds_in l) /\
    q_clouds q' = q_clouds q ++ map (fun m => mkCloud (c_stamp m) (act tl (c_points m))) kept /\
    forall ti, latest imu_tf h = Some ti ->
      q_imus q' = q_imus q ++ map (fun m => mkImu (i_stamp m) (rotate ti (i_data m))) (if imu_on c then imus_in l else []).
Proof.
  intros a c l. induction l as [|o l IH]; intros h s s' q A Lg S Im F Q R; cbn [run] in R.
  - inversion R; subst. destruct S as [_ [_ [Tl _]]]. destruct (latest lidar_tf h) as [tl|]; [|congruence].
    exists q, [], tl. split; [exact Q|]. split; [reflexivity|]. split; [constructor|].
    cbn [map]. rewrite app_nil_r. split; [reflexivity|].
    intros ti _. cbn. destruct (imu_on c); cbn; rewrite app_nil_r; reflexivity.
  - inversion F; subst. replace (h ++ o :: l) with ((h ++ [o]) ++ l) in * by (rewrite <- app_assoc; reflexivity).
    pose proof (legal_prefix _ _ (legal_prefix _ _ Lg)) as Lh.
    destruct (step s o) as [s1| | |] eqn:E; cbn [bind] in R; try discriminate.
    pose proof (after_snoc act rotate upright level forward h o) as A'. rewrite A in A'. cbn [bind] in A'. rewrite E in A'.
    pose proof (set_up_snoc _ _ _ _ S H1) as S'.
    assert (NL : latest lidar_tf (h ++ [o]) = latest lidar_tf h).
    { rewrite latest_snoc. destruct o; cbn in H1 |- *; try reflexivity; contradiction. }
    assert (NI : latest imu_tf (h ++ [o]) = latest imu_tf h).
    { rewrite latest_snoc. destruct o; cbn in H1 |- *; try reflexivity; contradiction. }
    destruct (latest lidar_tf h) as [tl|] eqn:TL; [|destruct S as [_ [_ [K _]]]; congruence].
    assert (Step : exists q1 k1, s_col s1 = Some q1 /\ subseq k1 (clouds_in [o]) /\
       q_clouds q1 = q_clouds q ++ map (fun m => mkCloud (c_stamp m) (act tl (c_points m))) k1 /\
       forall ti, latest imu_tf h = Some ti ->
         q_imus q1 = q_imus q ++ map (fun m => mkImu (i_stamp m) (rotate ti (i_data m))) (if imu_on c then imus_in [o] else [])).
    { rewrite step_call in E. destruct (call s o) as [[s1' r]| | |] eqn:C; cbn in E; try discriminate. inversion E; subst s1'.
      destruct S as [[p [l0 [B Fl]]] [Fh [_ [_ [To _]]]]].
      destruct o as [?|?|?|?|?|?|?|m|m|m|m| |?]; cbn in H1; try contradiction; try (destruct m as [m|]; [|contradiction]).
      - destruct (C106_clouds act rotate upright level forward h s m tl Lh A ltac:(congruence) TL) as [K1 K2].
        assert (D : takes_cloud h m \/ ~ takes_cloud h m).
        { unfold takes_cloud. rewrite B. destruct (imu_on c) eqn:On; [destruct (first_imu l0) eqn:FI|].
          - destruct (Z.le_gt_cases (to_nano (pose_time c l0)) (to_nano (c_stamp m))).
            + left. exists p, c, l0. rewrite FI. repeat split; auto. discriminate.
            + right. intros [p' [c' [l' [X [_ [_ Y]]]]]]. inversion X; subst. lia.
          - right. intros [p' [c' [l' [X [_ [Y _]]]]]]. inversion X; subst. exact (Y On FI).
          - destruct (Z.le_gt_cases (to_nano (pose_time c l0)) (to_nano (c_stamp m))).
            + left. exists p, c, l0. rewrite On. repeat split; auto. discriminate.
            + right. intros [p' [c' [l' [X [_ [_ Y]]]]]]. inversion X; subst. lia. }
        destruct D as [D|D].
        + destruct (K1 D) as [s2 [q0 [q1 [C1 [Q0 [Q1 [X1 [X2 _]]]]]]]]. rewrite C in C1. inversion C1; subst s2. rewrite Q in Q0. inversion Q0; subst q0.
          exists q1, [m]. split; [exact Q1|]. split; [cbn; apply sub_take, sub_nil|]. split; [exact X1|].
          intros ti _. cbn. destruct (imu_on c); rewrite app_nil_r; exact X2.
        + rewrite (K2 D) in C. inversion C; subst. exists q, []. split; [exact Q|]. split; [cbn; apply sub_skip, sub_nil|].
          cbn [map]. rewrite app_nil_r. split; [reflexivity|]. intros ti _. cbn. destruct (imu_on c); cbn; rewrite app_nil_r; reflexivity.
      - destruct (imu_on c) eqn:On.
        + assert (Tk : takes_imu h) by (exists p, c, l0; auto).
          destruct (latest imu_tf h) as [ti|] eqn:TI.
          * destruct (C106_imus act rotate upright level forward h s m ti Lh A TI) as [K1 _].
            destruct (K1 s1 r Tk C) as [_ [q0 [q1 [Q0 [Q1 [X1 [X2 _]]]]]]]. rewrite Q in Q0. inversion Q0; subst q0.
            exists q1, []. split; [exact Q1|]. split; [constructor|]. cbn [map]. rewrite app_nil_r. split; [exact X2|].
            intros ti' H. inversion H; subst. exact X1.
          * exfalso. assert (U : call s (InsertImu (Some m)) = UB).
            { apply (C107_undefined act rotate upright level forward h s _ Lh A). auto. }
            congruence.
        + cbn [ApiModel.call] in C. unfold insert_imu in C. pose proof (after_inv act rotate upright level forward h s Lh A) as [_ [_ I8]].
          rewrite B in I8. destruct I8 as [J1 _]. rewrite J1, On in C. cbn in C. inversion C; subst.
          exists q, []. split; [exact Q|]. split; [constructor|]. cbn [map]. rewrite !app_nil_r. split; [reflexivity|]. auto.
      - exfalso. cbn [ApiModel.call] in C. unfold silent, insert_odom in C. destruct (s_odom s) as [b|] eqn:Od; [|discriminate].
        pose proof (after_inv act rotate upright level forward h s Lh A) as [[_ [_ [_ [_ [I5 _]]]]] [I7 _]].
        rewrite I7, Fh in C. assert (Some b = Some true) as Hb by congruence. inversion Hb; subst. discriminate C.
      - cbn [ApiModel.call] in C. unfold silent, insert_gps, deref, collect in C.
        destruct (negb (s_gps s) || s_end s); cbn in C.
        + inversion C; subst. exists q, []. split; [exact Q|]. split; [constructor|]. cbn. destruct (imu_on c); cbn; rewrite !app_nil_r; auto.
        + rewrite Q in C. destruct (add_gps forward (q_gps q) m); cbn in C; try discriminate. inversion C; subst. cbn.
          eexists. exists []. split; [reflexivity|]. split; [constructor|]. cbn. destruct (imu_on c); cbn; rewrite !app_nil_r; auto.
      - cbn [ApiModel.call] in C. inversion C; subst. exists q, []. unfold add_pose.
        destruct (s_phase s); try destruct (s_ext s); cbn; (split; [try exact Q|]); (split; [constructor|]); destruct (imu_on c); cbn; rewrite !app_nil_r; auto. }
    destruct Step as [q1 [k1 [Q1 [Sub1 [X1 Y1]]]]].
    destruct (IH (h ++ [o]) s1 s' q1 A' Lg S' Im H2 Q1 R) as [q' [k2 [tl' [Q' [TL' [Sub2 [X2 Y2]]]]]]].
    rewrite NL in TL'. inversion TL'; subst tl'.
    exists q', (k1 ++ k2), tl. split; [exact Q'|]. split; [reflexivity|].
    split; [change (o :: l) with ([o] ++ l); unfold clouds_in; rewrite flat_map_app; apply subseq_app; assumption|].
    split; [rewrite X2, X1, <- app_assoc, map_app; reflexivity|].
    intros ti TI. rewrite NI in Y2. rewrite (Y2 ti TI), (Y1 ti TI), <- app_assoc, <- map_app. do 2 f_equal.
    destruct (imu_on c); [|reflexivity]. change (o :: l) with ([o] ++ l). unfold imus_in. rewrite flat_map_app. reflexivity.
Qed.
End Proofs.
