(** Proofs about the calls of MapBuilder. *)
From Coq Require Import ZArith List Bool Lia.
From Verif Require Import Outcome TimeModel GpsModel ApiModel ApiSpec.
Import ListNotations.

Section Proofs.
Context {T P V L : Type}.
Notation op := (op T P V L).
Notation state := (state T P V L).
Variable act : T -> P -> P.
Variable rotate : T -> V -> V.
Variable upright : T -> bool.
Variable level : V -> bool.
Variable forward : L -> L -> vec3.
Notation call := (call act rotate upright level forward).
Notation step := (step act rotate upright level forward).
Notation after := (after act rotate upright level forward).

Lemma after_snoc : forall h o, after (h ++ [o]) = (let* s := after h in step s o)%outcome.
Proof.
  unfold after. intros h o. generalize (new_builder T P V L). induction h as [|x h IH]; intros s; cbn.
  - destruct (step s o); auto.
  - destruct (step s x); cbn; auto.
Qed.
Lemma latest_snoc : forall A (f : op -> option A) h o,
  latest f (h ++ [o]) = match f o with Some a => Some a | None => latest f h end.
Proof. intros. unfold latest. rewrite fold_left_app. reflexivity. Qed.
Lemma begun_snoc : forall (h : list op) o, begun (h ++ [o]) =
  match begun h with
  | Some (p, c, l) => Some (p, c, l ++ [o])
  | None => match o with Initialise c => Some (h, c, []) | _ => None end
  end.
Proof.
  induction h as [|x h IH]; intros o; cbn [app begun].
  - destruct o; reflexivity.
  - destruct x; try reflexivity; rewrite IH; destruct (begun h) as [[[p c] l]|]; try reflexivity; destruct o; reflexivity.
Qed.
Lemma finished_snoc : forall (h : list op) o,
  finished (h ++ [o]) = finished h || match o with Finish => true | _ => false end.
Proof. intros. unfold finished. rewrite existsb_app. cbn. rewrite orb_false_r. reflexivity. Qed.
Lemma first_imu_snoc : forall (l : list op) o,
  first_imu (l ++ [o]) = match first_imu l with
                         | Some m => Some m
                         | None => match o with InsertImu (Some m) => Some m | _ => None end
                         end.
Proof.
  induction l as [|x l IH]; intros o; [cbn; destruct o as [| | | | | | | |m| | | |]; auto; destruct m; auto|].
  cbn [app first_imu]. destruct x as [| | | | | | | |m| | | |]; auto. destruct m; auto.
Qed.

Definition ext_of (c : settings) (l : list op) : option extrap :=
  if imu_on c then option_map (fun m => mkExt true (Some (match latest pose l with Some t => t | None => i_stamp m end)))
                              (first_imu l)
  else Some (mkExt false (latest pose l)).
Definition tfs (h : list op) (s : state) : Prop :=
  s_lidar_tf s = latest lidar_tf h /\ s_imu_tf s = latest imu_tf h /\
  s_odom_tf s = latest odom_tf h /\ s_gps_tf s = latest gps_tf h /\
  s_odom s = latest odom_flag h /\ s_gps s = (match latest gps_flag h with Some b => b | None => false end).
Definition core (h : list op) (s : state) : Prop :=
  s_end s = finished h /\
  match begun h with
  | None => s_phase s = Fresh /\ s_imu s = false /\ s_ext s = None /\ s_opt s = None /\ s_col s = None /\ finished h = false
  | Some (p, c, l) =>
      s_imu s = imu_on c /\ finished h = finished l /\
      s_opt s = Some (mkOpt (isam_gps c) (isam_odom c) (loop_gps c) (latest odom_tf p) (latest gps_tf p)) /\
      (exists q, s_col s = Some q /\ q_odoms q = [] /\ (q_clouds q <> [] -> imu_on c = true -> first_imu l <> None)) /\
      s_phase s = (if finished l then Joined else Running) /\
      (finished l = false -> s_ext s = ext_of c l)
  end.
Definition inv h s := tfs h s /\ core h s.

Ltac inv_ok := repeat match goal with
  | H : Ok _ = Ok _ |- _ => inversion H; subst; clear H
  | H : UB = Ok _ |- _ => discriminate H
  | H : Abort = Ok _ |- _ => discriminate H
  | H : Throw = Ok _ |- _ => discriminate H
  end.
Lemma inv_init : inv [] (new_builder T P V L).
Proof. repeat split. Qed.
Lemma legal_snoc : forall (h : list op) o, legal (h ++ [o]) -> legal h.
Proof. intros h o H h1 t h2 ->. apply (H h1 t (h2 ++ [o])). rewrite <- app_assoc. reflexivity. Qed.

Lemma begun_split : forall (h : list op) p c l, begun h = Some (p, c, l) -> h = p ++ Initialise c :: l.
Proof.
  induction h as [|o h IH]; intros p c l H; [discriminate|].
  assert (begun h = Some (tl p, c, l) /\ p = o :: tl p \/ o = Initialise c /\ h = l /\ p = []) as [[A B]|[-> [-> ->]]].
  { cbn in H. destruct o; try (destruct (begun h) as [[[p' c'] l']|]; [|discriminate]; inversion H; subst; left; auto).
    inversion H; subst. auto. }
  - rewrite B. cbn. f_equal. auto.
  - reflexivity.
Qed.
Lemma begun_app : forall (h l' : list op) p c l, begun h = Some (p, c, l) -> begun (h ++ l') = Some (p, c, l ++ l').
Proof.
  intros h l'. revert h. induction l' as [|o l' IH]; intros h p c l H; [rewrite !app_nil_r; auto|].
  replace (h ++ o :: l') with ((h ++ [o]) ++ l') by (rewrite <- app_assoc; auto).
  replace (l ++ o :: l') with ((l ++ [o]) ++ l') by (rewrite <- app_assoc; auto).
  apply IH. rewrite begun_snoc, H. reflexivity.
Qed.
Lemma begun_short : forall (h : list op) p c l l1 l2, begun h = Some (p, c, l) -> l = l1 ++ l2 ->
  begun (p ++ Initialise c :: l1) = Some (p, c, l1).
Proof.
  induction h as [|o h IH]; intros p c l l1 l2 H E; [discriminate|].
  cbn in H. destruct o; try (destruct (begun h) as [[[p' c'] l']|] eqn:B; [|discriminate]; inversion H; subst; cbn;
    erewrite IH by eauto; reflexivity).
  inversion H; subst. reflexivity.
Qed.
Lemma latest_in : forall A (f : op -> option A) l a, latest f l = Some a -> exists l1 o l2, l = l1 ++ o :: l2 /\ f o = Some a.
Proof.
  intros A f l. induction l as [|o l IH] using rev_ind; intros a H; [discriminate|].
  rewrite latest_snoc in H. destruct (f o) eqn:F.
  - inversion H; subst. exists l, o, []. auto.
  - destruct (IH a H) as [l1 [o' [l2 [-> E]]]]. exists l1, o', (l2 ++ [o]). rewrite <- app_assoc. auto.
Qed.
Lemma first_imu_app : forall (l l' : list op), first_imu (l ++ l') = None -> first_imu l = None.
Proof.
  induction l as [|o l IH]; intros l' H; auto. cbn [app first_imu] in *.
  destruct o as [| | | | | | | |m| | | |]; try solve [eapply IH; eauto].
  destruct m; [discriminate|]. eapply IH; eauto.
Qed.
Lemma no_pose_before_imu : forall (h : list op) p c l, legal h -> begun h = Some (p, c, l) -> imu_on c = true ->
  first_imu l = None -> latest pose l = None.
Proof.
  intros h p c l Lg B On F. destruct (latest pose l) as [t|] eqn:E; auto.
  destruct (latest_in _ _ _ _ E) as [l1 [o [l2 [-> Po]]]]. destruct o; try discriminate. cbn in Po. inversion Po; subst.
  pose proof (begun_split _ _ _ _ B) as S.
  destruct (Lg (p ++ Initialise c :: l1) t l2) as [p' [c' [l' [B' [_ N]]]]].
  { rewrite S, <- app_assoc. reflexivity. }
  rewrite (begun_short _ _ _ _ _ _ B eq_refl) in B'. inversion B'; subst. exfalso. apply (N On).
  eapply first_imu_app; eauto.
Qed.

(** Calls that do not touch the core. *)
Definition quiet (o : op) : Prop :=
  match o with Initialise _ | Finish | AddPose _ => False | _ => True end.
Definition same_core (s s' : state) : Prop :=
  s_phase s' = s_phase s /\ s_end s' = s_end s /\ s_imu s' = s_imu s /\ s_opt s' = s_opt s.
Lemma ext_of_other : forall c l o, pose o = None -> (forall m, o <> InsertImu (Some m)) -> ext_of c (l ++ [o]) = ext_of c l.
Proof.
  intros c l o H N. unfold ext_of. rewrite latest_snoc, H, first_imu_snoc.
  destruct (first_imu l); auto. destruct o as [| | | | | | | |m| | | |]; auto. destruct m; auto. exfalso. apply (N i). auto.
Qed.
Lemma quiet_core : forall h o s s', quiet o -> core h s -> same_core s s' ->
  (begun h = None -> s_ext s' = None /\ s_col s' = None) ->
  (forall p c l q, begun h = Some (p, c, l) -> s_col s = Some q -> q_odoms q = [] ->
     (q_clouds q <> [] -> imu_on c = true -> first_imu l <> None) ->
     exists q', s_col s' = Some q' /\ q_odoms q' = [] /\
       (q_clouds q' <> [] -> imu_on c = true -> first_imu (l ++ [o]) <> None)) ->
  (forall p c l, begun h = Some (p, c, l) -> finished l = false -> s_ext s = ext_of c l -> s_ext s' = ext_of c (l ++ [o])) ->
  core (h ++ [o]) s'.
Proof.
  intros h o s s' Qo [C1 C2] [S1 [S2 [S3 S4]]] Hn Hq He. unfold core.
  assert (forall l : list op, finished (l ++ [o]) = finished l) as F.
  { intros l. rewrite finished_snoc. destruct o; cbn in Qo; try contradiction; apply orb_false_r. }
  rewrite F, begun_snoc, S2. split; auto. destruct (begun h) as [[[p c] l]|].
  - destruct C2 as [D1 [D2 [D3 [[q [Q1 [Q2 Q3]]] [D5 D6]]]]]. rewrite F, S1, S3, S4.
    repeat split; auto. eapply Hq; eauto. intros G. eapply He; eauto.
  - destruct C2 as [D1 [D2 [D3 [D4 [D5 D6]]]]]. destruct (Hn eq_refl).
    destruct o; cbn in Qo; try contradiction; rewrite S1, S3, S4; auto 10.
Qed.
(** Calls that only change flags or transforms, or nothing. *)
Lemma still_core : forall h o s s', quiet o -> (forall m, o <> InsertImu (Some m)) -> core h s -> same_core s s' ->
  s_ext s' = s_ext s -> s_col s' = s_col s -> core (h ++ [o]) s'.
Proof.
  intros h o s s' Qo N C S E Q. apply quiet_core with s; auto.
  - intros B. destruct C as [_ C]. rewrite B in C. intuition congruence.
  - intros p c l q B H1 H2 H3. exists q. rewrite Q. repeat split; auto. rewrite first_imu_snoc. intros A A'.
    specialize (H3 A A'). destruct (first_imu l); auto.
  - intros p c l B F X. rewrite E, X. symmetry. apply ext_of_other; auto. destruct o; cbn in Qo; auto; contradiction.
Qed.
Ltac tfs_tac := unfold tfs in *; rewrite !latest_snoc; cbn; intuition.
Lemma step_tfs : forall h s o s' r, tfs h s -> call s o = Ok (s', r) -> tfs (h ++ [o]) s'.
Proof.
  intros h s o s' r I C.
  destruct o as [c|t|t|t|t|b|b|m|m|m|m| |t]; cbn [ApiModel.call] in C; unfold silent in C.
  - unfold initialise in C. destruct (s_phase s); cbn in C; inv_ok. tfs_tac.
  - inv_ok. tfs_tac.
  - destruct (upright t); cbn in C; inv_ok. tfs_tac.
  - inv_ok. tfs_tac.
  - inv_ok. tfs_tac.
  - inv_ok. tfs_tac.
  - inv_ok. tfs_tac.
  - unfold insert_cloud, deref, with_tf, collect in C. destruct (s_end s || _); inv_ok; [tfs_tac|].
    destruct m as [m|]; [|discriminate]. destruct (match s_ext s with Some x => _ | None => _ end); inv_ok; [tfs_tac|].
    destruct (s_lidar_tf s) eqn:?; [|discriminate]. destruct (s_col s); [|discriminate]. inv_ok. tfs_tac; try congruence.
  - unfold insert_imu, deref, with_tf, collect in C. destruct (negb (s_imu s) || _); inv_ok; [tfs_tac|].
    destruct (s_imu_tf s) eqn:?; [|discriminate]. destruct m as [m|]; [|discriminate]. destruct (s_col s); [|discriminate].
    destruct (s_ext s); match type of C with context [check ?b] => destruct b end; cbn in C; inv_ok; tfs_tac; try congruence.
  - unfold insert_odom in C. destruct (s_odom s) eqn:?; [|discriminate]. destruct (negb b || s_end s); cbn in C; inv_ok. tfs_tac; try congruence.
  - unfold insert_gps, deref, collect in C. destruct (negb (s_gps s) || s_end s); cbn in C; inv_ok; [tfs_tac|].
    destruct m as [m|]; [|discriminate]. destruct (s_col s); [|discriminate].
    destruct (add_gps _ _ _); cbn in C; inv_ok. tfs_tac.
  - unfold finish in C. destruct (s_phase s); cbn in C; inv_ok. destruct (s_odom s); cbn in C; inv_ok. tfs_tac.
  - inv_ok. unfold add_pose. destruct (s_phase s); [|destruct (s_ext s)|]; tfs_tac.
Qed.
Ltac still := eapply still_core; [constructor|intros; discriminate|eassumption|repeat split|reflexivity|reflexivity].
Lemma step_core : forall h s o s' r, tfs h s -> core h s -> legal (h ++ [o]) -> call s o = Ok (s', r) -> core (h ++ [o]) s'.
Proof.
  intros h s o s' r St I Lg C.
  destruct o as [c|t|t|t|t|b|b|m|m|m|m| |t]; cbn [ApiModel.call] in C; unfold silent in C.
  - (* Initialise *)
    unfold initialise in C. destruct (s_phase s) eqn:Ph; cbn in C; inv_ok. destruct I as [I1 I2].
    unfold core. rewrite begun_snoc, finished_snoc, orb_false_r. cbn. destruct (begun h) as [[[p c0] l]|].
    { destruct I2 as [_ [_ [_ [_ [I2 _]]]]]. rewrite Ph in I2. destruct (finished l); discriminate. }
    destruct I2 as [_ [J2 [J3 [J4 [J5 J6]]]]]. destruct St as [_ [_ [St1 [St2 _]]]]. rewrite St1, St2. repeat split; auto.
    + eexists. split; [reflexivity|]. split; [reflexivity|]. cbn. congruence.
    + intros _. unfold ext_of. destruct (imu_on c); cbn; auto.
  - inv_ok. still.
  - destruct (upright t); cbn in C; inv_ok. still.
  - inv_ok. still.
  - inv_ok. still.
  - inv_ok. still.
  - inv_ok. still.
  - (* InsertCloud *)
    unfold insert_cloud, deref, with_tf, collect in C.
    destruct (s_end s || (s_imu s && match s_ext s with None => true | _ => false end)) eqn:G; inv_ok.
    { still. }
    destruct m as [m|]; [|discriminate]. match type of C with (if ?b then _ else _) = _ => destruct b end; inv_ok.
    { still. }
    destruct (s_lidar_tf s); [|discriminate]. destruct (s_col s) as [q|] eqn:Q; [|discriminate]. inv_ok.
    apply quiet_core with s; cbn; auto; [repeat split|..].
    + intros B. destruct I as [_ I]. rewrite B in I. intuition congruence.
    + intros p c l q' B E A A'. eexists. split; [reflexivity|]. cbn. split; [congruence|]. intros _ On.
      apply orb_false_elim in G. destruct G as [G1 G2]. destruct I as [I1 I2]. rewrite B in I2.
      destruct I2 as [J1 [J2 [_ [_ [_ J3]]]]]. rewrite first_imu_snoc.
      assert (s_ext s = ext_of c l) as X by (apply J3; congruence).
      rewrite J1, On, X in G2. unfold ext_of in G2. rewrite On in G2. destruct (first_imu l); discriminate.
    + intros p c l B F X. rewrite X. symmetry. apply ext_of_other; auto. discriminate.
  - (* InsertImu *)
    unfold insert_imu, deref, with_tf, collect in C. destruct (negb (s_imu s) || s_end s) eqn:G; inv_ok.
    { apply quiet_core with s'; cbn; auto; [repeat split|..].
      + intros B. destruct I as [_ I]. rewrite B in I. intuition congruence.
      + intros p c l q B E A A'. exists q. repeat split; auto. rewrite first_imu_snoc. intros X Y. specialize (A' X Y).
        destruct (first_imu l); auto.
      + intros p c l B F X. rewrite X. destruct I as [I1 I2]. rewrite B in I2. destruct I2 as [J1 [J2 _]].
        rewrite I1, J2, F, orb_false_r, J1 in G. unfold ext_of. destruct (imu_on c); [discriminate|].
        rewrite latest_snoc. auto. }
    destruct (s_imu_tf s) as [t|]; [|discriminate]. destruct m as [m|]; [|discriminate].
    destruct (s_col s) as [q|] eqn:Q; [|discriminate].
    apply orb_false_elim in G. destruct G as [G1 G2]. apply negb_false_iff in G1.
    destruct (s_ext s) as [x|] eqn:X.
    + destruct (negb (x_imu x) || _); cbn in C; inv_ok. apply quiet_core with s; cbn; auto; [repeat split|..].
      * intros B. destruct I as [_ I]. rewrite B in I. intuition congruence.
      * intros p c l q' B E A A'. eexists. split; [reflexivity|]. rewrite Q in E. inversion E; subst. cbn. split; auto.
        rewrite first_imu_snoc. intros Y Z. destruct (first_imu l); discriminate.
      * intros p c l B F X'. destruct I as [I1 I2]. rewrite B in I2. destruct I2 as [J1 _].
        rewrite X in X'. rewrite X'. unfold ext_of in *. rewrite <- J1, G1 in *. rewrite latest_snoc, first_imu_snoc. cbn.
        destruct (first_imu l); [auto|discriminate].
    + destruct (level _); cbn in C; inv_ok. apply quiet_core with s; cbn; auto; [repeat split|..].
      * intros B. destruct I as [_ I]. rewrite B in I. intuition congruence.
      * intros p c l q' B E A A'. eexists. split; [reflexivity|]. rewrite Q in E. inversion E; subst. cbn. split; auto.
        rewrite first_imu_snoc. intros Y Z. destruct (first_imu l); discriminate.
      * intros p c l B F X'. destruct I as [I1 I2]. rewrite B in I2. destruct I2 as [J1 _].
        rewrite X in X'. unfold ext_of in *. rewrite <- J1, G1 in *. rewrite latest_snoc, first_imu_snoc. cbn.
        destruct (first_imu l) eqn:FI; [discriminate|]. cbn.
        rewrite (no_pose_before_imu h p c l); auto. apply legal_snoc in Lg. auto.
  - (* InsertOdom *)
    unfold insert_odom in C. destruct (s_odom s) as [b|] eqn:O; [|discriminate].
    destruct (negb b || s_end s) eqn:G; cbn in C; inv_ok. still.
  - (* InsertGps *)
    unfold insert_gps, deref, collect in C.
    destruct (negb (s_gps s) || s_end s) eqn:G; cbn in C; inv_ok.
    { still. }
    destruct m as [m|]; [|discriminate]. destruct (s_col s) as [q|] eqn:Q; [|discriminate].
    destruct (add_gps forward (q_gps q) m) as [g| | |]; cbn in C; inv_ok.
    apply quiet_core with s; cbn; auto; [repeat split|..].
    + intros B. destruct I as [_ I]. rewrite B in I. intuition congruence.
    + intros p c l q' B E A A'. eexists. split; [reflexivity|]. rewrite Q in E. inversion E; subst. cbn. split; auto.
      rewrite first_imu_snoc. intros Y Z. specialize (A' Y Z). destruct (first_imu l); auto.
    + intros p c l B F X. rewrite X. symmetry. apply ext_of_other; auto. discriminate.
  - (* Finish *)
    unfold finish in C. destruct (s_phase s) eqn:Ph; cbn in C; inv_ok. destruct (s_odom s) eqn:So; cbn in C; inv_ok. destruct I as [I1 I2].
    unfold core. cbn. rewrite finished_snoc, orb_true_r, begun_snoc. split; auto.
    destruct (begun h) as [[[p c0] l]|]; [|intuition congruence].
    destruct I2 as [J1 [J2 [J3 [[q [Q1 [Q2 Q3]]] [J5 J6]]]]]. rewrite finished_snoc, orb_true_r. repeat split; auto.
    + exists q. repeat split; auto. rewrite first_imu_snoc. intros Y Z. specialize (Q3 Y Z). destruct (first_imu l); auto.
    + discriminate.
  - (* AddPose *)
    inv_ok. destruct (Lg h t [] eq_refl) as [p [c [l [B [F N]]]]]. destruct I as [I1 I2]. rewrite B in I2.
    destruct I2 as [J1 [J2 [J3 [[q [Q1 [Q2 Q3]]] [J5 J6]]]]]. specialize (J6 F). rewrite F in J5.
    unfold add_pose. rewrite J5.
    assert (exists x, s_ext s = Some x /\ x_imu x = imu_on c) as [x [X X']].
    { rewrite J6. unfold ext_of. destruct (imu_on c); [|eexists; split; reflexivity].
      specialize (N eq_refl). destruct (first_imu l); [|congruence]. eexists. split; reflexivity. }
    rewrite X. unfold core. cbn. rewrite finished_snoc, orb_false_r, begun_snoc, B, finished_snoc, orb_false_r, F.
    repeat split; auto; try congruence.
    + exists q. repeat split; auto. rewrite first_imu_snoc. intros Y Z. specialize (Q3 Y Z). destruct (first_imu l); auto.
    + intros _. unfold ext_of. rewrite latest_snoc, first_imu_snoc. cbn. rewrite X'. destruct (imu_on c); auto.
      specialize (N eq_refl). destruct (first_imu l); [|congruence]. reflexivity.
Qed.
Lemma after_inv : forall h s, legal h -> after h = Ok s -> inv h s.
Proof.
  induction h as [|o h IH] using rev_ind; intros s Lg H.
  - unfold after in H. cbn in H. inv_ok. apply inv_init.
  - rewrite after_snoc in H. destruct (after h) as [s0| | |] eqn:A; cbn in H; try discriminate.
    destruct (IH s0) as [I1 I2]; auto; [eapply legal_snoc; eauto|].
    unfold step in H. destruct (call s0 o) as [[s1 r]| | |] eqn:C; cbn in H; inv_ok.
    split; [eapply step_tfs|eapply step_core]; eauto.
Qed.
End Proofs.
