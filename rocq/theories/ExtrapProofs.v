From Coq Require Import List Bool ZArith Lia.
From Verif Require Import Outcome TimeModel TimeSpec TimeProofs ExtrapModel ExtrapSpec.
Import ListNotations.
Local Open Scope Z_scope.
Local Open Scope outcome_scope.

Lemma bind_Ok : forall A B (m : outcome A) (f : A -> outcome B) b,
  bind m f = Ok b -> exists a, m = Ok a /\ f a = Ok b.
Proof. intros A B [a| | |] f b H; try discriminate. eauto. Qed.
Ltac ib H := let a := fresh "a" in let E := fresh "E" in
  apply bind_Ok in H; destruct H as (a & E & H).
Lemma check_Ok : forall b u, check b = Ok u -> b = true.
Proof. intros [] u H; [reflexivity|discriminate]. Qed.

Lemma lt_el : forall a b, normal a -> normal b -> t_lt a b = (elapsed a <? elapsed b).
Proof.
  intros a b Ha Hb. unfold t_lt. rewrite !to_nano_elapsed by (apply normal_rep; assumption). reflexivity.
Qed.
Lemma le_el : forall a b, normal a -> normal b -> t_le a b = (elapsed a <=? elapsed b).
Proof.
  intros a b Ha Hb. unfold t_le. rewrite !to_nano_elapsed by (apply normal_rep; assumption). reflexivity.
Qed.
Lemma ge_el : forall a b, normal a -> normal b -> t_ge a b = (elapsed b <=? elapsed a).
Proof.
  intros a b Ha Hb. unfold t_ge. rewrite !to_nano_elapsed by (apply normal_rep; assumption). reflexivity.
Qed.
Lemma sub_el : forall a b, normal a -> normal b -> exists c, t_sub a b = Ok c /\ normal c /\
  elapsed c = Z.max 0 (elapsed a - elapsed b).
Proof.
  intros a b Ha Hb. destruct (t_sub_spec a b) as (c & H1 & H2 & H3); try (apply normal_rep; assumption).
  exists c. split; [exact H1|]. split; [exact H2|]. rewrite H3.
  pose proof (normal_elapsed a Ha). pose proof (normal_elapsed b Hb). apply Z.mod_small. lia.
Qed.
Lemma normal_zero : normal time_zero.
Proof. unfold normal, time_zero, NS; cbn; lia. Qed.

Lemma back_last : forall A (l : list A) x, back (l ++ [x]) = Some x.
Proof.
  intros A l x. unfold back. rewrite app_length. cbn [length]. replace (length l + 1 - 1)%nat with (length l) by lia.
  rewrite nth_error_app2 by lia. replace (length l - length l)%nat with O by lia. reflexivity.
Qed.
Lemma back_app : forall A (l r : list A), r <> [] -> back (l ++ r) = back r.
Proof.
  intros A l r H. destruct (exists_last H) as (r' & x & ->). rewrite app_assoc, !back_last. reflexivity.
Qed.
Lemma back_none : forall A (l : list A), back l = None -> l = [].
Proof.
  intros A l H. destruct l as [|a l]; [reflexivity|]. exfalso.
  destruct (@exists_last _ (a :: l) ltac:(discriminate)) as (r & x & E). rewrite E, back_last in H. discriminate.
Qed.

Section Ext.
Variables Pz V I : Type.
Variable grav_ok : list (tev V I) -> bool.
Variable velocity : (time * Pz) -> (time * Pz) -> V.
Variable shorter : time -> time -> bool.
Variable predict : Pz -> V -> time -> Pz.
Variable predict_imu : Pz -> V -> tracker V I -> tracker V I -> time -> Pz.
Variable init_pose : tracker V I -> Pz.
Variable ident : Pz.
Variable v0 : V.
Notation ext := (ext Pz V I).
Notation new_ext := (new_ext Pz V I ident v0).
Notation add_pose := (add_pose Pz V I grav_ok velocity shorter).
Notation add_imu := (add_imu Pz V I).
Notation extrapolate := (extrapolate Pz V I grav_ok predict predict_imu).
Notation estep := (estep Pz V I grav_ok velocity shorter predict predict_imu).
Notation advance_tracker := (advance_tracker V I grav_ok).
Notation initialize := (initialize_with_imu Pz V I grav_ok velocity shorter init_pose ident v0).
Notation op := (eop Pz I).

(** ** The pose queue *)
Lemma trim_spec : forall fuel lim (q : list (time * Pz)), (length q <= fuel)%nat ->
  exists d, q = d ++ trim_poses Pz fuel lim q /\
    (d <> [] -> (2 <= length (trim_poses Pz fuel lim q))%nat /\
       exists f r, trim_poses Pz fuel lim q = f :: r /\ t_le (fst f) lim = true) /\
    (forall a b c r, trim_poses Pz fuel lim q = a :: b :: c :: r -> t_le (fst b) lim = false).
Proof.
  induction fuel as [|fuel IH]; intros lim q Hl.
  - destruct q; [|cbn in Hl; lia]. exists []. cbn. split; [reflexivity|]. split; [congruence|discriminate].
  - destruct q as [|a [|b [|c r]]]; try (exists []; cbn; split; [reflexivity|]; split; [congruence|discriminate]).
    cbn [trim_poses]. destruct (t_le (fst b) lim) eqn:E.
    + destruct (IH lim (b :: c :: r)) as (d & D1 & D2 & D3); [cbn in *; lia|].
      exists (a :: d). split; [cbn; congruence|]. split; [|exact D3]. intros _.
      destruct d as [|x d].
      * cbn [app] in D1. rewrite <- D1. split; [cbn; lia|]. eauto.
      * destruct (D2 ltac:(discriminate)) as (K1 & K2). auto.
    + exists []. split; [reflexivity|]. split; [congruence|]. intros a' b' c' r' K.
      injection K as -> -> -> ->. exact E.
Qed.

Lemma add_pose_queue : forall t p e e', normal t -> normal (e_dur e) -> add_pose t p e = Ok e' ->
  e_dur e' = e_dur e /\ e_mode e' = e_mode e /\
  exists d, e_queue e ++ [(t, p)] = d ++ e_queue e' /\ e_queue e' <> [] /\
    back (e_queue e') = Some (t, p) /\
    (d <> [] -> (2 <= length (e_queue e'))%nat /\ exists f r, e_queue e' = f :: r /\
        (normal (fst f) -> elapsed (fst f) <= Z.max 0 (elapsed t - elapsed (e_dur e)))) /\
    (forall a b c r, e_queue e' = a :: b :: c :: r -> normal (fst b) ->
       elapsed (fst b) > Z.max 0 (elapsed t - elapsed (e_dur e))).
Proof.
  intros t p e e' Ht Hd H. unfold ExtrapModel.add_pose in H.
  destruct (e_queue e) as [|x q0] eqn:Eq.
  - injection H as <-. cbn. split; [reflexivity|]. split; [reflexivity|]. exists []. cbn.
    split; [reflexivity|]. split; [discriminate|]. split; [reflexivity|]. split; [congruence|discriminate].
  - destruct (sub_el t (e_dur e) Ht Hd) as (lim & L1 & L2 & L3). rewrite L1 in H. cbn [bind] in H.
    ib H. set (q := (x :: q0) ++ [(t, p)]) in *.
    destruct (trim_spec (length q) lim q (Nat.le_refl _)) as (d & D1 & D2 & D3).
    set (q' := trim_poses Pz (length q) lim q) in *.
    assert (e_dur e' = e_dur e /\ e_mode e' = e_mode e /\ e_queue e' = q') as (R1 & R2 & R3).
    { destruct (e_mode e) eqn:Em; [ib H|]; injection H as <-; cbn; auto. }
    split; [exact R1|]. split; [exact R2|]. exists d. rewrite R3.
    assert (q' <> []) as Hq.
    { intros K. destruct d as [|y d]; [rewrite K in D1; subst q; discriminate|].
      destruct (D2 ltac:(discriminate)) as (K1 & _). rewrite K in K1. cbn in K1. lia. }
    split; [exact D1|]. split; [exact Hq|].
    split; [rewrite <- (back_app _ d q' Hq), <- D1; unfold q; apply back_last|].
    split.
    + intros Hdn. destruct (D2 Hdn) as (K1 & f & r & K2 & K3). split; [exact K1|]. exists f, r.
      split; [exact K2|]. intros Hf. rewrite le_el in K3 by assumption. lia.
    + intros a' b c r K Hb. specialize (D3 _ _ _ _ K). rewrite le_el in D3 by assumption. lia.
Qed.

Definition qinv (ps : list (time * Pz)) (e : ext) : Prop :=
  exists d, ps = d ++ e_queue e /\ (ps <> [] -> e_queue e <> []) /\
    (d <> [] -> (2 <= length (e_queue e))%nat /\ exists f r l, e_queue e = f :: r /\ back (e_queue e) = Some l /\
        elapsed (fst f) <= Z.max 0 (elapsed (fst l) - elapsed (e_dur e))) /\
    (forall a b c r l, e_queue e = a :: b :: c :: r -> back (e_queue e) = Some l ->
       elapsed (fst b) > Z.max 0 (elapsed (fst l) - elapsed (e_dur e))).

Lemma ordered_snoc : forall A (l : list (time * A)) x, ordered (l ++ [x]) ->
  ordered l /\ forall a, In a l -> elapsed (fst a) <= elapsed (fst x).
Proof.
  induction l as [|a l IH]; intros x H; cbn in *; [split; [auto|tauto]|].
  destruct H as [H1 H2]. destruct (IH x H2) as [I1 I2]. split.
  - split; [|exact I1]. intros b Hb. apply H1. apply in_or_app. auto.
  - intros b [->|Hb]; [apply H1; apply in_or_app; cbn; auto|auto].
Qed.

Lemma estep_other : forall e o e', (forall t p, o <> EPose t p) -> estep e o = Ok e' ->
  e_queue e' = e_queue e /\ e_dur e' = e_dur e /\ e_mode e' = e_mode e /\ e_vel e' = e_vel e /\ e_tr e' = e_tr e.
Proof.
  intros e o e' Hn H. destruct o; [exfalso; eapply Hn; reflexivity| |]; cbn [ExtrapModel.estep] in H.
  - unfold ExtrapModel.add_imu in H. destruct (e_mode e) eqn:Em; [ib H|]; injection H as <-; cbn; auto.
  - ib H. injection H as <-. destruct a as [p e1]. cbn. unfold ExtrapModel.extrapolate in E.
    destruct (back (e_queue e)) as [[tl pl]|]; [|discriminate]. ib E. ib E.
    destruct (negb a0); [injection E as <- <-; auto|]. ib E. destruct (e_mode e) eqn:Em.
    + destruct (e_xtr e); [|discriminate]. destruct (e_tr e) eqn:Et; [|discriminate]. ib E. ib E.
      injection E as <- <-. cbn. auto.
    + injection E as <- <-. cbn. auto.
Qed.

Lemma qinv_step : forall ps e o e', qinv ps e -> normal (e_dur e) ->
  Forall (fun x => normal (fst x)) (ps ++ poses [o]) -> ordered (ps ++ poses [o]) ->
  estep e o = Ok e' -> qinv (ps ++ poses [o]) e'.
Proof.
  intros ps e o e' (d & D1 & D2 & D3 & D4) Hd Hn Ho H.
  destruct o as [t p|t i|t].
  - cbn [poses flat_map app] in *. cbn [ExtrapModel.estep] in H.
    assert (normal t) as Ht.
    { rewrite Forall_forall in Hn. apply (Hn (t, p)). apply in_or_app. cbn. auto. }
    destruct (add_pose_queue _ _ _ _ Ht Hd H) as (Q1 & _ & d' & Q2 & Q3 & Q4 & Q5 & Q6).
    assert (forall x, In x (e_queue e') -> normal (fst x)) as Hin.
    { intros x Hx. rewrite Forall_forall in Hn. apply Hn. rewrite D1, <- app_assoc, Q2.
      apply in_or_app. right. apply in_or_app. auto. }
    exists (d ++ d'). split; [rewrite D1, <- !app_assoc, Q2; reflexivity|]. split; [auto|]. split.
    + intros Hdd. destruct d' as [|y d'].
      * rewrite app_nil_r in Hdd. cbn [app] in Q2. destruct (D3 Hdd) as (K1 & f & r & l & K2 & K3 & K4).
        rewrite <- Q2. split; [rewrite app_length; lia|]. exists f, (r ++ [(t, p)]), (t, p).
        split; [rewrite K2; reflexivity|]. split; [apply back_last|]. cbn [fst]. rewrite Q1.
        apply ordered_snoc in Ho. destruct Ho as [_ Ho].
        assert (In l ps) as Hl.
        { rewrite D1. apply in_or_app. right. unfold back in K3. eapply nth_error_In. exact K3. }
        specialize (Ho l Hl). cbn in Ho. lia.
      * destruct (Q5 ltac:(discriminate)) as (K1 & f & r & K2 & K3). split; [exact K1|].
        exists f, r, (t, p). split; [exact K2|]. split; [exact Q4|]. rewrite Q1. apply K3.
        apply Hin. rewrite K2. left. reflexivity.
    + intros a b c r l K1 K2. rewrite Q4 in K2. injection K2 as <-. rewrite Q1. cbn [fst].
      eapply Q6; [exact K1|]. apply Hin. rewrite K1. right. left. reflexivity.
  - cbn [poses flat_map app]. rewrite app_nil_r. apply estep_other in H; [|discriminate].
    destruct H as (H1 & H2 & _). exists d. rewrite H1, H2. auto.
  - cbn [poses flat_map app]. rewrite app_nil_r. apply estep_other in H; [|discriminate].
    destruct H as (H1 & H2 & _). exists d. rewrite H1, H2. auto.
Qed.
Lemma estep_dur : forall e o e', estep e o = Ok e' -> e_dur e' = e_dur e /\ e_mode e' = e_mode e.
Proof.
  intros e o e' H. destruct o as [t p|t i|t].
  - cbn in H. unfold ExtrapModel.add_pose in H. destruct (e_queue e); [injection H as <-; auto|].
    ib H. ib H. destruct (e_mode e) eqn:Em; [ib H|]; injection H as <-; cbn; auto.
  - apply estep_other in H; [tauto|discriminate].
  - apply estep_other in H; [tauto|discriminate].
Qed.
Lemma ordered_app : forall A (l1 l2 : list (time * A)), ordered (l1 ++ l2) -> ordered l1.
Proof.
  induction l1 as [|a l IH]; intros l2 H; cbn in *; [auto|]. destruct H as [H1 H2].
  split; [|eauto]. intros b Hb. apply H1. apply in_or_app. auto.
Qed.
Lemma poses_cons : forall (o : op) ops, poses (o :: ops) = poses [o] ++ poses ops.
Proof. intros. unfold poses. cbn. rewrite app_nil_r. reflexivity. Qed.
Lemma imus_cons : forall (o : op) ops, imus (o :: ops) = imus [o] ++ imus ops.
Proof. intros. unfold imus. cbn. rewrite app_nil_r. reflexivity. Qed.
Lemma qinv_run : forall ops ps e e', qinv ps e -> normal (e_dur e) ->
  Forall (fun x => normal (fst x)) (ps ++ poses ops) -> ordered (ps ++ poses ops) ->
  run estep e ops = Ok e' -> qinv (ps ++ poses ops) e' /\ e_dur e' = e_dur e.
Proof.
  induction ops as [|o ops IH]; intros ps e e' Hq Hd Hn Ho H; cbn [run] in H.
  - injection H as <-. cbn. rewrite app_nil_r. auto.
  - ib H. rewrite poses_cons, app_assoc in *. pose proof (estep_dur _ _ _ E) as [Ed _].
    assert (qinv (ps ++ poses [o]) a) as Ha.
    { eapply qinv_step; [exact Hq|exact Hd| | |exact E].
      - rewrite Forall_app in Hn. apply Hn.
      - eapply ordered_app. exact Ho. }
    rewrite <- Ed in *. eapply IH; eassumption.
Qed.

(** ** Queries and the cache *)
Lemma cache_step : forall e o e', ~ is_query o -> e_queue e <> [] -> estep e o = Ok e' ->
  e_cache e' = e_cache e /\ e_queue e' <> [].
Proof.
  intros e o e' Hq Hn H. destruct o as [t p|t i|t]; [| |cbn in Hq; tauto].
  - cbn in H. unfold ExtrapModel.add_pose in H. destruct (e_queue e) as [|x q] eqn:Eq; [congruence|].
    ib H. ib H.
    assert (trim_poses Pz (length ((x :: q) ++ [(t, p)])) a ((x :: q) ++ [(t, p)]) <> []) as Hne.
    { destruct (trim_spec (length ((x :: q) ++ [(t, p)])) a ((x :: q) ++ [(t, p)]) (Nat.le_refl _)) as (d & D1 & D2 & _).
      intros K. rewrite K in *. destruct d; [discriminate|]. destruct (D2 ltac:(discriminate)) as [K1 _]. cbn in K1. lia. }
    destruct (e_mode e); [ib H|]; injection H as <-; cbn [e_cache e_queue]; auto.
  - cbn in H. unfold ExtrapModel.add_imu in H. destruct (e_mode e); [ib H|]; injection H as <-; auto.
Qed.
Lemma cache_run : forall ops e e', Forall (fun o => ~ is_query o) ops -> e_queue e <> [] ->
  run estep e ops = Ok e' -> e_cache e' = e_cache e /\ e_queue e' <> [].
Proof.
  induction ops as [|o ops IH]; intros e e' Hf Hq H; cbn [run] in H.
  - injection H as <-. auto.
  - ib H. inversion Hf; subst. destruct (cache_step _ _ _ H2 Hq E) as [C1 C2].
    destruct (IH _ _ H3 C2 H) as [C3 C4]. split; [congruence|exact C4].
Qed.
Lemma query_cache : forall t e p e1, extrapolate t e = Ok (p, e1) ->
  e_queue e1 = e_queue e /\ e_queue e <> [] /\ snd (e_cache e1) = p /\
  (e_cache e1 = e_cache e \/ e_cache e1 = (t, p)) /\
  (e_cache e1 = e_cache e -> t_ne (fst (e_cache e)) t = Ok false \/ e_cache e1 = (t, p)).
Proof.
  intros t e p e1 H. unfold ExtrapModel.extrapolate in H.
  destruct (back (e_queue e)) as [[tl pl]|] eqn:Eb; [|discriminate].
  assert (e_queue e <> []) as Hne by (intros K; rewrite K in Eb; discriminate).
  ib H. ib H. destruct (negb a0) eqn:En.
  - injection H as <- <-. split; [reflexivity|]. split; [exact Hne|]. split; [reflexivity|].
    split; [auto|]. intros _. left. destruct a0; [discriminate|exact E0].
  - ib H. destruct (e_mode e) eqn:Em.
    + destruct (e_xtr e); [|discriminate]. destruct (e_tr e) eqn:Et; [|discriminate]. ib H. ib H.
      injection H as <- <-. cbn. auto 8.
    + injection H as <- <-. cbn. auto 8.
Qed.

(** A query at the same time returns the cached answer. *)
Lemma repeat_query : forall t e p e1 ops e2 tl pl, normal t -> normal (fst (e_cache e)) ->
  extrapolate t e = Ok (p, e1) -> Forall (fun o => ~ is_query o) ops ->
  run estep e1 ops = Ok e2 -> back (e_queue e2) = Some (tl, pl) -> normal tl -> elapsed tl <= elapsed t ->
  extrapolate t e2 = Ok (p, e2).
Proof.
  intros t e p e1 ops e2 tl pl Ht Hc H Hf Hr Hb Hl Hle.
  destruct (query_cache _ _ _ _ H) as (Q1 & Q2 & Q3 & Q4 & Q5).
  destruct (cache_run ops e1 e2 Hf ltac:(congruence) Hr) as [C1 C2].
  unfold ExtrapModel.extrapolate. rewrite Hb. rewrite ge_el by assumption.
  replace (elapsed tl <=? elapsed t) with true by (symmetry; apply Z.leb_le; exact Hle). cbn [check bind].
  assert (t_ne (fst (e_cache e2)) t = Ok false) as ->.
  { rewrite C1. destruct Q4 as [K|K].
    - destruct (Q5 K) as [K2|K2]; [rewrite K; exact K2|]. rewrite K2. cbn.
      rewrite t_ne_spec by (apply normal_rep; assumption). do 2 f_equal. lia.
    - rewrite K. cbn. rewrite t_ne_spec by (apply normal_rep; assumption). do 2 f_equal. lia. }
  cbn [bind negb]. rewrite C1, Q3. reflexivity.
Qed.

(** ** CTRV mode never fails *)
Lemma ctrv_step : forall e o last, e_mode e = CTRV -> normal (e_dur e) ->
  Forall (fun x => normal (fst x)) (e_queue e) -> normal (fst (e_cache e)) ->
  last_time (e_queue e) = last -> normal (op_time o) -> well_timed last [o] ->
  exists e', estep e o = Ok e' /\ e_mode e' = CTRV /\ e_dur e' = e_dur e /\
    Forall (fun x => normal (fst x)) (e_queue e') /\ normal (fst (e_cache e')) /\
    last_time (e_queue e') = match o with EPose t _ => Some t | _ => last end.
Proof.
  intros e o last Hm Hd Hq Hc Hl Ht Hw. destruct o as [t p|t i|t]; cbn [op_time] in Ht.
  - cbn [ExtrapModel.estep]. unfold ExtrapModel.add_pose.
    destruct (e_queue e) as [|x q0] eqn:Eq.
    + eexists. split; [reflexivity|]. cbn. do 3 (split; [auto|]). split; [exact Ht|reflexivity].
    + destruct (sub_el t (e_dur e) Ht Hd) as (lim & L1 & L2 & L3). rewrite L1. cbn [bind].
      set (q := (x :: q0) ++ [(t, p)]) in *.
      destruct (trim_spec (length q) lim q (Nat.le_refl _)) as (d & D1 & D2 & D3).
      set (q' := trim_poses Pz (length q) lim q) in *.
      assert (Forall (fun x => normal (fst x)) q) as Hnq.
      { unfold q. apply Forall_app. split; [exact Hq|]. constructor; [exact Ht|constructor]. }
      assert (Forall (fun x => normal (fst x)) q') as Hnq'.
      { rewrite D1 in Hnq. apply Forall_app in Hnq. tauto. }
      assert (q' <> []) as Hne.
      { intros K. destruct d as [|y d]; [rewrite K in D1; subst q; discriminate|].
        destruct (D2 ltac:(discriminate)) as (K1 & _). rewrite K in K1. cbn in K1. lia. }
      assert (back q' = Some (t, p)) as Hb.
      { rewrite <- (back_app _ d q' Hne), <- D1. unfold q. apply back_last. }
      assert (exists v, update_velocity Pz V I velocity shorter e q' = Ok v) as (v & ->).
      { unfold update_velocity. destruct q' as [|f [|g r]] eqn:Eq'; try (eexists; reflexivity).
        rewrite Hb. cbn [fst]. destruct (sub_el t (fst f)) as (c & C1 & _); [exact Ht| |].
        - inversion Hnq'; assumption.
        - rewrite C1. cbn [bind]. destruct (shorter c (e_dur e)); eexists; reflexivity. }
      cbn [bind]. rewrite Hm. eexists. split; [reflexivity|].
      cbn [e_mode e_dur e_queue e_cache]. do 2 (split; [auto|]).
      split; [exact Hnq'|]. split; [exact Hc|]. unfold last_time. rewrite Hb. reflexivity.
  - cbn [ExtrapModel.estep]. unfold ExtrapModel.add_imu. rewrite Hm. exists e. auto 8.
  - cbn in Hw. destruct Hw as [(l & -> & Hle) _]. unfold last_time in Hl.
    cbn [ExtrapModel.estep]. unfold ExtrapModel.extrapolate.
    destruct (back (e_queue e)) as [[tl pl]|] eqn:Eb; [|discriminate]. cbn in Hl. injection Hl as ->.
    assert (normal l) as Hnl.
    { rewrite Forall_forall in Hq. apply (Hq (l, pl)). unfold back in Eb. eapply nth_error_In. exact Eb. }
    rewrite ge_el by assumption. replace (elapsed l <=? elapsed t) with true by (symmetry; apply Z.leb_le; exact Hle).
    cbn [check bind]. rewrite t_ne_spec by (apply normal_rep; assumption). cbn [bind].
    rewrite negb_involutive. destruct (Z.abs _ <=? 1); cbn [bind snd].
    + exists e. unfold last_time. rewrite Eb. auto 8.
    + destruct (sub_el t l Ht Hnl) as (c & C1 & _). rewrite C1. cbn [bind]. rewrite Hm. cbn [bind snd].
      eexists. split; [reflexivity|]. cbn. unfold last_time. rewrite Eb. auto 8.
Qed.
Lemma well_timed_cons : forall last (o : op) ops, well_timed last (o :: ops) ->
  well_timed last [o] /\ well_timed (match o with EPose t _ => Some t | _ => last end) ops.
Proof. intros last [t p|t i|t] ops H; cbn in *; tauto. Qed.
Lemma ctrv_run : forall ops e last, e_mode e = CTRV -> normal (e_dur e) ->
  Forall (fun x => normal (fst x)) (e_queue e) -> normal (fst (e_cache e)) ->
  last_time (e_queue e) = last -> Forall (fun o => normal (op_time o)) ops -> well_timed last ops ->
  exists e', run estep e ops = Ok e'.
Proof.
  induction ops as [|o ops IH]; intros e last H1 H2 H3 H4 H5 H6 H7; [eexists; reflexivity|].
  inversion H6; subst. apply well_timed_cons in H7. destruct H7 as [W1 W2].
  destruct (ctrv_step e o _ H1 H2 H3 H4 eq_refl H8 W1) as (e' & E & F1 & F2 & F3 & F4 & F5).
  cbn [run]. rewrite E. cbn [bind]. eapply IH; try eassumption. rewrite F2. exact H2.
Qed.

(** ** IMU mode *)
Lemma advance_time : forall t k k', advance V I t k = Ok k' -> tr_time k' = t /\ used k' = used k.
Proof.
  intros t k k' H. unfold advance in H. ib H. injection H as <-. split; [reflexivity|].
  unfold used. cbn. rewrite flat_map_app. cbn. apply app_nil_r.
Qed.
Lemma acc_time : forall o k k', add_acc V I grav_ok o k = Ok k' -> tr_time k' = tr_time k /\
  used k' = used k ++ match o with OImu _ _ i => [i] | _ => [] end.
Proof.
  intros o k k' H. unfold add_acc in H. ib H. injection H as <-. split; [reflexivity|].
  unfold used. cbn. rewrite flat_map_app. cbn. rewrite app_nil_r. reflexivity.
Qed.
Lemma gyr_used : forall o k, tr_time (add_gyr V I o k) = tr_time k /\ used (add_gyr V I o k) = used k.
Proof.
  intros o k. split; [reflexivity|]. unfold used. cbn. rewrite flat_map_app. cbn. apply app_nil_r.
Qed.
Definition lt_before (t : time) (l : list (time * I)) : list (time * I) :=
  filter (fun x => elapsed (fst x) <? elapsed t) l.
Lemma feed_spec : forall t d k k', normal t -> Forall (fun x => normal (fst x)) d -> ordered d ->
  feed V I grav_ok t d k = Ok k' -> used k' = used k ++ map snd (lt_before t d).
Proof.
  induction d as [|[s i] d IH]; intros k k' Ht Hn Ho H; cbn [feed] in H.
  - injection H as <-. cbn. rewrite app_nil_r. reflexivity.
  - inversion Hn; subst. cbn [fst] in *. destruct Ho as [O1 O2]. unfold lt_before. cbn [filter fst].
    rewrite lt_el in H by assumption. destruct (elapsed s <? elapsed t) eqn:E.
    + ib H. ib H. apply IH in H; [|assumption..]. rewrite H.
      destruct (gyr_used (OImu V I i) a0) as [_ ->]. apply acc_time in E1. destruct E1 as [_ ->].
      apply advance_time in E0. destruct E0 as [_ ->]. rewrite <- app_assoc. reflexivity.
    + injection H as <-. assert (filter (fun x : time * I => elapsed (fst x) <? elapsed t) d = []) as ->.
      { clear - O1 E. apply Z.ltb_ge in E. induction d as [|y d IH]; [reflexivity|]. cbn.
        specialize (O1 y (or_introl eq_refl)) as K. cbn in K. destruct (Z.ltb_spec (elapsed (fst y)) (elapsed t)); [lia|].
        apply IH. intros b Hb. apply O1. right. exact Hb. }
      rewrite app_nil_r. reflexivity.
Qed.
Lemma lower_filter : forall t d, normal t -> Forall (fun x => normal (fst x)) d -> ordered d ->
  lower_bound I t d = filter (fun x => elapsed t <=? elapsed (fst x)) d /\
  Forall (fun x => normal (fst x)) (lower_bound I t d) /\ ordered (lower_bound I t d).
Proof.
  induction d as [|[s i] d IH]; intros Ht Hn Ho; [cbn; auto|].
  inversion Hn; subst. cbn [fst] in *. destruct Ho as [O1 O2]. cbn [lower_bound filter fst].
  rewrite lt_el by assumption. destruct (Z.ltb_spec (elapsed s) (elapsed t)).
  - destruct (Z.leb_spec (elapsed t) (elapsed s)); [lia|]. apply IH; assumption.
  - destruct (Z.leb_spec (elapsed t) (elapsed s)); [|lia]. split; [|split; [exact Hn|split; assumption]].
    f_equal. symmetry. clear - O1 H. induction d as [|y d IH]; [reflexivity|]. cbn.
    specialize (O1 y (or_introl eq_refl)) as K. cbn in K. destruct (Z.leb_spec (elapsed t) (elapsed (fst y))); [|lia].
    f_equal. apply IH. intros b Hb. apply O1. right. exact Hb.
Qed.
Lemma filter_true_and : forall A (f g : A -> bool) l, filter (fun x => f x && g x) l = filter g (filter f l).
Proof.
  induction l as [|a l IH]; [reflexivity|]. cbn. destruct (f a); cbn; [destruct (g a); congruence|exact IH].
Qed.
Lemma filter_false : forall A (f : A -> bool) l, (forall x, In x l -> f x = false) -> filter f l = [].
Proof.
  induction l as [|a l IH]; intros H; [reflexivity|]. cbn. rewrite H by (left; reflexivity).
  apply IH. intros x Hx. apply H. right. exact Hx.
Qed.
Lemma advance_tracker_spec : forall imu v t k k', normal t -> normal (tr_time k) ->
  Forall (fun x => normal (fst x)) imu -> ordered imu ->
  advance_tracker imu v t k = Ok k' ->
  tr_time k' = t /\ elapsed (tr_time k) <= elapsed t /\
  used k' = used k ++ map snd (filter (fun x => (elapsed (tr_time k) <=? elapsed (fst x)) && (elapsed (fst x) <? elapsed t)) imu).
Proof.
  intros imu v t k k' Ht Hk Hn Ho H. unfold ExtrapModel.advance_tracker in H. ib H. apply check_Ok in E.
  rewrite ge_el in E by assumption. apply Z.leb_le in E.
  assert (forall s : time, (let* k1 := advance V I t k in let* k2 := add_acc V I grav_ok (OLevel V I v) k1 in
      Ok (add_gyr V I (OLevel V I v) k2)) = Ok k' -> tr_time k' = t /\ used k' = used k) as Hfake.
  { intros _ K. ib K. ib K. injection K as <-. destruct (gyr_used (OLevel V I v) a1) as [-> ->].
    apply acc_time in E1. destruct E1 as [-> ->]. apply advance_time in E0. destruct E0 as [-> ->].
    rewrite app_nil_r. auto. }
  destruct imu as [|[s0 i0] r].
  - destruct (Hfake t H) as [F1 F2]. cbn. rewrite app_nil_r. auto.
  - rewrite lt_el in H by (try assumption; inversion Hn; assumption).
    destruct (Z.ltb_spec (elapsed t) (elapsed s0)) as [L|L].
    + destruct (Hfake t H) as [F1 F2]. split; [exact F1|]. split; [exact E|]. rewrite F2.
      rewrite filter_false; [cbn; rewrite app_nil_r; reflexivity|].
      intros x Hx. destruct Ho as [O1 O2]. assert (elapsed s0 <= elapsed (fst x)).
      { destruct Hx as [<-|Hx]; [cbn; lia|]. apply (O1 x Hx). }
      apply andb_false_iff. right. apply Z.ltb_ge. lia.
    + ib H. ib H. apply advance_time in H. destruct H as [H1 H2]. split; [exact H1|]. split; [exact E|].
      rewrite H2. rewrite lt_el in E0 by (try assumption; inversion Hn; assumption).
      set (imu := (s0, i0) :: r) in *.
      assert (exists m, tr_time a0 = m /\ normal m /\ used a0 = used k /\
        (m = tr_time k \/ (elapsed (tr_time k) < elapsed s0 /\ m = s0))) as (m & M1 & M2 & M3 & M4).
      { destruct (Z.ltb_spec (elapsed (tr_time k)) (elapsed s0)) as [L2|L2].
        - apply advance_time in E0. destruct E0 as [A1 A2]. exists s0. split; [exact A1|].
          split; [inversion Hn; assumption|]. auto.
        - injection E0 as <-. exists (tr_time k). auto. }
      rewrite M1 in E1. destruct (lower_filter m imu M2 Hn Ho) as (LF & LN & LO).
      apply feed_spec in E1; [|assumption..]. rewrite E1, M3, LF. f_equal. f_equal.
      unfold lt_before. rewrite <- (filter_true_and _ _ _ imu). apply filter_ext_in. intros x Hx.
      assert (elapsed s0 <= elapsed (fst x)).
      { destruct Ho as [O1 O2]. destruct Hx as [<-|Hx]; [cbn; lia|]. apply (O1 x Hx). }
      destruct M4 as [->|[M4 ->]]; [reflexivity|].
      destruct (Z.leb_spec (elapsed s0) (elapsed (fst x))); [|lia].
      destruct (Z.leb_spec (elapsed (tr_time k)) (elapsed (fst x))); [reflexivity|lia].
Qed.

Lemma strict_app : forall A (l1 l2 : list (time * A)), strictly_ordered (l1 ++ l2) ->
  strictly_ordered l1 /\ strictly_ordered l2 /\
  forall a b, In a l1 -> In b l2 -> elapsed (fst a) < elapsed (fst b).
Proof.
  induction l1 as [|x l IH]; intros l2 H; cbn in *; [split; [exact Logic.I|split; [exact H|intros a b []]]|]. destruct H as [H1 H2].
  destruct (IH _ H2) as (I1 & I2 & I3). split; [split; [|exact I1]|split; [exact I2|]].
  - intros b Hb. apply H1. apply in_or_app. auto.
  - intros a b [<-|Ha] Hb; [apply H1; apply in_or_app; auto|auto].
Qed.
Lemma strict_ordered : forall A (l : list (time * A)), strictly_ordered l -> ordered l.
Proof.
  induction l as [|x l IH]; intros H; cbn in *; [auto|]. destruct H as [H1 H2]. split; [|auto].
  intros b Hb. specialize (H1 b Hb). lia.
Qed.
Lemma trim_imu_spec : forall t d, normal t -> Forall (fun x => normal (fst x)) d -> strictly_ordered d -> d <> [] ->
  exists dr, d = dr ++ trim_imu I (Some t) d /\ trim_imu I (Some t) d <> [] /\
    (forall x, In x dr -> elapsed (fst x) < elapsed t) /\
    (forall a b r, trim_imu I (Some t) d = a :: b :: r -> elapsed t < elapsed (fst b)).
Proof.
  induction d as [|a d IH]; intros Ht Hn Ho Hne; [congruence|]. clear Hne.
  inversion Hn; subst. destruct Ho as [O1 O2]. cbn [trim_imu]. destruct d as [|b r].
  - exists []. split; [reflexivity|]. split; [discriminate|]. split; [intros x []|discriminate].
  - rewrite le_el by (try assumption; inversion H2; assumption).
    destruct (Z.leb_spec (elapsed (fst b)) (elapsed t)).
    + destruct (IH Ht H2 O2 ltac:(discriminate)) as (dr & D1 & D2 & D3 & D4).
      exists (a :: dr). split; [cbn [app]; rewrite <- D1; reflexivity|]. split; [exact D2|]. split; [|exact D4].
      intros x [<-|Hx]; [|auto]. specialize (O1 b (or_introl eq_refl)). lia.
    + exists []. split; [reflexivity|]. split; [discriminate|]. split; [intros x []|].
      intros a' b' r' K. injection K as <- <- <-. exact H.
Qed.
Lemma lt_before_split : forall a b (l : list (time * I)), ordered l -> elapsed a <= elapsed b ->
  lt_before b l = lt_before a l ++ filter (fun x => (elapsed a <=? elapsed (fst x)) && (elapsed (fst x) <? elapsed b)) l.
Proof.
  intros a b l. induction l as [|x l IH]; intros Ho Hab; [reflexivity|]. destruct Ho as [O1 O2].
  unfold lt_before in *. cbn [filter].
  destruct (Z.ltb_spec (elapsed (fst x)) (elapsed a)).
  - destruct (Z.ltb_spec (elapsed (fst x)) (elapsed b)); [|lia].
    destruct (Z.leb_spec (elapsed a) (elapsed (fst x))); [lia|]. cbn. rewrite IH by assumption. reflexivity.
  - destruct (Z.leb_spec (elapsed a) (elapsed (fst x))); [|lia]. cbn [andb].
    rewrite IH by assumption.
    assert (filter (fun y : time * I => elapsed (fst y) <? elapsed a) l = []) as ->.
    { apply filter_false. intros y Hy. specialize (O1 y Hy). apply Z.ltb_ge. lia. }
    destruct (elapsed (fst x) <? elapsed b); reflexivity.
Qed.

Definition imu_inv (i0 : I) (all : list (time * I)) (e : ext) : Prop :=
  e_mode e = WithImu /\ e_queue e <> [] /\ normal (e_dur e) /\
  exists T p k d, back (e_queue e) = Some (T, p) /\ normal T /\ e_tr e = Some k /\ tr_time k = T /\
    used k = i0 :: map snd (lt_before T all) /\ all = d ++ e_imu e /\ e_imu e <> [] /\
    (forall x, In x d -> elapsed (fst x) < elapsed T) /\
    (forall a b r, e_imu e = a :: b :: r -> elapsed T < elapsed (fst b)).

Lemma query_imu : forall e t e', estep e (EQuery t) = Ok e' -> e_imu e' = e_imu e.
Proof.
  intros e t e' H. cbn [ExtrapModel.estep] in H. ib H. injection H as <-. destruct a as [p e1]. cbn.
  unfold ExtrapModel.extrapolate in E. destruct (back (e_queue e)) as [[tl pl]|]; [|discriminate]. ib E. ib E.
  destruct (negb a0); [injection E as <- <-; auto|]. ib E. destruct (e_mode e).
  - destruct (e_xtr e); [|discriminate]. destruct (e_tr e); [|discriminate]. ib E. ib E. injection E as <- <-. reflexivity.
  - injection E as <- <-. reflexivity.
Qed.

Lemma imu_step : forall i0 all e o e', imu_inv i0 all e -> normal (op_time o) ->
  Forall (fun x => normal (fst x)) (all ++ imus [o]) -> strictly_ordered (all ++ imus [o]) ->
  estep e o = Ok e' -> imu_inv i0 (all ++ imus [o]) e'.
Proof.
  intros i0 all e o e' (Hm & Hq & Hd & T & p0 & k & d & B & HT & Hk & Kt & Ku & A1 & A2 & A3 & A4) Ht Hn Ho H.
  destruct o as [t p|t i|t]; cbn [op_time] in Ht.
  - cbn [imus flat_map app] in *. rewrite app_nil_r in *.
    cbn [ExtrapModel.estep] in H. pose proof (add_pose_queue _ _ _ _ Ht Hd H) as (Q1 & Q2 & d' & _ & Q3 & Q4 & _).
    assert (Forall (fun x => normal (fst x)) (e_imu e) /\ strictly_ordered (e_imu e)) as [Hni Hoi].
    { rewrite A1 in Hn, Ho. apply Forall_app in Hn. apply strict_app in Ho. tauto. }
    split; [congruence|]. split; [exact Q3|]. split; [congruence|].
    assert (exists k1 v, advance_tracker (e_imu e) v t k = Ok k1 /\ e_tr e' = Some k1 /\
              e_imu e' = trim_imu I (Some t) (e_imu e)) as (k1 & v & K1 & K2 & K3).
    { unfold ExtrapModel.add_pose in H. destruct (e_queue e) as [|x q0]; [congruence|].
      ib H. ib H. rewrite Hm, Hk in H. ib H.
      assert (e_queue e' = trim_poses Pz (length ((x :: q0) ++ [(t, p)])) a ((x :: q0) ++ [(t, p)])) as Eq
        by (injection H as <-; reflexivity).
      rewrite <- Eq in H. unfold last_time in H. rewrite Q4 in H. cbn [option_map fst] in H.
      exists a1, a0. split; [exact E1|].
      assert (e_tr e' = Some a1 /\ e_imu e' = trim_imu I (Some t) (e_imu e)); [|tauto].
      rewrite <- (f_equal (fun x => match x with Ok y => e_tr y | _ => None end) H).
      rewrite <- (f_equal (fun x => match x with Ok y => e_imu y | _ => [] end) H). split; reflexivity. }
    apply advance_tracker_spec in K1; [|assumption|congruence|assumption|apply strict_ordered; assumption].
    destruct K1 as (T1 & T2 & T3). rewrite Kt in *.
    destruct (trim_imu_spec t (e_imu e) Ht Hni Hoi A2) as (dr & D1 & D2 & D3 & D4).
    exists t, p, k1, (d ++ dr). rewrite K3. split; [exact Q4|]. split; [exact Ht|]. split; [exact K2|].
    split; [exact T1|]. split; [|split; [rewrite <- app_assoc, <- D1; exact A1|split; [exact D2|split; [|exact D4]]]].
    + rewrite T3, Ku. rewrite (lt_before_split T t) by (try assumption; apply strict_ordered; assumption).
      rewrite map_app. cbn [app]. do 3 f_equal. rewrite A1 at 1. rewrite filter_app.
      rewrite (filter_false _ _ d); [reflexivity|]. intros x Hx. specialize (A3 x Hx).
      apply andb_false_iff. left. apply Z.leb_gt. exact A3.
    + intros x Hx. apply in_app_or in Hx. destruct Hx as [Hx|Hx]; [specialize (A3 x Hx); lia|auto].
  - cbn [imus flat_map app] in *. cbn [ExtrapModel.estep] in H. unfold ExtrapModel.add_imu in H. rewrite Hm in H.
    ib H. apply check_Ok in E. unfold last_time in *. rewrite B in *. cbn [option_map fst] in *.
    rewrite ge_el in E by assumption. apply Z.leb_le in E.
    assert (Forall (fun x => normal (fst x)) (e_imu e ++ [(t, i)]) /\ strictly_ordered (e_imu e ++ [(t, i)])) as [Hni Hoi].
    { rewrite A1 in Hn, Ho. rewrite <- app_assoc in *. apply Forall_app in Hn. apply strict_app in Ho. tauto. }
    destruct (trim_imu_spec T _ HT Hni Hoi ltac:(destruct (e_imu e); discriminate)) as (dr & D1 & D2 & D3 & D4).
    set (tri := trim_imu I (Some T) (e_imu e ++ [(t, i)])) in *.
    injection H as <-. unfold imu_inv. cbn [e_mode e_queue e_dur e_tr e_imu].
    split; [first [exact Hm|reflexivity]|]. split; [exact Hq|]. split; [exact Hd|].
    exists T, p0, k, (d ++ dr).
    split; [exact B|]. split; [exact HT|]. split; [exact Hk|]. split; [exact Kt|].
    split; [|split; [rewrite A1, <- !app_assoc; f_equal; exact D1|split; [exact D2|split; [|exact D4]]]].
    + rewrite Ku. unfold lt_before. rewrite filter_app. cbn [filter fst].
      destruct (Z.ltb_spec (elapsed t) (elapsed T)); [lia|]. rewrite app_nil_r. reflexivity.
    + intros x Hx. apply in_app_or in Hx. destruct Hx as [Hx|Hx]; auto.
  - cbn [imus flat_map app] in *. rewrite app_nil_r in *. pose proof (query_imu _ _ _ H) as Hi.
    apply estep_other in H; [|discriminate]. destruct H as (H1 & H2 & H3 & _ & H5).
    split; [congruence|]. split; [congruence|]. split; [congruence|].
    exists T, p0, k, d. rewrite H1, H5, Hi. auto 12.
Qed.
Lemma imu_run : forall ops i0 all e e', imu_inv i0 all e -> Forall (fun o => normal (op_time o)) ops ->
  Forall (fun x => normal (fst x)) (all ++ imus ops) -> strictly_ordered (all ++ imus ops) ->
  run estep e ops = Ok e' -> imu_inv i0 (all ++ imus ops) e'.
Proof.
  induction ops as [|o ops IH]; intros i0 all e e' Hi Ht Hn Ho H; cbn [run] in H.
  - injection H as <-. cbn. rewrite app_nil_r. exact Hi.
  - ib H. inversion Ht; subst. rewrite imus_cons, app_assoc in *. eapply IH; try eassumption.
    eapply imu_step; try eassumption.
    + apply Forall_app in Hn. tauto.
    + apply strict_app in Ho. tauto.
Qed.
Lemma initialize_inv : forall d s i e, normal d -> normal s -> initialize d s i = Ok e ->
  imu_inv i [(s, i)] e /\ e_xtr e = None /\ e_cache e = (s, init_pose (match e_tr e with Some k => k | None => mkTr s [] end)) /\
  exists p, e_queue e = [(s, p)].
Proof.
  intros d s i e Hd Hs H. unfold initialize_with_imu in H. cbn in H. ib H. ib H.
  injection H as <-. cbn. apply acc_time in E. apply advance_time in E0.
  destruct (gyr_used (OImu V I i) a) as [G1 G2]. destruct E as [F1 F2]. destruct E0 as [F3 F4].
  split; [|split; [reflexivity|split; [reflexivity|eexists; reflexivity]]].
  split; [reflexivity|]. split; [discriminate|]. split; [exact Hd|].
  exists s, (init_pose a0), a0, []. split; [reflexivity|]. split; [exact Hs|]. split; [reflexivity|].
  split; [exact F3|]. split; [|split; [reflexivity|split; [discriminate|split; [intros x []|discriminate]]]].
  rewrite F4, G2, F2. cbn. rewrite Z.ltb_irrefl. reflexivity.
Qed.
End Ext.
