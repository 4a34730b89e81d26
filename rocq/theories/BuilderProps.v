(** Properties C38, C39, C40, C77, C78, C79: the threads of the map builder. *)
From Coq Require Import List Bool ZArith Lia.
From Verif Require Import Outcome BuilderModel BuilderSpec BuilderProofs BuilderLive.
Import ListNotations.
Local Open Scope nat_scope.

Section Props.
Variables cloud frame smst : Type.
Variable sm_init : smst.
Variable sm_step : smst -> cloud -> smst * option frame.
Variable fc : Z.
Notation breach := (BuilderModel.breach cloud frame smst sm_init sm_step fc false).
Notation breach_swapped := (BuilderModel.breach cloud frame smst sm_init sm_step fc true).
Notation n := (Z.to_nat fc).

Lemma built_map : forall {A} (T : list A) h, (h = [] \/ h = [None]) -> built (map Some T ++ h) = T.
Proof.
  intros A T h H. unfold built. rewrite flat_map_app.
  replace (flat_map _ h) with (@nil A) by (destruct H as [-> | ->]; reflexivity). rewrite app_nil_r.
  induction T; cbn; [reflexivity|]. f_equal. assumption.
Qed.
Lemma groups : forall {A} m (T : list (list A)) k g r, Forall (fun x => length x = m) T -> nth_error T k = Some g ->
  group m k (concat T ++ r) = g.
Proof.
  intros A m T k g r H. revert k. unfold group. induction H as [|x T Hx HT IH]; intros k E; [destruct k; discriminate|].
  destruct k as [|k]; cbn [nth_error concat Nat.mul skipn] in *.
  - injection E as <-. rewrite <- app_assoc, firstn_app, Hx, Nat.sub_diag, firstn_all2 by lia. cbn. apply app_nil_r.
  - rewrite <- app_assoc, skipn_app, Hx. rewrite skipn_all2 by lia. cbn. replace (m + k * m - m) with (k * m) by lia.
    apply IH. exact E.
Qed.
Lemma prefix_app : forall {A} i (F X : list A), firstn i F = X -> F = X ++ skipn i F.
Proof. intros A i F X <-. symmetry. apply firstn_skipn. Qed.

(** For every schedule: the frames are the key frames of the clouds handed to scan matching,
    in order; submap [k] consists of exactly the frames [k*n .. k*n+n-1]; every frame used by
    a submap exists (so an incomplete group never becomes a submap). *)
Theorem C38_groups : forall s, (0 < fc < 2 ^ 31)%Z -> breach (Next s) ->
  (exists done more, tkn (co s) = done ++ more /\ length more <= 1 /\
     (built (frames (sc s)) = key_frames sm_step sm_init done \/
      built (frames (sc s)) = removelast (key_frames sm_step sm_init done)) /\
     (spc (sc s) = SEnd -> more = [] /\ built (frames (sc s)) = key_frames sm_step sm_init done)) /\
  (forall k g, nth_error (built (traj (su s))) k = Some g -> length g = n /\ group n k (built (frames (sc s))) = g) /\
  n * length (built (traj (su s))) <= length (built (frames (sc s))).
Proof.
  intros s Hfc R. pose proof (inv_reach _ _ _ _ _ _ _ Hfc _ R) as (I1 & I2 & I3 & _).
  assert (exists F h, frames (sc s) = map Some F ++ h /\ (h = [] \/ h = [None]) /\
    exists done more, tkn (co s) = done ++ more /\ length more <= 1 /\
      (F = key_frames sm_step sm_init done \/ F = removelast (key_frames sm_step sm_init done)) /\
      (spc (sc s) = SEnd -> more = [] /\ F = key_frames sm_step sm_init done)) as (F & h & F1 & F2 & d & m & D1 & D2 & D3 & D4).
  { unfold inv2 in I2.
    assert ((exists F, smrun cloud frame smst sm_step sm_init (tkn (co s)) = (sst (sc s), F) /\ frames (sc s) = map Some F) ->
      exists F h, frames (sc s) = map Some F ++ h /\ (h = [] \/ h = [None]) /\
      exists done more, tkn (co s) = done ++ more /\ length more <= 1 /\
        (F = key_frames sm_step sm_init done \/ F = removelast (key_frames sm_step sm_init done)) /\
        (spc (sc s) = SEnd -> more = [] /\ F = key_frames sm_step sm_init done)) as Plain.
    { intros (F & E1 & E2). exists F, []. rewrite app_nil_r. split; [exact E2|]. split; [auto|].
      exists (tkn (co s)), []. rewrite app_nil_r. split; [reflexivity|]. split; [cbn; lia|].
      rewrite <- (smrun_keys _ _ _ sm_step), E1. cbn. auto. }
    destruct (spc (sc s)) eqn:Es; try (apply Plain; exact I2).
    - destruct I2 as (t & F & T1 & T2 & T3). exists F, []. rewrite app_nil_r. split; [exact T3|]. split; [auto|].
      exists t, [c]. split; [exact T1|]. split; [cbn; lia|]. rewrite <- (smrun_keys _ _ _ sm_step), T2. cbn. split; [auto|discriminate].
    - destruct I2 as (F & T1 & T2). exists F, [None]. split; [exact T2|]. split; [auto|].
      exists (tkn (co s)), []. rewrite app_nil_r. split; [reflexivity|]. split; [cbn; lia|].
      rewrite <- (smrun_keys _ _ _ sm_step), T1. cbn. rewrite removelast_last. split; [auto|discriminate]. }
  rewrite F1, (built_map F h F2). split; [exists d, m; auto|].
  destruct I3 as (T & J1 & J2 & J3 & J4 & _).
  assert (half cloud frame smst s = [] \/ half cloud frame smst s = [None]) as Hh by (unfold half; destruct (mpc (su s)); auto).
  rewrite J1, (built_map T _ Hh).
  assert (firstn (idx (su s)) F = concat T ++ incur cloud frame smst s) as HF.
  { rewrite F1 in J3.
    assert (length (concat T ++ incur cloud frame smst s) = idx (su s)) as Hl by (rewrite app_length, (concat_len n) by assumption; lia).
    assert (idx (su s) <= length F) as Hle.
    { destruct F2 as [-> | ->]; [|eapply firstn_half; [exact J3|exact Hl]].
      rewrite app_nil_r in J3. apply (f_equal (@length _)) in J3. rewrite firstn_length, !map_length, Hl in J3. lia. }
    rewrite firstn_app_le, firstn_map in J3 by (rewrite map_length; exact Hle).
    revert J3. generalize (firstn (idx (su s)) F) (concat T ++ incur cloud frame smst s). clear.
    induction l as [|a l IH]; intros [|b r] E; try discriminate; [reflexivity|]. injection E as -> E. f_equal. apply IH. exact E. }
  split.
  - intros k g E. split; [rewrite Forall_forall in J2; apply J2; eapply nth_error_In; exact E|].
    rewrite (prefix_app _ _ _ HF), <- app_assoc. apply groups; assumption.
  - apply (f_equal (@length _)) in HF. rewrite firstn_length, app_length, (concat_len n) in HF by assumption. lia.
Qed.

(** Nothing is lost in the collector. *)
Theorem C40_collector_keeps_clouds : forall s, (0 < fc < 2 ^ 31)%Z -> breach (Next s) ->
  ins (co s) = tkn (co s) ++ out (co s) ++ held (hold (co s)) ++ raw (co s).
Proof. intros s Hfc R. exact (proj1 (inv_reach _ _ _ _ _ _ _ Hfc _ R)). Qed.

(** With the flag read before the size no complete group is lost. *)
Theorem C39_swapped_reads : forall s, (0 < fc < 2 ^ 31)%Z -> breach_swapped (Next s) -> ap s = ADone ->
  (Z.of_nat (length (frames (sc s))) < 2 ^ 64)%Z ->
  length (frames (sc s)) < n * S (length (traj (su s))).
Proof.
  intros s Hfc R E Hb. pose proof (inv_reach _ _ _ _ _ _ _ Hfc _ R) as (_ & I2 & I3 & _ & _ & I6).
  pose proof (inv7_reach _ _ _ _ _ _ _ Hfc eq_refl _ R) as I7. cbn in I7. unfold inv7 in I7.
  destruct I6 as (_ & _ & _ & _ & _ & _ & _ & _ & _ & I10 & _). rewrite (I10 E) in I7. destruct I7 as [_ I7].
  destruct I3 as (T & J1 & J2 & J3 & J4 & _). unfold half, incur in *. rewrite (I10 E) in *. cbn [length] in J4.
  rewrite app_nil_r in J1. rewrite J1, map_length.
  apply too_few_true in I7; [lia|exact Hfc| |exact Hb].
  eapply firstn_some_le; [exact J3|]. rewrite app_nil_r, (concat_len n) by assumption. lia.
Qed.

(** The only failure of the threads: the submap thread reads a frame the scan-match thread
    is still inserting. *)
Theorem C77_crashes : forall o, (0 < fc < 2 ^ 31)%Z -> breach (Crash o) ->
  o = UB /\ exists s i f, breach (Next s) /\ mpc (su s) = MBuild (S i) /\
     nth_error (frames (sc s)) (idx (su s)) = Some None /\ spc (sc s) = SPush f.
Proof.
  intros o Hfc R. inversion R as [|s r Rs Hs]; subst.
  pose proof (inv_reach _ _ _ _ _ _ _ Hfc _ Rs) as (_ & I2 & I3 & K & I5 & I6).
  destruct (crash_step _ _ _ _ _ _ _ Hfc s o I2 I3 K I5 I6 Hs) as (E & i & f & H). split; [exact E|]. exists s, i, f. auto.
Qed.

(** Submaps are handed to the optimizer in order, each once, and only existing ones; with a
    single submap none is ever handed over. *)
Theorem C78_connected_in_order : forall s, (0 < fc < 2 ^ 31)%Z -> breach (Next s) ->
  conn (cn s) = [] \/
  exists k, conn (cn s) = seq 0 (S k) /\ k < length (built (traj (su s))) /\ fin (cn s) = k.
Proof.
  intros s Hfc R. pose proof (inv_reach _ _ _ _ _ _ _ Hfc _ R) as (_ & I2 & I3 & K & (F1 & F2 & F3) & I6).
  destruct (tlen_eq _ _ _ _ Hfc s I3) as (T & T1 & T2 & _).
  assert (half cloud frame smst s = [] \/ half cloud frame smst s = [None]) as Hh by (unfold half; destruct (mpc (su s)); auto).
  rewrite T1, (built_map T _ Hh). destruct (firsti (cn s)) eqn:E; [|left; apply F1; reflexivity].
  right. exists (fin (cn s)). destruct (F2 eq_refl) as [X Y]. split; [exact Y|]. split; [lia|reflexivity].
Qed.

Theorem C78_single_submap_unconnected : forall s, (0 < fc < 2 ^ 31)%Z -> breach (Next s) ->
  length (traj (su s)) <= 1 -> conn (cn s) = [].
Proof.
  intros s Hfc R.
  assert (forall r, breach r -> match r with
    | Next s => conn (cn s) <> [] -> 2 <= length (traj (su s)) | Crash _ => True end) as G.
  { intros r Rr. induction Rr as [|s0 r Rr IH Hs]; [cbn; congruence|]. destruct r as [s'|]; [|exact I].
    pose proof (inv_reach _ _ _ _ _ _ _ Hfc _ Rr) as (_ & _ & _ & _ & (F1 & F2 & F3) & _).
    inversion Hs; subst; cbn in *; try exact IH; try (rewrite app_length; cbn; lia).
    - intros C. specialize (IH C). rewrite app_length. cbn. lia.
    - intros C. specialize (IH C). unfold fill. rewrite app_length, removelast_firstn_len, firstn_length. cbn. lia.
    - match goal with E : xpc _ = _ |- _ => rewrite E in F3 end. lia.
    - match goal with E : xpc _ = _ |- _ => rewrite E in F3 end. destruct F3 as (F3 & _). destruct (F2 F3) as [_ F4]. rewrite F4 in IH. intros _. apply IH. discriminate. }
  intros Hl. specialize (G _ R). cbn in G. destruct (conn (cn s)); [reflexivity|]. exfalso.
  assert (2 <= length (traj (su s))) by (apply G; discriminate). lia.
Qed.

(** After FinishAllComputations every submap has been marked as matched. *)
Theorem C79_all_matched : forall s k, (0 < fc < 2 ^ 31)%Z -> breach (Next s) -> ap s = ADone ->
  k < length (traj (su s)) -> matched (cn s) k = true.
Proof.
  intros s k Hfc R E Hk. pose proof (inv_reach _ _ _ _ _ _ _ Hfc _ R) as (_ & I2 & I3 & K & I5 & I6).
  destruct I6 as (_ & _ & _ & _ & _ & I6 & _ & _ & _ & I10 & I11). specialize (I10 E). destruct (I11 I10) as [X P].
  rewrite I10 in I6. destruct K as (K1 & K2 & K3 & K4). unfold enq, tlen, half in *. rewrite I10 in *. cbn [length] in *.
  destruct (Nat.eq_dec (S k) (length (traj (su s)))) as [Ek|Ek].
  - replace k with (length (traj (su s)) - 0 - 1) by lia. apply K4; [exact X|lia].
  - destruct (matched (cn s) k) eqn:Em; [reflexivity|exfalso]. rewrite P in K2.
    apply (K2 (S k)). replace (S k - 1) with k by lia. split; [lia|exact Em].
Qed.

(** FinishAllComputations can always complete: from every reachable state there is a
    continuation in which it returns. *)
Theorem C79_finish_possible : forall s, (0 < fc < 2 ^ 31)%Z -> breach (Next s) ->
  exists s', breach (Next s') /\ ap s' = ADone.
Proof.
  intros s Hfc R. destruct (finish _ _ _ sm_init _ _ Hfc s R) as (s' & S1 & S2). exists s'. split; [|exact S2].
  eapply star_reach; eassumption.
Qed.

(** ** Schedules *)
Notation star := (star cloud frame smst sm_step fc).
Notation bstep := (bstep cloud frame smst sm_step fc false).
Ltac nx S := eapply star_step; [eapply S|].
Definition st0 (m : supc) (x : copc) (c : coll cloud) (k : scan cloud frame smst) (a : apc) (e d : bool) : st cloud frame smst :=
  mkSt c k (mkSub m 0 [] [] d) (mkCon x [] (fun _ => false) 0 false []) a e.
(** the submap thread has seen no frame and is about to look at the running flag; the
    connecting task has seen no submap *)
Definition waiting (c : coll cloud) (k : scan cloud frame smst) := st0 MFlag XFlag c k ARun false false.
Lemma start : (0 < fc < 2 ^ 31)%Z ->
  star (init sm_init) (waiting (mkColl [] None [] [] []) (mkScan SGet sm_init true [])).
Proof.
  intros Hfc. nx SStart; [reflexivity|]. nx AStart; [reflexivity|reflexivity|]. nx MBegin; [reflexivity|].
  nx MFew; [reflexivity|reflexivity| |].
  - unfold too_few. cbn. rewrite Z.mod_small by lia. apply Z.ltb_lt. lia.
  - nx XNothing; [reflexivity|left; reflexivity|]. apply star_refl.
Qed.
Lemma feed : forall l t x F, star (waiting (mkColl [] None [] t t) (mkScan SGet x true (map Some F)))
  (waiting (mkColl [] None [] (t ++ l) (t ++ l))
     (mkScan SGet (fst (smrun cloud frame smst sm_step x l)) true (map Some (F ++ snd (smrun cloud frame smst sm_step x l))))).
Proof.
  induction l as [|c l IH]; intros t x F; cbn [smrun].
  - cbn. rewrite !app_nil_r. apply star_refl.
  - nx (AInsert cloud frame smst sm_step fc false); [reflexivity|reflexivity|].
    nx PTake; [reflexivity|reflexivity|]. nx PPut; [reflexivity|]. nx SGetSome; [reflexivity|reflexivity|]. cbn.
    destruct (sm_step x c) as [x' [f|]] eqn:E.
    + nx SWorkKey; [reflexivity|exact E|]. nx SPushed; [reflexivity|]. cbn -[fill]. rewrite fill_app.
      specialize (IH (t ++ [c]) x' (F ++ [f])). rewrite <- !app_assoc, map_app in IH. cbn in IH.
      destruct (smrun cloud frame smst sm_step x' l) as [y G]. exact IH.
    + nx SWorkNone; [reflexivity|exact E|]. cbn.
      specialize (IH (t ++ [c]) x' F). rewrite <- !app_assoc in IH. cbn in IH.
      destruct (smrun cloud frame smst sm_step x' l) as [y G]. exact IH.
Qed.
Lemma stop : forall c k, out c = [] -> spc k = SGet -> exists s',
  star (waiting c k) s' /\ ap s' = ADone /\ co s' = c /\ frames (sc s') = frames k /\ traj (su s') = [].
Proof.
  intros c k Ho Hs. eexists. split.
  - nx SGetNone; [exact Hs|exact Ho|]. nx AFinish; [reflexivity|]. nx SNullEnd; [reflexivity|reflexivity|].
    nx SExit; [reflexivity|]. nx APoll; [reflexivity|reflexivity|]. nx AJoinScan; [reflexivity|reflexivity|].
    nx MStop; [reflexivity|reflexivity|reflexivity|]. nx MSetDone; [reflexivity|].
    nx XQuit; [reflexivity|reflexivity|]. nx XLastNone; [reflexivity|reflexivity|].
    nx MJoined; [reflexivity|reflexivity|reflexivity|]. nx AJoinSub; [reflexivity|reflexivity|]. apply star_refl.
  - cbn. auto.
Qed.

(** For every sequence of clouds there is a schedule in which all of them go through scan
    matching and FinishAllComputations returns, but no submap has been made, however many
    key frames there are. *)
Theorem C39_no_frame_lost_refuted : forall l, (0 < fc < 2 ^ 31)%Z -> exists s,
  breach (Next s) /\ ap s = ADone /\ ins (co s) = l /\ tkn (co s) = l /\
  frames (sc s) = map Some (key_frames sm_step sm_init l) /\ traj (su s) = [].
Proof.
  intros l Hfc. pose proof (feed l [] sm_init []) as Hf. cbn [app map] in Hf. rewrite smrun_keys in Hf.
  match type of Hf with star _ (waiting ?c ?k) => destruct (stop c k eq_refl eq_refl) as (s & S1 & S2 & S3 & S4 & S5) end.
  exists s. split.
  - eapply star_reach; [|apply breach_init]. eapply star_trans; [apply start; exact Hfc|]. eapply star_trans; [exact Hf|exact S1].
  - rewrite S3, S4, S5. cbn. auto.
Qed.

(** For every sequence of clouds there is a schedule in which FinishAllComputations returns
    although none of them has been looked at ... *)
Theorem C40_clouds_dropped : forall l, (0 < fc < 2 ^ 31)%Z -> exists s,
  breach (Next s) /\ ap s = ADone /\ ins (co s) = l /\ tkn (co s) = [] /\ raw (co s) = l.
Proof.
  intros l Hfc.
  assert (forall l t, star (waiting (mkColl t None [] t []) (mkScan SGet sm_init true []))
                           (waiting (mkColl (t ++ l) None [] (t ++ l) []) (mkScan SGet sm_init true []))) as Hf.
  { induction l0 as [|c r IH]; intros t; [rewrite !app_nil_r; apply star_refl|].
    nx (AInsert cloud frame smst sm_step fc false); [reflexivity|reflexivity|]. cbn.
    specialize (IH (t ++ [c])). rewrite <- app_assoc in IH. exact IH. }
  specialize (Hf l []). cbn [app] in Hf.
  match type of Hf with star _ (waiting ?c ?k) => destruct (stop c k eq_refl eq_refl) as (s & S1 & S2 & S3 & S4 & S5) end.
  exists s. split.
  - eapply star_reach; [|apply breach_init]. eapply star_trans; [apply start; exact Hfc|]. eapply star_trans; [exact Hf|exact S1].
  - rewrite S3. cbn. auto.
Qed.
(** ... and even a cloud that was preprocessed before FinishAllComputations was called can be
    left over. *)
Theorem C40_preprocessed_cloud_dropped : forall c, (0 < fc < 2 ^ 31)%Z -> exists s1 s2,
  breach (Next s1) /\ ap s1 = ARun /\ out (co s1) = [c] /\ star s1 s2 /\ ap s2 = ADone /\ out (co s2) = [c].
Proof.
  intros c Hfc.
  assert (star (waiting (mkColl [] None [] [] []) (mkScan SGet sm_init true []))
               (waiting (mkColl [] None [c] [c] []) (mkScan SNull sm_init true []))) as Hf.
  { nx SGetNone; [reflexivity|reflexivity|]. nx (AInsert cloud frame smst sm_step fc false); [reflexivity|reflexivity|].
    nx PTake; [reflexivity|reflexivity|]. nx PPut; [reflexivity|]. apply star_refl. }
  eexists. eexists. split; [eapply star_reach; [|apply breach_init]; eapply star_trans; [apply start; exact Hfc|exact Hf]|].
  split; [reflexivity|]. split; [reflexivity|]. split.
  - nx AFinish; [reflexivity|]. nx SNullEnd; [reflexivity|reflexivity|].
    nx SExit; [reflexivity|]. nx APoll; [reflexivity|reflexivity|]. nx AJoinScan; [reflexivity|reflexivity|].
    nx MStop; [reflexivity|reflexivity|reflexivity|]. nx MSetDone; [reflexivity|].
    nx XQuit; [reflexivity|reflexivity|]. nx XLastNone; [reflexivity|reflexivity|].
    nx MJoined; [reflexivity|reflexivity|reflexivity|]. nx AJoinSub; [reflexivity|reflexivity|]. apply star_refl.
  - cbn. auto.
Qed.
End Props.

(** The submap thread can read a frame that is being inserted (frame_count 1). *)
Theorem C77_read_under_construction : forall cloud frame smst sm_init sm_step (c : cloud) (f : frame) (x : smst),
  sm_step sm_init c = (x, Some f) -> breach cloud frame smst sm_init sm_step 1 false (Crash UB).
Proof.
  intros cloud frame smst sm_init sm_step c f x E.
  pose proof (start cloud frame smst sm_init sm_step 1 ltac:(lia)) as St.
  assert (exists s, star cloud frame smst sm_step 1 (waiting cloud frame smst (mkColl [] None [] [] []) (mkScan SGet sm_init true [])) s /\
            mpc (su s) = MBuild 1 /\ frames (sc s) = [None] /\ idx (su s) = 0) as (s & S1 & S2 & S3 & S4).
  { eexists. split.
    - eapply star_step; [eapply (AInsert cloud frame smst sm_step 1 false _ c); reflexivity|].
      eapply star_step; [eapply PTake; reflexivity|]. eapply star_step; [eapply PPut; reflexivity|].
      eapply star_step; [eapply SGetSome; reflexivity|]. eapply star_step; [eapply SWorkKey; [reflexivity|exact E]|].
      eapply star_step; [eapply MWait; reflexivity|]. eapply star_step; [eapply MEnough; reflexivity|]. apply star_refl.
    - cbn. auto. }
  eapply breach_step; [eapply star_reach; [eapply star_trans; [exact St|exact S1]|apply breach_init]|].
  eapply MInsertUB; [exact S2|]. rewrite S3, S4. discriminate.
Qed.

(** frame_count 0 aborts as soon as the submap thread runs ... *)
Theorem C77_frame_count_zero : forall cloud frame smst sm_init sm_step,
  breach cloud frame smst sm_init sm_step 0 false (Crash Abort).
Proof.
  intros. eapply breach_step; [eapply star_reach; [|apply breach_init]|].
  - eapply star_step; [eapply SStart; reflexivity|]. eapply star_step; [eapply AStart; reflexivity|].
    eapply star_step; [eapply MBegin; reflexivity|]. eapply star_step; [eapply MEnough; reflexivity|].
    eapply star_step; [eapply MBuilt; reflexivity|]. apply star_refl.
  - eapply MFullAbort; [reflexivity|]. cbn. intros [X _]. congruence.
Qed.
(** ... and with a negative frame_count no submap is ever made. *)
Theorem C77_frame_count_negative : forall cloud frame smst sm_init sm_step fc s,
  (- 2 ^ 31 <= fc < 0)%Z -> breach cloud frame smst sm_init sm_step fc false (Next s) ->
  (Z.of_nat (length (frames (sc s))) < 2 ^ 31)%Z -> traj (su s) = [].
Proof.
  intros cloud frame smst sm_init sm_step fc s Hfc R.
  assert (forall r, breach cloud frame smst sm_init sm_step fc false r -> match r with
    | Next s => (Z.of_nat (length (frames (sc s))) < 2 ^ 31)%Z -> traj (su s) = [] /\ idx (su s) = 0 /\
        match mpc (su s) with MNone | MStart | MSize | MFlag | MDone | MJoin | MEnd => True | _ => False end
    | Crash _ => True end) as G; [|intros Hb; exact (proj1 (G _ R Hb))].
  clear s R. intros r R. induction R as [|s r R IH Hs]; [cbn; auto|]. destruct r as [s'|]; [|exact I]. intros Hb.
  assert (length (frames (sc s)) <= length (frames (sc s')) \/ spc (sc s') = SGet /\ length (frames (sc s)) <= S (length (frames (sc s')))) as Hm.
  { inversion Hs; subst; cbn; auto; try (left; rewrite app_length; lia).
    unfold fill. left. destruct (frames (sc s)) as [|o l] eqn:Ef using rev_ind; [cbn; lia|].
    rewrite removelast_last, !app_length. cbn. lia. }
  assert (length (frames (sc s)) <= length (frames (sc s'))) as Hm'.
  { destruct Hm as [Hm|[_ Hm]]; [exact Hm|]. inversion Hs; subst; cbn; auto; try (rewrite app_length; lia).
    unfold fill. destruct (frames (sc s)) as [|o l] eqn:Ef using rev_ind; [cbn; lia|].
    rewrite removelast_last, !app_length. cbn. lia. }
  clear Hm. destruct IH as (H1 & H2 & H3); [lia|].
  assert (too_few fc (length (frames (sc s))) (idx (su s)) = true) as Tf.
  { unfold too_few. rewrite H2. apply Z.ltb_lt. cbn [Z.of_nat].
    rewrite Z.mod_small by lia. rewrite <- (Z_mod_plus_full fc 1). rewrite Z.mod_small by lia. lia. }
  inversion Hs; subst; cbn in *;
    repeat match goal with E : mpc (su ?s) = _ |- _ => rewrite E in * end;
    auto; try contradiction; try congruence.
Qed.

(** A submap can be left out of the optimizer although everything else went through: two
    submaps, neither was connected. *)
Theorem C78_all_connected_refuted : exists s : st nat nat unit,
  breach nat nat unit tt (fun x c => (x, Some c)) 1 false (Next s) /\ ap s = ADone /\
  built (traj (su s)) = [[7]; [8]] /\ conn (cn s) = [].
Proof.
  eexists. split; [eapply star_reach; [|apply breach_init]|].
  - eapply star_trans; [apply start; lia|].
    eapply star_trans; [apply (feed nat nat unit (fun x c => (x, Some c)) 1 [7; 8] [] tt [])|].
    cbn. eapply star_step; [eapply MWait; reflexivity|]. cbn.
    do 2 (eapply star_step; [eapply MEnough; reflexivity|]; cbn;
      eapply star_step; [eapply MInsert; reflexivity|]; cbn; eapply star_step; [eapply MBuilt; reflexivity|]; cbn;
      eapply star_step; [eapply MFullOk; [reflexivity|split; [discriminate|reflexivity]]|]; cbn;
      eapply star_step; [eapply MPush1; reflexivity|]; cbn; eapply star_step; [eapply MPushed; reflexivity|]; cbn;
      eapply star_step; [eapply MEnqueue; reflexivity|]; cbn).
    eapply star_step; [eapply SGetNone; reflexivity|]. eapply star_step; [eapply AFinish; reflexivity|].
    eapply star_step; [eapply SNullEnd; reflexivity|]. eapply star_step; [eapply SExit; reflexivity|]. cbn.
    eapply star_step; [eapply MFew; reflexivity|]. eapply star_step; [eapply MStop; reflexivity|].
    eapply star_step; [eapply MSetDone; reflexivity|]. cbn.
    eapply star_step; [eapply XQuit; reflexivity|]. eapply star_step; [eapply XLastMark; reflexivity|]. cbn.
    eapply star_step; [eapply (TMatch nat nat unit _ _ _ _ [] 1 []); reflexivity|]. cbn.
    eapply star_step; [eapply MJoined; reflexivity|]. cbn.
    eapply star_step; [eapply APoll; reflexivity|]. eapply star_step; [eapply AJoinScan; reflexivity|].
    eapply star_step; [eapply AJoinSub; reflexivity|]. cbn. apply star_refl.
  - cbn. auto.
Qed.

(** ** Concrete cases *)
Definition keep : unit -> nat -> unit * option nat := fun x c => (x, Some c).
(** C38: the state of [C78_all_connected_refuted] has two submaps of one frame each. *)
Example C38_example : exists s : st nat nat unit, breach nat nat unit tt keep 1 false (Next s) /\
  built (traj (su s)) = [[7]; [8]] /\ group 1 1 (built (frames (sc s))) = [8].
Proof.
  destruct C78_all_connected_refuted as (s & R & _ & T & _). exists s. split; [exact R|]. split; [exact T|].
  apply (C38_groups nat nat unit tt keep 1 s ltac:(lia) R). rewrite T. reflexivity.
Qed.
(** C39: five key frames, frame_count 2, and no submap at all. *)
Example C39_example : exists s : st nat nat unit, breach nat nat unit tt keep 2 false (Next s) /\ ap s = ADone /\
  frames (sc s) = [Some 1; Some 2; Some 3; Some 4; Some 5] /\ traj (su s) = [].
Proof.
  destruct (C39_no_frame_lost_refuted nat nat unit tt keep 2 [1; 2; 3; 4; 5] ltac:(lia)) as (s & R & E & _ & _ & F & T).
  exists s. auto.
Qed.
Inductive star_sw : st nat nat unit -> st nat nat unit -> Prop :=
| sw_refl s : star_sw s s
| sw_step s a b : bstep nat nat unit keep 2 true s (Next a) -> star_sw a b -> star_sw s b.
Lemma sw_reach : forall a b, star_sw a b -> breach nat nat unit tt keep 2 true (Next a) -> breach nat nat unit tt keep 2 true (Next b).
Proof. intros a b H. induction H; intros R; [exact R|]. apply IHstar_sw. eapply breach_step; eassumption. Qed.
(** C39 with the reads exchanged: three frames, one submap of two. *)
Example C39_swapped_example : exists s : st nat nat unit, breach nat nat unit tt keep 2 true (Next s) /\ ap s = ADone /\
  frames (sc s) = [Some 1; Some 2; Some 3] /\ traj (su s) = [Some [1; 2]].
Proof.
  eexists. split; [eapply sw_reach; [|apply breach_init]|].
  - eapply sw_step; [eapply SStart; reflexivity|]. eapply sw_step; [eapply AStart; reflexivity|].
    eapply sw_step; [eapply MBegin; reflexivity|]. cbn.
    eapply sw_step; [eapply (AInsert _ _ _ _ _ _ _ 1); reflexivity|]. eapply sw_step; [eapply (AInsert _ _ _ _ _ _ _ 2); reflexivity|].
    eapply sw_step; [eapply (AInsert _ _ _ _ _ _ _ 3); reflexivity|]. cbn.
    do 3 (eapply sw_step; [eapply PTake; reflexivity|]; eapply sw_step; [eapply PPut; reflexivity|];
      eapply sw_step; [eapply SGetSome; reflexivity|]; eapply sw_step; [eapply SWorkKey; reflexivity|];
      eapply sw_step; [eapply SPushed; reflexivity|]; cbn).
    eapply sw_step; [eapply SGetNone; reflexivity|]. eapply sw_step; [eapply AFinish; reflexivity|].
    eapply sw_step; [eapply SNullEnd; reflexivity|]. eapply sw_step; [eapply SExit; reflexivity|]. cbn.
    eapply sw_step; [eapply MSwFlag; reflexivity|]. eapply sw_step; [eapply MSwEnough; reflexivity|]. cbn.
    do 2 (eapply sw_step; [eapply MInsert; reflexivity|]; cbn). eapply sw_step; [eapply MBuilt; reflexivity|].
    eapply sw_step; [eapply MFullOk; [reflexivity|split; [discriminate|reflexivity]]|]. cbn.
    eapply sw_step; [eapply MPush1; reflexivity|]. eapply sw_step; [eapply MPushed; reflexivity|]. cbn.
    eapply sw_step; [eapply MEnqueue; reflexivity|]. cbn.
    eapply sw_step; [eapply MSwFlag; reflexivity|]. eapply sw_step; [eapply MSwStop; reflexivity|].
    eapply sw_step; [eapply MSetDone; reflexivity|]. cbn.
    eapply sw_step; [eapply XNothing; [reflexivity|right; reflexivity]|].
    eapply sw_step; [eapply XQuit; reflexivity|]. eapply sw_step; [eapply XLastMark; reflexivity|]. cbn.
    eapply sw_step; [eapply MJoined; reflexivity|]. cbn.
    eapply sw_step; [eapply APoll; reflexivity|]. eapply sw_step; [eapply AJoinScan; reflexivity|].
    eapply sw_step; [eapply AJoinSub; reflexivity|]. cbn. apply sw_refl.
  - cbn. auto.
Qed.
Lemma built_le : forall {A} (l : list (option A)), length (built l) <= length l.
Proof. intros A l. induction l as [|[g|] l IH]; cbn in *; [lia| |]; unfold built in IH; lia. Qed.
(** C79: the state of [C78_all_connected_refuted] has two submaps, both matched. *)
Example C79_example : exists s : st nat nat unit, breach nat nat unit tt keep 1 false (Next s) /\ ap s = ADone /\
  matched (cn s) 0 = true /\ matched (cn s) 1 = true.
Proof.
  destruct C78_all_connected_refuted as (s & R & E & T & _). exists s. split; [exact R|]. split; [exact E|].
  assert (length (built (traj (su s))) <= length (traj (su s))) as L.
  { apply built_le. }
  rewrite T in L. cbn in L.
  split; apply (C79_all_matched nat nat unit tt keep 1 s _ ltac:(lia) R E); lia.
Qed.

Print Assumptions C38_groups.
Print Assumptions C39_swapped_reads.
Print Assumptions C39_no_frame_lost_refuted.
Print Assumptions C40_collector_keeps_clouds.
Print Assumptions C40_clouds_dropped.
Print Assumptions C40_preprocessed_cloud_dropped.
Print Assumptions C77_crashes.
Print Assumptions C77_read_under_construction.
Print Assumptions C77_frame_count_zero.
Print Assumptions C77_frame_count_negative.
Print Assumptions C78_connected_in_order.
Print Assumptions C78_single_submap_unconnected.
Print Assumptions C78_all_connected_refuted.
Print Assumptions C79_all_matched.
Print Assumptions C79_finish_possible.
