(** Properties C96, C97, C98: one submap used by several threads. *)
From Coq Require Import List Bool ZArith Lia Arith.
From Verif Require Import Outcome EvictModel EvictSpec EvictProofs EvictData.
Import ListNotations.

Section Props.
Variable P : Type.
Variable disk_saving : bool.
Variable delay : Z.
Notation reach := (@reach P disk_saving delay).
Notation step := (@step P disk_saving delay).

(** * C96: locking. *)

(** No two threads own a mutex in incompatible ways. *)
Theorem C96_exclusion : forall c calls s i j t u m, reach c calls (Ok s) -> i <> j ->
  nth_error (s_threads s) i = Some t -> nth_error (s_threads s) j = Some u ->
  compatible (owns t m) (owns u m) = true.
Proof. intros. eapply exclusion; eauto. eapply reach_lock; eauto. Qed.

(** Two threads race for the cloud pointer or the frames only if one of them is inside
    GetInnerCloud. *)
Theorem C96_protected : forall c calls s i j t u, reach c calls (Ok s) -> i <> j ->
  nth_error (s_threads s) i = Some t -> nth_error (s_threads s) j = Some u -> races t u ->
  about_to_get t \/ about_to_get u.
Proof. intros. eapply race_get; eauto. eapply reach_lock; eauto. Qed.

(** There is no deadlock ... *)
Theorem C96_no_deadlock : forall c calls s, reach c calls (Ok s) ->
  (exists i t, nth_error (s_threads s) i = Some t /\ ~ finished t) -> exists i o, step s i = Some o.
Proof. intros c calls s R H. eapply no_deadlock; eauto. eapply reach_lock; eauto. Qed.

(** ... every schedule ends ... *)
Theorem C96_terminates : forall (c : list P) calls, exists n, forall l s',
  follow disk_saving delay (start c calls) l = Some (Ok s') -> length l <= n.
Proof.
  intros c calls. exists (cnt todo_size (s_threads (start c calls))). intros l s' H.
  pose proof (follow_bound P disk_saving delay l _ _ H). lia.
Qed.

(** ... and when nothing is left to do, all calls have returned and the mutexes are free. *)
Theorem C96_done : forall c calls s, reach c calls (Ok s) -> (forall i, step s i = None) ->
  (forall i t, nth_error (s_threads s) i = Some t -> finished t) /\ s_submap s = rw_free /\ s_cloud s = rw_free.
Proof.
  intros c calls s R N.
  assert (F : forall i t, nth_error (s_threads s) i = Some t -> finished t).
  { intros i t Hi. unfold finished. destruct (t_todo t) as [|x k] eqn:E; auto.
    destruct (no_deadlock P disk_saving delay s) as (j & o & H).
    - eapply reach_lock; eauto.
    - exists i, t. split; auto. congruence.
    - rewrite N in H. discriminate. }
  split; auto. eapply all_free; eauto. eapply reach_lock; eauto.
Qed.

(** No CHECK fails, whatever the threads do, if SetMatchedTransformedToNext is called at
    most once. *)
Theorem C96_no_abort : forall c calls o, c <> [] -> matched_calls calls <= 1 -> reach c calls o -> exists s, o = Ok s.
Proof.
  intros c calls o N M R. destruct (reach_data P disk_saving delay c N calls o M R) as (s & -> & _). eauto.
Qed.

(** A call of SetMatchedTransformedToNext that starts when the submap is matched aborts. *)
Theorem C96_late_match_aborts : forall (s : state P) i t k, nth_error (s_threads s) i = Some t ->
  t_todo t = code CMatched ++ k -> d_matched (s_data s) = true -> step s i = Some Abort.
Proof. intros s i t k Hi T M. unfold EvictModel.step. rewrite Hi, T. simpl. rewrite M. auto. Qed.

(** * C97: the points. *)

(** The points are always in memory or on disk. *)
Theorem C97_never_lost : forall c calls s, c <> [] -> matched_calls calls <= 1 -> reach c calls (Ok s) ->
  d_inner (s_data s) = c \/ d_file (s_data s) = Some c.
Proof.
  intros c calls s N M R. destruct (reach_data P disk_saving delay c N calls _ M R) as (s0 & E & I). inversion E; subst s0.
  destruct (id_unsaved _ _ _ _ I) as [S|(_ & S & _)]; auto. right. apply (id_saved _ _ _ _ I S).
Qed.

(** The cloud is dropped only after it was saved, which requires the option and the call of
    SetMatchedTransformedToNext. *)
Theorem C97_saved_first : forall c calls s, c <> [] -> matched_calls calls <= 1 -> reach c calls (Ok s) ->
  0 < drops (d_log (s_data s)) ->
  disk_saving = true /\ d_matched (s_data s) = true /\ d_file (s_data s) = Some c.
Proof.
  intros c calls s N M R D. destruct (reach_data P disk_saving delay c N calls _ M R) as (s0 & E & I). inversion E; subst s0.
  destruct (id_unsaved _ _ _ _ I) as [S|(_ & _ & S & _)]; [|lia].
  pose proof (id_saved _ _ _ _ I S). unfold saved in S. apply andb_true_iff in S. tauto.
Qed.

(** A caller of Cloud()->GetInnerCloud() gets all points or none ... *)
Theorem C97_all_or_nothing : forall c calls s i l, c <> [] -> matched_calls calls <= 1 -> reach c calls (Ok s) ->
  In (EGot i l) (d_log (s_data s)) -> l = c \/ l = [].
Proof.
  intros c calls s i l N M R. remember (Ok s) as o. revert s Heqo. induction R; intros s' Eo Hin.
  - inversion Eo; subst s'. simpl in Hin. contradiction.
  - subst o. destruct (reach_data P disk_saving delay c N calls _ M R) as (s0 & E & I). inversion E; subst s0.
    destruct (step_inv _ _ _ _ _ _ H) as (t & Hi & St).
    destruct (step_log _ _ _ _ _ _ _ St) as [El|(e & El & Eg)]; rewrite El in Hin; [eauto|].
    apply in_app_or in Hin. destruct Hin as [Hin|[Hin|[]]]; eauto.
    rewrite (Eg _ _ Hin). eapply inner_cases; eauto.
Qed.

(** ... all of them as long as the saving to disk is off or the submap is not matched. *)
Theorem C97_no_eviction : forall c calls s i l, c <> [] -> matched_calls calls <= 1 -> reach c calls (Ok s) ->
  disk_saving = false \/ d_matched (s_data s) = false -> In (EGot i l) (d_log (s_data s)) -> l = c.
Proof.
  intros c calls s i l N M R. remember (Ok s) as o. revert s Heqo. induction R; intros s' Eo Sv Hin.
  - inversion Eo; subst s'. simpl in Hin. contradiction.
  - subst o. destruct (reach_data P disk_saving delay c N calls _ M R) as (s0 & E & I). inversion E; subst s0.
    destruct (step_inv _ _ _ _ _ _ H) as (t & Hi & St).
    assert (Mono : disk_saving = false \/ d_matched (s_data s) = false).
    { destruct Sv as [Sv|Sv]; auto. right. destruct (d_matched (s_data s)) eqn:Q; auto.
      rewrite (step_matched _ _ _ _ _ _ _ St Q) in Sv. discriminate. }
    destruct (id_unsaved _ _ _ _ I) as [S|(_ & Sc & _)].
    { unfold saved in S. apply andb_true_iff in S. destruct S, Mono; congruence. }
    destruct (step_log _ _ _ _ _ _ _ St) as [El|(e & El & Eg)]; rewrite El in Hin; [eauto|].
    apply in_app_or in Hin. destruct Hin as [Hin|[Hin|[]]]; eauto.
    rewrite (Eg _ _ Hin). exact Sc.
Qed.

(** * C98: when the cloud is dropped. *)

(** Every decision to drop the cloud is taken when more than the configured delay was
    counted since the last access, and there are at most as many drops as decisions. *)
Theorem C98_delay : forall c calls s, reach c calls (Ok s) ->
  (forall l1 l2, d_log (s_data s) = l1 ++ EOld :: l2 -> (delay < since_access l1)%Z) /\
  drops (d_log (s_data s)) <= decisions (d_log (s_data s)).
Proof.
  intros c calls s R. pose proof (reach_log P disk_saving delay c calls _ R s eq_refl) as [A B C D].
  split; auto. lia.
Qed.

(** Every cloud handed out was preceded by a reset of the counter, and at the end there was
    one of both for every access. *)
Theorem C98_access_resets : forall c calls s, reach c calls (Ok s) ->
  gots (d_log (s_data s)) <= resets (d_log (s_data s)) /\
  ((forall i t, nth_error (s_threads s) i = Some t -> finished t) ->
   gots (d_log (s_data s)) = get_calls calls /\ resets (d_log (s_data s)) = get_calls calls).
Proof.
  intros c calls s R. destruct (reach_access P disk_saving delay c calls _ R s eq_refl) as [A B C]. split.
  - assert (cnt todo_resets (s_threads s) <= cnt todo_gets (s_threads s)); [|lia].
    apply cnt_le. intros i t Hi. apply balanced_le. eauto.
  - intros F. rewrite (cnt_zero todo_resets) in A; [rewrite (cnt_zero todo_gets) in B; [lia|]|].
    + intros i t Hi. unfold todo_gets. rewrite (F _ _ Hi). auto.
    + intros i t Hi. unfold todo_resets. rewrite (F _ _ Hi). auto.
Qed.
End Props.

(** Runs. *)
Lemma follow_reach : forall P ds dl (c : list P) calls l s o, reach ds dl c calls (Ok s) ->
  follow ds dl s l = Some o -> reach ds dl c calls o.
Proof.
  intros P ds dl c calls l. induction l as [|i l IH]; intros s o R H; simpl in H.
  - inversion H; subst. exact R.
  - destruct (step ds dl s i) as [[s1| | |]|] eqn:E; try discriminate.
    + apply (IH s1 o); auto. exact (reach_step _ _ _ _ _ s i _ R E).
    + inversion H; subst. exact (reach_step _ _ _ _ _ s i _ R E).
    + inversion H; subst. exact (reach_step _ _ _ _ _ s i _ R E).
    + inversion H; subst. exact (reach_step _ _ _ _ _ s i _ R E).
Qed.

(** One thread marks the submap as matched, the memory manager ticks for 5 s with a delay
    of 3 s, a third thread reads the cloud. *)
Definition calls3 := [[CMatched]; [CTick 5]; [CGetCloud]].
(** Matched; decision to drop; access; drop; the pointer is read. *)
Definition sched_pre := repeat 0 17 ++ repeat 1 4 ++ repeat 2 7 ++ repeat 1 6.
Definition sched := sched_pre ++ repeat 1 6 ++ [2].

(** A run that ends well. *)
Definition ends (r : option (outcome (state nat))) : state nat :=
  match r with Some (Ok s) => s | _ => start [] [] end.
Definition well (r : option (outcome (state nat))) : bool := match r with Some (Ok _) => true | _ => false end.
Lemma well_ends : forall r, well r = true -> r = Some (Ok (ends r)).
Proof. intros [[s| | |]|]; simpl; congruence. Qed.

Notation final l := (follow true 3%Z (start [7; 8] calls3) l) (only parsing).

(** Cloud()->GetInnerCloud() does not always return the points: the cloud can be dropped
    between the two calls. *)
Theorem C97_always_points_refuted :
  ~ (forall c calls s i l, c <> [] -> matched_calls calls <= 1 ->
       reach true 3 (c : list nat) calls (Ok s) -> In (EGot i l) (d_log (s_data s)) -> l = c).
Proof.
  intros H.
  assert (E : exists s, final sched = Some (Ok s) /\ In (EGot 2 []) (d_log (s_data s))).
  { exists (ends (final sched)). split; [apply well_ends; vm_compute; reflexivity|].
    assert (L : d_log (s_data (ends (final sched))) = [EAdd 5; EOld; EReset; EDrop; EGot 2 []]) by (vm_compute; reflexivity).
    rewrite L. simpl. tauto. }
  destruct E as (s & E & Hin).
  assert (R : reach true 3 [7; 8] calls3 (Ok s)) by (eapply follow_reach; [apply reach_start | exact E]).
  specialize (H [7; 8] calls3 s 2 [] ltac:(discriminate) ltac:(vm_compute; lia) R Hin). clear - H. discriminate H.
Qed.

(** In that run one thread reads the pointer inner_cloud_ while another one is about to
    write it. *)
Theorem C97_pointer_race : exists s t u, reach true 3 [7; 8] calls3 (Ok s) /\
  nth_error (s_threads s) 1 = Some t /\ nth_error (s_threads s) 2 = Some u /\ races t u.
Proof.
  assert (E : exists s t u, final sched_pre = Some (Ok s) /\ nth_error (s_threads s) 1 = Some t /\
     nth_error (s_threads s) 2 = Some u /\ exists k l, t_todo t = IDropCloud :: k /\ t_todo u = IGetInner :: l).
  { exists (ends (final sched_pre)), (nth 1 (s_threads (ends (final sched_pre))) (mkThread No No [])),
           (nth 2 (s_threads (ends (final sched_pre))) (mkThread No No [])).
    split; [apply well_ends; vm_compute; reflexivity|]. split; [vm_compute; reflexivity|]. split; [vm_compute; reflexivity|].
    exists (tl (t_todo (nth 1 (s_threads (ends (final sched_pre))) (mkThread No No [])))), [].
    split; vm_compute; reflexivity. }
  destruct E as (s & t & u & E & A & B & k & l & C & D). exists s, t, u.
  split; [eapply follow_reach; [apply reach_start | exact E]|]. split; auto. split; auto.
  exists IDropCloud, k, IGetInner, l, InnerCloud, true, false. repeat split; auto.
Qed.

(** A drop can follow an access immediately, although the delay has not passed since. *)
Theorem C98_drop_after_delay_refuted :
  ~ (forall c calls s l1 l2, c <> [] -> matched_calls calls <= 1 ->
       reach true 3 (c : list nat) calls (Ok s) -> d_log (s_data s) = l1 ++ EDrop :: l2 -> (3 < since_access l1)%Z).
Proof.
  intros H.
  assert (E : exists s, final sched = Some (Ok s) /\ d_log (s_data s) = [EAdd 5; EOld; EReset] ++ EDrop :: [EGot 2 []]).
  { exists (ends (final sched)). split; [apply well_ends|]; vm_compute; reflexivity. }
  destruct E as (s & E & Hl).
  assert (R : reach true 3 [7; 8] calls3 (Ok s)) by (eapply follow_reach; [apply reach_start | exact E]).
  specialize (H [7; 8] calls3 s _ _ ltac:(discriminate) ltac:(vm_compute; lia) R Hl).
  clear - H. vm_compute in H. discriminate H.
Qed.

(** Two threads can both mark the submap as matched: the CHECK is outside the lock. *)
Theorem C96_second_match_refuted :
  ~ (forall c calls s, c <> [] -> reach true 3 (c : list nat) calls (Ok s) ->
       (forall i t, nth_error (s_threads s) i = Some t -> finished t) -> matched_calls calls <= 1).
Proof.
  intros H.
  assert (E : exists s, follow true 3 (start [7; 8] [[CMatched]; [CMatched]]) ([0; 1] ++ repeat 0 16 ++ repeat 1 16) = Some (Ok s) /\
     forallb (fun t => match t_todo t with [] => true | _ => false end) (s_threads s) = true).
  { eexists (ends _). split; [apply well_ends|]; vm_compute; reflexivity. }
  destruct E as (s & E & F).
  assert (R : reach true 3 [7; 8] [[CMatched]; [CMatched]] (Ok s)) by (eapply follow_reach; [apply reach_start | exact E]).
  assert (Fin : forall i t, nth_error (s_threads s) i = Some t -> finished t).
  { intros i t Hi. apply nth_error_In in Hi. rewrite forallb_forall in F. specialize (F _ Hi).
    unfold finished. destruct (t_todo t); congruence. }
  specialize (H [7; 8] _ s ltac:(discriminate) R Fin). clear - H. vm_compute in H. lia.
Qed.

(** Examples: the whole run ends with all calls done; the cloud was dropped once, is on
    disk, and a later access brings it back. *)
Definition idle (s : state nat) : bool :=
  forallb (fun i => match step true 3 s i with None => true | _ => false end) [0; 1; 2].
Example C96_example : exists s, final sched = Some (Ok s) /\ idle s = true /\
  s_submap s = rw_free /\ s_cloud s = rw_free.
Proof. exists (ends (final sched)). split; [apply well_ends|]; vm_compute; auto. Qed.
Definition alone_run := follow true 3 (start [7; 8] [[CMatched; CTick 5; CGetCloud]]) (repeat 0 (17 + 16 + 14)).
Example C97_example : exists s, alone_run = Some (Ok s) /\
  d_log (s_data s) = [EAdd 5; EOld; EDrop; EReset; EGot 0 [7; 8]] /\ d_file (s_data s) = Some [7; 8].
Proof. exists (ends alone_run). split; [apply well_ends|]; vm_compute; auto. Qed.
Definition off_run := follow false 3 (start [7; 8] [[CMatched]; [CTick 5; CTick 5]; [CGetCloud]])
                             (repeat 0 9 ++ repeat 1 2 ++ repeat 2 8).
Example C97_example_off : exists s, off_run = Some (Ok s) /\
  d_log (s_data s) = [EReset; EGot 2 [7; 8]] /\ map t_todo (s_threads s) = [[]; []; []].
Proof. exists (ends off_run). split; [apply well_ends|]; vm_compute; auto. Qed.
Example C98_example : exists s, final sched = Some (Ok s) /\ drops (d_log (s_data s)) = 1 /\ decisions (d_log (s_data s)) = 1.
Proof. exists (ends (final sched)). split; [apply well_ends|]; vm_compute; auto. Qed.
(** Two calls one after the other abort. *)
Example C96_second_match_aborts :
  follow true 3 (start [7; 8] [[CMatched]; [CMatched]]) (repeat 0 17 ++ [1]) = Some Abort.
Proof. reflexivity. Qed.

Print Assumptions C96_exclusion.
Print Assumptions C96_protected.
Print Assumptions C96_no_deadlock.
Print Assumptions C96_terminates.
Print Assumptions C96_done.
Print Assumptions C96_no_abort.
Print Assumptions C96_second_match_refuted.
Print Assumptions C96_late_match_aborts.
Print Assumptions C97_never_lost.
Print Assumptions C97_saved_first.
Print Assumptions C97_all_or_nothing.
Print Assumptions C97_no_eviction.
Print Assumptions C97_always_points_refuted.
Print Assumptions C97_pointer_race.
Print Assumptions C98_delay.
Print Assumptions C98_access_resets.
Print Assumptions C98_drop_after_delay_refuted.
