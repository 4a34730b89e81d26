From Coq Require Import List Bool Arith Lia Permutation.
From Verif Require Import PoolModel PoolSpec.
Import ListNotations.

Section Lists.
Context {A : Type}.

Lemma upd_length : forall i (x : A) l, length (upd i x l) = length l.
Proof. induction i as [|i IH]; intros x [|y l]; cbn; auto. Qed.

Lemma nth_upd_same : forall i (x : A) l, i < length l -> nth_error (upd i x l) i = Some x.
Proof. induction i as [|i IH]; intros x [|y l] H; cbn in *; try lia; auto. apply IH. lia. Qed.

Lemma nth_upd_other : forall i j (x : A) l, i <> j -> nth_error (upd i x l) j = nth_error l j.
Proof.
  induction i as [|i IH]; intros [|j] x [|y l] H; cbn; try congruence; auto.
Qed.

Lemma nth_upd_inv : forall i j (x : A) l y, nth_error (upd i x l) j = Some y ->
  (i = j /\ y = x) \/ (i <> j /\ nth_error l j = Some y).
Proof.
  intros i j x l y H. destruct (Nat.eq_dec i j) as [->|Hne].
  - left. split; [reflexivity|].
    assert (j < length l).
    { rewrite <- (upd_length j x). apply nth_error_Some. congruence. }
    rewrite nth_upd_same in H by assumption. congruence.
  - right. rewrite nth_upd_other in H by assumption. auto.
Qed.

Lemma nth_lt : forall (l : list A) i x, nth_error l i = Some x -> i < length l.
Proof. intros l i x H. apply nth_error_Some. congruence. Qed.

End Lists.

(** Sum of a weight over a list, and how [upd] changes it. *)
Definition sum {A} (f : A -> nat) (l : list A) : nat := fold_right (fun x n => f x + n) 0 l.

Lemma sum_upd : forall A (f : A -> nat) i x y l, nth_error l i = Some x ->
  sum f (upd i y l) + f x = sum f l + f y.
Proof.
  induction i as [|i IH]; intros x y [|z l] H; cbn in *; try discriminate.
  - injection H as ->. lia.
  - specialize (IH x y l H). cbn. unfold sum in *. lia.
Qed.

Section Proofs.
Variable task : Type.
Notation pool := (pool task).
Notation worker := (worker task).

Lemma running_upd : forall i (w w' : worker) ws, nth_error ws i = Some w ->
  Permutation (match w' with Running t => [t] | _ => [] end ++ running ws)
              (match w with Running t => [t] | _ => [] end ++ running (upd i w' ws)).
Proof.
  induction i as [|i IH]; intros w w' [|x ws] H; cbn [nth_error] in H; try discriminate.
  - injection H as ->. cbn [upd running flat_map]. fold (running ws).
    rewrite !app_assoc. apply Permutation_app_tail. apply Permutation_app_comm.
  - cbn [upd running flat_map]. fold (running ws) (running (upd i w' ws)).
    specialize (IH w w' ws H).
    rewrite !app_assoc.
    rewrite (Permutation_app_comm (match w' with Running t => [t] | _ => [] end)).
    rewrite (Permutation_app_comm (match w with Running t => [t] | _ => [] end)).
    rewrite <- !app_assoc. apply Permutation_app_head. exact IH.
Qed.

Lemma running_wake : forall ws : list worker, running (map wake ws) = running ws.
Proof.
  induction ws as [|w ws IH]; [reflexivity|]. cbn. fold (running (map wake ws)) (running ws).
  rewrite IH. destruct w; reflexivity.
Qed.

Record inv (n : nat) (s : pool) : Prop := {
  i_fifo : accepted s = started s ++ queue s;
  i_done : Permutation (started s) (finished s ++ running (workers s));
  i_len : length (workers s) = n;
  i_stop : stop s = match phase s with NotCalled => false | _ => true end;
  i_exit : forall i, nth_error (workers s) i = Some Exited -> stop s = true /\ queue s = [];
  i_join : phase s = Joining \/ phase s = Returned ->
           forall i, nth_error (workers s) i <> Some Waiting;
  i_ret : phase s = Returned -> Forall (fun w => w = Exited) (workers s);
  i_rej : stop s = false -> rejected s = [];
  i_wake : queue s <> [] -> stop s = false -> 0 < n ->
           0 < pending s \/ exists i w, nth_error (workers s) i = Some w /\ w <> Waiting }.

Lemma inv_init : forall n, inv n (pool_init n).
Proof.
  intros n. split; unfold pool_init; cbn [queue stop workers pending phase accepted started finished rejected app]; auto.
  - assert (H : running (repeat (@Ready task) n) = []) by (induction n; cbn; auto).
    rewrite H. constructor.
  - apply repeat_length.
  - intros i H. apply nth_error_In, repeat_spec in H. discriminate.
  - intros [H|H]; discriminate.
  - discriminate.
  - congruence.
Qed.

Lemma Forall_nth_iff : forall A (P : A -> Prop) l,
  Forall P l <-> forall i x, nth_error l i = Some x -> P x.
Proof.
  intros A P l. rewrite Forall_forall. split.
  - intros H i x Hx. apply H. eapply nth_error_In, Hx.
  - intros H x Hx. apply In_nth_error in Hx as [i Hi]. eapply H, Hi.
Qed.

Lemma inv_step : forall n (s : pool) l s', inv n s -> step s l s' -> inv n s'.
Proof.
  intros n s l s' [F D Ln St Ex Jn Rt Rj Wk] H.
  destruct H as [s t Hs|s t Hs|s i p Hp Hi|s p Hp Hn|s i Hi Hs Hq|s i Hi Hs Hq|s i t q Hi Hq
                |s i t Hi|s i Hi|s Hph|s Hph|s Hph Hall];
    split; cbn [queue stop workers pending phase accepted started finished rejected];
    try assumption; try (rewrite upd_length; assumption).
  - (* enqueue *) rewrite F, app_assoc. reflexivity.
  - intros i Hi. destruct (Ex i Hi). congruence.
  - intros _ _ _. left. lia.
  - (* reject *) congruence.
  - (* notify one *)
    pose proof (running_upd i Waiting Ready (workers s) Hi) as P. cbn in P.
    rewrite <- P. assumption.
  - intros j Hj. apply nth_upd_inv in Hj as [[_ E]|[_ Hj]]; [discriminate|eauto].
  - intros Hph j Hj. apply nth_upd_inv in Hj as [[_ E]|[_ Hj]]; [discriminate|].
    apply (Jn Hph j Hj).
  - intros Hph. specialize (Rt Hph). rewrite Forall_nth_iff in Rt. apply Rt in Hi. discriminate.
  - intros _ _ _. right. exists i, Ready. split; [|discriminate].
    apply nth_upd_same. eapply nth_lt, Hi.
  - (* notify none *)
    intros Hq Hs Hn0. right.
    destruct (workers s) as [|w ws] eqn:E; [cbn in Ln; lia|].
    exists 0, w. split; [reflexivity|]. intros ->. apply (Hn 0). reflexivity.
  - (* wait *)
    pose proof (running_upd i Ready Waiting (workers s) Hi) as P. cbn in P.
    rewrite <- P. assumption.
  - intros j Hj. apply nth_upd_inv in Hj as [[_ E]|[_ Hj]]; [discriminate|eauto].
  - intros Hph. rewrite St in Hs. destruct Hph as [E|E]; rewrite E in Hs; discriminate.
  - intros Hph. rewrite St, Hph in Hs. discriminate.
  - congruence.
  - (* exit *)
    pose proof (running_upd i Ready Exited (workers s) Hi) as P. cbn in P.
    rewrite <- P. assumption.
  - intros j Hj. auto.
  - intros Hph j Hj. apply nth_upd_inv in Hj as [[_ E]|[_ Hj]]; [discriminate|].
    apply (Jn Hph j Hj).
  - intros Hph. specialize (Rt Hph). rewrite Forall_nth_iff in Rt. apply Rt in Hi. discriminate.
  - congruence.
  - (* take *) rewrite F, Hq, <- app_assoc. reflexivity.
  - pose proof (running_upd i Ready (Running t) (workers s) Hi) as P. cbn in P.
    rewrite D. rewrite <- app_assoc. apply Permutation_app_head.
    rewrite <- P. symmetry. apply Permutation_cons_append.
  - intros j Hj. apply nth_upd_inv in Hj as [[_ E]|[_ Hj]]; [discriminate|].
    destruct (Ex j Hj). congruence.
  - intros Hph j Hj. apply nth_upd_inv in Hj as [[_ E]|[_ Hj]]; [discriminate|].
    apply (Jn Hph j Hj).
  - intros Hph. specialize (Rt Hph). rewrite Forall_nth_iff in Rt. apply Rt in Hi. discriminate.
  - intros _ _ _. right. exists i, (Running t). split; [|discriminate].
    apply nth_upd_same. eapply nth_lt, Hi.
  - (* finish *)
    pose proof (running_upd i (Running t) Ready (workers s) Hi) as P. cbn in P.
    rewrite D, P. rewrite <- app_assoc. apply Permutation_app_head. reflexivity.
  - intros j Hj. apply nth_upd_inv in Hj as [[_ E]|[_ Hj]]; [discriminate|eauto].
  - intros Hph j Hj. apply nth_upd_inv in Hj as [[_ E]|[_ Hj]]; [discriminate|].
    apply (Jn Hph j Hj).
  - intros Hph. specialize (Rt Hph). rewrite Forall_nth_iff in Rt. apply Rt in Hi. discriminate.
  - intros _ _ _. right. exists i, Ready. split; [|discriminate].
    apply nth_upd_same. eapply nth_lt, Hi.
  - (* spurious *)
    pose proof (running_upd i Waiting Ready (workers s) Hi) as P. cbn in P.
    rewrite <- P. assumption.
  - intros j Hj. apply nth_upd_inv in Hj as [[_ E]|[_ Hj]]; [discriminate|eauto].
  - intros Hph j Hj. apply nth_upd_inv in Hj as [[_ E]|[_ Hj]]; [discriminate|].
    apply (Jn Hph j Hj).
  - intros Hph. specialize (Rt Hph). rewrite Forall_nth_iff in Rt. apply Rt in Hi. discriminate.
  - intros _ _ _. right. exists i, Ready. split; [|discriminate].
    apply nth_upd_same. eapply nth_lt, Hi.
  - (* stop *) reflexivity.
  - intros i Hi. split; [reflexivity|]. apply (Ex i Hi).
  - intros [E|E]; discriminate.
  - discriminate.
  - discriminate.
  - discriminate.
  - (* notify all *) rewrite running_wake. assumption.
  - rewrite map_length. assumption.
  - rewrite St, Hph. reflexivity.
  - intros i Hi. rewrite nth_error_map in Hi.
    destruct (nth_error (workers s) i) as [w|] eqn:E; [|discriminate].
    cbn in Hi. destruct w; try discriminate. apply (Ex i E).
  - intros _ i Hi. rewrite nth_error_map in Hi.
    destruct (nth_error (workers s) i) as [[]|]; discriminate.
  - discriminate.
  - rewrite St, Hph. discriminate.
  - (* join *) rewrite St, Hph. reflexivity.
  - intros _ i. apply Jn. auto.
  - auto.
Qed.

Lemma inv_steps : forall n (s : pool) ls s', inv n s -> steps s ls s' -> inv n s'.
Proof.
  intros n s ls s' Hi H. induction H as [s|s l s' ls s'' H1 H2 IH]; [assumption|].
  apply IH. eapply inv_step; eassumption.
Qed.

Lemma inv_reachable : forall n ls (s : pool), steps (pool_init n) ls s -> inv n s.
Proof. intros n ls s H. eapply inv_steps; [apply inv_init|exact H]. Qed.

Lemma pool_fifo : forall n ls (s : pool), steps (pool_init n) ls s ->
  accepted s = started s ++ queue s /\
  Permutation (started s) (finished s ++ running (workers s)).
Proof. intros n ls s H. destruct (inv_reachable _ _ _ H). auto. Qed.

Lemma running_exited : forall ws, Forall (fun w => w = @Exited task) ws -> running ws = [].
Proof. induction 1 as [|w ws -> _ IH]; [reflexivity|]. exact IH. Qed.

Lemma pool_complete : forall n ls (s : pool), 0 < n -> steps (pool_init n) ls s ->
  phase s = Returned ->
  queue s = [] /\ started s = accepted s /\ Permutation (finished s) (accepted s).
Proof.
  intros n ls s Hn H Hr. destruct (inv_reachable _ _ _ H) as [F D Ln St Ex Jn Rt Rj Wk].
  specialize (Rt Hr).
  assert (Hq : queue s = []).
  { destruct (workers s) as [|w ws] eqn:E; [cbn in Ln; lia|].
    apply (Ex 0). cbn. inversion Rt; subst. reflexivity. }
  split; [assumption|].
  rewrite Hq, app_nil_r in F. split; [congruence|].
  rewrite (running_exited _ Rt), app_nil_r in D. rewrite F. symmetry. assumption.
Qed.

Lemma pool_zero_workers : forall t : task, exists ls s, steps (pool_init 0) ls s /\
  phase s = Returned /\ accepted s = [t] /\ started s = [] /\ finished s = [].
Proof.
  intros t. exists [LEnqueue t; LStop; LNotifyAll; LJoin]. eexists. split.
  - econstructor; [apply SEnqueue; reflexivity|].
    econstructor; [apply SStop; reflexivity|].
    econstructor; [apply SNotifyAll; reflexivity|].
    econstructor; [apply SJoin; [reflexivity|constructor]|].
    constructor.
  - cbn. auto.
Qed.

(** * Shutdown *)

Definition weight (w : worker) : nat :=
  match w with Exited => 0 | Ready => 1 | Waiting => 2 | Running _ => 2 end.
Definition phase_weight (p : dtor) : nat :=
  match p with NotCalled => 3 | Stopped => 2 | Joining => 1 | Returned => 0 end.
Definition measure (s : pool) : nat :=
  3 * length (queue s) + sum weight (workers s) + pending s + phase_weight (phase s).

Lemma sum_wake : forall ws, sum weight (map wake ws) <= sum weight ws.
Proof.
  induction ws as [|w ws IH]; [cbn; lia|]. unfold sum in *. cbn [map fold_right].
  assert (weight (wake w) <= weight w) by (destruct w; cbn; lia). lia.
Qed.

Lemma measure_step : forall (s : pool) l s', stop s = true -> effective l -> step s l s' ->
  measure s' < measure s /\ stop s' = true.
Proof.
  intros s l s' Hs He H. unfold measure.
  destruct H as [s t Hs'|s t Hs'|s i p Hp Hi|s p Hp Hn|s i Hi Hs' Hq|s i Hi Hs' Hq|s i t q Hi Hq
                |s i t Hi|s i Hi|s Hph|s Hph|s Hph Hall];
    cbn [queue stop workers pending phase accepted started finished rejected];
    try congruence; try (destruct He; fail); split; try assumption; try reflexivity;
    try (pose proof (sum_upd _ weight i _ Ready (workers s) Hi) as P; cbn [weight] in P);
    try (pose proof (sum_upd _ weight i _ Exited (workers s) Hi) as P2; cbn [weight] in P2).
  - rewrite Hp. lia.
  - rewrite Hp. lia.
  - lia.
  - pose proof (sum_upd _ weight i _ (Running t) (workers s) Hi) as P3; cbn [weight] in P3.
    rewrite Hq. cbn [length]. lia.
  - lia.
  - lia.
  - rewrite Hph. cbn. lia.
  - pose proof (sum_wake (workers s)). rewrite Hph. cbn. lia.
  - rewrite Hph. cbn. lia.
Qed.

Lemma shutdown_bounded : forall (s : pool) ls s', stop s = true -> steps s ls s' ->
  Forall effective ls -> length ls + measure s' <= measure s.
Proof.
  intros s ls s' Hs H. revert Hs. induction H as [s|s l s' ls s'' H1 H2 IH]; intros Hs Hl.
  - cbn. lia.
  - inversion Hl as [|? ? He Hl']; subst.
    destruct (measure_step s l s' Hs He H1) as [M Hs']. specialize (IH Hs' Hl'). cbn [length]. lia.
Qed.

Lemma shutdown_progress : forall n ls (s : pool), steps (pool_init n) ls s ->
  phase s = Stopped \/ phase s = Joining ->
  exists l s', genuine l /\ step s l s'.
Proof.
  intros n ls s H Hph. destruct (inv_reachable _ _ _ H) as [F D Ln St Ex Jn Rt Rj Wk].
  destruct Hph as [Hph|Hph].
  { exists LNotifyAll. eexists. split; [exact I|]. apply SNotifyAll, Hph. }
  assert (Hs : stop s = true) by (rewrite St, Hph; reflexivity).
  destruct (Forall_Exists_dec (fun w => w = @Exited task)
     (fun w => ltac:(destruct w; [right|right|right|left]; congruence)) (workers s)) as [Ha|Hx].
  { exists LJoin. eexists. split; [exact I|]. apply SJoin; assumption. }
  apply Exists_exists in Hx as (w & Hin & Hw). apply In_nth_error in Hin as [i Hi].
  destruct w as [| |t|]; [| | |congruence].
  - destruct (queue s) as [|t q] eqn:Eq.
    + exists (LWorker i). eexists. split; [exact I|]. apply SExit; assumption.
    + exists (LWorker i). eexists. split; [exact I|]. eapply STake; eassumption.
  - exfalso. apply (Jn (or_introl Hph) i Hi).
  - exists (LFinish i). eexists. split; [exact I|]. eapply SFinish; eassumption.
Qed.

Lemma after_stop : forall n ls (s : pool), steps (pool_init n) ls s -> stop s = true ->
  (forall t s', ~ step s (LEnqueue t) s') /\
  (forall t, exists s', step s (LReject t) s') /\
  (forall ls' s', steps s ls' s' -> accepted s' = accepted s /\ stop s' = true).
Proof.
  intros n ls s H Hs. split; [|split].
  - intros t s' H'. inversion H'; subst. congruence.
  - intros t. eexists. apply SReject, Hs.
  - intros ls' s' H'. clear H. induction H' as [s|s l s' ls' s'' H1 H2 IH]; [auto|].
    assert (accepted s' = accepted s /\ stop s' = true) as [A B].
    { destruct H1; cbn in *; auto; congruence. }
    destruct (IH B) as [C E]. split; congruence.
Qed.

Lemma before_stop_no_reject : forall n ls (s : pool) t s', steps (pool_init n) ls s -> phase s = NotCalled ->
  ~ step s (LReject t) s'.
Proof.
  intros n ls s t s' H Hp H'. destruct (inv_reachable _ _ _ H) as [F D Ln St Ex Jn Rt Rj Wk].
  inversion H'; subst. rewrite St, Hp in *. discriminate.
Qed.

(** A schedule that cannot be continued genuinely has shut the pool down. *)
Lemma shutdown_completes : forall n ls (s : pool), steps (pool_init n) ls s -> stop s = true ->
  (forall l s', genuine l -> ~ step s l s') -> phase s = Returned.
Proof.
  intros n ls s H Hs Hmax.
  destruct (inv_reachable _ _ _ H) as [F D Ln St Ex Jn Rt Rj Wk].
  destruct (phase s) eqn:E; try reflexivity.
  - congruence.
  - destruct (shutdown_progress n ls s H (or_introl E)) as (l & s' & G & Hst).
    exfalso. eapply Hmax; eassumption.
  - destruct (shutdown_progress n ls s H (or_intror E)) as (l & s' & G & Hst).
    exfalso. eapply Hmax; eassumption.
Qed.

(** No lost wake-up. *)
Lemma no_lost_wakeup : forall n ls (s : pool), 0 < n -> steps (pool_init n) ls s -> queue s <> [] ->
  exists l s', genuine l /\ l <> LStop /\ step s l s'.
Proof.
  intros n ls s Hn H Hq. destruct (inv_reachable _ _ _ H) as [F D Ln St Ex Jn Rt Rj Wk].
  destruct (stop s) eqn:Hs.
  - destruct (phase s) eqn:E.
    + congruence.
    + destruct (shutdown_progress n ls s H (or_introl E)) as (l & s' & G & Hst).
      exists l, s'. split; [assumption|]. split; [|assumption]. intros ->. inversion Hst; subst. congruence.
    + destruct (shutdown_progress n ls s H (or_intror E)) as (l & s' & G & Hst).
      exists l, s'. split; [assumption|]. split; [|assumption]. intros ->. inversion Hst; subst. congruence.
    + specialize (Rt eq_refl). destruct (workers s) as [|w ws] eqn:Ew; [cbn in Ln; lia|].
      exfalso. apply Hq, (Ex 0). cbn. inversion Rt; subst. reflexivity.
  - destruct (Wk Hq eq_refl Hn) as [Hp|(i & w & Hi & Hw)].
    + destruct (pending s) as [|p] eqn:Ep; [lia|].
      assert (Hd : forall w : worker, {w = Waiting} + {w <> Waiting})
        by (intros w; destruct w; [right|left|right|right]; congruence).
      destruct (Exists_dec (fun w => w = @Waiting task) (workers s) Hd) as [Hx|Hx].
      * apply Exists_exists in Hx as (w & Hin & ->). apply In_nth_error in Hin as [i Hi].
        exists LNotify. eexists. split; [exact I|]. split; [discriminate|].
        eapply SNotifyOne; eassumption.
      * exists LNotify. eexists. split; [exact I|]. split; [discriminate|].
        apply (SNotifyNone task s p Ep). intros i Hi. apply Hx. apply Exists_exists.
        exists Waiting. split; [eapply nth_error_In, Hi|reflexivity].
    + destruct w as [| |t|]; [|congruence| |].
      * destruct (queue s) as [|t q] eqn:Eq; [congruence|].
        exists (LWorker i). eexists. split; [exact I|]. split; [discriminate|].
        eapply STake; eassumption.
      * exists (LFinish i). eexists. split; [exact I|]. split; [discriminate|].
        eapply SFinish; eassumption.
      * destruct (Ex i Hi). congruence.
Qed.

End Proofs.
