(** Property theorems C14, C15, C64: the thread pool. *)
From Coq Require Import List Bool Arith Lia Permutation.
From Verif Require Import PoolModel PoolSpec PoolProofs.
Import ListNotations.

(** C14.  In every reachable state the accepted tasks are the started ones followed by the
    queue, in order of acceptance (so none starts twice and none overtakes), and every
    started task is finished or running, exactly once. *)
Theorem C14_fifo_once : forall task n ls (s : pool task), steps (pool_init n) ls s ->
  accepted s = started s ++ queue s /\
  Permutation (started s) (finished s ++ running (workers s)).
Proof. exact pool_fifo. Qed.
Print Assumptions C14_fifo_once.

Theorem C14_all_done_when_destroyed : forall task n ls (s : pool task), 0 < n ->
  steps (pool_init n) ls s -> phase s = Returned ->
  queue s = [] /\ started s = accepted s /\ Permutation (finished s) (accepted s).
Proof. exact pool_complete. Qed.
Print Assumptions C14_all_done_when_destroyed.

(** Without the hypothesis of at least one worker the claim is false. *)
Theorem C14_zero_workers_refuted : forall (task : Type) (t : task), exists ls s,
  steps (pool_init 0) ls s /\
  phase s = Returned /\ accepted s = [t] /\ started s = [] /\ finished s = [].
Proof. exact pool_zero_workers. Qed.
Print Assumptions C14_zero_workers_refuted.

(** C15. *)
Theorem C15_rejects_after_stop : forall task n ls (s : pool task),
  steps (pool_init n) ls s -> stop s = true ->
  (forall t s', ~ step s (LEnqueue t) s') /\
  (forall t, exists s', step s (LReject t) s') /\
  (forall ls' s', steps s ls' s' -> accepted s' = accepted s /\ stop s' = true).
Proof. exact after_stop. Qed.
Print Assumptions C15_rejects_after_stop.

Theorem C15_no_early_reject : forall task n ls (s : pool task) t s',
  steps (pool_init n) ls s -> phase s = NotCalled -> ~ step s (LReject t) s'.
Proof. exact before_stop_no_reject. Qed.
Print Assumptions C15_no_early_reject.

Theorem C15_shutdown_progress : forall task n ls (s : pool task),
  steps (pool_init n) ls s -> phase s = Stopped \/ phase s = Joining ->
  exists l s', genuine l /\ step s l s'.
Proof. exact shutdown_progress. Qed.
Print Assumptions C15_shutdown_progress.

(** Once stop is set every schedule is finite ... *)
Theorem C15_shutdown_bounded : forall task (s : pool task), stop s = true ->
  exists bound, forall ls s', steps s ls s' -> Forall effective ls -> length ls <= bound.
Proof.
  intros task s Hs. exists (measure task s). intros ls s' H Hl.
  pose proof (shutdown_bounded task s ls s' Hs H Hl). lia.
Qed.
Print Assumptions C15_shutdown_bounded.

(** ... and a schedule that cannot be continued has ended with the destructor returning. *)
Theorem C15_shutdown_completes : forall task n ls (s : pool task),
  steps (pool_init n) ls s -> stop s = true ->
  (forall l s', genuine l -> ~ step s l s') -> phase s = Returned.
Proof. exact shutdown_completes. Qed.
Print Assumptions C15_shutdown_completes.

(** C64.  No lost wake-up. *)
Theorem C64_no_lost_wakeup : forall task n ls (s : pool task), 0 < n ->
  steps (pool_init n) ls s -> queue s <> [] ->
  exists l s', genuine l /\ l <> LStop /\ step s l s'.
Proof. exact no_lost_wakeup. Qed.
Print Assumptions C64_no_lost_wakeup.

(** A run of two workers and three tasks: worker 1 overtakes worker 0 in finishing, an
    enqueue after the stop is rejected, and the destructor returns. *)
Example pool_ex : exists s,
  steps (pool_init 2)
    [LWorker 0; LEnqueue 10; LEnqueue 11; LWorker 1; LNotify; LWorker 0; LFinish 0;
     LEnqueue 12; LStop; LReject 13; LWorker 0; LNotify; LNotifyAll; LFinish 1; LNotify; LWorker 1;
     LFinish 0; LWorker 0; LJoin] s /\
  accepted s = [10; 11; 12] /\ finished s = [11; 10; 12] /\ rejected s = [13] /\ phase s = Returned.
Proof.
  eexists. split.
  - eapply steps_cons; [apply SWait; reflexivity|cbn].
    eapply steps_cons; [apply SEnqueue; reflexivity|cbn].
    eapply steps_cons; [apply SEnqueue; reflexivity|cbn].
    eapply steps_cons; [eapply STake; reflexivity|cbn].
    eapply steps_cons; [eapply (SNotifyOne _ _ 0); reflexivity|cbn].
    eapply steps_cons; [eapply STake; reflexivity|cbn].
    eapply steps_cons; [eapply SFinish; reflexivity|cbn].
    eapply steps_cons; [apply SEnqueue; reflexivity|cbn].
    eapply steps_cons; [apply SStop; reflexivity|cbn].
    eapply steps_cons; [apply SReject; reflexivity|cbn].
    eapply steps_cons; [eapply STake; reflexivity|cbn].
    eapply steps_cons; [eapply SNotifyNone; [reflexivity|intros [|[|[|i]]]; cbn; discriminate]|cbn].
    eapply steps_cons; [apply SNotifyAll; reflexivity|cbn].
    eapply steps_cons; [eapply SFinish; reflexivity|cbn].
    eapply steps_cons; [eapply SNotifyNone; [reflexivity|intros [|[|[|i]]]; cbn; discriminate]|cbn].
    eapply steps_cons; [apply SExit; reflexivity|cbn].
    eapply steps_cons; [eapply SFinish; reflexivity|cbn].
    eapply steps_cons; [apply SExit; reflexivity|cbn].
    eapply steps_cons; [apply SJoin; [reflexivity|repeat constructor]|cbn].
    apply steps_nil.
  - cbn. auto.
Qed.
