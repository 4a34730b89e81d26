(** Property theorems C12, C65: the cloud pipeline. *)
From Coq Require Import List Bool ZArith.
From Verif Require Import Outcome TimeModel PipeModel PipeSpec PipeProofs.
Import ListNotations.

(** C12.  In every reachable state of every schedule the clouds taken out (by GetNewCloud
    or ClearAllCloud), followed by the waiting ones and the one about to be queued, are in
    order the results of passing the first inserted clouds once each through the filter;
    the remaining inserted clouds are, in order, the one being filtered and those not yet
    looked at. *)
Theorem C12_fifo_lossless : forall cloud (stamp : cloud -> time) filt s,
  preach stamp filt (Next s) ->
  exists finished, inserted s = finished ++ unfiltered (pre s) ++ raw s /\
    Forall2 (passed stamp filt) finished
            (map snd (taken s) ++ out s ++ filtered (pre s)).
Proof. exact pipe_history. Qed.
Print Assumptions C12_fifo_lossless.

(** The pipeline itself never fails: the process can only die inside the filter chain or
    on the stamp check of the cloud just filtered; in particular popping an empty queue
    is impossible although the emptiness test is outside the lock. *)
Theorem C12_crash_only_in_filter : forall cloud (stamp : cloud -> time) filt o,
  preach stamp filt (Crash o) ->
  exists s c, preach stamp filt (Next s) /\ pre s = K4 c /\
    ((o = Abort /\ (filt c Abort \/
        exists c', filt c (Ok c') /\ t_eq (stamp c) (stamp c') = Ok false)) \/
     (o = UB /\ filt c UB) \/ (o = Throw /\ filt c Throw)).
Proof. exact pipe_crash. Qed.
Print Assumptions C12_crash_only_in_filter.

(** Nobody blocks for ever: whoever holds the mutex can always release it next. *)
Theorem C12_lock_released : forall cloud (stamp : cloud -> time) filt s t,
  preach stamp filt (Next s) -> mutex s = Some t ->
  exists s', pstep stamp filt s (Next s') /\ mutex s' = None.
Proof. exact holder_releases. Qed.
Print Assumptions C12_lock_released.

(** C65.  At most one thread is ever inside a protected section ... *)
Theorem C65_mutual_exclusion : forall cloud (stamp : cloud -> time) filt s t t',
  preach stamp filt (Next s) -> inside s t -> inside s t' -> t = t'.
Proof. exact pipe_mutual_exclusion. Qed.
Print Assumptions C65_mutual_exclusion.

(** ... but the emptiness test of the preprocessing thread is not protected: for every
    cloud there is a schedule in which that thread is about to read the queue while the
    inserting thread is in the middle of pushing that cloud (a data race). *)
Theorem C65_race_free_refuted : forall cloud (stamp : cloud -> time) filt (c : cloud),
  exists s, preach stamp filt (Next s) /\
    pre s = K1 /\ prod s = P1 c /\ mutex s = Some Producer.
Proof. exact pipe_race. Qed.
Print Assumptions C65_race_free_refuted.

(** A concrete run: two clouds go in, one comes out, one is still waiting. *)
Example pipe_ex :
  let filt := fun (c : nat) o => o = Ok (c + 10) in
  exists s, preach (fun _ => mkTime 5 7) filt (Next s) /\
    inserted s = [1; 2] /\ taken s = [(true, 11)] /\ raw s = [2].
Proof.
  cbv zeta. pose proof (preach_init _ (fun _ : nat => mkTime 5 7)
    (fun (c : nat) o => o = Ok (c + 10))) as H.
  eapply preach_step in H; [|apply (PLock _ _ _ _ 1); reflexivity]; cbn in H.
  eapply preach_step in H; [|eapply PPush; reflexivity]; cbn in H.
  eapply preach_step in H; [|apply (PLock _ _ _ _ 2); reflexivity]; cbn in H.
  eapply preach_step in H; [|eapply PPush; reflexivity]; cbn in H.
  eapply preach_step in H; [|eapply KGo; reflexivity]; cbn in H.
  eapply preach_step in H; [|eapply KSome; reflexivity]; cbn in H.
  eapply preach_step in H; [|eapply KLock; reflexivity]; cbn in H.
  eapply preach_step in H; [|eapply KPop; reflexivity]; cbn in H.
  eapply preach_step in H; [|eapply (KFilter _ _ _ _ 1 11); reflexivity]; cbn in H.
  eapply preach_step in H; [|eapply KLock2; reflexivity]; cbn in H.
  eapply preach_step in H; [|eapply KPush; reflexivity]; cbn in H.
  eapply preach_step in H; [|eapply CLock; reflexivity]; cbn in H.
  eapply preach_step in H; [|eapply CGet; reflexivity]; cbn in H.
  eexists. split; [exact H|]. cbn. auto.
Qed.
