(** Model of the cloud pipeline of builder/data/data_collector.{h,cc} as a transition
    system: the thread calling AddSensorData<PointT> (data_collector.h:206-210), the
    preprocessing thread CloudPreProcessing (data_collector.cc:120-156), the thread
    calling GetNewCloud / ClearAllCloud (cc:158-167, 320-328) and the destructor
    (cc:51-56).

    mutex_[kPointCloudData] is explicit.  Reading [deque::empty()] at cc:125 happens
    without the mutex and is treated as an atomic read that sees the current contents
    (see the race theorem C65); so is the non-atomic flag
    kill_cloud_preprocessing_thread_. *)
From Coq Require Import List Bool.
From Verif Require Import Outcome TimeModel.
Import ListNotations.

Section Pipe.
Variable cloud : Type.
Variable stamp : cloud -> time.
(** The filter chain filter_factory_->SetInputCloud; Filter (cc:137-139), possibly
    random, possibly aborting. *)
Variable filt : cloud -> outcome cloud -> Prop.

Inductive tid := Producer | Preproc | Consumer.

(** Program counters.  Producer: outside, or holding the mutex before push_back. *)
Inductive ppc := P0 | P1 (c : cloud).
(** Preprocessing thread. *)
Inductive kpc :=
| K0                (* cc:122: about to read the kill flag *)
| K1                (* cc:125: about to read empty(), no lock held *)
| K2                (* cc:131-132: queue seen non-empty, about to lock *)
| K3                (* cc:133-134: holds the lock, about to front(); pop_front() *)
| K4 (c : cloud)    (* cc:138-140: filtering and stamp check *)
| K5 (c : cloud)    (* cc:143: about to lock *)
| K6 (c : cloud)    (* cc:145: holds the lock, about to push_back *)
| KEnd.             (* cc:123: left the loop *)
(** Consumer: outside, or holding the mutex in GetNewCloud / ClearAllCloud. *)
Inductive cpc := C0 | C1 | C2.

Record pipe := mkPipe {
  raw : list cloud;                 (* cloud_data_before_preprocessing_ *)
  out : list cloud;                 (* cloud_data_ *)
  mutex : option tid;
  kill : bool;
  prod : ppc;
  pre : kpc;
  cons : cpc;
  inserted : list cloud;            (* history: pushed by AddSensorData *)
  taken : list (bool * cloud) }.    (* history: true = handed out, false = cleared *)

Definition pipe_init : pipe := mkPipe [] [] None false P0 K0 C0 [] [].

(** Result of one step. *)
Inductive result := Next (s : pipe) | Crash (o : outcome unit).

Inductive pstep : pipe -> result -> Prop :=
(** data_collector.h:208: lock. *)
| PLock : forall s c, prod s = P0 -> mutex s = None ->
    pstep s (Next (mkPipe (raw s) (out s) (Some Producer) (kill s) (P1 c) (pre s) (cons s)
                          (inserted s) (taken s)))
(** h:210: push_back and unlock. *)
| PPush : forall s c, prod s = P1 c ->
    pstep s (Next (mkPipe (raw s ++ [c]) (out s) None (kill s) P0 (pre s) (cons s)
                          (inserted s ++ [c]) (taken s)))
(** cc:122-124. *)
| KKill : forall s, pre s = K0 -> kill s = true ->
    pstep s (Next (mkPipe (raw s) (out s) (mutex s) (kill s) (prod s) KEnd (cons s)
                          (inserted s) (taken s)))
| KGo : forall s, pre s = K0 -> kill s = false ->
    pstep s (Next (mkPipe (raw s) (out s) (mutex s) (kill s) (prod s) K1 (cons s)
                          (inserted s) (taken s)))
(** cc:125-128: empty: sleep and continue. *)
| KEmpty : forall s, pre s = K1 -> raw s = [] ->
    pstep s (Next (mkPipe (raw s) (out s) (mutex s) (kill s) (prod s) K0 (cons s)
                          (inserted s) (taken s)))
| KSome : forall s c q, pre s = K1 -> raw s = c :: q ->
    pstep s (Next (mkPipe (raw s) (out s) (mutex s) (kill s) (prod s) K2 (cons s)
                          (inserted s) (taken s)))
(** cc:132: lock. *)
| KLock : forall s, pre s = K2 -> mutex s = None ->
    pstep s (Next (mkPipe (raw s) (out s) (Some Preproc) (kill s) (prod s) K3 (cons s)
                          (inserted s) (taken s)))
(** cc:133-135: front, pop_front, unlock; both are undefined on an empty deque. *)
| KPop : forall s c q, pre s = K3 -> raw s = c :: q ->
    pstep s (Next (mkPipe q (out s) None (kill s) (prod s) (K4 c) (cons s)
                          (inserted s) (taken s)))
| KPopUB : forall s, pre s = K3 -> raw s = [] -> pstep s (Crash UB)
(** cc:137-140: filter, CHECK(data->stamp == filtered_cloud->stamp). *)
| KFilter : forall s c c', pre s = K4 c -> filt c (Ok c') ->
    t_eq (stamp c) (stamp c') = Ok true ->
    pstep s (Next (mkPipe (raw s) (out s) (mutex s) (kill s) (prod s) (K5 c') (cons s)
                          (inserted s) (taken s)))
| KCheck : forall s c c', pre s = K4 c -> filt c (Ok c') ->
    t_eq (stamp c) (stamp c') = Ok false -> pstep s (Crash Abort)
| KAbort : forall s c, pre s = K4 c -> filt c Abort -> pstep s (Crash Abort)
| KUB : forall s c, pre s = K4 c -> filt c UB -> pstep s (Crash UB)
| KThrow : forall s c, pre s = K4 c -> filt c Throw -> pstep s (Crash Throw)
(** cc:143. *)
| KLock2 : forall s c, pre s = K5 c -> mutex s = None ->
    pstep s (Next (mkPipe (raw s) (out s) (Some Preproc) (kill s) (prod s) (K6 c) (cons s)
                          (inserted s) (taken s)))
(** cc:145-154 and the unlock at the end of the loop body. *)
| KPush : forall s c, pre s = K6 c ->
    pstep s (Next (mkPipe (raw s) (out s ++ [c]) None (kill s) (prod s) K0 (cons s)
                          (inserted s) (taken s)))
(** GetNewCloud, cc:158-167. *)
| CLock : forall s, cons s = C0 -> mutex s = None ->
    pstep s (Next (mkPipe (raw s) (out s) (Some Consumer) (kill s) (prod s) (pre s) C1
                          (inserted s) (taken s)))
| CNull : forall s, cons s = C1 -> out s = [] ->
    pstep s (Next (mkPipe (raw s) (out s) None (kill s) (prod s) (pre s) C0
                          (inserted s) (taken s)))
| CGet : forall s c q, cons s = C1 -> out s = c :: q ->
    pstep s (Next (mkPipe (raw s) q None (kill s) (prod s) (pre s) C0
                          (inserted s) (taken s ++ [(true, c)])))
(** ClearAllCloud, cc:320-328. *)
| CLock2 : forall s, cons s = C0 -> mutex s = None ->
    pstep s (Next (mkPipe (raw s) (out s) (Some Consumer) (kill s) (prod s) (pre s) C2
                          (inserted s) (taken s)))
| CClear : forall s, cons s = C2 ->
    pstep s (Next (mkPipe (raw s) [] None (kill s) (prod s) (pre s) C0
                          (inserted s) (taken s ++ map (pair false) (out s))))
(** ~DataCollector, cc:52. *)
| DKill : forall s,
    pstep s (Next (mkPipe (raw s) (out s) (mutex s) true (prod s) (pre s) (cons s)
                          (inserted s) (taken s))).

Inductive preach : result -> Prop :=
| preach_init : preach (Next pipe_init)
| preach_step : forall s r, preach (Next s) -> pstep s r -> preach r.

End Pipe.
Arguments P0 {cloud}. Arguments P1 {cloud}. Arguments K0 {cloud}. Arguments K1 {cloud}.
Arguments K2 {cloud}. Arguments K3 {cloud}. Arguments K4 {cloud}. Arguments K5 {cloud}.
Arguments K6 {cloud}. Arguments KEnd {cloud}.
Arguments mkPipe {cloud}. Arguments raw {cloud}. Arguments out {cloud}.
Arguments mutex {cloud}. Arguments kill {cloud}. Arguments prod {cloud}.
Arguments pre {cloud}. Arguments cons {cloud}. Arguments inserted {cloud}.
Arguments taken {cloud}. Arguments pipe_init {cloud}.
Arguments Next {cloud}. Arguments Crash {cloud}.
Arguments pstep {cloud}. Arguments preach {cloud}.
