(** Model of the thread structure of builder/map_builder.cc: the main thread
    (InitialiseInside 103-110, InsertPointcloudMsg 156-169, FinishAllComputations 715-746), the
    preprocessing thread of the data collector (data/data_collector.cc:120-156, in detail in
    PipeModel), the scan-match thread (ScanMatchProcessing 260-397), the submap thread
    (SubmapProcessing 644-713), the task ConnectAllSubmap (448-613) and the tasks
    SubmapPairMatch (399-446) of its thread pool.

    Every step is one access to shared state.  frames_ and the trajectory are
    tbb::concurrent_vector (map_builder.h:258, trajectory.h:56): push_back first makes the
    vector larger and then constructs the element, size() counts elements still under
    construction, and reading such an element is UB ([None]).  The numerical content is a
    parameter: [sm_step] is what scan matching does with one cloud (its local state, and the
    frame it inserts if the cloud becomes a key frame).  The tasks of the pool run in any
    order, each once (ThreadPool, C14); a task of SubmapPairMatch is one step, its effect is
    the call of SetMatchedTransformedToNext (432/437), which aborts when it was called before
    on that submap (submap.cc, C32).  Not modelled here: poses, the optimizer (its AddFrame
    calls are recorded), GPS, visualisation callbacks, the output written by 586-612, and the
    sleeps.  One thread calls the public functions, as in ros_node/static_mapping_node.cpp. *)
From Coq Require Import List Bool ZArith.
From Verif Require Import Outcome.
Import ListNotations.
Local Open Scope nat_scope.

Section Builder.
Variables cloud frame smst : Type.
Variable sm_init : smst.
Variable sm_step : smst -> cloud -> smst * option frame.
(** submap_options.frame_count, an int *)
Variable fc : Z.
(** [false] is the code as written; [true] is the submap thread with the reads of
    frames_.size() (662) and of the running flag (664) exchanged, used only in C39. *)
Variable swapped : bool.

(** The collector: clouds waiting for preprocessing, being preprocessed, waiting for scan
    matching; histories of the inserted and of the delivered clouds. *)
Record coll := mkColl { raw : list cloud; hold : option cloud; out : list cloud;
                        ins : list cloud; tkn : list cloud }.
(** Scan-match thread *)
Inductive scpc :=
| SInit                (* 263: about to set running *)
| SGet                 (* 271: about to call GetNewCloud *)
| SNull                (* 273: no cloud, about to read end_all_thread_ *)
| SWork (c : cloud)    (* 280-391: matching *)
| SPush (f : frame)    (* 228: inside push_back, element not constructed *)
| SStop                (* 395: about to clear running *)
| SEnd.
Record scan := mkScan { spc : scpc; sst : smst; running : bool; frames : list (option frame) }.
(** Submap thread *)
Inductive supc :=
| MNone                (* not started *)
| MStart               (* 659: about to enqueue ConnectAllSubmap *)
| MSize                (* 662: about to read frames_.size() *)
| MFlag                (* 664: not enough frames, about to read running *)
| MRetry (b : bool)    (* only with exchanged reads: running was read as b *)
| MBuild (i : nat)     (* 684: i frames still to insert *)
| MFull                (* 688: CHECK(submap->Full()) *)
| MPush                (* 706: about to call push_back *)
| MPush2               (* 706: inside push_back, element not constructed *)
| MEnq (k : nat)       (* 707: about to enqueue the match of submap k *)
| MDone                (* 711: about to set submap_processing_done_ *)
| MJoin                (* 713: destructor of the pool *)
| MEnd.
Record sub := mkSub { mpc : supc; idx : nat; cur : list frame; traj : list (option (list frame));
                      done : bool }.
(** ConnectAllSubmap *)
Inductive copc :=
| XNone                        (* not enqueued *)
| XSize                        (* 455: about to read the number of submaps *)
| XFlag                        (* 457: about to read submap_processing_done_ *)
| XFirst (n : nat)             (* 464: n submaps seen *)
| XCol (n i : nat) (l : list nat)  (* 474: about to look at submap i; l collected so far *)
| XConn (l : list nat)         (* 486: connecting; the indices still to connect *)
| XLast                        (* 559: mark the last submap *)
| XEnd.
Record con := mkCon { xpc : copc; pend : list nat; matched : nat -> bool; fin : nat; firsti : bool;
                      conn : list nat }.
(** Main thread *)
Inductive apc :=
| AWait     (* 105: waits until the scan-match thread runs *)
| ARun      (* between calls *)
| AFin      (* 722-737: polling the running flag *)
| AJoin     (* 739: join of the scan-match thread *)
| AJoin2    (* 742: join of the submap thread *)
| ADone.
Record st := mkSt { co : coll; sc : scan; su : sub; cn : con; ap : apc; endf : bool }.

Definition init : st :=
  mkSt (mkColl [] None [] [] []) (mkScan SInit sm_init false []) (mkSub MNone 0 [] [] false)
       (mkCon XNone [] (fun _ => false) 0 false []) AWait false.

Definition set_co s x := mkSt x (sc s) (su s) (cn s) (ap s) (endf s).
Definition set_sc s x := mkSt (co s) x (su s) (cn s) (ap s) (endf s).
Definition set_su s x := mkSt (co s) (sc s) x (cn s) (ap s) (endf s).
Definition set_cn s x := mkSt (co s) (sc s) (su s) x (ap s) (endf s).
Definition set_ap s x := mkSt (co s) (sc s) (su s) (cn s) x (endf s).
Definition set_spc (s : st) p := set_sc s (mkScan p (sst (sc s)) (running (sc s)) (frames (sc s))).
Definition set_mpc (s : st) p :=
  set_su s (mkSub p (idx (su s)) (cur (su s)) (traj (su s)) (done (su s))).
Definition set_xpc (s : st) p :=
  set_cn s (mkCon p (pend (cn s)) (matched (cn s)) (fin (cn s)) (firsti (cn s)) (conn (cn s))).

Inductive result := Next (s : st) | Crash (o : outcome unit).

(** 662-663: int frames_size; [frames_size - current_index < submap_frame_count] is computed
    in size_t.  (The number of frames is assumed to fit an int.) *)
Definition too_few (n i : nat) : bool :=
  Z.ltb ((Z.of_nat n - Z.of_nat i) mod 2 ^ 64) (fc mod 2 ^ 64).

(** the last slot of a concurrent_vector is constructed *)
Definition fill {A} (l : list (option A)) (x : A) : list (option A) := removelast l ++ [Some x].
Definition upd (m : nat -> bool) (k : nat) : nat -> bool := fun j => if Nat.eqb j k then true else m j.

Inductive bstep (s : st) : result -> Prop :=
(** ** main thread *)
| AStart : ap s = AWait -> running (sc s) = true ->                              (* 105-110 *)
    bstep s (Next (set_ap (set_mpc s MStart) ARun))
| AInsert c : ap s = ARun -> endf s = false ->                                   (* 156-169 *)
    bstep s (Next (set_co s (mkColl (raw (co s) ++ [c]) (hold (co s)) (out (co s)) (ins (co s) ++ [c]) (tkn (co s)))))
| AFinish : ap s = ARun ->                                                       (* 717 *)
    bstep s (Next (mkSt (co s) (sc s) (su s) (cn s) AFin true))
| APoll : ap s = AFin -> running (sc s) = false -> bstep s (Next (set_ap s AJoin))  (* 737 *)
| AJoinScan : ap s = AJoin -> spc (sc s) = SEnd -> bstep s (Next (set_ap s AJoin2)) (* 739 *)
| AJoinSub : ap s = AJoin2 -> mpc (su s) = MEnd -> bstep s (Next (set_ap s ADone))  (* 742-745 *)
(** ** preprocessing thread, data_collector.cc:131-135 and 143-145 *)
| PTake c q : hold (co s) = None -> raw (co s) = c :: q ->
    bstep s (Next (set_co s (mkColl q (Some c) (out (co s)) (ins (co s)) (tkn (co s)))))
| PPut c : hold (co s) = Some c ->
    bstep s (Next (set_co s (mkColl (raw (co s)) None (out (co s) ++ [c]) (ins (co s)) (tkn (co s)))))
(** ** scan-match thread *)
| SStart : spc (sc s) = SInit ->
    bstep s (Next (set_sc s (mkScan SGet (sst (sc s)) true (frames (sc s)))))
| SGetNone : spc (sc s) = SGet -> out (co s) = [] -> bstep s (Next (set_spc s SNull))
| SGetSome c q : spc (sc s) = SGet -> out (co s) = c :: q ->
    bstep s (Next (set_co (set_spc s (SWork c)) (mkColl (raw (co s)) (hold (co s)) q (ins (co s)) (tkn (co s) ++ [c]))))
| SNullEnd : spc (sc s) = SNull -> endf s = true -> bstep s (Next (set_spc s SStop))
| SNullGo : spc (sc s) = SNull -> endf s = false -> bstep s (Next (set_spc s SGet))
| SWorkNone c x : spc (sc s) = SWork c -> sm_step (sst (sc s)) c = (x, None) ->
    bstep s (Next (set_sc s (mkScan SGet x (running (sc s)) (frames (sc s)))))
| SWorkKey c x f : spc (sc s) = SWork c -> sm_step (sst (sc s)) c = (x, Some f) ->
    bstep s (Next (set_sc s (mkScan (SPush f) x (running (sc s)) (frames (sc s) ++ [None]))))
| SPushed f : spc (sc s) = SPush f ->
    bstep s (Next (set_sc s (mkScan SGet (sst (sc s)) (running (sc s)) (fill (frames (sc s)) f))))
| SExit : spc (sc s) = SStop ->
    bstep s (Next (set_sc s (mkScan SEnd (sst (sc s)) false (frames (sc s)))))
(** ** submap thread *)
| MBegin : mpc (su s) = MStart ->
    bstep s (Next (set_xpc (set_mpc s (if swapped then MFlag else MSize)) XSize))
| MFew : swapped = false -> mpc (su s) = MSize -> too_few (length (frames (sc s))) (idx (su s)) = true ->
    bstep s (Next (set_mpc s MFlag))
| MStop : swapped = false -> mpc (su s) = MFlag -> running (sc s) = false -> bstep s (Next (set_mpc s MDone))
| MWait : swapped = false -> mpc (su s) = MFlag -> running (sc s) = true -> bstep s (Next (set_mpc s MSize))
| MEnough : swapped = false -> mpc (su s) = MSize -> too_few (length (frames (sc s))) (idx (su s)) = false ->
    bstep s (Next (set_su s (mkSub (MBuild (Z.to_nat fc)) (idx (su s)) [] (traj (su s)) (done (su s)))))
| MSwFlag : swapped = true -> mpc (su s) = MFlag -> bstep s (Next (set_mpc s (MRetry (running (sc s)))))
| MSwStop : mpc (su s) = MRetry false -> too_few (length (frames (sc s))) (idx (su s)) = true ->
    bstep s (Next (set_mpc s MDone))
| MSwWait : mpc (su s) = MRetry true -> too_few (length (frames (sc s))) (idx (su s)) = true ->
    bstep s (Next (set_mpc s MFlag))
| MSwEnough b : mpc (su s) = MRetry b -> too_few (length (frames (sc s))) (idx (su s)) = false ->
    bstep s (Next (set_su s (mkSub (MBuild (Z.to_nat fc)) (idx (su s)) [] (traj (su s)) (done (su s)))))
| MInsert i f : mpc (su s) = MBuild (S i) -> nth_error (frames (sc s)) (idx (su s)) = Some (Some f) ->
    bstep s (Next (set_su s (mkSub (MBuild i) (S (idx (su s))) (cur (su s) ++ [f]) (traj (su s)) (done (su s)))))
| MInsertUB i : mpc (su s) = MBuild (S i) ->
    (forall f, nth_error (frames (sc s)) (idx (su s)) <> Some (Some f)) -> bstep s (Crash UB)
| MBuilt : mpc (su s) = MBuild 0 -> bstep s (Next (set_mpc s MFull))
(** submap.cc:93: full when the number of frames, set by an insertion, equals frame_count *)
| MFullOk : mpc (su s) = MFull -> cur (su s) <> [] /\ Z.of_nat (length (cur (su s))) = fc ->
    bstep s (Next (set_mpc s MPush))
| MFullAbort : mpc (su s) = MFull -> ~ (cur (su s) <> [] /\ Z.of_nat (length (cur (su s))) = fc) -> bstep s (Crash Abort)
| MPush1 : mpc (su s) = MPush ->
    bstep s (Next (set_su s (mkSub MPush2 (idx (su s)) (cur (su s)) (traj (su s) ++ [None]) (done (su s)))))
| MPushed : mpc (su s) = MPush2 ->
    bstep s (Next (set_su s (mkSub (MEnq (length (traj (su s)) - 1)) (idx (su s)) (cur (su s))
                               (fill (traj (su s)) (cur (su s))) (done (su s)))))
| MEnqueue k : mpc (su s) = MEnq k ->
    bstep s (Next (set_cn (set_mpc s (if swapped then MFlag else MSize))
      (mkCon (xpc (cn s)) (if Nat.ltb 0 k then pend (cn s) ++ [k] else pend (cn s)) (matched (cn s)) (fin (cn s))
             (firsti (cn s)) (conn (cn s)))))
| MSetDone : mpc (su s) = MDone ->
    bstep s (Next (set_su s (mkSub MJoin (idx (su s)) (cur (su s)) (traj (su s)) true)))
| MJoined : mpc (su s) = MJoin -> pend (cn s) = [] -> xpc (cn s) = XEnd -> bstep s (Next (set_mpc s MEnd))
(** ** SubmapPairMatch(k, k-1), one task of the pool *)
| TMatch p1 k p2 : pend (cn s) = p1 ++ k :: p2 -> matched (cn s) (k - 1) = false ->
    bstep s (Next (set_cn s (mkCon (xpc (cn s)) (p1 ++ p2) (upd (matched (cn s)) (k - 1)) (fin (cn s))
                               (firsti (cn s)) (conn (cn s)))))
| TMatchAbort p1 k p2 : pend (cn s) = p1 ++ k :: p2 -> matched (cn s) (k - 1) = true -> bstep s (Crash Abort)
(** ** ConnectAllSubmap *)
| XNothing : xpc (cn s) = XSize ->
    (length (traj (su s)) = 0 \/ length (traj (su s)) = S (fin (cn s))) -> bstep s (Next (set_xpc s XFlag))  (* 456 *)
| XSome : xpc (cn s) = XSize ->
    ~ (length (traj (su s)) = 0 \/ length (traj (su s)) = S (fin (cn s))) ->
    bstep s (Next (set_xpc s (XFirst (length (traj (su s))))))
| XQuit : xpc (cn s) = XFlag -> done (su s) = true -> bstep s (Next (set_xpc s XLast))        (* 457 *)
| XSleep : xpc (cn s) = XFlag -> done (su s) = false -> bstep s (Next (set_xpc s XSize))
| XFirstAdd n : xpc (cn s) = XFirst n -> firsti (cn s) = false ->                            (* 464-470 *)
    (exists f, nth_error (traj (su s)) 0 = Some (Some f)) ->
    bstep s (Next (set_cn s (mkCon (XCol n (fin (cn s)) []) (pend (cn s)) (matched (cn s)) (fin (cn s)) true
                               (conn (cn s) ++ [0]))))
| XFirstUB n : xpc (cn s) = XFirst n -> firsti (cn s) = false ->
    (forall f, nth_error (traj (su s)) 0 <> Some (Some f)) -> bstep s (Crash UB)
| XFirstSkip n : xpc (cn s) = XFirst n -> firsti (cn s) = true ->
    bstep s (Next (set_xpc s (XCol n (fin (cn s)) [])))
| XCollect n i l f : xpc (cn s) = XCol n i l -> i < n -> nth_error (traj (su s)) i = Some (Some f) ->  (* 473-478 *)
    bstep s (Next (set_xpc s (XCol (if matched (cn s) i then n else i) (S i) (l ++ [i]))))
| XCollectUB n i l : xpc (cn s) = XCol n i l -> i < n ->
    (forall f, nth_error (traj (su s)) i <> Some (Some f)) -> bstep s (Crash UB)
| XFewCol n i l : xpc (cn s) = XCol n i l -> n <= i -> length l <= 1 -> bstep s (Next (set_xpc s XSize))  (* 480 *)
| XManyCol n i l : xpc (cn s) = XCol n i l -> n <= i -> 1 < length l -> bstep s (Next (set_xpc s (XConn (tl l))))
| XConnect k l : xpc (cn s) = XConn (k :: l) ->                                              (* 484-500 *)
    bstep s (Next (set_cn s (mkCon (XConn l) (pend (cn s)) (matched (cn s)) (S (fin (cn s))) (firsti (cn s))
                               (conn (cn s) ++ [k]))))
| XConnected : xpc (cn s) = XConn [] -> bstep s (Next (set_xpc s XSize))
| XLastNone : xpc (cn s) = XLast -> traj (su s) = [] -> bstep s (Next (set_xpc s XEnd))      (* 559 *)
| XLastMark f : xpc (cn s) = XLast -> nth_error (traj (su s)) (length (traj (su s)) - 1) = Some (Some f) ->
    matched (cn s) (length (traj (su s)) - 1) = false ->
    bstep s (Next (set_cn s (mkCon XEnd (pend (cn s)) (upd (matched (cn s)) (length (traj (su s)) - 1)) (fin (cn s))
                               (firsti (cn s)) (conn (cn s)))))
| XLastAbort f : xpc (cn s) = XLast -> nth_error (traj (su s)) (length (traj (su s)) - 1) = Some (Some f) ->
    matched (cn s) (length (traj (su s)) - 1) = true -> bstep s (Crash Abort)
| XLastUB : xpc (cn s) = XLast -> nth_error (traj (su s)) (length (traj (su s)) - 1) = Some None -> bstep s (Crash UB).

Inductive breach : result -> Prop :=
| breach_init : breach (Next init)
| breach_step s r : breach (Next s) -> bstep s r -> breach r.
End Builder.
Arguments mkColl {cloud}. Arguments raw {cloud}. Arguments hold {cloud}. Arguments out {cloud}.
Arguments ins {cloud}. Arguments tkn {cloud}.
Arguments SInit {cloud frame}. Arguments SGet {cloud frame}. Arguments SNull {cloud frame}.
Arguments SWork {cloud frame}. Arguments SPush {cloud frame}. Arguments SStop {cloud frame}.
Arguments SEnd {cloud frame}.
Arguments mkScan {cloud frame smst}. Arguments spc {cloud frame smst}. Arguments sst {cloud frame smst}.
Arguments running {cloud frame smst}. Arguments frames {cloud frame smst}.
Arguments mkSub {frame}. Arguments mpc {frame}. Arguments idx {frame}. Arguments cur {frame}.
Arguments traj {frame}. Arguments done {frame}.
Arguments mkSt {cloud frame smst}. Arguments co {cloud frame smst}. Arguments sc {cloud frame smst}.
Arguments su {cloud frame smst}. Arguments cn {cloud frame smst}. Arguments ap {cloud frame smst}.
Arguments endf {cloud frame smst}.
Arguments Next {cloud frame smst}. Arguments Crash {cloud frame smst}.
Arguments init {cloud frame smst}.
