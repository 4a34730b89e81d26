(** Model of one Submap shared by several threads, builder/submap.cc:174-275, with the
    cloud it owns (InnerPointCloudData, builder/data/cloud_types.cc:374-462), as a
    transition system: the lock operations of both classes are explicit and any number of
    threads may run any sequence of calls.

    Each call is a list of instructions; the conditions of the C++ code are instructions
    with a body.  Reads and writes of std::atomic members are single instructions, and so
    is every access to the shared_ptr inner_cloud_ (that those accesses can race is
    theorem C97_pointer_race).  InsertFrame, which takes no lock, is over.  Reading and writing the file are single instructions.
    Frames are reduced to their lock operations, poses and the EigenPointCloud are left
    out.  enable_disk_saving is a parameter. *)
From Coq Require Import List Bool ZArith.
From Verif Require Import Outcome.
Import ListNotations.
Local Open Scope Z_scope.

(** The two mutexes: Submap::mutex_ (submap.h:113) and InnerPointCloudData::mutex_
    (cloud_types.h:186), both boost::shared_mutex (common/mutex.h:99-101). *)
Inductive mid := MSubmap | MCloud.
Definition mid_eqb (a b : mid) : bool :=
  match a, b with MSubmap, MSubmap | MCloud, MCloud => true | _, _ => false end.

(** boost::shared_mutex, as documented and implemented in boost/thread/pthread/
    shared_mutex.hpp: the number of shared owners (the upgrade owner included), and the
    upgrade and exclusive flags. *)
Record rw := mkRw { r_count : nat; r_upgrade : bool; r_exclusive : bool }.
Definition rw_free := mkRw 0 false false.

(** How a thread owns a mutex. *)
Inductive mode :=
| No            (* not at all *)
| Shared        (* boost::shared_lock *)
| Upgrade       (* boost::upgrade_lock *)
| Waiting       (* inside unlock_upgrade_and_lock, waiting for the shared owners to leave *)
| Exclusive.    (* boost::upgrade_to_unique_lock *)

Inductive lockop :=
| LockShared      (* shared_lock(m) *)
| UnlockShared    (* ~shared_lock *)
| LockUpgrade     (* upgrade_lock(m) *)
| UnlockUpgrade   (* ~upgrade_lock *)
| BeginUpgrade    (* upgrade_to_unique_lock(l): unlock_upgrade_and_lock, up to its wait *)
| EndUpgrade      (* ... after its wait *)
| Downgrade.      (* ~upgrade_to_unique_lock: unlock_and_lock_upgrade *)

(** Effect on the mutex; None: the thread has to wait. *)
Definition rw_step (r : rw) (o : lockop) : option rw :=
  match o with
  | LockShared => if r_exclusive r then None else Some (mkRw (S (r_count r)) (r_upgrade r) false)
  | UnlockShared => Some (mkRw (pred (r_count r)) (r_upgrade r) (r_exclusive r))
  | LockUpgrade => if r_exclusive r || r_upgrade r then None else Some (mkRw (S (r_count r)) true false)
  | UnlockUpgrade => Some (mkRw (pred (r_count r)) false (r_exclusive r))
  | BeginUpgrade => Some (mkRw (pred (r_count r)) (r_upgrade r) (r_exclusive r))
  | EndUpgrade => if Nat.eqb (r_count r) 0 then Some (mkRw 0 false true) else None
  | Downgrade => Some (mkRw (S (r_count r)) true false)
  end.

(** How the thread owns the mutex afterwards. *)
Definition mode_step (o : lockop) : mode :=
  match o with
  | LockShared => Shared
  | UnlockShared => No
  | LockUpgrade => Upgrade
  | UnlockUpgrade => No
  | BeginUpgrade => Waiting
  | EndUpgrade => Exclusive
  | Downgrade => Upgrade
  end.

Inductive test :=
| TMatched        (* options_.enable_disk_saving && got_matched_transform_to_next_ *)
| TDisk           (* options_.enable_disk_saving *)
| TOld            (* cloud_inactive_time_ > options_.disk_saving_delay *)
| TInMemory       (* is_cloud_in_memory_ *)
| TNotInMemory.

Inductive instr :=
| ILock (m : mid) (o : lockop)
| IIf (t : test) (body : list instr)
| IResetTime                (* cloud_inactive_time_ = 0 *)
| IAddTime (k : Z)          (* cloud_inactive_time_ += k *)
| IDropCloud                (* inner_cloud_.reset(new InnerCloudType) *)
| ILoadCloud                (* open and deserialize the file, inner_cloud_ = it *)
| ISetInMemory (b : bool)   (* is_cloud_in_memory_ = b *)
| ICheckInMemory            (* CHECK(CloudInMemory()): its final load *)
| ICheckNotEmpty            (* CHECK(!Empty()), CHECK(!EmptyImpl()) *)
| ISave                     (* filename_ = filename; Serialize *)
| ICheckNotMatched          (* CHECK(!got_matched_transform_to_next_) *)
| ISetMatched               (* got_matched_transform_to_next_ = true *)
| IGetInner                 (* InnerPointCloudData::GetInnerCloud, which does not lock *)
| ITouchFrames              (* reading frames_ *)
| IWritePoses.              (* writing poses *)

(** InnerPointCloudData::Clear, cloud_types.cc:383-393. *)
Definition clear : list instr :=
  [ IIf TInMemory
      [ ILock MCloud LockUpgrade; ILock MCloud BeginUpgrade; ILock MCloud EndUpgrade;
        IDropCloud; ISetInMemory false;
        ILock MCloud Downgrade; ILock MCloud UnlockUpgrade ] ].

(** InnerPointCloudData::CloudInMemory, cc:441-457, and the CHECK of its result in
    Submap::Cloud. *)
Definition cloud_in_memory : list instr :=
  [ ILock MCloud LockUpgrade;
    IIf TNotInMemory
      [ ILock MCloud BeginUpgrade; ILock MCloud EndUpgrade;
        ILoadCloud; ISetInMemory true; ISetInMemory true;
        ILock MCloud Downgrade ];
    ICheckInMemory;
    ILock MCloud UnlockUpgrade ].

(** Submap::Cloud, submap.cc:217-222. *)
Definition submap_cloud : list instr :=
  [ ILock MSubmap LockShared; IResetTime ] ++ cloud_in_memory ++ [ ILock MSubmap UnlockShared ].

(** Submap::UpdateInactiveTime, submap.cc:224-235. *)
Definition update_inactive_time (k : Z) : list instr :=
  [ IIf TMatched
      ([ ILock MSubmap LockUpgrade; IAddTime k ] ++
       [ IIf TOld
           ([ ILock MSubmap BeginUpgrade; ILock MSubmap EndUpgrade ] ++ clear ++
            [ ILock MSubmap Downgrade ]) ] ++
       [ ILock MSubmap UnlockUpgrade ]) ].

(** InnerPointCloudData::Empty under CHECK(!...), cc:374-377; SaveToFile, cc:428-439. *)
Definition check_not_empty : list instr :=
  [ ILock MCloud LockShared; ICheckNotEmpty; ILock MCloud UnlockShared ].
Definition save_to_file : list instr :=
  [ ILock MCloud LockShared; ICheckNotEmpty; ISave; ILock MCloud UnlockShared ].

(** Submap::SetMatchedTransformedToNext, submap.cc:197-215, with Submap::ToPcdFile,
    cc:237-240, and the loop over frames_, cc:208-211 (the frames' own clouds are other
    objects). *)
Definition set_matched : list instr :=
  [ ICheckNotMatched;
    ILock MSubmap LockUpgrade;
    ILock MSubmap BeginUpgrade; ILock MSubmap EndUpgrade; IWritePoses; ILock MSubmap Downgrade;
    IIf TDisk (check_not_empty ++ save_to_file ++ [ ITouchFrames ]);
    ISetMatched;
    ILock MSubmap UnlockUpgrade ].

(** The calls.  [CGetCloud] is submap->Cloud()->GetInnerCloud(), as in
    map_builder.cc:497, 534, map_package.cc:157 and loop_detector.cc:247, 260. *)
Inductive call :=
| CGetCloud
| CTick (k : Z)       (* UpdateInactiveTime, called by MemoryManager, memory_manager.cc:51-62 *)
| CMatched            (* SetMatchedTransformedToNext *)
| CFrames             (* GetFrames / GetFrame, submap.cc:179-195 *)
| CPoses.             (* UpdateInnerFramePose, submap.cc:268-274 *)

Definition code (c : call) : list instr :=
  match c with
  | CGetCloud => submap_cloud ++ [ IGetInner ]
  | CTick k => update_inactive_time k
  | CMatched => set_matched
  | CFrames => [ ILock MSubmap LockShared; ITouchFrames; ILock MSubmap UnlockShared ]
  | CPoses => [ ILock MSubmap LockUpgrade; ILock MSubmap BeginUpgrade; ILock MSubmap EndUpgrade;
                ITouchFrames; IWritePoses; ILock MSubmap Downgrade; ILock MSubmap UnlockUpgrade ]
  end.

Section Evict.
Variable P : Type.
Variable disk_saving : bool.      (* options_.enable_disk_saving *)
Variable delay : Z.               (* options_.disk_saving_delay *)

(** History of the run. *)
Inductive event :=
| EReset                        (* cloud_inactive_time_ = 0 *)
| EAdd (k : Z)                  (* cloud_inactive_time_ += k *)
| EOld                          (* the test cloud_inactive_time_ > delay was true *)
| EDrop                         (* the cloud was dropped from memory *)
| EGot (i : nat) (c : list P).  (* thread i got these points *)

Record data := mkData {
  d_inner : list P;             (* inner_cloud_->points *)
  d_in_memory : bool;
  d_file : option (list P);     (* the file filename_, None: never saved *)
  d_matched : bool;
  d_inactive : Z;
  d_log : list event }.

(** A thread: the modes in which it owns the two mutexes and what it still has to do. *)
Record thread := mkThread { t_submap : mode; t_cloud : mode; t_todo : list instr }.
Definition owns (t : thread) (m : mid) : mode :=
  match m with MSubmap => t_submap t | MCloud => t_cloud t end.
Definition set_owns (t : thread) (m : mid) (x : mode) (k : list instr) : thread :=
  match m with MSubmap => mkThread x (t_cloud t) k | MCloud => mkThread (t_submap t) x k end.

Record state := mkState { s_submap : rw; s_cloud : rw; s_data : data; s_threads : list thread }.
Definition lock_of (s : state) (m : mid) : rw :=
  match m with MSubmap => s_submap s | MCloud => s_cloud s end.
Definition set_lock (s : state) (m : mid) (r : rw) : state :=
  match m with
  | MSubmap => mkState r (s_cloud s) (s_data s) (s_threads s)
  | MCloud => mkState (s_submap s) r (s_data s) (s_threads s)
  end.

Definition run_test (d : data) (t : test) : bool :=
  match t with
  | TMatched => disk_saving && d_matched d
  | TDisk => disk_saving
  | TOld => delay <? d_inactive d
  | TInMemory => d_in_memory d
  | TNotInMemory => negb (d_in_memory d)
  end.
Definition test_event (t : test) : list event := match t with TOld => [EOld] | _ => [] end.

(** The effect of the other instructions on the data. *)
Definition act (i : nat) (d : data) (x : instr) : outcome data :=
  match x with
  | IResetTime => Ok (mkData (d_inner d) (d_in_memory d) (d_file d) (d_matched d) 0 (d_log d ++ [EReset]))
  | IAddTime k => Ok (mkData (d_inner d) (d_in_memory d) (d_file d) (d_matched d) (d_inactive d + k)
                             (d_log d ++ [EAdd k]))
  | IDropCloud => Ok (mkData [] (d_in_memory d) (d_file d) (d_matched d) (d_inactive d) (d_log d ++ [EDrop]))
  | ILoadCloud =>
      (* cc:447-452: the file must be there, and EigenPointCloud (cc:330) wants points *)
      match d_file d with
      | None | Some [] => Abort
      | Some c => Ok (mkData c (d_in_memory d) (d_file d) (d_matched d) (d_inactive d) (d_log d))
      end
  | ISetInMemory b => Ok (mkData (d_inner d) b (d_file d) (d_matched d) (d_inactive d) (d_log d))
  | ICheckInMemory => if d_in_memory d then Ok d else Abort
  | ICheckNotEmpty => match d_inner d with [] => Abort | _ => Ok d end
  | ISave => Ok (mkData (d_inner d) (d_in_memory d) (Some (d_inner d)) (d_matched d) (d_inactive d) (d_log d))
  | ICheckNotMatched => if d_matched d then Abort else Ok d
  | ISetMatched => Ok (mkData (d_inner d) (d_in_memory d) (d_file d) true (d_inactive d) (d_log d))
  | IGetInner => Ok (mkData (d_inner d) (d_in_memory d) (d_file d) (d_matched d) (d_inactive d)
                            (d_log d ++ [EGot i (d_inner d)]))
  | _ => Ok d
  end.
Definition log_test (d : data) (b : bool) (t : test) : data :=
  if b then mkData (d_inner d) (d_in_memory d) (d_file d) (d_matched d) (d_inactive d) (d_log d ++ test_event t)
  else d.

Fixpoint update (l : list thread) (i : nat) (t : thread) : list thread :=
  match l, i with
  | [], _ => []
  | _ :: r, O => t :: r
  | x :: r, S j => x :: update r j t
  end.
Definition put (s : state) (i : nat) (t : thread) : state :=
  mkState (s_submap s) (s_cloud s) (s_data s) (update (s_threads s) i t).
Definition put_data (s : state) (d : data) : state :=
  mkState (s_submap s) (s_cloud s) d (s_threads s).

(** One step of thread [i]; None: it is finished or has to wait. *)
Definition step (s : state) (i : nat) : option (outcome state) :=
  match nth_error (s_threads s) i with
  | None => None
  | Some t =>
      match t_todo t with
      | [] => None
      | ILock m o :: k =>
          match rw_step (lock_of s m) o with
          | None => None
          | Some r => Some (Ok (put (set_lock s m r) i (set_owns t m (mode_step o) k)))
          end
      | IIf c body :: k =>
          let b := run_test (s_data s) c in
          Some (Ok (put (put_data s (log_test (s_data s) b c)) i
                        (mkThread (t_submap t) (t_cloud t) (if b then body ++ k else k))))
      | x :: k =>
          Some (match act i (s_data s) x with
                | Ok d => Ok (put (put_data s d) i (mkThread (t_submap t) (t_cloud t) k))
                | Abort => Abort | Throw => Throw | UB => UB
                end)
      end
  end.

(** The submap has just become full with points [c]; every thread has its calls to do. *)
Definition start (c : list P) (calls : list (list call)) : state :=
  mkState rw_free rw_free (mkData c true None false 0 [])
          (map (fun cs => mkThread No No (flat_map code cs)) calls).

Inductive reach (c : list P) (calls : list (list call)) : outcome state -> Prop :=
| reach_start : reach c calls (Ok (start c calls))
| reach_step : forall s i o, reach c calls (Ok s) -> step s i = Some o -> reach c calls o.

(** Follow a schedule. *)
Fixpoint follow (s : state) (l : list nat) : option (outcome state) :=
  match l with
  | [] => Some (Ok s)
  | i :: r => match step s i with
              | Some (Ok s') => follow s' r
              | other => other
              end
  end.

End Evict.
Arguments mkData {P}. Arguments d_inner {P}. Arguments d_in_memory {P}. Arguments d_file {P}.
Arguments d_matched {P}. Arguments d_inactive {P}. Arguments d_log {P}.
Arguments mkState {P}. Arguments s_submap {P}. Arguments s_cloud {P}. Arguments s_data {P}.
Arguments s_threads {P}. Arguments lock_of {P}. Arguments set_lock {P}. Arguments put {P}.
Arguments put_data {P}. Arguments run_test {P}. Arguments act {P}. Arguments log_test {P}.
Arguments step {P}. Arguments start {P}. Arguments reach {P}. Arguments follow {P}.
Arguments EReset {P}. Arguments EAdd {P}. Arguments EOld {P}. Arguments EDrop {P}. Arguments EGot {P}.
