(** Properties C36, C37, C75, C76: the pose extrapolator. *)
From Coq Require Import List Bool ZArith Lia.
From Verif Require Import Outcome TimeModel TimeSpec TimeProofs ExtrapModel ExtrapSpec ExtrapProofs.
Import ListNotations.
Local Open Scope Z_scope.

Section Props.
Variables Pz V I : Type.
Variable grav_ok : list (tev V I) -> bool.
Variable velocity : (time * Pz) -> (time * Pz) -> V.
Variable shorter : time -> time -> bool.
Variable predict : Pz -> V -> time -> Pz.
Variable predict_imu : Pz -> V -> tracker V I -> tracker V I -> time -> Pz.
Variable init_pose : tracker V I -> Pz.
Variable ident : Pz.
Variable v0 : V.
Notation new_ext := (new_ext Pz V I ident v0).
Notation extrapolate := (extrapolate Pz V I grav_ok predict predict_imu).
Notation estep := (estep Pz V I grav_ok velocity shorter predict predict_imu).
Notation initialize := (initialize_with_imu Pz V I grav_ok velocity shorter init_pose ident v0).

(** After any history (in either mode) in which poses were added in time order, the queue is
    the end of the sequence of added poses: it is not empty, its last entry is the last added
    pose; if older poses were dropped, two entries remain and the oldest is at least the
    duration older than the newest; and no more are kept than needed for that: the second
    entry is younger.  (Differences below zero count as zero, as in SimpleTime.) *)
Theorem C36_queue : forall m dur ops e, normal dur ->
  Forall (fun x => normal (fst x)) (poses ops) -> ordered (poses ops) ->
  run estep (new_ext m dur) ops = Ok e -> poses ops <> [] ->
  exists dropped first rest newest,
    poses ops = dropped ++ e_queue e /\ e_queue e = first :: rest /\
    back (e_queue e) = Some newest /\ back (poses ops) = Some newest /\
    (dropped <> [] -> rest <> [] /\
       elapsed (fst first) <= Z.max 0 (elapsed (fst newest) - elapsed dur)) /\
    (forall b c r, rest = b :: c :: r ->
       elapsed (fst b) > Z.max 0 (elapsed (fst newest) - elapsed dur)).
Proof.
  intros m dur ops e Hd Hn Ho H Hne.
  assert (qinv Pz V I [] (new_ext m dur)) as H0.
  { exists []. cbn. split; [reflexivity|]. split; [congruence|]. split; [congruence|discriminate]. }
  destruct (qinv_run Pz V I grav_ok velocity shorter predict predict_imu ident v0
              ops [] (new_ext m dur) e H0 Hd Hn Ho H) as [(d & D1 & D2 & D3 & D4) Hdur].
  cbn [app] in *. cbn [e_dur ExtrapModel.new_ext] in Hdur. specialize (D2 Hne).
  destruct (e_queue e) as [|f r] eqn:Eq; [congruence|].
  destruct (@exists_last _ (f :: r) ltac:(discriminate)) as (q' & l & El).
  assert (back (f :: r) = Some l) as Hb by (rewrite El; apply back_last).
  exists d, f, r, l. split; [exact D1|]. split; [reflexivity|]. split; [exact Hb|].
  split; [rewrite D1, back_app by discriminate; exact Hb|]. rewrite Hdur in *. split.
  - intros Hdd. destruct (D3 Hdd) as (K1 & f' & r' & l' & K2 & K3 & K4).
    split; [intros ->; cbn in K1; lia|]. injection K2 as <- <-. congruence.
  - intros b c r' ->. eapply D4; [reflexivity|exact Hb].
Qed.

(** A query that is repeated for the same time, with any poses and IMU messages added in
    between (as long as the last pose is not newer than the query), returns the old answer. *)
Theorem C37_repeated_query : forall t e p e1 ops e2 tl pl, normal t -> normal (fst (e_cache e)) ->
  extrapolate t e = Ok (p, e1) -> Forall (fun o => ~ is_query o) ops ->
  run estep e1 ops = Ok e2 -> back (e_queue e2) = Some (tl, pl) -> normal tl -> elapsed tl <= elapsed t ->
  extrapolate t e2 = Ok (p, e2).
Proof. exact (repeat_query Pz V I grav_ok velocity shorter predict predict_imu ident v0). Qed.

(** Without IMU: a query more than 1 ns away from the time of the cached answer is computed
    from the last pose. *)
Theorem C37_fresh_query : forall t e tl pl, e_mode e = CTRV -> normal t -> normal tl -> normal (fst (e_cache e)) ->
  back (e_queue e) = Some (tl, pl) -> elapsed tl <= elapsed t ->
  Z.abs (elapsed (fst (e_cache e)) - elapsed t) > 1 ->
  exists d e', normal d /\ elapsed d = elapsed t - elapsed tl /\
    extrapolate t e = Ok (predict pl (e_vel e) d, e').
Proof.
  intros t e tl pl Hm Ht Hl Hc Hb Hle Hfar. destruct (sub_el t tl Ht Hl) as (d & D1 & D2 & D3).
  exists d. eexists. split; [exact D2|]. split; [lia|].
  unfold ExtrapModel.extrapolate. rewrite Hb, ge_el by assumption.
  destruct (Z.leb_spec (elapsed tl) (elapsed t)); [|lia]. cbn [check bind].
  rewrite t_ne_spec by (apply normal_rep; assumption).
  destruct (Z.leb_spec (Z.abs (elapsed (fst (e_cache e)) - elapsed t)) 1); [lia|]. cbn [negb bind].
  rewrite D1. cbn [bind]. rewrite Hm. reflexivity.
Qed.

(** Without IMU no call ever fails, provided queries are not older than the last pose. *)
Theorem C75_ctrv_total : forall dur ops, normal dur -> Forall (fun o => normal (op_time o)) ops ->
  well_timed None ops -> exists e, run estep (new_ext CTRV dur) ops = Ok e.
Proof.
  intros dur ops Hd Ht Hw. eapply ctrv_run; try eassumption; try reflexivity; cbn; auto.
  apply normal_zero.
Qed.
(** A query older than the last pose aborts; one before the first pose is undefined. *)
Theorem C75_old_query_aborts : forall t e tl pl, normal t -> normal tl ->
  (e_queue e = [] -> extrapolate t e = UB) /\
  (back (e_queue e) = Some (tl, pl) -> elapsed t < elapsed tl -> extrapolate t e = Abort).
Proof.
  intros t e tl pl Ht Hl. split.
  - intros H. unfold ExtrapModel.extrapolate. rewrite H. reflexivity.
  - intros Hb Hlt. unfold ExtrapModel.extrapolate. rewrite Hb, ge_el by assumption.
    destruct (Z.leb_spec (elapsed tl) (elapsed t)); [lia|]. reflexivity.
Qed.

(** With IMU: an IMU message older than the last pose aborts. *)
Theorem C75_late_imu_aborts : forall s i e tl pl, e_mode e = WithImu -> normal s -> normal tl ->
  back (e_queue e) = Some (tl, pl) -> elapsed s < elapsed tl -> estep e (EImu s i) = Abort.
Proof.
  intros s i e tl pl Hm Hs Hl Hb Hlt. cbn [ExtrapModel.estep]. unfold ExtrapModel.add_imu, last_time.
  rewrite Hm, Hb. cbn [option_map fst]. rewrite ge_el by assumption.
  destruct (Z.leb_spec (elapsed tl) (elapsed s)); [lia|]. reflexivity.
Qed.
(** With IMU: between two poses queries must not go back in time. *)
Theorem C75_backward_query_aborts : forall t2 e p e1 ops e2 t1 tl pl, e_mode e = WithImu ->
  normal t1 -> normal t2 -> normal tl -> Forall (fun x => normal (fst x)) (e_imu e) -> ordered (e_imu e) ->
  (forall x, e_xtr e = Some x -> normal (tr_time x)) -> normal (fst (e_cache e)) ->
  Z.abs (elapsed (fst (e_cache e)) - elapsed t2) > 1 ->
  extrapolate t2 e = Ok (p, e1) ->
  Forall (fun o => match o with EImu _ _ => True | _ => False end) ops ->
  run estep e1 ops = Ok e2 ->
  back (e_queue e) = Some (tl, pl) -> elapsed tl <= elapsed t1 -> elapsed t1 < elapsed t2 - 1 ->
  extrapolate t1 e2 = Abort.
Proof.
  intros t2 e p e1 ops e2 t1 tl pl Hm H1 H2 Hl Hn Ho Hx Hc Hfar H Hf Hr Hb Hle Hlt.
  assert (e_mode e1 = WithImu /\ e_queue e1 = e_queue e /\ fst (e_cache e1) = t2 /\
          exists x k, e_xtr e1 = Some x /\ e_tr e1 = Some k /\ tr_time x = t2) as (A1 & A2 & A3 & x & k & A4 & A5 & A6).
  { unfold ExtrapModel.extrapolate in H. rewrite Hb in H. ib H.
    rewrite t_ne_spec in H by (apply normal_rep; assumption).
    destruct (Z.leb_spec (Z.abs (elapsed (fst (e_cache e)) - elapsed t2)) 1); [lia|]. cbn [bind negb] in H.
    ib H. rewrite Hm in H. destruct (e_xtr e) as [x|]; [|discriminate]. destruct (e_tr e) as [k|]; [|discriminate].
    ib H. ib H. injection H as <- <-. cbn.
    apply (advance_tracker_spec Pz V I grav_ok shorter predict predict_imu init_pose ident v0) in E2; [|assumption|apply Hx; reflexivity|assumption..].
    split; [reflexivity|]. split; [reflexivity|]. split; [reflexivity|]. exists a2, k. split; [reflexivity|].
    split; [reflexivity|]. tauto. }
  assert (forall ops e1 e2, Forall (fun o => match o with EImu _ _ => True | _ => False end) ops ->
     run estep e1 ops = Ok e2 -> e_mode e2 = e_mode e1 /\ e_queue e2 = e_queue e1 /\ e_cache e2 = e_cache e1 /\
     e_xtr e2 = e_xtr e1 /\ e_tr e2 = e_tr e1) as Hops.
  { clear. induction ops as [|o ops IH]; intros e1 e2 Hf H; cbn [run] in H; [injection H as <-; auto|].
    ib H. inversion Hf; subst. destruct o as [| s i|]; try contradiction.
    cbn [ExtrapModel.estep] in E. unfold ExtrapModel.add_imu in E.
    assert (e_mode a = e_mode e1 /\ e_queue a = e_queue e1 /\ e_cache a = e_cache e1 /\
            e_xtr a = e_xtr e1 /\ e_tr a = e_tr e1) as (B1 & B2 & B3 & B4 & B5).
    { destruct (e_mode e1) eqn:Em; [ib E|]; injection E as <-; cbn; auto. }
    destruct (IH _ _ H3 H) as (C1 & C2 & C3 & C4 & C5). repeat split; congruence. }
  destruct (Hops _ _ _ Hf Hr) as (C1 & C2 & C3 & C4 & C5).
  unfold ExtrapModel.extrapolate. rewrite C2, A2, Hb, C3, A3, C1, A1, C4, C5, A4, A5.
  rewrite ge_el by assumption. destruct (Z.leb_spec (elapsed tl) (elapsed t1)); [|lia]. cbn [check bind].
  rewrite t_ne_spec by (apply normal_rep; assumption).
  destruct (Z.leb_spec (Z.abs (elapsed t2 - elapsed t1)) 1); [lia|]. cbn [negb bind].
  destruct (sub_el t1 tl H1 Hl) as (d & D1 & _). rewrite D1. cbn [bind]. rewrite A6.
  rewrite ge_el by assumption. destruct (Z.leb_spec (elapsed t2) (elapsed t1)); [lia|]. reflexivity.
Qed.
(** With IMU: after InitializeWithImu and before the next pose every query away from the
    initial time dereferences a null pointer. *)
Theorem C75_query_before_second_pose : forall d s i e t, normal d -> normal s -> normal t ->
  initialize d s i = Ok e -> elapsed t > elapsed s + 1 -> extrapolate t e = UB.
Proof.
  intros d s i e t Hd Hs Ht H Hlt. destruct (initialize_inv _ _ _ _ _ _ _ _ _ _ _ _ _ Hd Hs H) as (Hi & X & C & p & Q).
  destruct Hi as (Hm & _). unfold ExtrapModel.extrapolate. rewrite Q, C, X, Hm. cbn [back length Nat.sub nth_error fst].
  rewrite ge_el by assumption. destruct (Z.leb_spec (elapsed s) (elapsed t)); [|lia]. cbn [check bind].
  rewrite t_ne_spec by (apply normal_rep; assumption).
  destruct (Z.leb_spec (Z.abs (elapsed s - elapsed t)) 1); [lia|]. cbn [negb bind].
  destruct (sub_el t s Ht Hs) as (d0 & D1 & _). rewrite D1. reflexivity.
Qed.

(** With IMU, for every history with strictly increasing IMU stamps: the orientation tracker
    has used exactly the messages older than the last pose, in order and once each, except
    for the very first message, which it uses twice; the stored messages are the end of the
    sequence of all messages, those dropped are older than the last pose, and at most one of
    the stored ones is not newer than it. *)
Theorem C76_imu_bookkeeping : forall d s i e ops e', normal d -> normal s ->
  Forall (fun o => normal (op_time o)) ops ->
  strictly_ordered ((s, i) :: imus ops) -> Forall (fun x => normal (fst x)) (imus ops) ->
  initialize d s i = Ok e -> run estep e ops = Ok e' ->
  exists T k dropped kept, last_time (e_queue e') = Some T /\ e_tr e' = Some k /\ tr_time k = T /\
    used k = i :: map snd (filter (fun x => elapsed (fst x) <? elapsed T) ((s, i) :: imus ops)) /\
    (s, i) :: imus ops = dropped ++ kept /\ e_imu e' = kept /\ kept <> [] /\
    (forall x, In x dropped -> elapsed (fst x) < elapsed T) /\
    (forall x, In x (tl kept) -> elapsed T < elapsed (fst x)).
Proof.
  intros d s i e ops e' Hd Hs Ht Ho Hn H Hr.
  destruct (initialize_inv _ _ _ _ _ _ _ _ _ _ _ _ _ Hd Hs H) as (Hi & _).
  assert (imu_inv Pz V I i ([(s, i)] ++ imus ops) e') as (_ & _ & _ & T & p & k & dr & B & HT & Hk & Kt & Ku & A1 & A2 & A3 & A4).
  { eapply (imu_run Pz V I grav_ok velocity shorter predict predict_imu init_pose ident v0); try eassumption. cbn [app]. constructor; [exact Hs|exact Hn]. }
  exists T, k, dr, (e_imu e'). unfold last_time. rewrite B. split; [reflexivity|]. split; [exact Hk|].
  split; [exact Kt|]. split; [exact Ku|]. split; [exact A1|]. split; [reflexivity|]. split; [exact A2|].
  split; [exact A3|]. intros x Hx.
  assert (strictly_ordered (e_imu e')) as Hoi.
  { cbn [app] in A1. rewrite A1 in Ho. apply strict_app in Ho; tauto. }
  destruct (e_imu e') as [|a [|b r]] eqn:Ei; [destruct Hx|destruct Hx|]. cbn [List.tl] in Hx.
  specialize (A4 _ _ _ eq_refl). destruct Hx as [<-|Hx]; [exact A4|].
  destruct Hoi as (_ & Hb & _). specialize (Hb x Hx). lia.
Qed.
(** With IMU: after a pose, the first query is answered from that pose and from the two
    trackers: the one advanced to the pose, and a copy of it advanced to the query. *)
Theorem C76_query_after_pose : forall ts p e e1 t r e2, e_mode e = WithImu -> e_queue e <> [] ->
  normal ts -> normal t -> normal (fst (e_cache e)) -> normal (e_dur e) ->
  Z.abs (elapsed (fst (e_cache e)) - elapsed t) > 1 ->
  estep e (EPose ts p) = Ok e1 -> extrapolate t e1 = Ok (r, e2) ->
  exists k x d, e_tr e1 = Some k /\ e_tr e2 = Some k /\ e_xtr e2 = Some x /\
    normal d /\ elapsed d = elapsed t - elapsed ts /\
    advance_tracker V I grav_ok (e_imu e1) (e_vel e1) t k = Ok x /\
    r = predict_imu p (e_vel e1) k x d /\ e_cache e2 = (t, r).
Proof.
  intros ts p e e1 t r e2 Hm Hq Hts Ht Hc Hd Hfar H1 H2.
  cbn [ExtrapModel.estep] in H1. unfold ExtrapModel.add_pose in H1.
  remember (e_queue e ++ [(ts, p)]) as Q eqn:EQ.
  destruct (e_queue e) as [|q0 qs] eqn:Eq; [congruence|].
  ib H1. ib H1. rewrite Hm in H1. ib H1. injection H1 as <-.
  unfold ExtrapModel.extrapolate in H2. cbn [e_queue e_cache e_mode e_xtr e_tr e_vel e_imu] in H2.
  assert (forall n lim q x, back (trim_poses Pz n lim (q ++ [x])) = Some x) as Hback.
  { induction n as [|n IH]; intros lim q x; cbn [trim_poses].
    - apply back_last.
    - destruct q as [|u [|v [|w q]]]; cbn [app]; try reflexivity.
      + destruct (t_le (fst v) lim); [apply (IH lim [v])|reflexivity].
      + destruct (t_le (fst v) lim); [apply (IH lim (v :: w :: q))|apply (back_last _ (u :: v :: w :: q))]. }
  assert (back (trim_poses Pz (length Q) a Q) = Some (ts, p)) as HQ by (rewrite EQ; apply Hback).
  rewrite HQ in H2. ib H2. rewrite t_ne_spec in H2 by (apply normal_rep; assumption).
  destruct (Z.leb_spec (Z.abs (elapsed (fst (e_cache e)) - elapsed t)) 1); [lia|]. cbn [bind negb] in H2.
  destruct (sub_el t ts Ht Hts) as (d & D1 & D2 & D3). rewrite D1 in H2. cbn [bind] in H2. ib H2. ib H2.
  injection H2 as <- <-. cbn [e_tr e_xtr e_imu e_vel e_cache].
  match goal with E : check (t_ge t ts) = Ok _ |- _ => rewrite ge_el in E by assumption; destruct (Z.leb_spec (elapsed ts) (elapsed t)); [|discriminate E] end.
  eexists _, _, d. split; [reflexivity|]. split; [reflexivity|]. split; [reflexivity|]. split; [exact D2|]. split; [lia|].
  split; [eassumption|]. split; reflexivity.
Qed.

(** GetLastPoseTime is the time of the last added pose, or time zero. *)
Theorem C36_last_pose_time : forall m dur ops e, normal dur ->
  Forall (fun x => normal (fst x)) (poses ops) -> ordered (poses ops) ->
  run estep (new_ext m dur) ops = Ok e ->
  last_pose_time e = match back (poses ops) with Some x => fst x | None => mkTime 0 0 end.
Proof.
  intros m dur ops e Hd Hn Ho H. destruct (poses ops) as [|x l] eqn:Ep.
  - assert (forall ops e e', poses ops = [] -> e_queue e = [] -> run estep e ops = Ok e' -> e_queue e' = []) as Q.
    { clear. induction ops as [|o ops IH]; intros e e' Hp Hq H; cbn [run] in H; [congruence|]. ib H.
      destruct o as [t p|t i|t]; [discriminate|..].
      - apply (IH a e'); [exact Hp| |exact H]. cbn [ExtrapModel.estep] in E. unfold ExtrapModel.add_imu in E.
        destruct (e_mode e); [ib E|]; injection E as <-; exact Hq.
      - exfalso. cbn [ExtrapModel.estep] in E. unfold ExtrapModel.extrapolate in E. rewrite Hq in E. discriminate. }
    unfold last_pose_time. rewrite (Q ops (new_ext m dur) e Ep eq_refl H). reflexivity.
  - rewrite <- Ep. destruct (C36_queue m dur ops e Hd) as (d & f & r & n & _ & _ & B1 & B2 & _); try (rewrite Ep; assumption); [exact H|rewrite Ep; discriminate|].
    rewrite B2. unfold last_pose_time. rewrite B1. destruct n. reflexivity.
Qed.
End Props.
Print Assumptions C76_query_after_pose.
Print Assumptions C36_last_pose_time.
Print Assumptions C36_queue.
Print Assumptions C37_repeated_query.
Print Assumptions C37_fresh_query.
Print Assumptions C75_ctrv_total.
Print Assumptions C75_old_query_aborts.
Print Assumptions C75_late_imu_aborts.
Print Assumptions C75_backward_query_aborts.
Print Assumptions C75_query_before_second_pose.
Print Assumptions C76_imu_bookkeeping.

(** A one-dimensional extrapolator: poses and velocities are numbers (velocity per second). *)
Definition zt (n : Z) : time := mkTime n 0.
Definition ex_vel_s (a b : time * Z) : Z := (snd b - snd a) * 1000000000 / (elapsed (fst b) - elapsed (fst a)).
Definition ex_short (a b : time) : bool := elapsed a <? elapsed b.
Definition ex_pred (p v : Z) (d : time) : Z := p + v * elapsed d / 1000000000.
Definition ex_estep := estep Z Z Z (fun _ => true) ex_vel_s ex_short ex_pred (fun p v _ _ d => ex_pred p v d).
Definition ex_query := extrapolate Z Z Z (fun _ => true) ex_pred (fun p v _ _ d => ex_pred p v d).
Definition ex_new (m : mode) := new_ext Z Z Z 0 0 m (zt 2).
Definition ex_init := initialize_with_imu Z Z Z (fun _ => true) ex_vel_s ex_short (fun _ => 0) 0 0 (zt 2).
Definition ex_ops : list (eop Z Z) :=
  [EPose (zt 1) 10; EPose (zt 2) 20; EPose (zt 3) 30; EPose (zt 4) 40; EPose (zt 6) 60].
Example queue_ex :
  match run ex_estep (ex_new CTRV) ex_ops with
  | Ok e => e_queue e = [(zt 4, 40); (zt 6, 60)] /\ e_vel e = 10 /\
            match ex_query (zt 9) e with Ok (p, _) => p = 90 | _ => False end
  | _ => False
  end.
Proof. vm_compute. auto. Qed.

(** The answer is not a function of the poses: asking early fixes the answer. *)
Theorem C37_function_of_poses_refuted : exists (ops1 ops2 : list (eop Z Z)) t e1 e2 p1 p2 x1 x2,
  poses ops1 = poses ops2 /\ well_timed None ops1 /\ well_timed None ops2 /\
  run ex_estep (ex_new CTRV) ops1 = Ok e1 /\ run ex_estep (ex_new CTRV) ops2 = Ok e2 /\
  ex_query t e1 = Ok (p1, x1) /\ ex_query t e2 = Ok (p2, x2) /\ p1 <> p2.
Proof.
  exists (ex_ops ++ [EQuery (zt 9); EPose (zt 8) 100]), (ex_ops ++ [EPose (zt 8) 100]), (zt 9).
  do 6 eexists. split; [reflexivity|].
  split; [cbn; repeat split; eexists; split; [reflexivity|vm_compute; discriminate]|].
  split; [cbn; auto|]. split; [vm_compute; reflexivity|]. split; [vm_compute; reflexivity|].
  split; [vm_compute; reflexivity|]. split; [vm_compute; reflexivity|]. discriminate.
Qed.
Print Assumptions C37_function_of_poses_refuted.

(** With IMU: five messages, two poses; the first message is used twice. *)
Definition ex_imu_ops : list (eop Z Z) :=
  [EImu (zt 2) 102; EImu (zt 3) 103; EPose (zt 3) 30; EImu (zt 4) 104; EQuery (zt 5); EPose (zt 5) 50; EImu (zt 6) 106].
Example imu_ex :
  match ex_init (zt 1) 101 with
  | Ok e => match run ex_estep e ex_imu_ops with
      | Ok e' => option_map used (e_tr e') = Some [101; 101; 102; 103; 104] /\
                 e_imu e' = [(zt 4, 104); (zt 6, 106)] /\
                 ex_estep e' (EImu (zt 4) 1) = Abort
      | _ => False end
  | _ => False
  end.
Proof. vm_compute. auto. Qed.
Example query_after_pose_ex :
  match ex_init (zt 1) 101 with
  | Ok e => match ex_estep e (EPose (zt 3) 30) with
      | Ok e1 => match ex_query (zt 5) e1 with Ok (p, e2) => p = 30 + 2 * e_vel e1 /\ e_cache e2 = (zt 5, p) | _ => False end
      | _ => False end
  | _ => False
  end.
Proof. vm_compute. auto. Qed.
Example imu_backward_ex :
  match ex_init (zt 1) 101 with
  | Ok e => run ex_estep e [EPose (zt 3) 30; EQuery (zt 7); EQuery (zt 5)] = Abort /\
            run ex_estep e [EQuery (zt 2)] = UB
  | _ => False
  end.
Proof. vm_compute. auto. Qed.
Example extrap_hyps : normal (zt 2) /\ Forall (fun o => normal (op_time o)) ex_imu_ops /\
  strictly_ordered ((zt 1, 101) :: imus ex_imu_ops) /\ ordered (poses ex_ops).
Proof.
  assert (forall z, 0 <= z < 100 -> normal (zt z)) as N by (intros; unfold normal, zt, NS; cbn; lia).
  split; [apply N; lia|]. split; [repeat constructor; apply N; lia|].
  assert (forall z, elapsed (zt z) = z * 10 ^ 9) as E by (intros; unfold elapsed, zt; cbn [secs nsecs]; lia).
  split; cbn; repeat split; intros b Hb; repeat (destruct Hb as [<-|Hb]; [cbn [fst]; rewrite !E; lia|]); destruct Hb.
Qed.
