(** C149: the tracker of IMU and GPS. *)
From Coq Require Import List Bool ZArith Reals Lia Lra.
From Verif Require Import Outcome TimeModel TimeSpec TimeProofs GpsTrackModel GpsTrackSpec GpsTrackProofs.
Import ListNotations.
Local Open Scope outcome_scope.

Section Props.
Variables A W P V B X : Type.
Variable period : R.
Variable p0 : P.
Variables v0 v_zero : V.
Variable b0 : B.
Variable predict : pim A W B -> P * V -> B -> P * V.
Variable optimize : list (factor A W P V B X) -> list (value P V B) -> nat -> P * V * B.
Notation ev := (GpsTrackModel.ev A W X).
Notation imus := (GpsTrackSpec.imus A W X).
Notation positions := (GpsTrackSpec.positions A W X).
Notation cut := (GpsTrackSpec.cut A W X).
Notation measures := (GpsTrackSpec.measures A W period).
Notation segment := (GpsTrackSpec.segment A W X period).
Notation regular := (GpsTrackSpec.regular A W X).
Notation total := (GpsTrackSpec.total A W).
Notation graph_of := (GpsTrackSpec.graph_of A W P V B X period p0 v0 b0).
Notation values_of := (GpsTrackSpec.values_of A W P V B X period p0 v0 b0 predict).
Notation after := (GpsTrackModel.after A W P V B X period p0 v0 v_zero b0 predict optimize).

(** A regular history never fails.  After it the graph is that of its positions: between each and the one before the
    measurements that came between them, integrated with the bias found for the one before; every state is the
    result of the optimizer for the graph up to it, started from the prediction. *)
Theorem C149_graph : forall h, regular h -> exists s sol, after h = Ok s /\ sol 0%nat = (p0, v_zero, b0) /\
  (forall k, (k < length (positions h))%nat -> sol (S k) = optimize (graph_of h sol (S k)) (values_of h sol (S k)) (S k)) /\
  graph _ _ _ _ _ _ s = graph_of h sol (length (positions h)) /\ vals _ _ _ _ _ _ s = values_of h sol (length (positions h)) /\
  (prev _ _ _ _ _ _ s, prev_b _ _ _ _ _ _ s) = sol (length (positions h)) /\
  pre _ _ _ _ _ _ s = (snd (sol (length (positions h))), skipn (cut h (length (positions h))) (measures None (imus h))).
Proof.
  intros h R. destruct (after_ok A W P V B X period p0 v0 v_zero b0 predict optimize h R) as (s & sol & A1 & H). exists s, sol. split; [exact A1|].
  split; [apply H|]. split; [apply H|]. rewrite (I_st _ _ _ _ _ _ _ _ _ _ _ _ _ _ _ _ H). cbn [graph vals prev prev_b pre]. repeat split. symmetry. apply surjective_pairing.
Qed.

(** Every measurement is used once and in order: the segments and what is left make up all of them. *)
Lemma pieces : forall Y (f : nat -> nat) (l : list Y) n, f 0%nat = 0%nat -> (forall k, (k < n)%nat -> (f k <= f (S k))%nat) ->
  concat (map (fun k => skipn (f k) (firstn (f (S k)) l)) (seq 0 n)) = firstn (f n) l.
Proof.
  intros Y f l n F0. induction n as [|n IH]; intros M; [rewrite F0; reflexivity|]. rewrite seq_S, map_app, concat_app, IH by (intros; apply M; lia). cbn [map concat Nat.add].
  rewrite app_nil_r. specialize (M n ltac:(lia)). replace (firstn (f n) l) with (firstn (f n) (firstn (f (S n)) l)); [apply firstn_skipn|].
  rewrite firstn_firstn. f_equal. lia.
Qed.
Theorem C149_all_measured : forall h n, n = length (positions h) ->
  concat (map (segment h) (seq 0 n)) ++ skipn (cut h n) (measures None (imus h)) = measures None (imus h) /\
  map fst (measures None (imus h)) = map (fun x => (snd (fst x), snd x)) (imus h).
Proof.
  intros h n ->. split.
  - unfold GpsTrackSpec.segment. rewrite (pieces _ (cut h) (measures None (imus h))); [apply firstn_skipn|reflexivity|]. intros k K. apply cut_mono. lia.
  - generalize (@None time). induction (imus h) as [|[[t a] w] l IH]; intros o; [reflexivity|]. cbn. rewrite IH. reflexivity.
Qed.
(** The integrated time is the time from the first message to the newest, and one period for the first; no duration
    is zero or negative. *)
Lemma total_from : forall l b u, increasing A W b l -> total (measures (Some u) l) = match newest A W l None with Some t => duration u t | None => 0%R end.
Proof.
  induction l as [|[[t a] w] l IH]; intros b u I; [reflexivity|]. destruct I as (R & L & I). cbn [GpsTrackSpec.measures]. unfold GpsTrackSpec.total. cbn [map fold_right snd].
  fold (total (measures (Some t) l)). rewrite (IH _ _ I). cbn [newest fold_left fst]. fold (newest A W l (Some t)).
  destruct l as [|[[t' a'] w'] l]; [cbn; lra|]. cbn [newest fold_left fst]. fold (newest A W l (Some t')).
  destruct (newest A W l (Some t')) as [x|] eqn:E.
  - unfold duration. rewrite !minus_IZR. lra.
  - exfalso. revert E. generalize t'. clear. induction l as [|y l IH]; intros z; cbn; [discriminate|apply IH].
Qed.
Theorem C149_time : forall h t1 a1 w1 r t2, regular h -> imus h = (t1, a1, w1) :: r -> newest A W (imus h) None = Some t2 ->
  total (measures None (imus h)) = (period + duration t1 t2)%R /\ ((0 < period)%R -> Forall (fun m => (0 < snd m)%R) (measures None (imus h))).
Proof.
  intros h t1 a1 w1 r t2 [I _] E N. rewrite E in *. destruct I as (R & L & I). split.
  - cbn [GpsTrackSpec.measures]. unfold GpsTrackSpec.total. cbn [map fold_right snd]. fold (total (measures (Some t1) r)). rewrite (total_from _ _ _ I).
    cbn [newest fold_left fst] in N. fold (newest A W r (Some t1)) in N. destruct r as [|[[t a] w] r].
    + cbn in *. injection N as <-. unfold duration. rewrite Z.sub_diag. lra.
    + cbn [newest fold_left fst] in *. rewrite N. reflexivity.
  - intros Pp. cbn [GpsTrackSpec.measures]. constructor; [exact Pp|]. clear - I. revert t1 I. induction r as [|[[t a] w] r IH]; intros u I; [constructor|].
    destruct I as (R & L & I). cbn [GpsTrackSpec.measures]. constructor; [|apply IH, I]. cbn [snd]. unfold duration.
    apply Rdiv_lt_0_compat; [apply IZR_lt; lia|lra].
Qed.
(** A message not later than the one before aborts; so does odometry. *)
Theorem C149_failures : forall h t a w u, regular h -> newest A W (imus h) None = Some u -> rep t -> (elapsed t <= elapsed u)%Z ->
  after (h ++ [EImu A W X t a w]) = Abort /\ forall k, after (h ++ [EOdom A W X] ++ k) = Abort.
Proof.
  intros h t a w u R N T L. destruct (after_ok A W P V B X period p0 v0 v_zero b0 predict optimize h R) as (s & sol & A1 & H). split.
  - rewrite after_app, A1. cbn [bind step]. unfold add_imu. rewrite (I_st _ _ _ _ _ _ _ _ _ _ _ _ _ _ _ _ H), N. cbn [last].
    destruct (newest_normal A W _ _ _ _ (proj1 R) N) as [[_ XX]|[Nu Lu]]; [discriminate XX|].
    destruct (t_sub_spec t u T (normal_rep _ Nu)) as (d & Ed & _). rewrite Ed. cbn [bind].
    rewrite t_ne_spec by (auto using normal_rep, zero_rep). change (elapsed time_zero) with 0%Z. destruct (Z.leb_spec (Z.abs (elapsed u - 0)) 1); [lia|]. cbn [negb bind].
    unfold t_gt. rewrite !to_nano_elapsed by (auto using normal_rep). destruct (Z.ltb_spec (elapsed u) (elapsed t)); [lia|]. reflexivity.
  - intros k. rewrite app_assoc. unfold GpsTrackModel.after in *. clear - A1. revert A1. generalize (fresh A W P V B X p0 v0 v_zero b0). induction h as [|x h IH]; intros z E; [reflexivity|].
    cbn [app run] in *. destruct (step A W P V B X period b0 predict optimize z x); cbn [bind] in *; try discriminate E. apply IH, E.
Qed.
(** Whatever the memory of the uninitialised prior velocity holds is taken for the velocity at the start: it is both the prior and
    the initial value of V(0), after every history. *)
Theorem C149_velocity : forall h s, regular h -> after h = Ok s ->
  In (PriorV _ _ _ _ _ _ 0 v0) (graph _ _ _ _ _ _ s) /\ In (ValV _ _ _ 0 v0) (vals _ _ _ _ _ _ s).
Proof.
  intros h s R E. destruct (C149_graph h R) as (s' & sol & E' & _ & _ & G & Vv & _). assert (s' = s) by congruence. subst s'. rewrite G, Vv. cbn. auto.
Qed.
End Props.
Print Assumptions C149_graph.
Print Assumptions C149_all_measured.
Print Assumptions C149_time.
Print Assumptions C149_failures.
Print Assumptions C149_velocity.

(** ** Concrete histories, with numbers for everything *)
Local Open Scope Z_scope.
Definition hist1 : list (ev Z Z Z) :=
  [EImu _ _ _ (mkTime 1 0) 11 12; EGps _ _ _ 50; EImu _ _ _ (mkTime 2 0) 21 22; EImu _ _ _ (mkTime 4 0) 31 32; EGps _ _ _ 60; EImu _ _ _ (mkTime 5 0) 41 42].
Example C149_ex_regular : regular Z Z Z hist1 /\ cuts Z Z Z 0 hist1 = [1; 3]%nat /\ positions Z Z Z hist1 = [50; 60].
Proof. split; [|split; reflexivity]. split; [|cbn; intuition discriminate]. cbn [imus flat_map hist1 app increasing]. unfold normal, NS, elapsed. cbn [secs nsecs]. repeat split; lia. Qed.
Example C149_ex_segment : segment Z Z Z 7 hist1 1 = [(21, 22, duration (mkTime 1 0) (mkTime 2 0)); (31, 32, duration (mkTime 2 0) (mkTime 4 0))] /\
  total Z Z (measures Z Z 7 None (imus Z Z Z hist1)) = 11%R.
Proof. split; [reflexivity|]. unfold total. cbn [imus flat_map hist1 app measures map snd fold_right]. unfold duration.
  change (elapsed (mkTime 2 0) - elapsed (mkTime 1 0)) with 1000000000. change (elapsed (mkTime 4 0) - elapsed (mkTime 2 0)) with 2000000000.
  change (elapsed (mkTime 5 0) - elapsed (mkTime 4 0)) with 1000000000. lra.
Qed.
(** "Messages whose stamps do not increase are refused": false at the start of time, one nanosecond counts as no time. *)
Theorem C149_order_refuted : exists (h : list (ev Z Z Z)) s, rep (mkTime 0 1) /\ rep (mkTime 0 0) /\ h = [EImu _ _ _ (mkTime 0 1) 1 1; EImu _ _ _ (mkTime 0 0) 1 1] /\
  elapsed (mkTime 0 0) < elapsed (mkTime 0 1) /\
  after Z Z Z Z Z Z 7%R 0 0 0 0 (fun _ s _ => s) (fun _ _ _ => (0, 0, 0)) h = Ok s /\ length (snd (pre _ _ _ _ _ _ s)) = 2%nat.
Proof.
  eexists _, _. split; [unfold rep; cbn; lia|]. split; [unfold rep; cbn; lia|]. split; [reflexivity|]. split; [reflexivity|]. split; [reflexivity|]. reflexivity.
Qed.
Print Assumptions C149_order_refuted.
(** "The tracker starts at rest": false, the velocity is whatever was in memory. *)
Theorem C149_rest_refuted : exists v0 s, v0 <> 0 /\ after Z Z Z Z Z Z 7%R 0 v0 0 0 (fun _ s _ => s) (fun _ _ _ => (0, 0, 0)) hist1 = Ok s /\
  In (PriorV _ _ _ _ _ _ 0 v0) (graph _ _ _ _ _ _ s) /\ ~ In (PriorV _ _ _ _ _ _ 0 0) (graph _ _ _ _ _ _ s).
Proof.
  destruct (C149_graph Z Z Z Z Z Z 7%R 0 1 0 0 (fun _ s _ => s) (fun _ _ _ => (0, 0, 0)) hist1 (proj1 C149_ex_regular)) as (s & sol & E & _ & _ & G & _).
  exists 1, s. split; [discriminate|]. split; [exact E|]. rewrite G. split; [cbn; auto|]. cbn. intuition discriminate.
Qed.
Print Assumptions C149_rest_refuted.
