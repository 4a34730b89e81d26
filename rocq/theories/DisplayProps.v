(** Property C128: what is displayed while the map is built. *)
From Coq Require Import List Bool Arith ZArith Reals Lra Lia.
From Verif Require Import Outcome BuilderModel BuilderSpec BuilderProofs BuilderLive BuilderProps RigidModel DisplayModel DisplayProofs.
Import ListNotations.
Local Open Scope nat_scope.

Section Props.
Variables cloud frame smst : Type.
Variable sm_init : smst.
Variable sm_step : smst -> cloud -> smst * option frame.
Variable fc : Z.
Variables pose point : Type.
Variable translation : pose -> vec.
Variable move : pose -> point -> point.
Variable points : list frame -> list point.
Variable pose_at : nat -> nat -> pose.
Variables show_submap show_path show_map show_edge : bool.
Notation breach := (breach cloud frame smst sm_init sm_step fc false).
Notation dreach := (dreach cloud frame smst sm_init sm_step fc pose point translation move points pose_at show_submap show_path show_map show_edge).
Notation shown := (shown pose point).

(** The submaps in the trajectory, and how many were given to the optimizer. *)
Definition submap_of (x : dst cloud frame smst pose point) (i : nat) : list frame := nth i (built (traj (su (bst x)))) [].
Definition connected (x : dst cloud frame smst pose point) : nat := length (conn (cn (bst x))).
Definition is_submap (e : shown) : bool := match e with Submap _ _ => true | _ => false end.
Definition is_path (e : shown) : bool := match e with Path _ => true | _ => false end.
(** The cloud around submap m when submaps 0..m are connected: the submaps whose position differs from its
    position by less than 30 m in the plane and less than 2 m in height, at their poses. *)
Definition close (a b : vec) : Prop :=
  (sqrt ((vx a - vx b) ^ 2 + (vy a - vy b) ^ 2) < 30 /\ Rabs (vz a - vz b) < 2)%R.
Inductive local_cloud (x : dst cloud frame smst pose point) (m : nat) : nat -> list point -> Prop :=
| lc_none : local_cloud x m 0 []
| lc_close i l : local_cloud x m i l -> close (translation (pose_at m i)) (translation (pose_at m m)) ->
    local_cloud x m (S i) (l ++ map (move (pose_at m i)) (points (submap_of x i)))
| lc_far i l : local_cloud x m i l -> ~ close (translation (pose_at m i)) (translation (pose_at m m)) -> local_cloud x m (S i) l.

Lemma near_close : forall a b, near a b = true <-> close a b.
Proof.
  intros a b. unfold near, close.
  replace ((vx a - vx b) ^ 2 + (vy a - vy b) ^ 2)%R with ((vx a - vx b) * (vx a - vx b) + (vy a - vy b) * (vy a - vy b))%R by ring.
  destruct (Rlt_dec _ _) as [H|H]; [destruct (Rlt_dec _ _) as [K|K]|]; split; intros E; try discriminate; tauto.
Qed.
Lemma local_parts : forall x m i, local_cloud x m i (flat_map (part frame pose point translation move points pose_at (submap_of x) m) (seq 0 i)).
Proof.
  intros x m i. induction i as [|i IH]; [constructor|]. rewrite seq_S, flat_map_app. cbn [flat_map Nat.add].
  unfold part at 2. destruct (near _ _) eqn:E.
  - rewrite app_nil_r. apply lc_close; [exact IH|]. apply near_close. exact E.
  - rewrite !app_nil_r. apply lc_far; [exact IH|]. intros K. apply near_close in K. congruence.
Qed.

(** The threads do with display functions what they do without them: all that is proved of the states of
    BuilderModel (C38, C40, C78, C79) holds. *)
Theorem C128_threads : forall x, (0 < fc < 2 ^ 31)%Z -> dreach (DNext x) -> breach (Next (bst x)).
Proof. intros x Hfc R. apply dinv_reach in R; [|exact Hfc]. apply R. Qed.

(** What a call shows: when submaps 0..m are connected, show_path gets exactly their poses as they are now,
    show_map a choice of the points around submap m, show_submap the cloud and pose of submap m. *)
Theorem C128_shown : forall x l1 e l2, (0 < fc < 2 ^ 31)%Z -> dreach (DNext x) -> log x = l1 ++ e :: l2 ->
  exists m, 1 <= m < connected x /\ (show_submap = true -> m = length (List.filter is_submap (l1 ++ [e]))) /\
  match e with
  | Submap ps p => show_submap = true /\ ps = points (submap_of x m) /\ p = pose_at m m
  | Path l => show_path = true /\ length l = S m /\ forall i, i <= m -> nth_error l i = Some (pose_at m i)
  | Map ps => show_map = true /\ exists c, local_cloud x m (S m) c /\ chosen c ps
  | Edges => show_edge = true
  end.
Proof.
  intros x l1 e l2 Hfc R E. apply dinv_reach in R; [|exact Hfc]. destruct R as (R & P & _).
  assert (Fc : fin (cn (bst x)) = 0 \/ connected x = S (fin (cn (bst x)))).
  { destruct (C78_connected_in_order _ _ _ _ _ _ _ Hfc R) as [K|(k & K & _ & F)].
    - left. pose proof (inv_reach _ _ _ _ _ _ _ Hfc _ R) as (_ & _ & _ & _ & (F1 & F2 & _) & _).
      destruct (firsti (cn (bst x))); [|apply F1; reflexivity]. destruct (F2 eq_refl) as [_ K2]. rewrite K in K2. discriminate.
    - right. unfold connected. rewrite K, seq_length. lia. }
  enough (exists m, 1 <= m <= fin (cn (bst x)) /\ (show_submap = true -> m = length (List.filter is_submap (l1 ++ [e]))) /\
    match e with
    | Submap ps p => show_submap = true /\ ps = points (submap_of x m) /\ p = pose_at m m
    | Path l => show_path = true /\ length l = S m /\ forall i, i <= m -> nth_error l i = Some (pose_at m i)
    | Map ps => show_map = true /\ exists c, local_cloud x m (S m) c /\ chosen c ps
    | Edges => show_edge = true
    end) as (m & Hm & G).
  { exists m. split; [destruct Fc; lia|exact G]. }
  clear Fc. change (sub_at cloud frame smst (bst x)) with (submap_of x) in P. revert P E. generalize (log x), (fin (cn (bst x))).
  intros l m P. revert l2.
  assert (Cnt : forall m l, proper frame pose point translation move points pose_at show_submap show_path show_map show_edge (submap_of x) m l ->
    show_submap = true -> length (List.filter is_submap l) = m).
  { clear. intros m l H Hs. induction H; cbn; rewrite ?filter_app, ?app_length; cbn; try rewrite Hs; cbn; try lia; auto. }
  induction P as [|m l P IH|m l Hm Hp P IH|m l k Hm Hp P IH C|m l Hm Hp P IH]; intros l2 E.
  - destruct l1; discriminate.
  - destruct show_submap eqn:Hs.
    + destruct l2 as [|y l2 _] using rev_ind.
      * apply app_inj_tail in E. destruct E as [-> <-]. exists (S m). split; [lia|]. split; [|auto].
        intros _. rewrite filter_app, app_length. cbn. rewrite (Cnt _ _ P eq_refl). lia.
      * rewrite app_comm_cons, app_assoc in E. apply app_inj_tail in E. destruct E as [E _]. destruct (IH _ E) as (k & Hk & G). exists k. split; [lia|exact G].
    + rewrite app_nil_r in E. destruct (IH _ E) as (k & Hk & G). exists k. split; [lia|exact G].
  - destruct l2 as [|y l2 _] using rev_ind; [|rewrite app_comm_cons, app_assoc in E; apply app_inj_tail in E; destruct E as [E _]; exact (IH _ E)].
    apply app_inj_tail in E. destruct E as [-> <-]. exists m. split; [lia|]. split.
    + intros Hs. rewrite filter_app, app_length. cbn. rewrite (Cnt _ _ P Hs). lia.
    + split; [exact Hp|]. unfold path_of. rewrite map_length, seq_length. split; [reflexivity|]. intros i Hi.
      rewrite nth_error_map. rewrite (nth_error_nth' (seq 0 (S m)) 0) by (rewrite seq_length; lia). rewrite seq_nth by lia. reflexivity.
  - destruct l2 as [|y l2 _] using rev_ind; [|rewrite app_comm_cons, app_assoc in E; apply app_inj_tail in E; destruct E as [E _]; exact (IH _ E)].
    apply app_inj_tail in E. destruct E as [-> <-]. exists m. split; [lia|]. split.
    + intros Hs. rewrite filter_app, app_length. cbn. rewrite (Cnt _ _ P Hs). lia.
    + split; [exact Hp|]. eexists. split; [apply local_parts|exact C].
  - destruct l2 as [|y l2 _] using rev_ind; [|rewrite app_comm_cons, app_assoc in E; apply app_inj_tail in E; destruct E as [E _]; exact (IH _ E)].
    apply app_inj_tail in E. destruct E as [-> <-]. exists m. split; [lia|]. split; [|exact Hp].
    intros Hs. rewrite filter_app, app_length. cbn. rewrite (Cnt _ _ P Hs). lia.
Qed.
(** The submap itself is always among those. *)
Theorem C128_local_cloud_has_current : forall x m c, local_cloud x m (S m) c ->
  exists c', c = c' ++ map (move (pose_at m m)) (points (submap_of x m)).
Proof.
  intros x m c H. inversion H as [|i l H1 H2 E1 E2|i l H1 H2 E1 E2]; subst; [eauto|]. exfalso. apply H2. unfold close.
  rewrite !Rminus_diag_eq by reflexivity. rewrite Rabs_R0. replace (0 ^ 2 + 0 ^ 2)%R with 0%R by ring. rewrite sqrt_0. lra.
Qed.
(** show_submap is called once for each connected submap, in order, except the first. *)
Theorem C128_submaps_in_order : forall x, (0 < fc < 2 ^ 31)%Z -> dreach (DNext x) -> show_submap = true ->
  List.filter is_submap (log x) = map (fun m => Submap (points (submap_of x m)) (pose_at m m)) (seq 1 (connected x - 1)).
Proof.
  intros x Hfc R Hs. apply dinv_reach in R; [|exact Hfc]. destruct R as (R & P & _).
  assert (connected x - 1 = fin (cn (bst x))) as ->.
  { destruct (C78_connected_in_order _ _ _ _ _ _ _ Hfc R) as [K|(k & K & _ & F)]; unfold connected; rewrite K; [|rewrite seq_length; lia].
    pose proof (inv_reach _ _ _ _ _ _ _ Hfc _ R) as (_ & _ & _ & _ & (F1 & F2 & _) & _).
    destruct (firsti (cn (bst x))); [|destruct F1; auto]. destruct (F2 eq_refl) as [_ K2]. rewrite K in K2. discriminate. }
  change (sub_at cloud frame smst (bst x)) with (submap_of x) in P. induction P as [|m l P IH| | |]; [reflexivity| | | |];
    rewrite filter_app; cbn [List.filter is_submap]; rewrite ?app_nil_r; auto.
  rewrite Hs, seq_S, map_app, IH. reflexivity.
Qed.
(** At the end the last path shown is that of all connected submaps at their last poses. *)
Theorem C128_last_path : forall x, (0 < fc < 2 ^ 31)%Z -> dreach (DNext x) -> ap (bst x) = ADone -> show_path = true -> 0 < connected x ->
  exists l1 l2, log x = l1 ++ Path (map (pose_at (connected x - 1)) (seq 0 (connected x))) :: l2 /\ List.filter is_path l2 = [].
Proof.
  intros x Hfc R A Hs Hc. apply dinv_reach in R; [|exact Hfc]. destruct R as (R & P & X & D & LP).
  pose proof (inv_reach _ _ _ _ _ _ _ Hfc _ R) as (_ & _ & _ & _ & (F1 & F2 & _) & I6).
  destruct I6 as (_ & _ & _ & _ & _ & _ & _ & _ & _ & I10 & I11). destruct (I11 (I10 A)) as [XE _].
  destruct (C78_connected_in_order _ _ _ _ _ _ _ Hfc R) as [K|(k & K & _ & F)]; [unfold connected in Hc; rewrite K in Hc; cbn in Hc; lia|].
  assert (connected x = S k) as -> by (unfold connected; rewrite K, seq_length; reflexivity). rewrite F in *. cbn [Nat.sub]. rewrite Nat.sub_0_r.
  destruct LP as [LP|[LP|[[(r & LP) _]|LP]]]; [congruence| |congruence|].
  - exfalso. subst k. clear - R F K XE Hfc.
    destruct (connected_more cloud frame smst sm_init sm_step fc Hfc _ R) as [_ G].
    pose proof (inv_reach _ _ _ _ _ _ _ Hfc _ R) as (_ & _ & _ & _ & (F1 & _) & _).
    destruct (firsti (cn (bst x))); [specialize (G eq_refl F); rewrite XE in G; exact G|].
    destruct (F1 eq_refl) as [_ E]. rewrite E in K. discriminate.
  - assert (G : forall l o p, last_path pose point l o = Some p -> (exists l1 l2, l = l1 ++ Path p :: l2 /\ List.filter is_path l2 = []) \/ (o = Some p /\ List.filter is_path l = [])).
    { clear. induction l as [|e l IH]; intros o p H; [right; auto|]. destruct e as [ps q|q|ps|]; cbn in H;
        destruct (IH _ _ H) as [(l1 & l2 & -> & E)|[E1 E2]];
        first [left; eexists (_ :: l1), l2; split; [reflexivity|exact E] | right; split; [exact E1|exact E2] | idtac].
      injection E1 as ->. left. exists [], l. auto. }
    destruct (G _ _ _ LP) as [H|[H _]]; [exact H|discriminate].
Qed.

(** A crash is the one of the threads themselves (C77), or show_path or show_map is set and the loop over the
    trajectory reads the submap that the submap thread is just inserting. *)
Theorem C128_crashes : forall o, (0 < fc < 2 ^ 31)%Z -> dreach (DCrash o) -> o = UB /\
  (breach (Crash UB) \/
   exists x i, dreach (DNext x) /\ mpc (su (bst x)) = MPush2 /\ nth_error (traj (su (bst x))) i = Some None /\
     ((show_path = true /\ exists e l, dis x = DPath e i l) \/ (show_map = true /\ exists e l, dis x = DMap e i l))).
Proof.
  intros o Hfc R. inversion R as [|x r Rx Hs]; subst. pose proof (dinv_reach _ _ _ _ _ _ Hfc _ _ _ _ _ _ _ _ _ _ _ Rx) as (B & P & X & D & _).
  assert (UN : forall s i, breach (Next s) -> i < length (traj (su s)) -> unbuilt_at s i -> mpc (su s) = MPush2 /\ nth_error (traj (su s)) i = Some None).
  { intros s i Rs L U. destruct (unbuilt_half cloud frame smst sm_init sm_step fc Hfc s i Rs L U) as [M _]. split; [exact M|].
    destruct (nth_error (traj (su s)) i) as [[g|]|] eqn:E; [destruct (U g E)|reflexivity|]. apply nth_error_None in E. lia. }
  inversion Hs as [|s d l o' Bs| |s d l k r' XE SS U| | | |s e i ps l Hi U| | | | |s e i ps l Hi U| |]; subst; cbn [bst dis log] in *.
  - assert (breach (Crash o)) as C by (eapply breach_step; eassumption).
    destruct (C77_crashes _ _ _ _ _ _ _ Hfc C) as [-> _]. auto.
  - exfalso. pose proof (inv_reach _ _ _ _ _ _ _ Hfc _ B) as (_ & _ & _ & _ & (_ & _ & I5) & _). rewrite XE in I5.
    destruct I5 as (_ & I5 & I5'). cbn in I5. injection I5 as -> _. apply (U (sub_at cloud frame smst s (S (fin (cn s))))).
    apply (nth_built cloud frame smst sm_init sm_step fc Hfc); [exact B|]. cbn [length] in I5'. unfold tlen in I5'.
    pose proof (traj_form cloud frame smst sm_init sm_step fc Hfc s B) as TF. apply (f_equal (@length _)) in TF. rewrite app_length, map_length in TF. lia.
  - destruct D as (D1 & D2 & D3 & D4 & D5 & D6). destruct (UN s i B ltac:(lia) U) as [M Nn]. split; [reflexivity|]. right.
    exists (mkD s (DPath e i ps) l), i. split; [exact Rx|]. split; [exact M|]. split; [exact Nn|]. left. split; [exact D5|]. cbn. eauto.
  - destruct D as (D1 & D2 & D3 & D4 & D5 & D6). destruct (UN s i B ltac:(lia) U) as [M Nn]. split; [reflexivity|]. right.
    exists (mkD s (DMap e i ps) l), i. split; [exact Rx|]. split; [exact M|]. split; [exact Nn|]. right. split; [exact D5|]. cbn. eauto.
Qed.
End Props.

Print Assumptions C128_threads.
Print Assumptions C128_shown.
Print Assumptions C128_local_cloud_has_current.
Print Assumptions C128_submaps_in_order.
Print Assumptions C128_last_path.
Print Assumptions C128_crashes.

(** That happens, with one frame per submap: the third submap is being inserted while the first two have
    just been connected. *)
Section Witness.
Variables pose point : Type.
Variable translation : pose -> vec.
Variable move : pose -> point -> point.
Variable points : list nat -> list point.
Variable pose_at : nat -> nat -> pose.
Variables show_submap show_path show_map show_edge : bool.
Notation dstep := (dstep nat nat unit (fun x c => (x, Some c)) 1 pose point translation move points pose_at show_submap show_path show_map show_edge).
Notation dreach := (dreach nat nat unit tt (fun x c => (x, Some c)) 1 pose point translation move points pose_at show_submap show_path show_map show_edge).
Notation star := (star nat nat unit (fun x c => (x, Some c)) 1).
Notation bstep := (bstep nat nat unit (fun x c => (x, Some c)) 1 false).

(** Runs of the threads in which nothing is connected. *)
Inductive quiet : st nat nat unit -> st nat nat unit -> Prop :=
| q_refl s : quiet s s
| q_step s s1 s2 : bstep s (Next s1) -> fin (cn s1) = fin (cn s) -> (xpc (cn s) = XConn [] -> xpc (cn s1) = XConn []) -> quiet s1 s2 -> quiet s s2.
Lemma quiet_reach : forall a b d l, quiet a b -> dreach (DNext (mkD a d l)) -> dreach (DNext (mkD b d l)).
Proof. intros a b d l H. induction H; intros R; [exact R|]. apply IHquiet. eapply dreach_step; [exact R|]. apply DOther; assumption. Qed.

Ltac qs c := eapply q_step; [eapply c; reflexivity|reflexivity|first [discriminate|auto]|]; cbn.
Ltac build := qs MEnough; qs MInsert; qs MBuilt;
  eapply q_step; [eapply MFullOk; [reflexivity|split; [discriminate|reflexivity]]|reflexivity|first [discriminate|auto]|]; cbn.
Ltac feed c := eapply q_step; [eapply (AInsert nat nat unit _ _ _ _ c); reflexivity|reflexivity|discriminate|]; cbn;
  qs PTake; qs PPut; qs SGetSome; qs SWorkKey; qs SPushed.
(** Two submaps exist, the first match is done; ConnectAllSubmap is about to connect the second. *)
Lemma about_to_connect : exists s, quiet (init tt) s /\ xpc (cn s) = XConn [1] /\ fin (cn s) = 0 /\ traj (su s) = [Some [7]; Some [8]; None] /\ mpc (su s) = MPush2 /\
  cur (su s) = [9] /\ conn (cn s) = [0].
Proof.
  eexists. split; [|split; [|split; [|split; [|split; [|split]]]]].
  - qs SStart. qs AStart. qs MBegin. feed 7. feed 8. feed 9.
    do 2 (build; qs MPush1; qs MPushed; qs MEnqueue).
    eapply q_step; [eapply XSome; [reflexivity|cbn; lia]|reflexivity|discriminate|]; cbn.
    eapply q_step; [eapply XFirstAdd; [reflexivity|reflexivity|eexists; reflexivity]|reflexivity|discriminate|]; cbn.
    eapply q_step; [eapply (TMatch nat nat unit _ _ _ _ [] 1 []); reflexivity|reflexivity|discriminate|]; cbn.
    eapply q_step; [eapply XCollect; [reflexivity|lia|reflexivity]|reflexivity|discriminate|]; cbn.
    eapply q_step; [eapply XCollect; [reflexivity|lia|reflexivity]|reflexivity|discriminate|]; cbn.
    eapply q_step; [eapply XManyCol; [reflexivity|lia|cbn; lia]|reflexivity|discriminate|]; cbn.
    build. qs MPush1. apply q_refl.
  - reflexivity.
  - reflexivity.
  - reflexivity.
  - reflexivity.
  - reflexivity.
  - reflexivity.
Qed.
Theorem C128_read_under_construction : show_path = true \/ show_map = true -> dreach (DCrash UB).
Proof.
  intros S. destruct about_to_connect as (s & Q & XE & F & T & M & Cu & Co).
  pose (s' := set_cn nat nat unit s (mkCon (XConn []) (pend (cn s)) (matched (cn s)) 1 (firsti (cn s)) (conn (cn s) ++ [1]))).
  assert (B : bstep s (Next s')) by (pose proof (XConnect nat nat unit (fun x c => (x, Some c)) 1 false s 1 [] XE) as B; rewrite F in B; exact B).
  pose (l := [] ++ if show_submap then [Submap (points [8]) (cur_pose nat nat unit pose pose_at s' 1)] else []).
  assert (R : dreach (DNext (mkD s' DReady l))).
  { eapply dreach_step; [apply (quiet_reach _ _ DReady [] Q); apply dreach_init|].
    eapply DConnect with (k := 1) (r := []); [exact B|exact XE|unfold s'; cbn; rewrite F; reflexivity|].
    unfold built_at. rewrite T. reflexivity. }
  assert (T0 : built_at s' 0 [7]) by (unfold built_at, s'; cbn; rewrite T; reflexivity).
  assert (T1 : built_at s' 1 [8]) by (unfold built_at, s'; cbn; rewrite T; reflexivity).
  assert (T2 : unbuilt_at s' 2) by (intros g E; unfold built_at, s' in E; cbn in E; rewrite T in E; discriminate).
  assert (L : length (traj (su s')) = 3) by (unfold s'; cbn; rewrite T; reflexivity).
  destruct show_path eqn:SP.
  - eapply dreach_step; [eapply dreach_step; [eapply dreach_step; [eapply dreach_step; [exact R|]|]|]|].
    + apply DPathStart; reflexivity.
    + rewrite L. eapply DPathStep with (g := [7]); [lia|exact T0].
    + eapply DPathStep with (g := [8]); [lia|exact T1].
    + apply DPathUB; [lia|exact T2].
  - assert (show_map = true) as SM by (destruct S; [discriminate|assumption]).
    eapply dreach_step; [eapply dreach_step; [eapply dreach_step; [eapply dreach_step; [eapply dreach_step; [exact R|]|]|]|]|].
    + apply DPathSkip; reflexivity.
    + apply DMapStart; exact SM.
    + rewrite L. eapply DMapStep with (g := [7]); [lia|exact T0|cbn; lia].
    + eapply DMapStep with (g := [8]); [lia|exact T1|cbn; lia].
    + apply DMapUB; [lia|exact T2].
Qed.

(** A run with all functions set, up to the end of the first round: one call of each, showing two submaps. *)
Lemma chosen_all : forall (l : list point), chosen l l.
Proof. induction l; constructor; assumption. Qed.
Example C128_ex_round : show_submap = true -> show_path = true -> show_map = true -> show_edge = true ->
  exists x ps, dreach (DNext x) /\ connected nat nat unit pose point x = 2 /\
    log x = [Submap (points [8]) (pose_at 1 1); Path [pose_at 1 0; pose_at 1 1]; Map ps; Edges] /\
    (exists c, local_cloud nat nat unit pose point translation move points pose_at x 1 2 c /\ chosen c ps).
Proof.
  intros S1 S2 S3 S4. destruct about_to_connect as (s & Q & XE & F & T & M & Cu & Co).
  pose (s' := set_cn nat nat unit s (mkCon (XConn []) (pend (cn s)) (matched (cn s)) 1 (firsti (cn s)) (conn (cn s) ++ [1]))).
  assert (B : bstep s (Next s')) by (pose proof (XConnect nat nat unit (fun x c => (x, Some c)) 1 false s 1 [] XE) as B; rewrite F in B; exact B).
  assert (R : dreach (DNext (mkD s' DReady [Submap (points [8]) (pose_at 1 1)]))).
  { eapply dreach_step; [apply (quiet_reach _ _ DReady [] Q); apply dreach_init|].
    replace [Submap (points [8]) (pose_at 1 1)] with ([] ++ if show_submap then [Submap (points [8]) (cur_pose nat nat unit pose pose_at s' 1)] else [])
      by (rewrite S1; reflexivity).
    eapply DConnect with (k := 1) (r := []); [exact B|exact XE|unfold s'; cbn; rewrite F; reflexivity|].
    unfold built_at. rewrite T. reflexivity. }
  pose (s2 := set_su nat nat unit s' (mkSub (MEnq (length (traj (su s')) - 1)) (idx (su s')) (cur (su s')) (fill (traj (su s')) (cur (su s'))) (done (su s')))).
  assert (B2 : bstep s' (Next s2)) by (apply MPushed; exact M).
  assert (T2 : traj (su s2) = [Some [7]; Some [8]; Some [9]]).
  { unfold s2. cbn [su set_su traj]. replace (su s') with (su s) by reflexivity. rewrite T, Cu. reflexivity. }
  assert (XE2 : xpc (cn s2) = XConn []) by reflexivity. assert (F2 : fin (cn s2) = 1) by reflexivity.
  assert (C2 : conn (cn s2) = [0; 1]) by (change (conn (cn s2)) with (conn (cn s) ++ [1]); rewrite Co; reflexivity).
  assert (R2 : forall d l, dreach (DNext (mkD s' d l)) -> dreach (DNext (mkD s2 d l))).
  { intros d l Rl. eapply dreach_step; [exact Rl|]. apply DOther; [exact B2|reflexivity|reflexivity]. }
  apply R2 in R. clearbody s2. clear R2 B2 B s' s Q XE F T M Cu Co.
  set (c := (if near (translation (pose_at 1 1)) (translation (pose_at 1 1)) then
     (if near (translation (pose_at 1 0)) (translation (pose_at 1 1)) then [] ++ map (move (pose_at 1 0)) (points [7]) else []) ++ map (move (pose_at 1 1)) (points [8])
     else (if near (translation (pose_at 1 0)) (translation (pose_at 1 1)) then [] ++ map (move (pose_at 1 0)) (points [7]) else []))).
  assert (R3 : dreach (DNext (mkD (set_xpc nat nat unit s2 XSize) DReady [Submap (points [8]) (pose_at 1 1); Path [pose_at 1 0; pose_at 1 1]; Map c; Edges]))).
  { assert (P : forall i g, built_at s2 i g -> i < 3 -> forall ps l, dreach (DNext (mkD s2 (DPath 3 i ps) l)) ->
      dreach (DNext (mkD s2 (DPath 3 (S i) (if i <=? 1 then ps ++ [pose_at 1 i] else ps)) l))).
    { intros i g Bi Hi ps l Rl. eapply dreach_step; [exact Rl|]. replace (if i <=? 1 then ps ++ [pose_at 1 i] else ps) with (if i <=? fin (cn s2) then ps ++ [cur_pose nat nat unit pose pose_at s2 i] else ps)
        by (unfold cur_pose; rewrite F2; reflexivity).
      eapply DPathStep with (g := g); assumption. }
    assert (Mp : forall i g, built_at s2 i g -> i <= 1 -> forall ps l, dreach (DNext (mkD s2 (DMap 3 i ps) l)) ->
      dreach (DNext (mkD s2 (DMap 3 (S i) (if near (translation (pose_at 1 i)) (translation (pose_at 1 1)) then ps ++ map (move (pose_at 1 i)) (points g) else ps)) l))).
    { intros i g Bi Hi ps l Rl. eapply dreach_step; [exact Rl|].
      replace (pose_at 1 i) with (cur_pose nat nat unit pose pose_at s2 i) by (unfold cur_pose; rewrite F2; reflexivity).
      replace (pose_at 1 1) with (cur_pose nat nat unit pose pose_at s2 (fin (cn s2))) by (unfold cur_pose; rewrite F2; reflexivity).
      eapply DMapStep with (g := g); [lia|assumption|lia]. }
    assert (L : length (traj (su s2)) = 3) by (rewrite T2; reflexivity).
    assert (U0 : built_at s2 0 [7]) by (unfold built_at; rewrite T2; reflexivity).
    assert (U1 : built_at s2 1 [8]) by (unfold built_at; rewrite T2; reflexivity).
    assert (U2 : built_at s2 2 [9]) by (unfold built_at; rewrite T2; reflexivity).
    assert (A1 : dreach (DNext (mkD s2 (DPath 3 0 []) [Submap (points [8]) (pose_at 1 1)]))).
    { eapply dreach_step; [exact R|]. rewrite <- L. apply DPathStart; assumption. }
    apply (P 0 _ U0) in A1; [|lia]. apply (P 1 _ U1) in A1; [|lia]. apply (P 2 _ U2) in A1; [|lia]. cbn in A1.
    assert (A2 : dreach (DNext (mkD s2 (DMap 3 0 []) [Submap (points [8]) (pose_at 1 1); Path [pose_at 1 0; pose_at 1 1]]))).
    { eapply dreach_step; [eapply dreach_step; [exact A1|apply DPathEnd; lia]|]. rewrite <- L. apply DMapStart. exact S3. }
    apply (Mp 0 _ U0) in A2; [|lia]. apply (Mp 1 _ U1) in A2; [|lia]. fold c in A2.
    assert (A3 : dreach (DNext (mkD s2 DEdge ([Submap (points [8]) (pose_at 1 1); Path [pose_at 1 0; pose_at 1 1]] ++ [Map c])))).
    { eapply dreach_step; [exact A2|]. apply DMapEnd; [right; split; [lia|eauto]|]. apply chosen_all. }
    eapply dreach_step; [exact A3|].
    replace [Submap (points [8]) (pose_at 1 1); Path [pose_at 1 0; pose_at 1 1]; Map c; Edges] with
      (([Submap (points [8]) (pose_at 1 1); Path [pose_at 1 0; pose_at 1 1]] ++ [Map c]) ++ if show_edge then [Edges] else []) by (rewrite S4; reflexivity).
    apply DBack; [apply XConnected; exact XE2|exact XE2|reflexivity]. }
  eexists. exists c. split; [exact R3|]. split; [unfold connected; cbn; rewrite C2; reflexivity|]. split; [reflexivity|].
  assert (P1 : (0 < 1 < 2 ^ 31)%Z) by lia.
  destruct (C128_shown _ _ _ _ _ _ _ _ _ _ _ _ _ _ _ _ _ [Submap (points [8]) (pose_at 1 1); Path [pose_at 1 0; pose_at 1 1]] (Map c) [Edges] P1 R3 eq_refl) as (m & _ & Hm & _ & H).
  rewrite (Hm S1) in H. exact H.
Qed.
End Witness.
Print Assumptions C128_read_under_construction.
