(** Properties C92, C93, C94, C95: the pose graph optimizer. *)
From Coq Require Import List Bool ZArith SpecFloat Lia Permutation.
From Verif Require Import Outcome Pose MathModel LoopModel LoopSpec LoopProps ViewModel IsamModel IsamSpec IsamProofs.
Import ListNotations.
Local Open Scope nat_scope.

Section Props.
Variable G : group.
Variable enu : Type.
Variables tn rn : G -> spec_float.
Variables vx vy : G -> coord.
Variable junk : G.
Variable est : nat -> key -> G.
Variable solved : list (nat * enu) -> G.
Variable turned : list G -> bool.
Variable O : options.
Variable S : settings.
Notation opt := (opt G enu).
Notation sub := (sub G enu).
Notation factor := (factor G enu).
Notation frame := (sub * obs G)%type.
Notation add_frame := (add_frame tn rn vx vy junk est solved turned O S).
Notation run c t l := (frames_in add_frame l (init c t)).
Notation run_final := (run_final vx vy junk est O).
Notation connect_rest := (connect_rest tn rn vx vy junk est solved turned O S).
Notation connect_all := (connect_all tn rn vx vy junk est solved turned O S).
Hypothesis near_ok : (1 <= nearest S < 2 ^ 30)%Z.
Hypothesis ignore_int : (- 2 ^ 31 <= ignore S < 2 ^ 31)%Z.

(** Every matching task reports once and the number of submaps fits an int. *)
Definition good (l : list frame) : Prop := Forall (fun x => fair (snd x)) l /\ (Z.of_nat (length l) < 2 ^ 31)%Z.

Lemma good_app : forall a b, good (a ++ b) -> good a.
Proof. intros a b [F L]. apply Forall_app in F. destruct F as [F _]. rewrite app_length in L. split; [exact F|lia]. Qed.
Lemma frames_app : forall a b (s : opt), frames_in add_frame (a ++ b) s = bind (frames_in add_frame a s) (frames_in add_frame b).
Proof.
  induction a as [|x a IH]; intros b s; cbn; [reflexivity|]. destruct (add_frame (fst x) (snd x) s); cbn; [apply IH|reflexivity..].
Qed.
(** An induction over the frames. *)
Lemma run_ind : forall c t (P : list frame -> opt -> Prop), P [] (init c t) ->
  (forall l x s s' d r, good (l ++ [x]) -> run c t l = Ok s -> inv G enu vx vy O s -> length (subs s) = length l -> P l s ->
     LoopModel.add_frame G tn rn S (loop s) (snd x) true = Ok (d, r) -> add_frame (fst x) (snd x) s = Ok s' -> inv G enu vx vy O s' ->
     loop s' = d -> r_index r = length l -> (forall e, In e (r_edges r) -> fst e < length l) ->
     stepped G enu est solved turned O s s' (fst x) r -> P (l ++ [x]) s') ->
  forall l, good l -> exists s, run c t l = Ok s /\ inv G enu vx vy O s /\ length (subs s) = length l /\ P l s.
Proof.
  intros c t P P0 Ps l. induction l as [|x l IH] using rev_ind; intros Gl.
  - exists (init c t). split; [reflexivity|]. split; [apply inv_init|]. split; [reflexivity|exact P0].
  - destruct (IH (good_app _ _ Gl)) as (s & R & I & L & Pl). pose proof Gl as [F Z]. apply Forall_app in F. destruct F as [_ F].
    inversion F as [|? ? F1 _]; subst. rewrite app_length in Z. cbn in Z.
    destruct (add_frame_ok G enu tn rn vx vy junk est solved turned O S near_ok ignore_int (fst x) (snd x) s I) as (d & r & s' & H1 & H2 & H3 & H4 & H5 & H6 & H7);
      [rewrite L; lia|exact F1|].
    exists s'. rewrite frames_app, R. cbn. rewrite H2. split; [reflexivity|]. split; [exact H3|]. rewrite L in *.
    split; [rewrite (t_subs _ _ _ _ _ _ _ _ _ _ H7), latest_len, !app_length, L; reflexivity|].
    eapply Ps; eauto.
Qed.
Lemma run_prop : forall c t (P : list frame -> opt -> Prop), P [] (init c t) ->
  (forall l x s s' d r, good (l ++ [x]) -> run c t l = Ok s -> inv G enu vx vy O s -> length (subs s) = length l -> P l s ->
     LoopModel.add_frame G tn rn S (loop s) (snd x) true = Ok (d, r) -> add_frame (fst x) (snd x) s = Ok s' -> inv G enu vx vy O s' ->
     loop s' = d -> r_index r = length l -> (forall e, In e (r_edges r) -> fst e < length l) ->
     stepped G enu est solved turned O s s' (fst x) r -> P (l ++ [x]) s') ->
  forall l s, good l -> run c t l = Ok s -> inv G enu vx vy O s /\ length (subs s) = length l /\ P l s.
Proof.
  intros c t P P0 Ps l s Gl R. destruct (run_ind c t P P0 Ps l Gl) as (s' & R' & X). rewrite R in R'. injection R' as <-. exact X.
Qed.
Lemma run_inv : forall c t l s, good l -> run c t l = Ok s -> inv G enu vx vy O s /\ length (subs s) = length l.
Proof.
  intros c t l s Gl R. destruct (run_prop c t (fun _ _ => True) I ltac:(auto) l s Gl R) as (A & B & _). auto.
Qed.

(** ** C92 *)
(** Adding submaps never fails. *)
Theorem C92_total : forall c t l, good l -> exists s, run c t l = Ok s /\ length (subs s) = length l.
Proof.
  intros c t l Gl. destruct (run_ind c t (fun _ _ => True) I ltac:(auto) l Gl) as (s & R & _ & L & _). eauto.
Qed.
(** Every variable is defined once. *)
Theorem C92_variables : forall c t l s, good l -> run c t l = Ok s ->
  NoDup (map fst (ivars s)) /\ pfacs s = [] /\ pvars s = [] /\
  forall k, In k (map fst (ivars s)) <->
    match k with KPose i => i < length l | KOdom => use_odom O = true /\ l <> [] | KGps | KCalib => gps_known s = true end.
Proof.
  intros c t l s Gl R. destruct (run_inv c t l s Gl R) as [I L]. destruct I as [Ipf Ipv [Iw _] _ _ Iv _ _].
  split; [unfold vars, tv in Iw; rewrite Ipv, app_nil_r in Iw; exact Iw|]. split; [exact Ipf|]. split; [exact Ipv|].
  intros k. rewrite Iv, L. destruct k; try reflexivity. split; intros [Q Q']; (split; [exact Q|]).
  - intros ->. cbn in Q'. lia.
  - destruct l; [congruence|cbn; lia].
Qed.
(** Every variable of a factor is defined. *)
Theorem C92_no_dangling_factor : forall c t l s f k, good l -> run c t l = Ok s -> In f (ifacs s) -> In k (keys f) -> In k (map fst (ivars s)).
Proof.
  intros c t l s f k Gl R Hf Hk. destruct (run_inv c t l s Gl R) as [I L]. destruct I as [Ipf Ipv [_ Iw] _ _ _ _ _].
  unfold tf, vars, tv in Iw. rewrite Ipf, Ipv, !app_nil_r in Iw. rewrite Forall_forall in Iw. exact (Iw f Hf k Hk).
Qed.
Lemma final_ok : forall s, inv G enu vx vy O s -> exists s', run_final s = Ok s' /\ inv G enu vx vy O s' /\ count s' = count s + 2 /\
  subs s' = latest G enu est (count s') 0 (subs s) /\ ifacs s' = ifacs s /\ ivars s' = ivars s /\ links s' = links s /\ gps_known s' = gps_known s.
Proof.
  intros s I. destruct I as [Ipf Ipv Iwf Iv If Ivars Ic Ical].
  assert (tf G enu s = ifacs s) as T1 by (unfold tf; rewrite Ipf; apply app_nil_r).
  assert (tv G enu s = ivars s) as T2 by (unfold tv; rewrite Ipv; apply app_nil_r).
  unfold IsamModel.run_final. rewrite isam_ok by exact Iwf. cbn [bind].
  destruct (update_all_ok G enu vx vy junk est (flush G enu s)) as (s' & R & U1 & U2 & U3 & U4 & U5 & U6 & U7 & U8 & U9 & (U10 & U11 & U12) & U13 & U14).
  { cbn. rewrite T2. intros j Hj. apply Ivars. exact Hj. } { exact Iv. }
  cbn in U1, U3, U4, U5, U6, U7, U8, U9, U10, U11, U12, U13, U14. rewrite T1 in U4. rewrite T2 in U5.
  assert (L : length (subs s') = length (subs s)) by (rewrite U1; apply latest_len).
  assert (I' : inv G enu vx vy O s').
  { constructor; try assumption.
    - destruct Iwf as [W1 W2]. unfold wf, vars, tf, tv in *. rewrite U4, U5, U6, U7, !app_nil_r. rewrite Ipf, Ipv, !app_nil_r in *. auto.
    - rewrite U3, L. exact If.
    - intros k. rewrite U5, U11, L. apply Ivars.
    - intros x Hx. rewrite U10 in Hx. rewrite L. auto.
    - rewrite U13, L. exact Ical. }
  rewrite R. cbn [bind]. destruct (use_odom O && calib_inserted s')%bool eqn:E.
  - apply andb_true_iff in E. destruct E as [Eo Ec].
    assert (In KOdom (map fst (ivars s'))) as Hk.
    { apply (v_vars _ _ _ _ _ _ I'). split; [exact Eo|]. rewrite (v_calib _ _ _ _ _ _ I') in Ec. apply andb_true_iff in Ec. destruct Ec as [_ Ec].
      destruct (length (subs s')); [discriminate|lia]. }
    unfold estimate. apply has_in in Hk. rewrite Hk. cbn [bind]. eexists. split; [reflexivity|]. split; [destruct I'; constructor; assumption|].
    cbn. rewrite U14. auto 8.
  - exists s'. split; [reflexivity|]. rewrite U14. auto 8.
Qed.
(** Nor does the final optimization. *)
Theorem C92_final_total : forall c t l s, good l -> run c t l = Ok s -> exists s', run_final s = Ok s'.
Proof.
  intros c t l s Gl R. destruct (run_inv c t l s Gl R) as [I _]. destruct (final_ok s I) as (s' & H & _). eauto.
Qed.

(** ** C93 *)
Lemma combine_snoc : forall {A B} (p : list A) (l : list B) a x, length p = length l -> combine (p ++ [a]) (l ++ [x]) = combine p l ++ [(a, x)].
Proof.
  intros A B p. induction p as [|b p IH]; intros [|y l] a x H; cbn in *; try discriminate; [reflexivity|]. f_equal. apply IH. congruence.
Qed.
Lemma indexed_app : forall {A B} (f : A -> option B) l x,
  indexed f (l ++ [x]) = indexed f l ++ match f x with Some b => [(length l, b)] | None => [] end.
Proof.
  intros A B f l x. unfold indexed. rewrite app_length. cbn [length]. rewrite seq_app. cbn [seq].
  assert (combine (seq 0 (length l) ++ [length l]) (l ++ [x]) = combine (seq 0 (length l)) l ++ [(length l, x)]) as E.
  { apply combine_snoc, seq_length. }
  cbn. rewrite E, flat_map_app. cbn. rewrite app_nil_r. reflexivity.
Qed.
Lemma fm_loops : forall {B} (f : factor -> list B) (l : list (nat * nat * G)), (forall a b t, f (FLoop a b t) = []) ->
  flat_map f (map (fun e => let '(a, b, t) := e in FLoop a b t) l) = [].
Proof. intros B f l H. induction l as [|[[a b] t] l IH]; cbn; [reflexivity|]. rewrite H. exact IH. Qed.
Lemma fm_gps : forall {B} (f : factor -> list B) i g s, (forall i e c, f (FEnu i e c) = []) -> (forall t, f (FGpsPrior t) = []) -> f FCalibPrior = [] ->
  flat_map f (gfac G enu solved turned O i g s) = [].
Proof.
  intros B f i g s H1 H2 H3. unfold gfac. destruct g as [e|]; [|reflexivity]. destruct (gact G enu turned O (Some e) s) as [|[|[|[|k]]]]; try reflexivity.
  - destruct (sampled O i); cbn; rewrite ?H1; reflexivity.
  - cbn. rewrite H2, H3. cbn. generalize (cached s). intros l. induction l as [|x l IH]; cbn; [reflexivity|]. rewrite H1. exact IH.
Qed.
Lemma fm_odom : forall {B} (f : factor -> list B) i x, (forall i p, f (FOdom i p) = []) -> flat_map f (ofac G enu O i x) = [].
Proof. intros B f i x H. unfold ofac. destruct (odom x); [destruct (use_odom O)|]; cbn; rewrite ?H; reflexivity. Qed.
Ltac split_facs H :=
  rewrite (t_facs _ _ _ _ _ _ _ _ _ _ H), !flat_map_app;
  repeat (rewrite fm_loops by reflexivity); repeat (rewrite fm_gps by reflexivity); repeat (rewrite fm_odom by reflexivity); rewrite ?app_nil_r, ?app_nil_l.

(** The constraints between poses that are not loop closures. *)
Theorem C93_contents : forall c t l s, good l -> run c t l = Ok s ->
  anchors (ifacs s) = match l with [] => [] | x :: _ => [(0, pose (fst x))] end /\
  moves (ifacs s) = map (fun e => (fst e, Datatypes.S (fst e), from_last (fst (snd e)))) (combine (seq 0 (length l - 1)) (tl l)) /\
  odom_anchors (ifacs s) = (if use_odom O then match l with [] => [] | _ => [ginv t] end else []) /\
  odoms (ifacs s) = (if use_odom O then indexed odom (map fst l) else []).
Proof.
  intros c t l s Gl R. cut (tf_odom s = t /\
    anchors (ifacs s) = match l with [] => [] | x :: _ => [(0, pose (fst x))] end /\
    moves (ifacs s) = map (fun e => (fst e, Datatypes.S (fst e), from_last (fst (snd e)))) (combine (seq 0 (length l - 1)) (tl l)) /\
    odom_anchors (ifacs s) = (if use_odom O then match l with [] => [] | _ => [ginv t] end else []) /\
    odoms (ifacs s) = (if use_odom O then indexed odom (map fst l) else [])); [tauto|].
  revert l s Gl R. refine (fun l s Gl R => proj2 (proj2 (run_prop c t (fun l s => _) _ _ l s Gl R))).
  - cbn. repeat split. destruct (use_odom O); reflexivity. destruct (use_odom O); reflexivity.
  - clear l s Gl R. intros l x s s' d r Gl R I L (T & A & M & OA & Od) Hr Hs I' Hl Ri Re St.
    pose proof (t_odom _ _ _ _ _ _ _ _ _ _ St) as To. rewrite To. split; [exact T|].
    unfold anchors, moves, odom_anchors, odoms in *.
    split; [|split; [|split]].
    + split_facs St. rewrite A, L. destruct l as [|y l]; cbn; [destruct (use_odom O)|]; reflexivity.
    + split_facs St. rewrite M, L. destruct l as [|y l]; cbn [length vfac flat_map app tl].
      * destruct (use_odom O); reflexivity.
      * rewrite app_length. cbn [length]. replace (Datatypes.S (length l) - 1) with (length l) by lia. replace (Datatypes.S (length l + 1) - 1) with (Datatypes.S (length l)) by lia.
        rewrite seq_S. cbn [Nat.add].
        assert (combine (seq 0 (length l) ++ [length l]) (l ++ [x]) = combine (seq 0 (length l)) l ++ [(length l, x)]) as E.
        { apply combine_snoc, seq_length. }
        rewrite E, map_app. reflexivity.
    + split_facs St. rewrite OA, L, T. destruct l as [|y l]; cbn; [destruct (use_odom O); reflexivity|]. destruct (use_odom O); reflexivity.
    + rewrite (t_facs _ _ _ _ _ _ _ _ _ _ St), !flat_map_app. rewrite fm_loops by reflexivity. rewrite fm_gps by reflexivity. rewrite app_nil_r.
      rewrite Od, L, map_app. cbn [map]. rewrite indexed_app, map_length. unfold ofac. destruct l as [|y l]; cbn [length vfac]; destruct (use_odom O); cbn;
        destruct (odom (fst x)); reflexivity.
Qed.

Lemma hist_app : forall a b s, hist G tn rn S s (a ++ b) =
  bind (hist G tn rn S s a) (fun x => bind (hist G tn rn S (fst x) b) (fun y => Ok (fst y, snd x ++ snd y))).
Proof.
  clear. induction a as [|[o d|p q] a IH]; intros b s; cbn.
  - destruct (hist G tn rn S s b) as [[]| | |]; reflexivity.
  - destruct (LoopModel.add_frame G tn rn S s o d) as [[s1 r]| | |]; cbn; try reflexivity. rewrite IH.
    destruct (hist G tn rn S s1 a) as [[s2 rs]| | |]; cbn; try reflexivity. destruct (hist G tn rn S s2 b) as [[]| | |]; reflexivity.
  - destruct (set_window s p q); cbn; try reflexivity. apply IH.
Qed.
Lemma loops_map : forall (l : list (nat * nat * G)), loops (map (fun e => let '(a, b, t) := e in FLoop (enu := enu) a b t) l) = l.
Proof. unfold loops. induction l as [|[[a b] t] l IH]; cbn; [reflexivity|]. f_equal. exact IH. Qed.
Lemma loops_app : forall (a b : list factor), loops (a ++ b) = loops a ++ loops b.
Proof. intros. apply flat_map_app. Qed.
Lemma step_loops : forall s s' x r, stepped G enu est solved turned O s s' x r -> loops (ifacs s') = loops (ifacs s) ++ closed G enu s r.
Proof.
  intros s s' x r St. rewrite (t_facs _ _ _ _ _ _ _ _ _ _ St), !loops_app, loops_map.
  unfold loops at 2 3 4. rewrite fm_gps by reflexivity. rewrite fm_odom by reflexivity. rewrite app_nil_r.
  replace (flat_map _ (vfac G enu O (length (subs s)) (pose x) (from_last x) (tf_odom s))) with (@nil (nat * nat * G)); [reflexivity|].
  destruct (length (subs s)); cbn; [destruct (use_odom O)|]; reflexivity.
Qed.
(** The loop factors are the loop closures that the detector accepts; each goes to an older submap. *)
Theorem C93_loops : forall c t l s, good l -> run c t l = Ok s ->
  exists d rs, hist G tn rn S (det0 c) (map (fun x => Add (snd x) true) l) = Ok (d, rs) /\
    map fst (loops (ifacs s)) = map fst (accepted rs) /\
    forall a b p, In (a, b, p) (loops (ifacs s)) -> a < b < length l.
Proof.
  intros c t l s Gl R.
  cut (exists rs, hist G tn rn S (det0 c) (map (fun x => Add (snd x) true) l) = Ok (loop s, rs) /\
    map fst (loops (ifacs s)) = map fst (accepted rs) /\ forall a b p, In (a, b, p) (loops (ifacs s)) -> a < b < length l).
  { intros (rs & X). exists (loop s), rs. exact X. }
  revert l s Gl R. refine (fun l s Gl R => proj2 (proj2 (run_prop c t (fun l s => _) _ _ l s Gl R))).
  - exists []. split; [reflexivity|]. split; [reflexivity|]. intros a b p [].
  - clear l s Gl R. intros l x s s' d r Gl R I L (rs & H & E & B) Hr Hs I' Hl Ri Re St.
    exists (rs ++ [r]). rewrite map_app, hist_app, H. cbn [bind map fst snd hist]. rewrite Hr. cbn [bind fst snd]. rewrite Hl.
    split; [reflexivity|]. rewrite (step_loops _ _ _ _ St). split.
    + rewrite map_app, E. unfold accepted. rewrite flat_map_app, map_app. f_equal. cbn. rewrite app_nil_r. unfold closed. destruct (r_succeed r); [|reflexivity].
      rewrite !map_map. cbn. rewrite Ri, L. reflexivity.
    + intros a b p Hin. rewrite app_length. cbn. apply in_app_iff in Hin. destruct Hin as [Hin|Hin]; [apply B in Hin; lia|].
      unfold closed in Hin. destruct (r_succeed r); [|destruct Hin]. apply in_map_iff in Hin. destruct Hin as (e & Q & He). injection Q as <- <- _.
      apply Re in He. rewrite L. lia.
Qed.
(** The measurement of a loop factor is the matched transform: the detector's edge gives the pose
    of the new submap, which is the pose of the older one times the measurement. *)
Theorem C93_loop_transform : forall c t l x s s' d r, good (l ++ [x]) -> run c t l = Ok s -> add_frame (fst x) (snd x) s = Ok s' ->
  LoopModel.add_frame G tn rn S (loop s) (snd x) true = Ok (d, r) ->
  exists new, loops (ifacs s') = loops (ifacs s) ++ new /\
    Forall2 (fun f e => fst f = (fst e, length l) /\ exists y, nth_error (subs s) (fst e) = Some y /\ gmul (pose y) (snd f) = snd e)
      new (if r_succeed r then r_edges r else []).
Proof.
  intros c t l x s s' d r Gl R Hs Hr. destruct (run_inv c t l s (good_app _ _ Gl) R) as [I L].
  pose proof Gl as [F Z]. apply Forall_app in F. destruct F as [_ F]. inversion F as [|? ? F1 _]; subst. rewrite app_length in Z. cbn in Z.
  destruct (add_frame_ok G enu tn rn vx vy junk est solved turned O S near_ok ignore_int (fst x) (snd x) s I) as (d' & r' & s'' & H1 & H2 & _ & _ & _ & H6 & H7);
    [rewrite L; lia|exact F1|].
  rewrite Hr in H1. injection H1 as <- <-. rewrite Hs in H2. injection H2 as <-.
  exists (closed G enu s r). split; [apply (step_loops _ _ _ _ H7)|]. unfold closed. destruct (r_succeed r); [|constructor].
  clear - H6 L. induction (r_edges r) as [|e es IH]; cbn; [constructor|]. constructor.
  - cbn. split; [rewrite L; reflexivity|]. destruct (nth_error (subs s) (fst e)) as [y|] eqn:Ey.
    + exists y. split; [reflexivity|]. rewrite gmul_assoc, ginv_r, gmul_1_l. reflexivity.
    + apply nth_error_None in Ey. specialize (H6 e (or_introl eq_refl)). lia.
  - apply IH. intros e' He'. apply H6. right. exact He'.
Qed.
Lemma latest_pose : forall l k i, map pose (latest G enu est k i l) = map (fun j => est k (KPose j)) (seq i (length l)).
Proof. induction l as [|x l IH]; intros k i; cbn; [reflexivity|]. f_equal. apply IH. Qed.
Lemma latest_keep : forall {B} (f : sub -> B), (forall p x, f (set_pose p x) = f x) -> forall l k i, map f (latest G enu est k i l) = map f l.
Proof. intros B f H l. induction l as [|x l IH]; intros k i; cbn; [reflexivity|]. rewrite H, IH. reflexivity. Qed.
(** The submaps get the latest estimates, and nothing else of them changes. *)
Theorem C93_poses : forall c t l s, good l -> run c t l = Ok s ->
  map pose (subs s) = map (fun i => est (count s) (KPose i)) (seq 0 (length l)) /\
  map (fun x => (from_last x, odom x, gps x)) (subs s) = map (fun x => (from_last (fst x), odom (fst x), gps (fst x))) l.
Proof.
  intros c t l s Gl R. revert l s Gl R. refine (fun l s Gl R => proj2 (proj2 (run_prop c t (fun l s => _) _ _ l s Gl R))).
  - split; reflexivity.
  - clear l s Gl R. intros l x s s' d r Gl R I L (A & B) Hr Hs I' Hl Ri Re St. rewrite (t_subs _ _ _ _ _ _ _ _ _ _ St).
    rewrite latest_pose, latest_keep by reflexivity. rewrite !app_length, L, !map_app, B. split; reflexivity.
Qed.
Theorem C93_final_poses : forall c t l s s', good l -> run c t l = Ok s -> run_final s = Ok s' ->
  map pose (subs s') = map (fun i => est (count s') (KPose i)) (seq 0 (length l)) /\ ifacs s' = ifacs s /\ links s' = links s.
Proof.
  intros c t l s s' Gl R Hf. destruct (run_inv c t l s Gl R) as [I L]. destruct (final_ok s I) as (s2 & H & _ & _ & E & E2 & _ & E3 & _).
  rewrite Hf in H. injection H as <-. rewrite E at 1. rewrite latest_pose, L. auto.
Qed.

(** ** The submaps of a trajectory *)
Lemma connect_rest_frames : forall ins s s', connect_rest ins s = Ok s' -> exists l, frames_in add_frame l s = Ok s' /\
  map (fun x => (from_last (fst x), odom (fst x), gps (fst x), snd x)) l = map (fun a => (to_me a, i_odom a, i_gps a, i_obs a)) ins /\
  forall l1 x l2, l = l1 ++ x :: l2 -> exists s1 prev, frames_in add_frame l1 s = Ok s1 /\
    nth_error (subs s1) (length (subs s1) - 1) = Some prev /\ pose (fst x) = gmul (pose prev) (from_last (fst x)).
Proof.
  clear. induction ins as [|a ins IH]; intros s s' H; cbn in H; [exists []; split; [exact H|split; [reflexivity|intros [|]; discriminate]]|].
  destruct (nth_error (subs s) (length (subs s) - 1)) as [prev|] eqn:Ep; [|discriminate].
  destruct (add_frame _ _ s) as [s1| | |] eqn:E in H; try discriminate. cbn in H. destruct (IH s1 s' H) as (l & A & B & C).
  exists ((mkSub (gmul (pose prev) (to_me a)) (to_me a) (i_odom a) (i_gps a), i_obs a) :: l). cbn. rewrite E. cbn. split; [exact A|].
  split; [rewrite B; reflexivity|]. intros [|y l1] x l2 Hl; cbn in Hl.
  - injection Hl as <- _. exists s, prev. auto.
  - injection Hl as <- Hl. destruct (C l1 x l2 Hl) as (s2 & p2 & X). exists s2, p2. cbn. rewrite E. exact X.
Qed.
Lemma connect_rest_total : forall ins c t l s, good l -> l <> [] -> run c t l = Ok s -> Forall (fun a => fair (i_obs a)) ins ->
  (Z.of_nat (length l + length ins) < 2 ^ 31)%Z -> exists s', connect_rest ins s = Ok s'.
Proof.
  induction ins as [|a ins IH]; intros c t l s Gl Hl R F Z; cbn; [eauto|].
  destruct (run_inv c t l s Gl R) as [I L].
  destruct (nth_error (subs s) (length (subs s) - 1)) as [prev|] eqn:E.
  2: { apply nth_error_None in E. destruct l; [congruence|]. cbn in L. lia. }
  set (x := mkSub (gmul (pose prev) (to_me a)) (to_me a) (i_odom a) (i_gps a)). inversion F as [|? ? F1 F2]; subst.
  assert (good (l ++ [(x, i_obs a)])) as Gx.
  { destruct Gl as [G1 G2]. split; [apply Forall_app; split; [exact G1|constructor; [exact F1|constructor]]|]. rewrite app_length. cbn in *. lia. }
  destruct (C92_total c t _ Gx) as (s1 & R1 & _). rewrite frames_app, R in R1. cbn [bind frames_in fst snd] in R1.
  destruct (add_frame x (i_obs a) s) as [s2| | |] eqn:E2; try discriminate. cbn [bind]. apply (IH c t (l ++ [(x, i_obs a)]) s2 Gx).
  - destruct l; discriminate.
  - rewrite frames_app, R. cbn [bind frames_in fst snd]. rewrite E2. reflexivity.
  - exact F2.
  - rewrite app_length. cbn in *. lia.
Qed.

(** The initial values of the poses. *)
Theorem C93_initial_values : forall c t l s i x, good l -> run c t l = Ok s -> nth_error l i = Some x -> In (KPose i, pose (fst x)) (ivars s).
Proof.
  intros c t l s i x Gl R. revert i x. revert l s Gl R. refine (fun l s Gl R => proj2 (proj2 (run_prop c t (fun l s => _) _ _ l s Gl R))).
  - intros [|i] x H; discriminate.
  - clear l s Gl R. intros l x s s' d r Gl R I L P Hr Hs I' Hl Ri Re St i y Hy. rewrite (t_vars _ _ _ _ _ _ _ _ _ _ St). apply in_or_app.
    destruct (Nat.lt_ge_cases i (length l)) as [Q|Q].
    + rewrite nth_error_app1 in Hy by exact Q. left. apply P, Hy.
    + rewrite nth_error_app2 in Hy by exact Q. right. apply in_or_app. left. unfold vvar. rewrite L.
      destruct (i - length l) as [|k] eqn:Ei; [|destruct k; discriminate]. injection Hy as <-. assert (i = length l) as -> by lia. left. reflexivity.
Qed.
(** ConnectAllSubmap with at least two submaps adds all of them, each with the estimated pose of
    its predecessor times the matched transform as the initial value. *)
Theorem C93_trajectory : forall c t p0 a b ins, Forall (fun a => fair (i_obs a)) (a :: b :: ins) -> (Z.of_nat (length (a :: b :: ins)) < 2 ^ 31)%Z ->
  exists l s s', good l /\ run c t l = Ok s /\ run_final s = Ok s' /\ connect_all c t p0 (a :: b :: ins) = Ok s' /\
    map (fun x => (odom (fst x), gps (fst x), snd x)) l = map (fun a => (i_odom a, i_gps a, i_obs a)) (a :: b :: ins) /\
    map (fun x => from_last (fst x)) (tl l) = map to_me (b :: ins) /\
    (exists x, nth_error l 0 = Some x /\ pose (fst x) = p0) /\
    forall l1 x l2, l = l1 ++ x :: l2 -> l1 <> [] ->
      exists s1, run c t l1 = Ok s1 /\ pose (fst x) = gmul (est (count s1) (KPose (length l1 - 1))) (from_last (fst x)).
Proof.
  intros c t p0 a b ins F Z. set (x0 := (mkSub p0 junk (i_odom a) (i_gps a), i_obs a) : frame).
  inversion F as [|? ? F1 F2]; subst.
  assert (good [x0]) as G0 by (split; [constructor; [exact F1|constructor]|cbn; lia]).
  destruct (C92_total c t [x0] G0) as (s0 & R0 & _).
  destruct (connect_rest_total (b :: ins) c t [x0] s0 G0) as (s1 & R1); [discriminate|exact R0|exact F2|cbn in *; lia|].
  destruct (connect_rest_frames _ _ _ R1) as (l & A & B & C).
  assert (length l = length (b :: ins)) as Ll by (rewrite <- (map_length (fun x => (from_last (fst x), odom (fst x), gps (fst x), snd x)) l), B; apply map_length).
  assert (Gl : good (x0 :: l)).
  { split; [|cbn [length]; rewrite Ll; cbn in *; lia]. constructor; [exact F1|]. rewrite Forall_forall. intros x Hx.
    apply (in_map (fun x => (from_last (fst x), odom (fst x), gps (fst x), snd x))) in Hx. rewrite B in Hx. apply in_map_iff in Hx.
    destruct Hx as (y & Q & Hy). injection Q as _ _ _ <-. rewrite Forall_forall in F2. apply F2, Hy. }
  assert (R : run c t (x0 :: l) = Ok s1).
  { change (x0 :: l) with ([x0] ++ l). rewrite frames_app, R0. exact A. }
  destruct (C92_final_total c t _ _ Gl R) as (s' & Hf).
  exists (x0 :: l), s1, s'. split; [exact Gl|]. split; [exact R|]. split; [exact Hf|]. split; [|split; [|split; [|split]]].
  - unfold IsamModel.connect_all. cbn [frames_in bind x0 fst snd] in R0. destruct (add_frame (mkSub p0 junk (i_odom a) (i_gps a)) (i_obs a) (init c t)) as [s2| | |]; try discriminate.
    cbn [bind] in R0 |- *. injection R0 as ->. rewrite R1. exact Hf.
  - cbn [map x0 fst snd odom gps]. f_equal. apply (f_equal (map (fun q => (snd (fst (fst q)), snd (fst q), snd q)))) in B. rewrite !map_map in B. exact B.
  - cbn [tl]. apply (f_equal (map (fun q => fst (fst (fst q))))) in B. rewrite !map_map in B. exact B.
  - exists x0. split; reflexivity.
  - intros l1 x l2 El Hl1. destruct l1 as [|y l1]; [congruence|]. cbn in El. injection El as <- El.
    destruct (C l1 x l2 El) as (s2 & prev & Q1 & Q2 & Q3). exists s2.
    assert (R2 : run c t (x0 :: l1) = Ok s2) by (change (x0 :: l1) with ([x0] ++ l1); rewrite frames_app, R0; exact Q1).
    split; [exact R2|]. rewrite Q3. f_equal.
    assert (good (x0 :: l1)) as G1 by (apply (good_app (x0 :: l1) (x :: l2)); cbn; rewrite <- El; exact Gl).
    destruct (C93_poses c t _ _ G1 R2) as [P _]. destruct (run_inv c t _ _ G1 R2) as [_ L2].
    rewrite L2 in Q2. cbn [length] in Q2, P |- *. replace (Datatypes.S (length l1) - 1) with (length l1) in * by lia.
    apply (map_nth_error pose) in Q2. rewrite P in Q2. rewrite (map_nth_error (fun i => est (count s2) (KPose i)) (length l1) _ (d := length l1)) in Q2.
    + injection Q2 as <-. reflexivity.
    + replace (Datatypes.S (length l1)) with (length l1 + 1) by lia. rewrite seq_app, nth_error_app2 by (rewrite seq_length; lia).
      rewrite seq_length, Nat.sub_diag. reflexivity.
Qed.

(** ** C94 *)
Notation readings l := (indexed gps (map fst l)).
Definition picked (y : nat * enu) : bool := ((sample_step O <=? 1) || (Z.of_nat (fst y) mod sample_step O =? 0))%Z.
Lemma picked_sampled : forall y, picked y = sampled O (fst y).
Proof.
  intros y. unfold picked, sampled. destruct (Z.leb_spec (sample_step O) 1); [reflexivity|]. cbn. rewrite Z.rem_mod_nonneg by lia. reflexivity.
Qed.
Lemma cache_last : forall (l : list (nat * enu)) i e, (forall x, In x l -> fst x < i) -> cache l i e = l ++ [(i, e)].
Proof.
  induction l as [|[j y] l IH]; intros i e H; cbn [cache app]; [reflexivity|]. specialize (H (j, y) (or_introl eq_refl)) as Hj. cbn in Hj.
  destruct (Nat.eqb_spec i j); [lia|]. destruct (Nat.ltb_spec i j); [lia|]. f_equal. apply IH. intros x Hx. apply H. right. exact Hx.
Qed.
Lemma enus_app : forall (a b : list factor), enus (a ++ b) = enus a ++ enus b.
Proof. intros. apply flat_map_app. Qed.
Lemma enus_map : forall l c, enus (map (fun x : nat * enu => FEnu (G := G) (fst x) (snd x) c) l) = l.
Proof. unfold enus. intros l c. induction l as [|[i e] l IH]; cbn; [reflexivity|]. f_equal. exact IH. Qed.
Lemma step_enus : forall s s' x r, stepped G enu est solved turned O s s' x r ->
  enus (ifacs s') = enus (ifacs s) ++ enus (gfac G enu solved turned O (length (subs s)) (gps x) (push G enu x s)).
Proof.
  intros s s' x r St. rewrite (t_facs _ _ _ _ _ _ _ _ _ _ St), !enus_app. f_equal. unfold enus at 1 2 3. rewrite fm_loops by reflexivity. rewrite fm_odom by reflexivity.
  replace (flat_map _ (vfac G enu O (length (subs s)) (pose x) (from_last x) (tf_odom s))) with (@nil (nat * enu)); [reflexivity|].
  destruct (length (subs s)); cbn; [destruct (use_odom O)|]; reflexivity.
Qed.
Lemma step_anchors : forall s s' x r, stepped G enu est solved turned O s s' x r ->
  gps_anchors (ifacs s') = gps_anchors (ifacs s) ++ gps_anchors (gfac G enu solved turned O (length (subs s)) (gps x) (push G enu x s)).
Proof.
  intros s s' x r St. rewrite (t_facs _ _ _ _ _ _ _ _ _ _ St). unfold gps_anchors. rewrite !flat_map_app. f_equal. rewrite fm_loops by reflexivity. rewrite fm_odom by reflexivity.
  replace (flat_map _ (vfac G enu O (length (subs s)) (pose x) (from_last x) (tf_odom s))) with (@nil G); [reflexivity|].
  destruct (length (subs s)); cbn; [destruct (use_odom O)|]; reflexivity.
Qed.
Lemma anchors_map : forall l c, gps_anchors (map (fun x : nat * enu => FEnu (G := G) (fst x) (snd x) c) l) = [].
Proof. unfold gps_anchors. intros l c. induction l as [|[i e] l IH]; cbn; [reflexivity|]. exact IH. Qed.
Definition gstate (c : Z) (t : G) (l : list frame) (s : opt) : Prop :=
  (gps_known s = false /\ (use_gps O = true -> cached s = readings l) /\ enus (ifacs s) = [] /\ gps_anchors (ifacs s) = []) \/
  (use_gps O = true /\ gps_known s = true /\ exists a x b, readings l = a ++ x :: b /\ (init_num O mod 2 ^ 64 <= Z.of_nat (length a))%Z /\
     enus (ifacs s) = a ++ filter picked b /\ gps_anchors (ifacs s) = [solved a]).
Lemma gps_state : forall c t l s, good l -> run c t l = Ok s -> gstate c t l s.
Proof.
  intros c t l s Gl R. revert l s Gl R. refine (fun l s Gl R => proj2 (proj2 (run_prop c t (gstate c t) _ _ l s Gl R))).
  - left. repeat split; reflexivity.
  - clear l s Gl R. intros l x s s' d r Gl R I L P Hr Hs I' Hl Ri Re St. unfold gstate in *.
    pose proof (step_enus _ _ _ _ St) as HE. pose proof (step_anchors _ _ _ _ St) as HA. pose proof (t_cached _ _ _ _ _ _ _ _ _ _ St) as HC.
    pose proof (t_known _ _ _ _ _ _ _ _ _ _ St) as HK. rewrite L in HE, HA, HC. rewrite HE, HA, HC, HK. rewrite map_app. cbn [map]. rewrite indexed_app, map_length.
    unfold gfac. destruct (gps (fst x)) as [e|]; [|cbn; rewrite !app_nil_r; exact P].
    unfold gact. change (gps_known (push G enu (fst x) s)) with (gps_known s). destruct (use_gps O).
    2: { cbn. rewrite !app_nil_r. destruct P as [(P1 & _ & P3)|(P1 & _)]; [left|discriminate]. split; [exact P1|]. split; [discriminate|exact P3]. }
    destruct P as [(P1 & P2 & P3 & P4)|(_ & P1 & a & y & b & P2 & P3 & P4 & P5)]; rewrite P1.
    + specialize (P2 eq_refl). destruct (ready G enu turned O (push G enu (fst x) s)) eqn:Er; cbn [Nat.eqb].
      * right. split; [reflexivity|]. split; [reflexivity|]. exists (cached s), (length l, e), []. change (cached (push G enu (fst x) s)) with (cached s).
        rewrite P3, P4, P2. split; [reflexivity|]. split.
        -- unfold ready in Er. apply negb_true_iff, orb_false_iff in Er. destruct Er as [Er _]. apply Z.ltb_ge in Er. cbn [cached push set_subs] in Er.
           rewrite P2 in Er. exact Er.
        -- cbn [filter]. rewrite app_nil_r. split.
           ++ rewrite enus_app, enus_map. reflexivity.
           ++ unfold gps_anchors. rewrite flat_map_app. fold (gps_anchors (map (fun x0 : nat * enu => FEnu (G := G) (fst x0) (snd x0) (extrinsic O)) (readings l))).
              rewrite anchors_map. reflexivity.
      * left. split; [reflexivity|]. rewrite P3, P4. split; [|split; reflexivity]. intros _. rewrite cache_last, P2; [reflexivity|].
        intros y Hy. rewrite <- L. apply (v_cached _ _ _ _ _ _ I y Hy).
    + right. split; [reflexivity|]. split; [reflexivity|]. exists a, y, (b ++ [(length l, e)]). rewrite P2, P4, P5, <- app_assoc. split; [reflexivity|].
      split; [exact P3|]. rewrite filter_app. cbn [filter]. rewrite picked_sampled. cbn [fst]. destruct (sampled O (length l)); cbn; rewrite ?app_nil_r, <- ?app_assoc; split; reflexivity.
Qed.
(** The GPS readings that constrain the poses: none before the initialisation; then all readings
    before the one [x] that started it and the sampled ones after it. *)
Theorem C94_factors : forall c t l s, good l -> run c t l = Ok s ->
  (gps_known s = false /\ enus (ifacs s) = [] /\ gps_anchors (ifacs s) = []) \/
  (use_gps O = true /\ gps_known s = true /\ exists a x b, readings l = a ++ x :: b /\ (init_num O mod 2 ^ 64 <= Z.of_nat (length a))%Z /\
     enus (ifacs s) = a ++ filter (fun y => (sample_step O <=? 1) || (Z.of_nat (fst y) mod sample_step O =? 0))%Z b /\
     gps_anchors (ifacs s) = [solved a]).
Proof.
  intros c t l s Gl R. destruct (gps_state c t l s Gl R) as [(A & _ & B & C)|X]; [left; auto|right; exact X].
Qed.
(** When the GPS frame is initialised. *)
Theorem C94_trigger : forall c t l x s s', good (l ++ [x]) -> run c t l = Ok s -> add_frame (fst x) (snd x) s = Ok s' -> gps_known s = false ->
  (gps_known s' = true <-> use_gps O = true /\ gps (fst x) <> None /\ (init_num O mod 2 ^ 64 <= Z.of_nat (length (readings l)))%Z /\
     turned (map (fun i => est (count s) (KPose i)) (seq 0 (length l)) ++ [pose (fst x)]) = true).
Proof.
  intros c t l x s s' Gl R Hs Kn. destruct (run_inv c t l s (good_app _ _ Gl) R) as [I L].
  pose proof Gl as [F Z]. apply Forall_app in F. destruct F as [_ F]. inversion F as [|? ? F1 _]; subst. rewrite app_length in Z. cbn in Z.
  destruct (add_frame_ok G enu tn rn vx vy junk est solved turned O S near_ok ignore_int (fst x) (snd x) s I) as (d' & r' & s'' & H1 & H2 & _ & _ & _ & H6 & H7);
    [rewrite L; lia|exact F1|].
  rewrite Hs in H2. injection H2 as <-. rewrite (t_known _ _ _ _ _ _ _ _ _ _ H7).
  destruct (gps_state c t l s (good_app _ _ Gl) R) as [(_ & P2 & _)|(_ & P1 & _)]; [|congruence].
  unfold gact. change (gps_known (push G enu (fst x) s)) with (gps_known s). rewrite Kn. destruct (gps (fst x)) as [e|].
  2: { cbn. split; [discriminate|]. intros (_ & Q & _). congruence. }
  destruct (use_gps O); [|cbn; split; [discriminate|intros [Q _]; discriminate]]. unfold ready. cbn [cached push set_subs subs]. rewrite (P2 eq_refl), map_app.
  destruct (C93_poses c t l s (good_app _ _ Gl) R) as [Pp _]. rewrite Pp. cbn [map].
  destruct (Z.ltb_spec (Z.of_nat (length (readings l))) (init_num O mod 2 ^ 64)) as [Q|Q]; cbn [orb negb].
  - cbn [Nat.eqb]. split; [discriminate|]. intros (_ & _ & X & _). exfalso. apply (Z.lt_irrefl (init_num O mod 2 ^ 64)). eapply Z.le_lt_trans; [exact X|exact Q].
  - destruct (turned _); cbn [negb Nat.eqb]; split; try discriminate; try reflexivity; [|intros (_ & _ & _ & X); discriminate X].
    intros _. split; [reflexivity|]. split; [discriminate|]. split; [exact Q|reflexivity].
Qed.
(** A negative gps_factor_init_num never initialises it. *)
Theorem C94_negative : forall c t l s, (- 2 ^ 31 <= init_num O < 0)%Z -> good l -> run c t l = Ok s -> gps_known s = false /\ enus (ifacs s) = [].
Proof.
  intros c t l s N Gl R. destruct (C94_factors c t l s Gl R) as [(A & B & _)|(_ & _ & a & x & b & E & Q & _)]; [auto|exfalso].
  assert (length (readings l) <= length l) as Q2.
  { clear. unfold indexed. rewrite map_length. generalize (seq 0 (length l)). induction l as [|y l IH]; intros [|i p]; cbn; try lia.
    rewrite app_length. specialize (IH p). destruct (gps (fst y)); cbn; lia. }
  rewrite E, app_length in Q2. destruct Gl as [_ Z].
  replace (init_num O mod 2 ^ 64)%Z with (init_num O + 2 ^ 64)%Z in Q; [lia|].
  apply (Z.mod_unique _ _ (-1)); [left; lia|lia].
Qed.
(** Without the initialisation the transform to the GPS frame is the identity, with it the
    estimate of the GPS frame. *)
Theorem C94_transform : forall c t l s s', good l -> run c t l = Ok s -> run_final s = Ok s' ->
  to_gps est O s' = map (fun i => (if gps_known s then gmul (est (count s') KGps) (est (count s') (KPose i)) else est (count s') (KPose i))) (seq 0 (length l)).
Proof.
  intros c t l s s' Gl R Hf. destruct (C93_final_poses c t l s s' Gl R Hf) as [P _].
  destruct (run_inv c t l s Gl R) as [I L]. destruct (final_ok s I) as (s2 & H & I' & _ & _ & _ & _ & _ & K). rewrite Hf in H. injection H as <-.
  unfold to_gps, gps_transform. rewrite <- (map_map pose (fun q => gmul (if (use_gps O && has (ivars s') KGps)%bool then est (count s') KGps else gone) q)), P, map_map.
  assert (X : (use_gps O && has (ivars s') KGps)%bool = gps_known s).
  { destruct (has (ivars s') KGps) eqn:E.
    - apply has_in in E. apply (v_vars _ _ _ _ _ _ I') in E. rewrite K in E. rewrite E, andb_true_r.
      destruct (C94_factors c t l s Gl R) as [(A & _)|(A & _)]; congruence.
    - rewrite andb_false_r. destruct (gps_known s) eqn:Q; [|reflexivity]. assert (gps_known s' = true) as Q2 by congruence. apply (v_vars _ _ _ _ _ _ I' KGps) in Q2. apply has_in in Q2. congruence. }
  rewrite X. apply map_ext. intros i. destruct (gps_known s); [reflexivity|apply gmul_1_l].
Qed.

(** ** C95 *)
Definition edges (l : list factor) : list (nat * nat * G) :=
  flat_map (fun f => match f with FMove i j t | FLoop i j t => [(i, j, t)] | _ => [] end) l.
Lemma step_edges : forall s s' x r, stepped G enu est solved turned O s s' x r ->
  edges (ifacs s') = edges (ifacs s) ++ vlink G (length (subs s)) (from_last x) ++ closed G enu s r.
Proof.
  intros s s' x r St. rewrite (t_facs _ _ _ _ _ _ _ _ _ _ St). unfold edges. rewrite !flat_map_app. f_equal. rewrite fm_gps by reflexivity. rewrite fm_odom by reflexivity.
  rewrite app_nil_r. cbn [app]. f_equal.
  - destruct (length (subs s)); cbn; [destruct (use_odom O)|]; reflexivity.
  - induction (closed G enu s r) as [|[[a b] t] l IH]; cbn; [reflexivity|]. f_equal. exact IH.
Qed.
(** The recorded connections and the view graph are those of the pose graph. *)
Theorem C95_mirror : forall c t l s, good l -> run c t l = Ok s ->
  links s = edges (ifacs s) /\
  graph_of G (view s) = map (fun i => (Z.of_nat i, mkItem G (view_pose vx vy (est (count s) (KPose i))) (leaving (edges (ifacs s)) i))) (seq 0 (length l)).
Proof.
  intros c t l s Gl R.
  assert (E : links s = edges (ifacs s)).
  { revert l s Gl R. refine (fun l s Gl R => proj2 (proj2 (run_prop c t (fun l s => _) _ _ l s Gl R))); [reflexivity|].
    clear l s Gl R. intros l x s s' d r Gl R I L P Hr Hs I' Hl Ri Re St. rewrite (step_edges _ _ _ _ St), (t_links _ _ _ _ _ _ _ _ _ _ St), P. reflexivity. }
  split; [exact E|]. destruct (run_inv c t l s Gl R) as [I L]. destruct (v_view _ _ _ _ _ _ I) as [V _]. rewrite V, E.
  destruct (C93_poses c t l s Gl R) as [P _]. rewrite <- L in *. clear - P. revert P. generalize (edges (ifacs s)) (count s). intros ls k. generalize 0.
  induction (subs s) as [|x q IH]; intros i P; cbn in *; [reflexivity|]. injection P as P1 P2. rewrite (IH _ P2). unfold node. rewrite P1. reflexivity.
Qed.
(** A trajectory of one submap is not given to the optimizer. *)
Theorem C95_single_submap : forall c t p0 x, exists s, connect_all c t p0 [x] = Ok s /\ subs s = [] /\ ifacs s = [] /\ graph_of G (view s) = [] /\
  gps_transform est O s = gone.
Proof.
  intros c t p0 x. destruct (final_ok (init c t)) as (s & H & I & _ & E1 & E2 & E3 & E4 & _); [apply inv_init|].
  exists s. split; [exact H|]. cbn in E1, E2, E3, E4. split; [exact E1|]. split; [exact E2|]. destruct (v_view _ _ _ _ _ _ I) as [V _]. rewrite E1 in V.
  split; [exact V|]. unfold gps_transform. rewrite E3. cbn. rewrite andb_false_r. reflexivity.
Qed.
End Props.

(** ** A concrete case: five submaps ten units apart, each with odometry and GPS, two GPS readings
    needed; the last one closes a loop with the submaps 0 and 1. *)
Definition ex_est (n : nat) (k : key) : Zgroup := match k with KPose i => (10 * Z.of_nat i)%Z | KOdom => 3%Z | KGps => 1000%Z | KCalib => 0%Z end.
Definition ex_solved (l : list (nat * nat)) : Zgroup := Z.of_nat (length l).
Definition ex_opt : options := mkOpt true true true 2 1.
Definition ex_add := add_frame (enu := nat) ex_tn ex_rn (fun _ => None) (fun _ => None) (0%Z : Zgroup) ex_est ex_solved (fun _ => true) ex_opt ex_set.
Definition ex_frame (i : nat) (o : obs Zgroup) : sub Zgroup nat * obs Zgroup :=
  (mkSub (9 * Z.of_nat i : Zgroup)%Z (9 : Zgroup)%Z (Some (Z.of_nat i : Zgroup)) (Some (100 + i)), o).
Definition ex_frames : list (sub Zgroup nat * obs Zgroup) :=
  [ex_frame 0 quiet; ex_frame 1 quiet; ex_frame 2 quiet; ex_frame 3 quiet; ex_frame 4 (ex_obs d0 (fun l => l) (fun i => Some 42%Z))].
Example C92_example : good Zgroup nat ex_frames /\ exists s, frames_in ex_add ex_frames (init 0%Z (5%Z : Zgroup)) = Ok s /\
  map fst (ivars s) = [KPose 0; KOdom; KPose 1; KPose 2; KGps; KCalib; KPose 3; KPose 4] /\
  moves (ifacs s) = [(0, 1, 9%Z); (1, 2, 9%Z); (2, 3, 9%Z); (3, 4, 9%Z)] /\ anchors (ifacs s) = [(0, 0%Z)] /\
  loops (ifacs s) = [(0, 4, 42%Z); (1, 4, 32%Z)] /\
  odoms (ifacs s) = [(0, 0%Z); (1, 1%Z); (2, 2%Z); (3, 3%Z); (4, 4%Z)] /\
  enus (ifacs s) = [(0, 100); (1, 101); (3, 103); (4, 104)] /\ gps_known s = true /\ map (fun x => pose x) (subs s) = [0; 10; 20; 30; 40]%Z /\
  leaving (links s) 1 = [(2, 9); (4, 32)]%Z.
Proof.
  split.
  - split; [|cbn; lia]. repeat (apply Forall_cons; [intros l; apply Permutation_refl|]). apply Forall_nil.
  - assert (H : match frames_in ex_add ex_frames (init 0%Z (5%Z : Zgroup)) with
                | Ok s => Some (map fst (ivars s), moves (ifacs s), anchors (ifacs s), loops (ifacs s), odoms (ifacs s), enus (ifacs s), gps_known s,
                                map (fun x => pose x) (subs s), leaving (links s) 1)
                | _ => None
                end =
                Some ([KPose 0; KOdom; KPose 1; KPose 2; KGps; KCalib; KPose 3; KPose 4],
                      [(0, 1, 9%Z); (1, 2, 9%Z); (2, 3, 9%Z); (3, 4, 9%Z)], [(0, 0%Z)], [(0, 4, 42%Z); (1, 4, 32%Z)],
                      [(0, 0%Z); (1, 1%Z); (2, 2%Z); (3, 3%Z); (4, 4%Z)], [(0, 100); (1, 101); (3, 103); (4, 104)], true,
                      [0; 10; 20; 30; 40]%Z, [(2, 9); (4, 32)]%Z)) by (vm_compute; reflexivity).
    destruct (frames_in ex_add ex_frames (init 0%Z (5%Z : Zgroup))) as [s| | |]; try discriminate H. exists s. split; [reflexivity|].
    revert H. generalize (map fst (ivars s)) (moves (ifacs s)) (anchors (ifacs s)) (loops (ifacs s)) (odoms (ifacs s)) (enus (ifacs s)) (gps_known s)
      (map (fun x => pose x) (subs s)) (leaving (links s) 1). intros. injection H as -> -> -> -> -> -> -> -> ->. repeat split.
Qed.
(** Not every reading is used after the initialisation: the one that triggers it is lost. *)
Theorem C94_all_readings_refuted : exists (O : options) (l : list (sub Zgroup nat * obs Zgroup)) (s : opt Zgroup nat),
  good Zgroup nat l /\ use_gps O = true /\ sample_step O = 1%Z /\
  frames_in (add_frame ex_tn ex_rn (fun _ => None) (fun _ => None) (0%Z : Zgroup) ex_est ex_solved (fun _ => true) O ex_set) l (init 0%Z (5%Z : Zgroup)) = Ok s /\
  gps_known s = true /\ exists x, In x (indexed gps (map fst l)) /\ ~ In x (enus (ifacs s)).
Proof.
  destruct C92_example as [Gx (s & R & _ & _ & _ & _ & _ & E & K & _)]. exists ex_opt, ex_frames, s. split; [exact Gx|]. split; [reflexivity|]. split; [reflexivity|].
  split; [exact R|]. split; [exact K|]. exists (2, 102). split; [vm_compute; tauto|]. rewrite E. cbn. intuition discriminate.
Qed.
(** A whole trajectory. *)
Example C93_example : exists s, connect_all (enu := nat) ex_tn ex_rn (fun _ => None) (fun _ => None) (0%Z : Zgroup) ex_est ex_solved (fun _ => true) ex_opt ex_set
    0%Z (5%Z : Zgroup) (7%Z : Zgroup) [mkIn (1%Z : Zgroup) None (Some 100) quiet; mkIn (9%Z : Zgroup) None None quiet; mkIn (9%Z : Zgroup) None (Some 102) quiet] = Ok s /\
  ivars s = [(KPose 0, 7%Z); (KOdom, (-5)%Z); (KPose 1, 9%Z); (KPose 2, 19%Z)] /\ to_gps ex_est ex_opt s = [0; 10; 20]%Z.
Proof.
  set (r := connect_all _ _ _ _ _ _ _ _ _ _ _ _ _ _).
  assert (H : match r with Ok s => Some (ivars s, to_gps ex_est ex_opt s) | _ => None end =
    Some ([(KPose 0, 7%Z); (KOdom, (-5)%Z); (KPose 1, 9%Z); (KPose 2, 19%Z)], [0; 10; 20]%Z)) by (vm_compute; reflexivity).
  destruct r as [s| | |]; try discriminate H. exists s. split; [reflexivity|]. injection H as -> ->. split; reflexivity.
Qed.

Print Assumptions C92_total.
Print Assumptions C92_variables.
Print Assumptions C92_no_dangling_factor.
Print Assumptions C92_final_total.
Print Assumptions C93_contents.
Print Assumptions C93_loops.
Print Assumptions C93_loop_transform.
Print Assumptions C93_poses.
Print Assumptions C93_final_poses.
Print Assumptions C93_initial_values.
Print Assumptions C93_trajectory.
Print Assumptions C94_factors.
Print Assumptions C94_trigger.
Print Assumptions C94_negative.
Print Assumptions C94_transform.
Print Assumptions C94_all_readings_refuted.
Print Assumptions C95_mirror.
Print Assumptions C95_single_submap.
