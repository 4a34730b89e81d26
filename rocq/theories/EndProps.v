(** Property C126: from the delivered clouds to the written files. *)
From Coq Require Import String List Bool ZArith Lia.
From Verif Require Import Outcome Pose CloudFileModel CloudFileSpec CloudStoreModel IdsModel SubmapModel SubmapSpec SubmapProps
  ExportModel OutputModel OutputSpec OutputProps BuilderModel BuilderSpec BuilderProofs BuilderLive BuilderProps EndSpec EndProofs.
Import ListNotations.
Local Open Scope nat_scope.

Lemma flat_nth : forall {A B} (h : A -> list B) n l k, 0 < n -> Forall (fun a => length (h a) = n) l ->
  nth_error (flat_map h l) k = match nth_error l (k / n) with Some a => nth_error (h a) (k mod n) | None => None end.
Proof.
  intros A B h n l k Hn H. revert k. induction H as [|a l Ha _ IH]; intros k; cbn [flat_map].
  - destruct k, (_ / n); reflexivity.
  - destruct (Nat.lt_ge_cases k n) as [K|K].
    + rewrite nth_error_app1 by lia. rewrite Nat.div_small, Nat.mod_small by exact K. reflexivity.
    + rewrite nth_error_app2 by lia. rewrite Ha, IH.
      assert (k / n = S ((k - n) / n) /\ k mod n = (k - n) mod n) as [-> ->]; [|reflexivity].
      replace k with (k - n + 1 * n) at 1 3 by lia. rewrite Nat.div_add, Nat.mod_add by lia. split; [lia|reflexivity].
Qed.
Lemma Forall2_nth : forall {A B} (R : A -> B -> Prop) a b j y, Forall2 R a b -> nth_error b j = Some y ->
  exists x, nth_error a j = Some x /\ R x y.
Proof.
  intros A B R a b j y H. revert j. induction H as [|x z a b Hxz _ IH]; intros [|j] E; try discriminate; cbn in *.
  - injection E as <-. eauto.
  - apply IH. exact E.
Qed.
Lemma flat_length : forall {A B} (h : A -> list B) n l, Forall (fun a => length (h a) = n) l -> length (flat_map h l) = n * length l.
Proof. intros A B h n l H. induction H as [|a l Ha _ IH]; cbn; [lia|]. rewrite app_length, IH, Ha. lia. Qed.
Lemma nth_group : forall {A} n k j (l : list A), j < n -> nth_error (group n k l) j = nth_error l (k * n + j).
Proof.
  intros A n k j l H. unfold group. rewrite <- (firstn_skipn (k * n) l) at 2.
  destruct (Nat.lt_ge_cases (length l) (k * n)) as [K|K].
  - rewrite skipn_all2 by lia. rewrite firstn_nil, app_nil_r. rewrite firstn_all2 by lia.
    rewrite (proj2 (nth_error_None l (k * n + j))) by lia. destruct j; reflexivity.
  - rewrite nth_error_app2 by (rewrite firstn_length; lia). rewrite firstn_length.
    replace (k * n + j - Nat.min (k * n) (length l)) with j by lia.
    generalize (skipn (k * n) l). intros r. clear K. revert n H r. induction j as [|j IH]; intros [|n] H [|x r]; try lia; try reflexivity.
    cbn. apply IH. lia.
Qed.

Section Props.
(** Scan matching: any state and any step that delivers frames. *)
Variable G : Pose.group.
Variables cloud smst : Type.
Variable sm_init : smst.
Variable sm_step : smst -> cloud -> smst * option (SubmapModel.frame G).
Variable fc : Z.
(** Submaps and output. *)
Variable move : G -> point -> point.
Variable finite : point -> bool.
Variable voxel : list point -> list point.
Variable kept_cols : list point -> nat.
Variable limit : Z.
Variable stamp0 : stamp.
Variables enu odom : Type.
Variable shows : list (list point) -> bool.
Notation breach := (BuilderModel.breach cloud (SubmapModel.frame G) smst sm_init sm_step fc false).
Notation made := (made G move finite voxel kept_cols limit stamp0).
Notation seen := (seen G limit stamp0 enu odom).
Notation output := (output G point move enu odom shows).
Notation between := (between G enu odom).
Notation points f := (c_points (frame_points stamp0 f)).
Notation n := (Z.to_nat fc).

(** The clouds of all frames of finished submaps can be read, and they are the clouds the frames
    were inserted with, also if the submaps were saved to disk in between. *)
Theorem C126_clouds_available : forall d fs sm, made d fs sm -> Forall (fresh G limit) fs ->
  Forall2 (fun f f' => exists f2, frame_cloud G limit stamp0 d f' = Ok f2 /\ points f2 = points f) fs (sm_frames sm).
Proof.
  intros d fs sm H HF. pose proof (made_frames G move finite voxel kept_cols limit stamp0 d fs sm H HF) as K.
  clear - K. induction K as [|f f' l l' [(f2 & E1 & E2) _] _ IH]; constructor; [|exact IH]. exists f2. rewrite E2. auto.
Qed.

(** For every schedule of the threads: take the finished submaps, whatever was done with them
    after they were filled (moved by the optimizer, saved, evicted, read), and write the output.
    [F] are the key frames of the clouds delivered to the collector.  The first
    frame_count * (number of submaps) of them make the output, in order: row k of path.csv
    belongs to key frame k, its pose is the pose of submap k / frame_count times the pose of the
    frame relative to the first frame of that submap, and the whole map is the points of these
    frames at these poses. *)
Theorem C126_output : forall s d subs t (c : config G enu odom) l g,
  let F := key_frames sm_step sm_init (ins (co s)) in
  let m := n * length subs in
  (0 < fc < 2 ^ 31)%Z -> breach (Next s) -> Forall (fresh G limit) F ->
  Forall2 (made d) (built (traj (su s))) subs -> Forall2 (seen d) subs t ->
  c_dir c = Writable -> output c t = Ok l -> between c g ->
  m <= length F /\
  exists Ps, length Ps = m /\
    (forall k p, nth_error Ps k = Some p -> exists f f0 sm,
       nth_error F k = Some f /\ nth_error F (n * (k / n)) = Some f0 /\ nth_error subs (k / n) = Some sm /\
       p = gmul (gmul g (sm_global sm)) (gmul (ginv (fr_global f0)) (fr_global f))) /\
    (forall rows, In (PathCsv rows) l <-> rows = combine (map Z.of_nat (seq 0 m)) Ps) /\
    (direct (c_maps c) = true -> separate (c_maps c) = false -> forall p,
       In (Map (WholeMap p)) l <->
       p <> [] /\ p = flat_map (fun x => map (move (fst x)) (points (snd x))) (combine Ps (firstn m F))).
Proof.
  intros s d subs t c l g F m Hfc R HF HM HS HD HO HB.
  assert (Hn : 0 < n) by lia.
  destruct (C38_groups _ _ _ _ _ _ s Hfc R) as ((dn & more & D1 & _ & D2 & _) & HG & HL).
  pose proof (C40_collector_keeps_clouds _ _ _ _ _ _ s Hfc R) as HC.
  set (B := built (frames (sc s))) in *. set (T := built (traj (su s))) in *.
  (* the frames built so far are a prefix of the key frames of all clouds *)
  assert (exists y, F = B ++ y) as (y & HB').
  { unfold F. rewrite HC, D1, <- app_assoc. destruct (key_frames_app _ _ _ sm_step dn sm_init (more ++ out (co s) ++ held (hold (co s)) ++ raw (co s))) as [y ->].
    destruct D2 as [-> | ->]; [eauto|]. destruct (key_frames sm_step sm_init dn) as [|f0 r0]; [cbn; eauto|].
    exists (last (f0 :: r0) f0 :: y). change (last (f0 :: r0) f0 :: y) with ([last (f0 :: r0) f0] ++ y).
    rewrite app_assoc, <- (app_removelast_last f0) by discriminate. reflexivity. }
  assert (LT : length T = length subs) by (clear - HM; induction HM; cbn; congruence).
  assert (LS : length subs = length t) by (clear - HS; induction HS; cbn; congruence).
  assert (LF : m <= length F) by (rewrite HB', app_length; unfold m; rewrite <- LT; lia).
  split; [exact LF|].
  assert (FB : forall k j f gr, nth_error T k = Some gr -> j < n -> nth_error gr j = Some f -> nth_error F (n * k + j) = Some f).
  { intros k j f gr Hk Hj Hf. destruct (HG k gr Hk) as [_ E]. rewrite <- E, nth_group in Hf by exact Hj.
    rewrite HB'. rewrite nth_error_app1; [rewrite Nat.mul_comm; exact Hf|]. rewrite Nat.mul_comm. apply nth_error_Some. congruence. }
  (* one submap *)
  assert (ONE : forall k ts, nth_error t k = Some ts -> exists gr sm, nth_error T k = Some gr /\ nth_error subs k = Some sm /\
     length gr = n /\ length (s_frames ts) = n /\ s_global ts = sm_global sm /\
     forall j x, nth_error (s_frames ts) j = Some x -> exists f f0, nth_error gr j = Some f /\ nth_error gr 0 = Some f0 /\
        f_local x = gmul (ginv (fr_global f0)) (fr_global f) /\ f_cloud x = points f).
  { intros k ts Hk.
    assert (exists sm, nth_error subs k = Some sm /\ seen d sm ts) as (sm & Hsm & [S1 S2]).
    { exact (Forall2_nth _ _ _ _ _ HS Hk). }
    assert (exists gr, nth_error T k = Some gr /\ made d gr sm) as (gr & Hgr & Hmade).
    { exact (Forall2_nth _ _ _ _ _ HM Hsm). }
    destruct (HG k gr Hgr) as [Hlen HGr].
    assert (HFr : Forall (fresh G limit) gr).
    { apply Forall_forall. intros f Hin. apply In_nth_error in Hin. destruct Hin as [j Hj].
      assert (j < n) by (rewrite <- Hlen; apply nth_error_Some; congruence).
      rewrite Forall_forall in HF. apply HF. eapply nth_error_In. eapply FB; eassumption. }
    pose proof (made_frames G move finite voxel kept_cols limit stamp0 d gr sm Hmade HFr) as K.
    exists gr, sm. split; [exact Hgr|]. split; [exact Hsm|]. split; [exact Hlen|].
    assert (length gr = length (sm_frames sm)) as L1 by (clear - K; induction K; cbn; congruence).
    assert (length (sm_frames sm) = length (s_frames ts)) as L2 by (clear - S2; induction S2; cbn; congruence).
    split; [congruence|]. split; [exact S1|]. intros j x Hj.
    assert (exists f', nth_error (sm_frames sm) j = Some f' /\ seen_frame G limit stamp0 d f' x) as (f' & Hf' & V1 & V2 & f2 & V3 & V4).
    { exact (Forall2_nth _ _ _ _ _ S2 Hj). }
    destruct gr as [|f0 gr']; [cbn in Hlen; lia|].
    assert (exists f, nth_error (f0 :: gr') j = Some f /\ (exists f2, frame_cloud G limit stamp0 d f' = Ok f2 /\ frame_points stamp0 f2 = frame_points stamp0 f) /\
              fr_local f' = gmul (ginv (fr_global f0)) (fr_global f)) as (f & Hf & (f3 & W1 & W2) & W3).
    { destruct (Forall2_nth _ _ _ _ _ K Hf') as (f & Q1 & Q2 & Q3). exists f. split; [exact Q1|]. split; [exact Q2|]. exact (Q3 _ _ eq_refl). }
    exists f, f0. split; [exact Hf|]. split; [reflexivity|]. split; [congruence|].
    rewrite W1 in V3. injection V3 as <-. rewrite V4, W2. reflexivity. }
  assert (FL : Forall (fun ts => length (map (fun f => (s_global ts, f_local f, f_cloud f)) (s_frames ts)) = n) t).
  { apply Forall_forall. intros ts Hin. apply In_nth_error in Hin. destruct Hin as [k Hk]. rewrite map_length.
    destruct (ONE k ts Hk) as (gr & sm & _ & _ & _ & K & _). exact K. }
  assert (AL : length (all_frames G point enu odom t) = m).
  { unfold all_frames. rewrite (flat_length _ n) by exact FL. unfold m. rewrite LS. reflexivity. }
  assert (ALL : forall k x, nth_error (all_frames G point enu odom t) k = Some x -> exists f f0 sm,
     nth_error F k = Some f /\ nth_error F (n * (k / n)) = Some f0 /\ nth_error subs (k / n) = Some sm /\
     x = (sm_global sm, gmul (ginv (fr_global f0)) (fr_global f), points f)).
  { intros k x Hx. unfold all_frames in Hx. rewrite (flat_nth _ n) in Hx by assumption.
    destruct (nth_error t (k / n)) as [ts|] eqn:Ht; [|discriminate]. rewrite nth_error_map in Hx.
    destruct (nth_error (s_frames ts) (k mod n)) as [fx|] eqn:Hfx; [|discriminate]. injection Hx as <-.
    destruct (ONE _ _ Ht) as (gr & sm & Hgr & Hsm & _ & _ & HG1 & HJ). destruct (HJ _ _ Hfx) as (f & f0 & J1 & J2 & J3 & J4).
    exists f, f0, sm. split.
    - rewrite (Nat.div_mod k n) by lia. eapply FB; [exact Hgr| |exact J1]. apply Nat.mod_upper_bound. lia.
    - split; [|split; [exact Hsm|congruence]]. rewrite <- (Nat.add_0_r (n * (k / n))). eapply FB; [exact Hgr|lia|exact J2]. }
  exists (poses G point enu odom g t). split; [unfold poses; rewrite map_length; exact AL|]. split; [|split].
  - intros k p Hp. unfold poses in Hp. rewrite nth_error_map in Hp.
    destruct (nth_error (all_frames G point enu odom t) k) as [x|] eqn:Hx; [|discriminate]. injection Hp as <-.
    destruct (ALL _ _ Hx) as (f & f0 & sm & A1 & A2 & A3 & ->). exists f, f0, sm. auto.
  - intros rows. rewrite <- AL. apply (proj1 (C125_path G point enu odom move shows c t l g HD HO HB)).
  - intros Hdir Hsep p. rewrite (C125_whole_map G point enu odom move shows c t l g HD HO HB Hdir Hsep p).
    enough (all_points G point enu odom move g t =
      flat_map (fun x => map (move (fst x)) (points (snd x))) (combine (poses G point enu odom g t) (firstn m F))) as -> by reflexivity.
    unfold all_points, poses. rewrite <- AL.
    assert (forall k x, nth_error (all_frames G point enu odom t) k = Some x -> exists f, nth_error F k = Some f /\ snd x = points f) as A2.
    { intros k x Hx. destruct (ALL _ _ Hx) as (f & f0 & sm & A1 & _ & _ & ->). exists f. auto. }
    clear - A2. revert A2. generalize (all_frames G point enu odom t) F. clear.
    induction l as [|x l IH]; intros F A; [reflexivity|]. destruct (A 0 x eq_refl) as (f & E1 & E2).
    destruct F as [|f' F]; [discriminate|]. injection E1 as ->. cbn [flat_map map length firstn combine]. f_equal.
    + cbn [fst snd]. rewrite E2. reflexivity.
    + apply IH. intros k y Hy. exact (A (S k) y Hy).
Qed.

(** The relative motion between two rows of path.csv that belong to the same submap is the one
    scan matching found between the two key frames: neither the loop closing nor the transform
    to the GPS coordinates changes it. *)
Theorem C126_relative_motion : forall s d subs t (c : config G enu odom) l g,
  let F := key_frames sm_step sm_init (ins (co s)) in
  (0 < fc < 2 ^ 31)%Z -> breach (Next s) -> Forall (fresh G limit) F ->
  Forall2 (made d) (built (traj (su s))) subs -> Forall2 (seen d) subs t ->
  c_dir c = Writable -> output c t = Ok l -> between c g ->
  forall rows i j a b p q, In (PathCsv rows) l -> nth_error rows i = Some (a, p) -> nth_error rows j = Some (b, q) -> i / n = j / n ->
  exists f f', nth_error F i = Some f /\ nth_error F j = Some f' /\
    gmul (ginv p) q = gmul (ginv (fr_global f)) (fr_global f').
Proof.
  intros s d subs t c l g F Hfc R HF HM HS HD HO HB rows i j a b p q HR Hi Hj Hij.
  destruct (C126_output s d subs t c l g Hfc R HF HM HS HD HO HB) as (_ & Ps & L & HP & HR' & _).
  apply HR' in HR. subst rows.
  assert (forall k x y, nth_error (combine (map Z.of_nat (seq 0 (n * length subs))) Ps) k = Some (x, y) -> nth_error Ps k = Some y) as N.
  { clear. generalize (map Z.of_nat (seq 0 (n * length subs))). intros z k x y. revert z k. induction Ps as [|a r IH]; intros [|b z] [|k] H; try discriminate; cbn in *.
    - injection H as _ <-. reflexivity.
    - apply (IH z). exact H. }
  apply N in Hi. apply N in Hj. destruct (HP _ _ Hi) as (f & f0 & sm & A1 & A2 & A3 & ->).
  destruct (HP _ _ Hj) as (f' & f0' & sm' & B1 & B2 & B3 & ->). rewrite Hij in *.
  assert (f0' = f0) as -> by congruence. assert (sm' = sm) as -> by congruence.
  exists f, f'. split; [exact A1|]. split; [exact B1|].
  rewrite !ginv_mul, ginv_inv, <- !gmul_assoc. f_equal. rewrite (gcancel_l G), (gcancel_l G), (gcancel_l' G). reflexivity.
Qed.
End Props.

(** Three clouds, frame_count 2: the first two key frames make a submap, which is moved, saved to
    disk, evicted and then written; the third key frame is in no submap. *)
Local Open Scope Z_scope.
Definition ex_step (x : unit) (c : Z) : unit * option (SubmapModel.frame Zgroup) := (x, Some (ex_frame c (10 * c))).
Definition ex_after : list (sop Zgroup) := [SSetPose (50 : Zgroup); SUpdateFrames; SMatched (4 : Zgroup); SAccess; STick 1; STick 2].
Definition ex_filled := Eval vm_compute in match run ex_sexec ex_new (map SInsert [ex_frame 10 100; ex_frame 13 130]) with Ok x => x | _ => ex_new end.
Definition ex_final := Eval vm_compute in match run ex_sexec ex_filled ex_after with Ok x => x | _ => ex_new end.
Definition ex_seen : OutputModel.submap Zgroup point Z Z :=
  OutputModel.mkS 0 (50 : Zgroup) None None "" [] []
    [mkF (0 : Zgroup) (50 : Zgroup) [mkPoint 100 1 1 1 1]; mkF (3 : Zgroup) (53 : Zgroup) [mkPoint 130 1 1 1 1]].
Definition ex_end_files : list (OutputModel.file Zgroup point Z Z) :=
  Eval vm_compute in match output Zgroup point ex_mv Z Z (fun _ => true) (ex_config Writable true) [ex_seen] with Ok l => l | _ => [] end.
Lemma ex_fresh : forall g x, 0 <= x < 1000 -> fresh Zgroup 1000 (ex_frame g x).
Proof.
  intros g x Hx. eexists. split; [reflexivity|]. cbn [in_memory inner c_points c_stamp]. split; [reflexivity|]. split; [discriminate|].
  split; [unfold stamp_ok, word; cbn; lia|]. split; [constructor; [|constructor]; unfold point_ok, word; cbn; lia|]. cbn; lia.
Qed.
Example C126_ex : let (sm, d) := ex_final in exists (s : st Z (SubmapModel.frame Zgroup) unit) l,
  BuilderModel.breach Z (SubmapModel.frame Zgroup) unit tt ex_step 2 false (Next s) /\
  Forall (fresh Zgroup 1000) (key_frames ex_step tt (ins (co s))) /\ length (key_frames ex_step tt (ins (co s))) = 3%nat /\
  Forall2 (made Zgroup ex_mv (fun _ => true) (fun l => l) (@List.length point) 1000 ex_st d) (built (traj (su s))) [sm] /\
  Forall2 (seen Zgroup 1000 ex_st Z Z d) [sm] [ex_seen] /\
  map (fun f => option_map in_memory (fr_cloud f)) (sm_frames sm) = [Some false; Some false] /\
  output Zgroup point ex_mv Z Z (fun _ => true) (ex_config Writable true) [ex_seen] = Ok l /\
  between Zgroup Z Z (ex_config Writable true) (1000 : Zgroup) /\
  In (@PathCsv Zgroup point Z Z [(0, 1050); (1, 1053)]) l /\
  In (@Map Zgroup point Z Z (WholeMap [mkPoint 1150 1 1 1 1; mkPoint 1183 1 1 1 1])) l.
Proof.
  unfold ex_final. eexists. exists ex_end_files. split; [|split; [|split; [|split; [|split; [|split; [|split; [|split]]]]]]].
  - eapply star_reach; [|apply breach_init]. eapply star_trans; [apply start; lia|].
    eapply star_trans; [apply (feed Z (SubmapModel.frame Zgroup) unit ex_step 2 [10; 13; 21] [] tt [])|].
    cbn. eapply star_step; [eapply MWait; reflexivity|]. cbn.
    eapply star_step; [eapply MEnough; reflexivity|]. cbn.
    do 2 (eapply star_step; [eapply MInsert; reflexivity|]; cbn). eapply star_step; [eapply MBuilt; reflexivity|]. cbn.
    eapply star_step; [eapply MFullOk; [reflexivity|split; [discriminate|reflexivity]]|]. cbn.
    eapply star_step; [eapply MPush1; reflexivity|]. cbn. eapply star_step; [eapply MPushed; reflexivity|]. cbn. apply star_refl.
  - cbn. repeat apply Forall_cons; try apply Forall_nil; apply ex_fresh; lia.
  - reflexivity.
  - cbn. constructor; [|constructor]. exists ex_opt, (mkSid 0 7), "/maps/"%string, (snd ex_new), (fst ex_filled), (snd ex_filled), ex_after.
    split; [vm_compute; reflexivity|]. split; [vm_compute; reflexivity|]. split; [|intros k; cbn; discriminate].
    unfold ex_after. repeat apply Forall_cons; try apply Forall_nil; cbn; tauto.
  - constructor; [|constructor]. split; [reflexivity|]. repeat constructor; eexists; (split; [vm_compute; reflexivity|reflexivity]).
  - reflexivity.
  - vm_compute. reflexivity.
  - left. repeat split.
  - unfold ex_end_files. split; cbn [In]; repeat (try (left; reflexivity); right).
Qed.

Print Assumptions C126_clouds_available.
Print Assumptions C126_output.
Print Assumptions C126_relative_motion.
