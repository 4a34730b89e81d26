(** Properties C28-C32, C72: submaps. *)
From Coq Require Import List Bool ZArith Lia String ZifyBool.
From Verif Require Import Outcome Pose CloudFileModel CloudFileSpec CloudStoreModel IdsModel
  SubmapModel SubmapSpec SubmapProofs.
Import ListNotations.
Local Open Scope Z_scope.

Section Props.
Variable G : group.
Variable move : G -> point -> point.
Variable finite : point -> bool.
Variable voxel : list point -> list point.
Variable kept_cols : list point -> nat.
Variable limit : Z.
Variable stamp0 : stamp.
Notation sexec := (sexec G move finite voxel kept_cols limit stamp0).
Notation new := (new_submap G stamp0).

(** For every history of calls on a new submap: the frames are the inserted ones, numbered
    0, 1, 2, ... with the submap's ids. *)
Theorem C28_ids : forall o id path d ops s d',
  run sexec (new o id path, d) ops = Ok (s, d') ->
  List.length (sm_frames s) = inserts ops /\
  forall k f, nth_error (sm_frames s) k = Some f ->
    fr_id f = mkFid (s_traj id) (s_index id) (Z.of_nat k).
Proof.
  intros o id path d ops s d' H. apply history_facts in H.
  destruct H as (_ & _ & _ & _ & _ & H6 & _ & H8 & _). split; [exact H6|].
  intros k f Hk. apply key_skel in Hk.
  specialize (H8 id ltac:(intros j x Hj; destruct j; discriminate) eq_refl _ _ Hk). exact H8.
Qed.

(** ... and with a positive frame_count there are never more than frame_count of them, the
    submap is full exactly when it has that many, and then another insertion aborts. *)
Theorem C28_capacity : forall o id path d ops s d', 0 < o_frame_count o < 2 ^ 31 ->
  run sexec (new o id path, d) ops = Ok (s, d') ->
  Z.of_nat (inserts ops) <= o_frame_count o /\
  (sm_full s = true <-> Z.of_nat (inserts ops) = o_frame_count o) /\
  (sm_full s = true -> forall f d2, sexec (s, d2) (SInsert f) = Abort).
Proof.
  intros o id path d ops s d' Hfc H.
  assert (Z.of_nat (List.length (sm_frames s)) <= o_frame_count o /\
          (sm_full s = true <-> Z.of_nat (List.length (sm_frames s)) = o_frame_count o)) as [L F].
  { pose (Pr := fun sd : submap G * disk string => sm_opt (fst sd) = o /\
      Z.of_nat (List.length (sm_frames (fst sd))) <= o_frame_count o /\
      (sm_full (fst sd) = true <-> Z.of_nat (List.length (sm_frames (fst sd))) = o_frame_count o)).
    enough (Pr (s, d')) as (_ & HP) by exact HP.
    eapply (run_inv _ _ sexec Pr (fun _ => True)); [| |  |exact H].
    - intros [s1 d1] op [s2 d2] _ (P1 & P2 & P3) E. unfold Pr in *. cbn [fst] in *.
      apply step_facts in E. destruct E as (E1 & _ & _ & _ & _ & E6). split; [congruence|].
      assert (forall l1 l2 : list (frame G), map (skel G) l1 = map (skel G) l2 -> List.length l1 = List.length l2) as Hl.
      { intros l1 l2 K. rewrite <- (map_length (skel G) l1), K. apply map_length. }
      destruct op; destruct E6 as [E6 E7]; try (apply Hl in E6; rewrite E6, E7; auto).
      destruct E7 as [E7 E8]. apply (f_equal (@List.length _)) in E6. rewrite app_length, !map_length in E6.
      cbn [List.length] in E6. rewrite E8, E6, P1. rewrite Z.mod_small by lia.
      assert (Z.of_nat (List.length (sm_frames s1)) <> o_frame_count o) by (intros K; apply P3 in K; congruence).
      split; [lia|]. lia.
    - apply Forall_forall. auto.
    - unfold Pr. cbn. split; [reflexivity|]. split; [lia|]. split; [discriminate|lia]. }
  destruct (C28_ids _ _ _ _ _ _ _ H) as [Hl _]. rewrite <- Hl. split; [exact L|]. split; [exact F|].
  intros Hf f d2. cbn. unfold insert_frame. rewrite Hf. reflexivity.
Qed.

(** With frame_count <= 0 the submap never becomes full (for fewer than 2^63 frames). *)
Theorem C28_nonpositive_never_full : forall o id path d ops s d', - 2 ^ 31 <= o_frame_count o <= 0 ->
  Z.of_nat (inserts ops) < 2 ^ 63 ->
  run sexec (new o id path, d) ops = Ok (s, d') -> sm_full s = false.
Proof.
  intros o id path d ops s d' Hfc Hn H. pose proof (C28_ids _ _ _ _ _ _ _ H) as [Hl _].
  apply history_facts in H. destruct H as (_ & _ & _ & _ & _ & _ & _ & _ & H9).
  destruct (sm_full s) eqn:Ef; [|reflexivity]. exfalso.
  destruct H9 as [H9 _].
  { cbn. split; [discriminate|]. intros [K _]. congruence. }
  destruct (H9 eq_refl) as [K1 K2]. cbn [sm_opt new_submap] in K2. rewrite Hl in K2.
  destruct (Z.eq_dec (o_frame_count o) 0) as [E0|E0].
  - rewrite E0 in K2. cbn in K2. destruct (sm_frames s); [congruence|]. cbn in Hl. lia.
  - assert (o_frame_count o mod 2 ^ 64 = o_frame_count o + 2 ^ 64) as Hmod.
    { rewrite <- (Z.mod_small (o_frame_count o + 2 ^ 64) (2 ^ 64)) by lia.
      rewrite Z.add_mod by lia. rewrite Z.mod_same by lia. rewrite Z.add_0_r, Z.mod_mod; lia. }
    rewrite Hmod in K2. lia.
Qed.

(** Insert frames with global poses g_0, g_1, ...; then do anything except inserting (in
    particular move the submap any number of times); after UpdateInnerFramePose the pose of
    frame k is the submap pose times g_0^-1 g_k, and relative poses are as inserted. *)
Theorem C29_relative_poses : forall o id path d f0 fs s1 d1 ops s2 d2 s3 d3,
  run sexec (new o id path, d) (map SInsert (f0 :: fs)) = Ok (s1, d1) ->
  Forall (fun op => ~ is_insert op) ops ->
  run sexec (s1, d1) ops = Ok (s2, d2) ->
  sexec (s2, d2) SUpdateFrames = Ok (s3, d3) ->
  forall i fi gi, nth_error (sm_frames s3) i = Some fi -> nth_error (f0 :: fs) i = Some gi ->
    fr_local fi = gmul (ginv (fr_global f0)) (fr_global gi) /\
    fr_global fi = gmul (sm_global s3) (gmul (ginv (fr_global f0)) (fr_global gi)) /\
    forall j fj gj, nth_error (sm_frames s3) j = Some fj -> nth_error (f0 :: fs) j = Some gj ->
      gmul (ginv (fr_global fi)) (fr_global fj) = gmul (ginv (fr_global gi)) (fr_global gj).
Proof.
  intros o id path d f0 fs s1 d1 ops s2 d2 s3 d3 H1 Hn H2 H3.
  assert (map snd (map (skel G) (sm_frames s3)) =
          map (fun f => gmul (ginv (fr_global f0)) (fr_global f)) (f0 :: fs)) as Hloc.
  { pose proof (step_facts G move finite voxel kept_cols limit stamp0 s2 d2 SUpdateFrames s3 d3 H3) as (_ & _ & _ & _ & _ & K & _).
    rewrite K. rewrite (no_insert_skel G move finite voxel kept_cols limit stamp0 ops s1 d1 s2 d2 Hn H2).
    eapply inserts_local; exact H1. }
  assert (forall i fi gi, nth_error (sm_frames s3) i = Some fi -> nth_error (f0 :: fs) i = Some gi ->
    fr_local fi = gmul (ginv (fr_global f0)) (fr_global gi) /\
    fr_global fi = gmul (sm_global s3) (gmul (ginv (fr_global f0)) (fr_global gi))) as Hone.
  { intros i fi gi Hf Hg.
    assert (nth_error (map snd (map (skel G) (sm_frames s3))) i = Some (fr_local fi)) as K1
      by (rewrite !nth_error_map, Hf; reflexivity).
    rewrite Hloc, nth_error_map, Hg in K1. cbn in K1. injection K1 as K1.
    split; [congruence|]. rewrite (update_spec _ _ _ _ _ _ _ _ _ _ _ H3 i fi Hf). congruence. }
  intros i fi gi Hf Hg. destruct (Hone _ _ _ Hf Hg) as [A1 A2]. split; [exact A1|]. split; [exact A2|].
  intros j fj gj Hf' Hg'. destruct (Hone _ _ _ Hf' Hg') as [B1 B2]. rewrite A2, B2.
  rewrite !ginv_mul, ginv_inv. rewrite <- !gmul_assoc. f_equal.
  rewrite (gcancel_l G). rewrite gcancel_l'. reflexivity.
Qed.

(** Lookup by id on any reachable submap, for every id with int32 fields. *)
Theorem C30_get_frame : forall o id path d ops s d' q,
  run sexec (new o id path, d) ops = Ok (s, d') ->
  Z.of_nat (inserts ops) < 2 ^ 63 -> - 2 ^ 31 <= f_index q < 2 ^ 31 ->
  (forall f, get_frame s q = Some f <-> In f (sm_frames s) /\ fr_id f = q) /\
  (f_index q < 0 -> get_frame s q = None).
Proof.
  intros o id path d ops s d' q H Hn Hq.
  pose proof (C28_ids _ _ _ _ _ _ _ H) as [Hl Hids].
  apply history_facts in H. destruct H as (_ & Hid & _). cbn in Hid.
  assert (forall i, i = f_index q mod 2 ^ 64 -> 0 <= i /\ (0 <= f_index q -> i = f_index q) /\ (f_index q < 0 -> i >= 2 ^ 63)) as Hmod.
  { intros i ->. split; [apply Z.mod_pos_bound; lia|]. split; intros K; [apply Z.mod_small; lia|].
    replace (f_index q) with (f_index q + 2 ^ 64 + (-1) * 2 ^ 64) by lia. rewrite Z.mod_add by lia.
    rewrite Z.mod_small; lia. }
  specialize (Hmod _ eq_refl). destruct Hmod as (M1 & M2 & M3).
  split.
  - intros f. unfold get_frame. rewrite Hid. split.
    + destruct (Z.eqb_spec (f_submap q) (s_index id)) as [E1|]; cbn [negb orb]; [|discriminate].
      destruct (Z.eqb_spec (f_traj q) (s_traj id)) as [E2|]; cbn [negb orb]; [|discriminate].
      destruct (Z.leb_spec (Z.of_nat (List.length (sm_frames s))) (f_index q mod 2 ^ 64)); [discriminate|].
      intros K. split; [eapply nth_error_In; exact K|]. rewrite (Hids _ _ K).
      assert (0 <= f_index q) by lia. rewrite Z2Nat.id by lia. rewrite (M2 ltac:(lia)).
      destruct q; cbn in *; congruence.
    + intros [Hin Hfid]. apply In_nth_error in Hin. destruct Hin as [k Hk].
      pose proof (Hids _ _ Hk) as Hkid. rewrite Hfid in Hkid. clear Hfid Hids. subst q. cbn [f_submap f_traj f_index] in *.
      rewrite !Z.eqb_refl. cbn [negb orb].
      assert (k < List.length (sm_frames s))%nat by (apply nth_error_Some; congruence).
      rewrite (M2 ltac:(lia)). destruct (Z.leb_spec (Z.of_nat (List.length (sm_frames s))) (Z.of_nat k)); [lia|].
      rewrite Nat2Z.id. exact Hk.
  - intros K. unfold get_frame. destruct (_ || _); [reflexivity|].
    destruct (Z.leb_spec (Z.of_nat (List.length (sm_frames s))) (f_index q mod 2 ^ 64)); [reflexivity|].
    specialize (M3 K). lia.
Qed.

(** With disk saving off, or before the submap is matched, its cloud stays in memory
    unchanged whatever happens. *)
Theorem C31_no_eviction : forall ops s d s' d' c,
  run sexec (s, d) ops = Ok (s', d') ->
  sm_full s = true -> sm_cloud s = Some c -> in_memory c = true ->
  o_disk (sm_opt s) = false \/ (sm_matched s = false /\ Forall (fun op => ~ is_matched op) ops) ->
  sm_cloud s' = Some c.
Proof. exact (off_resident G move finite voxel kept_cols limit stamp0). Qed.

(** Otherwise: after an access, idle ticks evict the cloud exactly when they sum up to more
    than disk_saving_delay. *)
Theorem C31_eviction_delay : forall s d s1 d1 ns, o_disk (sm_opt s) = true -> sm_matched s = true ->
  0 <= o_delay (sm_opt s) ->
  sexec (s, d) SAccess = Ok (s1, d1) ->
  Forall (fun n => 0 <= n) ns -> fold_right Z.add 0 ns < 2 ^ 31 ->
  exists s2, run sexec (s1, d1) (map STick ns) = Ok (s2, d1) /\
    (resident s2 <-> fold_right Z.add 0 ns <= o_delay (sm_opt s)).
Proof.
  intros s d s1 d1 ns Hd Hm Hde Ha Hns Hs. cbn in Ha. unfold access in Ha.
  destruct (sm_cloud s) as [c|] eqn:Hc; [|discriminate].
  destruct (cloud_in_memory limit stamp0 c d) as [c'| | |] eqn:Ec; try discriminate. cbn in Ha.
  injection Ha as <- <-.
  assert (in_memory c' = true) as Hmem.
  { unfold cloud_in_memory in Ec. destruct (in_memory c) eqn:Em; [congruence|].
    destruct (filename c); [|discriminate]. destruct (d s0); [|discriminate].
    destruct (deserialize limit _ l); try discriminate. cbn in Ec. unfold set_inner in Ec.
    destruct (check _); try discriminate. cbn in Ec. injection Ec as <-. reflexivity. }
  assert (fold_right Z.add 0 ns = sum ns) as Hsum by (clear; induction ns; cbn; congruence).
  rewrite Hsum in *.
  destruct (ticks G move finite voxel kept_cols limit stamp0 ns (with_cloud G s 0 c') d c') as (s2 & R & K);
    cbn; try assumption; try reflexivity; try lia.
  exists s2. split; [exact R|]. rewrite K. cbn. reflexivity.
Qed.

(** From the moment a submap is full every access, at any later time, succeeds and returns the
    points and stamp the cloud had then, no matter how often it was evicted in between. *)
Theorem C31_access_returns_same_points : forall o id path d0 ops0 s d c ops s1 d1,
  run sexec (new o id path, d0) ops0 = Ok (s, d) ->
  sm_full s = true -> sm_cloud s = Some c -> in_memory c = true -> sm_matched s = false ->
  cloud_ok limit (inner c) -> c_points (inner c) <> [] -> names_apart s ->
  Forall (spares s) ops ->
  run sexec (s, d) ops = Ok (s1, d1) ->
  exists s2 c2, sexec (s1, d1) SAccess = Ok (s2, d1) /\ sm_cloud s2 = Some c2 /\
    inner c2 = inner c /\ in_memory c2 = true /\ sm_inactive s2 = 0.
Proof.
  intros o id path d0 ops0 s d c ops s1 d1 H0 Hf Hc Hm Hmt Hok Hne Hna Hsp H.
  apply history_facts in H0. destruct H0 as (_ & Hid & _ & _ & _ & _ & _ & H8 & _).
  eapply (access_saved G move finite voxel kept_cols limit stamp0 (inner c)); [assumption..|].
  eapply (saved_run G move finite voxel kept_cols limit stamp0 (inner c) ops s d s1 d1); try assumption.
  - split; [exact Hf|]. exists c. split; [exact Hc|]. split; [auto|]. split; [congruence|].
    intros [K|[K _]]; congruence.
  - apply H8; [intros j x Hj; destruct j; discriminate|congruence].
Qed.

(** Marking a submap as matched twice aborts, at any later time. *)
Theorem C32_matched_once : forall s d t s1 d1 ops s2 d2 t',
  sexec (s, d) (SMatched t) = Ok (s1, d1) -> run sexec (s1, d1) ops = Ok (s2, d2) ->
  sexec (s2, d2) (SMatched t') = Abort.
Proof.
  intros s d t s1 d1 ops s2 d2 t' H1 H2.
  assert (sm_matched s1 = true) as Hm.
  { cbn in H1. unfold set_matched in H1. destruct (check _); try discriminate. cbn in H1.
    destruct (o_disk (sm_opt s)); [|injection H1 as <- <-; reflexivity].
    destruct (sm_cloud s); [|discriminate].
    destruct (save eqb s0 d _); try discriminate. cbn in H1.
    destruct (save_frames G stamp0 _ _ _); try discriminate. cbn in H1. injection H1 as <- <-. reflexivity. }
  apply history_facts in H2. destruct H2 as (_ & _ & _ & _ & K & _).
  cbn. unfold set_matched. rewrite (K Hm). reflexivity.
Qed.

(** The first marking of a full submap succeeds, after any history without
    ClearCloudInFrames. *)
Theorem C32_first_succeeds : forall o id path d ops s d' t,
  run sexec (new o id path, d) ops = Ok (s, d') ->
  Forall (fun op => insert_ok op /\ ~ is_clear op) ops ->
  sm_full s = true -> sm_matched s = false ->
  exists s1 d1, sexec (s, d') (SMatched t) = Ok (s1, d1) /\ sm_matched s1 = true /\ sm_next s1 = t.
Proof.
  intros o id path d ops s d' t H Hok Hf Hm. eapply matched_ok; try assumption.
  eapply ready_run; [|exact Hok|exact H]. split; [constructor|discriminate].
Qed.

(** The cloud of a submap that just became full (no MRVM, no voxel filter): the clouds of
    the frames, each moved by the frame's local pose, one after the other; the stamp of the
    first frame. *)
Theorem C72_full_cloud : forall s d f s1 d1,
  Forall (good_frame) (sm_frames s) -> good_frame f ->
  o_mrvm (sm_opt s) = false -> o_voxel (sm_opt s) = false ->
  sexec (s, d) (SInsert f) = Ok (s1, d1) -> sm_full s1 = true ->
  exists c, sm_cloud s1 = Some c /\
    c_points (inner c) =
      flat_map (fun f => map (move (fr_local f)) (c_points (frame_points stamp0 f))) (sm_frames s1) /\
    (exists f0 r, sm_frames s1 = f0 :: r /\ c_stamp (inner c) = c_stamp (frame_points stamp0 f0)).
Proof.
  intros s d f s1 d1 H1 H2 H3 H4 H5 H6. cbn in H5.
  destruct (insert_frame G move finite voxel kept_cols limit stamp0 s d f) eqn:E; try discriminate.
  cbn in H5. injection H5 as -> <-. eapply full_cloud; eassumption.
Qed.

(** With enable_inner_mrvm a submap can never be completed: no history makes it full. *)
Theorem C72_mrvm_never_completes : forall o id path d ops s d', o_mrvm o = true ->
  run sexec (new o id path, d) ops = Ok (s, d') -> sm_full s = false.
Proof.
  intros o id path d ops s d' Hm H.
  pose (Pr := fun sd : submap G * disk string => sm_opt (fst sd) = o /\ sm_full (fst sd) = false).
  enough (Pr (s, d')) as (_ & HP) by exact HP.
  eapply (run_inv _ _ sexec Pr (fun _ => True)); [| |  |exact H].
  - intros [s1 d1] op [s2 d2] _ [P1 P2] E. cbn [fst] in *. pose proof E as E'.
    apply step_facts in E'. destruct E' as (E1 & _ & _ & _ & _ & E6). split; [cbn; congruence|]. cbn [fst].
    destruct op; try (destruct E6 as [_ E6]; congruence).
    cbn in E. destruct (insert_frame G move finite voxel kept_cols limit stamp0 s1 d1 f) eqn:Ei; try discriminate.
    cbn in E. injection E as -> <-. eapply mrvm_never_full; [|exact Ei]. congruence.
  - apply Forall_forall. auto.
  - split; reflexivity.
Qed.
End Props.
Print Assumptions C28_ids.
Print Assumptions C28_capacity.
Print Assumptions C28_nonpositive_never_full.
Print Assumptions C29_relative_poses.
Print Assumptions C30_get_frame.
Print Assumptions C31_no_eviction.
Print Assumptions C31_eviction_delay.
Print Assumptions C31_access_returns_same_points.
Print Assumptions C32_matched_once.
Print Assumptions C32_first_succeeds.
Print Assumptions C72_full_cloud.
Print Assumptions C72_mrvm_never_completes.

(** A submap of two frames: filled, moved, matched with disk saving, evicted after 3 idle
    seconds and read back. *)
Definition ex_st : stamp := mkStamp 0 0 1000000000.
Definition ex_mv (g : Z) (p : point) : point :=
  mkPoint (w_x p + g) (w_y p) (w_z p) (w_intensity p) (w_factor p).
Definition ex_sexec := sexec Zgroup ex_mv (fun _ => true) (fun l => l) (@List.length point) 1000 ex_st.
Definition ex_opt : options := mkOpt false false true 2 true 2 "submap_".
Definition ex_store (c : cloud) : option (store string) :=
  match make ex_st c with Ok s => Some s | _ => None end.
Definition ex_frame (g : Z) (x : Z) : frame Zgroup :=
  mkFrame (mkFid 0 0 0) (g : Zgroup) (0 : Zgroup) ex_st (ex_store (mkCloud (mkStamp 5 0 1000000000) [mkPoint x 1 1 1 1])).
Definition ex_new := (new_submap Zgroup ex_st ex_opt (mkSid 0 7) "/maps/", (fun _ => None) : disk string).
Definition ex_ops : list (sop Zgroup) :=
  [SInsert (ex_frame 10 100); SInsert (ex_frame 13 200); SSetPose (50 : Zgroup); SUpdateFrames;
   SMatched (4 : Zgroup); SAccess; STick 1; STick 2].
Definition ex_view (o : outcome (submap Zgroup * disk string)) :=
  bind o (fun sd => Ok (map (fun f => (f_index (fr_id f), fr_global f, fr_local f)) (sm_frames (fst sd)),
     sm_full (fst sd), option_map (fun c => (in_memory c, map w_x (c_points (inner c)))) (sm_cloud (fst sd)))).

Example submap_ex :
  ex_view (run ex_sexec ex_new (firstn 2 ex_ops)) =
    Ok ([(0, 10, 0); (1, 13, 3)], true, Some (true, [100; 203])) /\
  ex_view (run ex_sexec ex_new ex_ops) =
    Ok ([(0, 50, 0); (1, 53, 3)], true, Some (false, [])) /\
  ex_view (run ex_sexec ex_new (ex_ops ++ [SAccess])) =
    Ok ([(0, 50, 0); (1, 53, 3)], true, Some (true, [100; 203])) /\
  run ex_sexec ex_new (ex_ops ++ [SMatched (1 : Zgroup)]) = Abort /\
  run ex_sexec ex_new (ex_ops ++ [SInsert (ex_frame 0 0)]) = Abort.
Proof. repeat split; vm_compute; reflexivity. Qed.
Example submap_ex_hyps : Forall (fun op => insert_ok op /\ ~ is_clear op) ex_ops /\
  frame_ok (ex_frame 10 100) /\ good_frame (ex_frame 10 100) /\
  names_apart (fst ex_new) /\ Forall (spares (fst ex_new)) ex_ops.
Proof.
  assert (frame_ok (ex_frame 10 100)) as F1 by (eexists; split; [reflexivity|discriminate]).
  assert (frame_ok (ex_frame 13 200)) as F2 by (eexists; split; [reflexivity|discriminate]).
  split; [unfold ex_ops; repeat (apply Forall_cons); try apply Forall_nil; cbn [insert_ok is_clear]; auto|].
  split; [exact F1|]. split; [eexists; split; [reflexivity|]; split; [reflexivity|discriminate]|].
  split; [intros k; cbn; discriminate|].
  unfold ex_ops; repeat (apply Forall_cons); try apply Forall_nil; exact I.
Qed.
