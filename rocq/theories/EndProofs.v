(** Proofs for C126: the clouds of the frames of a submap, and the lists of frames. *)
From Coq Require Import String List Bool ZArith Lia.
From Verif Require Import Outcome Pose CloudFileModel CloudFileSpec CloudFileProofs CloudStoreModel IdsModel IdsProps
  SubmapModel SubmapSpec SubmapProofs OutputModel OutputSpec BuilderModel BuilderSpec EndSpec.
Import ListNotations.
Local Open Scope outcome_scope.

Section Proofs.
Variable G : Pose.group.
Variable move : G -> point -> point.
Variable finite : point -> bool.
Variable voxel : list point -> list point.
Variable kept_cols : list point -> nat.
Variable limit : Z.
Variable stamp0 : stamp.
Notation sexec := (sexec G move finite voxel kept_cols limit stamp0).
Notation new := (new_submap G stamp0).
Notation frame := (SubmapModel.frame G).
Notation submap := (SubmapModel.submap G).
Notation step_facts := (step_facts G move finite voxel kept_cols limit stamp0).

(** The points of a frame, in memory or in its file. *)
Definition file_of (path : string) (f : frame) : string := append path (frame_file (fr_id f)).
Definition keeps (path : string) (d : disk string) (P : cloud) (f : frame) : Prop :=
  exists c : store string, fr_cloud f = Some c /\
    ((in_memory c = true /\ inner c = P) \/
     (in_memory c = false /\ c_points (inner c) = [] /\ filename c = Some (file_of path f) /\ d (file_of path f) = Some (serialize P))).
Definition fits (P : cloud) : Prop := cloud_ok limit P /\ c_points P <> [].

Lemma keeps_load : forall path d P f, fits P -> keeps path d P f ->
  exists f', frame_cloud G limit stamp0 d f = Ok f' /\ frame_points stamp0 f' = P.
Proof.
  intros path d P f [P1 P2] (c & Hc & H). unfold frame_cloud. rewrite Hc. destruct H as [[H1 H2]|(H1 & _ & H2 & H3)].
  - unfold cloud_in_memory. rewrite H1. cbn. eexists. split; [reflexivity|]. cbn. exact H2.
  - destruct (cloud_reload limit stamp0 P c d _ P1 P2 H1 H2 H3) as (c' & R & R1 & _). rewrite R. cbn.
    eexists. split; [reflexivity|]. cbn. exact R1.
Qed.
(** Loading a cloud keeps it. *)
Lemma load_keeps : forall path d P f f', fits P -> keeps path d P f -> frame_cloud G limit stamp0 d f = Ok f' ->
  keeps path d P f'.
Proof.
  intros path d P f f' HP HK H. destruct (keeps_load _ _ _ _ HP HK) as (f2 & E & EP). rewrite E in H. injection H as ->.
  unfold frame_cloud in E. destruct HK as (c & Hc & _). rewrite Hc in E. ib E. injection E as <-.
  cbn [frame_points fr_cloud] in EP. exists a. split; [reflexivity|]. left. split; [|exact EP].
  unfold cloud_in_memory in E0. destruct (in_memory c) eqn:Em; [congruence|].
  destruct (filename c); [|discriminate]. destruct (d s); [|discriminate]. ib E0. unfold set_inner in E0. ib E0. injection E0 as <-. reflexivity.
Qed.
Lemma add_clouds_keeps : forall path chk d Ps fs acc x, Forall fits Ps -> Forall2 (keeps path d) Ps fs ->
  add_clouds G move finite limit stamp0 chk d fs acc = Ok x -> Forall2 (keeps path d) Ps (fst x).
Proof.
  intros path chk d Ps fs acc x HP H. revert acc x. induction H as [|P f Ps fs K _ IH]; intros acc x E; cbn in E.
  - injection E as <-. constructor.
  - inversion HP; subst. ib E. ib E. ib E. injection E as <-. cbn. constructor; [eapply load_keeps; eassumption|eauto].
Qed.
Lemma check_clouds_keeps : forall path chk d Ps fs x, Forall fits Ps -> Forall2 (keeps path d) Ps fs ->
  check_clouds G move finite limit stamp0 chk d fs = Ok x -> Forall2 (keeps path d) Ps x.
Proof.
  intros path chk d Ps fs x HP H. revert x. induction H as [|P f Ps fs K _ IH]; intros x E; cbn in E.
  - injection E as <-. constructor.
  - inversion HP; subst. ib E. ib E. ib E. injection E as <-. constructor; [eapply load_keeps; eassumption|eauto].
Qed.

(** Filling a submap. *)
Lemma insert_keeps : forall path Ps s d f P s', Forall fits Ps -> fits P -> Forall2 (keeps path d) Ps (sm_frames s) ->
  (exists c, fr_cloud f = Some c /\ in_memory c = true /\ inner c = P) ->
  insert_frame G move finite voxel kept_cols limit stamp0 s d f = Ok s' -> Forall2 (keeps path d) (Ps ++ [P]) (sm_frames s').
Proof.
  intros path Ps s d f P s' HPs HP HF (c & C1 & C2 & C3) E. unfold insert_frame in E. ib E. clear E0.
  match type of E with (if _ then SubmapModel.finish _ _ _ _ _ _ _ (SubmapModel.mkSub _ _ ?l _ _ _ _ _ _ _ _ _) _ else _) = _ =>
    assert (Forall2 (keeps path d) (Ps ++ [P]) l) as Hl end.
  { apply Forall2_app; [exact HF|]. constructor; [|constructor]. exists c. cbn. auto. }
  destruct (_ =? _)%Z.
  - unfold SubmapModel.finish in E. cbn [sm_opt sm_frames sm_id sm_full sm_global sm_stamp sm_matched sm_next sm_inactive sm_name sm_path] in E.
    ib E. ib E. ib E. injection E as <-. cbn [sm_frames].
    assert (HA : Forall fits (Ps ++ [P])) by (apply Forall_app; auto).
    destruct (o_mrvm (sm_opt s)).
    + ib E0. injection E0 as <-. eapply check_clouds_keeps; eassumption.
    + apply bind_Ok in E0. destruct E0 as (y & Ey & E0).
      destruct (fst y) eqn:Ea; [discriminate|]. injection E0 as <-. cbn [fst].
      rewrite <- Ea. eapply add_clouds_keeps; eassumption.
  - injection E as <-. exact Hl.
Qed.
Definition cloud_of (f : frame) : cloud := frame_points stamp0 f.
Lemma fresh_fits : forall f, fresh G limit f -> fits (cloud_of f).
Proof. intros f (c & H1 & H2 & H3 & H4). unfold cloud_of, frame_points. rewrite H1. split; assumption. Qed.
Lemma fill_keeps : forall path fs Ps s d s' d', Forall fits Ps -> Forall (fresh G limit) fs -> Forall2 (keeps path d) Ps (sm_frames s) ->
  run sexec (s, d) (map SInsert fs) = Ok (s', d') -> d' = d /\ Forall2 (keeps path d') (Ps ++ map cloud_of fs) (sm_frames s').
Proof.
  intros path fs. induction fs as [|f fs IH]; intros Ps s d s' d' HP HF HK H; cbn [map run] in H.
  - injection H as <- <-. rewrite app_nil_r. auto.
  - inversion HF as [|? ? F1 F2]; subst. ib H. destruct a as [s1 d1]. cbn [SubmapModel.sexec] in E. ib E. injection E as -> <-.
    assert (Forall2 (keeps path d) (Ps ++ [cloud_of f]) (sm_frames s1)) as K1.
    { eapply insert_keeps; [exact HP|apply fresh_fits; exact F1|exact HK| |exact E0].
      destruct F1 as (c & C1 & C2 & _). exists c. unfold cloud_of, frame_points. rewrite C1. auto. }
    destruct (IH (Ps ++ [cloud_of f]) s1 d s' d') as [R1 R2]; try assumption.
    { apply Forall_app. split; [exact HP|]. constructor; [apply fresh_fits; exact F1|constructor]. }
    split; [exact R1|]. rewrite <- app_assoc in R2. exact R2.
Qed.

(** Writing the files of the frames. *)
Definition apart (path : string) (g : string) (f : frame) : Prop := file_of path f <> g.
Lemma save_frames_keeps : forall path Ps fs d x, NoDup (map (file_of path) fs) -> Forall2 (keeps path d) Ps fs ->
  save_frames G stamp0 path d fs = Ok x -> Forall2 (keeps path (snd x)) Ps (fst x).
Proof.
  intros path Ps fs d x ND H. revert d x ND H. revert Ps. induction fs as [|f fs IH]; intros Ps d x ND H E; cbn [save_frames] in E.
  - injection E as <-. inversion H; subst. constructor.
  - inversion H as [|P ? Ps' ? K H']; subst. cbn [map] in ND. apply NoDup_cons_iff in ND. destruct ND as [N1 N2].
    destruct K as (c & Hc & K). rewrite Hc in E. ib E. ib E. injection E as <-. cbn [fst snd].
    assert (HO : forall g, file_of path g <> file_of path f -> snd a (file_of path g) = d (file_of path g)).
    { intros g Hg. unfold save in E0. ib E0. injection E0 as <-. cbn [snd]. unfold write.
      destruct (String.eqb_spec (file_of path g) (append path (frame_file (fr_id f)))) as [Eq|]; [|reflexivity]. exfalso. apply Hg. exact Eq. }
    constructor.
    + unfold save in E0. ib E0. apply check_Ok in E. injection E0 as <-. cbn [fst snd] in *.
      destruct K as [[K1 K2]|(K1 & K2 & _)]; [|unfold is_empty in E; rewrite K2 in E; discriminate].
      unfold clear_frame. cbn [fr_id fr_global fr_local fr_stamp fr_cloud option_map]. eexists. split; [reflexivity|]. right.
      unfold clear. cbn [in_memory]. rewrite K1. cbn [negb in_memory filename inner c_points]. split; [reflexivity|]. split; [reflexivity|]. split; [reflexivity|].
      change (snd a0 (file_of path f) = Some (serialize P)).
      rewrite (save_frames_disk _ _ _ _ _ _ (file_of path f) E1).
      { unfold write. unfold file_of at 1. rewrite String.eqb_refl, K2. reflexivity. }
      apply Forall_forall. intros g Hg Eq. apply N1. apply in_map_iff. exists g. split; [exact Eq|exact Hg].
    + eapply IH; [exact N2| |exact E1].
      clear - HO H' N1. induction H' as [|P' g Ps'' fs' K _ IH2]; [constructor|].
      cbn [map] in N1. constructor.
      * destruct K as (c' & Hc' & K). exists c'. split; [exact Hc'|]. destruct K as [K|(K1 & K2 & K3 & K4)]; [left; exact K|right].
        rewrite HO; [auto|]. intros Eq. apply N1. left. exact Eq.
      * apply IH2. intros Hin. apply N1. right. exact Hin.
Qed.

(** Everything that happens after the submap is filled. *)
Lemma frame_ids_nodup : forall path (s : submap), ids_from G 0 (map (skel G) (sm_frames s)) (sm_id s) -> NoDup (map (file_of path) (sm_frames s)).
Proof.
  intros path s H. apply NoDup_nth_error. intros i j Hi E. rewrite map_length in Hi. rewrite !nth_error_map in E.
  destruct (nth_error (sm_frames s) i) as [f|] eqn:Ei; [|apply nth_error_None in Ei; lia].
  destruct (nth_error (sm_frames s) j) as [g|] eqn:Ej; [|discriminate]. cbn in E. injection E as E.
  apply key_skel in Ei. apply key_skel in Ej. apply H in Ei. apply H in Ej. cbn in Ei, Ej.
  unfold file_of in E. apply append_cancel in E. apply (proj1 (proj2 C27_files_unique)) in E.
  rewrite Ei, Ej in E. injection E as E. lia.
Qed.
Lemma keeps_same : forall path d d' Ps fs fs', map (fun f : frame => (fr_id f, fr_cloud f)) fs' = map (fun f => (fr_id f, fr_cloud f)) fs ->
  (forall f, In f fs -> d' (file_of path f) = d (file_of path f)) -> Forall2 (keeps path d) Ps fs -> Forall2 (keeps path d') Ps fs'.
Proof.
  intros path d d' Ps fs fs' E HD H. revert fs' E. induction H as [|P f Ps fs K _ IH]; intros [|f' fs'] E; try discriminate; [constructor|].
  cbn in E. injection E as E1 E2 E3. constructor.
  - destruct K as (c & Hc & K). exists c. split; [congruence|]. unfold file_of. rewrite E1.
    change (append path (frame_file (fr_id f))) with (file_of path f). rewrite (HD f (or_introl eq_refl)). exact K.
  - apply IH; [|exact E3]. intros g Hg. apply HD. right. exact Hg.
Qed.
Lemma after_step : forall id path Ps s d o s' d', sm_id s = id -> sm_path s = path ->
  ~ is_insert o -> ~ is_clear o -> spares_frames G id path o -> names_apart s ->
  ids_from G 0 (map (skel G) (sm_frames s)) (sm_id s) ->
  Forall2 (keeps path d) Ps (sm_frames s) -> sexec (s, d) o = Ok (s', d') -> Forall2 (keeps path d') Ps (sm_frames s').
Proof.
  intros id path Ps s d o s' d' Hid Hpath N1 N2 Hsp Hna Hids HK H.
  assert (Hf : forall k f, nth_error (sm_frames s) k = Some f -> fr_id f = mkFid (s_traj id) (IdsModel.s_index id) (Z.of_nat k)).
  { intros k f Hk. apply key_skel in Hk. apply Hids in Hk. rewrite Hid in Hk. exact Hk. }
  destruct o; cbn [SubmapModel.sexec] in H.
  - exfalso. apply N1. exact I.
  - injection H as <- <-. exact HK.
  - injection H as <- <-. cbn. eapply keeps_same; [|reflexivity|exact HK]. rewrite map_map. reflexivity.
  - unfold set_matched in H. ib H. destruct (o_disk (sm_opt s)).
    + destruct (sm_cloud s) as [c|]; [|discriminate]. ib H. ib H. injection H as <- <-. cbn. rewrite Hpath in *.
      apply (save_frames_keeps path _ _ _ _ (frame_ids_nodup path s Hids)) with (2 := E1).
      eapply keeps_same; [reflexivity| |exact HK]. intros f Hin. unfold save in E0. ib E0. injection E0 as <-. cbn.
      unfold write. destruct (String.eqb_spec (file_of path f) (append path (sm_name s))) as [Eq|]; [|reflexivity].
      exfalso. unfold file_of in Eq. apply append_cancel in Eq. apply In_nth_error in Hin. destruct Hin as [k Hk].
      rewrite (Hf _ _ Hk), <- Hid in Eq. apply (Hna (Z.of_nat k)). symmetry. exact Eq.
    + injection H as <- <-. exact HK.
  - ib H. injection H as <- <-. unfold access in E. destruct (sm_cloud s); [|discriminate]. ib E. injection E as <-. exact HK.
  - ib H. injection H as <- <-. unfold tick in E. destruct (_ || _); [injection E as <-; exact HK|].
    destruct (sm_cloud s); [|discriminate]. destruct (_ <? _)%Z; injection E as <-; exact HK.
  - exfalso. apply N2. exact I.
  - injection H as <- <-. eapply keeps_same; [reflexivity| |exact HK]. intros g Hin. cbn in Hsp. unfold write.
    apply In_nth_error in Hin. destruct Hin as [k Hk]. unfold file_of. rewrite (Hf _ _ Hk).
    destruct (String.eqb_spec (append path (frame_file (mkFid (s_traj id) (IdsModel.s_index id) (Z.of_nat k)))) f) as [Eq|]; [|reflexivity].
    exfalso. apply (Hsp (Z.of_nat k)). symmetry. exact Eq.
Qed.
Lemma after_run : forall id path Ps ops s d s' d', sm_id s = id -> sm_path s = path -> names_apart s ->
  Forall (fun op => ~ is_insert op /\ ~ is_clear op /\ spares_frames G id path op) ops ->
  ids_from G 0 (map (skel G) (sm_frames s)) (sm_id s) ->
  Forall2 (keeps path d) Ps (sm_frames s) -> run sexec (s, d) ops = Ok (s', d') -> Forall2 (keeps path d') Ps (sm_frames s').
Proof.
  intros id path Ps ops. induction ops as [|o ops IH]; intros s d s' d' Hid Hpath Hna Hops Hids HK H; cbn [run] in H.
  - injection H as <- <-. exact HK.
  - inversion Hops as [|? ? (O1 & O2 & O3) Hr]; subst. ib H. destruct a as [s1 d1].
    pose proof (step_facts _ _ _ _ _ E) as (F1 & F2 & F3 & F4 & F5 & F6).
    eapply IH; [| | | | | |exact H].
    + congruence.
    + congruence.
    + intros k. rewrite F3, F2. apply Hna.
    + exact Hr.
    + rewrite F2. destruct o; destruct F6 as [F6 _]; try (rewrite F6; exact Hids). exfalso. apply O1. exact I.
    + exact (after_step _ _ Ps s d o s1 d1 eq_refl eq_refl O1 O2 O3 Hna Hids HK E).
Qed.

(** The frames of a submap that was filled with [fs], whatever happened since. *)
Lemma made_frames : forall d fs s, made G move finite voxel kept_cols limit stamp0 d fs s -> Forall (fresh G limit) fs ->
  Forall2 (fun f f' => (exists f2, frame_cloud G limit stamp0 d f' = Ok f2 /\ frame_points stamp0 f2 = frame_points stamp0 f) /\
      forall f0 r, fs = f0 :: r -> fr_local f' = gmul (ginv (fr_global f0)) (fr_global f)) fs (sm_frames s).
Proof.
  intros d fs s (o & id & path & d0 & s1 & d1 & ops & H1 & H2 & H3 & H4) HF.
  assert (Forall2 (keeps path d) (map cloud_of fs) (sm_frames s)) as K.
  { assert (Forall2 (keeps path d0) [] (sm_frames (new o id path))) as K0 by constructor.
    destruct (fill_keeps path fs [] _ _ _ _ (Forall_nil _) HF K0 H1) as [-> K1]. cbn [app] in K1.
    pose proof (history_facts G move finite voxel kept_cols limit stamp0 _ _ _ _ _ H1) as (F1 & F2 & F3 & F4 & _ & _ & _ & F8 & _).
    eapply (after_run id path); [exact F2|exact F4| |exact H3| |exact K1|exact H2].
    - intros k. rewrite F3, F2. apply H4.
    - apply F8; [intros j x Hj; destruct j; discriminate|]. exact (eq_sym F2). }
  assert (forall f0 r, fs = f0 :: r -> map fr_local (sm_frames s) = map (fun f => gmul (ginv (fr_global f0)) (fr_global f)) fs) as L.
  { intros f0 r ->. pose proof (inserts_local G move finite voxel kept_cols limit stamp0 _ _ _ _ _ _ _ _ H1) as L.
    assert (Forall (fun o => ~ is_insert o) ops) as Hn by (eapply Forall_impl; [|exact H3]; intros ? (K1 & _); exact K1).
    rewrite <- (no_insert_skel G move finite voxel kept_cols limit stamp0 _ _ _ _ _ Hn H2) in L. rewrite map_map in L. exact L. }
  assert (forall f0 r, fs = f0 :: r -> Forall2 (fun f f' => fr_local f' = gmul (ginv (fr_global f0)) (fr_global f)) fs (sm_frames s)) as L2.
  { intros f0 r E. specialize (L f0 r E). clear - L. revert L. generalize (sm_frames s). induction fs as [|f fs IH]; intros [|f' l] L; try discriminate; [constructor|].
    cbn in L. injection L as L1 L2. constructor; [exact L1|]. apply IH. exact L2. }
  clear L. destruct fs as [|f0 r].
  - inversion K. constructor.
  - specialize (L2 f0 r eq_refl). remember (f0 :: r) as fs eqn:Efs.
    assert (forall h t, f0 :: r = h :: t -> h = f0) as Hh by (intros h t E; injection E as <-; reflexivity).
    rewrite <- Efs in Hh. clear - K L2 HF Hh. assert (Forall fits (map cloud_of fs)) as Hfit.
    { clear - HF. induction HF; constructor; [apply fresh_fits; assumption|assumption]. }
    enough (forall whole, (forall h t, whole = h :: t -> h = f0) ->
      Forall2 (fun f f' => (exists f2, frame_cloud G limit stamp0 d f' = Ok f2 /\ frame_points stamp0 f2 = frame_points stamp0 f) /\
        forall f0 r, whole = f0 :: r -> fr_local f' = gmul (ginv (fr_global f0)) (fr_global f)) fs (sm_frames s)) as X by exact (X fs Hh).
    clear Hh HF. intros whole Hh. revert Hfit K.
    induction L2 as [|f f' fs fs' L _ IH]; intros Hfit K; [constructor|]. cbn [map] in K. inversion K; subst. inversion Hfit; subst.
    constructor; [|apply IH; assumption]. split.
    + eapply keeps_load; eassumption.
    + intros h t E. rewrite (Hh h t E). exact L.
Qed.

(** The frames of groups are key frames in order. *)
Lemma key_frames_app : forall cloud frame smst (sm_step : smst -> cloud -> smst * option frame) a x b,
  exists y, key_frames sm_step x (a ++ b) = key_frames sm_step x a ++ y.
Proof.
  intros cloud0 frame0 smst sm_step. induction a as [|c a IH]; intros x b; cbn; [eauto|].
  destruct (sm_step x c) as [x' [f|]]; destruct (IH x' b) as [y ->]; exists y; reflexivity.
Qed.
End Proofs.
