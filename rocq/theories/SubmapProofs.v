From Coq Require Import List Bool ZArith Lia String ZifyBool.
From Verif Require Import Outcome Pose CloudFileModel CloudFileSpec CloudFileProofs
  CloudStoreModel CloudStoreSpec CloudStoreProofs IdsModel SubmapModel SubmapSpec.
Import ListNotations.
Local Open Scope Z_scope.

Lemma bind_Ok : forall A B (m : outcome A) (f : A -> outcome B) b,
  bind m f = Ok b -> exists a, m = Ok a /\ f a = Ok b.
Proof. intros A B [a| | |] f b H; cbn in H; try discriminate. eauto. Qed.
Lemma check_Ok : forall b u, check b = Ok u -> b = true.
Proof. intros [|] u H; [reflexivity|discriminate]. Qed.
Ltac ib H := apply bind_Ok in H; let a := fresh "a" in let E := fresh "E" in destruct H as (a & E & H).

Lemma run_snoc : forall S I (step : S -> I -> outcome S) l s o,
  run step s (l ++ [o]) = bind (run step s l) (fun s' => step s' o).
Proof.
  induction l as [|i l IH]; intros s o; cbn.
  - destruct (step s o); reflexivity.
  - destruct (step s i); cbn; [apply IH|reflexivity..].
Qed.
Lemma run_app : forall S I (step : S -> I -> outcome S) l1 l2 s,
  run step s (l1 ++ l2) = bind (run step s l1) (fun s' => run step s' l2).
Proof.
  induction l1 as [|i l IH]; intros l2 s; cbn; [reflexivity|].
  destruct (step s i); cbn; [apply IH|reflexivity..].
Qed.
(** An invariant that may look at the calls. *)
Lemma run_inv : forall S I (step : S -> I -> outcome S) (P : S -> Prop) (Q : I -> Prop),
  (forall s o s', Q o -> P s -> step s o = Ok s' -> P s') ->
  forall l s s', Forall Q l -> P s -> run step s l = Ok s' -> P s'.
Proof.
  intros S I step P Q H. induction l as [|o l IH]; intros s s' HQ HP E; cbn in E; [congruence|].
  inversion HQ; subst. ib E. eapply IH; [assumption| |eassumption]. eapply H; eassumption.
Qed.

Lemma append_cancel : forall p a b : string, append p a = append p b -> a = b.
Proof. induction p; cbn; intros a' b E; [exact E|]. injection E. auto. Qed.

Section P.
Variable G : group.
Variable move : G -> point -> point.
Variable finite : point -> bool.
Variable voxel : list point -> list point.
Variable kept_cols : list point -> nat.
Variable limit : Z.
Variable stamp0 : stamp.
Notation sexec := (sexec G move finite voxel kept_cols limit stamp0).
Notation new := (new_submap G stamp0).
Notation frame := (frame G).
Notation submap := (submap G).

(** What every operation leaves alone in a frame. *)
Definition skel (f : frame) : frame_id * G := (fr_id f, fr_local f).
Definition key (f : frame) : frame_id * G * G := (fr_id f, fr_local f, fr_global f).

Lemma frame_cloud_key : forall d f f', frame_cloud G limit stamp0 d f = Ok f' -> key f' = key f.
Proof.
  intros d f f' H. unfold frame_cloud in H. destruct (fr_cloud f); [|discriminate].
  ib H. injection H as <-. reflexivity.
Qed.
Lemma add_clouds_key : forall chk d fs acc x,
  add_clouds G move finite limit stamp0 chk d fs acc = Ok x -> map key (fst x) = map key fs.
Proof.
  induction fs as [|f fs IH]; intros acc x H; cbn in H; [injection H as <-; reflexivity|].
  ib H. ib H. ib H. injection H as <-. cbn. f_equal; [eapply frame_cloud_key; eassumption|eauto].
Qed.
Lemma check_clouds_key : forall chk d fs x,
  check_clouds G move finite limit stamp0 chk d fs = Ok x -> map key x = map key fs.
Proof.
  induction fs as [|f fs IH]; intros x H; cbn in H; [injection H as <-; reflexivity|].
  ib H. ib H. ib H. injection H as <-. cbn. f_equal; [eapply frame_cloud_key; eassumption|eauto].
Qed.
Lemma finish_facts : forall s d s', finish G move finite voxel kept_cols limit stamp0 s d = Ok s' ->
  map key (sm_frames s') = map key (sm_frames s) /\
  sm_opt s' = sm_opt s /\ sm_id s' = sm_id s /\ sm_full s' = sm_full s /\ sm_global s' = sm_global s /\
  sm_matched s' = sm_matched s /\ sm_name s' = sm_name s /\ sm_path s' = sm_path s /\
  sm_inactive s' = sm_inactive s /\
  exists c, sm_cloud s' = Some c /\ in_memory c = true /\ c_points (inner c) <> [].
Proof.
  intros s d s' H. unfold finish in H. ib H.
  assert (map key (fst a) = map key (sm_frames s)) as Hk.
  { destruct (o_mrvm (sm_opt s)).
    - ib E. injection E as <-. eapply check_clouds_key; eassumption.
    - ib E. destruct (fst a0) as [|f0 fr] eqn:Ef; [discriminate|]. injection E as <-. cbn [fst].
      rewrite <- Ef. eapply add_clouds_key; eassumption. }
  ib H. ib H. injection H as <-. cbn. repeat (split; [auto|]).
  unfold make, set_inner in E1. ib E1. apply check_Ok in E2. injection E1 as <-.
  eexists. split; [reflexivity|]. cbn. split; [reflexivity|]. intros K. rewrite K in E2. discriminate.
Qed.

Definition new_id (s : submap) : frame_id :=
  mkFid (s_traj (sm_id s)) (s_index (sm_id s)) (Z.of_nat (List.length (sm_frames s))).
Definition new_local (s : submap) (f : frame) : G :=
  match sm_frames s with [] => gone | _ => gmul (ginv (sm_global s)) (fr_global f) end.

Lemma insert_facts : forall s d f s', insert_frame G move finite voxel kept_cols limit stamp0 s d f = Ok s' ->
  sm_full s = false /\
  map key (sm_frames s') = map key (sm_frames s) ++ [(new_id s, new_local s f, fr_global f)] /\
  sm_opt s' = sm_opt s /\ sm_id s' = sm_id s /\
  sm_full s' = (Z.of_nat (S (List.length (sm_frames s))) =? o_frame_count (sm_opt s) mod 2 ^ 64) /\
  sm_global s' = (match sm_frames s with [] => fr_global f | _ => sm_global s end) /\
  sm_matched s' = sm_matched s /\ sm_name s' = sm_name s /\ sm_path s' = sm_path s /\
  sm_inactive s' = sm_inactive s /\
  (sm_full s' = false -> sm_cloud s' = sm_cloud s) /\
  (sm_full s' = true -> exists c, sm_cloud s' = Some c /\ in_memory c = true /\ c_points (inner c) <> []).
Proof.
  intros s d f s' H. unfold insert_frame in H. ib H. apply check_Ok in E.
  split; [destruct (sm_full s); [discriminate|reflexivity]|].
  rewrite app_length in H. cbn [List.length] in H. rewrite Nat.add_1_r in H.
  assert (forall x, (match sm_frames s with [] => true | _ => false end) = x ->
    (if x then fr_global f else sm_global s) = (match sm_frames s with [] => fr_global f | _ => sm_global s end) /\
    (if x then gone else gmul (ginv (sm_global s)) (fr_global f)) = new_local s f) as Hx.
  { intros x <-. unfold new_local. destruct (sm_frames s); auto. }
  specialize (Hx _ eq_refl). destruct Hx as [Hx1 Hx2].
  destruct (Z.of_nat (S (List.length (sm_frames s))) =? o_frame_count (sm_opt s) mod 2 ^ 64) eqn:Ef.
  - apply finish_facts in H. cbn [sm_frames sm_opt sm_id sm_full sm_global sm_matched sm_name sm_path sm_inactive] in H.
    destruct H as (H1 & H2 & H3 & H4 & H5 & H6 & H7 & H8 & H9 & H10).
    rewrite Hx1 in H5. rewrite Hx2 in H1. rewrite map_app in H1.
    repeat (split; [assumption|]). split; [congruence|auto].
  - injection H as <-. cbn. rewrite Hx1, Hx2, map_app. repeat (split; [reflexivity|]). discriminate.
Qed.

Lemma save_frames_key : forall path fs d x, save_frames G stamp0 path d fs = Ok x ->
  map key (fst x) = map key fs.
Proof.
  induction fs as [|f fs IH]; intros d x H; cbn in H; [injection H as <-; reflexivity|].
  destruct (fr_cloud f); [|discriminate]. ib H. ib H. injection H as <-. cbn. f_equal. eauto.
Qed.

(** Everything but the poses of the frames after one call. *)
Lemma step_facts : forall s d o s' d', sexec (s, d) o = Ok (s', d') ->
  sm_opt s' = sm_opt s /\ sm_id s' = sm_id s /\ sm_name s' = sm_name s /\ sm_path s' = sm_path s /\
  (sm_matched s = true -> sm_matched s' = true) /\
  match o with
  | SInsert f => map skel (sm_frames s') = map skel (sm_frames s) ++ [(new_id s, new_local s f)] /\
      sm_full s = false /\
      sm_full s' = (Z.of_nat (S (List.length (sm_frames s))) =? o_frame_count (sm_opt s) mod 2 ^ 64)
  | _ => map skel (sm_frames s') = map skel (sm_frames s) /\ sm_full s' = sm_full s
  end.
Proof.
  intros s d o s' d' H.
  assert (forall l1 l2 : list frame, map key l1 = map key l2 -> map skel l1 = map skel l2) as Hks.
  { intros l1 l2 E. assert (forall l : list frame, map skel l = map (fun p => (fst (fst p), snd (fst p))) (map key l)) as R.
    { intros l. rewrite map_map. reflexivity. }
    rewrite !R, E. reflexivity. }
  destruct o; cbn [SubmapModel.sexec] in H.
  - ib H. injection H as <- <-. apply insert_facts in E.
    destruct E as (H0 & H1 & H2 & H3 & H4 & H5 & H6 & H7 & H8 & _).
    repeat (split; [first [assumption|congruence]|]). split; [|auto].
    assert (forall l : list frame, map skel l = map (fun p => (fst (fst p), snd (fst p))) (map key l)) as R.
    { intros l. rewrite map_map. reflexivity. }
    rewrite !R, H1, map_app. reflexivity.
  - injection H as <- <-. cbn. auto 10.
  - injection H as <- <-. cbn. rewrite map_map. auto 10.
  - unfold set_matched in H. ib H. destruct (o_disk (sm_opt s)).
    + destruct (sm_cloud s); [|discriminate]. ib H. ib H. injection H as <- <-. cbn.
      apply save_frames_key, Hks in E1. auto 10.
    + injection H as <- <-. cbn. auto 10.
  - ib H. injection H as <- <-. unfold access in E. destruct (sm_cloud s); [|discriminate]. ib E.
    injection E as <-. cbn. auto 10.
  - ib H. injection H as <- <-. unfold tick in E. destruct (_ || _); [injection E as <-; auto 10|].
    destruct (sm_cloud s); [|discriminate]. destruct (_ <? _); injection E as <-; cbn; auto 10.
  - ib H. injection H as <- <-. unfold clear_frames in E. ib E. injection E as <-. cbn.
    rewrite map_map. auto 10.
  - injection H as <- <-. auto 10.
Qed.

(** ** C28: counts and identifiers *)
Definition ids_from (n : nat) (sk : list (frame_id * G)) (id : submap_id) : Prop :=
  forall k x, nth_error sk k = Some x -> fst x = mkFid (s_traj id) (s_index id) (Z.of_nat (n + k)).

Lemma history_facts : forall ops s d s' d',
  run sexec (s, d) ops = Ok (s', d') ->
  sm_opt s' = sm_opt s /\ sm_id s' = sm_id s /\ sm_name s' = sm_name s /\ sm_path s' = sm_path s /\
  (sm_matched s = true -> sm_matched s' = true) /\
  List.length (sm_frames s') = (List.length (sm_frames s) + inserts ops)%nat /\
  (exists tail, map skel (sm_frames s') = map skel (sm_frames s) ++ tail) /\
  (forall id, ids_from 0 (map skel (sm_frames s)) id -> sm_id s = id -> ids_from 0 (map skel (sm_frames s')) id) /\
  ((sm_full s = true <-> (sm_frames s <> [] /\ Z.of_nat (List.length (sm_frames s)) = o_frame_count (sm_opt s) mod 2 ^ 64)) ->
   (sm_full s' = true <-> (sm_frames s' <> [] /\ Z.of_nat (List.length (sm_frames s')) = o_frame_count (sm_opt s) mod 2 ^ 64))).
Proof.
  induction ops as [|o ops IH]; intros s d s' d' H.
  - cbn in H. injection H as <- <-. unfold inserts. cbn. rewrite Nat.add_0_r.
    do 6 (split; [auto|]). split; [exists []; rewrite app_nil_r; reflexivity|]. auto.
  - cbn [run] in H. ib H. destruct a as [s1 d1]. apply step_facts in E.
    destruct E as (E1 & E2 & E3 & E4 & E5 & E6). apply IH in H.
    destruct H as (H1 & H2 & H3 & H4 & H5 & H6 & H7 & H8 & H9).
    split; [congruence|]. split; [congruence|]. split; [congruence|]. split; [congruence|]. split; [auto|].
    assert (List.length (sm_frames s1) = (List.length (sm_frames s) + inserts [o])%nat) as L1.
    { unfold inserts. rewrite <- (map_length skel (sm_frames s1)), <- (map_length skel (sm_frames s)).
      destruct o; destruct E6 as [-> E6]; cbn; rewrite ?app_length; cbn; lia. }
    assert (inserts (o :: ops) = (inserts [o] + inserts ops)%nat) as Li.
    { unfold inserts. cbn. destruct o; reflexivity. }
    split; [rewrite H6, L1, Li; lia|].
    destruct H7 as [tl Ht].
    split; [destruct o; destruct E6 as [E6 _]; rewrite Ht, E6;
            [rewrite <- app_assoc; eexists; reflexivity|eexists; reflexivity..]|].
    split.
    + intros id Hid Hs. apply H8; [|congruence].
      destruct o; destruct E6 as [E6 _]; rewrite E6; try exact Hid.
      intros k x Hk. destruct (Nat.lt_ge_cases k (List.length (map skel (sm_frames s)))) as [Hlt|Hge].
      * rewrite nth_error_app1 in Hk by exact Hlt. apply Hid. exact Hk.
      * rewrite nth_error_app2 in Hk by exact Hge.
        destruct (k - List.length (map skel (sm_frames s)))%nat as [|j] eqn:Ej; [|destruct j; discriminate].
        injection Hk as <-. cbn. unfold new_id. rewrite Hs. rewrite map_length in *. f_equal. lia.
    + intros Hf. rewrite <- E1. apply H9.
      destruct o; destruct E6 as [E6 E7]; try (assert (List.length (sm_frames s1) = List.length (sm_frames s)) as Hl
        by (rewrite <- (map_length skel (sm_frames s1)), E6, map_length; reflexivity);
        rewrite E7, E1, Hl, Hf;
        split; intros [K1 K2]; (split; [|exact K2]); intros K3; apply K1; destruct (sm_frames s), (sm_frames s1); try reflexivity; try discriminate).
      destruct E7 as [_ E7]. rewrite E7. rewrite L1. unfold inserts. cbn [filter List.length].
      rewrite E1. assert (sm_frames s1 <> []) as Hne.
      { intros K. rewrite K in L1. cbn in L1. lia. }
      split; [intros K; split; [exact Hne|lia]|intros [_ K]; lia].
Qed.

(** ** C29: poses *)
Lemma key_skel : forall (s : submap) k f, nth_error (sm_frames s) k = Some f ->
  nth_error (map skel (sm_frames s)) k = Some (fr_id f, fr_local f).
Proof. intros s k f H. rewrite nth_error_map, H. reflexivity. Qed.

Lemma no_insert_skel : forall ops s d s' d', Forall (fun o => ~ is_insert o) ops ->
  run sexec (s, d) ops = Ok (s', d') -> map skel (sm_frames s') = map skel (sm_frames s).
Proof.
  induction ops as [|o ops IH]; intros s d s' d' Hn H; cbn [run] in H; [injection H as <- <-; reflexivity|].
  inversion Hn; subst. ib H. destruct a as [s1 d1]. apply step_facts in E. apply IH in H; [|assumption].
  rewrite H. destruct E as (_ & _ & _ & _ & _ & E). destruct o; try apply E. exfalso. apply H2. exact I.
Qed.

Lemma inserts_nonempty : forall fs s d s' d', sm_frames s <> [] ->
  run sexec (s, d) (map SInsert fs) = Ok (s', d') ->
  map snd (map skel (sm_frames s')) =
    map snd (map skel (sm_frames s)) ++ map (fun f => gmul (ginv (sm_global s)) (fr_global f)) fs.
Proof.
  induction fs as [|f fs IH]; intros s d s' d' Hne H; cbn [map run] in H.
  - injection H as <- <-. rewrite app_nil_r. reflexivity.
  - ib H. destruct a as [s1 d1]. cbn [SubmapModel.sexec] in E. ib E. injection E as -> <-.
    apply insert_facts in E0. destruct E0 as (_ & K & _ & _ & _ & Hg & _).
    assert (map skel (sm_frames s1) = map skel (sm_frames s) ++ [(new_id s, new_local s f)]) as Ks.
    { assert (forall l : list frame, map skel l = map (fun p => (fst (fst p), snd (fst p))) (map key l)) as R
        by (intros l; rewrite map_map; reflexivity).
      rewrite !R, K, map_app. reflexivity. }
    apply IH in H.
    + rewrite H, Ks, map_app. cbn [map snd]. rewrite <- app_assoc. cbn [app map].
      rewrite Hg. destruct (sm_frames s) eqn:Ef; [congruence|]. unfold new_local. rewrite Ef. reflexivity.
    + intros Kn. rewrite Kn in Ks. destruct (map skel (sm_frames s)); discriminate.
Qed.

Lemma inserts_local : forall o id path f0 fs d s' d',
  run sexec (new o id path, d) (map SInsert (f0 :: fs)) = Ok (s', d') ->
  map snd (map skel (sm_frames s')) = map (fun f => gmul (ginv (fr_global f0)) (fr_global f)) (f0 :: fs).
Proof.
  intros o id path f0 fs d s' d' H. cbn [map run] in H. ib H. destruct a as [s1 d1].
  cbn [SubmapModel.sexec] in E. ib E. injection E as -> <-.
  apply insert_facts in E0. destruct E0 as (_ & K & _ & _ & _ & Hg & _).
  assert (map skel (sm_frames s1) = map skel (sm_frames (new o id path)) ++ [(new_id (new o id path), new_local (new o id path) f0)]) as Ks.
  { assert (forall l : list frame, map skel l = map (fun p => (fst (fst p), snd (fst p))) (map key l)) as R
      by (intros l; rewrite map_map; reflexivity).
    rewrite !R, K, map_app. reflexivity. }
  apply inserts_nonempty in H.
  - rewrite H, Ks. cbn. rewrite Hg. cbn. rewrite ginv_l. reflexivity.
  - intros Kn. rewrite Kn in Ks. discriminate.
Qed.

Lemma update_spec : forall s d s' d', sexec (s, d) SUpdateFrames = Ok (s', d') ->
  forall k f, nth_error (sm_frames s') k = Some f -> fr_global f = gmul (sm_global s') (fr_local f).
Proof.
  intros s d s' d' H k f Hk. cbn in H. injection H as <- <-. cbn in *.
  rewrite nth_error_map in Hk. destruct (nth_error (sm_frames s) k); [|discriminate].
  injection Hk as <-. reflexivity.
Qed.

(** ** C31, C32: the cloud *)
Definition Inv (s : submap) : Prop :=
  (sm_full s = true -> exists c, sm_cloud s = Some c) /\
  (sm_matched s = false -> forall c, sm_cloud s = Some c -> in_memory c = true /\ c_points (inner c) <> []).

Lemma clear_mem : forall (c : store string), in_memory (clear stamp0 c) = false.
Proof. intros c. unfold clear. destruct (in_memory c) eqn:E; cbn; [reflexivity|exact E]. Qed.

Lemma tick_resident : forall s n s', tick G stamp0 s n = Ok s' ->
  o_disk (sm_opt s) = false \/ sm_matched s = false -> s' = s.
Proof.
  intros s n s' H [K|K]; unfold tick in H; rewrite K in H; cbn in H.
  - congruence.
  - rewrite orb_true_r in H. congruence.
Qed.

Lemma matched_only : forall s d o s' d', sexec (s, d) o = Ok (s', d') -> ~ is_matched o ->
  sm_matched s' = sm_matched s.
Proof.
  intros s d o s' d' H Hn. destruct o; cbn [SubmapModel.sexec] in H; try (exfalso; apply Hn; exact I).
  - ib H. injection H as <- <-. apply insert_facts in E. apply E.
  - injection H as <- <-. reflexivity.
  - injection H as <- <-. reflexivity.
  - ib H. injection H as <- <-. unfold access in E. destruct (sm_cloud s); [|discriminate]. ib E. injection E as <-. reflexivity.
  - ib H. injection H as <- <-. unfold tick in E. destruct (_ || _); [injection E as <-; reflexivity|].
    destruct (sm_cloud s); [|discriminate]. destruct (_ <? _); injection E as <-; reflexivity.
  - ib H. injection H as <- <-. unfold clear_frames in E. ib E. injection E as <-. reflexivity.
  - injection H as <- <-. reflexivity.
Qed.

(** As long as disk saving is off, or the submap is not matched, the cloud object once built
    is the same and in memory. *)
Definition keeps (s s' : submap) : Prop :=
  forall c, sm_cloud s = Some c -> in_memory c = true -> sm_cloud s' = Some c \/ sm_full s = false.

Lemma unmatched_keeps : forall s d o s' d', sexec (s, d) o = Ok (s', d') -> sm_full s = true ->
  o_disk (sm_opt s) = false \/ (sm_matched s = false /\ ~ is_matched o) ->
  forall c, sm_cloud s = Some c -> in_memory c = true -> sm_cloud s' = Some c.
Proof.
  intros s d o s' d' H Hf Hd c Hc Hm. destruct o; cbn [SubmapModel.sexec] in H.
  - ib H. injection H as <- <-. apply insert_facts in E. destruct E as (E & _). congruence.
  - injection H as <- <-. exact Hc.
  - injection H as <- <-. exact Hc.
  - destruct Hd as [Hd|[_ Hd]]; [|exfalso; apply Hd; exact I].
    unfold set_matched in H. ib H. rewrite Hd in H. injection H as <- <-. exact Hc.
  - ib H. injection H as <- <-. unfold access in E. rewrite Hc in E. ib E. injection E as <-. cbn.
    unfold cloud_in_memory in E0. rewrite Hm in E0. injection E0 as <-. reflexivity.
  - ib H. injection H as <- <-. apply tick_resident in E; [congruence|]. destruct Hd as [|[]]; auto.
  - ib H. injection H as <- <-. unfold clear_frames in E. ib E. injection E as <-. exact Hc.
  - injection H as <- <-. exact Hc.
Qed.

Lemma off_resident : forall ops s d s' d' c, run sexec (s, d) ops = Ok (s', d') ->
  sm_full s = true -> sm_cloud s = Some c -> in_memory c = true ->
  o_disk (sm_opt s) = false \/ (sm_matched s = false /\ Forall (fun o => ~ is_matched o) ops) ->
  sm_cloud s' = Some c.
Proof.
  induction ops as [|o ops IH]; intros s d s' d' c H Hf Hc Hm Hd; cbn [run] in H; [injection H as <- <-; exact Hc|].
  ib H. destruct a as [s1 d1].
  assert (sm_cloud s1 = Some c) as Hc1.
  { eapply unmatched_keeps; try eassumption. destruct Hd as [|[H1 H2]]; [auto|]. inversion H2; auto. }
  pose proof (step_facts _ _ _ _ _ E) as (F1 & _ & _ & _ & _ & F6).
  assert (sm_full s1 = true) as Hf1.
  { destruct o; destruct F6 as [_ F6]; try congruence. destruct F6; congruence. }
  eapply IH; [exact H|exact Hf1|exact Hc1|exact Hm|]. rewrite F1.
  destruct Hd as [|[H1 H2]]; [auto|]. right. inversion H2; subst. split; [|assumption].
  rewrite (matched_only _ _ _ _ _ E); assumption.
Qed.

(** Idle ticks. *)
Lemma wrap32_id : forall z, - 2 ^ 31 <= z < 2 ^ 31 -> wrap32 z = z.
Proof. intros z H. unfold wrap32. rewrite Z.mod_small; lia. Qed.

Fixpoint sum (l : list Z) : Z := match l with [] => 0 | x :: r => x + sum r end.

Lemma sum_nonneg : forall ns, Forall (fun n => 0 <= n) ns -> 0 <= sum ns.
Proof. induction 1; cbn; lia. Qed.

Lemma ticks : forall ns s d c, o_disk (sm_opt s) = true -> sm_matched s = true ->
  sm_cloud s = Some c -> 0 <= sm_inactive s -> Forall (fun n => 0 <= n) ns ->
  sm_inactive s + sum ns < 2 ^ 31 -> 0 <= o_delay (sm_opt s) ->
  (in_memory c = true <-> sm_inactive s <= o_delay (sm_opt s)) ->
  exists s', run sexec (s, d) (map STick ns) = Ok (s', d) /\
    (resident s' <-> sm_inactive s + sum ns <= o_delay (sm_opt s)).
Proof.
  induction ns as [|n ns IH]; intros s d c Hd Hm Hc Hi Hns Hs Hde Hmem.
  - exists s. split; [reflexivity|]. cbn. rewrite Z.add_0_r, <- Hmem. unfold resident.
    split; [intros (c' & K & ?); congruence|eauto].
  - cbn [sum] in Hs. inversion Hns; subst. pose proof (sum_nonneg ns H2).
    cbn [map run SubmapModel.sexec]. unfold tick. rewrite Hd, Hm, Hc. cbn [negb orb].
    rewrite wrap32_id by lia. destruct (Z.ltb_spec (o_delay (sm_opt s)) (sm_inactive s + n)).
    + cbn [bind]. destruct (IH (with_cloud G s (sm_inactive s + n) (clear stamp0 c)) d (clear stamp0 c)) as (s' & R & K);
        cbn; try assumption; try reflexivity; try lia.
      { rewrite clear_mem. split; [discriminate|lia]. }
      exists s'. split; [exact R|]. rewrite K. cbn. rewrite Z.add_assoc. reflexivity.
    + cbn [bind]. destruct (IH (with_cloud G s (sm_inactive s + n) c) d c) as (s' & R & K);
        cbn; try assumption; try reflexivity; try lia.
      exists s'. split; [exact R|]. rewrite K. cbn. rewrite Z.add_assoc. reflexivity.
Qed.

(** The saved cloud. *)
Definition Saved (P : cloud) (s : submap) (d : disk string) : Prop :=
  sm_full s = true /\
  exists c, sm_cloud s = Some c /\ (in_memory c = true -> inner c = P) /\
    (in_memory c = false -> c_points (inner c) = []) /\
    (in_memory c = false \/ sm_matched s = true /\ o_disk (sm_opt s) = true ->
       filename c = Some (own_file s) /\ d (own_file s) = Some (serialize P)).

Lemma eqb_spec' : forall a b, String.eqb a b = true <-> a = b.
Proof. apply String.eqb_eq. Qed.

Lemma save_frames_disk : forall path fs d x g, save_frames G stamp0 path d fs = Ok x ->
  Forall (fun f => append path (frame_file (fr_id f)) <> g) fs -> snd x g = d g.
Proof.
  induction fs as [|f fs IH]; intros d x g H Hf; cbn [save_frames] in H; [injection H as <-; reflexivity|].
  inversion Hf; subst. destruct (fr_cloud f) as [c|]; [|discriminate]. ib H. ib H. injection H as <-. cbn [snd].
  apply (IH _ _ g) in E0; [|assumption]. rewrite E0. unfold save in E. ib E. injection E as <-. cbn [snd].
  unfold write. destruct (String.eqb_spec g (append path (frame_file (fr_id f)))); [congruence|reflexivity].
Qed.

Lemma cloud_reload : forall P (c : store string) d g, cloud_ok limit P -> c_points P <> [] ->
  in_memory c = false -> filename c = Some g -> d g = Some (serialize P) ->
  exists c' : store string, cloud_in_memory limit stamp0 c d = Ok c' /\ inner c' = P /\ in_memory c' = true /\ filename c' = Some g.
Proof.
  intros P c d g HP Hne Hm Hf Hd. unfold cloud_in_memory. rewrite Hm, Hf, Hd.
  rewrite <- (app_nil_r (serialize P)). rewrite round_trip by assumption. cbn [bind snd].
  unfold set_inner. destruct (c_points P) eqn:Ep; [congruence|]. cbn.
  eexists. split; [reflexivity|]. cbn. auto.
Qed.

Lemma saved_step : forall P s d o s' d', cloud_ok limit P -> c_points P <> [] -> Saved P s d ->
  names_apart s -> ids_from 0 (map skel (sm_frames s)) (sm_id s) -> spares s o ->
  sexec (s, d) o = Ok (s', d') -> Saved P s' d'.
Proof.
  intros P s d o s' d' HP Hne (Hf & c & Hc & Hin & Hem & Hout) Hna Hids Hsp H.
  pose proof (step_facts _ _ _ _ _ H) as (F1 & F2 & F3 & F4 & F5 & F6).
  assert (own_file s' = own_file s) as Ho by (unfold own_file; congruence).
  split.
  { destruct o; destruct F6 as [_ F6]; try congruence. destruct F6; congruence. }
  rewrite Ho, F1. destruct o; cbn [SubmapModel.sexec] in H.
  - ib H. injection H as <- <-. apply insert_facts in E. destruct E as (E & _). congruence.
  - injection H as <- <-. exists c. auto.
  - injection H as <- <-. exists c. auto.
  - unfold set_matched in H. ib H. apply check_Ok in E. destruct (o_disk (sm_opt s)) eqn:Ed.
    + rewrite Hc in H. ib H. ib H. injection H as <- <-. cbn.
      unfold save in E0. ib E0. injection E0 as <-. cbn [fst snd] in *.
      apply check_Ok in E2.
      assert (in_memory c = true) as Hm.
      { destruct (in_memory c) eqn:Em; [reflexivity|]. exfalso. unfold is_empty in E2.
        rewrite (Hem eq_refl) in E2. discriminate. }
      rewrite (Hin Hm) in *. eexists. split; [reflexivity|]. cbn. split; [auto|].
      split; [congruence|]. intros _. split; [reflexivity|].
      apply (save_frames_disk _ _ _ _ (own_file s)) in E1.
      * rewrite E1. apply write_same. apply eqb_spec'.
      * apply Forall_forall. intros f Hfin K. unfold own_file in K. apply append_cancel in K.
        apply In_nth_error in Hfin. destruct Hfin as [k Hk].
        apply key_skel in Hk. apply Hids in Hk. cbn in Hk. rewrite Hk in K. apply (Hna (Z.of_nat k)). symmetry. exact K.
    + injection H as <- <-. cbn. exists c. split; [exact Hc|]. split; [exact Hin|]. split; [exact Hem|].
      intros [K|[_ K]]; [auto|discriminate].
  - ib H. injection H as <- <-. unfold access in E. rewrite Hc in E. ib E. injection E as <-. cbn.
    destruct (in_memory c) eqn:Em.
    + unfold cloud_in_memory in E0. rewrite Em in E0. injection E0 as <-. exists c. rewrite Em. auto.
    + destruct (Hout (or_introl eq_refl)) as [O1 O2].
      destruct (cloud_reload P c d _ HP Hne Em O1 O2) as (c' & R & R1 & R2 & R3).
      rewrite R in E0. injection E0 as <-. exists c'. rewrite R2. split; [reflexivity|]. split; [auto|].
      split; [discriminate|]. auto.
  - ib H. injection H as <- <-. unfold tick in E.
    destruct (negb (o_disk (sm_opt s)) || negb (sm_matched s)) eqn:Ec; [injection E as <-; exists c; auto|].
    rewrite Hc in E. apply orb_false_iff in Ec. destruct Ec as [Ec1 Ec2]. apply negb_false_iff in Ec1, Ec2.
    destruct (_ <? _); injection E as <-; cbn.
    + eexists. split; [reflexivity|]. rewrite clear_mem. split; [discriminate|].
      unfold clear. destruct (in_memory c) eqn:Em; cbn; split; auto.
    + exists c. auto.
  - ib H. injection H as <- <-. unfold clear_frames in E. ib E. injection E as <-. exists c. auto.
  - injection H as <- <-. exists c. split; [exact Hc|]. split; [exact Hin|]. split; [exact Hem|].
    intros K. destruct (Hout K) as [O1 O2]. split; [exact O1|]. cbn in Hsp.
    rewrite write_other; [exact O2|apply eqb_spec'|congruence].
Qed.

Lemma saved_run : forall P ops s d s' d', cloud_ok limit P -> c_points P <> [] -> Saved P s d ->
  names_apart s -> ids_from 0 (map skel (sm_frames s)) (sm_id s) -> Forall (spares s) ops ->
  run sexec (s, d) ops = Ok (s', d') -> Saved P s' d'.
Proof.
  intros P. induction ops as [|o ops IH]; intros s d s' d' HP Hne HS Hna Hids Hsp H; cbn [run] in H.
  - injection H as <- <-. exact HS.
  - inversion Hsp; subst. ib H. destruct a as [s1 d1].
    pose proof (step_facts _ _ _ _ _ E) as (F1 & F2 & F3 & F4 & F5 & F6).
    eapply IH; [exact HP|exact Hne| | | | |exact H].
    + eapply saved_step; eassumption.
    + intros k. rewrite F3, F2. apply Hna.
    + rewrite F2. destruct HS as [Hfull _].
      destruct o; destruct F6 as [F6 F7]; rewrite F6; try exact Hids. destruct F7; congruence.
    + eapply Forall_impl; [|exact H3]. intros o' Ho'. unfold spares in *. destruct o'; auto.
      unfold own_file in *. congruence.
Qed.

Lemma access_saved : forall P s d, cloud_ok limit P -> c_points P <> [] -> Saved P s d ->
  exists s' c, sexec (s, d) SAccess = Ok (s', d) /\ sm_cloud s' = Some c /\ inner c = P /\
    in_memory c = true /\ sm_inactive s' = 0.
Proof.
  intros P s d HP Hne (Hf & c & Hc & Hin & Hem & Hout). cbn [SubmapModel.sexec]. unfold access. rewrite Hc.
  destruct (in_memory c) eqn:Em.
  - unfold cloud_in_memory. rewrite Em. cbn. eexists; exists c. split; [reflexivity|]. cbn. auto.
  - destruct (Hout (or_introl eq_refl)) as [O1 O2].
    destruct (cloud_reload P c d _ HP Hne Em O1 O2) as (c' & R & R1 & R2 & R3).
    rewrite R. cbn. eexists; exists c'. split; [reflexivity|]. cbn. auto.
Qed.

(** ** C32 *)
Definition Ready (s : submap) : Prop :=
  Forall frame_ok (sm_frames s) /\
  (sm_full s = true -> sm_matched s = false ->
    (exists c, sm_cloud s = Some c /\ in_memory c = true /\ c_points (inner c) <> []) /\
    Forall good_frame (sm_frames s)).

Lemma frame_cloud_good : forall d f f', frame_ok f -> frame_cloud G limit stamp0 d f = Ok f' -> good_frame f'.
Proof.
  intros d f f' (c & Hc & Hm) H. unfold frame_cloud in H. rewrite Hc in H. ib H. injection H as <-.
  exists a. split; [reflexivity|]. unfold cloud_in_memory in E. destruct (in_memory c) eqn:Em.
  - injection E as <-. auto.
  - destruct (filename c); [|discriminate]. destruct (d s); [|discriminate]. ib E.
    unfold set_inner in E. ib E. apply check_Ok in E1. injection E as <-. cbn. split; [reflexivity|].
    intros K. rewrite K in E1. discriminate.
Qed.
Lemma add_clouds_good : forall chk d fs acc x, Forall frame_ok fs ->
  add_clouds G move finite limit stamp0 chk d fs acc = Ok x -> Forall good_frame (fst x).
Proof.
  induction fs as [|f fs IH]; intros acc x Hf H; cbn in H; [injection H as <-; constructor|].
  inversion Hf; subst. ib H. ib H. ib H. injection H as <-. cbn. constructor; [eapply frame_cloud_good; eassumption|eauto].
Qed.
Lemma check_clouds_good : forall chk d fs x, Forall frame_ok fs ->
  check_clouds G move finite limit stamp0 chk d fs = Ok x -> Forall good_frame x.
Proof.
  induction fs as [|f fs IH]; intros x Hf H; cbn in H; [injection H as <-; constructor|].
  inversion Hf; subst. ib H. ib H. ib H. injection H as <-. constructor; [eapply frame_cloud_good; eassumption|eauto].
Qed.
Lemma good_ok : forall f : frame, good_frame f -> frame_ok f.
Proof. intros f (c & H1 & H2 & H3). exists c. auto. Qed.

Lemma ready_step : forall s d o s' d', Ready s -> insert_ok o -> ~ is_clear o ->
  sexec (s, d) o = Ok (s', d') -> Ready s'.
Proof.
  intros s d o s' d' [R1 R2] Hi Hc H. destruct o; cbn [SubmapModel.sexec] in H.
  - ib H. injection H as <- <-. pose proof (insert_facts _ _ _ _ E) as F.
    unfold insert_frame in E. ib E. clear E0.
    match type of E with (if _ then finish _ _ _ _ _ _ _ (mkSub _ _ ?l _ _ _ _ _ _ _ _ _) _ else _) = _ =>
      assert (Forall frame_ok l) as Hl end.
    { apply Forall_app. split; [exact R1|]. constructor; [|constructor].
      destruct Hi as (c & Hc1 & Hc2). exists c. cbn. auto. }
    destruct (_ =? _) eqn:Ef.
    + destruct F as (_ & _ & _ & _ & F4 & _ & F6 & _ & _ & _ & _ & F11).
      unfold finish in E. cbn [sm_opt sm_frames sm_id sm_full sm_global sm_stamp sm_matched sm_next sm_inactive sm_name sm_path] in E.
      ib E. ib E. ib E. injection E as <-.
      cbn [sm_frames sm_full sm_matched sm_cloud] in *.
      assert (Forall good_frame (fst a1)) as Hg.
      { destruct (o_mrvm (sm_opt s)).
        - ib E0. injection E0 as <-. eapply check_clouds_good; eassumption.
        - apply bind_Ok in E0. destruct E0 as (y & Ey & E0).
          destruct (fst y) eqn:Ea; [discriminate|]. injection E0 as <-. cbn [fst].
          rewrite <- Ea. eapply add_clouds_good; eassumption. }
      split; cbn [sm_frames sm_full sm_matched sm_cloud].
      * eapply Forall_impl; [apply good_ok|exact Hg].
      * intros _ _. split; [apply F11; reflexivity|exact Hg].
    + injection E as <-. split; cbn; [exact Hl|discriminate].
  - injection H as <- <-. split; assumption.
  - injection H as <- <-. split; cbn.
    + apply Forall_map. eapply Forall_impl; [|exact R1]. intros f (c & K1 & K2). exists c. auto.
    + intros K1 K2. destruct (R2 K1 K2) as [K3 K4]. split; [exact K3|].
      apply Forall_map. eapply Forall_impl; [|exact K4]. intros f (c & K5 & K6). exists c. auto.
  - unfold set_matched in H. ib H. apply check_Ok in E. destruct (o_disk (sm_opt s)).
    + destruct (sm_cloud s); [|discriminate]. ib H. ib H. injection H as <- <-.
      split; cbn; [|discriminate]. clear -E1. revert E1. generalize (snd a0), (sm_path s). clear.
      intros d path. revert d a1. induction (sm_frames s) as [|f fs IH]; intros d x H; cbn in H.
      * injection H as <-. constructor.
      * destruct (fr_cloud f) as [c|]; [|discriminate]. ib H. ib H. injection H as <-. cbn.
        constructor; [|eapply IH; eassumption]. unfold clear_frame. cbn. eexists. split; [reflexivity|].
        rewrite clear_mem. discriminate.
    + injection H as <- <-. split; cbn; [exact R1|discriminate].
  - ib H. injection H as <- <-. unfold access in E. destruct (sm_cloud s) as [c|] eqn:Ec; [|discriminate].
    ib E. injection E as <-. split; cbn; [exact R1|]. intros K1 K2. destruct (R2 K1 K2) as [(c' & K3 & K4 & K5) K6].
    split; [|exact K6]. injection K3 as <-. unfold cloud_in_memory in E0. rewrite K4 in E0. injection E0 as <-. eauto.
  - ib H. injection H as <- <-. unfold tick in E.
    destruct (negb (o_disk (sm_opt s)) || negb (sm_matched s)) eqn:Ec; [injection E as <-; split; assumption|].
    apply orb_false_iff in Ec. destruct Ec as [_ Ec2]. apply negb_false_iff in Ec2.
    destruct (sm_cloud s); [|discriminate]. destruct (_ <? _); injection E as <-; split; cbn; auto; congruence.
  - exfalso. apply Hc. exact I.
  - injection H as <- <-. split; assumption.
Qed.

Lemma ready_run : forall ops s d s' d', Ready s -> Forall (fun o => insert_ok o /\ ~ is_clear o) ops ->
  run sexec (s, d) ops = Ok (s', d') -> Ready s'.
Proof.
  induction ops as [|o ops IH]; intros s d s' d' HR Hf H; cbn [run] in H; [injection H as <- <-; exact HR|].
  inversion Hf as [|? ? [Ho1 Ho2] Hf']; subst. ib H. destruct a as [s1 d1]. eapply IH; [|exact Hf'|exact H].
  eapply ready_step; eassumption.
Qed.

Lemma save_frames_ok : forall path fs d, Forall good_frame fs -> exists x, save_frames G stamp0 path d fs = Ok x.
Proof.
  induction fs as [|f fs IH]; intros d H; cbn; [eauto|].
  inversion H as [|? ? (c & K1 & K2 & K3) H']; subst. rewrite K1. unfold save, is_empty.
  destruct (c_points (inner c)) eqn:Ep; [congruence|]. cbn.
  match goal with |- context [save_frames _ _ _ ?dd fs] => destruct (IH dd H') as [x Hx]; rewrite Hx end.
  cbn. eauto.
Qed.
Lemma matched_ok : forall s d t, Ready s -> sm_full s = true -> sm_matched s = false ->
  exists s' d', sexec (s, d) (SMatched t) = Ok (s', d') /\ sm_matched s' = true /\ sm_next s' = t.
Proof.
  intros s d t [_ R] Hf Hm. destruct (R Hf Hm) as [(c & Hc & Hcm & Hp) Hg].
  cbn [SubmapModel.sexec]. unfold set_matched. rewrite Hm. cbn [negb check bind].
  destruct (o_disk (sm_opt s)).
  - rewrite Hc. unfold save, is_empty. destruct (c_points (inner c)) eqn:Ep; [congruence|]. cbn [List.length Nat.eqb negb check bind fst snd].
    match goal with |- context [save_frames _ _ ?p ?dd ?fs] => destruct (save_frames_ok p fs dd Hg) as [x Hx]; rewrite Hx end.
    cbn. eexists; eexists. split; [reflexivity|]. auto.
  - eexists; eexists. split; [reflexivity|]. auto.
Qed.

(** ** C72: the cloud of a full submap *)
Lemma add_clouds_points : forall chk d fs acc x, Forall good_frame fs ->
  add_clouds G move finite limit stamp0 chk d fs acc = Ok x ->
  fst x = fs /\
  snd x = acc ++ flat_map (fun f => map (move (fr_local f)) (c_points (frame_points stamp0 f))) fs.
Proof.
  induction fs as [|f fs IH]; intros acc x Hg H; cbn in H; [injection H as <-; cbn; rewrite app_nil_r; auto|].
  inversion Hg as [|? ? (c & K1 & K2 & K3) Hg']; subst. ib H. ib H. ib H. injection H as <-.
  assert (a = f) as ->.
  { unfold frame_cloud in E. rewrite K1 in E. unfold cloud_in_memory in E. rewrite K2 in E. cbn in E.
    injection E as <-. destruct f; cbn in *; congruence. }
  destruct (IH _ _ Hg' E1) as [I1 I2]. cbn. rewrite I1, I2. rewrite <- app_assoc. auto.
Qed.

Lemma full_cloud : forall s d f s', Forall good_frame (sm_frames s) -> good_frame f ->
  o_mrvm (sm_opt s) = false -> o_voxel (sm_opt s) = false ->
  insert_frame G move finite voxel kept_cols limit stamp0 s d f = Ok s' -> sm_full s' = true ->
  exists c, sm_cloud s' = Some c /\
    c_points (inner c) = flat_map (fun f => map (move (fr_local f)) (c_points (frame_points stamp0 f))) (sm_frames s') /\
    (exists f0 r, sm_frames s' = f0 :: r /\ c_stamp (inner c) = c_stamp (frame_points stamp0 f0)).
Proof.
  intros s d f s' Hg Hgf Hm Hv H Hfull. pose proof (insert_facts _ _ _ _ H) as F.
  destruct F as (_ & _ & _ & _ & F4 & _). rewrite Hfull in F4. symmetry in F4.
  unfold insert_frame in H. ib H. rewrite app_length in H. cbn [List.length] in H. rewrite Nat.add_1_r in H.
  rewrite F4 in H. unfold finish in H.
  cbn [sm_opt sm_frames sm_id sm_full sm_global sm_stamp sm_matched sm_next sm_inactive sm_name sm_path] in H.
  rewrite Hm, Hv in H. ib H. ib E0.
  apply add_clouds_points in E1.
  2:{ apply Forall_app. split; [exact Hg|]. constructor; [|constructor]. destruct Hgf as (c & K1 & K2). exists c. auto. }
  destruct E1 as [I1 I2].
  destruct (fst a1) as [|f0 r] eqn:Ef; [discriminate|]. injection E0 as <-. cbn [fst snd c_points andb] in H.
  ib H. ib H. injection H as <-. cbn [sm_cloud sm_frames].
  unfold make, set_inner in E1. ib E1. injection E1 as <-. cbn.
  eexists. split; [reflexivity|]. cbn. split; [|exists f0, r; auto].
  rewrite I2, <- I1. reflexivity.
Qed.

Lemma mrvm_never_full : forall s d f s', o_mrvm (sm_opt s) = true ->
  insert_frame G move finite voxel kept_cols limit stamp0 s d f = Ok s' -> sm_full s' = false.
Proof.
  intros s d f s' Hm H. unfold insert_frame in H. ib H. destruct (_ =? _) eqn:Ef; [|injection H as <-; reflexivity].
  exfalso. unfold finish in H.
  cbn [sm_opt sm_frames sm_id sm_full sm_global sm_stamp sm_matched sm_next sm_inactive sm_name sm_path] in H.
  rewrite Hm in H. ib H. ib E0. injection E0 as <-. cbn [snd fst] in H. ib H. ib H.
  cbn [c_points List.length Nat.eqb negb andb] in E2. rewrite andb_false_r in E2. discriminate.
Qed.
End P.
