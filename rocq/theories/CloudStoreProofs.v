From Coq Require Import List Bool ZArith Lia.
From Verif Require Import Outcome CloudFileModel CloudFileSpec CloudFileProofs CloudStoreModel CloudStoreSpec.
Import ListNotations.

Section P.
Variable name : Type.
Variable name_eqb : name -> name -> bool.
Hypothesis name_eqb_spec : forall a b, name_eqb a b = true <-> a = b.
Variable motion : Type.
Variable move : motion -> point -> point.
Variable limit : Z.
Variable stamp0 : stamp.
Notation exec := (exec name_eqb move limit stamp0).
Notation store := (store name).
Notation disk := (disk name).

Lemma write_same : forall (d : disk) f b, write name_eqb d f b f = Some b.
Proof. intros. unfold write. rewrite (proj2 (name_eqb_spec f f) eq_refl). reflexivity. Qed.
Lemma write_other : forall (d : disk) f g b, g <> f -> write name_eqb d f b g = d g.
Proof.
  intros d f g b H. unfold write. destruct (name_eqb g f) eqn:E; [|reflexivity].
  apply name_eqb_spec in E. contradiction.
Qed.

Lemma run_app_ : forall (l1 l2 : list (op name motion)) sd,
  run exec sd (l1 ++ l2) = bind (run exec sd l1) (fun sd' => run exec sd' l2).
Proof.
  intros l1. induction l1 as [|o l1 IH]; intros l2 sd; [reflexivity|].
  cbn [app run]. destruct (exec sd o); cbn [bind]; try reflexivity. apply IH.
Qed.

(** The file holds the bytes of [c] and the object points to it. *)
Definition holds (f : name) (c : cloud) (sd : store * disk) : Prop :=
  filename (fst sd) = Some f /\ snd sd f = Some (serialize c).

Definition dead (s : store) : Prop := in_memory s = false.

Lemma harmless_keeps : forall f c o sd sd', holds f c sd -> harmless f o ->
  exec sd o = Ok sd' -> holds f c sd'.
Proof.
  intros f c o [s d] [s' d'] [H1 H2] Hh E. unfold holds in *. cbn [fst snd] in *.
  destruct o; cbn in *; try contradiction.
  - inversion E; subst. unfold clear. destruct (in_memory s); auto.
  - unfold transform in E. destruct (eigen_transform (eig s)); cbn in E; try discriminate.
    inversion E; subst; auto.
  - inversion E; subst; auto.
  - unfold cloud_in_memory in E. destruct (in_memory s); cbn in E; [inversion E; subst; auto|].
    rewrite H1, H2 in E. destruct (deserialize limit _ _); cbn in E; try discriminate.
    unfold set_inner in E. destruct (check _); cbn in E; try discriminate.
    inversion E; subst; auto.
  - inversion E; subst. rewrite write_other by (intros K; apply Hh; congruence). auto.
Qed.

Lemma harmless_run : forall f c ops sd sd', holds f c sd -> Forall (harmless f) ops ->
  run exec sd ops = Ok sd' -> holds f c sd'.
Proof.
  intros f c ops. induction ops as [|o ops IH]; intros sd sd' H Hf E; cbn in E; [congruence|].
  inversion Hf; subst. destruct (exec sd o) eqn:Eo; cbn in E; try discriminate.
  eapply IH; [|eassumption|eassumption]. eapply harmless_keeps; eassumption.
Qed.

(** State after a clear followed by passive calls: either evicted or exactly the saved
    cloud. *)
Definition evicted (f : name) (c : cloud) (sd : store * disk) : Prop :=
  holds f c sd /\ (in_memory (fst sd) = false \/ inner (fst sd) = c).

Lemma read_evicted : forall f c sd, cloud_ok limit c -> c_points c <> [] -> evicted f c sd ->
  exists sd', exec sd ORead = Ok sd' /\ inner (fst sd') = c /\ in_memory (fst sd') = true /\ holds f c sd' /\
    (in_memory (fst sd) = false -> e_normals (eig (fst sd')) = 0%nat /\ time_ (fst sd') = c_stamp c).
Proof.
  intros f c [s d] Hok Hne [[H1 H2] H3]. cbn [fst snd] in *. cbn [CloudStoreModel.exec].
  unfold cloud_in_memory. destruct (in_memory s) eqn:Em.
  - cbn. eexists. split; [reflexivity|]. cbn.
    split; [destruct H3; [discriminate|assumption]|]. split; [assumption|]. split; [split; assumption|].
    discriminate.
  - rewrite H1, H2. rewrite <- (app_nil_r (serialize c)).
    rewrite round_trip by assumption. cbn [bind snd]. unfold set_inner.
    destruct (c_points c) eqn:Ep; [congruence|]. cbn. eexists. split; [reflexivity|]. cbn.
    split; [reflexivity|]. split; [reflexivity|]. split; [split; cbn; [assumption|]|auto].
    exact H2.
Qed.

Lemma passive_evicted : forall f c o sd sd', cloud_ok limit c -> c_points c <> [] ->
  evicted f c sd -> passive f o -> exec sd o = Ok sd' -> evicted f c sd'.
Proof.
  intros f c o sd sd' Hok Hne He Hp E. split.
  - eapply harmless_keeps; [apply He| |exact E]. destruct o; cbn in *; auto.
  - destruct He as [Hh Hm].
    destruct o; try contradiction.
    + destruct sd as [s d]. cbn in E. inversion E; subst. cbn. left. unfold clear.
      destruct (in_memory s) eqn:Em; cbn; [reflexivity|assumption].
    + destruct sd as [s d]. cbn in E. inversion E; subst. cbn in *. assumption.
    + destruct (read_evicted f c sd Hok Hne (conj Hh Hm)) as (sd'' & E'' & R & _).
      rewrite E in E''. inversion E''; subst. auto.
    + destruct sd as [s d]. cbn in E. inversion E; subst. cbn in *. assumption.
Qed.

Lemma passive_total : forall f c ops sd, cloud_ok limit c -> c_points c <> [] ->
  evicted f c sd -> Forall (passive f) ops ->
  exists sd', run exec sd ops = Ok sd' /\ evicted f c sd'.
Proof.
  intros f c ops. induction ops as [|o ops IH]; intros sd Hok Hne He Hf; cbn; [eauto|].
  inversion Hf; subst.
  assert (exists sd1, exec sd o = Ok sd1) as [sd1 E1].
  { destruct o; try contradiction; destruct sd as [s d]; cbn; eauto.
    destruct (read_evicted f c (s, d) Hok Hne He) as (sd'' & E'' & _). cbn in E''. eauto. }
  rewrite E1. cbn. apply IH; try assumption. eapply passive_evicted; eassumption.
Qed.

Lemma save_clear_read : forall s d f c mods after sd1,
  cloud_ok limit (inner s) -> inner s = c ->
  Forall (harmless f) mods ->
  run exec (s, d) (OSave f :: mods) = Ok sd1 ->
  in_memory (fst sd1) = true ->
  Forall (passive f) after ->
  exists sd2, run exec sd1 (OClear :: after ++ [ORead]) = Ok sd2 /\
    inner (fst sd2) = c /\ in_memory (fst sd2) = true.
Proof.
  intros s d f c mods after sd1 Hok <- Hm E Him Ha. cbn [run] in E.
  cbn [CloudStoreModel.exec] in E. unfold save in E.
  destruct (is_empty s) eqn:Ee; cbn in E; [discriminate|].
  assert (c_points (inner s) <> []) as Hne.
  { unfold is_empty in Ee. destruct (c_points (inner s)); [discriminate|congruence]. }
  apply (harmless_run f (inner s)) in E; [|split; cbn; [reflexivity|apply write_same]|assumption].
  destruct sd1 as [s1 d1]. cbn [run CloudStoreModel.exec bind].
  assert (evicted f (inner s) (clear stamp0 s1, d1)) as He.
  { destruct E as [E1 E2]. cbn [fst snd] in *. split; cbn [fst snd].
    - split; cbn [fst snd]; [|assumption]. unfold clear. destruct (in_memory s1); assumption.
    - left. unfold clear. cbn in Him. rewrite Him. reflexivity. }
  rewrite run_app_.
  destruct (passive_total f (inner s) after _ Hok Hne He Ha) as (sd3 & E3 & He3).
  rewrite E3. cbn [bind run].
  destruct (read_evicted f (inner s) sd3 Hok Hne He3) as (sd4 & E4 & R1 & R2 & _).
  rewrite E4. cbn. eauto.
Qed.

Lemma clear_unsaved_aborts : forall s (d : disk), filename s = None -> in_memory s = true ->
  run exec (s, d) [OClear; ORead] = Abort.
Proof.
  intros s d H1 H2. cbn. unfold clear. rewrite H2. cbn. rewrite H1. reflexivity.
Qed.

Lemma transform_evicted_aborts : forall s (d : disk) T, in_memory s = true ->
  run exec (s, d) [OClear; OTransform T] = Abort.
Proof. intros s d T H. cbn. unfold clear. rewrite H. reflexivity. Qed.

Lemma normals_lost : forall s d f kept sd, cloud_ok limit (inner s) ->
  in_memory s = true ->
  run exec (s, d) [ONormals kept; OSave f; OClear; ORead] = Ok sd ->
  inner (fst sd) = inner s /\ icp_set_target (fst sd) = Abort.
Proof.
  intros s d f kept sd Hok Hm E. cbn [run CloudStoreModel.exec bind] in E.
  unfold save in E. unfold calculate_normals, is_empty in E. cbn [inner] in E.
  destruct (Nat.eqb (length (c_points (inner s))) 0) eqn:Ee; cbn [negb check bind] in E; [discriminate|].
  cbn [run CloudStoreModel.exec bind] in E.
  unfold clear in E. cbn [in_memory] in E. rewrite Hm in E. cbn [negb] in E.
  cbn [run CloudStoreModel.exec bind] in E.
  assert (c_points (inner s) <> []) as Hne by (destruct (c_points (inner s)); [discriminate|congruence]).
  match type of E with bind (bind (cloud_in_memory _ _ ?s0 ?d0) _) _ = _ =>
    destruct (read_evicted f (inner s) (s0, d0) Hok Hne) as (sd' & E' & R1 & R2 & R3 & R4) end.
  { split; cbn; [|auto]. split; cbn; [reflexivity|apply write_same]. }
  cbn [CloudStoreModel.exec] in E'. rewrite E' in E. cbn in E. inversion E; subst.
  split; [assumption|]. destruct (R4 eq_refl) as [R _]. unfold icp_set_target. rewrite R. reflexivity.
Qed.

Lemma truncated_header_aborts : forall s (d : disk) f c k, cloud_ok limit c -> (k < 20)%nat ->
  in_memory s = false -> filename s = Some f -> d f = Some (firstn k (serialize c)) ->
  run exec (s, d) [ORead] = Abort.
Proof.
  intros s d f c k Hok Hk Hm Hf Hd. cbn. unfold cloud_in_memory. rewrite Hm, Hf, Hd.
  destruct (header_cut limit (mkCloud stamp0 []) c k Hok Hk) as [st E]. rewrite E. reflexivity.
Qed.

Lemma truncated_read : forall s (d : disk) f c k, cloud_ok limit c -> (20 <= k)%nat ->
  c_points c <> [] ->
  in_memory s = false -> filename s = Some f -> d f = Some (firstn k (serialize c)) ->
  exists sd, run exec (s, d) [ORead] = Ok sd /\ in_memory (fst sd) = true /\
    length (c_points (inner (fst sd))) = length (c_points c) /\
    (forall i p, nth_error (c_points c) i = Some p -> (k <= 20 + 20 * i)%nat ->
       nth_error (c_points (inner (fst sd))) i = Some default_point).
Proof.
  intros s d f c k Hok Hk Hne Hm Hf Hd. cbn. unfold cloud_in_memory. rewrite Hm, Hf, Hd.
  destruct (truncated limit (mkCloud stamp0 []) c k Hok Hk) as (ps & E & L & N). rewrite E. cbn.
  unfold set_inner. cbn. rewrite L. destruct (c_points c) eqn:Ep; [congruence|]. cbn.
  eexists. split; [reflexivity|]. cbn. split; [reflexivity|]. split; [exact L|].
  intros i q Hi Hki. rewrite (N i q Hi). replace (k - 20 - 20 * i)%nat with 0%nat by lia. reflexivity.
Qed.

End P.
