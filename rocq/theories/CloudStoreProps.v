(** Properties C23, C24, C70: eviction of clouds to disk. *)
From Coq Require Import List ZArith Lia Arith.
From Verif Require Import Outcome CloudFileModel CloudFileSpec CloudStoreModel CloudStoreSpec CloudStoreProofs.
Import ListNotations.

Section Props.
Variables (name : Type) (name_eqb : name -> name -> bool).
Variable name_eqb_spec : forall a b, name_eqb a b = true <-> a = b.
Variables (motion : Type) (move : motion -> point -> point) (limit : Z) (stamp0 : stamp).
Notation exec := (exec name_eqb move limit stamp0).

(** Save the cloud; do anything but save again ([mods], which may transform the cloud,
    evict it, reload it, while other files are written); evict it; let other files be
    written and the cloud be evicted and reloaded ([after]); read it: the read succeeds and
    returns exactly the points of the moment of saving.  In particular whatever [mods] did
    to the points is lost. *)
Theorem C23_evicted_cloud_is_saved_cloud : forall s d f mods after sd1,
  cloud_ok limit (inner s) ->
  Forall (harmless f) mods ->
  run exec (s, d) (OSave f :: mods) = Ok sd1 ->
  in_memory (fst sd1) = true ->
  Forall (passive f) after ->
  exists sd2, run exec sd1 (OClear :: after ++ [ORead]) = Ok sd2 /\
    inner (fst sd2) = inner s /\ in_memory (fst sd2) = true.
Proof.
  intros s d f mods after sd1 H. exact (save_clear_read name name_eqb name_eqb_spec motion move
    limit stamp0 s d f (inner s) mods after sd1 H eq_refl).
Qed.

(** Evicting a cloud that was never saved makes the next read abort. *)
Theorem C23_clear_unsaved_aborts : forall s (d : disk name), filename s = None -> in_memory s = true ->
  run exec (s, d) [OClear; ORead] = Abort.
Proof. exact (clear_unsaved_aborts name name_eqb motion move limit stamp0). Qed.

(** Normals are not saved: after an eviction the cloud cannot be an ICP target. *)
Theorem C24_normals_lost : forall s d f kept sd, cloud_ok limit (inner s) ->
  in_memory s = true ->
  run exec (s, d) [ONormals kept; OSave f; OClear; ORead] = Ok sd ->
  inner (fst sd) = inner s /\ icp_set_target (fst sd) = Abort.
Proof. exact (normals_lost name name_eqb name_eqb_spec motion move limit stamp0). Qed.

(** Before the eviction it could. *)
Theorem C24_target_before_eviction : forall s d f kept sd, (0 < kept)%nat ->
  run exec (s, d) [ONormals kept; OSave f] = Ok sd -> icp_set_target (fst sd) = Ok tt.
Proof.
  intros s d f kept sd Hk E. cbn in E. unfold save in E. destruct (check _) eqn:Ec; cbn in E; try discriminate.
  inversion E; subst. unfold icp_set_target. cbn. destruct kept; [lia|reflexivity].
Qed.

(** Transforming an evicted cloud aborts. *)
Theorem C70_transform_evicted_aborts : forall s (d : disk name) T, in_memory s = true ->
  run exec (s, d) [OClear; OTransform T] = Abort.
Proof. exact (transform_evicted_aborts name name_eqb motion move limit stamp0). Qed.

(** Transforming a cloud in memory moves every point and keeps the stamp, any number of times. *)
Theorem C70_transform_resident : forall c (d : disk name) Ts, c_points c <> [] ->
  exists s0 s, make stamp0 c = Ok s0 /\ run exec (s0, d) (map OTransform Ts) = Ok (s, d) /\
    in_memory s = true /\ c_stamp (inner s) = c_stamp c /\ time_ s = c_stamp c /\
    c_points (inner s) = map (fun p => fold_left (fun q T => move T q) Ts p) (c_points c) /\
    icp_set_target s = Abort.
Proof.
  intros c d Ts H. destruct c as [st ps]. cbn [c_points c_stamp] in *.
  destruct ps as [|p0 ps0] eqn:Ep; [congruence|]. rewrite <- Ep in *.
  assert (M : make stamp0 (mkCloud st ps) = Ok (mkStore (name := name) (mkCloud st ps) (mkEigen (length ps) 0) st None true)).
  { rewrite Ep. reflexivity. }
  eexists. rewrite M.
  assert (G : forall Ts qs, length qs = length ps ->
    run exec (mkStore (name := name) (mkCloud st qs) (mkEigen (length ps) 0) st None true, d) (map OTransform Ts) =
    Ok (mkStore (mkCloud st (map (fun p => fold_left (fun q T => move T q) Ts p) qs)) (mkEigen (length ps) 0) st None true, d)).
  { clear Ts M. induction Ts as [|T Ts IH]; intros qs L; cbn [map run].
    - cbn [fold_left]. rewrite map_id. reflexivity.
    - cbn [CloudStoreModel.exec]. unfold transform, is_empty, eigen_transform. cbn [inner eig c_points e_cols e_normals c_stamp time_ filename in_memory].
      rewrite L, Ep. cbn [length Nat.eqb Nat.ltb Nat.leb check bind].
      change (S (length ps0)) with (length (p0 :: ps0)). rewrite <- Ep.
      rewrite IH by (rewrite map_length; exact L). rewrite map_map. reflexivity. }
  eexists. split; [reflexivity|]. split; [apply G; reflexivity|].
  repeat split.
Qed.

(** Reading back a file cut in the header aborts; a file cut later is silently accepted,
    with zero points in place of the missing ones. *)
Theorem C70_reload_cut_header_aborts : forall s (d : disk name) f c k, cloud_ok limit c ->
  (k < 20)%nat -> in_memory s = false -> filename s = Some f ->
  d f = Some (firstn k (serialize c)) -> run exec (s, d) [ORead] = Abort.
Proof. exact (truncated_header_aborts name name_eqb motion move limit stamp0). Qed.

Theorem C70_reload_cut_body_accepted : forall s (d : disk name) f c k, cloud_ok limit c ->
  (20 <= k)%nat -> c_points c <> [] ->
  in_memory s = false -> filename s = Some f -> d f = Some (firstn k (serialize c)) ->
  exists sd, run exec (s, d) [ORead] = Ok sd /\ in_memory (fst sd) = true /\
    length (c_points (inner (fst sd))) = length (c_points c) /\
    (forall i p, nth_error (c_points c) i = Some p -> (k <= 20 + 20 * i)%nat ->
       nth_error (c_points (inner (fst sd))) i = Some (mkPoint 0 0 0 0 0)).
Proof. exact (truncated_read name name_eqb motion move limit stamp0). Qed.
End Props.
Print Assumptions C23_evicted_cloud_is_saved_cloud.
Print Assumptions C23_clear_unsaved_aborts.
Print Assumptions C24_normals_lost.
Print Assumptions C24_target_before_eviction.
Print Assumptions C70_transform_evicted_aborts.
Print Assumptions C70_transform_resident.
Print Assumptions C70_reload_cut_header_aborts.
Print Assumptions C70_reload_cut_body_accepted.

(** A history meeting the hypotheses: the transform after the save is lost. *)
Definition ex_move (dx : Z) (p : point) : point :=
  mkPoint (w_x p + dx) (w_y p) (w_z p) (w_intensity p) (w_factor p).
Definition ex_exec := exec Nat.eqb ex_move 1000 (mkStamp 0 0 1000000000).
Definition ex_cloud := mkCloud (mkStamp 7 8 1000000000) [mkPoint 1 2 3 4 5; mkPoint 6 7 8 9 10].
Definition empty_disk : disk nat := fun _ => None.
Definition pts (o : outcome (store nat * disk nat)) : outcome (list point * bool) :=
  bind o (fun sd => Ok (c_points (inner (fst sd)), in_memory (fst sd))).

Example store_ex : cloud_ok 1000 ex_cloud /\
  Forall (harmless (motion := Z) 3%nat) [OTransform 5%Z; OForeign 4%nat [1]%Z] /\
  Forall (passive (motion := Z) 3%nat) [OForeign 4%nat [2]%Z; ORead; OClear] /\
  bind (make (mkStamp 0 0 1000000000) ex_cloud) (fun s =>
    pts (run ex_exec (s, empty_disk) [OSave 3%nat; OTransform 5%Z; OForeign 4%nat [1]%Z])) =
    Ok ([mkPoint 6 2 3 4 5; mkPoint 11 7 8 9 10], true) /\
  bind (make (mkStamp 0 0 1000000000) ex_cloud) (fun s =>
    pts (run ex_exec (s, empty_disk) [OSave 3%nat; OTransform 5%Z; OForeign 4%nat [1]%Z; OClear;
       OForeign 4%nat [2]%Z; ORead; OClear; ORead])) = Ok (c_points ex_cloud, true).
Proof.
  split; [|split; [|split; [|split; vm_compute; reflexivity]]].
  - unfold cloud_ok, stamp_ok, point_ok, word. cbn.
    repeat match goal with |- _ /\ _ => split | |- Forall _ _ => constructor end; cbn; lia.
  - repeat constructor; cbn; congruence.
  - repeat constructor; cbn; congruence.
Qed.
