(** Lemmas for the output phase. *)
From Coq Require Import String List Bool ZArith Lia.
From Verif Require Import Outcome TimeModel Pose FilterModel ConfigModel ExportModel OutputModel OutputSpec.
Import ListNotations.
Local Open Scope outcome_scope.

Section Proofs.
Variable G : group.
Variables point enu odom : Type.
Variable act : G -> point -> point.
Variable shows : list (list point) -> bool.
Notation submap := (submap G point enu odom).
Notation config := (config G enu odom).

(** The transform of the code is the one of the specification. *)
Definition shift (c : config) : G := if c_gps c then coord_transform G enu odom c else gone.
Lemma between_shift : forall (c : config) g, between G enu odom c g -> g = shift c.
Proof.
  intros c g [(A & B & C) | (-> & [A|[A|A]])]; unfold shift, coord_transform; rewrite ?A, ?B, ?C; try reflexivity;
  destruct (c_gps c), (c_opt_gps c); reflexivity.
Qed.
Lemma shift_between : forall c : config, between G enu odom c (shift c).
Proof.
  intros c. unfold between, shift, coord_transform. destruct (c_gps c), (c_opt_gps c), (c_coord c); tauto.
Qed.

(** The trajectory after CalculateCoordTransformToGps. *)
Definition final (g : G) (s : submap) : submap :=
  mkS (s_index s) (gmul g (s_global s)) (s_enu s) (s_odom s) (s_file s) (s_links s) (s_cloud s)
      (map (fun f => mkF (f_local f) (gmul (gmul g (s_global s)) (f_local f)) (f_cloud f)) (s_frames s)).
Lemma to_gps_final : forall c (t : list submap),
  to_gps G point enu odom c (map (update_frames G point enu odom) t) = map (final (shift c)) t.
Proof.
  intros c t. unfold to_gps, shift. destruct (c_gps c); cbn [negb].
  - rewrite map_map. apply map_ext. intros s. unfold update_frames, set_global, final. cbn.
    rewrite map_map. reflexivity.
  - apply map_ext. intros s. unfold update_frames, final. rewrite gmul_1_l. reflexivity.
Qed.

(** Rows numbered from [k]. *)
Fixpoint numbered {A} (k : Z) (l : list A) : list (Z * A) :=
  match l with [] => [] | a :: r => (k, a) :: numbered (k + 1) r end.
Lemma numbered_app : forall A (l r : list A) k, numbered k (l ++ r) = numbered k l ++ numbered (k + Z.of_nat (List.length l)) r.
Proof.
  induction l as [|a l IH]; intros r k.
  - cbn. f_equal. lia.
  - cbn [app numbered]. rewrite IH. cbn [app List.length]. do 3 f_equal. lia.
Qed.
Lemma numbered_seq : forall A (l : list A) k, numbered (Z.of_nat k) l = combine (map Z.of_nat (seq k (List.length l))) l.
Proof.
  induction l as [|a l IH]; intros k; [reflexivity|]. cbn. f_equal. rewrite <- IH. f_equal. lia.
Qed.
Lemma i32_ok : forall x, (0 <= x < 2 ^ 31)%Z -> i32 x = Ok x.
Proof. intros x H. unfold i32. destruct (Z.leb_spec (- 2 ^ 31) x), (Z.ltb_spec x (2 ^ 31)); cbn; try reflexivity; lia. Qed.
Lemma frame_loop_ok : forall (fs : list (frame G point)) k, (0 <= k)%Z -> (k + Z.of_nat (List.length fs) < 2 ^ 31)%Z ->
  frame_loop G point k fs = Ok ((k + Z.of_nat (List.length fs))%Z, numbered k (map f_global fs)).
Proof.
  induction fs as [|f r IH]; intros k H K; cbn [frame_loop List.length] in *.
  - cbn. do 2 f_equal. lia.
  - rewrite i32_ok by lia. cbn [bind]. rewrite IH by lia. cbn [bind fst snd map numbered]. do 2 f_equal. lia.
Qed.
Lemma frame_loop_inv : forall (fs : list (frame G point)) k x, frame_loop G point k fs = Ok x ->
  x = ((k + Z.of_nat (List.length fs))%Z, numbered k (map f_global fs)).
Proof.
  induction fs as [|f r IH]; intros k x H; cbn [frame_loop] in H.
  - injection H as <-. cbn. f_equal. lia.
  - unfold i32 in H. destruct (_ && _); [|discriminate]. cbn [bind] in H.
    destruct (frame_loop G point (k + 1) r) eqn:E; try discriminate. apply IH in E. subst.
    cbn [bind fst snd] in H. injection H as <-. cbn [map numbered List.length]. f_equal. lia.
Qed.
Lemma frame_loop_bound : forall (fs : list (frame G point)) k x, (k < 2 ^ 31)%Z -> frame_loop G point k fs = Ok x -> (fst x < 2 ^ 31)%Z.
Proof.
  induction fs as [|f r IH]; intros k x K H; cbn [frame_loop] in H; [injection H as <-; exact K|].
  unfold i32 in H. destruct (Z.ltb_spec (k + 1) (2 ^ 31)) as [L|L]; [|rewrite andb_false_r in H; discriminate].
  destruct (_ && _); [|discriminate]. cbn [bind] in H.
  destruct (frame_loop G point (k + 1) r) eqn:E; try discriminate. injection H as <-. exact (IH _ _ L E).
Qed.
Lemma submap_loop_bound : forall (t : list submap) k x, (k < 2 ^ 31)%Z -> submap_loop G point enu odom k t = Ok x -> (fst x < 2 ^ 31)%Z.
Proof.
  induction t as [|s r IH]; intros k x K H; cbn [submap_loop] in H; [injection H as <-; exact K|].
  destruct (frame_loop G point k (s_frames s)) eqn:E; try discriminate. cbn [bind] in H.
  destruct (submap_loop G point enu odom _ r) eqn:F; try discriminate. injection H as <-.
  exact (IH _ _ (frame_loop_bound _ _ _ K E) F).
Qed.
Definition globals (t : list submap) : list G := flat_map (fun s => map f_global (s_frames s)) t.
Lemma submap_loop_ok : forall (t : list submap) k, (0 <= k)%Z -> (k + Z.of_nat (List.length (globals t)) < 2 ^ 31)%Z ->
  submap_loop G point enu odom k t = Ok ((k + Z.of_nat (List.length (globals t)))%Z, numbered k (globals t)).
Proof.
  induction t as [|s r IH]; intros k H K; cbn [submap_loop].
  - cbn. do 2 f_equal. lia.
  - unfold globals in *. cbn [flat_map] in *. rewrite app_length, map_length in *.
    rewrite frame_loop_ok by lia. cbn [bind fst snd]. rewrite IH by lia. cbn [bind fst snd].
    rewrite numbered_app, map_length. do 2 f_equal. lia.
Qed.
Lemma submap_loop_inv : forall (t : list submap) k x, submap_loop G point enu odom k t = Ok x ->
  x = ((k + Z.of_nat (List.length (globals t)))%Z, numbered k (globals t)).
Proof.
  induction t as [|s r IH]; intros k x H; cbn [submap_loop] in H.
  - injection H as <-. cbn. f_equal. lia.
  - destruct (frame_loop G point k (s_frames s)) eqn:E; try discriminate. apply frame_loop_inv in E. subst.
    cbn [bind fst snd] in H. destruct (submap_loop G point enu odom _ r) eqn:E; try discriminate. apply IH in E. subst.
    cbn [bind fst snd] in H. injection H as <-. unfold globals. cbn [flat_map].
    rewrite app_length, numbered_app, map_length. f_equal. lia.
Qed.
Lemma globals_final : forall g t, globals (map (final g) t) = poses G point enu odom g t.
Proof.
  intros g t. unfold globals, poses, all_frames. induction t as [|s r IH]; [reflexivity|].
  cbn [map flat_map]. rewrite map_app, IH. f_equal. cbn [s_frames final]. rewrite !map_map. reflexivity.
Qed.
Lemma poses_length : forall g t, List.length (poses G point enu odom g t) = List.length (all_frames G point enu odom t).
Proof. intros. apply map_length. Qed.

(** Files written in a directory that can be written to. *)
Definition opt {A B} (l : list A) (f : list A -> B) : list B := match l with [] => [] | _ => [f l] end.
Lemma save_writable : forall A (l : list A) f, save G point enu odom Writable l f = Ok (opt l f).
Proof. intros A [|a l] f; reflexivity. Qed.
Lemma in_opt : forall A B (l : list A) (f : list A -> B) x, In x (opt l f) <-> l <> [] /\ x = f l.
Proof.
  intros A B [|a l] f x; cbn; split.
  - tauto.
  - intros []. congruence.
  - intros [H|[]]. split; [discriminate|congruence].
  - intros [_ H]. auto.
Qed.

Definition path_files (c : config) (t : list submap) : list (OutputModel.file G point enu odom) :=
  let u := map (final (shift c)) t in
  let p := numbered 0 (poses G point enu odom (shift c) t) in
  (opt (map (fun r => (snd r, int_to_float (fst r))) p) PathPcd ++
   opt (somes s_enu u) EnuPcd ++ opt (somes s_odom u) OdomPcd ++ [PathCsv p]) ++
  opt (c_raw_gps c) RawGps ++ opt (c_raw_odom c) RawOdom ++
  (if c_kitti c then [KittiPose (map s_global u)] else []).
Definition files (c : config) (t : list submap) (maps : list (ExportModel.file point)) : list (OutputModel.file G point enu odom) :=
  let u := map (final (shift c)) t in
  path_files c t ++
  (if c_xml c then [MapXml (map (to_entry G point enu odom) u)] else []) ++
  (if c_pack c then [Package (map (fun s => (s_global s, map (act (s_global s)) (s_cloud s))) u)] else []) ++
  map Map maps.
Lemma output_inv : forall (c : config) (t : list submap) l, c_dir c = Writable -> output G point act enu odom shows c t = Ok l ->
  exists maps, save_maps point (c_maps c) (frame_clouds G point act enu odom (map (final (shift c)) t)) = Ok maps /\ l = files c t maps /\
    (Z.of_nat (List.length (all_frames G point enu odom t)) < 2 ^ 31)%Z.
Proof.
  intros c t l D H. unfold output in H. rewrite to_gps_final in H. unfold output_paths, output_path in H. rewrite D in H.
  destruct (submap_loop _ _ _ _ _ _) eqn:E; try discriminate. pose proof (submap_loop_bound _ 0%Z _ eq_refl E) as N. apply submap_loop_inv in E. subst.
  cbn [fst] in N. rewrite globals_final, poses_length in N. cbn [bind fst snd] in H. rewrite !save_writable in H. cbn [bind opens] in H.
  unfold output_maps in H. destruct (save_maps _ _ _) as [maps| | |]; try discriminate. exists maps. split; [reflexivity|].
  rewrite D in H. cbn [bind opens orb] in H. injection H as <-. split; [|lia]. unfold files, path_files.
  rewrite globals_final, andb_true_r. reflexivity.
Qed.
Lemma output_ok : forall (c : config) (t : list submap) maps, c_dir c = Writable ->
  (Z.of_nat (List.length (all_frames G point enu odom t)) < 2 ^ 31)%Z ->
  save_maps point (c_maps c) (frame_clouds G point act enu odom (map (final (shift c)) t)) = Ok maps ->
  output G point act enu odom shows c t = Ok (files c t maps).
Proof.
  intros c t maps D N S. unfold output. rewrite to_gps_final. unfold output_paths, output_path. rewrite D.
  rewrite submap_loop_ok; [|lia|rewrite globals_final, poses_length; lia].
  cbn [bind fst snd]. rewrite !save_writable. cbn [bind opens].
  unfold output_maps. rewrite S, D. cbn [bind opens orb]. unfold files, path_files. rewrite globals_final, andb_true_r. reflexivity.
Qed.

(** The frame clouds moved to the global poses. *)
Lemma clouds_final : forall g t, concat (concat (frame_clouds G point act enu odom (map (final g) t))) = all_points G point enu odom act g t.
Proof.
  intros g t. unfold frame_clouds, all_points, all_frames. rewrite map_map. induction t as [|s r IH]; [reflexivity|].
  cbn [map concat flat_map]. rewrite concat_app, IH, flat_map_app. f_equal. cbn [s_frames final].
  induction (s_frames s) as [|f fs IHf]; [reflexivity|]. cbn [map concat flat_map fst snd f_global f_cloud]. rewrite IHf. reflexivity.
Qed.

(** SaveMaps does not look at the points. *)
Section Natural.
Variable h : point -> point.
Definition hmap (f : ExportModel.file point) : ExportModel.file point :=
  match f with
  | PartMap k c => PartMap k (map h c)
  | StaticPart k v => StaticPart k (map (map h) v)
  | StaticMap v => StaticMap (map (map h) v)
  | WholeMap c => WholeMap (map h c)
  end.
Definition omap {A B} (f : A -> B) (o : outcome A) : outcome B :=
  match o with Ok a => Ok (f a) | Abort => Abort | Throw => Throw | UB => UB end.
Definition st (x : list (ExportModel.file point) * (list point * list (list point))) :=
  (map hmap (fst x), (map h (fst (snd x)), map (map h) (snd (snd x)))).
Lemma flush_natural : forall o n i w v, flush point o n i (map h w) (map (map h) v) = omap st (flush point o n i w v).
Proof.
  intros o n i w v. unfold flush. destruct (if (i =? n - 1)%Z then _ else _) as [last| | |]; try reflexivity. cbn [bind].
  destruct last; [|reflexivity]. destruct (idiv i (step o)); try reflexivity. cbn [bind].
  destruct (imod i (step o)); try reflexivity. cbn [bind].
  destruct (direct o), (mrvm o), w; reflexivity.
Qed.
Lemma loop_natural : forall o l n i w v,
  ExportModel.submap_loop point o n i (map h w) (map (map h) v) (map (map (map h)) l) = omap st (ExportModel.submap_loop point o n i w v l).
Proof.
  intros o. induction l as [|s r IH]; intros n i w v; [reflexivity|]. cbn [ExportModel.submap_loop map].
  assert ((if direct o then map h w ++ concat (map (map h) s) else map h w) = map h (if direct o then w ++ concat s else w)) as ->.
  { destruct (direct o); [|reflexivity]. rewrite map_app, concat_map. reflexivity. }
  assert ((if mrvm o then map (map h) v ++ map (map h) s else map (map h) v) = map (map h) (if mrvm o then v ++ s else v)) as ->.
  { destruct (mrvm o); [|reflexivity]. rewrite map_app. reflexivity. }
  set (w1 := if direct o then w ++ concat s else w). set (v1 := if mrvm o then v ++ s else v). clearbody w1 v1.
  assert ((if separate o then flush point o n i (map h w1) (map (map h) v1) else Ok ([], (map h w1, map (map h) v1))) =
          omap st (if separate o then flush point o n i w1 v1 else Ok ([], (w1, v1)))) as ->.
  { destruct (separate o); [apply flush_natural|reflexivity]. }
  destruct (if separate o then _ else _) as [[a [b c]]| | |]; try reflexivity. cbn [omap bind st fst snd]. rewrite IH.
  destruct (ExportModel.submap_loop point o n (i + 1) b c r) as [[a' [b' c']]| | |]; try reflexivity. cbn. unfold st. cbn.
  rewrite map_app. reflexivity.
Qed.
Lemma save_maps_natural : forall o l, save_maps point o (map (map (map h)) l) = omap (map hmap) (save_maps point o l).
Proof.
  intros o l. unfold save_maps. destruct (_ && _); [reflexivity|]. rewrite map_length.
  pose proof (loop_natural o l (Z.of_nat (List.length l)) 0%Z [] []) as E. cbn [map] in E. rewrite E. clear E.
  destruct (ExportModel.submap_loop _ _ _ _ _ _ _) as [[a [b c]]| | |]; try reflexivity. cbn [omap bind st fst snd].
  destruct (separate o); [reflexivity|]. cbn [omap]. rewrite !map_app. do 2 f_equal. destruct (mrvm o), (direct o), b; reflexivity.
Qed.
End Natural.
End Proofs.
