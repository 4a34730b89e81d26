(** Property C125: what the output phase writes. *)
From Coq Require Import String List Bool ZArith QArith Lia SpecFloat.
From Verif Require Import Outcome TimeModel Pose FilterModel FloatOrder FloatRound FloatOps FloatTrunc ConfigModel ExportModel ExportProps OutputModel OutputSpec OutputProofs.
Import ListNotations.
Local Open Scope outcome_scope.

(** Membership in the list of files: the cases of another kind. *)
Ltac members c H :=
  repeat match type of H with _ \/ _ => destruct H as [H|H] end;
  try (destruct H as [_ H]; discriminate H);
  try (destruct H as (? & H & _); discriminate H);
  try (destruct (c_kitti c); cbn in H; intuition congruence);
  try (destruct (c_xml c); cbn in H; intuition congruence);
  try (destruct (c_pack c); cbn in H; intuition congruence).

Section Props.
Variable G : group.
Variables point enu odom : Type.
Variable act : G -> point -> point.
Variable shows : list (list point) -> bool.
Notation submap := (submap G point enu odom).
Notation config := (config G enu odom).
Notation output := (output G point act enu odom shows).
Notation between := (between G enu odom).
Notation poses := (poses G point enu odom).
Notation all_frames := (all_frames G point enu odom).
Notation all_points := (all_points G point enu odom act).

(** path.csv has one row per frame, numbered from 0 in the order of the trajectory, with the pose
    of the frame in the coordinates of the output; path.pcd has the same if there are frames. *)
Theorem C125_path : forall (c : config) (t : list submap) l g,
  c_dir c = Writable -> output c t = Ok l -> between c g ->
  let p := poses g t in let n := length (all_frames t) in
  (forall rows, In (PathCsv rows) l <-> rows = combine (map Z.of_nat (seq 0 n)) p) /\
  (forall points, In (PathPcd points) l <->
     p <> [] /\ points = combine p (map (fun k => int_to_float (Z.of_nat k)) (seq 0 n))).
Proof.
  intros c t l g D H B p n. apply between_shift in B. subst g. destruct (output_inv _ _ _ _ _ _ _ _ _ D H) as (maps & _ & -> & _). clear H.
  assert (E : numbered 0 p = combine (map Z.of_nat (seq 0 n)) p).
  { unfold n. rewrite <- (poses_length G point enu odom (shift G enu odom c)). exact (numbered_seq _ _ 0). }
  assert (E2 : map (fun r : Z * G => (snd r, int_to_float (fst r))) (combine (map Z.of_nat (seq 0 n)) p) =
          combine p (map (fun k => int_to_float (Z.of_nat k)) (seq 0 n))).
  { generalize (seq 0 n). generalize p. clear. induction p as [|x p IH]; intros [|k s]; cbn; try reflexivity. f_equal. apply IH. }
  assert (N : combine (map Z.of_nat (seq 0 n)) p = [] <-> p = []).
  { subst n. unfold p, OutputSpec.poses. generalize (all_frames t). intros [|a r]; cbn; split; congruence. }
  split.
  - intros rows. rewrite <- E. unfold files, path_files. rewrite !in_app_iff, !in_opt, in_map_iff. split.
    + intros H. members c H. destruct H as [H|[]]. injection H as <-. reflexivity.
    + intros ->. left. left. right. right. right. left. reflexivity.
  - intros points. rewrite <- E2. unfold files, path_files. rewrite !in_app_iff, !in_opt, in_map_iff. fold p. rewrite E. split.
    + intros H. members c H.
      destruct H as [H1 H2]. injection H2 as ->. split; [|reflexivity]. intros K. apply N in K. rewrite K in H1. auto.
    + intros [H1 ->]. left. left. left. split; [|reflexivity]. intros K. apply H1, N.
      destruct (combine (map Z.of_nat (seq 0 n)) p); [reflexivity|discriminate].
Qed.

(** The GPS and odometry paths hold what belongs to the submaps that have it, whatever the
    transform; the raw ones hold everything recorded. *)
Theorem C125_sensor_paths : forall (c : config) (t : list submap) l, c_dir c = Writable -> output c t = Ok l ->
  (forall p, In (EnuPcd p) l <-> p <> [] /\ map Some p = List.filter (fun x => match x with Some _ => true | None => false end) (map s_enu t)) /\
  (forall p, In (OdomPcd p) l <-> p <> [] /\ map Some p = List.filter (fun x => match x with Some _ => true | None => false end) (map s_odom t)) /\
  (forall p, In (RawGps p) l <-> p <> [] /\ p = c_raw_gps c) /\
  (forall p, In (RawOdom p) l <-> p <> [] /\ p = c_raw_odom c).
Proof.
  intros c t l D H. destruct (output_inv _ _ _ _ _ _ _ _ _ D H) as (maps & _ & -> & _). clear H.
  assert (S : forall A B (f : A -> option B) (l : list A) p, p = somes f l <-> map Some p = List.filter (fun x => match x with Some _ => true | None => false end) (map f l)).
  { clear. intros A B f. induction l as [|a l IH]; intros p.
    - cbn. split; [intros ->; reflexivity|]. destruct p; [reflexivity|discriminate].
    - cbn. destruct (f a) as [b|]; cbn; [|apply IH]. destruct p as [|x p]; cbn; [split; discriminate|].
      split; intros K; injection K as -> K; f_equal; apply IH; exact K. }
  assert (M : forall A (f : submap -> A), (forall g s, f (final G point enu odom g s) = f s) -> forall g, map f (map (final G point enu odom g) t) = map f t).
  { intros A f K g. rewrite map_map. apply map_ext. intros s. apply K. }
  split; [|split; [|split]]; intros p; unfold files, path_files; rewrite !in_app_iff, !in_opt, in_map_iff.
  - rewrite <- (M _ s_enu (fun _ _ => eq_refl) (shift G enu odom c)), <- S. split.
    + intros H. members c H; destruct H as [H1 H2]; injection H2 as ->; auto.
    + intros [H1 H2]. left. left. right. left. split; congruence.
  - rewrite <- (M _ s_odom (fun _ _ => eq_refl) (shift G enu odom c)), <- S. split.
    + intros H. members c H; destruct H as [H1 H2]; injection H2 as ->; auto.
    + intros [H1 H2]. left. left. right. right. left. split; congruence.
  - split.
    + intros H. members c H; destruct H as [H1 H2]; injection H2 as ->; auto.
    + intros [H1 ->]. left. right. left. auto.
  - split.
    + intros H. members c H; destruct H as [H1 H2]; injection H2 as ->; auto.
    + intros [H1 ->]. left. right. right. left. auto.
Qed.

(** kitti_pose.txt and map.xml have one entry per submap, with its pose in the coordinates of the
    output; the map package gets the same poses and the clouds at them. *)
Theorem C125_submaps : forall (c : config) (t : list submap) l g,
  c_dir c = Writable -> output c t = Ok l -> between c g ->
  (forall rows, In (KittiPose rows) l <-> c_kitti c = true /\ rows = map (fun s => gmul g (s_global s)) t) /\
  (forall es, In (MapXml es) l <-> c_xml c = true /\
     es = map (fun s => mkE (s_index s) (s_file s) (gmul g (s_global s)) (s_links s)) t) /\
  (forall x, In (Package x) l <-> c_pack c = true /\
     x = map (fun s => (gmul g (s_global s), map (act (gmul g (s_global s))) (s_cloud s))) t).
Proof.
  intros c t l g D H B. apply between_shift in B. subst g. destruct (output_inv _ _ _ _ _ _ _ _ _ D H) as (maps & _ & -> & _). clear H.
  split; [|split]; intros x; unfold files, path_files; rewrite !in_app_iff, !in_opt, in_map_iff.
  - rewrite !map_map. split.
    + intros H. members c H.
    + intros [-> ->]. left. right. right. right. left. reflexivity.
  - rewrite !map_map. split.
    + intros H. members c H. destruct (c_xml c); [|contradiction]. destruct H as [H|[]]. injection H as <-. split; reflexivity.
    + intros [-> ->]. right. left. left. reflexivity.
  - rewrite !map_map. split.
    + intros H. members c H.
    + intros [-> ->]. right. right. left. left. reflexivity.
Qed.

(** The whole map has every point of every frame, moved to the pose of the frame in the
    coordinates of the output, and nothing else. *)
Theorem C125_whole_map : forall (c : config) (t : list submap) l g,
  c_dir c = Writable -> output c t = Ok l -> between c g -> direct (c_maps c) = true -> separate (c_maps c) = false ->
  forall p, In (Map (WholeMap p)) l <-> p <> [] /\ p = all_points g t.
Proof.
  intros c t l g D H B Dir Sep. apply between_shift in B. subst g. destruct (output_inv _ _ _ _ _ _ _ _ _ D H) as (maps & E & -> & _). clear H.
  rewrite (C42_whole _ _ _ Sep), Dir in E. injection E as <-. rewrite clouds_final.
  intros p. unfold files, path_files. rewrite !in_app_iff, !in_opt, in_map_iff. split.
  - intros H. members c H. destruct H as (m & E & I). injection E as ->.
    apply in_app_iff in I. destruct I as [I|I]; [destruct (mrvm (c_maps c)); cbn in I; intuition discriminate|].
    destruct (all_points (shift G enu odom c) t); [contradiction|]. destruct I as [I|[]]. injection I as <-. split; [discriminate|reflexivity].
  - intros [H ->]. right. right. right. exists (WholeMap (all_points (shift G enu odom c) t)). split; [reflexivity|].
    apply in_app_iff. right. destruct (all_points (shift G enu odom c) t); [congruence|]. left. reflexivity.
Qed.

(** Everything is in the same coordinates: with the transform [g] the files are those written
    without GPS, with every pose and every point of them moved by [g]. *)
Hypothesis act_mul : forall a b p, act (gmul a b) p = act a (act b p).
Theorem C125_same_coordinates : forall (c : config) (t : list submap) l g,
  c_dir c = Writable -> between c g -> output (without_gps G enu odom c) t = Ok l ->
  output c t = Ok (map (move_file G point enu odom act g) l).
Proof.
  intros c t l g D B H. apply between_shift in B. subst g. set (g := shift G enu odom c).
  destruct (output_inv G point enu odom act shows (without_gps G enu odom c) _ _ D H) as (maps & E & -> & N). clear H.
  pose proof (save_maps_natural point (act g) (c_maps c) (frame_clouds G point act enu odom (map (final G point enu odom gone) t))) as S.
  change (shift G enu odom (without_gps G enu odom c)) with (gone : G) in *. cbn [c_maps without_gps] in E. rewrite E in S. cbn [omap] in S.
  assert (F : map (map (map (act g))) (frame_clouds G point act enu odom (map (final G point enu odom gone) t)) =
              frame_clouds G point act enu odom (map (final G point enu odom g) t)).
  { unfold frame_clouds. rewrite !map_map. apply map_ext. intros s. cbn [final s_frames]. rewrite !map_map. apply map_ext. intros f.
    cbn [f_global f_cloud]. rewrite map_map. apply map_ext. intros p. rewrite gmul_1_l, <- gmul_assoc. symmetry. apply act_mul. }
  rewrite F in S. rewrite (output_ok G point enu odom act shows c t _ D N S). f_equal.
  assert (P : forall k, numbered k (poses g t) = map (fun x : Z * G => (fst x, gmul g (snd x))) (numbered k (poses gone t))).
  { unfold OutputSpec.poses. generalize (all_frames t). clear. induction l as [|x r IH]; intros k; [reflexivity|]. cbn [map numbered fst snd].
    rewrite IH, gmul_1_l, gmul_assoc. reflexivity. }
  assert (O : forall A B (f : list A -> OutputModel.file G point enu odom) (h : OutputModel.file G point enu odom -> B) x, map h (opt x f) = opt x (fun y => h (f y))).
  { intros A B f h [|a x]; reflexivity. }
  unfold files, path_files. rewrite !map_app, !O. fold g.
  change (shift G enu odom (without_gps G enu odom c)) with (gone : G).
  cbn [c_raw_gps c_raw_odom c_kitti c_xml c_pack without_gps]. rewrite P.
  assert (Fi : forall A (f : submap -> A) (h : A -> A), (forall s, f (final G point enu odom g s) = h (f (final G point enu odom gone s))) ->
    map f (map (final G point enu odom g) t) = map h (map f (map (final G point enu odom gone) t))).
  { intros A f h K. rewrite !map_map. apply map_ext. intros s. apply K. }
  assert (C1 : forall A (a b x y : list A), a = x -> b = y -> a ++ b = x ++ y) by (intros; subst; reflexivity).
  assert (C2 : forall A (b : bool) (x y : A), x = y -> (if b then [x] else []) = (if b then [y] else [])) by (intros; subst; reflexivity).
  assert (C3 : forall A B (h : A -> B) (b : bool) x, map h (if b then [x] else []) = if b then [h x] else []) by (intros A B h [] x; reflexivity).
  rewrite !C3. repeat apply C1; try apply C2; cbn [move_file].
  - unfold opt. destruct (numbered 0 (poses gone t)); [reflexivity|]. cbn [map]. cbn [fst snd]. rewrite !map_map. reflexivity.
  - replace (somes s_enu (map (final G point enu odom g) t)) with (somes s_enu (map (final G point enu odom gone) t)); [reflexivity|].
    unfold somes. rewrite !flat_map_concat_map, !map_map. reflexivity.
  - replace (somes s_odom (map (final G point enu odom g) t)) with (somes s_odom (map (final G point enu odom gone) t)); [reflexivity|].
    unfold somes. rewrite !flat_map_concat_map, !map_map. reflexivity.
  - reflexivity.
  - reflexivity.
  - reflexivity.
  - f_equal. apply Fi. intros s. cbn. rewrite gmul_1_l. reflexivity.
  - f_equal. apply Fi. intros s. unfold to_entry. cbn. rewrite gmul_1_l. reflexivity.
  - f_equal. apply Fi. intros s. cbn. rewrite gmul_1_l, map_map. f_equal. apply map_ext. intros p. apply act_mul.
  - rewrite !map_map. apply map_ext. intros []; reflexivity.
Qed.

(** In particular the way from one row of path.csv to another does not depend on GPS. *)
Theorem C125_relative_poses : forall (c : config) (t : list submap) l l' rows rows' i j a b a' b',
  c_dir c = Writable -> output c t = Ok l -> output (without_gps G enu odom c) t = Ok l' ->
  In (PathCsv rows) l -> In (PathCsv rows') l' ->
  nth_error rows i = Some a -> nth_error rows j = Some b -> nth_error rows' i = Some a' -> nth_error rows' j = Some b' ->
  gmul (ginv (snd a)) (snd b) = gmul (ginv (snd a')) (snd b').
Proof.
  intros c t l l' rows rows' i j a b a' b' D H H' R R' A B A' B'.
  pose proof (shift_between G point enu odom act c) as S. pose proof (C125_same_coordinates c t l' _ D S H') as E. rewrite H in E. injection E as ->.
  apply in_map_iff in R. destruct R as (f & E & I). destruct f; try discriminate. injection E as <-.
  assert (between (without_gps G enu odom c) gone) as S' by (right; auto).
  pose proof (proj1 (C125_path (without_gps G enu odom c) t l' _ D H' S')) as P. apply P in I, R'. subst rows0 rows'.
  rewrite nth_error_map, A' in A. rewrite nth_error_map, B' in B. injection A as <-. injection B as <-. cbn [snd].
  rewrite ginv_mul, <- gmul_assoc, gcancel_l. reflexivity.
Qed.

(** In a directory that can be written to, the phase succeeds for fewer than 2^31 frames unless
    parts of size zero are asked for. *)
Theorem C125_succeeds : forall (c : config) (t : list submap),
  c_dir c = Writable -> (Z.of_nat (length (all_frames t)) < 2 ^ 31)%Z -> (separate (c_maps c) = true -> step (c_maps c) <> 0%Z) ->
  exists l, output c t = Ok l.
Proof.
  intros c t D N S. destruct (separate (c_maps c)) eqn:E.
  - eexists. eapply output_ok; [exact D|exact N|]. apply C42_parts; auto.
  - eexists. eapply output_ok; [exact D|exact N|]. apply C42_whole. exact E.
Qed.

(** If the directory is not there, no path is written and no map: only map.xml and the package
    remain, and a static map that would be empty anyway. *)
Theorem C125_missing : forall (c : config) (t : list submap) l, c_dir c = Missing -> output c t = Ok l ->
  forall f, In f l -> (exists es, f = MapXml es) \/ (exists x, f = Package x) \/
    (exists v, shows v = false /\ (f = Map (StaticMap v) \/ exists k, f = Map (StaticPart k v))).
Proof.
  intros c t l D H f I. unfold OutputModel.output in H. rewrite to_gps_final in H. unfold output_paths, output_path in H. rewrite D in H.
  cbn [bind] in H. unfold save in H.
  destruct (c_raw_gps c); [|discriminate]. destruct (c_raw_odom c); [|discriminate]. cbn [opens bind andb] in H.
  rewrite andb_false_r in H. unfold output_maps in H. destruct (save_maps _ _ _) as [maps| | |]; try discriminate. rewrite D in H. cbn [bind opens orb] in H.
  destruct (existsb _ maps) eqn:E; [discriminate|]. injection H as <-. rewrite !in_app_iff in I. cbn [app] in I.
  destruct I as [I|[I|I]].
  - destruct (c_xml c); [|contradiction]. destruct I as [<-|[]]. eauto.
  - destruct (c_pack c); [|contradiction]. destruct I as [<-|[]]. eauto.
  - apply in_map_iff in I. destruct I as (m & <- & I).
    assert (written point shows m = false) as W.
    { destruct (written point shows m) eqn:W; [|reflexivity]. rewrite <- E. symmetry. apply existsb_exists. eauto. }
    right. right. destruct m; cbn in W; try discriminate; eauto.
Qed.

(** A map to be written there ends the program with an exception. *)
Theorem C125_missing_map : forall (c : config) (t : list submap) g, c_dir c <> Writable ->
  between c g -> direct (c_maps c) = true -> separate (c_maps c) = false -> all_points g t <> [] ->
  (Z.of_nat (length (all_frames t)) < 2 ^ 31)%Z -> output c t = Throw.
Proof.
  intros c t g D B Dir Sep P N. apply between_shift in B. subst g. unfold OutputModel.output. rewrite to_gps_final.
  assert (M : output_maps G point act enu odom shows c (map (final G point enu odom (shift G enu odom c)) t) = Throw).
  { unfold output_maps. rewrite (C42_whole _ _ _ Sep), Dir. cbn [bind]. rewrite clouds_final.
    destruct (all_points (shift G enu odom c) t); [congruence|]. rewrite existsb_app. cbn [existsb written].
    rewrite orb_true_r. destruct (c_dir c); [reflexivity|reflexivity|congruence]. }
  assert (K : forall A (x : list A) f, (exists y, save G point enu odom (c_dir c) x f = Ok y) \/ save G point enu odom (c_dir c) x f = Throw).
  { intros A [|a x] f; cbn; [eauto|]. destruct (opens (c_dir c)); eauto. }
  assert (O : (exists y, output_paths G point enu odom c (map (final G point enu odom (shift G enu odom c)) t) = Ok y) \/
              output_paths G point enu odom c (map (final G point enu odom (shift G enu odom c)) t) = Throw).
  { unfold output_paths.
    assert (O : (exists y, output_path G point enu odom (c_dir c) (map (final G point enu odom (shift G enu odom c)) t) = Ok y) \/
              output_path G point enu odom (c_dir c) (map (final G point enu odom (shift G enu odom c)) t) = Throw).
    { unfold output_path. rewrite submap_loop_ok; [|lia|rewrite globals_final, poses_length; lia]. cbn [bind fst snd].
      destruct (c_dir c) eqn:Ed; [eauto| |congruence].
      destruct (K _ (map (fun r : Z * G => (snd r, int_to_float (fst r))) (numbered 0 (globals G point enu odom (map (final G point enu odom (shift G enu odom c)) t)))) PathPcd) as [[y ->]| ->]; cbn [bind]; [|auto].
      destruct (K _ (somes s_enu (map (final G point enu odom (shift G enu odom c)) t)) EnuPcd) as [[y1 ->]| ->]; cbn [bind]; [|auto].
      destruct (K _ (somes s_odom (map (final G point enu odom (shift G enu odom c)) t)) OdomPcd) as [[y2 ->]| ->]; cbn [bind]; eauto. }
    destruct O as [[y ->]| ->]; cbn [bind]; [|auto].
    destruct (K _ (c_raw_gps c) RawGps) as [[y1 ->]| ->]; cbn [bind]; [|auto].
    destruct (K _ (c_raw_odom c) RawOdom) as [[y2 ->]| ->]; cbn [bind]; eauto. }
  destruct O as [[y ->]| ->]; cbn [bind]; [|reflexivity]. rewrite M. reflexivity.
Qed.
End Props.

(** The intensities of path.pcd tell the frames apart for up to 2^24 + 1 frames. *)
Theorem C125_intensity : forall i j, (0 <= i <= 2 ^ 24)%Z -> (0 <= j <= 2 ^ 24)%Z -> int_to_float i = int_to_float j -> i = j.
Proof.
  assert (S : forall z, (0 < z < 2 ^ 24)%Z -> exists m e, int_to_float z = S754_finite false m e /\ (dyadic (Zpos m) e == dyadic z 0)%Q).
  { intros z Hz. destruct (bounded_near 24 128 ltac:(lia) z 0 Hz ltac:(cbn; lia)) as (m & e & B & V). exists m, e. split; [|exact V].
    unfold int_to_float. destruct z as [|p|p]; try lia. cbn [binary_normalize].
    apply (rounded_id 24 128 (dyadic (Zpos p) 0)); [assumption|symmetry; assumption|]. apply binary_round_spec; lia. }
  assert (T : forall z, (0 <= z <= 2 ^ 24)%Z -> (z = 0%Z /\ int_to_float z = S754_zero false) \/
                exists m e, int_to_float z = S754_finite false m e /\ (dyadic (Zpos m) e == dyadic z 0)%Q).
  { intros z Hz. destruct (Z.eq_dec z 0) as [->|N]; [left; split; reflexivity|].
    destruct (Z.eq_dec z (2 ^ 24)) as [->|N2]; [|right; apply S; lia].
    right. exists 8388608%positive, 1%Z. split; vm_compute; reflexivity. }
  intros i j Hi Hj E. destruct (T i Hi) as [(Zi & Fi)|(m & e & Fi & Vi)], (T j Hj) as [(Zj & Fj)|(n & f & Fj & Vj)]; try congruence.
  rewrite Fi, Fj in E. injection E as -> ->. rewrite Vi in Vj.
  assert (i <= j)%Z by (apply (dyadic_le i j 0); rewrite Vj; apply Qle_refl).
  assert (j <= i)%Z by (apply (dyadic_le j i 0); rewrite Vj; apply Qle_refl). lia.
Qed.
(** Beyond that they do not. *)
Theorem C125_intensity_refuted : ~ (forall i j, (0 <= i < 2 ^ 31)%Z -> (0 <= j < 2 ^ 31)%Z -> int_to_float i = int_to_float j -> i = j).
Proof.
  intros H. assert (2 ^ 24 = 2 ^ 24 + 1)%Z as K by (apply H; [lia|lia|vm_compute; reflexivity]). lia.
Qed.

(** A trajectory along a line: submaps at 100 and 200 with three and two frames, the second with
    GPS and the first with odometry; the frames see points at 1 and 2 ahead.  The old global poses
    of the frames are out of date. *)
Definition ex_submaps : list (submap Zgroup Z Z Z) :=
  [ mkS 0%Z (100%Z : Zgroup) None (Some 7%Z) "a"%string [(0, 1)%Z] [1]%Z
        [mkF (0%Z : Zgroup) (55%Z : Zgroup) [1]%Z; mkF (1%Z : Zgroup) (56%Z : Zgroup) [1; 2]%Z; mkF (2%Z : Zgroup) (57%Z : Zgroup) []];
    mkS 1%Z (200%Z : Zgroup) (Some 1200%Z) None "b"%string [] [2]%Z
        [mkF (0%Z : Zgroup) (58%Z : Zgroup) [1]%Z; mkF (3%Z : Zgroup) (61%Z : Zgroup) [2]%Z] ].
Definition ex_config (d : dir) (gps : bool) : config Zgroup Z Z :=
  mkC d gps true (Some (1000%Z : Zgroup)) true true true (mkW true false false 5) [9]%Z [].
Definition ex_run (d : dir) (gps : bool) : outcome (list (OutputModel.file Zgroup Z Z Z)) :=
  output Zgroup Z (fun a p => (a + p)%Z) Z Z (fun _ => true) (ex_config d gps) ex_submaps.
Definition ex_files : list (OutputModel.file Zgroup Z Z Z) :=
  Eval vm_compute in match ex_run Writable true with Ok l => l | _ => [] end.
Example C125_ex_run : ex_run Writable true = Ok ex_files /\ between Zgroup Z Z (ex_config Writable true) (1000%Z : Zgroup) /\
  In (@PathCsv Zgroup Z Z Z [(0, 1100); (1, 1101); (2, 1102); (3, 1200); (4, 1203)]%Z) ex_files /\
  In (@EnuPcd Zgroup Z Z Z [1200]%Z) ex_files /\ In (@OdomPcd Zgroup Z Z Z [7]%Z) ex_files /\ In (@RawGps Zgroup Z Z Z [9]%Z) ex_files /\
  In (@KittiPose Zgroup Z Z Z [1100; 1200]%Z) ex_files /\
  In (@Package Zgroup Z Z Z [(1100, [1101]); (1200, [1202])]%Z) ex_files /\
  In (@Map Zgroup Z Z Z (WholeMap [1101; 1102; 1103; 1201; 1205]%Z)) ex_files.
Proof.
  split; [vm_compute; reflexivity|]. split; [left; repeat split|]. unfold ex_files.
  repeat split; cbn [In]; repeat (try (left; reflexivity); right).
Qed.
Definition ex_files_without : list (OutputModel.file Zgroup Z Z Z) :=
  Eval vm_compute in match ex_run Writable false with Ok l => l | _ => [] end.
Example C125_ex_without :
  ex_run Writable false = Ok ex_files_without /\
  In (@PathCsv Zgroup Z Z Z [(0, 100); (1, 101); (2, 102); (3, 200); (4, 203)]%Z) ex_files_without /\
  In (@Map Zgroup Z Z Z (WholeMap [101; 102; 103; 201; 205]%Z)) ex_files_without.
Proof.
  split; [vm_compute; reflexivity|]. unfold ex_files_without.
  split; cbn [In]; repeat (try (left; reflexivity); right).
Qed.
Example C125_ex_missing : ex_run Missing true = Throw.
Proof. vm_compute. reflexivity. Qed.
Example C125_ex_intensity : int_to_float 16777216 <> int_to_float 16777215 /\ int_to_float 16777216 = int_to_float 16777217.
Proof. split; [intros H; vm_compute in H; discriminate|vm_compute; reflexivity]. Qed.

(** kitti_pose.txt, meant for a comparison with the ground truth of every scan, does not have a
    row for each frame. *)
Theorem C125_kitti_per_frame_refuted :
  ~ (forall G point enu odom act shows (c : config G enu odom) (t : list (submap G point enu odom)) l rows,
       c_dir c = Writable -> output G point act enu odom shows c t = Ok l -> In (KittiPose rows) l ->
       length rows = length (all_frames G point enu odom t)).
Proof.
  intros H. specialize (H Zgroup Z Z Z (fun a p => (a + p)%Z) (fun _ => true) (ex_config Writable true) ex_submaps ex_files [1100; 1200]%Z eq_refl).
  destruct C125_ex_run as (E & _ & _ & _ & _ & _ & K & _). specialize (H E K). discriminate H.
Qed.

Print Assumptions C125_path.
Print Assumptions C125_sensor_paths.
Print Assumptions C125_submaps.
Print Assumptions C125_whole_map.
Print Assumptions C125_same_coordinates.
Print Assumptions C125_relative_poses.
Print Assumptions C125_succeeds.
Print Assumptions C125_missing.
Print Assumptions C125_missing_map.
Print Assumptions C125_intensity.
Print Assumptions C125_intensity_refuted.
Print Assumptions C125_kitti_per_frame_refuted.
