(** Properties C99-C102: the configuration from XML. *)
From Coq Require Import ZArith List Bool String Ascii SpecFloat Lia DecimalString.
From Verif Require Import Outcome TimeModel FloatOrder LoopSpec FilterModel FilterSpec FilterProofs FilesModel ConfigModel ConfigSpec ConfigProofs.
Import ListNotations.
Local Open Scope string_scope.
Local Open Scope list_scope.

(** ** Conversions and documents for the examples *)
Definition ints (s : string) : Z := match NilZero.int_of_string s with Some i => Z.of_int i | None => 0%Z end.
Definition floats (s : string) : fl :=
  if String.eqb s "2.75" then dec 275 100 else if String.eqb s "1e10" then dec 10000000000 1 else int_to_float (ints s).
Definition bools (s : string) : bool := String.eqb s "true" || String.eqb s "1".
Definition tan15_ : fl := dec 26794919 100000000.
Definition param (s t v : string) : node := Node "param" [("type", t); ("name", s)] v [].
Definition filter_node (s : string) (ps : list node) : node := Node "filter" [("name", s)] "" ps.
(** Two supported filters around one that does not exist and an element that is no filter. *)
Definition filters1 : node := Node "filters" [] ""
  [ filter_node "Range" [param "min_range" "1" "2.75"; param "max_range" "0" "100"; param "min_range" "0" "3"];
    filter_node "Sharpen" [param "no_such" "7" "x"];
    Node "comment" [] "" [];
    filter_node "AxisRange" [param "axis_index" "1" "2.75"; param "min" "1" "-5"] ].

(** C99: the filters of a configuration. *)
Section C99.
Variable int_of : string -> Z.
Variable float_of : string -> fl.
Variable tan15 : fl.
Notation init := (init_factory int_of float_of tan15).
Notation listed := (listed tan15).
Notation class_of := (class_of tan15).

Theorem C99_iff : forall n, (exists fs, init n = Ok fs) <->
  (forall f p ps, In f (listed n) -> class_of f = Some ps -> In p (children f "param") -> good int_of float_of ps p).
Proof.
  intros n. split.
  - intros [fs E]. pose proof (factory_cases int_of float_of tan15 n) as H. rewrite E in H. apply H.
  - apply good_all.
Qed.
(** The objects are the supported <filter> elements in their order, with the last value of each
    parameter, converted to its type, or the default. *)
Theorem C99_configured : forall n fs, init n = Ok fs -> Forall2 (configured int_of float_of tan15) (listed n) fs.
Proof. intros n fs E. pose proof (factory_cases int_of float_of tan15 n) as H. rewrite E in H. apply H. Qed.
(** Otherwise the process is ended by a parameter the filter does not have or a type other than 0 and 1, or
    a value that does not fit an int is converted, which is undefined. *)
Theorem C99_failures : forall n,
  match init n with
  | Ok _ => True
  | Abort => exists f p ps, In f (listed n) /\ class_of f = Some ps /\ In p (children f "param") /\ unknown int_of ps p
  | Throw => False
  | UB => exists f p ps, In f (listed n) /\ class_of f = Some ps /\ In p (children f "param") /\ overflows int_of float_of ps p
  end.
Proof. intros n. pose proof (factory_cases int_of float_of tan15 n) as H. destruct (init n); auto. Qed.
(** One filter: an element for another filter leaves it as it is, an element that is no filter aborts. *)
Theorem C99_other_name : forall f n,
  (n_name n <> "filter" -> init_filter int_of float_of f n = Abort) /\
  (n_name n = "filter" -> attr_string n "name" <> f_name f -> init_filter int_of float_of f n = Ok (f, false)).
Proof.
  intros f n. unfold init_filter, check. split.
  - intros H. apply String.eqb_neq in H. rewrite H. reflexivity.
  - intros -> H. apply String.eqb_neq in H. rewrite H. cbn. rewrite orb_true_r. reflexivity.
Qed.
(** A filter named in the element takes its parameters and reports whether they are valid. *)
Theorem C99_result : forall f n g b, f_name f <> "" -> n_name n = "filter" -> attr_string n "name" = f_name f ->
  init_filter int_of float_of f n = Ok (g, b) -> b = valid g /\ f_name g = f_name f /\
  forall s d, find_name (f_params f) s = Some d ->
    match last_param n s with
    | None => find_name (f_params g) s = Some d
    | Some p => exists v, reads int_of float_of d p v /\ find_name (f_params g) s = Some v
    end.
Proof.
  intros f n g b Ne N A H. unfold init_filter in H. rewrite N, A, !String.eqb_refl in H. apply String.eqb_neq in Ne.
  rewrite Ne in H. cbn [negb orb check bind] in H.
  pose proof (run_params int_of float_of (children n "param") (f_params f) (f_params f) (shape_refl _)) as R.
  destruct (run (init_param int_of float_of) (f_params f) (children n "param")) as [qs| | |]; try discriminate.
  cbn [bind] in H. inversion H; subst. destruct R as (_ & _ & R). repeat split; auto.
  intros s d F. specialize (R s d F). unfold last_param. destruct (find _ _); auto. cbn. congruence.
Qed.
End C99.
Print Assumptions C99_iff.
Print Assumptions C99_configured.
Print Assumptions C99_failures.
Print Assumptions C99_other_name.
Print Assumptions C99_result.
Example C99_case : init_factory ints floats tan15_ filters1 =
  Ok [ mkFlt "Range" [("min_range", VFloat (dec 3 1)); ("max_range", VFloat (dec 100 1))];
       mkFlt "AxisRange" [("min", VFloat (dec (-5) 1)); ("max", VFloat flt_max); ("axis_index", VInt 2)] ].
Proof. vm_compute. reflexivity. Qed.
Example C99_unknown_case : init_factory ints floats tan15_ (Node "filters" [] "" [filter_node "VoxelGrid" [param "size" "1" "3"]]) = Abort /\
  init_factory ints floats tan15_ (Node "filters" [] "" [filter_node "VoxelGrid" [param "voxel_size" "2" "3"]]) = Abort.
Proof. split; vm_compute; reflexivity. Qed.
Example C99_overflow_case :
  init_factory ints floats tan15_ (Node "filters" [] "" [filter_node "AxisRange" [param "axis_index" "1" "1e10"]]) = UB.
Proof. vm_compute. reflexivity. Qed.
Example C99_result_case : exists g, init_filter ints floats (mkFlt "RandomSampler" [("sampling_rate", VFloat (dec 1 1))])
  (filter_node "RandomSampler" [param "sampling_rate" "1" "2.75"]) = Ok (g, false) /\ f_params g = [("sampling_rate", VFloat (dec 275 100))].
Proof. eexists. split; vm_compute; reflexivity. Qed.

(** C100: the factory ignores the result of InitFromXmlNode; invalid filters are used. *)
Theorem C100_only_valid_refuted : ~ (forall int_of float_of tan15 n fs, init_factory int_of float_of tan15 n = Ok fs ->
  forall f, In f fs -> valid f = true).
Proof.
  intros H.
  specialize (H ints floats tan15_ (Node "filters" [] "" [filter_node "AxisRange" [param "axis_index" "0" "3"]]) _ eq_refl _ (or_introl eq_refl)).
  vm_compute in H. discriminate.
Qed.
Print Assumptions C100_only_valid_refuted.
(** An invalid bounding box ends the process at the first cloud that has points. *)
Theorem C100_bad_box : forall f draw odd order k h a d prev, f_name f = "BoundingBoxRemoval" -> valid f = false ->
  filter_of f draw odd order = Some k -> points (h a) <> [] -> apply k h a d prev = Abort.
Proof.
  intros f draw odd order k h a d prev N V K P. unfold filter_of in K. rewrite N in K. cbv beta iota zeta delta [String.eqb Ascii.eqb Bool.eqb] in K. inversion K; subst k.
  unfold valid in V. rewrite N in V. cbn [String.eqb Ascii.eqb Bool.eqb] in V. cbn in V.
  apply bad_box; auto. cbn. rewrite <- !SFltb_fgt.
  intros (A & B & C). rewrite A, B, C in V. discriminate.
Qed.
Print Assumptions C100_bad_box.
Lemma select_all : forall keep l i, (forall j p, keep j p = true) -> exists x y, select keep l i = (x, y, l).
Proof.
  intros keep l. induction l as [|p l IH]; intros i K; cbn [select]; eauto.
  destruct (IH (S i) K) as (x & y & ->). rewrite K. eauto.
Qed.
Lemma select_none : forall keep l i, (forall j p, keep j p = false) -> exists x y, select keep l i = (x, y, []).
Proof.
  intros keep l. induction l as [|p l IH]; intros i K; cbn [select]; eauto.
  destruct (IH (S i) K) as (x & y & ->). rewrite K. eauto.
Qed.
Lemma once_predicate : forall k c, predicate k -> (match k with Box _ _ _ _ _ _ => False | _ => True end) -> points c <> [] ->
  passes k = false -> once k c = Ok (mkCloud (stamp c) (snd (select (keeps k) (points c) 0))).
Proof.
  intros k c P B N Q. unfold once, apply, set_input. cbn [Nat.eqb]. destruct (points c) as [|p l] eqn:E; [contradiction|].
  destruct k; try contradiction; cbn [bind filter inner]; rewrite Q; cbn [bind body]; unfold upd; cbn [Nat.eqb];
    rewrite E; destruct (select _ (p :: l) 0) as [[x y] z]; reflexivity.
Qed.
(** An axis other than 0, 1, 2 removes nothing. *)
Theorem C100_bad_axis : forall f draw odd order k c, f_name f = "AxisRange" ->
  (get_int (f_params f) "axis_index" < 0 \/ 2 < get_int (f_params f) "axis_index")%Z -> valid f = false /\
  (filter_of f draw odd order = Some k -> points c <> [] -> exists c', once k c = Ok c' /\ points c' = points c /\ stamp c' = stamp c).
Proof.
  intros f draw odd order k c N I. split.
  - unfold valid. rewrite N. cbn. destruct I as [I|I].
    + apply Z.leb_gt in I. rewrite I. rewrite andb_false_r. reflexivity.
    + apply Z.leb_gt in I. rewrite I. apply andb_false_r.
  - intros K P. unfold filter_of in K. rewrite N in K. cbv beta iota zeta delta [String.eqb Ascii.eqb Bool.eqb] in K. inversion K; subst k. clear K.
    destruct (passes (Axis (get_float (f_params f) "min") (get_float (f_params f) "max") (get_int (f_params f) "axis_index"))) eqn:Q.
    + exists c. split; auto. unfold once, apply, set_input. cbn [Nat.eqb]. destruct (points c) eqn:E; [contradiction|].
      cbn [bind filter inner]. rewrite Q. reflexivity.
    + rewrite once_predicate; try exact Logic.I; auto. destruct (select_all (keeps (Axis (get_float (f_params f) "min") (get_float (f_params f) "max") (get_int (f_params f) "axis_index"))) (points c) 0) as (x & y & ->).
      * intros j p. cbn. destruct (Z.eqb_spec (get_int (f_params f) "axis_index") 0); [lia|].
        destruct (Z.eqb_spec (get_int (f_params f) "axis_index") 1); [lia|].
        destruct (Z.eqb_spec (get_int (f_params f) "axis_index") 2); [lia|]. reflexivity.
      * eexists. split; [reflexivity|]. auto.
Qed.
Print Assumptions C100_bad_axis.
(** A sampling rate above 1 keeps every point, a negative one or NaN none (the draws are not negative). *)
Theorem C100_bad_rate : forall f draw odd order k c, f_name f = "RandomSampler" ->
  let rate := widen (get_float (f_params f) "sampling_rate") in
  (forall i, SFleb (S754_zero false) (draw i) = true) -> filter_of f draw odd order = Some k -> points c <> [] ->
  (SFltb (literal 1 1) rate = true -> once k c = Ok c) /\
  (SFltb rate (S754_zero false) = true \/ rate = S754_nan -> once k c = Ok (mkCloud (stamp c) [])).
Proof.
  intros f draw odd order k c N rate D K P. unfold filter_of in K. rewrite N in K. cbv beta iota zeta delta [String.eqb Ascii.eqb Bool.eqb] in K. inversion K; subst k. clear K.
  fold rate. split.
  - intros R. assert (A : SFltb (literal 999 1000) rate = true).
    { apply SFltb_leb_trans with (literal 1 1); [vm_compute; reflexivity|]. apply SFltb_leb. exact R. }
    rewrite A. unfold once, apply, set_input. cbn [Nat.eqb]. destruct (points c) eqn:E; [contradiction|].
    cbn [bind filter inner passes]. reflexivity.
  - intros R. assert (A : forall x, SFleb (S754_zero false) x = true -> SFltb x rate = false /\ SFleb x rate = false).
    { intros x X. destruct R as [R| ->].
      - split; apply not_true_iff_false; intros Y.
        + pose proof (SFleb_ltb_trans _ _ _ X Y) as Z. pose proof (SFltb_leb_trans _ _ _ Z (SFltb_leb _ _ R)) as W. discriminate.
        + pose proof (SFleb_trans _ _ _ X Y) as Z. pose proof (SFleb_ltb_trans _ _ _ Z R) as W. discriminate.
      - destruct x; auto. }
    rewrite (proj1 (A (literal 999 1000) ltac:(vm_compute; reflexivity))).
    rewrite once_predicate; try exact Logic.I; auto.
    destruct (select_none (keeps (Sample false rate draw)) (points c) 0) as (x & y & ->); [|reflexivity].
    intros j p. cbn. apply (proj2 (A (draw j) (D j))).
Qed.
Print Assumptions C100_bad_rate.
Definition one_point : cloud := mkCloud (mkTime 5 0) [mkPoint (dec 1 1) (dec 2 1) (dec 3 1) (dec 0 1) (dec 0 1)].
Definition box_filter : node := filter_node "BoundingBoxRemoval" [param "min_x" "0" "5"; param "max_x" "0" "4"].
Example C100_bad_box_case : exists f k, init_factory ints floats tan15_ (Node "filters" [] "" [box_filter]) = Ok [f] /\
  valid f = false /\ filter_of f (fun _ => dec 0 1) (fun _ => 0%Z) (fun l => l) = Some k /\ once k one_point = Abort.
Proof. eexists _, _. repeat split; vm_compute; reflexivity. Qed.
Example C100_bad_axis_case : exists f k, init_factory ints floats tan15_
    (Node "filters" [] "" [filter_node "AxisRange" [param "axis_index" "0" "3"; param "max" "0" "-100"]]) = Ok [f] /\
  filter_of f (fun _ => dec 0 1) (fun _ => 0%Z) (fun l => l) = Some k /\ once k one_point = Ok one_point.
Proof. eexists _, _. repeat split; vm_compute; reflexivity. Qed.
Example C100_bad_rate_case : exists f k, init_factory ints floats tan15_
    (Node "filters" [] "" [filter_node "RandomSampler" [param "sampling_rate" "0" "-1"]]) = Ok [f] /\
  filter_of f (fun _ => literal 1 2) (fun _ => 0%Z) (fun l => l) = Some k /\ once k one_point = Ok (mkCloud (mkTime 5 0) []).
Proof. eexists _, _. repeat split; vm_compute; reflexivity. Qed.

(** C101: creation of a matcher. *)
Section C101.
Variable int_of : string -> Z.
Variable float_of : string -> fl.
Variable bool_of : string -> bool.
Notation create := (create_matcher int_of float_of bool_of).
Theorem C101_created_iff : forall o, (exists m, create o = Ok (Some m)) <->
  implemented (mo_type o) /\ forall p, In p (option_params o) -> In (attr_string p "name") (map fst (registered (mo_type o))).
Proof.
  intros o. pose proof (create_cases int_of float_of bool_of o) as H. cbn zeta in H. split.
  - intros [m E]. destruct H as [(A & B & _)|[(_ & _ & F)|[(_ & F)|(_ & _ & _ & F)]]]; [auto|congruence|congruence|congruence].
  - intros [A B]. destruct H as [(_ & _ & m & E & _)|[(_ & (p & P & Q) & _)|[(F & _)|(F & _)]]]; eauto.
    + exfalso. apply Q. auto.
    + unfold implemented in A. lia.
    + contradiction.
Qed.
(** The options of a created matcher: the last value of each, read as the registered type, or the default. *)
Theorem C101_options : forall o m, create o = Ok (Some m) -> m_type m = mo_type o /\
  map fst (m_options m) = map fst (registered (mo_type o)) /\
  forall s d, find_name (registered (mo_type o)) s = Some d ->
    find_name (m_options m) s =
    Some (match find (fun p => String.eqb (attr_string p "name") s) (rev (option_params o)) with
          | None => d
          | Some p => read_as int_of float_of bool_of d (n_text p)
          end).
Proof.
  intros o m E. pose proof (create_cases int_of float_of bool_of o) as H. cbn zeta in H.
  destruct H as [(_ & _ & m' & E' & R)|[(_ & _ & F)|[(_ & F)|(_ & _ & _ & F)]]]; try congruence.
  replace m with m' by congruence. exact R.
Qed.
(** Otherwise: types 2 and 4 and unknown options end the process, any other number gives the null pointer. *)
Theorem C101_failures : forall o,
  (mo_type o = 2%Z \/ mo_type o = 4%Z -> create o = Abort) /\
  (implemented (mo_type o) -> (exists p, In p (option_params o) /\ ~ In (attr_string p "name") (map fst (registered (mo_type o)))) ->
   create o = Abort) /\
  (mo_type o < 1 \/ 6 < mo_type o -> create o = Ok None)%Z.
Proof.
  intros o. pose proof (create_cases int_of float_of bool_of o) as H. cbn zeta in H. unfold implemented in *. repeat split.
  - intros T. destruct H as [(F & _)|[(F & _)|[(_ & F)|(F & G & K & _)]]]; auto; lia.
  - intros A (p & P & Q). destruct H as [(_ & F & _)|[(_ & _ & F)|[(_ & F)|(F & _)]]]; auto.
    + exfalso. apply Q. auto.
    + tauto.
  - intros T. destruct H as [(F & _)|[(F & _)|[(F & _)|(_ & _ & _ & F)]]]; auto; lia.
Qed.
(** libpointmatcher ICP and NDT have no options: any <param> ends the process. *)
Theorem C101_no_options : forall o p, mo_type o = 1%Z \/ mo_type o = 5%Z -> In p (option_params o) -> create o = Abort.
Proof.
  intros o p T P. apply C101_failures; [unfold implemented; tauto|]. exists p. split; auto.
  destruct T as [-> | ->]; exact (fun x => x).
Qed.
End C101.
Print Assumptions C101_created_iff.
Print Assumptions C101_options.
Print Assumptions C101_failures.
Print Assumptions C101_no_options.
Definition icp_options : node := Node "registrator_options" [("type", "6")] ""
  [Node "param" [("name", "max_iteration")] "50" []; Node "param" [("name", "dist_outlier_ratio")] "2.75" [];
   Node "param" [("name", "max_iteration")] "60" []].
Example C101_case : create_matcher ints floats bools (mkMopts 6 (dec 7 10) (Some icp_options)) =
  Ok (Some (mkMatcher 6 [("knn_normal_estimate", OInt 7); ("max_iteration", OInt 60); ("dist_outlier_ratio", OFloat (dec 275 100))])).
Proof. vm_compute. reflexivity. Qed.
Example C101_failures_case : create_matcher ints floats bools (mkMopts 5 (dec 7 10) (Some icp_options)) = Abort /\
  create_matcher ints floats bools (mkMopts 2 (dec 7 10) None) = Abort /\
  create_matcher ints floats bools (mkMopts 0 (dec 7 10) None) = Ok None.
Proof. repeat split; vm_compute; reflexivity. Qed.

(** C102: initialisation of the map builder. *)
Section C102.
Variable int_of : string -> Z.
Variable float_of : string -> fl.
Variable bool_of : string -> bool.
Variable tan15 : fl.
Variable creates : string -> bool.
Notation init := (initialise int_of float_of bool_of tan15 creates).
Theorem C102_iff : forall disk s, (exists b, init disk (Some s) = Ok b) <->
  exists root, root_of disk s = Some root /\ acceptable int_of float_of tan15 bool_of creates root.
Proof.
  intros disk s. rewrite initialise_root. destruct (root_of disk s) as [root|].
  - pose proof (load_cases int_of float_of tan15 bool_of creates root) as H. split.
    + intros [b E]. rewrite E in H. exists root. tauto.
    + intros (r & [= <-] & A). destruct (load _ _ _ _ _ root); try tauto. eauto.
  - split; [intros [b E]; discriminate|intros (r & E & _); discriminate].
Qed.
(** What the builder holds then. *)
Theorem C102_loaded : forall disk s b, init disk (Some s) = Ok b ->
  exists root, root_of disk s = Some root /\ loaded int_of float_of tan15 bool_of root b.
Proof.
  intros disk s b. rewrite initialise_root. destruct (root_of disk s) as [root|]; [|discriminate].
  intros E. pose proof (load_cases int_of float_of tan15 bool_of creates root) as H. rewrite E in H. exists root. tauto.
Qed.
(** The paths end in a slash. *)
Theorem C102_slash : forall disk s b, init disk (Some s) = Ok b ->
  exists e p, o_export (b_opts b) = (e ++ "/")%string /\ o_package (b_opts b) = (p ++ "/")%string.
Proof.
  intros disk s b E. destruct (C102_loaded _ _ _ E) as (root & _ & A & B & _).
  assert (S : forall x, exists y, (if ends_in_slash x then x else x ++ "/")%string = (y ++ "/")%string).
  { intros x. destruct (ends_in_slash x) eqn:F; [|eauto]. clear -F. induction x as [|c x IH]; [discriminate|].
    destruct x as [|d x].
    - cbn in F. apply Ascii.eqb_eq in F. subst c. exists "". reflexivity.
    - destruct (IH F) as [y G]. exists (String c y). cbn. f_equal. exact G. }
  cbn zeta in A, B. destruct (S (setting root ["whole_options"] "export_file_path" id_string "./")) as [y Hy].
  destruct (S (setting root ["whole_options"] "map_package_path" id_string "./")) as [z Hz].
  exists y, z. rewrite A, B. auto.
Qed.
(** Without a usable file the default configuration is used, with which the process always ends: the
    IMU is on and its frequency is 0. *)
Theorem C102_defaults_abort : forall disk s, root_of disk s = None -> init disk (Some s) = Abort.
Proof. intros disk s H. rewrite initialise_root, H. reflexivity. Qed.
Theorem C102_default_config_refuted : ~ (forall disk s, exists b, init disk (Some s) = Ok b).
Proof. intros H. destruct (H (fun _ => None) "config.xml") as [b E]. rewrite C102_defaults_abort in E; [discriminate|reflexivity]. Qed.
(** Undefined behaviour: a null pointer as the name, an empty path or a value that does not fit an int; no
    exception leaves the function. *)
Theorem C102_undefined : forall disk s,
  match init disk s with
  | Throw => False
  | UB => s = None \/ exists f root, s = Some f /\ root_of disk f = Some root /\
      (setting root ["whole_options"] "export_file_path" id_string "./" = "" \/
       setting root ["whole_options"] "map_package_path" id_string "./" = "" \/
       exists fs f p ps, element root ["filters"] = Some fs /\ In f (listed tan15 fs) /\ class_of tan15 f = Some ps /\
         In p (children f "param") /\ overflows int_of float_of ps p)
  | _ => True
  end.
Proof.
  intros disk [s|].
  - rewrite initialise_root. destruct (root_of disk s) as [root|] eqn:R; [|exact I].
    pose proof (load_cases int_of float_of tan15 bool_of creates root) as H. destruct (load _ _ _ _ _ root); auto.
    right. exists s, root. tauto.
  - left. reflexivity.
Qed.
Theorem C102_empty_path : forall disk s root, root_of disk s = Some root ->
  setting root ["whole_options"] "export_file_path" id_string "./" = "" -> init disk (Some s) = UB.
Proof.
  intros disk s root R E. rewrite initialise_root, R. unfold load.
  rewrite !read_one. change (fun s : string => s) with id_string. change (o_export opts_default) with "./". rewrite E. reflexivity.
Qed.
Theorem C102_null_name : forall disk, init disk None = UB.
Proof. reflexivity. Qed.
(** A file without back_end_options, or without IMU settings, is rejected. *)
Theorem C102_needs_back_end : forall disk s root, root_of disk s = Some root -> element root ["back_end_options"] = None ->
  ~ exists b, init disk (Some s) = Ok b.
Proof.
  intros disk s root R E H. apply C102_iff in H. destruct H as (r & R' & A). rewrite R in R'. inversion R'; subst r.
  destruct A as (_ & _ & _ & [A|A] & _); unfold setting, element in *; destruct (find _ (n_kids root)); discriminate.
Qed.
Theorem C102_needs_imu_settings : forall disk s root, root_of disk s = Some root ->
  element root ["front_end_options"; "imu_options"] = None -> ~ exists b, init disk (Some s) = Ok b.
Proof.
  intros disk s root R E H. apply C102_iff in H. destruct H as (r & R' & A). rewrite R in R'. inversion R'; subst r.
  destruct A as (_ & _ & _ & _ & _ & _ & _ & _ & _ & _ & A). unfold setting in A. rewrite E in A. specialize (A eq_refl).
  vm_compute in A. discriminate.
Qed.
End C102.
Print Assumptions C102_iff.
Print Assumptions C102_loaded.
Print Assumptions C102_slash.
Print Assumptions C102_defaults_abort.
Print Assumptions C102_default_config_refuted.
Print Assumptions C102_undefined.
Print Assumptions C102_empty_path.
Print Assumptions C102_null_name.
Print Assumptions C102_needs_back_end.
Print Assumptions C102_needs_imu_settings.
Definition config (export : string) : list node :=
  [Node "edward_liu" [] "" [Node "static_mapping" [] ""
    [ Node "whole_options" [("export_file_path", export)] "" [];
      filters1;
      Node "front_end_options" [("accumulate_cloud_num", "2")] ""
        [ Node "imu_options" [("use_imu", "false")] "" [];
          Node "scan_matcher_options" [("type", "6")] "" [Node "registrator_options" [("type", "5")] "" []; icp_options] ];
      Node "back_end_options" [] "" [Node "loop_detector_setting" [("use_gps", "true")] "" []] ]]].
Definition disk_with (export : string) (s : string) : option (list node) :=
  if String.eqb s "config.xml" then Some (config export) else None.
Example C102_case : exists b, initialise ints floats bools tan15_ (fun _ => true) (disk_with "/tmp/map") (Some "config.xml") = Ok b /\
  o_export (b_opts b) = "/tmp/map/" /\ o_package (b_opts b) = "./" /\ map f_name (b_filters b) = ["Range"; "AxisRange"] /\
  find_name (m_options (b_matcher b)) "max_iteration" = Some (OInt 60).
Proof. eexists. split; [vm_compute; reflexivity|]. repeat split. Qed.
Example C102_missing_case : initialise ints floats bools tan15_ (fun _ => true) (disk_with "/tmp/map") (Some "confg.xml") = Abort /\
  initialise ints floats bools tan15_ (fun _ => true) (disk_with "") (Some "config.xml") = UB /\
  initialise ints floats bools tan15_ (fun _ => false) (disk_with "/tmp/map") (Some "config.xml") = Abort.
Proof. repeat split; vm_compute; reflexivity. Qed.

(** C103: the voxel size of the submap options has no effect; the voxels always have the default size 0.1. *)
Theorem C103_size_ignored : forall int_of float_of tan15 text draw odd order c, points c <> [] ->
  submap_filter int_of float_of tan15 text draw odd order c = once (Voxel (dec 1 10) odd order) c.
Proof.
  intros int_of float_of tan15 text draw odd order c H. unfold submap_filter. destruct (points c) as [|p l]; [contradiction|].
  assert (E : submap_voxel int_of float_of tan15 text = Ok (mkFlt "VoxelGrid" [("voxel_size", VFloat (dec 1 10))])) by reflexivity.
  rewrite E. unfold once, apply. cbn [bind].
  replace (filter_of (mkFlt "VoxelGrid" [("voxel_size", VFloat (dec 1 10))]) draw odd order) with (Some (Voxel (dec 1 10) odd order)) by reflexivity.
  destruct (set_input _ _ _ _); reflexivity.
Qed.
Print Assumptions C103_size_ignored.
Theorem C103_configured_size_refuted : ~ (forall int_of float_of tan15 text draw odd order c, points c <> [] ->
  submap_filter int_of float_of tan15 text draw odd order c = once (Voxel (float_of text) odd order) c).
Proof.
  intros H.
  specialize (H ints floats tan15_ "5" (fun _ => dec 0 1) (fun _ => 0%Z) (fun l => l)
    (mkCloud (mkTime 5 0) [mkPoint (dec 1 1) (dec 0 1) (dec 0 1) (dec 0 1) (dec 0 1);
                           mkPoint (dec 2 1) (dec 0 1) (dec 0 1) (dec 0 1) (dec 0 1)]) ltac:(discriminate)).
  vm_compute in H. discriminate.
Qed.
Print Assumptions C103_configured_size_refuted.
Definition metre_apart : cloud :=
  mkCloud (mkTime 5 0) [mkPoint (dec 1 1) (dec 0 1) (dec 0 1) (dec 0 1) (dec 0 1); mkPoint (dec 2 1) (dec 0 1) (dec 0 1) (dec 0 1) (dec 0 1)].
Example C103_case : submap_filter ints floats tan15_ "5" (fun _ => dec 0 1) (fun _ => 0%Z) (fun l => l) metre_apart = Ok metre_apart /\
  exists c, once (Voxel (floats "5") (fun _ => 0%Z) (fun l => l)) metre_apart = Ok c /\ List.length (points c) = 1.
Proof. split; [vm_compute; reflexivity|]. eexists. split; vm_compute; reflexivity. Qed.
