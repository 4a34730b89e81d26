(** Model of the configuration from XML: XmlInterface::SetValue (pre_processors/xml_interface.h:55-75),
    Interface::InitFromXmlNode (pre_processors/filter_interface.cc:29-60), Factory::InitFromXmlNode
    (pre_processors/filter_factory.cc:63-81), the constructors and ConfigsValid of all filters,
    Interface::InitWithXml and CreateMatcher (registrators/interface.cc:60-90, 139-173),
    ReadMatcherOptions, CheckOptions and MapBuilder::Initialise (builder/map_builder_options.cc:30-322)
    and MapBuilder::InitialiseInside (builder/map_builder.cc:62-113).

    An XML document is a tree with the operations of pugixml; the conversions of texts to numbers
    (as_int, as_float, as_bool) are arbitrary functions.  Of the options only those are kept that
    are checked during the initialisation; console output, the optimizer and the threads are
    left out. *)
From Coq Require Import ZArith List Bool String Ascii SpecFloat.
From Verif Require Import Outcome TimeModel FilterModel FilesModel.
Import ListNotations.
Local Open Scope string_scope.
Local Open Scope list_scope.
Local Open Scope outcome_scope.

(** pugi::xml_node; [text] is what text() returns, the first character data. *)
Inductive node := Node (name : string) (attrs : list (string * string)) (text : string) (kids : list node).
Definition n_name (n : node) := let 'Node s _ _ _ := n in s.
Definition n_attrs (n : node) := let 'Node _ a _ _ := n in a.
Definition n_text (n : node) := let 'Node _ _ t _ := n in t.
Definition n_kids (n : node) := let 'Node _ _ _ k := n in k.
Fixpoint find_name {A} (l : list (string * A)) (s : string) : option A :=
  match l with
  | [] => None
  | (k, v) :: r => if String.eqb k s then Some v else find_name r s
  end.
(** attribute(s): the first one, None is the null attribute. *)
Definition attr (n : node) (s : string) : option string := find_name (n_attrs n) s.
(** attribute(s).as_string(). *)
Definition attr_string (n : node) (s : string) : string :=
  match attr n s with Some v => v | None => "" end.
(** The loop over child(s) and next_sibling(s). *)
Definition children (n : node) (s : string) : list node :=
  List.filter (fun k => String.eqb (n_name k) s) (n_kids n).
(** child(s) of a node that may be null. *)
Definition child (n : option node) (s : string) : option node :=
  match n with None => None | Some n => hd_error (children n s) end.

(** Decimal literals: a double, narrowed to float. *)
Definition literal (n d : Z) : spec_float := SFdiv 53 1024 (of_int n) (of_int d).
Definition dec (n d : Z) : fl := narrow (literal n d).
(** static_cast<float>(int32_t). *)
Definition int_to_float (z : Z) : fl := binary_normalize 24 128 z 0 false.

(** A registered parameter has one of two types, xml_interface.h:38, 81-90. *)
Inductive value := VInt (z : Z) | VFloat (x : fl).
Definition params := list (string * value).

Section Config.
Variable int_of : string -> Z.          (* as_int() *)
Variable float_of : string -> fl.       (* as_float() *)
Variable bool_of : string -> bool.      (* as_bool() *)
Variable tan15 : fl.                    (* std::tan(M_PI / 12.), narrowed to float *)
(** The attribute conversions of a null attribute give the defaults of pugixml. *)
Definition attr_int (n : node) (s : string) : Z :=
  match attr n s with Some v => int_of v | None => 0%Z end.

(** SetValue, xml_interface.h:55-75: the value is converted to the registered type. *)
Definition cast (old new : value) : outcome value :=
  match old, new with
  | VInt _, VInt z => Ok (VInt z)
  | VInt _, VFloat x => let* z := to_int x in Ok (VInt z)
  | VFloat _, VInt z => Ok (VFloat (int_to_float z))
  | VFloat _, VFloat x => Ok (VFloat x)
  end.
(** Assign the registered parameter; Ok None: not registered, returns false. *)
Fixpoint set_value (ps : params) (s : string) (v : value) : outcome (option params) :=
  match ps with
  | [] => Ok None
  | (k, old) :: r =>
      if String.eqb k s then let* w := cast old v in Ok (Some ((k, w) :: r))
      else let* r' := set_value r s v in
           Ok (match r' with Some r' => Some ((k, old) :: r') | None => None end)
  end.

(** The body of the loop, filter_interface.cc:38-57. *)
Definition init_param (ps : params) (n : node) : outcome params :=
  let store v := let* r := set_value ps (attr_string n "name") v in
                 match r with Some ps' => Ok ps' | None => Abort end in
  match attr n "type" with
  | None => Abort
  | Some t => if (int_of t =? 0)%Z then store (VInt (int_of (n_text n)))
              else if (int_of t =? 1)%Z then store (VFloat (float_of (n_text n)))
              else Abort
  end.

(** A filter object: its class and the values of its parameters. *)
Record flt := mkFlt { f_name : string; f_params : params }.
Definition get_float (ps : params) (s : string) : fl :=
  match find_name ps s with Some (VFloat x) => x | _ => S754_nan end.
Definition get_int (ps : params) (s : string) : Z :=
  match find_name ps s with Some (VInt z) => z | _ => 0%Z end.

(** The constructors: filter_random_sample.cc:29, filter_range_image.cc:29-54,
    filter_ground_removal.cc:29-39, filter_ground_removal2.cc:74-106, filter_range.cc:31-38,
    filter_statistic_removal.cc:31-37, filter_voxel_grid.cc:30 and .h:55, filter_axis_range.cc:29-33
    and .h:56-57, filter_bounding_box.cc:31-38 and .h:53-58; the names are those of
    RegisterSupportedFilters, filter_factory.cc:108-125, equal to those of kFilterNameMap, cc:40-50. *)
Definition supported : list (string * params) :=
  [ ("RandomSampler", [("sampling_rate", VFloat (dec 1 1))]);
    ("RangeImage", [("top_angle", VFloat (dec 30 1)); ("btm_angle", VFloat (dec (-15) 1));
                    ("offset_x", VFloat (dec 0 1)); ("offset_y", VFloat (dec 0 1)); ("offset_z", VFloat (dec 0 1));
                    ("vertical_line_num", VInt 40); ("horizontal_line_num", VInt 1800)]);
    ("GroundRemoval", [("leaf_size", VFloat (dec 8 10)); ("height_threshold", VFloat (dec 15 100));
                       ("min_point_num_in_voxel", VInt 10)]);
    ("GroundRemoval2", [("r_max", VFloat (dec 100 1)); ("r_min", VFloat (dec 1 1));
                        ("start_ground_height", VFloat (dec (-25) 100)); ("long_line_threshold", VFloat (dec 1 1));
                        ("max_long_line_height", VFloat (dec 1 10)); ("max_start_height", VFloat (dec 2 10));
                        ("max_error", VFloat (dec 5 100)); ("max_slope", VFloat tan15); ("max_b", VFloat (dec 1 10));
                        ("max_dist_to_line", VFloat (dec 5 100)); ("search_angle", VFloat (dec 10 1));
                        ("bin_num", VInt 200); ("segment_num", VInt 180); ("thread_num", VInt 4)]);
    ("Range", [("min_range", VFloat (dec 0 1)); ("max_range", VFloat flt_max)]);
    ("StatisticRemoval", [("std_mul", VFloat (dec 1 1)); ("point_num_meank", VInt 30)]);
    ("VoxelGrid", [("voxel_size", VFloat (dec 1 10))]);
    ("AxisRange", [("min", VFloat flt_lowest); ("max", VFloat flt_max); ("axis_index", VInt 2)]);
    ("BoundingBoxRemoval", [("min_x", VFloat flt_lowest); ("min_y", VFloat flt_lowest); ("min_z", VFloat flt_lowest);
                            ("max_x", VFloat flt_max); ("max_y", VFloat flt_max); ("max_z", VFloat flt_max)]) ].

(** ConfigsValid: filter_axis_range.cc:41-43, filter_bounding_box.cc:49-51,
    filter_random_sample.cc:35-37, filter_voxel_grid.cc:35, otherwise filter_interface.h:50. *)
Definition valid (f : flt) : bool :=
  let x := get_float (f_params f) in
  if String.eqb (f_name f) "AxisRange" then
    SFltb (x "min") (x "max") && (0 <=? get_int (f_params f) "axis_index")%Z && (get_int (f_params f) "axis_index" <=? 2)%Z
  else if String.eqb (f_name f) "BoundingBoxRemoval" then
    SFltb (x "min_x") (x "max_x") && SFltb (x "min_y") (x "max_y") && SFltb (x "min_z") (x "max_z")
  else if String.eqb (f_name f) "RandomSampler" then
    SFleb (S754_zero false) (x "sampling_rate") && SFleb (x "sampling_rate") (dec 1 1)
  else if String.eqb (f_name f) "VoxelGrid" then
    SFltb (literal 1 1000000) (widen (x "voxel_size"))
  else true.

(** Interface::InitFromXmlNode, filter_interface.cc:29-60: the object afterwards and the result. *)
Definition init_filter (f : flt) (n : node) : outcome (flt * bool) :=
  let* _ := check (String.eqb (n_name n) "filter") in
  if String.eqb (f_name f) "" || negb (String.eqb (attr_string n "name") (f_name f)) then Ok (f, false)
  else let* ps := run init_param (f_params f) (children n "param") in
       let f' := mkFlt (f_name f) ps in
       Ok (f', valid f').

(** Factory::InitFromXmlNode, filter_factory.cc:63-81: appends to filters_. *)
Fixpoint init_loop (fs : list flt) (l : list node) : outcome (list flt) :=
  match l with
  | [] => Ok fs
  | n :: r =>
      match find_name supported (attr_string n "name") with
      | None => init_loop fs r
      | Some ps => let* x := init_filter (mkFlt (attr_string n "name") ps) n in
                   init_loop (fs ++ [fst x]) r
      end
  end.
Definition init_factory (n : node) : outcome (list flt) := init_loop [] (children n "filter").

(** The filter of FilterModel that a configured object is; None: RangeImage and GroundRemoval2.
    The unspecified parts of the filters are parameters there. *)
Definition filter_of (f : flt) (draw : nat -> spec_float) (odd : fl -> Z)
    (order : list (cell * list point) -> list (cell * list point)) : option kind :=
  let x := get_float (f_params f) in
  let i := get_int (f_params f) in
  if String.eqb (f_name f) "Range" then Some (Range (x "min_range") (x "max_range"))
  else if String.eqb (f_name f) "AxisRange" then Some (Axis (x "min") (x "max") (i "axis_index"))
  else if String.eqb (f_name f) "BoundingBoxRemoval" then
    Some (Box (x "min_x") (x "min_y") (x "min_z") (x "max_x") (x "max_y") (x "max_z"))
  else if String.eqb (f_name f) "RandomSampler" then
    Some (Sample (SFltb (literal 999 1000) (widen (x "sampling_rate"))) (widen (x "sampling_rate")) draw)
  else if String.eqb (f_name f) "StatisticRemoval" then Some Statistic
  else if String.eqb (f_name f) "VoxelGrid" then Some (Voxel (x "voxel_size") odd order)
  else if String.eqb (f_name f) "GroundRemoval" then
    Some (Ground (x "leaf_size") (x "height_threshold") (i "min_point_num_in_voxel"))
  else None.

(** The voxel filter of a finished submap, builder/submap.cc:139-156: a VoxelGrid is given the element
    <filter name="RandomSampler"><param type="1" name="voxel_size">[text]</param></filter>, [text] is
    std::to_string of the option voxel_size; the result is not used.  Then the cloud is filtered. *)
Definition submap_voxel (text : string) : outcome flt :=
  let ps := match find_name supported "VoxelGrid" with Some ps => ps | None => [] end in
  let* x := init_filter (mkFlt "VoxelGrid" ps)
              (Node "filter" [("name", "RandomSampler")] ""
                 [Node "param" [("type", "1"); ("name", "voxel_size")] text []]) in
  Ok (fst x).
Definition submap_filter (text : string) (draw : nat -> spec_float) (odd : fl -> Z)
    (order : list (cell * list point) -> list (cell * list point)) (c : cloud) : outcome cloud :=
  match points c with
  | [] => Ok c
  | _ =>
      let* f := submap_voxel text in
      match filter_of f draw odd order with
      | None => Abort
      | Some k =>
          let h : heap := fun a => if Nat.eqb a 0 then c else no_cloud in
          let* o := set_input k h (Some 0) new_obj in
          let* r := filter k h (Some 1) o in
          Ok (fst r 1)
      end
  end.

(** * Registration. *)

(** Registered options, registrators/interface.h:48-53, 126-128. *)
Inductive option_value := OInt (z : Z) | OFloat (x : fl) | OBool (b : bool).
Definition options := list (string * option_value).
Fixpoint set_option (os : options) (s : string) (t : string) : option options :=
  match os with
  | [] => None
  | (k, old) :: r =>
      if String.eqb k s then
        Some ((k, match old with
                  | OInt _ => OInt (int_of t)
                  | OFloat _ => OFloat (float_of t)
                  | OBool _ => OBool (bool_of t)
                  end) :: r)
      else match set_option r s t with Some r' => Some ((k, old) :: r') | None => None end
  end.
(** Interface::InitWithXml, interface.cc:60-90. *)
Definition init_option (os : options) (n : node) : outcome options :=
  match set_option os (attr_string n "name") (n_text n) with Some os' => Ok os' | None => Abort end.

Record matcher := mkMatcher { m_type : Z; m_options : options }.
(** What the constructors register: icp_pointmatcher.cc:73-78 and ndt.cc:29-34 nothing,
    ndt_gicp.cc:28-37 and .h:70-74, icp_fast.cc:407-419 and .h:56-60. *)
Definition registered (t : Z) : options :=
  if (t =? 3)%Z then [("use_ndt", OBool true); ("using_voxel_filter", OBool true);
                      ("voxel_resolution", OFloat (dec 2 10))]
  else if (t =? 6)%Z then [("knn_normal_estimate", OInt 7); ("max_iteration", OInt 100);
                           ("dist_outlier_ratio", OFloat (dec 7 10))]
  else [].
(** MatcherOptions, interface.h:55-61. *)
Record mopts := mkMopts { mo_type : Z; mo_score : fl; mo_node : option node }.
Definition mopts_default : mopts := mkMopts 1 (dec 7 10) None.
(** CreateMatcher, interface.cc:139-173; Ok None is the null pointer.  The types are those of
    enum Type, interface.h:37-46. *)
Definition create_matcher (o : mopts) : outcome (option matcher) :=
  let t := mo_type o in
  if (t =? 1)%Z || (t =? 3)%Z || (t =? 5)%Z || (t =? 6)%Z then
    let* os := match mo_node o with
               | Some n => run init_option (registered t) (children n "param")
               | None => Ok (registered t)
               end in
    Ok (Some (mkMatcher t os))
  else if (t =? 2)%Z || (t =? 4)%Z then Abort
  else Ok None.

(** * The map builder. *)

(** GET_SINGLE_OPTION, common/macro_defines.h:203-219: the text of the attribute, None: the target
    keeps its value. *)
Definition single (n : option node) (c a : string) : option string :=
  match child n c with Some x => attr x a | None => None end.
Definition read {A} (n : option node) (c a : string) (f : string -> A) (old : A) : A :=
  match single n c a with Some s => f s | None => old end.

(** ReadMatcherOptions, map_builder_options.cc:30-57. *)
Definition read_matcher (father : option node) (s : string) (o : mopts) : mopts :=
  let t := read father s "type" int_of (mo_type o) in
  let score := read father s "accepted_min_score" float_of (mo_score o) in
  let x := match child father s with
           | None => mo_node o
           | Some m => match find (fun r => (attr_int r "type" =? t)%Z) (children m "registrator_options") with
                       | Some r => Some r
                       | None => mo_node o
                       end
           end in
  mkMopts t score x.

(** MapBuilderOptions, builder/map_builder.h:66-115, back_end/options.h:31-36, back_end/
    loop_detector_options.h:28-29, builder/multi_resolution_voxel_map.h:62-65: what the checks use. *)
Record opts := mkOpts {
  o_export : string; o_package : string;
  o_hit : fl; o_miss : fl; o_cell : Z;
  o_accumulate : Z; o_imu : bool; o_frequency : fl; o_scan : mopts; o_submap : mopts;
  o_gps : bool; o_descriptor : bool }.
Definition opts_default : opts :=
  mkOpts "./" "./" (dec 55 100) (dec 48 100) 10 1 true (dec 0 1) mopts_default mopts_default false false.

(** CheckOptions, map_builder_options.cc:60-69; the comparisons with 0.5 are in double. *)
Definition check_options (o : opts) : outcome unit :=
  let* _ := check (o_gps o || o_descriptor o) in
  let* _ := check (1 <=? o_accumulate o)%Z in
  let* _ := check (SFltb (literal 1 2) (widen (o_hit o))) in
  let* _ := check (SFltb (widen (o_miss o)) (literal 1 2)) in
  check (1 <=? o_cell o)%Z.

(** The state after a successful initialisation. *)
Record builder := mkBuilder { b_opts : opts; b_filters : list flt; b_matcher : matcher }.
(** InitialiseInside, map_builder.cc:62-113. *)
Definition inside (o : opts) (fs : list flt) : outcome builder :=
  let* m := create_matcher (o_scan o) in
  match m with
  | None => Abort
  | Some m =>
      let* _ := if o_imu o then check (SFltb (literal 1 1000000) (widen (o_frequency o))) else Ok tt in
      Ok (mkBuilder o fs m)
  end.

(** The export directories, map_builder_options.cc:111-125: CreateDir (file_utils.cc:48-58) under
    CHECK, then back() of the string, undefined if it is empty, and a slash is added.
    [creates]: whether the directory exists or can be created; otherwise an exception or the CHECK
    ends the process. *)
Variable creates : string -> bool.
Fixpoint ends_in_slash (s : string) : bool :=
  match s with
  | EmptyString => false
  | String c EmptyString => Ascii.eqb c slash
  | String _ r => ends_in_slash r
  end.
Definition directory (s : string) : outcome string :=
  let* _ := check (String.eqb (strip s) "" || creates (strip s)) in
  if String.eqb s "" then UB
  else Ok (if ends_in_slash s then s else (s ++ "/")%string).

(** The part of Initialise that reads the document, cc:102-321. *)
Definition load (root : node) : outcome builder :=
  let r := Some root in
  let d := opts_default in
  let* export := directory (read r "whole_options" "export_file_path" (fun s => s) (o_export d)) in
  let* package := directory (read r "whole_options" "map_package_path" (fun s => s) (o_package d)) in
  let hit := read r "output_mrvm_settings" "hit_prob" float_of (o_hit d) in
  let miss := read r "output_mrvm_settings" "miss_prob" float_of (o_miss d) in
  let cell := read r "output_mrvm_settings" "max_point_num_in_cell" int_of (o_cell d) in
  let* fs := match child r "filters" with Some n => init_factory n | None => Ok [] end in
  let front := child r "front_end_options" in
  let scan := read_matcher front "scan_matcher_options" (o_scan d) in
  let accumulate := read r "front_end_options" "accumulate_cloud_num" int_of (o_accumulate d) in
  let imu := read front "imu_options" "use_imu" bool_of (o_imu d) in
  let frequency := read front "imu_options" "imu_frequency" float_of (o_frequency d) in
  let back := child r "back_end_options" in
  let submap := read_matcher back "submap_matcher_options" (o_submap d) in
  let gps := read back "loop_detector_setting" "use_gps" bool_of (o_gps d) in
  let descriptor := read back "loop_detector_setting" "use_descriptor" bool_of (o_descriptor d) in
  let o := mkOpts export package hit miss cell accumulate imu frequency scan submap gps descriptor in
  let* _ := check_options o in
  inside o fs.

(** MapBuilder::Initialise, cc:71-322.  The name: None is a null pointer, with which an ifstream is
    constructed (cc:77), undefined.  [disk]: the elements of the document if the file exists and
    load_file succeeds. *)
Definition initialise (disk : string -> option (list node)) (name : option string) : outcome builder :=
  match name with
  | None => UB
  | Some s =>
      let doc := if String.eqb s "" then None else disk s in
      let top := match doc with
                 | Some l => hd_error (List.filter (fun k => String.eqb (n_name k) "edward_liu") l)
                 | None => None
                 end in
      match child top "static_mapping" with
      | None => inside opts_default []
      | Some root => load root
      end
  end.
End Config.
