(** Notions used in the statements about the configuration (C99 to C102). *)
From Coq Require Import ZArith List Bool String Ascii SpecFloat.
From Verif Require Import Outcome FilterModel FilesModel ConfigModel.
Import ListNotations.
Local Open Scope string_scope.
Local Open Scope list_scope.

Section Spec.
Variable int_of : string -> Z.
Variable float_of : string -> fl.
Variable tan15 : fl.

(** How a <param> is read: [reads d p v], a parameter whose default is [d] gets the value [v]
    from the element [p].  Attribute type 0: the text is read as an integer, 1: as a float; the
    result is converted to the type of the parameter. *)
Inductive reads : value -> node -> value -> Prop :=
| int_as_int : forall d p t, attr p "type" = Some t -> int_of t = 0%Z ->
    reads (VInt d) p (VInt (int_of (n_text p)))
| int_as_float : forall d p t z, attr p "type" = Some t -> int_of t = 1%Z ->
    to_int (float_of (n_text p)) = Ok z -> reads (VInt d) p (VInt z)
| float_as_int : forall d p t, attr p "type" = Some t -> int_of t = 0%Z ->
    reads (VFloat d) p (VFloat (int_to_float (int_of (n_text p))))
| float_as_float : forall d p t, attr p "type" = Some t -> int_of t = 1%Z ->
    reads (VFloat d) p (VFloat (float_of (n_text p))).

(** A float out of the range of int for an integer parameter. *)
Definition overflows (ps : params) (p : node) : Prop :=
  exists d t, find_name ps (attr_string p "name") = Some (VInt d) /\ attr p "type" = Some t /\
    int_of t = 1%Z /\ to_int (float_of (n_text p)) = UB.
(** No such parameter, or no such type. *)
Definition unknown (ps : params) (p : node) : Prop :=
  find_name ps (attr_string p "name") = None \/
  match attr p "type" with None => True | Some t => int_of t <> 0%Z /\ int_of t <> 1%Z end.
Definition good (ps : params) (p : node) : Prop :=
  exists d v, find_name ps (attr_string p "name") = Some d /\ reads d p v.

(** The <filter> elements of a supported class, and the parameters of the class. *)
Definition class_of (f : node) : option params := find_name (supported tan15) (attr_string f "name").
Definition listed (n : node) : list node :=
  List.filter (fun f => match class_of f with Some _ => true | None => false end) (children n "filter").
(** The last <param> with a name. *)
Definition last_param (f : node) (s : string) : option node :=
  find (fun p => String.eqb (attr_string p "name") s) (rev (children f "param")).

(** The object [o] is configured as the element [f] says. *)
Definition configured (f : node) (o : flt) : Prop :=
  f_name o = attr_string f "name" /\
  exists ps, class_of f = Some ps /\ map fst (f_params o) = map fst ps /\
    forall s d, find_name ps s = Some d ->
      match last_param f s with
      | None => find_name (f_params o) s = Some d
      | Some p => exists v, reads d p v /\ find_name (f_params o) s = Some v
      end.

(** How the value of a matcher option is read: as the registered type. *)
Variable bool_of : string -> bool.
Definition read_as (d : option_value) (t : string) : option_value :=
  match d with
  | OInt _ => OInt (int_of t)
  | OFloat _ => OFloat (float_of t)
  | OBool _ => OBool (bool_of t)
  end.
(** The four implemented kinds of registration: libpointmatcher ICP, NDT with GICP, NDT, fast ICP. *)
Definition implemented (t : Z) : Prop := t = 1%Z \/ t = 3%Z \/ t = 5%Z \/ t = 6%Z.
(** The <param> elements of the options of a matcher. *)
Definition option_params (o : mopts) : list node :=
  match mo_node o with Some n => children n "param" | None => [] end.

(** * The document *)

(** The value of an attribute of the first element on a path. *)
Fixpoint element (n : node) (path : list string) : option node :=
  match path with
  | [] => Some n
  | s :: r => match find (fun k => String.eqb (n_name k) s) (n_kids n) with
              | Some k => element k r
              | None => None
              end
  end.
Definition setting {A} (n : node) (path : list string) (a : string) (f : string -> A) (default : A) : A :=
  match element n path with
  | Some k => match attr k a with Some s => f s | None => default end
  | None => default
  end.
(** The matcher options in a document: the type, and the first registrator_options of this type. *)
Definition matcher_type (root : node) (path : list string) : Z := setting root path "type" int_of 1%Z.
Definition type_node (root : node) (path : list string) : option node :=
  match element root path with
  | None => None
  | Some m => find (fun r => String.eqb (n_name r) "registrator_options" &&
                             (match attr r "type" with Some s => int_of s | None => 0 end =? matcher_type root path)%Z) (n_kids m)
  end.
Definition matcher_params (root : node) (path : list string) : list node :=
  match type_node root path with Some n => children n "param" | None => [] end.
Definition scan_path : list string := ["front_end_options"; "scan_matcher_options"].
Definition submap_path : list string := ["back_end_options"; "submap_matcher_options"].

(** A directory that may be used: not empty, and it exists or can be created. *)
Variable creates : string -> bool.
Definition usable (s : string) : Prop := s <> "" /\ (strip s = "" \/ creates (strip s) = true).

Definition id_string (s : string) : string := s.
(** What MapBuilder::Initialise requires of the static_mapping element. *)
Definition acceptable (root : node) : Prop :=
  usable (setting root ["whole_options"] "export_file_path" id_string "./") /\
  usable (setting root ["whole_options"] "map_package_path" id_string "./") /\
  (forall fs f p ps, element root ["filters"] = Some fs -> In f (listed fs) -> class_of f = Some ps ->
     In p (children f "param") -> good ps p) /\
  (setting root ["back_end_options"; "loop_detector_setting"] "use_gps" bool_of false = true \/
   setting root ["back_end_options"; "loop_detector_setting"] "use_descriptor" bool_of false = true) /\
  (1 <= setting root ["front_end_options"] "accumulate_cloud_num" int_of 1)%Z /\
  SFltb (literal 1 2) (widen (setting root ["output_mrvm_settings"] "hit_prob" float_of (dec 55 100))) = true /\
  SFltb (widen (setting root ["output_mrvm_settings"] "miss_prob" float_of (dec 48 100))) (literal 1 2) = true /\
  (1 <= setting root ["output_mrvm_settings"] "max_point_num_in_cell" int_of 10)%Z /\
  implemented (matcher_type root scan_path) /\
  (forall p, In p (matcher_params root scan_path) -> In (attr_string p "name") (map fst (registered (matcher_type root scan_path)))) /\
  (setting root ["front_end_options"; "imu_options"] "use_imu" bool_of true = true ->
   SFltb (literal 1 1000000) (widen (setting root ["front_end_options"; "imu_options"] "imu_frequency" float_of (dec 0 1))) = true).
(** What the builder holds after a successful initialisation. *)
Definition loaded (root : node) (b : builder) : Prop :=
  o_export (b_opts b) = (let s := setting root ["whole_options"] "export_file_path" id_string "./" in
                         if ends_in_slash s then s else (s ++ "/")%string) /\
  o_package (b_opts b) = (let s := setting root ["whole_options"] "map_package_path" id_string "./" in
                         if ends_in_slash s then s else (s ++ "/")%string) /\
  match element root ["filters"] with
  | Some fs => Forall2 configured (listed fs) (b_filters b)
  | None => b_filters b = []
  end /\
  m_type (b_matcher b) = matcher_type root scan_path /\
  (forall s d, find_name (registered (matcher_type root scan_path)) s = Some d ->
     find_name (m_options (b_matcher b)) s =
     Some (match find (fun p => String.eqb (attr_string p "name") s) (rev (matcher_params root scan_path)) with
           | None => d
           | Some p => read_as d (n_text p)
           end)) /\
  o_hit (b_opts b) = setting root ["output_mrvm_settings"] "hit_prob" float_of (dec 55 100) /\
  o_miss (b_opts b) = setting root ["output_mrvm_settings"] "miss_prob" float_of (dec 48 100) /\
  o_cell (b_opts b) = setting root ["output_mrvm_settings"] "max_point_num_in_cell" int_of 10%Z /\
  o_accumulate (b_opts b) = setting root ["front_end_options"] "accumulate_cloud_num" int_of 1%Z /\
  o_imu (b_opts b) = setting root ["front_end_options"; "imu_options"] "use_imu" bool_of true /\
  o_frequency (b_opts b) = setting root ["front_end_options"; "imu_options"] "imu_frequency" float_of (dec 0 1) /\
  o_gps (b_opts b) = setting root ["back_end_options"; "loop_detector_setting"] "use_gps" bool_of false /\
  o_descriptor (b_opts b) = setting root ["back_end_options"; "loop_detector_setting"] "use_descriptor" bool_of false /\
  mo_type (o_submap (b_opts b)) = matcher_type root submap_path /\
  mo_node (o_submap (b_opts b)) = type_node root submap_path /\
  mo_score (o_submap (b_opts b)) = setting root submap_path "accepted_min_score" float_of (dec 7 10) /\
  mo_score (o_scan (b_opts b)) = setting root scan_path "accepted_min_score" float_of (dec 7 10).
(** The element static_mapping of a file that can be read. *)
Definition root_of (disk : string -> option (list node)) (s : string) : option node :=
  if String.eqb s "" then None
  else match disk s with
       | None => None
       | Some l => element (Node "" [] "" l) ["edward_liu"; "static_mapping"]
       end.
End Spec.
