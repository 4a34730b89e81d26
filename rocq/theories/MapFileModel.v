(** Model of the map file: Trajectory::ToXmlNode and SetEnuOffset (builder/trajectory.cc:32-63),
    MapBuilder::GenerateMapPackage (builder/map_builder.cc:807-814), Submap::SavedFileName
    (builder/submap.cc:276-281), and of the code that reads it, split, LoadTrajectoryFromFile and
    ConnectionsStrToIds (builder/multi_trajectory/multi_trajectory_map_builder.cc:33-42, 137-213,
    277-299).  The reader is in the repository but not part of the build.

    The XML document is a tree (ConfigModel); that it is written to and read from the file without
    change is assumed of pugixml.  A pose is the six numbers of GlobalPoseIn6Dof; doubles are IEEE
    binary64 values, as text by an arbitrary function. *)
From Coq Require Import ZArith List Bool String Ascii SpecFloat.
From Verif Require Import Outcome IdsModel FilesModel ConfigModel.
Import ListNotations.
Local Open Scope string_scope.
Local Open Scope list_scope.
Local Open Scope outcome_scope.

(** ** Strings *)
(** std::getline with a delimiter until the stream ends, cc:33-42: the delimiter after the last token is
    optional. *)
Fixpoint split_from (d : ascii) (cur : string) (s : string) : list string :=
  match s with
  | EmptyString => match cur with EmptyString => [] | _ => [cur] end
  | String c r => if Ascii.eqb c d then cur :: split_from d "" r
                  else split_from d (cur ++ String c "")%string r
  end.
Definition split_at (d : ascii) (s : string) : list string := split_from d "" s.
(** std::string::find(char); None is npos. *)
Fixpoint find_char (c : ascii) (s : string) : option nat :=
  match s with
  | EmptyString => None
  | String d r => if Ascii.eqb d c then Some 0 else option_map S (find_char c r)
  end.
(** substr(i), i not above the size. *)
Fixpoint drop (i : nat) (s : string) : string :=
  match i, s with S j, String _ r => drop j r | _, _ => s end.
Fixpoint take (i : nat) (s : string) : string :=
  match i, s with S j, String c r => String c (take j r) | _, _ => "" end.

(** atoi: white space, an optional sign, digits up to the first other character; undefined if the number
    is no int. *)
Definition is_space (c : ascii) : bool :=
  let n := nat_of_ascii c in (Nat.eqb n 32 || (Nat.leb 9 n && Nat.leb n 13))%bool.
Definition digit (c : ascii) : option Z :=
  let n := nat_of_ascii c in
  if (Nat.leb 48 n && Nat.leb n 57)%bool then Some (Z.of_nat (n - 48)) else None.
Fixpoint digits (acc : Z) (s : string) : Z :=
  match s with
  | EmptyString => acc
  | String c r => match digit c with Some k => digits (10 * acc + k) r | None => acc end
  end.
Fixpoint number (s : string) : Z :=
  match s with
  | EmptyString => 0%Z
  | String c r => if is_space c then number r
                  else if Ascii.eqb c "-" then (- digits 0 r)%Z
                  else if Ascii.eqb c "+" then digits 0 r
                  else digits 0 s
  end.
Definition atoi (s : string) : outcome Z :=
  let z := number s in if ((- 2 ^ 31 <=? z) && (z <? 2 ^ 31))%Z then Ok z else UB.

(** ** Connections *)
(** trajectory.cc:50-56. *)
Fixpoint write_connections (l : list submap_id) : string :=
  match l with
  | [] => ""
  | i :: r => ("[" ++ to_string (s_traj i) ++ "," ++ to_string (s_index i) ++ "]" ++ write_connections r)%string
  end.
(** ConnectionsStrToIds, cc:277-299: one token.  npos + 1 is 0. *)
Definition read_token (s : string) : outcome submap_id :=
  let first := match find_char "[" s with Some i => S i | None => 0 end in
  let* _ := check (match find_char "," s with Some c => Nat.leb first c | None => true end) in
  let* t := atoi (match find_char "," s with Some c => take (c - first) (drop first s) | None => drop first s end) in
  let* u := atoi (match find_char "," s with Some c => drop (S c) s | None => s end) in
  Ok (mkSid t u).
Fixpoint read_tokens (l : list string) : outcome (list submap_id) :=
  match l with
  | [] => Ok []
  | s :: r => let* i := read_token s in let* x := read_tokens r in Ok (i :: x)
  end.
Definition read_connections (s : string) : outcome (list submap_id) := read_tokens (split_at "]" s).

(** ** The map file *)
Definition double : Type := spec_float.
Definition zero : double := S754_zero false.
Record pose6 := mkPose { tx : double; ty : double; tz : double; rx : double; ry : double; rz : double }.
Record sub := mkSubmap { u_id : submap_id; u_disk : bool; u_name : string; u_pose : pose6; u_connected : list submap_id }.
Record traj := mkTraj { t_id : Z; t_x : double; t_y : double; t_submaps : list sub }.
(** SavedFileName, submap.cc:276-281. *)
Definition saved_name (s : sub) : string := if u_disk s then u_name s else "".

Section MapFile.
Variable show : double -> string.       (* xml_attribute::operator=(double) *)
Variable read_double : string -> double. (* as_double() *)
Variable int_of : string -> Z.          (* as_int() *)

Definition submap_node (s : sub) : node :=
  let p := u_pose s in
  Node "Submap" [("id", to_string (s_index (u_id s))); ("file", saved_name s);
                 ("tx", show (tx p)); ("ty", show (ty p)); ("tz", show (tz p));
                 ("rx", show (rx p)); ("ry", show (ry p)); ("rz", show (rz p));
                 ("connections", write_connections (u_connected s))] "" [].
(** ToXmlNode, trajectory.cc:32-58. *)
Definition traj_node (t : traj) : node :=
  Node "Trajectory" [("id", to_string (t_id t)); ("enu_x", show (t_x t)); ("enu_y", show (t_y t))] ""
       (map submap_node (t_submaps t)).
(** GenerateMapPackage, map_builder.cc:807-814. *)
Definition write_map (ts : list traj) : list node := [Node "Map" [] "" (map traj_node ts)].

(** attribute(s).as_double(): 0 for the null attribute. *)
Definition attr_double (n : node) (s : string) : double :=
  match attr n s with Some v => read_double v | None => zero end.
Definition add := SFadd 53 1024.
Definition sub_ := SFsub 53 1024.

Variable exists_ : string -> bool.      (* common::FileExist *)
(** One Submap element, cc:177-208; [disk] is the option enable_disk_saving of the reader. *)
Definition read_submap (disk : bool) (path : string) (index : Z) (dx dy : double) (n : node) : outcome sub :=
  let p := mkPose (add (attr_double n "tx") dx) (add (attr_double n "ty") dy) (attr_double n "tz")
                  (attr_double n "rx") (attr_double n "ry") (attr_double n "rz") in
  let* cs := read_connections (attr_string n "connections") in
  let* _ := check (exists_ (path ++ attr_string n "file")%string) in
  let* _ := check (exists_ path) in     (* SetSavePath *)
  Ok (mkSubmap (mkSid index (attr_int int_of n "id")) disk (attr_string n "file") p cs).
Fixpoint read_submaps (disk : bool) (path : string) (index : Z) (dx dy : double) (l : list node) : outcome (list sub) :=
  match l with
  | [] => Ok []
  | n :: r => let* s := read_submap disk path index dx dy n in
              let* x := read_submaps disk path index dx dy r in
              Ok (s :: x)
  end.
(** The loop over the trajectories, cc:161-210; [base] is (base_utm_x_, base_utm_y_). *)
Fixpoint read_trajs (disk update : bool) (path : string) (ts : list traj) (base : double * double) (l : list node)
    : outcome (list traj * (double * double)) :=
  match l with
  | [] => Ok (ts, base)
  | n :: r =>
      let index := Z.of_nat (List.length ts) in
      let base' := if (index =? 0)%Z && update then (attr_double n "utm_x", attr_double n "utm_y") else base in
      let dx := sub_ (attr_double n "utm_x") (fst base') in
      let dy := sub_ (attr_double n "utm_y") (snd base') in
      let* ss := read_submaps disk path index dx dy (children n "Submap") in
      read_trajs disk update path (ts ++ [mkTraj index zero zero ss]) base' r
  end.
(** LoadTrajectoryFromFile, cc:137-213: None stands for the result -1. *)
Definition load_map (disk update : bool) (file : string) (ts : list traj) (base : double * double)
    (doc : option (list node)) : outcome (option (list traj * (double * double))) :=
  match doc with
  | None => Ok None
  | Some l => match hd_error (List.filter (fun k => String.eqb (n_name k) "Map") l) with
              | None => Ok None
              | Some m => let* x := read_trajs disk update (file_path file) ts base (children m "Trajectory") in Ok (Some x)
              end
  end.
End MapFile.
