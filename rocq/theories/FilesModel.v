(** Model of common/file_utils.cc: FilePath and CreateDir. *)
From Coq Require Import Ascii String List Bool.
Import ListNotations.
Local Open Scope string_scope.

Definition slash : ascii := "/".
(** std::string::find_last_of("/"); None is npos. *)
Fixpoint find_last (s : string) : option nat :=
  match s with
  | EmptyString => None
  | String c r => match find_last r with
                  | Some n => Some (S n)
                  | None => if Ascii.eqb c slash then Some 0 else None
                  end
  end.
(** FilePath, file_utils.cc:38-46. *)
Definition file_path (file : string) : string :=
  match find_last file with
  | Some found => substring 0 found file ++ "/"
  | None => ""
  end.

(** The loop at file_utils.cc:49-52: drop the slashes at the end. *)
Fixpoint strip (s : string) : string :=
  match s with
  | EmptyString => EmptyString
  | String c r => match strip r with
                  | EmptyString => if Ascii.eqb c slash then EmptyString else String c EmptyString
                  | r' => String c r'
                  end
  end.
(** The file system: what exists (files or directories) and which of these are directories. *)
Record fs := mkFs { exists_ : string -> bool; is_dir : string -> bool }.
Section Create.
(** boost::filesystem::create_directories: whether it creates the directory is up to the system. *)
Variable can_create : fs -> string -> bool.
Definition made (f : fs) (p : string) : fs :=
  mkFs (fun q => String.eqb q p || exists_ f q) (fun q => String.eqb q p || is_dir f q).
(** CreateDir, file_utils.cc:48-58. *)
Definition create_dir (f : fs) (path : string) : bool * fs :=
  let p := strip path in
  if match p with EmptyString => true | _ => false end || exists_ f p then (true, f)
  else if can_create f p then (true, made f p) else (false, f).
End Create.
