(** The files of /proc. *)
From Coq Require Import ZArith QArith List Bool String Ascii.
From Verif Require Import IdsModel ProcModel.
Import ListNotations.
Local Open Scope string_scope.

Definition newline : string := String nl EmptyString.
Fixpoint blanks (s : string) : nat := match s with EmptyString => 0 | String c r => (if Ascii.eqb c blank then 1 else 0) + blanks r end.
Fixpoint one_line (s : string) : Prop := match s with EmptyString => True | String c r => c <> nl /\ one_line r end.
Fixpoint joined (fs : list Z) : string := match fs with [] => "" | z :: r => " " ++ to_string z ++ joined r end.
(** /proc/<pid>/stat: number, (name), state, and then numbers: ppid, pgrp, session, tty, tpgid, flags, minflt, cminflt, majflt,
    cmajflt, utime, stime, cutime, cstime, ... *)
Definition stat_text (pid : Z) (comm state : string) (fs : list Z) : string :=
  to_string pid ++ " (" ++ comm ++ ") " ++ state ++ joined fs.
Definition stat_file (pid : Z) (comm state : string) (fs : list Z) : string := stat_text pid comm state fs ++ newline.
Definition stat_ok (comm state : string) (fs : list Z) (pid : Z) : Prop :=
  one_line comm /\ one_line state /\ blanks state = 0%nat /\ Forall (fun z => (- 2 ^ 63 <= z < 2 ^ 63)%Z) fs /\ (14 <= List.length fs)%nat /\
  (String.length (stat_text pid comm state fs) < 1023)%nat.
(** The processor time of the process and of its children. *)
Definition utime (fs : list Z) : Z := nth 10 fs 0%Z.
Definition stime (fs : list Z) : Z := nth 11 fs 0%Z.
Definition cutime (fs : list Z) : Z := nth 12 fs 0%Z.
Definition cstime (fs : list Z) : Z := nth 13 fs 0%Z.
Definition process_time (fs : list Z) : Z := (utime fs + stime fs + cutime fs + cstime fs)%Z.
(** /proc/stat: the first line has user, nice, system, idle, and others; other lines follow. *)
Definition total_file (fs : list Z) (more : string) : string := "cpu " ++ joined fs ++ newline ++ more.
Definition total_ok (fs : list Z) : Prop :=
  Forall (fun z => (- 2 ^ 63 <= z < 2 ^ 63)%Z) fs /\ (4 <= List.length fs)%nat /\ (String.length (joined fs) < 1000)%nat.
Definition total_time (fs : list Z) : Z := (nth 0 fs 0 + nth 1 fs 0 + nth 2 fs 0 + nth 3 fs 0)%Z.

(** Lines of /proc/<pid>/status. *)
Inductive item := IName (n more : string) | ISize (v : Z) | IRss (v : Z) | IThreads (v : Z) | IOther (s : string).
Definition tab : string := String (ascii_of_nat 9) EmptyString.
Definition show (i : item) : string :=
  match i with
  | IName n more => "Name:" ++ tab ++ n ++ more
  | ISize v => "VmSize:" ++ tab ++ "   " ++ to_string v ++ " kB"
  | IRss v => "VmRSS:" ++ tab ++ "   " ++ to_string v ++ " kB"
  | IThreads v => "Threads:" ++ tab ++ to_string v
  | IOther s => s
  end.
Fixpoint no_space (s : string) : Prop := match s with EmptyString => True | String c r => MapFileModel.is_space c = false /\ no_space r end.
Definition lacks (s : string) : Prop :=
  forall key, In key ["Name:"; "VmSize:"; "VmRSS:"; "Threads:"] -> ~ exists a b, s = a ++ key ++ b.
Definition item_ok (i : item) : Prop :=
  one_line (show i) /\ (String.length (show i) < 511)%nat /\
  match i with
  | IName n more => n <> "" /\ no_space n /\ (String.length n < 256)%nat /\ match more with EmptyString => True | String c _ => MapFileModel.is_space c = true end
  | ISize v | IRss v | IThreads v => (- 2 ^ 31 <= v < 2 ^ 31)%Z
  | IOther s => lacks (s ++ newline)
  end.
Definition text_of (items : list item) : string := fold_right (fun i s => show i ++ newline ++ s) "" items.
(** The last line of each kind, or what was there before. *)
Definition last_of {A : Type} (f : item -> option A) (items : list item) (old : option A) : option A :=
  fold_left (fun o i => match f i with Some a => Some a | None => o end) items old.
Definition name_in (i : item) : option string := match i with IName n _ => Some n | _ => None end.
Definition size_in (i : item) : option Z := match i with ISize v => Some v | _ => None end.
Definition rss_in (i : item) : option Z := match i with IRss v => Some v | _ => None end.
Definition threads_in (i : item) : option Z := match i with IThreads v => Some v | _ => None end.
