(** Model of ProcessProfiler, common/performance/process_info.{h,cc}: the thread that logs the use of processor and memory.  The
    profiler of simple_prof.h has one as a member (98), so that it runs in every program with REGISTER_BLOCK.

    Files are texts (None: fopen fails).  Values that the code reads before they are assigned are undefined.  Simplifications: the
    percentage is an exact quotient (the code rounds it to double and to float); conversions of scanf that exceed the type are
    undefined; strerror output and the time in the name of the file are left out or parameters; the plain bool run_, which the
    destructor writes while the thread reads it, is taken as if it were atomic. *)
From Coq Require Import ZArith QArith List Bool String Ascii.
From Verif Require Import Outcome IdsModel MapFileModel.
Import ListNotations.
Local Open Scope string_scope.
Local Open Scope outcome_scope.

(** ** Text *)
Definition nl : ascii := ascii_of_nat 10.
Definition blank : ascii := " "%char.
(** fgets(buffer, size + 1, file) until the end of the file: the pieces.  [left]: room in the buffer. *)
Fixpoint pieces (size left : nat) (s : string) : string * list string :=
  match s with
  | EmptyString => (EmptyString, [])
  | String c r =>
      let rest := let (a, l) := pieces size size r in match a with EmptyString => l | _ => a :: l end in
      if Ascii.eqb c nl then (String c EmptyString, rest)
      else match left with
           | S (S n) => let (a, l) := pieces size (S n) r in (String c a, l)
           | _ => (String c EmptyString, rest)
           end
  end.
Definition fgets_all (size : nat) (s : string) : list string :=
  let (a, l) := pieces size size s in match a with EmptyString => l | _ => a :: l end.
(** The first call. *)
Definition fgets (size : nat) (s : string) : option string := hd_error (fgets_all size s).
(** GetItems, process_info.cc:64-80; [count]: the spaces still to be found, item - 1. *)
Fixpoint after_blanks (count : nat) (s : string) : string :=
  match s with
  | EmptyString => EmptyString
  | String c r =>
      if Ascii.eqb c blank then match count with 1%nat => r | O => after_blanks O r | S n => after_blanks n r end
      else after_blanks count r
  end.
Definition get_items (s : string) (item : nat) : string := after_blanks (item - 1) s.

(** sscanf: white space, %ld or %d, %s. *)
Fixpoint skip (s : string) : string :=
  match s with EmptyString => s | String c r => if is_space c then skip r else s end.
Fixpoint read_digits (acc : Z) (s : string) : Z * string :=
  match s with
  | EmptyString => (acc, s)
  | String c r => match digit c with Some k => read_digits (10 * acc + k) r | None => (acc, s) end
  end.
Definition starts_digit (s : string) : bool :=
  match s with EmptyString => false | String c _ => match digit c with Some _ => true | None => false end end.
Definition scan_number (s : string) : option (Z * string) :=
  let s := skip s in
  match s with
  | EmptyString => None
  | String c r =>
      if Ascii.eqb c "-" then if starts_digit r then let (v, t) := read_digits 0 r in Some (Z.opp v, t) else None
      else if Ascii.eqb c "+" then if starts_digit r then Some (read_digits 0 r) else None
      else if starts_digit s then Some (read_digits 0 s) else None
  end.
Fixpoint word (s : string) : string * string :=
  match s with
  | EmptyString => (EmptyString, EmptyString)
  | String c r => if is_space c then (EmptyString, s) else let (w, t) := word r in (String c w, t)
  end.
(** [size]: the characters of the buffer; one is for the end of the string. *)
Definition scan_word (size : nat) (s : string) : outcome (option (string * string)) :=
  let (w, t) := word (skip s) in
  match w with
  | EmptyString => Ok None
  | _ => if (String.length w <? size)%nat then Ok (Some (w, t)) else UB
  end.
Definition long_ok (z : Z) : bool := ((- 2 ^ 63 <=? z) && (z <? 2 ^ 63))%Z.
Definition int_ok (z : Z) : bool := ((- 2 ^ 31 <=? z) && (z <? 2 ^ 31))%Z.
(** "%ld %ld %ld %ld" and the sum in uint64_t: 94-98, 117-120.  A number that is not found stays unassigned. *)
Fixpoint sum_of (n : nat) (s : string) : outcome Z :=
  match n with
  | O => Ok 0%Z
  | S n =>
      match scan_number s with
      | None => UB
      | Some (v, t) => if long_ok v then let* r := sum_of n t in Ok ((v + r) mod 2 ^ 64)%Z else UB
      end
  end.

(** ** Use of the processor *)
(** GetCpuTotalOccpy, 82-99. *)
Definition total_occupy (f : option string) : outcome Z :=
  match f with
  | None => Ok 0%Z
  | Some s =>
      match fgets 1023 s with
      | None => UB
      | Some line =>
          let* w := scan_word 64 line in
          match w with None => UB | Some (_, t) => sum_of 4 t end
      end
  end.
(** GetCpuProcOccpy, 101-121. *)
Definition proc_occupy (f : option string) : outcome Z :=
  match f with
  | None => Ok 0%Z
  | Some s => match fgets 1023 s with None => UB | Some line => sum_of 4 (get_items line 14) end
  end.
(** /proc/stat and /proc/<pid>/stat, before and after the second of sleep, and then /proc/<pid>/status. *)
Record round := mkRound { f_total1 : option string; f_proc1 : option string; f_total2 : option string; f_proc2 : option string; f_status : option string }.
(** GetProcCpu, 123-141. *)
Definition percent (t1 p1 t2 p2 : Z) : Q :=
  let d := ((t2 - t1) mod 2 ^ 64)%Z in
  if (d =? 0)%Z then 0%Q else (100 * inject_Z ((p2 - p1) mod 2 ^ 64) / inject_Z d)%Q.
Definition proc_cpu (r : round) : outcome Q :=
  let* t1 := total_occupy (f_total1 r) in
  let* p1 := proc_occupy (f_proc1 r) in
  let* t2 := total_occupy (f_total2 r) in
  let* p2 := proc_occupy (f_proc2 r) in
  Ok (percent t1 p1 t2 p2).

(** ** Memory *)
(** ProcStatus, 44-50.  None: not assigned yet. *)
Record status := mkStatus { s_name : option string; s_vm : option Z; s_mem : option Z; s_threads : option Z }.
Definition unset : status := mkStatus None None None None.
(** strstr. *)
Fixpoint contains (key s : string) : bool :=
  String.prefix key s || match s with EmptyString => false | String _ r => contains key r end.
(** sscanf(line, "%s %d", line_name, &field). *)
Definition scan_field (line : string) (old : option Z) : outcome (option Z) :=
  let* w := scan_word 64 line in
  match w with
  | None => Ok old
  | Some (_, t) => match scan_number t with None => Ok old | Some (v, _) => if int_ok v then Ok (Some v) else UB end
  end.
(** 156-165. *)
Definition status_line (st : status) (line : string) : outcome status :=
  if contains "Name:" line then
    let* w := scan_word 64 line in
    match w with
    | None => Ok st
    | Some (_, t) =>
        let* n := scan_word 256 t in
        Ok (match n with None => st | Some (n, _) => mkStatus (Some n) (s_vm st) (s_mem st) (s_threads st) end)
    end
  else if contains "VmSize:" line then let* v := scan_field line (s_vm st) in Ok (mkStatus (s_name st) v (s_mem st) (s_threads st))
  else if contains "VmRSS:" line then let* v := scan_field line (s_mem st) in Ok (mkStatus (s_name st) (s_vm st) v (s_threads st))
  else if contains "Threads:" line then let* v := scan_field line (s_threads st) in Ok (mkStatus (s_name st) (s_vm st) (s_mem st) v)
  else Ok st.
(** GetProcStatus, 143-169. *)
Definition proc_status (f : option string) (st : status) : outcome (bool * status) :=
  match f with
  | None => Ok (false, st)
  | Some s => let* st := run status_line st (fgets_all 511 s) in Ok (true, st)
  end.

(** ** The thread *)
(** A line of the log, 205-206. *)
Record entry := mkEntry { e_cpu : Q; e_mem : Z; e_vm : Z }.
(** The loop, 197-208: the rounds begun while run_ is true.  [opened]: the log file could be opened. *)
Fixpoint rounds (opened : bool) (st : status) (l : list round) : outcome (list entry) :=
  match l with
  | [] => Ok []
  | r :: l =>
      let* c := proc_cpu r in
      let* k := proc_status (f_status r) (mkStatus (Some EmptyString) (s_vm st) (s_mem st) (s_threads st)) in
      let (ok, st) := k in
      if ok && opened
      then match s_mem st, s_vm st with
           | Some m, Some v => let* es := rounds opened st l in Ok (mkEntry c m v :: es)
           | _, _ => UB
           end
      else rounds opened st l
  end.
(** Run, 171-212.  [home]: the directory of the user, None if getpwuid finds none; [made]: mkdir made the directory or it was there;
    [stamp]: the formatted time; [can_open]: ofstream can open this file. *)
Definition log_dir : string := ".static_mapping_log".
Definition profile (home : option string) (made : bool) (stamp : string) (can_open : string -> bool) (first : option string) (l : list round) :
  outcome (string * list entry) :=
  let* k := proc_status first unset in
  let st := snd k in
  match home with
  | None => UB
  | Some h =>
      let dir := if made then h ++ "/" ++ log_dir else h ++ "/" in
      match s_name st with
      | None => UB
      | Some n =>
          let file := dir ++ "/" ++ n ++ ".log." ++ stamp in
          let* es := rounds (can_open file) st l in Ok (file, es)
      end
  end.
