(** C135: the log of the process profiler. *)
From Coq Require Import ZArith QArith Lqa List Bool String Ascii Lia.
From Verif Require Import Outcome IdsModel MapFileModel ProcModel ProcSpec ProcProofs.
Import ListNotations.
Local Open Scope string_scope.

(** ** The processor time *)
(** For a process with a name without blanks: the time it and its children spent. *)
Theorem C135_process_time : forall pid comm state fs, stat_ok comm state fs pid -> blanks comm = 0%nat ->
  proc_occupy (Some (stat_file pid comm state fs)) = Ok (process_time fs mod 2 ^ 64)%Z.
Proof.
  intros pid comm state fs H B. rewrite proc_spec by (auto; lia). rewrite B. f_equal. f_equal. unfold process_time, utime, stime, cutime, cstime.
  destruct H as (_ & _ & _ & _ & L & _). do 14 (destruct fs as [|? fs]; [cbn in L; lia|]). cbn. lia.
Qed.
Print Assumptions C135_process_time.
(** Every blank in the name moves the four numbers by one: with k blanks those k places before are added up. *)
Theorem C135_blanks_shift : forall pid comm state fs k, stat_ok comm state fs pid -> blanks comm = k -> (k <= 10)%nat ->
  proc_occupy (Some (stat_file pid comm state fs)) =
  Ok ((nth (10 - k) fs 0 + nth (11 - k) fs 0 + nth (12 - k) fs 0 + nth (13 - k) fs 0) mod 2 ^ 64)%Z.
Proof.
  intros pid comm state fs k H B K. rewrite proc_spec by (auto; lia). rewrite B. f_equal. f_equal.
  destruct H as (_ & _ & _ & _ & L & _). replace (11 - k)%nat with (S (10 - k)) by lia. replace (12 - k)%nat with (S (S (10 - k))) by lia. replace (13 - k)%nat with (S (S (S (10 - k)))) by lia.
  assert (L' : (10 - k + 4 <= List.length fs)%nat) by lia. clear - L'. revert fs L'. induction (10 - k)%nat as [|m IH]; intros fs L'.
  - do 4 (destruct fs as [|? fs]; [cbn in L'; lia|]). cbn. lia.
  - destruct fs as [|? fs]; [cbn in L'; lia|]. cbn [skipn nth]. apply IH. cbn in L'. lia.
Qed.
Print Assumptions C135_blanks_shift.
Definition numbers : list Z := [1; 1; 1; 0; -1; 4194304; 5000; 0; 12; 0; 300; 40; 5; 6; 20; 0; 8; 0; 100]%Z.
Lemma in_range : forall fs, forallb (fun z => (- 2 ^ 63 <=? z) && (z <? 2 ^ 63))%Z fs = true -> Forall (fun z => (- 2 ^ 63 <= z < 2 ^ 63)%Z) fs.
Proof. intros fs H. rewrite forallb_forall in H. apply Forall_forall. intros z Hz. apply H in Hz. apply andb_true_iff in Hz. rewrite Z.leb_le, Z.ltb_lt in Hz. exact Hz. Qed.
Ltac line := cbn [one_line]; repeat (split; [discriminate|]); exact I.
Lemma numbers_ok : forall comm, one_line comm -> (String.length comm < 16)%nat -> stat_ok comm "S" numbers 4242.
Proof.
  intros comm O L. split; [exact O|]. split; [line|]. split; [reflexivity|]. split; [apply in_range; vm_compute; reflexivity|]. split; [cbn; lia|].
  unfold stat_text. rewrite !length_app. assert (A : (String.length (joined numbers) <= 100)%nat) by (apply Nat.leb_le; vm_compute; reflexivity).
  assert (B : (String.length (to_string 4242) <= 10)%nat) by (apply Nat.leb_le; vm_compute; reflexivity). cbn [String.length]. lia.
Qed.
Example C135_ex_time : stat_ok "static_mapping" "S" numbers 4242 /\ process_time numbers = 351%Z /\
  proc_occupy (Some (stat_file 4242 "static_mapping" "S" numbers)) = Ok 351%Z.
Proof. split; [apply numbers_ok; [line|cbn; lia]|]. split; [reflexivity|vm_compute; reflexivity]. Qed.
(** That the time is that of the process, for every name: with one blank something else, with eleven nothing that is defined. *)
Theorem C135_any_name_refuted :
  (exists comm, stat_ok comm "S" numbers 4242 /\ proc_occupy (Some (stat_file 4242 comm "S" numbers)) = Ok 345%Z /\ process_time numbers = 351%Z) /\
  (exists comm, stat_ok comm "S" numbers 4242 /\ proc_occupy (Some (stat_file 4242 comm "S" numbers)) = UB).
Proof.
  split.
  - exists "my node". split; [apply numbers_ok; [line|cbn; lia]|]. split; [vm_compute; reflexivity|reflexivity].
  - exists "a           b". split; [apply numbers_ok; [line|cbn; lia]|]. vm_compute. reflexivity.
Qed.
Print Assumptions C135_any_name_refuted.

(** All processors: the first four numbers (user, nice, system, idle). *)
Theorem C135_total : forall fs more, total_ok fs -> total_occupy (Some (total_file fs more)) = Ok (total_time fs mod 2 ^ 64)%Z.
Proof. exact total_spec. Qed.
Print Assumptions C135_total.
Definition busy : list Z := [1000; 20; 300; 90000; 77; 0; 5; 0; 0; 0]%Z.
Example C135_ex_total : total_ok busy /\ total_occupy (Some (total_file busy "cpu0 1 2")) = Ok 91320%Z.
Proof. split; [split; [apply in_range; vm_compute; reflexivity|split; cbn; lia]|vm_compute; reflexivity]. Qed.

(** ** The percentage *)
(** If the times were read and did not fall: the share of the process in the time of all processors, which is at most 100 if the process did
    not get more than there was. *)
Definition reads (r : round) (t1 p1 t2 p2 : Z) : Prop :=
  total_occupy (f_total1 r) = Ok t1 /\ proc_occupy (f_proc1 r) = Ok p1 /\ total_occupy (f_total2 r) = Ok t2 /\ proc_occupy (f_proc2 r) = Ok p2.
Theorem C135_percent : forall r t1 p1 t2 p2, reads r t1 p1 t2 p2 -> (0 <= t1 <= t2)%Z -> (t2 < 2 ^ 64)%Z -> (0 <= p1 <= p2)%Z -> (p2 < 2 ^ 64)%Z ->
  exists q, proc_cpu r = Ok q /\ (t1 = t2 -> q = 0)%Q /\ (t1 <> t2 -> q * inject_Z (t2 - t1) == 100 * inject_Z (p2 - p1))%Q /\ (0 <= q)%Q /\
    ((p2 - p1 <= t2 - t1)%Z -> q <= 100)%Q.
Proof.
  intros r t1 p1 t2 p2 (A & B & C & D) Ht Ht2 Hp Hp2. exists (percent t1 p1 t2 p2). split; [unfold proc_cpu; rewrite A, B, C, D; reflexivity|].
  unfold percent. rewrite !(Z.mod_small (_ - _)) by lia. destruct (Z.eqb_spec (t2 - t1) 0) as [E|E].
  - split; [reflexivity|]. split; [lia|]. split; [lra|]. intros; lra.
  - assert (P : (0 < inject_Z (t2 - t1))%Q) by (change 0%Q with (inject_Z 0); rewrite <- Zlt_Qlt; lia).
    assert (N : (0 <= inject_Z (p2 - p1))%Q) by (change 0%Q with (inject_Z 0); rewrite <- Zle_Qle; lia).
    split; [lia|]. split; [intros _; field; lra|]. split; [apply Qle_shift_div_l; lra|].
    intros H. apply Qle_shift_div_r; [assumption|]. rewrite Zle_Qle in H. lra.
Qed.
Print Assumptions C135_percent.
(** That it is at most 100: a child process that ends adds its whole time at once. *)
Definition numbers2 : list Z := [1; 1; 1; 0; -1; 4194304; 5000; 0; 12; 0; 310; 40; 1995; 6; 20; 0; 8; 0; 100]%Z.
Definition busy2 : list Z := [1200; 20; 300; 90200; 80; 0; 5; 0; 0; 0]%Z.
Theorem C135_hundred_refuted : exists r, f_total1 r = Some (total_file busy "") /\ f_total2 r = Some (total_file busy2 "") /\
  f_proc1 r = Some (stat_file 7 "node" "S" numbers) /\ f_proc2 r = Some (stat_file 7 "node" "S" numbers2) /\
  (utime numbers2 - utime numbers <= total_time busy2 - total_time busy)%Z /\ stime numbers = stime numbers2 /\
  exists q, proc_cpu r = Ok q /\ (q == 500)%Q.
Proof.
  exists (mkRound (Some (total_file busy "")) (Some (stat_file 7 "node" "S" numbers)) (Some (total_file busy2 "")) (Some (stat_file 7 "node" "S" numbers2)) None).
  repeat (split; [vm_compute; (reflexivity || discriminate)|]). exists (percent 91320 351 91720 2351). split; [vm_compute; reflexivity|vm_compute; reflexivity].
Qed.
Print Assumptions C135_hundred_refuted.
(** That a failure to open a file shows as zero: the second reading of the process is 0 then, and the difference of unsigned numbers is huge. *)
Theorem C135_closed_refuted : forall r t1 p1 t2, reads r t1 p1 t2 0 -> f_proc2 r = None -> (0 <= t1 < t2)%Z -> (t2 - t1 <= 10 ^ 6)%Z -> (t2 < 2 ^ 64)%Z -> (0 < p1 <= 2 ^ 63)%Z ->
  exists q, proc_cpu r = Ok q /\ (inject_Z (10 ^ 14) <= q)%Q.
Proof.
  intros r t1 p1 t2 (A & B & C & D) _ Ht Dt Ht2 Hp. exists (percent t1 p1 t2 0). split; [unfold proc_cpu; rewrite A, B, C, D; reflexivity|].
  unfold percent. rewrite (Z.mod_small (t2 - t1)) by lia. destruct (Z.eqb_spec (t2 - t1) 0) as [E|E]; [lia|].
  replace ((0 - p1) mod 2 ^ 64)%Z with (2 ^ 64 - p1)%Z by (apply Z.mod_unique with (-1)%Z; lia).
  assert (P : (0 < inject_Z (t2 - t1))%Q) by (change 0%Q with (inject_Z 0); rewrite <- Zlt_Qlt; lia).
  apply Qle_shift_div_l; [assumption|]. change 100%Q with (inject_Z 100). rewrite <- !inject_Z_mult, <- Zle_Qle. lia.
Qed.
Print Assumptions C135_closed_refuted.
Example C135_ex_closed : exists r, reads r 91320 351 91720 0 /\ f_proc2 r = None.
Proof.
  exists (mkRound (Some (total_file busy "")) (Some (stat_file 7 "node" "S" numbers)) (Some (total_file busy2 "")) None None). split; [|reflexivity].
  repeat split; vm_compute; reflexivity.
Qed.
(** Nothing in the file: the numbers are read before they are assigned. *)
Theorem C135_nothing_read : total_occupy (Some "") = UB /\ proc_occupy (Some "") = UB /\ forall s, (forall c r, s <> String c r) -> proc_occupy (Some s) = UB.
Proof. split; [reflexivity|]. split; [reflexivity|]. intros [|c r] H; [reflexivity|]. exfalso. eapply H. reflexivity. Qed.
Print Assumptions C135_nothing_read.

(** ** Memory *)
(** From a status file the last name (up to its first blank), sizes and number of threads; what has no line stays. *)
Theorem C135_status : forall items st, Forall item_ok items ->
  proc_status (Some (text_of items)) st =
  Ok (true, mkStatus (last_of name_in items (s_name st)) (last_of size_in items (s_vm st)) (last_of rss_in items (s_mem st)) (last_of threads_in items (s_threads st))).
Proof. intros items st F. unfold proc_status. rewrite status_spec by assumption. reflexivity. Qed.
Print Assumptions C135_status.

(** ** The log *)
(** A status file with both sizes. *)
Definition sizes (f : option string) (mem vm : Z) : Prop :=
  exists items, f = Some (text_of items) /\ Forall item_ok items /\ last_of rss_in items None = Some mem /\ last_of size_in items None = Some vm.
Definition good (r : round) : Prop := (exists q, proc_cpu r = Ok q) /\ (f_status r = None \/ exists mem vm, sizes (f_status r) mem vm).
Definition has_status (r : round) : bool := match f_status r with Some _ => true | None => false end.
Lemma last_any : forall (A : Type) (f : item -> option A) items old a, last_of f items None = Some a -> last_of f items old = Some a.
Proof.
  intros A f items. induction items as [|i items IH] using rev_ind; intros old a H; [discriminate|].
  unfold last_of in *. rewrite fold_left_app in *. cbn [fold_left] in *. destruct (f i); [exact H|]. apply IH. exact H.
Qed.
Lemma rounds_spec : forall l opened st, Forall good l ->
  exists es, rounds opened st l = Ok es /\
    if opened then Forall2 (fun r e => proc_cpu r = Ok (e_cpu e) /\ sizes (f_status r) (e_mem e) (e_vm e)) (filter has_status l) es else es = [].
Proof.
  induction l as [|r l IH]; intros opened st F.
  - exists []. split; [reflexivity|]. destruct opened; [constructor|reflexivity].
  - inversion F as [|? ? [[q Q] S] F']; subst. cbn [rounds]. rewrite Q. cbn [bind]. destruct S as [S|(mem & vm & S)].
    + rewrite S. cbn [proc_status bind andb]. destruct (IH opened (mkStatus (Some "") (s_vm st) (s_mem st) (s_threads st)) F') as (es & E & H). exists es. split; [exact E|].
      cbn [filter]. unfold has_status at 1. rewrite S. exact H.
    + pose proof S as (items & Ef & Fi & M & V). rewrite Ef, C135_status by assumption. cbn [bind andb s_mem s_vm s_name s_threads].
      rewrite (last_any _ _ _ (s_mem st) _ M), (last_any _ _ _ (s_vm st) _ V). cbn [filter]. unfold has_status at 1. rewrite Ef.
      destruct opened.
      * destruct (IH true (mkStatus (last_of name_in items (Some "")) (Some vm) (Some mem) (last_of threads_in items (s_threads st))) F') as (es & E & H).
        rewrite E. cbn [bind]. eexists. split; [reflexivity|]. constructor; [|exact H]. cbn [e_cpu e_mem e_vm]. split; [exact Q|exact S].
      * destruct (IH false (mkStatus (last_of name_in items (Some "")) (Some vm) (Some mem) (last_of threads_in items (s_threads st))) F') as (es & E & H).
        exists es. split; [exact E|exact H].
Qed.
(** The log has one line for every round in which the status could be read, in their order, each with the percentage and the sizes of its own round; its
    name has that of the process. *)
Theorem C135_log : forall h made stamp can_open items n l, Forall item_ok items -> last_of name_in items None = Some n -> Forall good l ->
  exists file es, profile (Some h) made stamp can_open (Some (text_of items)) l = Ok (file, es) /\
    file = (if made then h ++ "/.static_mapping_log" else h ++ "/") ++ "/" ++ n ++ ".log." ++ stamp /\
    if can_open file then Forall2 (fun r e => proc_cpu r = Ok (e_cpu e) /\ sizes (f_status r) (e_mem e) (e_vm e)) (filter has_status l) es else es = [].
Proof.
  intros h made stamp can_open items n l F N G. unfold profile. rewrite C135_status by assumption. cbn [bind snd s_name unset s_vm s_mem s_threads]. rewrite N.
  set (file := (if made then h ++ "/" ++ log_dir else h ++ "/") ++ "/" ++ n ++ ".log." ++ stamp).
  match goal with |- context [rounds (can_open file) ?s l] => destruct (rounds_spec l (can_open file) s G) as (es & E & H) end.
  rewrite E. cbn [bind]. exists file, es. split; [reflexivity|]. split; [reflexivity|exact H].
Qed.
Print Assumptions C135_log.
(** That profiling does no harm: without an entry for the user (as in containers) or a readable status the program uses a null pointer or a name never set. *)
Theorem C135_harmless_refuted : forall made stamp can_open items l, Forall item_ok items ->
  profile None made stamp can_open (Some (text_of items)) l = UB /\ forall h, profile (Some h) made stamp can_open None l = UB.
Proof. intros made stamp can_open items l F. unfold profile. rewrite C135_status by assumption. split; reflexivity. Qed.
Print Assumptions C135_harmless_refuted.

(** *** An example *)
Definition file1 (mem vm : Z) : list item := [IName "static_mapping_" ""; IOther "Umask:	0022"; IOther "VmPeak:	  999 kB"; ISize vm; IRss mem; IThreads 9; IOther ""].
Lemma lacks_ok : forall s, forallb (fun key => negb (contains key s)) ["Name:"; "VmSize:"; "VmRSS:"; "Threads:"] = true -> lacks s.
Proof. intros s H key I E. rewrite forallb_forall in H. apply H in I. apply contains_iff in E. rewrite E in I. discriminate. Qed.
Lemma file1_ok : Forall item_ok (file1 123456 2345678) /\ Forall item_ok (file1 130000 2400000).
Proof.
  split; repeat constructor; try (vm_compute; intros; discriminate); try (apply lacks_ok; vm_compute; reflexivity); try (cbn; lia).
Qed.
Definition both : list round :=
  [mkRound (Some (total_file busy "")) (Some (stat_file 7 "node" "S" numbers)) (Some (total_file busy2 "")) (Some (stat_file 7 "node" "S" numbers)) (Some (text_of (file1 123456 2345678)));
   mkRound (Some (total_file busy "")) (Some (stat_file 7 "node" "S" numbers)) (Some (total_file busy2 "")) (Some (stat_file 7 "node" "S" numbers)) None;
   mkRound (Some (total_file busy "")) (Some (stat_file 7 "node" "S" numbers)) (Some (total_file busy2 "")) (Some (stat_file 7 "node" "S" numbers2)) (Some (text_of (file1 130000 2400000)))].
Example C135_ex_log : Forall good both /\
  match profile (Some "/home/me") true "2020-01-02.03:04:05" (fun _ => true) (Some (text_of (file1 123456 2345678))) both with
  | Ok (f, es) => f = "/home/me/.static_mapping_log/static_mapping_.log.2020-01-02.03:04:05" /\ map e_mem es = [123456; 130000]%Z /\ map e_vm es = [2345678; 2400000]%Z
  | _ => False
  end.
Proof.
  split.
  - destruct file1_ok as [A B]. repeat apply Forall_cons; [| | |apply Forall_nil]; (split; [eexists; vm_compute; reflexivity|]).
    + right. exists 123456%Z, 2345678%Z. exists (file1 123456 2345678). repeat (split; [(reflexivity || assumption)|]). reflexivity.
    + left. reflexivity.
    + right. exists 130000%Z, 2400000%Z. exists (file1 130000 2400000). repeat (split; [(reflexivity || assumption)|]). reflexivity.
  - vm_compute. repeat split.
Qed.

(** ** What is not as expected *)
(** The calls of fgets: together they read the text; each gives a line, or as much of it as fits into the buffer. *)
Definition ends_line (p : string) : Prop := exists q, p = q ++ newline.
Definition at_most_one_line (p : string) : Prop := one_line p \/ exists q, one_line q /\ p = q ++ newline.
Fixpoint all (l : list string) : string := match l with [] => "" | p :: l => p ++ all l end.
Lemma pieces_parts : forall size s left, (1 <= size)%nat -> (1 <= left)%nat ->
  let (a, l) := pieces size left s in
  a ++ all l = s /\ (a = "" -> s = "") /\ (String.length a <= left)%nat /\ at_most_one_line a /\
  (l <> [] -> String.length a = left \/ ends_line a) /\
  Forall (fun p => (1 <= String.length p <= size)%nat /\ at_most_one_line p) l /\
  (forall x p q y, l = x ++ p :: q :: y -> String.length p = size \/ ends_line p)%list.
Proof.
  intros size s. induction s as [|c s IH]; intros left Hs Hl.
  - cbn. do 3 (split; [auto; lia|]). split; [left; exact I|]. split; [congruence|]. split; [constructor|]. intros x p q y H. destruct x; discriminate.
  - cbn [pieces].
    assert (Next : exists b m, pieces size size s = (b, m) /\
      let rest := match b with EmptyString => m | _ => b :: m end in
      all rest = s /\ Forall (fun p => (1 <= String.length p <= size)%nat /\ at_most_one_line p) rest /\
      (forall x p q y, rest = x ++ p :: q :: y -> String.length p = size \/ ends_line p)%list).
    { pose proof (IH size Hs Hs) as K. destruct (pieces size size s) as [b m]. exists b, m. split; [reflexivity|].
      destruct K as (E & Z & L & O & P & F & G). destruct b as [|d b]; cbn zeta.
      - split; [exact E|]. split; [exact F|exact G].
      - split; [exact E|]. split; [constructor; [split; [split; [cbn; lia|exact L]|exact O]|exact F]|].
        intros [|x1 x] p q y H; injection H as <- H.
        + apply P. rewrite H. discriminate.
        + apply (G x p q y H). }
    destruct Next as (b & m & -> & Cr & Fr & Gr). set (rest := match b with EmptyString => m | _ => b :: m end) in *.
    destruct (Ascii.eqb_spec c nl) as [->|N].
    + split; [cbn; f_equal; exact Cr|]. split; [discriminate|]. split; [cbn; lia|]. split; [right; exists ""; split; [exact I|reflexivity]|].
      split; [intros _; right; exists ""; reflexivity|]. split; [exact Fr|exact Gr].
    + destruct left as [|[|left]]; [lia| |].
      * split; [cbn; f_equal; exact Cr|]. split; [discriminate|]. split; [cbn; lia|]. split; [left; split; [exact N|exact I]|].
        split; [intros _; left; reflexivity|]. split; [exact Fr|exact Gr].
      * specialize (IH (S left) Hs ltac:(lia)). destruct (pieces size (S left) s) as [a l]. destruct IH as (E & Z & L & O & P & F & G).
        split; [cbn; f_equal; exact E|]. split; [discriminate|]. split; [cbn; lia|].
        split; [destruct O as [O|(q & O & ->)]; [left; split; assumption|right; exists (String c q); split; [split; assumption|reflexivity]]|].
        split; [|split; [exact F|exact G]]. intros Nl. destruct (P Nl) as [H|(q & ->)]; [left; cbn; congruence|right; exists (String c q); reflexivity].
Qed.
Theorem C135_lines : forall size s, (1 <= size)%nat ->
  all (fgets_all size s) = s /\
  Forall (fun p => (1 <= String.length p <= size)%nat /\ at_most_one_line p) (fgets_all size s) /\
  (forall x p q y, fgets_all size s = x ++ p :: q :: y -> String.length p = size \/ ends_line p)%list.
Proof.
  intros size s H. pose proof (pieces_parts size s size H H) as K. unfold fgets_all. destruct (pieces size size s) as [b m].
  destruct K as (E & Z & L & O & P & F & G). destruct b as [|d b].
  - split; [exact E|]. split; [exact F|exact G].
  - split; [exact E|]. split; [constructor; [split; [split; [cbn; lia|exact L]|exact O]|exact F]|].
    intros [|x1 x] p q y K; injection K as <- K; [apply P; rewrite K; discriminate|apply (G x p q y K)].
Qed.
Print Assumptions C135_lines.
Example C135_ex_lines : fgets_all 4 ("abcdefgh" ++ newline ++ "ij" ++ newline ++ "klm") = ["abcd"; "efgh"; newline; "ij" ++ newline; "klm"].
Proof. reflexivity. Qed.

(** A file that cannot be opened counts as no time. *)
Theorem C135_unreadable : total_occupy None = Ok 0%Z /\ proc_occupy None = Ok 0%Z /\ forall st, proc_status None st = Ok (false, st).
Proof. repeat split. Qed.
Print Assumptions C135_unreadable.

(** A line with one of the keys and a first word of 64 characters or more overruns a buffer; so does a name of 256 or more. *)
Lemma long_word : forall size w s, no_space w -> (1 <= size <= String.length w)%nat -> match s with EmptyString => True | String c _ => is_space c = true end ->
  scan_word size (w ++ s) = UB.
Proof.
  intros size w s N L S. unfold scan_word.
  assert (K : skip (w ++ s) = w ++ s) by (destruct w as [|c w]; [cbn in L; lia|]; cbn; destruct N as [-> _]; reflexivity).
  rewrite K, word_app by assumption. destruct w as [|c w]; [cbn in L; lia|]. destruct (Nat.ltb_spec (String.length (String c w)) size); [lia|reflexivity].
Qed.
Theorem C135_overrun_refuted :
  (forall w s st, no_space w -> (64 <= String.length w)%nat -> match s with EmptyString => True | String c _ => is_space c = true end ->
    (exists key, In key ["Name:"; "VmSize:"; "VmRSS:"; "Threads:"] /\ contains key (w ++ s) = true) -> status_line st (w ++ s) = UB) /\
  (forall n st, no_space n -> (256 <= String.length n)%nat -> status_line st ("Name:" ++ tab ++ n ++ newline) = UB).
Proof.
  split.
  - intros w s st N L S (key & I & C). unfold status_line, scan_field. rewrite long_word by (auto; lia). cbn [bind].
    cbn [In] in I. destruct I as [<-|[<-|[<-|[<-|[]]]]].
    + rewrite C. reflexivity.
    + destruct (contains "Name:" (w ++ s)); [reflexivity|]. rewrite C. reflexivity.
    + destruct (contains "Name:" (w ++ s)); [reflexivity|]. destruct (contains "VmSize:" (w ++ s)); [reflexivity|]. rewrite C. reflexivity.
    + destruct (contains "Name:" (w ++ s)); [reflexivity|]. destruct (contains "VmSize:" (w ++ s)); [reflexivity|]. destruct (contains "VmRSS:" (w ++ s)); [reflexivity|]. rewrite C. reflexivity.
  - intros n st N L. unfold status_line. assert (C : contains "Name:" ("Name:" ++ tab ++ n ++ newline) = true) by (apply contains_iff; exists "", (tab ++ n ++ newline); reflexivity).
    rewrite C. rewrite (scan_word_app 64 "Name:" (tab ++ n ++ newline)) by (first [discriminate|repeat split; reflexivity|cbn; lia|reflexivity]). cbn [bind].
    change (tab ++ n ++ newline) with (String (ascii_of_nat 9) (n ++ newline)). rewrite scan_word_blank by reflexivity. rewrite long_word; [reflexivity|assumption|lia|reflexivity].
Qed.
Print Assumptions C135_overrun_refuted.
Fixpoint repeated (n : nat) (s : string) : string := match n with O => "" | S n => s ++ repeated n s end.
Example C135_ex_overrun : let w := "VmSize:" ++ repeated 57 "1" in
  no_space w /\ String.length w = 64%nat /\ contains "VmSize:" (w ++ newline) = true /\ no_space (repeated 256 "a") /\ String.length (repeated 256 "a") = 256%nat.
Proof. cbv zeta. repeat split. Qed.

(** A size that no int holds has no defined result; a line without a number changes nothing. *)
Theorem C135_numbers : forall key st, In key ["VmSize:"; "VmRSS:"; "Threads:"] ->
  (forall v, (v < - 2 ^ 31 \/ 2 ^ 31 <= v)%Z -> status_line st (key ++ tab ++ to_string v ++ newline) = UB) /\
  status_line st (key ++ tab ++ newline) = Ok st.
Proof.
  intros key st I. split.
  - intros v H.
    assert (F : forall old, scan_field (key ++ tab ++ to_string v ++ newline) old = UB).
    { intros old. unfold scan_field. assert (W : scan_word 64 (key ++ tab ++ to_string v ++ newline) = Ok (Some (key, tab ++ to_string v ++ newline))).
      { apply scan_word_app; cbn [In] in I; destruct I as [<-|[<-|[<-|[]]]]; first [discriminate|repeat split; reflexivity|cbn; lia|reflexivity]. }
      rewrite W. cbn [bind]. change (tab ++ to_string v ++ newline) with (String (ascii_of_nat 9) (to_string v ++ newline)).
      rewrite scan_blank by reflexivity. rewrite scan_to_string by reflexivity. unfold int_ok. destruct (Z.leb_spec (- 2 ^ 31) v), (Z.ltb_spec v (2 ^ 31)); cbn [andb]; try reflexivity; lia. }
    assert (A : forall c, digit c = None -> c <> "-"%char -> absent c (to_string v ++ newline) \/ c = nl).
    { intros c D M. destruct (Ascii.eqb_spec c nl) as [E|E]; [right; exact E|left]. apply absent_number; auto. cbn. split; [intros X; apply E; (exact X || (symmetry; exact X))|exact Logic.I]. }
    assert (K : forall c k s, digit c = None -> c <> "-"%char -> c <> nl -> absent c (s ++ tab) -> contains (String c k) (s ++ tab ++ to_string v ++ newline) = false).
    { intros c k s D M E Hs. rewrite <- app_s. apply contains_absent, absent_app. split; [exact Hs|]. destruct (A c D M); [assumption|congruence]. }
    unfold status_line. cbn [In] in I. destruct I as [<-|[<-|[<-|[]]]].
    + rewrite (K "N"%char "ame:" "VmSize:") by (first [reflexivity|discriminate|repeat (split; [discriminate|]); exact Logic.I]).
      assert (C : contains "VmSize:" ("VmSize:" ++ tab ++ to_string v ++ newline) = true) by (apply contains_iff; exists "", (tab ++ to_string v ++ newline); reflexivity).
      rewrite C, F. reflexivity.
    + rewrite (K "N"%char "ame:" "VmRSS:") by (first [reflexivity|discriminate|repeat (split; [discriminate|]); exact Logic.I]).
      destruct (contains "VmSize:" _); [rewrite F; reflexivity|].
      assert (C : contains "VmRSS:" ("VmRSS:" ++ tab ++ to_string v ++ newline) = true) by (apply contains_iff; exists "", (tab ++ to_string v ++ newline); reflexivity).
      rewrite C, F. reflexivity.
    + rewrite (K "N"%char "ame:" "Threads:") by (first [reflexivity|discriminate|repeat (split; [discriminate|]); exact Logic.I]).
      destruct (contains "VmSize:" _); [rewrite F; reflexivity|]. destruct (contains "VmRSS:" _); [rewrite F; reflexivity|].
      assert (C : contains "Threads:" ("Threads:" ++ tab ++ to_string v ++ newline) = true) by (apply contains_iff; exists "", (tab ++ to_string v ++ newline); reflexivity).
      rewrite C, F. reflexivity.
  - destruct st as [n v m t]. cbn [In] in I. destruct I as [<-|[<-|[<-|[]]]]; reflexivity.
Qed.
Print Assumptions C135_numbers.

(** A log needs both sizes: if neither the first status nor that of the first round has them, an unset number is written. *)
Theorem C135_unset_refuted : forall h made stamp can_open items items' n r l, Forall item_ok items -> Forall item_ok items' -> last_of name_in items None = Some n ->
  (forall s, can_open s = true) -> (exists q, proc_cpu r = Ok q) -> f_status r = Some (text_of items') ->
  (last_of rss_in items' (last_of rss_in items None) = None \/ last_of size_in items' (last_of size_in items None) = None) ->
  profile (Some h) made stamp can_open (Some (text_of items)) (r :: l) = UB.
Proof.
  intros h made stamp can_open items items' n r l F F' N O (q & Q) S U. unfold profile. rewrite C135_status by assumption. cbn [bind snd s_name s_vm s_mem s_threads unset].
  rewrite N. cbn [rounds]. rewrite Q. cbn [bind s_vm s_mem s_threads]. rewrite S, C135_status by assumption. cbn [bind s_name s_vm s_mem s_threads andb]. rewrite O.
  destruct U as [U|U]; rewrite U; [reflexivity|]. destruct (last_of rss_in items' _); reflexivity.
Qed.
Print Assumptions C135_unset_refuted.
(** A kernel thread has a status without sizes. *)
Definition kernel : list item := [IName "kthreadd" ""; IThreads 1].
Example C135_ex_unset : Forall item_ok kernel /\ last_of rss_in kernel (last_of rss_in kernel None) = None /\ last_of name_in kernel None = Some "kthreadd" /\
  profile (Some "/root") true "now" (fun _ => true) (Some (text_of kernel)) [mkRound None None None None (Some (text_of kernel))] = UB.
Proof.
  split; [|split; [reflexivity|split; [reflexivity|vm_compute; reflexivity]]].
  apply Forall_cons; [|apply Forall_cons; [|apply Forall_nil]].
  - split; [line|]. split; [cbn; lia|]. cbn. repeat split; try discriminate; lia.
  - split; [line|]. split; [cbn; lia|]. cbn. lia.
Qed.
