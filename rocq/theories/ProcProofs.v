(** Proofs for the process profiler. *)
From Coq Require Import ZArith QArith List Bool String Ascii Lia DecimalString Decimal.
From Verif Require Import Outcome IdsModel MapFileModel MapFileProofs ProcModel ProcSpec.
Import ListNotations.
Local Open Scope string_scope.

Lemma app_s : forall a b c : string, ((a ++ b) ++ c = a ++ (b ++ c))%string.
Proof. exact app_assoc_str. Qed.
Lemma length_app : forall a b : string, String.length (a ++ b) = (String.length a + String.length b)%nat.
Proof. induction a; intros b; cbn; [reflexivity|]. rewrite IHa. reflexivity. Qed.
Lemma blanks_app : forall a b, blanks (a ++ b) = (blanks a + blanks b)%nat.
Proof. induction a; intros b; cbn [blanks append]; [reflexivity|]. rewrite IHa. lia. Qed.
Lemma one_line_app : forall a b, one_line (a ++ b) <-> one_line a /\ one_line b.
Proof. induction a; intros b; cbn [one_line append]; [tauto|]. rewrite IHa. tauto. Qed.

(** Digits and the sign. *)
Fixpoint numeral (s : string) : Prop := match s with EmptyString => True | String c r => (digit c <> None \/ c = "-"%char) /\ numeral r end.
Lemma numeral_uint : forall d, numeral (NilEmpty.string_of_uint d).
Proof. induction d; cbn [NilEmpty.string_of_uint numeral]; auto; (split; [left; cbv; discriminate|assumption]). Qed.
Lemma numeral_string : forall z, numeral (to_string z).
Proof.
  intros z. unfold to_string, NilZero.string_of_int, NilZero.string_of_uint.
  assert (forall d, numeral (match d with Nil => "0" | _ => NilEmpty.string_of_uint d end)) as H.
  { intros d. pose proof (numeral_uint d). destruct d; auto. cbn [numeral]. split; [left; cbv; discriminate|exact I]. }
  destruct (Z.to_int z); [apply H|]. cbn [numeral]. split; [right; reflexivity|apply H].
Qed.
Lemma digit_range : forall c, digit c <> None -> (48 <= nat_of_ascii c <= 57)%nat.
Proof.
  intros c H. unfold digit in H. destruct (Nat.leb_spec 48 (nat_of_ascii c)), (Nat.leb_spec (nat_of_ascii c) 57); cbn in H; try congruence; lia.
Qed.
Lemma digit_space : forall c, digit c <> None -> is_space c = false.
Proof.
  intros c H. apply digit_range in H. unfold is_space. destruct (Nat.eqb_spec (nat_of_ascii c) 32); [lia|].
  destruct (Nat.leb_spec 9 (nat_of_ascii c)), (Nat.leb_spec (nat_of_ascii c) 13); cbn; auto; lia.
Qed.
Lemma numeral_blanks : forall s, numeral s -> blanks s = 0%nat.
Proof.
  induction s as [|c s IH]; cbn [numeral blanks]; [auto|]. intros [H N]. rewrite (IH N).
  destruct (Ascii.eqb_spec c blank) as [->|]; [|reflexivity]. destruct H as [H|H]; [apply digit_range in H; cbv in H; lia|discriminate].
Qed.
Lemma numeral_line : forall s, numeral s -> one_line s.
Proof.
  induction s as [|c s IH]; cbn [numeral one_line]; [auto|]. intros [H N]. split; [|auto]. intros ->.
  destruct H as [H|H]; [apply digit_range in H; cbv in H; lia|discriminate].
Qed.
Lemma joined_line : forall fs, one_line (joined fs).
Proof. induction fs as [|z fs IH]; [exact I|]. cbn [joined append one_line]. split; [discriminate|]. apply one_line_app. split; [apply numeral_line, numeral_string|assumption]. Qed.
Lemma joined_stops : forall fs s, stops s -> stops (joined fs ++ s).
Proof. intros [|z fs] s H; [exact H|]. cbn. reflexivity. Qed.
Lemma newline_stops : forall s, stops (newline ++ s).
Proof. intros s. reflexivity. Qed.

Lemma read_digits_uint : forall d acc s, stops s -> read_digits acc (NilEmpty.string_of_uint d ++ s) = (uval d acc, s).
Proof.
  induction d; intros acc s H; cbn [NilEmpty.string_of_uint append uval];
    [destruct s; cbn [read_digits]; [reflexivity|]; cbn in H; rewrite H; reflexivity|..]; cbn [read_digits];
    match goal with |- context [digit ?c] => let r := eval compute in (digit c) in change (digit c) with r end;
    cbv iota; rewrite IHd; auto; f_equal; f_equal; lia.
Qed.
Definition zero_uint (d : uint) : string := match d with Nil => "0" | _ => NilEmpty.string_of_uint d end.
Lemma read_zero_uint : forall d s, stops s -> read_digits 0 (zero_uint d ++ s) = (uval d 0, s).
Proof.
  intros d s H. destruct d; cbn [zero_uint]; try (apply read_digits_uint; assumption).
  change ("0" ++ s) with (NilEmpty.string_of_uint (D0 Nil) ++ s). rewrite read_digits_uint by assumption. reflexivity.
Qed.
Lemma starts_zero_uint : forall d s, starts_digit (zero_uint d ++ s) = true.
Proof. intros d s. destruct d; reflexivity. Qed.
Lemma scan_to_string : forall z s, stops s -> scan_number (to_string z ++ s) = Some (z, s).
Proof.
  intros z s H. unfold to_string, NilZero.string_of_int.
  assert (E : z = match Z.to_int z with Pos d => uval d 0 | Neg d => Z.opp (uval d 0) end).
  { rewrite <- (DecimalZ.of_to z) at 1. destruct (Z.to_int z); cbn [Z.of_int]; rewrite uval_of; reflexivity. }
  destruct (Z.to_int z) as [d|d]; rewrite E.
  - change (NilZero.string_of_uint d) with (zero_uint d). unfold scan_number. pose proof (starts_zero_uint d s) as St. pose proof (read_zero_uint d s H) as Rd.
    destruct (zero_uint d ++ s) as [|c r] eqn:Ez; [discriminate|]. cbn [starts_digit] in St.
    assert (Dc : digit c <> None) by (destruct (digit c); [discriminate|discriminate]).
    cbn [skip]. rewrite (digit_space c Dc). pose proof (digit_range c Dc) as Rg.
    destruct (Ascii.eqb_spec c "-") as [->|]; [cbv in Rg; lia|]. destruct (Ascii.eqb_spec c "+") as [->|]; [cbv in Rg; lia|].
    cbn [starts_digit]. rewrite St, Rd. reflexivity.
  - change (String "-" (NilZero.string_of_uint d) ++ s) with (String "-" (zero_uint d ++ s)). unfold scan_number.
    change (skip (String "-" (zero_uint d ++ s))) with (String "-" (zero_uint d ++ s)). change (Ascii.eqb "-" "-") with true. cbv iota.
    rewrite starts_zero_uint, read_zero_uint by assumption. reflexivity.
Qed.
Lemma scan_blank : forall c s, is_space c = true -> scan_number (String c s) = scan_number s.
Proof. intros c s H. unfold scan_number. cbn [skip]. rewrite H. reflexivity. Qed.

(** The sum of the first numbers of a row. *)
Lemma sum_joined : forall n fs s, (n <= List.length fs)%nat -> Forall (fun z => (- 2 ^ 63 <= z < 2 ^ 63)%Z) fs -> stops s ->
  sum_of n (joined fs ++ s) = Ok (fold_right Z.add 0 (firstn n fs) mod 2 ^ 64)%Z.
Proof.
  induction n as [|n IH]; intros fs s L F St; [reflexivity|]. destruct fs as [|z fs]; [cbn in L; lia|]. inversion F; subst. cbn [List.length] in L.
  cbn [sum_of joined]. change ((" " ++ to_string z ++ joined fs) ++ s) with (String blank ((to_string z ++ joined fs) ++ s)). rewrite scan_blank by reflexivity.
  rewrite app_s, scan_to_string by (apply joined_stops; assumption).
  unfold long_ok. replace ((- 2 ^ 63 <=? z) && (z <? 2 ^ 63))%Z with true by (symmetry; apply andb_true_iff; split; [apply Z.leb_le|apply Z.ltb_lt]; lia).
  rewrite IH by (auto; lia). cbn [bind firstn fold_right]. rewrite Z.add_mod_idemp_r by lia. reflexivity.
Qed.
Lemma after_app : forall a b n, (blanks a < n)%nat -> after_blanks n (a ++ b) = after_blanks (n - blanks a) b.
Proof.
  induction a as [|c a IH]; intros b n H; cbn [append after_blanks blanks]; [rewrite Nat.sub_0_r; reflexivity|]. cbn [blanks] in H.
  destruct (Ascii.eqb c blank).
  - destruct n as [|[|n]]; [lia|lia|]. rewrite IH by lia. f_equal.
  - rewrite IH by lia. f_equal.
Qed.
Lemma after_joined : forall m fs s, (m < List.length fs)%nat -> exists r, after_blanks (S m) (joined fs ++ s) = r /\ String blank r = joined (skipn m fs) ++ s.
Proof.
  induction m as [|m IH]; intros fs s L; destruct fs as [|z fs]; cbn [List.length] in L; try lia.
  - eexists. split; [reflexivity|]. reflexivity.
  - cbn [joined skipn]. destruct (IH fs s ltac:(lia)) as (r & E & S). exists r. split; [|exact S].
    change ((" " ++ to_string z ++ joined fs) ++ s) with (String blank ((to_string z ++ joined fs) ++ s)). cbn [after_blanks]. rewrite Ascii.eqb_refl.
    rewrite app_s, after_app by (rewrite numeral_blanks by apply numeral_string; lia). rewrite numeral_blanks by apply numeral_string. rewrite Nat.sub_0_r. exact E.
Qed.

(** Lines. *)
Lemma pieces_line : forall a size left r, one_line a -> (String.length a < left)%nat ->
  pieces size left (a ++ newline ++ r) = (a ++ newline, fgets_all size r).
Proof.
  induction a as [|c a IH]; intros size left r O L; cbn [append].
  - change (newline ++ r) with (String nl r). cbn [pieces]. rewrite Ascii.eqb_refl. reflexivity.
  - destruct O as [N O]. cbn [String.length] in L. cbn [pieces]. destruct (Ascii.eqb_spec c nl); [congruence|]. destruct left as [|[|k]]; [lia|lia|].
    rewrite IH by (auto; lia). reflexivity.
Qed.
Lemma all_line : forall a size r, one_line a -> (String.length a < size)%nat -> fgets_all size (a ++ newline ++ r) = (a ++ newline) :: fgets_all size r.
Proof. intros a size r O L. unfold fgets_all at 1. rewrite pieces_line by assumption. destruct (a ++ newline) eqn:E; [destruct a; discriminate|reflexivity]. Qed.
Lemma fgets_line : forall a size r, one_line a -> (String.length a < size)%nat -> fgets size (a ++ newline ++ r) = Some (a ++ newline).
Proof. intros a size r O L. unfold fgets. rewrite all_line by assumption. reflexivity. Qed.

(** Words. *)
Lemma word_app : forall n s, no_space n -> match s with EmptyString => True | String c _ => is_space c = true end -> word (n ++ s) = (n, s).
Proof.
  induction n as [|c n IH]; intros s N S; cbn [append word].
  - destruct s as [|c s]; [reflexivity|]. cbn [word]. rewrite S. reflexivity.
  - destruct N as [N1 N2]. rewrite N1, IH by assumption. reflexivity.
Qed.
Lemma scan_word_app : forall size n s, n <> "" -> no_space n -> (String.length n < size)%nat -> match s with EmptyString => True | String c _ => is_space c = true end ->
  scan_word size (n ++ s) = Ok (Some (n, s)).
Proof.
  intros size n s E N L S. unfold scan_word. assert (K : skip (n ++ s) = n ++ s) by (destruct n as [|c n]; [congruence|]; cbn; destruct N as [-> _]; reflexivity).
  rewrite K, word_app by assumption. destruct n; [congruence|]. destruct (Nat.ltb_spec (String.length (String a n)) size); [reflexivity|lia].
Qed.
Lemma scan_word_blank : forall size c s, is_space c = true -> scan_word size (String c s) = scan_word size s.
Proof. intros size c s H. unfold scan_word. cbn [skip]. rewrite H. reflexivity. Qed.

(** strstr. *)
Lemma contains_iff : forall key s, contains key s = true <-> exists a b, s = a ++ key ++ b.
Proof.
  intros key. assert (Pre : forall s, String.prefix key s = true <-> exists b, s = key ++ b).
  { induction key as [|c key IH]; intros s.
    - split; [intros _; exists s; reflexivity|intros _; destruct s; reflexivity].
    - destruct s as [|d s]; cbn [String.prefix]; [split; [discriminate|intros (b & E); discriminate]|].
      destruct (ascii_dec c d) as [->|N].
      + rewrite IH. split; intros (b & E); exists b; [cbn; rewrite E; reflexivity|cbn in E; congruence].
      + split; [discriminate|]. intros (b & E). cbn in E. congruence. }
  induction s as [|d s IH]; cbn [contains]; rewrite orb_true_iff, Pre.
  - split.
    + intros [(b & E)|H]; [exists "", b; exact E|discriminate].
    + intros (a & b & E). left. exists b. destruct a; [exact E|discriminate].
  - rewrite IH. split.
    + intros [(b & E)|(a & b & E)]; [exists "", b; exact E|exists (String d a), b; rewrite E; reflexivity].
    + intros (a & b & E). destruct a as [|x a]; [left; exists b; exact E|]. cbn in E. right. exists a, b. congruence.
Qed.
Fixpoint absent (c : ascii) (s : string) : Prop := match s with EmptyString => True | String d r => d <> c /\ absent c r end.
Lemma absent_app : forall c a b, absent c (a ++ b) <-> absent c a /\ absent c b.
Proof. induction a; intros b; cbn [absent append]; [tauto|]. rewrite IHa. tauto. Qed.
Lemma contains_absent : forall c key s, absent c s -> contains (String c key) s = false.
Proof.
  intros c key s A. apply not_true_is_false. rewrite contains_iff. intros (a & b & ->). apply absent_app in A. destruct A as [_ A]. cbn in A. destruct A as [A _]. congruence.
Qed.
Lemma contains_skip : forall key c s, String.prefix key (String c s) = false -> contains key (String c s) = contains key s.
Proof. intros key c s H. cbn [contains]. rewrite H. reflexivity. Qed.
Lemma numeral_absent : forall c s, digit c = None -> c <> "-"%char -> numeral s -> absent c s.
Proof.
  intros c s D M. induction s as [|d s IH]; cbn [numeral absent]; [auto|]. intros [H N]. split; [|auto]. intros ->. destruct H; congruence.
Qed.

(** The line of one item. *)
Definition updated (st : status) (i : item) : status :=
  mkStatus (last_of name_in [i] (s_name st)) (last_of size_in [i] (s_vm st)) (last_of rss_in [i] (s_mem st)) (last_of threads_in [i] (s_threads st)).
Lemma field_line : forall key s z more old, no_space key -> key <> "" -> (String.length key < 64)%nat ->
  scan_number s = Some (z, more) -> (- 2 ^ 31 <= z < 2 ^ 31)%Z -> scan_field (key ++ tab ++ s) old = Ok (Some z).
Proof.
  intros key s z more old N E L Sc R. unfold scan_field. rewrite scan_word_app by (auto; reflexivity). cbn [bind].
  change (tab ++ s) with (String (ascii_of_nat 9) s). rewrite scan_blank by reflexivity. rewrite Sc.
  unfold int_ok. replace ((- 2 ^ 31 <=? z) && (z <? 2 ^ 31))%Z with true by (symmetry; apply andb_true_iff; split; [apply Z.leb_le|apply Z.ltb_lt]; lia). reflexivity.
Qed.
Ltac spaces := rewrite scan_blank by reflexivity.
Lemma absent_number : forall c z s, digit c = None -> c <> "-"%char -> absent c s -> absent c (to_string z ++ s).
Proof. intros. apply absent_app. split; [apply numeral_absent; auto; apply numeral_string|assumption]. Qed.
Ltac lit := repeat (split; [discriminate|]); try exact I.
Ltac key := solve [discriminate | cbn; lia | repeat split; reflexivity | reflexivity].
Lemma line_spec : forall i st, item_ok i -> status_line st (show i ++ newline) = Ok (updated st i).
Proof.
  intros i st (O & L & H). destruct i as [n more|v|v|v|s]; cbn [show] in *.
  - destruct H as (E & N & Ln & M). unfold status_line.
    replace (contains "Name:" (("Name:" ++ tab ++ n ++ more) ++ newline)) with true
      by (symmetry; apply contains_iff; exists "", ((tab ++ n ++ more) ++ newline); reflexivity).
    rewrite !app_s. rewrite (scan_word_app 64 "Name:") by key. cbn [bind].
    change (tab ++ n ++ more ++ newline) with (String (ascii_of_nat 9) (n ++ more ++ newline)). rewrite scan_word_blank by reflexivity.
    rewrite scan_word_app by (auto; try (destruct more; [reflexivity|exact M])). reflexivity.
  - set (tail := to_string v ++ " kB" ++ newline).
    assert (E : ("VmSize:" ++ tab ++ "   " ++ to_string v ++ " kB") ++ newline = "VmSize:" ++ tab ++ "   " ++ tail) by (unfold tail; rewrite !app_s; reflexivity).
    rewrite E. unfold status_line.
    rewrite (contains_absent "N" "ame:"). 2: { change (absent "N" ("VmSize:" ++ (tab ++ ("   " ++ tail)))). apply absent_app. split; [cbn; lit|]. cbn [tab append absent]. lit. apply absent_number; [reflexivity|discriminate|cbn; lit]. }
    replace (contains "VmSize:" ("VmSize:" ++ tab ++ "   " ++ tail)) with true by (symmetry; apply contains_iff; exists "", (tab ++ "   " ++ tail); reflexivity).
    erewrite field_line with (z := v); [reflexivity|key|key|key| |assumption].
    change ("   " ++ tail) with (String " " (String " " (String " " tail))). spaces. spaces. spaces. apply scan_to_string. reflexivity.
  - set (tail := to_string v ++ " kB" ++ newline).
    assert (E : ("VmRSS:" ++ tab ++ "   " ++ to_string v ++ " kB") ++ newline = "VmRSS:" ++ tab ++ "   " ++ tail) by (unfold tail; rewrite !app_s; reflexivity).
    rewrite E. unfold status_line.
    rewrite (contains_absent "N" "ame:"). 2: { change (absent "N" ("VmRSS:" ++ (tab ++ ("   " ++ tail)))). apply absent_app. split; [cbn; lit|]. cbn [tab append absent]. lit. apply absent_number; [reflexivity|discriminate|cbn; lit]. }
    replace (contains "VmSize:" ("VmRSS:" ++ tab ++ "   " ++ tail)) with false.
    2: { symmetry. change ("VmRSS:" ++ tab ++ "   " ++ tail) with (String "V" ("mRSS:" ++ tab ++ "   " ++ tail)). rewrite contains_skip by reflexivity. apply contains_absent.
         apply absent_app. split; [cbn; lit|]. cbn [tab append absent]. lit. apply absent_number; [reflexivity|discriminate|cbn; lit]. }
    replace (contains "VmRSS:" ("VmRSS:" ++ tab ++ "   " ++ tail)) with true by (symmetry; apply contains_iff; exists "", (tab ++ "   " ++ tail); reflexivity).
    erewrite field_line with (z := v); [reflexivity|key|key|key| |assumption].
    change ("   " ++ tail) with (String " " (String " " (String " " tail))). spaces. spaces. spaces. apply scan_to_string. reflexivity.
  - set (tail := to_string v ++ newline).
    assert (E : ("Threads:" ++ tab ++ to_string v) ++ newline = "Threads:" ++ tab ++ tail) by (unfold tail; rewrite !app_s; reflexivity).
    rewrite E. unfold status_line.
    assert (Ab : forall c, c <> "T"%char -> c <> "h"%char -> c <> "r"%char -> c <> "e"%char -> c <> "a"%char -> c <> "d"%char -> c <> "s"%char -> c <> ":"%char -> c <> "-"%char -> digit c = None ->
      c <> ascii_of_nat 9 -> c <> nl -> absent c ("Threads:" ++ tab ++ tail)).
    { intros. apply absent_app. split; [cbn [absent]; repeat split; congruence|]. cbn [tab append absent]. split; [congruence|]. apply absent_number; [assumption|assumption|]. unfold newline. cbn [absent]. split; [congruence|exact I]. }
    rewrite !contains_absent by (apply Ab; try discriminate; reflexivity).
    replace (contains "Threads:" ("Threads:" ++ tab ++ tail)) with true by (symmetry; apply contains_iff; exists "", (tab ++ tail); reflexivity).
    erewrite field_line with (z := v); [reflexivity|key|key|key| |assumption].
    apply scan_to_string. reflexivity.
  - unfold status_line. assert (K : forall key, In key ["Name:"; "VmSize:"; "VmRSS:"; "Threads:"] -> contains key (s ++ newline) = false).
    { intros key I. apply not_true_is_false. rewrite contains_iff. apply H. assumption. }
    rewrite !K by (cbn; tauto). destruct st; reflexivity.
Qed.
Lemma status_spec : forall items st, Forall item_ok items ->
  run status_line st (fgets_all 511 (text_of items)) =
  Ok (mkStatus (last_of name_in items (s_name st)) (last_of size_in items (s_vm st)) (last_of rss_in items (s_mem st)) (last_of threads_in items (s_threads st))).
Proof.
  induction items as [|i items IH]; intros st F.
  - destruct st; reflexivity.
  - inversion F as [|? ? Hi F']; subst. cbn [text_of fold_right]. pose proof Hi as (O & L & _). change (fold_right (fun i s => show i ++ newline ++ s) "" items) with (text_of items).
    rewrite all_line by assumption. cbn [run]. rewrite line_spec by assumption. cbn [bind]. rewrite IH by assumption. reflexivity.
Qed.

(** The two files of the processor time. *)
Lemma proc_spec : forall pid comm state fs, stat_ok comm state fs pid -> (blanks comm <= 10)%nat ->
  proc_occupy (Some (stat_file pid comm state fs)) = Ok (fold_right Z.add 0 (firstn 4 (skipn (10 - blanks comm) fs)) mod 2 ^ 64)%Z.
Proof.
  intros pid comm state fs (C & S & Sb & F & L & Len) K. unfold proc_occupy, stat_file.
  replace (stat_text pid comm state fs ++ newline) with (stat_text pid comm state fs ++ newline ++ "") by reflexivity.
  rewrite fgets_line.
  - unfold get_items, stat_text. change (14 - 1)%nat with 13%nat.
    set (head := to_string pid ++ " (" ++ comm ++ ") " ++ state).
    replace ((to_string pid ++ " (" ++ comm ++ ") " ++ state ++ joined fs) ++ newline) with (head ++ joined fs ++ newline) by (unfold head; rewrite !app_s; reflexivity).
    assert (B : blanks head = (2 + blanks comm)%nat).
    { unfold head. rewrite blanks_app, numeral_blanks by apply numeral_string. change (" (" ++ comm ++ ") " ++ state) with (String " " (String "(" (comm ++ ") " ++ state))).
      cbn [blanks]. rewrite blanks_app. change (") " ++ state) with (String ")" (String " " state)). cbn [blanks]. rewrite Sb. cbn. lia. }
    rewrite after_app, B by lia. replace (13 - (2 + blanks comm))%nat with (Datatypes.S (10 - blanks comm)) by lia.
    destruct (after_joined (10 - blanks comm) fs newline ltac:(lia)) as (r & -> & R).
    assert (Sum : sum_of 4 (String blank r) = sum_of 4 r) by (cbn [sum_of]; rewrite scan_blank by reflexivity; reflexivity).
    rewrite <- Sum, R. apply sum_joined; [rewrite skipn_length; lia| |reflexivity].
    clear - F. revert fs F. induction (10 - blanks comm)%nat as [|n IH]; intros fs F; [exact F|]. destruct fs; [constructor|]. inversion F; subst. cbn [skipn]. auto.
  - unfold stat_text. apply one_line_app. split; [apply numeral_line, numeral_string|]. change (" (" ++ comm ++ ") " ++ state ++ joined fs) with (" (" ++ (comm ++ (") " ++ (state ++ joined fs)))).
    apply one_line_app. split; [cbn; lit|]. apply one_line_app. split; [assumption|]. apply one_line_app. split; [cbn; lit|]. apply one_line_app. split; [assumption|apply joined_line].
  - assumption.
Qed.
Lemma total_spec : forall fs more, total_ok fs -> total_occupy (Some (total_file fs more)) = Ok (total_time fs mod 2 ^ 64)%Z.
Proof.
  intros fs more (F & L & Len). unfold total_occupy, total_file.
  replace ("cpu " ++ joined fs ++ newline ++ more) with (("cpu " ++ joined fs) ++ newline ++ more) by (rewrite !app_s; reflexivity).
  rewrite fgets_line.
  - change (("cpu " ++ joined fs) ++ newline) with ("cpu" ++ String " " (joined fs ++ newline)). rewrite (scan_word_app 64 "cpu") by key. cbn [bind].
    assert (Sum : forall s, sum_of 4 (String " " s) = sum_of 4 s) by (intros s; cbn [sum_of]; rewrite scan_blank by reflexivity; reflexivity).
    rewrite Sum, sum_joined by (auto; reflexivity). f_equal. f_equal. unfold total_time. destruct fs as [|a [|b [|c [|d fs]]]]; cbn [List.length] in L; try lia. cbn. lia.
  - apply one_line_app. split; [cbn; lit|apply joined_line].
  - rewrite length_app. cbn [String.length]. lia.
Qed.
