(** Property C59: file paths. *)
From Coq Require Import Ascii String List Bool Lia Arith.
From Verif Require Import FilesModel.
Import ListNotations.
Local Open Scope string_scope.

Fixpoint has (c : ascii) (s : string) : Prop := match s with EmptyString => False | String d r => d = c \/ has c r end.
(** [p] is the directory part of [file]: everything up to and including the last slash. *)
Definition directory_part (file p : string) : Prop :=
  exists name, file = p ++ name /\ ~ has slash name /\ (p = "" \/ exists d, p = d ++ "/").

Lemma substring_0 : forall s, substring 0 0 s = "".
Proof. destruct s; reflexivity. Qed.
Theorem C59_directory : forall file, directory_part file (file_path file).
Proof.
  assert (forall file, match find_last file with
                       | Some n => exists name, file = (substring 0 n file ++ "/") ++ name /\ ~ has slash name
                       | None => ~ has slash file
                       end) as Go.
  { induction file as [|c r IH]; cbn [find_last]; [intros []|].
    destruct (find_last r) as [n|].
    - destruct IH as (name & E & N). exists name. cbn. split; [f_equal; exact E|exact N].
    - destruct (Ascii.eqb_spec c slash) as [-> | Ne].
      + exists r. rewrite substring_0. split; [reflexivity|exact IH].
      + cbn. intros [H|H]; [congruence|apply IH, H]. }
  intros file. specialize (Go file). unfold directory_part, file_path. destruct (find_last file) as [n|].
  - destruct Go as (name & E & N). exists name. split; [exact E|]. split; [exact N|]. right. eauto.
  - exists file. split; [reflexivity|]. split; [exact Go|]. left. reflexivity.
Qed.
(** The directory part is unique, so the function is fully described. *)
Theorem C59_unique : forall file p q, directory_part file p -> directory_part file q -> p = q.
Proof.
  assert (forall p q n m, p ++ n = q ++ m -> ~ has slash n -> ~ has slash m -> (p = "" \/ exists d, p = d ++ "/") -> (q = "" \/ exists d, q = d ++ "/") -> p = q) as Go.
  { assert (forall d n, has slash (d ++ "/" ++ n)) as HasS. { induction d as [|a d IHd]; intros n; cbn; [left; reflexivity|right; apply (IHd n)]. }
    assert (forall a b c : string, (a ++ b) ++ c = a ++ b ++ c) as As. { induction a; intros; cbn; [reflexivity|f_equal; auto]. }
    induction p as [|c p IH]; intros q n m E Nn Nm Hp Hq.
    - destruct Hq as [-> | (d & ->)]; [reflexivity|]. cbn in E. subst n. rewrite As in Nn. destruct Nn. apply HasS.
    - destruct q as [|c' q].
      + destruct Hp as [Hp|(d & Hp)]; [discriminate|]. rewrite Hp, As in E. cbn in E. subst m. destruct Nm. apply HasS.
      + cbn in E. injection E as <- E. f_equal. apply (IH q n m E Nn Nm).
        * destruct Hp as [Hp|([|c0 d] & Hp)]; [discriminate| |]; cbn in Hp; injection Hp as _ Hp; [left; exact Hp|right; exists d; exact Hp].
        * destruct Hq as [Hq|([|c0 d] & Hq)]; [discriminate| |]; cbn in Hq; injection Hq as _ Hq; [left; exact Hq|right; exists d; exact Hq]. }
  intros file p q (n & E1 & N1 & P1) (m & E2 & N2 & P2). apply (Go p q n m); congruence || assumption.
Qed.

Fixpoint slashes (n : nat) : string := match n with O => "" | S k => String slash (slashes k) end.
(** Trailing slashes are removed, nothing else. *)
Theorem C59_strip : forall s, exists n, s = strip s ++ slashes n /\ ~ (exists d, strip s = d ++ "/").
Proof.
  induction s as [|c r IH]; cbn [strip].
  - exists 0. split; [reflexivity|]. intros ([|] & H); discriminate.
  - destruct IH as (n & E & N). destruct (strip r) as [|c' r'] eqn:F.
    + destruct (Ascii.eqb_spec c slash) as [-> | Ne].
      * exists (S n). cbn in *. split; [f_equal; exact E|]. intros ([|] & H); discriminate.
      * exists n. cbn in *. split; [f_equal; exact E|]. intros ([|x [|y d]] & H); cbn in H; try discriminate. injection H as H. apply Ne. exact H.
    + exists n. split; [cbn in *; f_equal; exact E|]. intros ([|x d] & H); [discriminate|]. cbn in H. injection H as _ H. apply N. exists d. exact H.
Qed.
(** If CreateDir succeeds the path exists (for paths other than slashes only), nothing that existed is
    removed, and it succeeds for every existing path. *)
Theorem C59_create_dir : forall can f path,
  let '(ok, f') := create_dir can f path in
  (ok = true -> strip path <> "" -> exists_ f' (strip path) = true) /\
  (forall q, exists_ f q = true -> exists_ f' q = true) /\
  (exists_ f (strip path) = true -> ok = true /\ f' = f).
Proof.
  intros can f path. unfold create_dir. destruct (strip path) as [|c r] eqn:E; cbn [orb].
  - split; [congruence|]. split; [auto|]. auto.
  - destruct (exists_ f (String c r)) eqn:X; [auto|]. destruct (can f (String c r)).
    + split; [intros _ _; unfold made; cbn [exists_]; rewrite String.eqb_refl; reflexivity|]. split; [|congruence]. intros q Hq. unfold made. cbn [exists_]. rewrite Hq. apply orb_true_r.
    + split; [discriminate|]. split; [auto|congruence].
Qed.
(** Success does not mean that there is a directory: an ordinary file of that name is enough. *)
Theorem C59_directory_exists_refuted : exists can f path, fst (create_dir can f path) = true /\ is_dir (snd (create_dir can f path)) (strip path) = false /\ strip path = "maps".
Proof.
  exists (fun _ _ => true), (mkFs (fun q => String.eqb q "maps") (fun _ => false)), "maps/". vm_compute. auto.
Qed.
Example C59_example : file_path "/data/run1/map.xml" = "/data/run1/" /\ file_path "map.xml" = "" /\ strip "a/b//" = "a/b" /\ strip "//" = "".
Proof. vm_compute. auto. Qed.

Print Assumptions C59_directory.
Print Assumptions C59_unique.
Print Assumptions C59_strip.
Print Assumptions C59_create_dir.
Print Assumptions C59_directory_exists_refuted.
