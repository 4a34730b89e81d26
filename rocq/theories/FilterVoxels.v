(** Proofs about the voxel maps of the ground and voxel grid filters. *)
From Coq Require Import ZArith List Bool Lia Sorted Permutation SpecFloat.
From Verif Require Import Outcome TimeModel LoopSpec LoopProofs FloatOrder FilterModel FilterSpec FilterProofs.
Import ListNotations.
Local Open Scope outcome_scope.

Lemma cell_eq_true : forall a b, cell_eq a b = true <-> a = b.
Proof.
  intros [[x y] z] [[u v] w]. cbn. rewrite !andb_true_iff, !Z.eqb_eq. split.
  - intros ((-> & ->) & ->). reflexivity.
  - intros E. injection E. auto.
Qed.
Lemma cell_eq_spec : forall a b, reflect (a = b) (cell_eq a b).
Proof. intros a b. apply iff_reflect. symmetry. apply cell_eq_true. Qed.
Lemma cell_eq_refl : forall a, cell_eq a a = true.
Proof. intros a. apply cell_eq_true. reflexivity. Qed.
Lemma cell_lt_true : forall a b, cell_lt a b = true <-> klt a b.
Proof.
  intros [[x y] z] [[u v] w]. cbn. rewrite !orb_true_iff, !andb_true_iff, !orb_true_iff, !andb_true_iff.
  rewrite !Z.ltb_lt, !Z.eqb_eq. tauto.
Qed.

Section Put.
  Context {A : Type}.
  Implicit Types (m : list (cell * list A)) (c k : cell) (i : A).

  Fixpoint get m c : list A :=
    match m with [] => [] | (j, l) :: m' => if cell_eq j c then l else get m' c end.
  Definition sorted m : Prop := StronglySorted klt (map fst m).
  Definition occupied m : Prop := forall c l, In (c, l) m -> l <> [].

  Lemma put_keys : forall m k i c, In c (map fst (put m k i)) <-> c = k \/ In c (map fst m).
  Proof.
    induction m as [|[j l] m IH]; intros k i c; cbn; [intuition|].
    destruct (cell_eq_spec k j) as [->|N]; cbn; [intuition|].
    destruct (cell_lt k j); cbn; [intuition|]. rewrite IH. intuition.
  Qed.
  Lemma put_sorted : forall m k i, sorted m -> sorted (put m k i).
  Proof.
    induction m as [|[j l] m IH]; intros k i S; cbn; unfold sorted in *; cbn.
    - constructor; constructor.
    - inversion_clear S as [|? ? S' F].
      destruct (cell_eq_spec k j) as [->|N]; cbn; [constructor; assumption|].
      destruct (cell_lt k j) eqn:L; cbn.
      + apply cell_lt_true in L. constructor; [constructor; assumption|].
        constructor; [assumption|]. eapply Forall_impl; [|exact F]. intros c. apply klt_trans; assumption.
      + constructor; [apply IH; assumption|]. apply Forall_forall. intros c Hc. apply put_keys in Hc.
        destruct Hc as [->|Hc]; [|rewrite Forall_forall in F; auto].
        destruct (klt_total j k) as [H|[->|H]]; [assumption|congruence|].
        apply cell_lt_true in H. congruence.
  Qed.
  Lemma get_absent : forall m c, ~ In c (map fst m) -> get m c = [].
  Proof.
    induction m as [|[j l] m IH]; intros c H; cbn in *; [reflexivity|].
    destruct (cell_eq_spec j c); [tauto|]. apply IH. tauto.
  Qed.
  Lemma below_absent : forall m k, sorted m -> (forall c, In c (map fst m) -> klt k c) -> get m k = [].
  Proof. intros m k S H. apply get_absent. intros I. exact (klt_irrefl _ (H _ I)). Qed.
  Lemma get_put : forall m k i c, sorted m ->
    get (put m k i) c = if cell_eq k c then get m c ++ [i] else get m c.
  Proof.
    induction m as [|[j l] m IH]; intros k i c S; cbn; [destruct (cell_eq_spec k c); reflexivity|].
    inversion_clear S as [|? ? S' F]. rewrite Forall_forall in F.
    destruct (cell_eq_spec k j) as [->|N]; cbn.
    - destruct (cell_eq_spec j c); reflexivity.
    - destruct (cell_lt k j) eqn:L; cbn.
      + apply cell_lt_true in L. destruct (cell_eq_spec k c) as [->|Nc]; [|reflexivity].
        destruct (cell_eq_spec j c); [congruence|]. rewrite get_absent; [reflexivity|].
        intros I. apply (klt_irrefl c). apply (klt_trans _ j); auto.
      + rewrite IH by assumption. destruct (cell_eq_spec j c); [|reflexivity].
        destruct (cell_eq_spec k c); [congruence|reflexivity].
  Qed.
  Lemma put_occupied : forall m k i, occupied m -> occupied (put m k i).
  Proof.
    induction m as [|[j l] m IH]; intros k i O c' l' H; cbn in H.
    - destruct H as [E|[]]. injection E as <- <-. discriminate.
    - destruct (cell_eq_spec k j) as [->|N]; cbn in H.
      + destruct H as [E|H]; [injection E as <- <-; destruct l; discriminate|apply (O c'); right; assumption].
      + destruct (cell_lt k j); cbn in H.
        * destruct H as [E|H]; [injection E as <- <-; discriminate|apply (O c'); assumption].
        * destruct H as [E|H]; [apply (O c'); left; assumption|].
          apply (IH k i) with (c := c'); [|assumption]. intros c l'' Hc. apply (O c). right. assumption.
  Qed.
  Lemma in_get : forall m c l, sorted m -> occupied m -> (In (c, l) m <-> l <> [] /\ get m c = l).
  Proof.
    intros m c l S O. split.
    - intros H. split; [apply (O c); assumption|]. clear O. induction m as [|[j l'] m IH]; [contradiction|].
      inversion_clear S as [|? ? S' F]. cbn. destruct H as [E|H].
      + injection E as -> ->. rewrite cell_eq_refl. reflexivity.
      + destruct (cell_eq_spec j c) as [->|N]; [|apply IH; assumption].
        rewrite Forall_forall in F. exfalso. apply (klt_irrefl c), F. apply in_map_iff. exists (c, l). auto.
    - intros (N & <-). clear S O. induction m as [|[j l'] m IH]; cbn in *; [congruence|].
      destruct (cell_eq_spec j c) as [->|Nc]; auto.
  Qed.
  Lemma sorted_nodup : forall m, sorted m -> NoDup (map fst m).
  Proof.
    intros m S. unfold sorted in S. induction S as [|c l S IH F]; constructor; auto.
    intros I. rewrite Forall_forall in F. exact (klt_irrefl _ (F _ I)).
  Qed.
End Put.

(** ** The ground filter *)
Lemma ground_cell_ok : forall leaf p, (exists c, ground_cell leaf p = Ok c) \/ ground_cell leaf p = UB.
Proof.
  intros leaf p. unfold ground_cell.
  assert (T : forall x, (exists z, to_int x = Ok z) \/ to_int x = UB).
  { intros x. unfold to_int. destruct (trunc_fl x); auto. destruct (_ && _); eauto. }
  destruct (T (fdiv (px p) leaf)) as [(x & ->)| ->]; cbn; auto.
  destruct (T (fdiv (py p) leaf)) as [(y & ->)| ->]; cbn; auto.
  destruct (T (fdiv (pz p) leaf)) as [(z & ->)| ->]; cbn; eauto.
Qed.

Lemma members_snoc : forall cs k c,
  members (cs ++ [k]) c = if cell_eq k c then members cs c ++ [length cs] else members cs c.
Proof.
  intros cs k c. unfold members. rewrite app_length, Nat.add_1_r, seq_S, filter_app. cbn.
  rewrite nth_error_app2, Nat.sub_diag by lia. cbn.
  assert (E : List.filter (fun i => match nth_error (cs ++ [k]) i with Some d => cell_eq d c | None => false end) (seq 0 (length cs))
            = List.filter (fun i => match nth_error cs i with Some d => cell_eq d c | None => false end) (seq 0 (length cs))).
  { apply filter_ext_in. intros i Hi. apply in_seq in Hi. rewrite nth_error_app1 by lia. reflexivity. }
  rewrite E. destruct (cell_eq k c); [reflexivity|apply app_nil_r].
Qed.

Lemma ground_voxels_spec : forall leaf l cs pre m, Forall2 (fun p c => ground_cell leaf p = Ok c) l cs ->
  sorted m -> occupied m -> (forall c, get m c = members pre c) ->
  exists m', ground_voxels leaf l (length pre) m = Ok m' /\ sorted m' /\ occupied m' /\
    forall c, get m' c = members (pre ++ cs) c.
Proof.
  intros leaf l cs pre m F. revert pre m. induction F as [|p c l cs Hp F IH]; intros pre m S O G; cbn.
  - exists m. rewrite app_nil_r. auto.
  - rewrite Hp. cbn.
    destruct (IH (pre ++ [c]) (put m c (length pre))) as (m' & E & S' & O' & G').
    + apply put_sorted; assumption.
    + apply put_occupied; assumption.
    + intros d. rewrite get_put, members_snoc, G by assumption. reflexivity.
    + rewrite app_length, Nat.add_1_r in E. rewrite E. exists m'. rewrite <- app_assoc in G'. auto.
Qed.
Lemma ground_voxels_ub : forall leaf l i m, (exists p, In p l /\ ground_cell leaf p = UB) -> ground_voxels leaf l i m = UB.
Proof.
  intros leaf. induction l as [|p l IH]; intros i m (q & Hq & E); [contradiction|]. cbn.
  destruct (ground_cell_ok leaf p) as [(c & Ec)|Ec]; rewrite Ec; cbn; [|reflexivity].
  apply IH. destruct Hq as [->|Hq]; [congruence|eauto].
Qed.

Lemma members_in : forall cs c i, In i (members cs c) <-> nth_error cs i = Some c.
Proof.
  intros cs c i. unfold members. rewrite filter_In, in_seq. split.
  - intros (_ & H). destruct (nth_error cs i); [|discriminate]. apply cell_eq_true in H. congruence.
  - intros H. rewrite H, cell_eq_refl. split; [|reflexivity].
    assert (i < length cs) by (apply nth_error_Some; congruence). lia.
Qed.
Lemma members_nodup : forall cs c, NoDup (members cs c).
Proof. intros. apply NoDup_filter, seq_NoDup. Qed.

Lemma gather_spec : forall pts l, (forall i, In i l -> i < length pts) -> exists q, gather pts l = Ok q /\ picked pts l q.
Proof.
  intros pts. induction l as [|i l IH]; intros H; cbn; [exists []; split; [reflexivity|constructor]|].
  destruct (nth_error pts i) as [p|] eqn:E; [|apply nth_error_None in E; specialize (H i (or_introl eq_refl)); lia].
  destruct IH as (q & -> & Q); [intros; apply H; right; assumption|]. cbn. exists (p :: q). split; [reflexivity|].
  constructor; assumption.
Qed.
Lemma picked_fun : forall pts l q r, picked pts l q -> picked pts l r -> q = r.
Proof.
  intros pts l q r H. revert r. induction H; intros r K; inversion_clear K; [reflexivity|].
  f_equal; [congruence|auto].
Qed.
Lemma picked_app : forall pts l m q r, picked pts l q -> picked pts m r -> picked pts (l ++ m) (q ++ r).
Proof. intros. apply Forall2_app; assumption. Qed.
Lemma picked_perm : forall pts l m q, Permutation l m -> picked pts l q -> exists r, Permutation q r /\ picked pts m r.
Proof.
  intros pts l m q P. revert q. induction P; intros q K.
  - exists q. auto.
  - inversion_clear K. destruct (IHP _ H0) as (r & R1 & R2). exists (y :: r). split; [constructor; assumption|constructor; assumption].
  - inversion_clear K. inversion_clear H0. eexists. split; [apply perm_swap|]. constructor; [eassumption|constructor; eassumption].
  - destruct (IHP1 _ K) as (r & R1 & R2). destruct (IHP2 _ R2) as (s & S1 & S2). exists s. split; [eapply perm_trans; eassumption|assumption].
Qed.

(** The loop over voxels, for any list of voxels. *)
Lemma ground_loop_spec : forall pts height least m, (forall c l i, In (c, l) m -> In i l -> i < length pts) ->
  exists a b q, ground_loop pts height least m = Ok (a, b, q) /\ picked pts a q /\
    (forall i, In i a <-> exists c l ps, In (c, l) m /\ In i l /\ (least <= Z.of_nat (length l))%Z /\ picked pts l ps /\ is_ground c ps height = false) /\
    (forall i, In i b <-> exists c l ps, In (c, l) m /\ In i l /\ (least <= Z.of_nat (length l))%Z /\ picked pts l ps /\ is_ground c ps height = true).
Proof.
  intros pts height least. induction m as [|[c l] m IH]; intros H; cbn.
  - exists [], [], []. split; [reflexivity|]. split; [constructor|]. split; intros i; split; try contradiction; intros (? & ? & ? & [] & _).
  - destruct IH as (a & b & q & E & K & Ia & Ib); [intros; eapply H; [right|]; eassumption|].
    destruct (Z.ltb_spec (Z.of_nat (length l)) least) as [L|L].
    + rewrite E. exists a, b, q. split; [reflexivity|]. split; [assumption|].
      split; intros i; [rewrite Ia|rewrite Ib]; split.
      * intros (d & x & ps & I & R). exists d, x, ps. split; [right; assumption|assumption].
      * intros (d & x & ps & [J|I] & I2 & I3 & I4); [injection J as -> ->; lia|]. exists d, x, ps. auto.
      * intros (d & x & ps & I & R). exists d, x, ps. split; [right; assumption|assumption].
      * intros (d & x & ps & [J|I] & I2 & I3 & I4); [injection J as -> ->; lia|]. exists d, x, ps. auto.
    + destruct (gather_spec pts l) as (ps & G & P); [intros i Hi; apply (H c l); [left; reflexivity|assumption]|].
      rewrite G, E. cbn. destruct (is_ground c ps height) eqn:IG; eexists _, _, _; (split; [reflexivity|]); (split; [auto using picked_app|]);
        (split; intros i).
      * rewrite Ia. split.
        -- intros (d & x & r & I & R). exists d, x, r. split; [right; assumption|assumption].
        -- intros (d & x & r & [J|I] & I2 & I3 & I4 & I5); [|exists d, x, r; auto].
           injection J as -> ->. rewrite (picked_fun _ _ _ _ I4 P) in I5. congruence.
      * rewrite in_app_iff, Ib. split.
        -- intros [I|(d & x & r & I & R)]; [exists c, l, ps; split; [left; reflexivity|auto]|exists d, x, r; split; [right; assumption|assumption]].
        -- intros (d & x & r & [J|I] & I2 & R); [injection J as -> ->; left; assumption|right; exists d, x, r; auto].
      * rewrite in_app_iff, Ia. split.
        -- intros [I|(d & x & r & I & R)]; [exists c, l, ps; split; [left; reflexivity|auto]|exists d, x, r; split; [right; assumption|assumption]].
        -- intros (d & x & r & [J|I] & I2 & R); [injection J as -> ->; left; assumption|right; exists d, x, r; auto].
      * rewrite Ib. split.
        -- intros (d & x & r & I & R). exists d, x, r. split; [right; assumption|assumption].
        -- intros (d & x & r & [J|I] & I2 & I3 & I4 & I5); [|exists d, x, r; auto].
           injection J as -> ->. rewrite (picked_fun _ _ _ _ I4 P) in I5. congruence.
Qed.

Lemma ground_loop_nodup : forall pts height least m a b q, NoDup (concat (map snd m)) ->
  ground_loop pts height least m = Ok (a, b, q) -> NoDup a /\ NoDup b /\ incl a (concat (map snd m)) /\ incl b (concat (map snd m)).
Proof.
  intros pts height least. induction m as [|[c l] m IH]; intros a b q N E; cbn in *.
  - injection E as <- <- <-. split; [constructor|]. split; [constructor|]. split; apply incl_refl.
  - assert (Nl : NoDup l /\ NoDup (concat (map snd m)) /\ forall x, In x l -> In x (concat (map snd m)) -> False).
    { clear - N. induction l as [|x l IHl]; cbn in *; [split; [constructor|]; split; [assumption|contradiction]|].
      inversion_clear N as [|? ? N1 N2]. destruct (IHl N2) as (A & B & C). rewrite in_app_iff in N1.
      split; [constructor; tauto|]. split; [assumption|]. intros y [<-|Hy] Hz; [tauto|eauto]. }
    destruct Nl as (Nl & Nm & D).
    assert (App : forall u, NoDup u -> incl u (concat (map snd m)) -> NoDup (l ++ u)).
    { intros u Nu Iu. clear - Nl Nu Iu D. induction l as [|x l IHl]; cbn; [assumption|]. inversion_clear Nl as [|? ? N1 N2].
      constructor; [|apply IHl; [assumption|intros y Hy; apply D; right; assumption]].
      rewrite in_app_iff. intros [H|H]; [contradiction|]. apply (D x); [left; reflexivity|apply Iu; assumption]. }
    destruct (Z.of_nat (length l) <? least)%Z.
    + destruct (IH _ _ _ Nm E) as (A & B & C & F). repeat split; auto; intros x Hx; apply in_app_iff; right; auto.
    + destruct (gather pts l); try discriminate. cbn in E.
      destruct (ground_loop pts height least m) as [[[a' b'] q']| | |]; try discriminate. cbn in E.
      destruct (IH _ _ _ Nm eq_refl) as (A & B & C & F).
      destruct (is_ground c a0 height); injection E as <- <- <-.
      * split; [assumption|]. split; [apply App; assumption|]. split; intros x Hx; apply in_app_iff; [right; auto|].
        apply in_app_iff in Hx. destruct Hx; auto.
      * split; [apply App; assumption|]. split; [assumption|]. split; intros x Hx; apply in_app_iff; [|right; auto].
        apply in_app_iff in Hx. destruct Hx; auto.
Qed.

Lemma groups_nodup : forall cs (m : list (cell * list nat)), sorted m -> (forall c l, In (c, l) m -> l = members cs c) ->
  NoDup (concat (map snd m)).
Proof.
  intros cs. induction m as [|[c l] m IH]; intros S H; cbn; [constructor|].
  inversion_clear S as [|? ? S' F]. rewrite Forall_forall in F.
  assert (N : NoDup (concat (map snd m))) by (apply IH; [assumption|intros; apply H; right; assumption]).
  rewrite (H c l (or_introl eq_refl)).
  assert (D : forall x, In x (members cs c) -> ~ In x (concat (map snd m))).
  { intros x Hx Hc. apply in_concat in Hc. destruct Hc as (l' & Hl & Hx'). apply in_map_iff in Hl.
    destruct Hl as ([d l''] & E & Hd). cbn in E. subst l''. rewrite (H d l' (or_intror Hd)) in Hx'.
    apply members_in in Hx, Hx'. rewrite Hx in Hx'. injection Hx' as ->.
    apply (klt_irrefl d), F. apply in_map_iff. exists (d, l'). auto. }
  pose proof (members_nodup cs c) as M. induction M as [|x u Nx M IHu]; cbn; [assumption|].
  constructor; [rewrite in_app_iff; intros [?|?]; [contradiction|apply (D x); [left; reflexivity|assumption]]|].
  apply IHu. intros y Hy. apply D. right. assumption.
Qed.

(** std::sort. *)
Lemma insert_perm : forall i l, Permutation (i :: l) (insert i l).
Proof.
  intros i. induction l as [|j l IH]; cbn; [reflexivity|]. destruct (Nat.leb i j); [reflexivity|].
  rewrite perm_swap. constructor. assumption.
Qed.
Lemma isort_perm : forall l, Permutation l (isort l).
Proof. induction l as [|i l IH]; cbn; [reflexivity|]. rewrite <- insert_perm. constructor. assumption. Qed.
Lemma insert_sorted : forall i l, StronglySorted le l -> StronglySorted le (insert i l).
Proof.
  intros i. induction l as [|j l IH]; intros S; cbn; [repeat constructor|].
  inversion_clear S as [|? ? S' F]. destruct (Nat.leb_spec i j).
  - constructor; [constructor; assumption|]. constructor; [assumption|]. eapply Forall_impl; [|exact F]. intros; lia.
  - constructor; [auto|]. apply Forall_forall. intros x Hx. apply (Permutation_in _ (Permutation_sym (insert_perm i l))) in Hx.
    rewrite Forall_forall in F. destruct Hx as [<-|Hx]; [lia|auto].
Qed.
Lemma isort_sorted : forall l, NoDup l -> StronglySorted lt (isort l).
Proof.
  intros l N. assert (S : StronglySorted le (isort l)) by (clear; induction l; cbn; [constructor|apply insert_sorted; assumption]).
  apply (Permutation_NoDup (isort_perm l)) in N. revert S N. generalize (isort l). clear l.
  induction l as [|i l IH]; intros S N; [constructor|]. inversion_clear S as [|? ? S' F]. inversion_clear N as [|? ? N1 N2].
  constructor; [auto|]. rewrite Forall_forall in *. intros x Hx. specialize (F x Hx). destruct (Nat.eq_dec i x) as [->|]; [contradiction|lia].
Qed.
