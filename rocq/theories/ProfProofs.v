(** Proofs about the profiler. *)
From Coq Require Import ZArith String List Bool Lia Permutation.
From Verif Require Import Outcome TimeModel ProfModel ProfSpec.
Import ListNotations.
Local Open Scope outcome_scope.

Section Blocks.
Variable P : block -> Prop.
Hypothesis H : forall n inner d, Forall P inner -> P (Block n inner d).
Fixpoint block_all (b : block) : P b :=
  match b with
  | Block n inner d => H n inner d ((fix go (l : list block) : Forall P l :=
      match l with [] => Forall_nil P | x :: r => Forall_cons x (block_all x) (go r) end) inner)
  end.
End Blocks.

(** ** One thread *)
Fixpoint act_all (t : nat) (k : stack) (d : durations) (l : list action) : option (stack * durations) :=
  match l with
  | [] => Some (k, d)
  | a :: r => match act t k d a with Some (k', d') => act_all t k' d' r | None => None end
  end.
Lemma act_all_app : forall t l1 l2 k d, act_all t k d (l1 ++ l2) =
  match act_all t k d l1 with Some (k', d') => act_all t k' d' l2 | None => None end.
Proof.
  intros t l1 l2. induction l1 as [|a l1 IH]; intros k d; cbn [app act_all]; auto. destruct (act t k d a) as [[k' d']|]; auto.
Qed.
Definition ready (k : stack) : Prop := match k with [] => True | (_, Running) :: _ => True | _ => False end.
Definition ext (o : option (list Z)) (l : list Z) : option (list Z) :=
  match l with [] => o | _ => Some (match o with Some v => v | None => [] end ++ l) end.
Lemma ext_app : forall o l1 l2, ext o (l1 ++ l2) = ext (ext o l1) l2.
Proof.
  intros o l1 l2. destruct l1 as [|x l1]; [reflexivity|]. destruct l2 as [|y l2]; [rewrite app_nil_r; reflexivity|].
  cbn [app ext]. rewrite <- app_assoc. reflexivity.
Qed.
Lemma ext_some : forall v l, ext (Some v) l = Some (v ++ l).
Proof. intros v [|x l]; cbn; rewrite ?app_nil_r; reflexivity. Qed.

Lemma upd_same : forall d n t l, upd d n t l n t = Some l.
Proof. intros. unfold upd. rewrite String.eqb_refl, Nat.eqb_refl. reflexivity. Qed.
Lemma upd_name : forall d n t l m u, m <> n -> upd d n t l m u = d m u.
Proof. intros. unfold upd. destruct (String.eqb_spec m n); [contradiction|reflexivity]. Qed.
Lemma upd_thread : forall d n t l m u, u <> t -> upd d n t l m u = d m u.
Proof. intros. unfold upd. destruct (Nat.eqb_spec u t); [contradiction|]. rewrite andb_false_r. reflexivity. Qed.

Lemma actions_ok : forall t b k d, ready k -> exists d', act_all t k d (actions b) = Some (k, d') /\
  forall n, d' n t = ext (d n t) (times n b).
Proof.
  intros t b. induction b as [m inner x IH] using block_all. intros k d R. cbn [actions].
  assert (In_ : forall k d, ready k -> exists d', act_all t k d (flat_map actions inner) = Some (k, d') /\
            forall n, d' n t = ext (d n t) (flat_map (times n) inner)).
  { clear - IH. induction IH as [|b bs H _ IH]; intros k d R; cbn [flat_map].
    - exists d. split; auto.
    - destruct (H k d R) as [d1 [E1 D1]]. destruct (IH k d1 R) as [d2 [E2 D2]]. exists d2. rewrite act_all_app, E1. split; auto.
      intros n. rewrite D2, D1, ext_app. reflexivity. }
  set (d1 := upd d m t (vector d m t)).
  destruct (In_ ((m, Running) :: k) d1 I) as [d2 [E2 D2]].
  exists (upd d2 m t (vector d2 m t ++ [x])). split.
  - cbn [act_all]. assert (act t k d (Enter m) = Some ((m, Held) :: k, d)) as -> by (destruct k as [|[n p] k]; cbn; [auto|destruct p; [contradiction|reflexivity|contradiction]]).
    cbn [act act_all]. fold d1. rewrite act_all_app, E2. reflexivity.
  - intros n. cbn [times]. destruct (String.eqb_spec m n) as [->|Ne].
    + rewrite upd_same. unfold vector at 1. rewrite D2. unfold d1. rewrite upd_same, ext_some. unfold vector.
      destruct (flat_map (times n) inner ++ [x]) eqn:E; [destruct (flat_map (times n) inner); discriminate|]. cbn [ext]. rewrite <- E, app_assoc. reflexivity.
    + rewrite upd_name by auto. rewrite D2. unfold d1. rewrite upd_name by auto. rewrite app_nil_r. reflexivity.
Qed.
Lemma blocks_ok : forall t bs k d, ready k -> exists d', act_all t k d (flat_map actions bs) = Some (k, d') /\
  forall n, d' n t = ext (d n t) (flat_map (times n) bs).
Proof.
  intros t bs. induction bs as [|b bs IH]; intros k d R; cbn [flat_map].
  - exists d. split; auto.
  - destruct (actions_ok t b k d R) as [d1 [E1 D1]]. destruct (IH k d1 R) as [d2 [E2 D2]]. exists d2. rewrite act_all_app, E1. split; auto.
    intros n. rewrite D2, D1, ext_app. reflexivity.
Qed.

(** The depth of the stack. *)
Fixpoint depth (l : list action) : Z :=
  match l with [] => 0 | Enter _ :: r => 1 + depth r | Leave :: r => depth r - 1 | _ :: r => depth r end%Z.
Lemma depth_app : forall l1 l2, depth (l1 ++ l2) = (depth l1 + depth l2)%Z.
Proof. induction l1 as [|[] l1 IH]; intros l2; cbn [app depth]; rewrite ?IH; lia. Qed.
Lemma act_depth : forall t k d a k' d', act t k d a = Some (k', d') -> Z.of_nat (length k') = (Z.of_nat (length k) + depth [a])%Z.
Proof.
  intros t k d a k' d' H. destruct a, k as [|[m []] k]; cbn in H; try discriminate; inversion H; subst; cbn [length depth]; lia.
Qed.
Lemma act_all_depth : forall t l k d k' d', act_all t k d l = Some (k', d') -> Z.of_nat (length k') = (Z.of_nat (length k) + depth l)%Z.
Proof.
  intros t l. induction l as [|a l IH]; intros k d k' d' H; cbn [act_all] in H.
  - inversion H; subst. cbn. lia.
  - destruct (act t k d a) as [[k1 d1]|] eqn:E; [|discriminate]. apply act_depth in E. apply IH in H. change (a :: l) with ([a] ++ l).
    rewrite depth_app. lia.
Qed.
Lemma prefix_cases : forall {A} (q r : list A) (a b : list A), q ++ r = a ++ b ->
  (exists r', q ++ r' = a /\ r = r' ++ b) \/ (exists q', q = a ++ q' /\ q' ++ r = b).
Proof.
  intros A q. induction q as [|x q IH]; intros r a b E.
  - left. exists a. split; auto.
  - destruct a as [|y a].
    + right. exists (x :: q). split; auto.
    + cbn [app] in E. inversion E; subst. destruct (IH _ _ _ H1) as [[r' [E1 E2]]|[q' [E1 E2]]].
      * left. exists r'. cbn [app]. rewrite E1. auto.
      * right. exists q'. cbn [app]. rewrite E1. auto.
Qed.
Lemma depth_actions : forall b, depth (actions b) = 0%Z.
Proof.
  induction b as [m inner x IH] using block_all. cbn [actions depth]. rewrite depth_app. cbn [depth].
  assert (depth (flat_map actions inner) = 0%Z) as ->; [|lia]. induction IH as [|b bs H _ IH]; cbn [flat_map depth]; auto. rewrite depth_app. lia.
Qed.
Lemma prefix_depth : forall b q r, q ++ r = actions b -> q <> [] -> r <> [] -> (1 <= depth q)%Z.
Proof.
  induction b as [m inner x IH] using block_all. intros q r E Nq Nr. cbn [actions] in E.
  assert (In_ : forall q r, q ++ r = flat_map actions inner -> (0 <= depth q)%Z).
  { clear - IH. induction IH as [|b bs H _ IH]; intros q r E; cbn [flat_map] in E.
    - apply app_eq_nil in E. destruct E as [-> _]. cbn. lia.
    - apply prefix_cases in E. destruct E as [[r' [E _]]|[q' [-> E]]].
      + destruct q as [|a q]; [cbn; lia|]. destruct r' as [|c r'].
        * rewrite app_nil_r in E. rewrite E, depth_actions. lia.
        * assert (1 <= depth (a :: q))%Z by (eapply H; eauto; discriminate). lia.
      + rewrite depth_app, depth_actions. apply IH in E. lia. }
  destruct q as [|a q]; [contradiction|]. cbn [app] in E. injection E as -> E. cbn [depth].
  destruct q as [|a q]; [cbn; lia|]. cbn [app] in E. injection E as -> E. cbn [depth].
  apply prefix_cases in E. destruct E as [[r' [E _]]|[q' [-> E]]].
  - apply In_ in E. lia.
  - rewrite depth_app. assert (depth (flat_map actions inner) = 0%Z) as ->.
    { clear. induction inner as [|b bs IH]; cbn [flat_map depth]; auto. rewrite depth_app, depth_actions. lia. }
    destruct q' as [|a q']; [cbn; lia|]. cbn [app] in E. injection E as -> E. cbn [depth]. destruct q' as [|a q']; [cbn; lia|].
    cbn [app] in E. injection E as -> E. apply app_eq_nil in E. destruct E. contradiction.
Qed.
Lemma balanced_prefix : forall bs q r, q ++ r = flat_map actions bs -> depth q = 0%Z ->
  exists done rest, bs = done ++ rest /\ q = flat_map actions done.
Proof.
  induction bs as [|b bs IH]; intros q r E D; cbn [flat_map] in E.
  - apply app_eq_nil in E. destruct E as [-> _]. exists [], []. auto.
  - apply prefix_cases in E. destruct E as [[r' [E _]]|[q' [-> E]]].
    + destruct q as [|a q]; [exists [], (b :: bs); auto|]. destruct r' as [|c r'].
      * rewrite app_nil_r in E. exists [b], bs. cbn [flat_map app]. rewrite app_nil_r, E. auto.
      * assert (1 <= depth (a :: q))%Z by (eapply prefix_depth; eauto; discriminate). lia.
    + rewrite depth_app, depth_actions in D. destruct (IH q' r E) as [done [rest [-> ->]]]; [lia|]. exists (b :: done), rest. auto.
Qed.

(** What a thread does depends on its own vectors only and changes no others. *)
Definition agree (t : nat) (d d' : durations) : Prop := forall n, d n t = d' n t.
Lemma act_agree : forall t k d d' a k1 d1, agree t d d' -> act t k d a = Some (k1, d1) -> exists d1', act t k d' a = Some (k1, d1') /\ agree t d1 d1'.
Proof.
  intros t k d d' a k1 d1 G H. destruct a, k as [|[m []] k]; cbn [act] in *; try discriminate; inversion H; subst; eexists; (split; [reflexivity|]); auto.
  - intros n. unfold upd, vector. rewrite (G m), (G n). reflexivity.
  - intros n. unfold upd, vector. rewrite (G m), (G n). reflexivity.
Qed.
Lemma act_others : forall t k d a k1 d1 u n, u <> t -> act t k d a = Some (k1, d1) -> d1 n u = d n u.
Proof.
  intros t k d a k1 d1 u n Ne H. destruct a, k as [|[m []] k]; cbn [act] in *; try discriminate; inversion H; subst; auto; apply upd_thread; auto.
Qed.

(** ** All threads *)
Lemma nth_replace : forall {A} (l : list A) i x j, nth_error (replace i x l) j = if Nat.eqb j i then match nth_error l j with Some _ => Some x | None => None end else nth_error l j.
Proof.
  induction l as [|y l IH]; intros [|i] x [|j]; cbn [replace nth_error Nat.eqb]; auto.
  destruct (Nat.eqb j i); reflexivity.
Qed.
Lemma replace_length : forall {A} (l : list A) i x, length (replace i x l) = length l.
Proof. induction l as [|y l IH]; intros [|i] x; cbn; auto. Qed.
Definition open (ss : list stack) : nat := fold_right (fun k n => length k + n) 0 ss.
Lemma open_replace : forall ss i k k', nth_error ss i = Some k -> open (replace i k' ss) + length k = open ss + length k'.
Proof.
  induction ss as [|x ss IH]; intros [|i] k k' H; cbn [nth_error] in H; try discriminate; cbn [replace open fold_right].
  - inversion H; subst. fold (open ss). lia.
  - fold (open ss) (open (replace i k' ss)). specialize (IH i k k' H). lia.
Qed.
Lemma open_zero : forall ss i k, open ss = 0 -> nth_error ss i = Some k -> k = [].
Proof.
  induction ss as [|x ss IH]; intros [|i] k O E; cbn [nth_error] in E; try discriminate; cbn [open fold_right] in O; fold (open ss) in O.
  - inversion E; subst. destruct k; auto. cbn in O. lia.
  - eapply IH; eauto. lia.
Qed.
Lemma open_empty : forall ss, (forall i k, nth_error ss i = Some k -> k = []) -> open ss = 0.
Proof.
  induction ss as [|x ss IH]; intros H; cbn [open fold_right]; auto. fold (open ss). rewrite (H 0 x eq_refl), IH; auto. intros i k E. apply (H (S i) k E).
Qed.
Lemma of_thread_app : forall t l1 l2, of_thread t (l1 ++ l2) = of_thread t l1 ++ of_thread t l2.
Proof.
  intros t l1 l2. induction l1 as [|[|u a] l1 IH]; cbn [app of_thread]; auto. destruct (Nat.eqb u t); cbn [app]; rewrite IH; reflexivity.
Qed.
Lemma run_snoc : forall tr s e, run step s (tr ++ [e]) = bind (run step s tr) (fun s' => step s' e).
Proof.
  induction tr as [|x tr IH]; intros s e; cbn [app run].
  - cbn [bind]. destruct (step s e); reflexivity.
  - destruct (step s x); cbn [bind]; auto.
Qed.
Definition is_exit (e : event) : bool := match e with Exit => true | _ => false end.
Lemma exit_in : forall tr, existsb is_exit tr = true <-> In Exit tr.
Proof.
  intros tr. rewrite existsb_exists. split.
  - intros [[|t a] [H E]]; [exact H|discriminate].
  - intros H. exists Exit. auto.
Qed.

Record inv (n : nat) (tr : list event) (s : state) : Prop := {
  v_len : length (stacks s) = n;
  v_thread : forall t k, nth_error (stacks s) t = Some k -> exists d, act_all t [] (fun _ _ => None) (of_thread t tr) = Some (k, d) /\ agree t d (vecs s);
  v_none : forall t m, n <= t -> vecs s m t = None;
  v_exit : exited s = existsb is_exit tr;
  v_refs : refs s = (if exited s then 0 else 1) + open (stacks s);
  v_printed : printed s = if Nat.eqb (refs s) 0 then Some (vecs s) else None }.

Lemma execution_prefix : forall n prog l1 l2, execution n prog (l1 ++ l2) -> execution n prog l1.
Proof.
  intros n prog l1 l2 [X1 X2 X3]. constructor.
  - intros t H. destruct (X1 t H) as [r E]. rewrite of_thread_app, <- app_assoc in E. eauto.
  - intros t a H. apply (X2 t a). apply in_or_app. auto.
  - intros a b E. destruct (X3 a (b ++ l2)) as [N1 N2]; [rewrite E, <- app_assoc; reflexivity|]. split.
    + intros H. apply N1. apply in_or_app. auto.
    + intros t m H. apply (N2 t m). apply in_or_app. auto.
Qed.

Lemma run_inv : forall n prog tr, execution n prog tr -> exists s, run step (start n) tr = Ok s /\ inv n tr s.
Proof.
  intros n prog tr. induction tr as [|e tr IH] using rev_ind; intros X.
  - exists (start n). split; auto. unfold start. constructor; cbn [stacks vecs exited refs printed existsb].
    + apply repeat_length.
    + intros t k E. apply nth_error_In, repeat_spec in E. subst. exists (fun _ _ => None). split; auto. intros m. reflexivity.
    + auto.
    + auto.
    + rewrite open_empty; auto. intros i k E. apply nth_error_In, repeat_spec in E. auto.
    + reflexivity.
  - destruct (IH (execution_prefix _ _ _ _ X)) as [s [Er I]]. destruct I. rewrite run_snoc, Er. cbn [bind]. destruct e as [|t a]; cbn [step].
    + assert (Ex : exited s = false).
      { rewrite v_exit0. destruct (existsb is_exit tr) eqn:E; auto. exfalso. apply exit_in in E. apply in_split in E. destruct E as [l1 [l2 ->]].
        destruct (x_exit _ _ _ X l1 (l2 ++ [Exit])) as [N _]; [rewrite <- app_assoc; reflexivity|]. apply N. apply in_or_app. right. left. reflexivity. }
      rewrite Ex in *. eexists. split; [reflexivity|]. unfold release. constructor; cbn [stacks vecs exited refs printed]; auto.
      * intros t k E. rewrite of_thread_app. cbn [of_thread]. rewrite app_nil_r. auto.
      * rewrite existsb_app. cbn. rewrite orb_true_r. reflexivity.
      * rewrite v_refs0. reflexivity.
      * rewrite v_printed0, v_refs0. cbn [Nat.add pred Nat.eqb]. reflexivity.
    + assert (Ht : t < n) by (apply (x_threads _ _ _ X t a); apply in_or_app; right; left; reflexivity).
      destruct (nth_error (stacks s) t) as [k|] eqn:Ek; [|apply nth_error_None in Ek; lia].
      destruct (v_thread0 t k Ek) as [d [Ed Gd]].
      assert (Oa : of_thread t (tr ++ [Do t a]) = of_thread t tr ++ [a]) by (rewrite of_thread_app; cbn [of_thread]; rewrite Nat.eqb_refl; reflexivity).
      assert (exists k' d', act t k d a = Some (k', d')) as [k' [d' Ea]].
      { destruct (x_prefix _ _ _ X t Ht) as [r Er']. rewrite Oa, <- app_assoc in Er'.
        destruct (blocks_ok t (prog t) [] (fun _ _ => None) I) as [df [Ef _]]. unfold program in Er'. rewrite <- Er', act_all_app, Ed in Ef. cbn [app act_all] in Ef.
        destruct (act t k d a) as [[k' d']|]; [eauto|discriminate]. }
      destruct (act_agree t k d (vecs s) a k' d' Gd Ea) as [w [Ew Gw]]. rewrite Ew.
      pose proof (act_depth _ _ _ _ _ _ Ew) as Dp. pose proof (open_replace (stacks s) t k k' Ek) as Op.
      assert (Th : forall u k0, nth_error (replace t k' (stacks s)) u = Some k0 -> exists d, act_all u [] (fun _ _ => None) (of_thread u (tr ++ [Do t a])) = Some (k0, d) /\ agree u d w).
      { intros u k0 E. rewrite nth_replace in E. destruct (Nat.eqb_spec u t) as [->|Ne].
        - rewrite Ek in E. inversion E; subst. exists d'. rewrite Oa, act_all_app, Ed. cbn [act_all]. rewrite Ea. auto.
        - destruct (v_thread0 u k0 E) as [du [E1 G1]]. exists du. rewrite of_thread_app. cbn [of_thread]. destruct (Nat.eqb_spec t u); [congruence|]. rewrite app_nil_r. split; auto.
          intros m. rewrite (act_others t k (vecs s) a k' w u m Ne Ew). apply G1. }
      assert (Nn : forall u m, n <= u -> w m u = None).
      { intros u m Hu. rewrite (act_others t k (vecs s) a k' w u m); auto. lia. }
      assert (Ex : existsb is_exit (tr ++ [Do t a]) = existsb is_exit tr) by (rewrite existsb_app; cbn; rewrite orb_false_r; reflexivity).
      assert (Pos : (forall m, a <> Enter m) -> 0 < refs s).
      { intros Na. assert (k <> []) by (intros ->; destruct a; cbn in Ew; try discriminate; exact (Na n0 eq_refl)).
        destruct k as [|z k]; [contradiction|]. rewrite v_refs0. cbn [length] in Op. destruct (open (stacks s)) eqn:Z0; [|lia].
        pose proof (open_zero _ _ _ Z0 Ek). discriminate. }
      destruct a as [m| |x|].
      * assert (Ee : exited s = false).
        { rewrite v_exit0. destruct (existsb is_exit tr) eqn:E; auto. exfalso. apply exit_in in E. apply in_split in E. destruct E as [l1 [l2 ->]].
          destruct (x_exit _ _ _ X l1 (l2 ++ [Do t (Enter m)])) as [_ N]; [rewrite <- app_assoc; reflexivity|]. apply (N t m). apply in_or_app. right. left. reflexivity. }
        rewrite Ee in *. eexists. split; [reflexivity|]. constructor; cbn [stacks vecs exited refs printed]; auto.
        -- rewrite replace_length. auto.
        -- rewrite Ex. auto.
        -- rewrite v_refs0. cbn [depth] in Dp. lia.
        -- rewrite v_printed0, v_refs0. reflexivity.
      * assert (Pp : 0 < refs s) by (apply Pos; discriminate). rewrite v_printed0. destruct (Nat.eqb_spec (refs s) 0); [lia|]. eexists. split; [reflexivity|].
        constructor; cbn [stacks vecs exited refs printed]; auto; [rewrite replace_length; auto|rewrite Ex; auto|rewrite v_refs0; cbn [depth] in Dp; lia|].
        destruct (Nat.eqb_spec (refs s) 0); [lia|reflexivity].
      * assert (Pp : 0 < refs s) by (apply Pos; discriminate). rewrite v_printed0. destruct (Nat.eqb_spec (refs s) 0); [lia|]. eexists. split; [reflexivity|].
        constructor; cbn [stacks vecs exited refs printed]; auto; [rewrite replace_length; auto|rewrite Ex; auto|rewrite v_refs0; cbn [depth] in Dp; lia|].
        destruct (Nat.eqb_spec (refs s) 0); [lia|reflexivity].
      * assert (Pp : 0 < refs s) by (apply Pos; discriminate). eexists. split; [reflexivity|].
        unfold release. constructor; cbn [stacks vecs exited refs printed]; auto; [rewrite replace_length; auto|rewrite Ex; auto| |].
        -- cbn [depth] in Dp. destruct (exited s); lia.
        -- destruct (Nat.eqb_spec (pred (refs s)) 0); auto. rewrite v_printed0. destruct (Nat.eqb_spec (refs s) 0); [lia|reflexivity].
Qed.

(** ** Statistics *)
Open Scope Z_scope.
Lemma insert_perm : forall x l, Permutation (x :: l) (insert x l).
Proof.
  intros x. induction l as [|y l IH]; cbn [insert]; auto. destruct (x <=? y); auto.
  eapply Permutation_trans; [apply perm_swap|]. constructor. exact IH.
Qed.
Lemma sort_perm : forall l, Permutation l (sort l).
Proof.
  induction l as [|x l IH]; cbn [sort]; auto. eapply Permutation_trans; [|apply insert_perm]. constructor. exact IH.
Qed.
Fixpoint ascending (l : list Z) : Prop := match l with [] => True | x :: r => Forall (fun y => x <= y) r /\ ascending r end.
Lemma insert_ascending : forall x l, ascending l -> ascending (insert x l).
Proof.
  intros x. induction l as [|y l IH]; cbn [insert ascending]; auto. intros [H1 H2]. destruct (Z.leb_spec x y).
  - cbn [ascending]. split; auto. constructor; auto. eapply Forall_impl; [|exact H1]. cbn. intros. lia.
  - cbn [ascending]. split; auto. eapply Permutation_Forall; [apply insert_perm|]. constructor; auto. lia.
Qed.
Lemma sort_ascending : forall l, ascending (sort l).
Proof. induction l as [|x l IH]; cbn [sort]; [exact I|apply insert_ascending; auto]. Qed.
Lemma ascending_last : forall l x, ascending l -> In x l -> x <= last l 0.
Proof.
  induction l as [|y l IH]; intros x A H; [contradiction|]. destruct A as [A1 A2]. destruct l as [|z l]; [destruct H as [<-|[]]; cbn; lia|].
  change (last (y :: z :: l) 0) with (last (z :: l) 0). destruct H as [<-|H]; [|auto].
  pose proof (IH z A2 (or_introl eq_refl)). pose proof (Forall_inv A1). cbn in H0. lia.
Qed.
Lemma last_In : forall (l : list Z), l <> [] -> In (last l 0) l.
Proof.
  induction l as [|y l IH]; intros N; [contradiction|]. destruct l as [|z l]; [left; reflexivity|]. right. apply IH. discriminate.
Qed.
Lemma total_perm : forall l l', Permutation l l' -> total l = total l'.
Proof. intros l l' P. unfold total. induction P; cbn [fold_right] in *; lia. Qed.
Lemma total_nonneg : forall l, Forall (fun x => 0 <= x) l -> 0 <= total l.
Proof. unfold total. induction 1; cbn [fold_right]; lia. Qed.
Lemma sum_from_ok : forall l a, 0 <= a -> Forall (fun x => 0 <= x) l -> a + total l < 2 ^ 63 -> sum_from a l = Ok (a + total l).
Proof.
  induction l as [|x l IH]; intros a A F L; cbn [sum_from total fold_right] in *; [rewrite Z.add_0_r; reflexivity|].
  inversion F; subst. pose proof (total_nonneg l H2). unfold total in *. unfold i64. destruct (Z.leb_spec (- 2 ^ 63) (a + x)); [|lia]. destruct (Z.ltb_spec (a + x) (2 ^ 63)); [|lia].
  cbn [andb bind]. rewrite IH; [f_equal; lia|lia|auto|lia].
Qed.
Lemma wrap64_id : forall x, 0 <= x < 2 ^ 63 -> wrap64 x = x.
Proof. intros x H. unfold wrap64. rewrite Z.mod_small by lia. destruct (Z.ltb_spec x (2 ^ 63)); lia. Qed.

Lemma statistics_ok : forall l, l <> [] -> Forall (fun x => 0 <= x) l -> total l < 2 ^ 63 ->
  exists s, statistics l = Ok s /\ describes l s /\ 0 <= d_average s <= d_sum s /\ 0 <= d_min s /\ d_max s <= d_sum s.
Proof.
  intros l N F L. pose proof (sort_perm l) as P. pose proof (sort_ascending l) as A. unfold statistics.
  destruct (sort l) as [|f r] eqn:E; [apply Permutation_sym, Permutation_nil in P; contradiction|].
  rewrite <- E in *. assert (F' : Forall (fun x => 0 <= x) (sort l)) by (eapply Permutation_Forall; eauto).
  rewrite sum_from_ok; auto; [|lia|rewrite <- (total_perm _ _ P); lia]. cbn [bind]. rewrite Z.add_0_l, <- (total_perm _ _ P), <- (Permutation_length P).
  pose proof (total_nonneg l F). set (c := Z.of_nat (List.length l)).
  assert (Hc : 1 <= c) by (unfold c; destruct l; [contradiction|cbn [List.length]; lia]).
  rewrite Z.mod_small by lia.
  assert (Q : 0 <= total l / c <= total l).
  { split; [apply Z.div_pos; lia|]. apply Z.div_le_upper_bound; [lia|]. nia. }
  rewrite wrap64_id by lia. eexists. split; [reflexivity|]. unfold describes. cbn [d_size d_sum d_min d_max d_average].
  assert (Hf : In f l) by (eapply Permutation_in; [apply Permutation_sym; exact P|rewrite E; left; reflexivity]).
  assert (Hl : In (last (sort l) 0) l) by (eapply Permutation_in; [apply Permutation_sym; exact P|apply last_In; rewrite E; discriminate]).
  assert (Mx : forall y, In y l -> y <= total l).
  { clear - F. intros y H. induction F as [|x l Hx F IH]; [contradiction|]. cbn. pose proof (total_nonneg l F). unfold total in *. destruct H as [->|H]; [lia|]. specialize (IH H). lia. }
  split.
  - split; [reflexivity|]. split; [reflexivity|]. split; auto. split; auto. split.
    + intros x Hx. assert (Hs : In x (sort l)) by (eapply Permutation_in; eauto). split; [|apply ascending_last; auto].
      rewrite E in A, Hs. destruct A as [A _]. destruct Hs as [->|Hs]; [lia|]. apply (proj1 (Forall_forall _ _) A x Hs).
    + pose proof (Z.div_mod (total l) c). pose proof (Z.mod_pos_bound (total l) c). nia.
  - split; [exact Q|]. split; [exact (proj1 (Forall_forall _ _) F f Hf)|auto].
Qed.
Lemma text_ok : forall u x, 0 < u -> 0 <= x < u * 2 ^ 31 -> exists s, time_to_string u x = Ok s /\ text u x s.
Proof.
  intros u x U H. unfold time_to_string. rewrite Z.quot_div_nonneg by lia.
  assert (Q : 0 <= x / u < 2 ^ 31) by (split; [apply Z.div_pos; lia|apply Z.div_lt_upper_bound; lia]).
  destruct (Z.leb_spec (- 2 ^ 31) (x / u)); [|lia]. destruct (Z.ltb_spec (x / u) (2 ^ 31)); [|lia]. cbn [andb].
  pose proof (Z.div_mod x u). pose proof (Z.mod_pos_bound x u). eexists. split; [reflexivity|]. destruct (Z.leb_spec 1 (x / u)); cbn [text]; nia.
Qed.
