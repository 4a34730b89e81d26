(** Proofs about the pose graph optimizer. *)
From Coq Require Import List Bool ZArith SpecFloat Lia Permutation.
From Verif Require Import Outcome Pose MathModel LoopModel LoopSpec LoopProps ViewModel IsamModel IsamSpec.
Import ListNotations.
Local Open Scope nat_scope.

Lemma key_eqb_eq : forall a b, key_eqb a b = true <-> a = b.
Proof.
  intros [i| | |] [j| | |]; cbn; try (split; [discriminate|congruence]); try (split; reflexivity).
  rewrite Nat.eqb_eq. split; congruence.
Qed.

Section Isam.
Variable G : group.
Variable enu : Type.
Variables tn rn : G -> spec_float.
Variables vx vy : G -> coord.
Variable junk : G.
Variable est : nat -> key -> G.
Variable solved : list (nat * enu) -> G.
Variable turned : list G -> bool.
Notation opt := (opt G enu).
Notation sub := (sub G enu).
Notation factor := (factor G enu).
Notation vp := (view_pose vx vy).

Lemma has_in : forall (l : list (key * G)) k, has l k = true <-> In k (map fst l).
Proof.
  intros l k. unfold has. rewrite existsb_exists, in_map_iff. split.
  - intros (v & Hv & E). apply key_eqb_eq in E. exists v. auto.
  - intros (v & E & Hv). exists v. split; [exact Hv|]. apply key_eqb_eq. auto.
Qed.
Lemma has_not : forall (l : list (key * G)) k, ~ In k (map fst l) -> has l k = false.
Proof. intros l k H. destruct (has l k) eqn:E; [|reflexivity]. apply has_in in E. contradiction. Qed.

(** All factors and variables, given to ISAM2 or waiting. *)
Definition tf (s : opt) : list factor := ifacs s ++ pfacs s.
Definition tv (s : opt) : list (key * G) := ivars s ++ pvars s.
Definition vars (s : opt) : list key := map fst (tv s).
Definition wf (s : opt) : Prop := NoDup (vars s) /\ Forall (fun f => incl (keys f) (vars s)) (tf s).
Definition flush (s : opt) : opt :=
  mkSt (loop s) (subs s) (links s) (view s) [] [] (tf s) (tv s) (count s + 2)
       (cached s) (gps_known s) (gps_tf s) (calib_inserted s) (tf_odom s).
Lemma tf_flush : forall s, tf (flush s) = tf s.
Proof. intros s. unfold tf at 1. cbn. apply app_nil_r. Qed.
Lemma tv_flush : forall s, tv (flush s) = tv s.
Proof. intros s. unfold tv at 1. cbn. apply app_nil_r. Qed.
Lemma wf_flush : forall s, wf s -> wf (flush s).
Proof. intros s. unfold wf, vars. rewrite tf_flush, tv_flush. auto. Qed.
Lemma isam_ok : forall s, wf s -> isam_update s = Ok (flush s).
Proof.
  intros s [N F]. unfold isam_update, vars, tv in *. rewrite map_app in N.
  replace (existsb (fun v => has (ivars s) (fst v)) (pvars s)) with false.
  - replace (forallb (fun f => forallb (has (ivars s ++ pvars s)) (keys f)) (pfacs s)) with true; [reflexivity|].
    symmetry. apply forallb_forall. intros f Hf. apply forallb_forall. intros k Hk. apply has_in.
    rewrite Forall_forall in F. apply (F f); [unfold tf; apply in_or_app; right; exact Hf|exact Hk].
  - symmetry. apply not_true_iff_false. intros E. apply existsb_exists in E. destruct E as (v & Hv & E). apply has_in in E.
    apply (in_map fst) in Hv. revert N E Hv. generalize (fst v) (map fst (ivars s)) (map fst (pvars s)). clear. intros k a b N Ha Hb.
    induction a as [|x a IH]; [destruct Ha|]. cbn in N. inversion N; subst. destruct Ha as [->|Ha]; [|auto].
    apply H1. apply in_or_app. auto.
Qed.
Definition ins (k : key) (p : G) (s : opt) : opt :=
  mkSt (loop s) (subs s) (links s) (view s) (pfacs s) (pvars s ++ [(k, p)]) (ifacs s) (ivars s) (count s)
       (cached s) (gps_known s) (gps_tf s) (calib_inserted s) (tf_odom s).
Lemma insert_ok : forall k p s, ~ In k (vars s) -> insert k p s = Ok (ins k p s).
Proof.
  intros k p s H. unfold insert. rewrite has_not; [reflexivity|]. intros Q. apply H. unfold vars, tv. rewrite map_app. apply in_or_app. auto.
Qed.
Lemma tv_ins : forall k p s, tv (ins k p s) = tv s ++ [(k, p)].
Proof. intros. unfold tv. cbn. apply app_assoc. Qed.
Lemma vars_ins : forall k p s, vars (ins k p s) = vars s ++ [k].
Proof. intros. unfold vars. rewrite tv_ins, map_app. reflexivity. Qed.
Lemma wf_ins : forall k p s, wf s -> ~ In k (vars s) -> wf (ins k p s).
Proof.
  intros k p s [N F] H. split; rewrite vars_ins.
  - apply Permutation_NoDup with (k :: vars s); [apply Permutation_cons_append|]. constructor; assumption.
  - change (tf (ins k p s)) with (tf s). eapply Forall_impl; [|exact F]. cbn. intros f Hf x Hx. apply in_or_app. auto.
Qed.
Lemma tf_add : forall f (s : opt), tf (add_factor f s) = tf s ++ [f].
Proof. intros. unfold tf. cbn. apply app_assoc. Qed.
Lemma wf_add : forall f (s : opt), wf s -> incl (keys f) (vars s) -> wf (add_factor f s).
Proof.
  intros f s [N F] H. split; [exact N|]. rewrite tf_add. apply Forall_app. split; [exact F|]. constructor; [exact H|constructor].
Qed.

(** What an operation adds; everything else but the view, the counter and the GPS data is kept. *)
Record eff (s s' : opt) (fs : list factor) (vs : list (key * G)) (ls : list (nat * nat * G)) : Prop := mkEff {
  e_loop : loop s' = loop s;
  e_subs : subs s' = subs s;
  e_tf : tf s' = tf s ++ fs;
  e_tv : tv s' = tv s ++ vs;
  e_links : links s' = links s ++ ls;
  e_odom : tf_odom s' = tf_odom s }.
Lemma eff_refl : forall s, eff s s [] [] [].
Proof. intros s. constructor; rewrite ?app_nil_r; reflexivity. Qed.
Lemma eff_trans : forall a b c f1 v1 l1 f2 v2 l2, eff a b f1 v1 l1 -> eff b c f2 v2 l2 -> eff a c (f1 ++ f2) (v1 ++ v2) (l1 ++ l2).
Proof. intros a b c f1 v1 l1 f2 v2 l2 [] []. constructor; rewrite ?app_assoc; congruence. Qed.
Lemma eff_flush : forall s, eff s (flush s) [] [] [].
Proof. intros s. constructor; rewrite ?tf_flush, ?tv_flush, ?app_nil_r; reflexivity. Qed.
Lemma eff_add : forall f s, eff s (add_factor f s) [f] [] [].
Proof. intros f s. constructor; rewrite ?tf_add; cbn; rewrite ?app_nil_r; reflexivity. Qed.
Lemma eff_ins : forall k p s, eff s (ins k p s) [] [(k, p)] [].
Proof. intros f s. constructor; rewrite ?tv_ins; cbn; rewrite ?app_nil_r; reflexivity. Qed.
Lemma eff_vars : forall s s' f v l, eff s s' f v l -> vars s' = vars s ++ map fst v.
Proof. intros s s' f v l H. unfold vars. rewrite (e_tv _ _ _ _ _ H). apply map_app. Qed.
Lemma eff_incl : forall s s' f v l, eff s s' f v l -> incl (vars s) (vars s').
Proof. intros s s' f v l H. rewrite (eff_vars _ _ _ _ _ H). apply incl_appl, incl_refl. Qed.

(** The view graph of some submaps and links. *)
Definition node (ls : list (nat * nat * G)) (i : nat) (x : sub) : Z * item G :=
  (Z.of_nat i, mkItem G (vp (pose x)) (leaving ls i)).
Fixpoint nodes (k : nat) (l : list sub) (ls : list (nat * nat * G)) : graph G :=
  match l with [] => [] | x :: l' => node ls k x :: nodes (S k) l' ls end.
Lemma leaving_app : forall (a b : list (nat * nat * G)) i, leaving (a ++ b) i = leaving a i ++ leaving b i.
Proof. intros. apply flat_map_app. Qed.
Lemma leaving_none : forall (l : list (nat * nat * G)) i, (forall e, In e l -> fst (fst e) <> i) -> leaving l i = [].
Proof.
  induction l as [|e l IH]; intros i H; [reflexivity|]. cbn. destruct (Nat.eqb_spec (fst (fst e)) i) as [E|E].
  - exfalso. apply (H e); cbn; auto.
  - apply IH. intros x Hx. apply H. right. exact Hx.
Qed.
Lemma nodes_len : forall l k ls, length (nodes k l ls) = length l.
Proof. induction l as [|x l IH]; intros; cbn; congruence. Qed.
Lemma find_nodes : forall l k ls i, k <= i < k + length l -> find G (nodes k l ls) (Z.of_nat i) <> None.
Proof.
  induction l as [|x l IH]; intros k ls i H; cbn in *; [lia|]. destruct (Z.eqb_spec (Z.of_nat i) (Z.of_nat k)); [discriminate|].
  apply IH. lia.
Qed.
Lemma nodes_same : forall l k ls e, fst (fst e) < k -> nodes k l (ls ++ [e]) = nodes k l ls.
Proof.
  induction l as [|x l IH]; intros k ls e H; cbn; [reflexivity|]. f_equal; [|apply IH; lia].
  unfold node. rewrite leaving_app. rewrite (leaving_none [e]); [rewrite app_nil_r; reflexivity|]. intros y [<-|[]]. lia.
Qed.
Lemma update_edge : forall l k ls a b t, k <= a < k + length l ->
  update G junk (nodes k l ls) (Z.of_nat a) (fun x => mkItem G (self_pose G x) (connections G x ++ [(Z.of_nat b, t)])) =
  nodes k l (ls ++ [(a, b, t)]).
Proof.
  induction l as [|x l IH]; intros k ls a b t H; cbn [length] in H; [lia|]. cbn [nodes]. unfold node at 1. cbn [update].
  destruct (Z.eqb_spec (Z.of_nat a) (Z.of_nat k)) as [E|E].
  - assert (a = k) by lia. subst a. f_equal.
    + unfold node. cbn. rewrite leaving_app. cbn. rewrite Nat.eqb_refl. reflexivity.
    + symmetry. apply nodes_same. cbn. lia.
  - destruct (Z.ltb_spec (Z.of_nat a) (Z.of_nat k)); [lia|]. f_equal.
    + unfold node. rewrite leaving_app. rewrite (leaving_none [(a, b, t)]); [rewrite app_nil_r; reflexivity|]. intros y [<-|[]]. cbn. lia.
    + apply IH. lia.
Qed.
Lemma update_new : forall l k ls x, (forall e, In e ls -> fst (fst e) <> k + length l) ->
  update G junk (nodes k l ls) (Z.of_nat (k + length l)) (fun y => mkItem G (vp (pose x)) (connections G y)) = nodes k (l ++ [x]) ls.
Proof.
  induction l as [|y l IH]; intros k ls x H; cbn [length nodes app update].
  - unfold node. rewrite leaving_none; rewrite Nat.add_0_r in *; [reflexivity|]. intros e He. specialize (H e He). cbn in H. lia.
  - unfold node at 1. destruct (Z.eqb_spec (Z.of_nat (k + S (length l))) (Z.of_nat k)); [lia|].
    destruct (Z.ltb_spec (Z.of_nat (k + S (length l))) (Z.of_nat k)); [lia|]. fold (node ls k y). f_equal.
    rewrite <- Nat.add_succ_comm. apply IH. intros e He. specialize (H e He). cbn in H. lia.
Qed.
Lemma update_pose : forall a k ls x l p,
  update G junk (nodes k (a ++ x :: l) ls) (Z.of_nat (k + length a)) (fun y => mkItem G (vp p) (connections G y)) =
  nodes k (a ++ set_pose p x :: l) ls.
Proof.
  induction a as [|y a IH]; intros k ls x l p; cbn [app length nodes]; unfold node at 1; cbn [update].
  - rewrite Nat.add_0_r, Z.eqb_refl. reflexivity.
  - destruct (Z.eqb_spec (Z.of_nat (k + S (length a))) (Z.of_nat k)); [lia|].
    destruct (Z.ltb_spec (Z.of_nat (k + S (length a))) (Z.of_nat k)); [lia|]. fold (node ls k y). f_equal.
    rewrite <- Nat.add_succ_comm. apply IH.
Qed.
Definition viewed (s : opt) : Prop :=
  graph_of G (view s) = nodes 0 (subs s) (links s) /\
  forall e, In e (links s) -> fst (fst e) < length (subs s) /\ snd (fst e) < length (subs s).

(** connect *)
Lemma connect_ok : forall a b t s, a < length (subs s) -> b < length (subs s) -> viewed s ->
  exists s', connect junk a b t s = Ok s' /\ eff s s' [] [] [(a, b, t)] /\ viewed s' /\ tf s' = tf s /\ tv s' = tv s /\
    cached s' = cached s /\ gps_known s' = gps_known s /\ gps_tf s' = gps_tf s /\ calib_inserted s' = calib_inserted s /\
    count s' = count s.
Proof.
  intros a b t s Ha Hb [V L]. unfold connect.
  destruct (nth_error (subs s) a) eqn:Ea; [|apply nth_error_None in Ea; lia].
  destruct (nth_error (subs s) b) eqn:Eb; [|apply nth_error_None in Eb; lia].
  eexists. split; [reflexivity|]. split; [constructor; cbn; rewrite ?app_nil_r; reflexivity|]. split; [|repeat split].
  split; cbn [view graph_of links subs].
  - unfold add_edge, ViewModel.count. rewrite V.
    destruct (find G (nodes 0 (subs s) (links s)) (Z.of_nat a)) eqn:Fa; [|exfalso; revert Fa; apply find_nodes; lia].
    destruct (find G (nodes 0 (subs s) (links s)) (Z.of_nat b)) eqn:Fb; [|exfalso; revert Fb; apply find_nodes; lia].
    cbn. apply update_edge. lia.
  - intros e He. apply in_app_iff in He. destruct He as [He|[<-|[]]]; [auto|]. cbn. lia.
Qed.

Definition keep (s s' : opt) : Prop := cached s' = cached s /\ gps_known s' = gps_known s /\ gps_tf s' = gps_tf s.
Lemma keep_trans : forall a b c, keep a b -> keep b c -> keep a c.
Proof. intros a b c (?&?&?) (?&?&?). repeat split; congruence. Qed.

(** AddVertex *)
Definition vfac (O : options) (i : nat) (p t : G) (od : G) : list factor :=
  match i with 0 => FPrior 0 p :: (if use_odom O then [FOdomPrior (ginv od)] else []) | S j => [FMove j i t] end.
Definition vvar (O : options) (i : nat) (p : G) (od : G) : list (key * G) :=
  (KPose i, p) :: match i with 0 => if use_odom O then [(KOdom, ginv od)] else [] | S j => [] end.
Definition vlink (i : nat) (t : G) : list (nat * nat * G) := match i with 0 => [] | S j => [(j, i, t)] end.
Lemma viewed_flush : forall s, viewed s -> viewed (flush s).
Proof. intros s H. exact H. Qed.
Lemma wf_links : forall (s s' : opt), tf s' = tf s -> tv s' = tv s -> wf s -> wf s'.
Proof. intros s s' A B [H1 H2]. unfold wf, vars in *. rewrite A, B. auto. Qed.
Lemma add_vertex_ok : forall O old x t s, subs s = old ++ [x] -> graph_of G (view s) = nodes 0 old (links s) ->
  (forall e, In e (links s) -> fst (fst e) < length old /\ snd (fst e) < length old) -> wf s ->
  ~ In (KPose (length old)) (vars s) -> (length old = 0 -> ~ In KOdom (vars s)) ->
  (forall j, length old = S j -> In (KPose j) (vars s)) ->
  exists s', add_vertex vx vy junk O (length old) (pose x) t s = Ok s' /\
    eff s s' (vfac O (length old) (pose x) t (tf_odom s)) (vvar O (length old) (pose x) (tf_odom s)) (vlink (length old) t) /\
    wf s' /\ viewed s' /\ keep s s' /\ pfacs s' = [] /\ pvars s' = [] /\
    calib_inserted s' = (if length old =? 0 then use_odom O || calib_inserted s else calib_inserted s).
Proof.
  intros O old x t s Hs Hv Hl W N0 N1 N2. unfold add_vertex.
  rewrite insert_ok by assumption. cbn [bind].
  set (s1 := ins (KPose (length old)) (pose x) s).
  set (s2 := set_view (ViewModel.add_vertex G junk (view s1) (Z.of_nat (length old)) (vp (pose x))) s1).
  assert (W1 : wf s1) by (apply wf_ins; assumption).
  assert (E2 : eff s s2 [] [(KPose (length old), pose x)] []) by (destruct (eff_ins (KPose (length old)) (pose x) s); constructor; assumption).
  assert (W2 : wf s2) by exact W1.
  assert (V2 : viewed s2).
  { split.
    - change (subs s2) with (subs s). change (links s2) with (links s). rewrite Hs. cbn [s2 set_view view ViewModel.add_vertex graph_of s1 ins].
      rewrite Hv. change (length old) with (0 + length old). apply update_new. intros e He. destruct (Hl e He). cbn. lia.
    - change (subs s2) with (subs s). change (links s2) with (links s). rewrite Hs, app_length. cbn. intros e He. destruct (Hl e He). lia. }
  assert (K2 : keep s s2) by (repeat split).
  assert (In (KPose (length old)) (vars s2)) as I2 by (rewrite (eff_vars _ _ _ _ _ E2); apply in_or_app; right; left; reflexivity).
  assert (C2 : calib_inserted s2 = calib_inserted s) by reflexivity.
  assert (T2 : tf_odom s2 = tf_odom s) by reflexivity.
  assert (L2 : length (subs s2) = S (length old)) by (change (subs s2) with (subs s); rewrite Hs, app_length; cbn; lia).
  clearbody s2. clear s1 W1.
  destruct (length old) as [|j] eqn:El.
  - set (s3 := add_factor (FPrior 0 (pose x)) s2).
    assert (W3 : wf s3) by (apply wf_add; [exact W2|intros k [<-|[]]; exact I2]).
    assert (E3 : eff s s3 [FPrior 0 (pose x)] [(KPose 0, pose x)] []) by exact (eff_trans _ _ _ _ _ _ _ _ _ E2 (eff_add _ _)).
    destruct (use_odom O) eqn:Eo.
    + assert (NO : ~ In KOdom (vars s3)).
      { rewrite (eff_vars _ _ _ _ _ E3). intros Q. apply in_app_iff in Q. destruct Q as [Q|[Q|[]]]; [exact (N1 eq_refl Q)|discriminate]. }
      rewrite insert_ok by exact NO. cbn [bind].
      set (s4 := ins KOdom (ginv (tf_odom s3)) s3). set (s5 := add_factor (FOdomPrior (ginv (tf_odom s4))) s4).
      assert (T4 : tf_odom s4 = tf_odom s) by exact T2. assert (T3 : tf_odom s3 = tf_odom s) by exact T2.
      assert (W5 : wf s5). { apply wf_add; [apply wf_ins; assumption|]. intros k [<-|[]]. unfold s4. rewrite vars_ins. apply in_or_app. right. left. reflexivity. }
      rewrite isam_ok; [|exact W5]. eexists. split; [reflexivity|]. split; [|split; [apply (wf_flush s5), W5|split; [exact V2|split; [exact K2|]]]].
      * cbn [vfac vvar vlink]. rewrite Eo.
        pose proof (eff_trans _ _ _ _ _ _ _ _ _ E3 (eff_ins KOdom (ginv (tf_odom s3)) s3)) as E4.
        pose proof (eff_trans _ _ _ _ _ _ _ _ _ E4 (eff_add (FOdomPrior (ginv (tf_odom s4))) s4)) as E5.
        pose proof (eff_trans _ _ _ _ _ _ _ _ _ E5 (eff_flush s5)) as E6. rewrite T4, T3 in E6. cbn [app] in E6.
        unfold vvar. rewrite Eo. destruct E6; constructor; assumption.
      * cbn. auto.
    + cbn [bind]. rewrite isam_ok by exact W3. eexists. split; [reflexivity|]. split; [|split; [apply wf_flush, W3|split; [exact V2|split; [exact K2|]]]].
      * unfold vfac, vvar, vlink. rewrite Eo. exact (eff_trans _ _ _ _ _ _ _ _ _ E3 (eff_flush s3)).
      * cbn. auto.
  - set (s3 := add_factor (FMove j (S j) t) s2).
    assert (W3 : wf s3).
    { apply wf_add; [exact W2|]. intros k [<-|[<-|[]]]; [|exact I2]. apply (eff_incl _ _ _ _ _ E2). apply N2. reflexivity. }
    destruct (connect_ok j (S j) t s3) as (s4 & -> & E4 & V4 & A1 & A2 & A3 & A4 & A5 & A6 & A7); [change (subs s3) with (subs s2); lia..|exact V2|].
    cbn [bind]. assert (W4 : wf s4) by (apply (wf_links s3); assumption).
    rewrite isam_ok by exact W4. eexists. split; [reflexivity|]. split; [|split; [apply wf_flush, W4|split; [exact V4|split; [|]]]].
    + pose proof (eff_trans _ _ _ _ _ _ _ _ _ E2 (eff_add (FMove j (S j) t) s2)) as E3.
      exact (eff_trans _ _ _ _ _ _ _ _ _ (eff_trans _ _ _ _ _ _ _ _ _ E3 E4) (eff_flush s4)).
    + apply (keep_trans _ s3); [exact K2|]. repeat split; assumption.
    + cbn. split; [reflexivity|]. split; [reflexivity|]. rewrite A6. exact C2.
Qed.

(** The loop edges *)
Definition lfac (l : list sub) (cur : nat) (e : nat * G) : nat * nat * G :=
  (fst e, cur, match nth_error l (fst e) with Some x => gmul (ginv (pose x)) (snd e) | None => snd e end).
Lemma add_loops_ok : forall cur l s, wf s -> viewed s -> cur < length (subs s) ->
  (forall j, j <= cur -> In (KPose j) (vars s)) -> (forall e, In e l -> fst e < cur) ->
  exists s', add_loops junk cur l s = Ok s' /\
    eff s s' (map (fun e => let '(a, b, t) := lfac (subs s) cur e in FLoop a b t) l) [] (map (lfac (subs s) cur) l) /\
    wf s' /\ viewed s' /\ keep s s' /\ calib_inserted s' = calib_inserted s.
Proof.
  intros cur l. induction l as [|[a p] l IH]; intros s W V C P L.
  - exists s. split; [reflexivity|]. split; [apply eff_refl|]. repeat split; try apply W; apply V; assumption.
  - cbn [add_loops]. assert (a < cur) as Ha by (apply (L (a, p)); left; reflexivity).
    destruct (nth_error (subs s) a) as [x|] eqn:Ea; [|apply nth_error_None in Ea; lia].
    set (t := gmul (ginv (pose x)) p).
    set (s1 := add_factor (FLoop a cur t) s).
    assert (W1 : wf s1) by (apply wf_add; [exact W|intros k [<-|[<-|[]]]; apply P; lia]).
    destruct (connect_ok a cur t s1) as (s2 & -> & E2 & V2 & A1 & A2 & A3 & A4 & A5 & A6 & A7); [change (subs s1) with (subs s); lia..|exact V|].
    cbn [bind]. assert (W2 : wf s2) by (apply (wf_links s1); assumption). rewrite isam_ok by exact W2. cbn [bind].
    pose proof (eff_trans _ _ _ _ _ _ _ _ _ (eff_trans _ _ _ _ _ _ _ _ _ (eff_add (FLoop a cur t) s) E2) (eff_flush s2)) as E.
    cbn [app] in E. pose proof (e_subs _ _ _ _ _ E) as Es.
    destruct (IH (flush s2)) as (s' & R & E' & W' & V' & K' & C').
    + apply wf_flush, W2.
    + exact V2.
    + rewrite Es. exact C.
    + intros j Hj. apply (eff_incl _ _ _ _ _ E). auto.
    + intros e He. apply L. right. exact He.
    + exists s'. split; [exact R|]. pose proof (eff_trans _ _ _ _ _ _ _ _ _ E E') as E3. cbn [app] in E3. rewrite Es in E3.
      split; [|split; [exact W'|split; [exact V'|split]]].
      * cbn [map]. unfold lfac at 1 3. cbn [fst snd]. rewrite Ea. exact E3.
      * apply (keep_trans _ (flush s2)); [|exact K']. repeat split; assumption.
      * rewrite C'. exact A6.
Qed.

(** The GPS part *)
Lemma read_ok : forall l (s : opt), (forall x, In x l -> In (KPose (fst x)) (map fst (ivars s))) -> read_all est l s = Ok tt.
Proof.
  induction l as [|[i e] l IH]; intros s H; [reflexivity|]. cbn. unfold estimate.
  replace (has (ivars s) (KPose i)) with true; [cbn; apply IH; intros x Hx; apply H; right; exact Hx|].
  symmetry. apply has_in. apply (H (i, e)). left. reflexivity.
Qed.
Definition sampled (O : options) (i : nat) : bool := ((sample_step O <=? 1) || (Z.rem (Z.of_nat i) (sample_step O) =? 0))%Z.
Definition ready (O : options) (s : opt) : bool :=
  negb ((Z.of_nat (length (cached s)) <? init_num O mod 2 ^ 64)%Z || negb (turned (map pose (subs s)))).
Definition gact (O : options) (g : option enu) (s : opt) : nat :=
  match g with
  | Some _ => if use_gps O then if gps_known s then 1 else if ready O s then 3 else 2 else 0
  | None => 0
  end.
Definition gfac (O : options) (i : nat) (g : option enu) (s : opt) : list factor :=
  match g, gact O g s with
  | Some e, 1 => if sampled O i then [FEnu i e (extrinsic O)] else []
  | Some e, 3 => [FGpsPrior (solved (cached s)); FCalibPrior] ++ map (fun x => FEnu (fst x) (snd x) (extrinsic O)) (cached s)
  | _, _ => []
  end.
Definition gvar (O : options) (g : option enu) (s : opt) : list (key * G) :=
  if gact O g s =? 3 then [(KGps, solved (cached s)); (KCalib, gone)] else [].
Lemma fold_add : forall (l : list (nat * enu)) (c : bool) s,
  (forall x, In x l -> In (KPose (fst x)) (vars s)) -> In KGps (vars s) -> In KCalib (vars s) -> wf s ->
  let s' := fold_left (fun s x => add_factor (FEnu (fst x) (snd x) c) s) l s in
  eff s s' (map (fun x => FEnu (fst x) (snd x) c) l) [] [] /\ wf s' /\ keep s s' /\ calib_inserted s' = calib_inserted s /\ view s' = view s.
Proof.
  induction l as [|x l IH]; intros c s P H1 H2 W; cbn.
  - split; [apply eff_refl|]. repeat split; apply W.
  - destruct (IH c (add_factor (FEnu (fst x) (snd x) c) s)) as (E & W' & K & C & V).
    + intros y Hy. apply P. right. exact Hy.
    + exact H1.
    + exact H2.
    + apply wf_add; [exact W|]. cbn. intros k [<-|[<-|Hk]]; [exact H1|apply P; left; reflexivity|]. destruct c; [destruct Hk as [<-|[]]; exact H2|destruct Hk].
    + split; [exact (eff_trans _ _ _ _ _ _ _ _ _ (eff_add _ s) E)|]. split; [exact W'|]. split; [exact K|]. auto.
Qed.
Lemma gps_ok : forall O i g s, wf s -> viewed s -> In (KPose i) (vars s) ->
  (forall x, In x (cached s) -> In (KPose (fst x)) (vars s)) ->
  (gps_known s = true -> In KGps (vars s) /\ In KCalib (vars s)) ->
  (gps_known s = false -> ~ In KGps (vars s) /\ ~ In KCalib (vars s)) ->
  exists s', gps_part est solved turned O i g s = Ok s' /\ eff s s' (gfac O i g s) (gvar O g s) [] /\ wf s' /\ viewed s' /\
    calib_inserted s' = calib_inserted s /\
    cached s' = (match g with Some e => if gact O g s =? 2 then cache (cached s) i e else cached s | None => cached s end) /\
    gps_known s' = (if gact O g s =? 3 then true else gps_known s).
Proof.
  intros O i g s W V Pi Pc K1 K2.
  assert (T0 : forall g, gact O g s = 0 ->
    eff s s (gfac O i g s) (gvar O g s) []).
  { intros g0 H. unfold gfac, gvar. destruct g0; rewrite H; apply eff_refl. }
  destruct g as [e|]; cbn [gps_part].
  2: { exists s. split; [reflexivity|]. split; [apply T0; reflexivity|]. auto. }
  destruct (use_gps O) eqn:Eu.
  2: { exists s. split; [reflexivity|]. assert (gact O (Some e) s = 0) as H0 by (cbn; rewrite Eu; reflexivity).
       split; [apply T0, H0|]. rewrite H0. auto. }
  destruct (gps_known s) eqn:Ek.
  - assert (gact O (Some e) s = 1) as H1 by (cbn; rewrite Eu, Ek; reflexivity). destruct (K1 eq_refl) as [Kg Kc].
    unfold gfac, gvar. rewrite H1. fold (sampled O i). destruct (sampled O i).
    + set (s1 := add_factor (FEnu i e (extrinsic O)) s).
      assert (W1 : wf s1).
      { apply wf_add; [exact W|]. cbn. intros k [<-|[<-|Hk]]; [exact Kg|exact Pi|]. destruct (extrinsic O); [destruct Hk as [<-|[]]; exact Kc|destruct Hk]. }
      rewrite isam_ok by exact W1. eexists. split; [reflexivity|].
      split; [exact (eff_trans _ _ _ _ _ _ _ _ _ (eff_add _ s) (eff_flush s1))|]. split; [apply wf_flush, W1|]. split; [exact V|]. cbn. auto.
    + exists s. split; [reflexivity|]. split; [apply eff_refl|]. auto.
  - destruct (K2 eq_refl) as [Kg Kc]. destruct (ready O s) eqn:Er.
    + assert (gact O (Some e) s = 3) as H3 by (cbn [gact]; rewrite Eu, Ek, Er; reflexivity).
      unfold gfac, gvar. rewrite H3. unfold ready in Er. apply negb_true_iff in Er. rewrite Er.
      unfold solve_gps. rewrite isam_ok by exact W. cbn [bind].
      rewrite read_ok by (intros x Hx; apply Pc; exact Hx). cbn [bind].
      set (s1 := set_gps (cached (flush s)) (gps_known (flush s)) (solved (cached (flush s))) (flush s)).
      assert (W1 : wf s1) by (apply (wf_links (flush s)); [reflexivity..|apply wf_flush, W]).
      assert (E1 : eff s s1 [] [] []) by (destruct (eff_flush s); constructor; assumption).
      assert (X1 : vars s1 = vars s) by (rewrite (eff_vars _ _ _ _ _ E1); apply app_nil_r).
      rewrite (insert_ok KGps) by (rewrite X1; exact Kg). cbn [bind].
      set (t := solved (cached (flush s))). set (s2 := ins KGps t s1). set (s3 := add_factor (FGpsPrior t) s2).
      assert (X2 : vars s2 = vars s ++ [KGps]) by (unfold s2; rewrite vars_ins, X1; reflexivity).
      assert (W3 : wf s3).
      { apply wf_add; [apply wf_ins; [exact W1|rewrite X1; exact Kg]|]. intros k [<-|[]]. rewrite X2. apply in_or_app. right. left. reflexivity. }
      rewrite (insert_ok KCalib) by (change (vars s3) with (vars s2); rewrite X2; intros Q; apply in_app_iff in Q; destruct Q as [Q|[Q|[]]]; [exact (Kc Q)|discriminate]).
      cbn [bind]. set (s4 := ins KCalib gone s3). set (s5 := add_factor FCalibPrior s4).
      assert (X4 : vars s4 = vars s ++ [KGps; KCalib]) by (unfold s4; rewrite vars_ins; change (vars s3) with (vars s2); rewrite X2, <- app_assoc; reflexivity).
      assert (W5 : wf s5).
      { apply wf_add.
        - apply wf_ins; [exact W3|]. change (vars s3) with (vars s2). rewrite X2. intros Q; apply in_app_iff in Q; destruct Q as [Q|[Q|[]]]; [exact (Kc Q)|discriminate].
        - intros k [<-|[]]. rewrite X4. apply in_or_app. right. right. left. reflexivity. }
      assert (E5 : eff s s5 [FGpsPrior t; FCalibPrior] [(KGps, t); (KCalib, gone)] []).
      { pose proof (eff_trans _ _ _ _ _ _ _ _ _ E1 (eff_ins KGps t s1)) as Q1.
        pose proof (eff_trans _ _ _ _ _ _ _ _ _ Q1 (eff_add (FGpsPrior t) s2)) as Q2.
        pose proof (eff_trans _ _ _ _ _ _ _ _ _ Q2 (eff_ins KCalib gone s3)) as Q3.
        exact (eff_trans _ _ _ _ _ _ _ _ _ Q3 (eff_add FCalibPrior s4)). }
      assert (X5 : vars s5 = vars s ++ [KGps; KCalib]) by exact X4.
      assert (C5 : cached s5 = cached s) by reflexivity.
      destruct (fold_add (cached s5) (extrinsic O) s5) as (E6 & W6 & (K6 & K6' & K6'') & C6 & V6).
      * intros x Hx. rewrite X5. apply in_or_app. left. apply Pc. exact Hx.
      * rewrite X5. apply in_or_app. right. left. reflexivity.
      * rewrite X5. apply in_or_app. right. right. left. reflexivity.
      * exact W5.
      * cbn [bind]. set (s6 := fold_left _ _ _) in *. rewrite isam_ok by exact W6. cbn [bind]. eexists. split; [reflexivity|].
        pose proof (eff_trans _ _ _ _ _ _ _ _ _ (eff_trans _ _ _ _ _ _ _ _ _ E5 E6) (eff_flush s6)) as E7.
        rewrite ?app_nil_r in E7.
        split; [destruct E7; constructor; assumption|]. split; [apply wf_flush, W6|]. split.
        -- pose proof (e_subs _ _ _ _ _ E6) as Q1. pose proof (e_links _ _ _ _ _ E6) as Q2. rewrite app_nil_r in Q2.
           assert (viewed s6) as V7 by (unfold viewed; rewrite V6, Q1, Q2; exact V). exact V7.
        -- cbn. split; [exact C6|]. split; [exact K6|reflexivity].
    + assert (gact O (Some e) s = 2) as H2 by (cbn [gact]; rewrite Eu, Ek, Er; reflexivity).
      unfold gfac, gvar. rewrite H2. unfold ready in Er. apply negb_false_iff in Er. rewrite Er.
      eexists. split; [reflexivity|]. split; [destruct (eff_refl s); constructor; assumption|]. split; [exact W|]. split; [exact V|]. cbn. auto.
Qed.

(** UpdateAllPose *)
Fixpoint latest (c : nat) (i : nat) (l : list sub) : list sub :=
  match l with [] => [] | x :: l' => set_pose (est c (KPose i)) x :: latest c (S i) l' end.
Lemma latest_len : forall l c i, length (latest c i l) = length l.
Proof. induction l as [|x l IH]; intros; cbn; congruence. Qed.
Lemma update_poses_ok : forall l a (s : opt), (forall j, j < length a + length l -> In (KPose j) (map fst (ivars s))) ->
  graph_of G (view s) = nodes 0 (a ++ l) (links s) ->
  exists v, update_poses vx vy junk est (length a) l s = Ok (latest (count s) (length a) l, v) /\
    graph_of G v = nodes 0 (a ++ latest (count s) (length a) l) (links s).
Proof.
  induction l as [|x l IH]; intros a s P V.
  - exists (view s). auto.
  - cbn [update_poses length] in *. unfold estimate. replace (has (ivars s) (KPose (length a))) with true by (symmetry; apply has_in, P; lia).
    cbn [bind]. set (p := est (count s) (KPose (length a))).
    set (s1 := set_view _ s).
    destruct (IH (a ++ [set_pose p x]) s1) as (v & R & Q).
    + intros j Hj. apply P. rewrite app_length in Hj. cbn in Hj. lia.
    + unfold s1. cbn [view set_view ViewModel.add_vertex graph_of links]. rewrite V, <- app_assoc. cbn [app].
      change (length a) with (0 + length a). apply update_pose.
    + rewrite app_length in R, Q. cbn [length] in R, Q. rewrite Nat.add_1_r in R, Q. rewrite R. cbn [bind fst snd].
      exists v. split; [reflexivity|]. rewrite <- app_assoc in Q. exact Q.
Qed.
Lemma update_all_ok : forall (s : opt), (forall j, j < length (subs s) -> In (KPose j) (map fst (ivars s))) -> viewed s ->
  exists s', update_all vx vy junk est s = Ok s' /\ subs s' = latest (count s) 0 (subs s) /\ viewed s' /\ loop s' = loop s /\
    ifacs s' = ifacs s /\ ivars s' = ivars s /\ pfacs s' = pfacs s /\ pvars s' = pvars s /\ links s' = links s /\ tf_odom s' = tf_odom s /\
    keep s s' /\ calib_inserted s' = calib_inserted s /\ count s' = count s.
Proof.
  intros s P [V L]. unfold update_all. destruct (update_poses_ok (subs s) [] s) as (v & R & Q); [exact P|exact V|].
  cbn [length] in R, Q. rewrite R. cbn [bind fst snd]. eexists. split; [reflexivity|]. split; [reflexivity|].
  split; [|repeat split]. split; [exact Q|]. cbn. rewrite latest_len. exact L.
Qed.

(** AddFrame *)
Record inv (O : options) (s : opt) : Prop := mkInv {
  v_pf : pfacs s = []; v_pv : pvars s = []; v_wf : wf s; v_view : viewed s;
  v_frames : frames (loop s) = length (subs s);
  v_vars : forall k, In k (map fst (ivars s)) <->
    match k with KPose i => i < length (subs s) | KOdom => use_odom O = true /\ 0 < length (subs s) | _ => gps_known s = true end;
  v_cached : forall x, In x (cached s) -> fst x < length (subs s);
  v_calib : calib_inserted s = use_odom O && negb (length (subs s) =? 0) }.
Lemma inv_init : forall O c t, inv O (init c t).
Proof.
  clear.
  intros O c t. constructor; try reflexivity.
  - split; [constructor|constructor].
  - split; [reflexivity|]. intros e [].
  - intros [i| | |]; cbn; split; intros H; try tauto; try lia; try discriminate; destruct H; lia.
  - intros x [].
  - cbn. rewrite andb_false_r. reflexivity.
Qed.
Definition ofac (O : options) (i : nat) (x : sub) : list factor :=
  match odom x with Some p => if use_odom O then [FOdom i p] else [] | None => [] end.
Definition closed (s : opt) (r : result G) : list (nat * nat * G) :=
  if r_succeed r then map (lfac (subs s) (length (subs s))) (r_edges r) else [].
Lemma lfac_app : forall l y cur e, fst e < length l -> lfac (l ++ [y]) cur e = lfac l cur e.
Proof. intros l y cur e H. unfold lfac. rewrite nth_error_app1 by exact H. reflexivity. Qed.

Definition push (x : sub) (s : opt) : opt := set_subs (subs s ++ [x]) s.
Lemma gact_ext : forall O g s s', cached s' = cached s -> gps_known s' = gps_known s -> subs s' = subs s -> gact O g s' = gact O g s.
Proof. intros O g s s' A B C. unfold gact, ready. rewrite A, B, C. reflexivity. Qed.
Lemma gfac_ext : forall O i g s s', cached s' = cached s -> gps_known s' = gps_known s -> subs s' = subs s -> gfac O i g s' = gfac O i g s.
Proof. intros O i g s s' A B C. unfold gfac. destruct g as [e|]; [rewrite (gact_ext O (Some e) s s' A B C), A|]; reflexivity. Qed.
Lemma gvar_ext : forall O g s s', cached s' = cached s -> gps_known s' = gps_known s -> subs s' = subs s -> gvar O g s' = gvar O g s.
Proof. intros O g s s' A B C. unfold gvar. rewrite (gact_ext O g s s' A B C), A. reflexivity. Qed.
Lemma cache_in : forall (l : list (nat * enu)) i e x, In x (cache l i e) -> x = (i, e) \/ In x l.
Proof.
  induction l as [|[j y] l IH]; intros i e x H; cbn [cache] in H; [destruct H as [<-|[]]; auto|].
  destruct (i =? j); [cbn in *; intuition|]. destruct (i <? j); [cbn in *; intuition|].
  cbn in *. destruct H as [H|H]; [auto|]. destruct (IH _ _ _ H); auto.
Qed.

Lemma vvar_in : forall O n p od k, In k (map fst (vvar O n p od)) <-> k = KPose n \/ (k = KOdom /\ n = 0 /\ use_odom O = true).
Proof.
  intros O n p od k. unfold vvar. destruct n as [|n]; [destruct (use_odom O)|]; cbn; split.
  - intros [<-|[<-|[]]]; auto.
  - intros [->|[-> _]]; auto.
  - intros [<-|[]]; auto.
  - intros [->|(_ & _ & Q)]; [auto|discriminate].
  - intros [<-|[]]; auto.
  - intros [->|(_ & Q & _)]; [auto|discriminate].
Qed.
Lemma gvar_in : forall O g s k, In k (map fst (gvar O g s)) <-> gact O g s = 3 /\ (k = KGps \/ k = KCalib).
Proof.
  intros O g s k. unfold gvar. destruct (Nat.eqb_spec (gact O g s) 3) as [E|E]; cbn.
  - split; [intros [<-|[<-|[]]]; auto|]. intros [_ [->| ->]]; auto.
  - split; [intros []|]. intros [Q _]. contradiction.
Qed.

Variable O : options.
Variable S : settings.
Hypothesis near_ok : (1 <= nearest S < 2 ^ 30)%Z.
Hypothesis ignore_int : (- 2 ^ 31 <= ignore S < 2 ^ 31)%Z.

Record stepped (s s' : opt) (x : sub) (r : result G) : Prop := mkStep {
  t_facs : ifacs s' = ifacs s ++ vfac O (length (subs s)) (pose x) (from_last x) (tf_odom s) ++ ofac O (length (subs s)) x ++
                      map (fun e => let '(a, b, t) := e in FLoop a b t) (closed s r) ++ gfac O (length (subs s)) (gps x) (push x s);
  t_vars : ivars s' = ivars s ++ vvar O (length (subs s)) (pose x) (tf_odom s) ++ gvar O (gps x) (push x s);
  t_links : links s' = links s ++ vlink (length (subs s)) (from_last x) ++ closed s r;
  t_subs : subs s' = latest (count s') 0 (subs s ++ [x]);
  t_odom : tf_odom s' = tf_odom s;
  t_cached : cached s' = match gps x with Some e => if gact O (gps x) (push x s) =? 2 then cache (cached s) (length (subs s)) e else cached s | None => cached s end;
  t_known : gps_known s' = (if gact O (gps x) (push x s) =? 3 then true else gps_known s) }.

Lemma add_frame_ok : forall x o s, inv O s -> (Z.of_nat (length (subs s)) < 2 ^ 31 - 1)%Z -> fair o ->
  exists d r s', LoopModel.add_frame G tn rn S (loop s) o true = Ok (d, r) /\
    add_frame tn rn vx vy junk est solved turned O S x o s = Ok s' /\ inv O s' /\ loop s' = d /\
    r_index r = length (subs s) /\ (forall e, In e (r_edges r) -> fst e < length (subs s)) /\ stepped s s' x r.
Proof.
  intros x o s I Hn Fo. destruct I as [Ipf Ipv Iwf Iv If Ivars Ic Ical].
  set (n := length (subs s)) in *.
  destruct (C44_total G tn rn S ignore_int (loop s) o true near_ok) as (d & r & Hr); [rewrite If; exact Hn|].
  destruct (C44_candidates G tn rn S ignore_int (loop s) o true d r near_ok) as (Ri & Rf & _ & _ & Rc & _); [rewrite If; exact Hn|exact Hr|].
  destruct (C44_edges G tn rn S ignore_int (loop s) o true d r near_ok) as (_ & Re); [rewrite If; exact Hn|exact Fo|exact Hr|].
  rewrite If in Ri, Rf, Rc.
  assert (Edg : forall e, In e (r_edges r) -> fst e < n).
  { intros [i p] He. apply Re in He. destruct He as (_ & Hi & _). destruct (Rc i Hi) as [[Q _] _]. exact Q. }
  assert (Vs : forall k, In k (vars s) <-> In k (map fst (ivars s))) by (intros k; unfold vars, tv; rewrite Ipv, app_nil_r; tauto).
  exists d, r. unfold add_frame. rewrite Hr. cbn [bind fst snd].
  set (s0 := mkSt d (subs s ++ [x]) _ _ _ _ _ _ _ _ _ _ _ _).
  assert (L0 : length (subs s0) - 1 = n) by (cbn; rewrite app_length; cbn; unfold n; lia).
  rewrite L0, Ri, Nat.eqb_refl. cbn [check bind].
  assert (T0 : tf s0 = tf s /\ tv s0 = tv s) by (split; reflexivity).
  destruct (add_vertex_ok O (subs s) x (from_last x) s0) as (s1 & R1 & E1 & W1 & V1 & K1 & P1 & P1' & C1).
  { reflexivity. } { apply Iv. } { apply Iv. } { exact Iwf. }
  { change (vars s0) with (vars s). rewrite Vs. intros Q. apply Ivars in Q. lia. }
  { change (vars s0) with (vars s). rewrite Vs. intros Q0 Q. apply Ivars in Q. fold n in Q0. lia. }
  { change (vars s0) with (vars s). intros j Hj. apply Vs, Ivars. fold n in Hj. lia. }
  fold n in R1, E1, C1. rewrite R1. cbn [bind].
  set (s2 := match odom x with Some p => _ | None => _ end).
  assert (X1 : vars s1 = vars s ++ map fst (vvar O n (pose x) (tf_odom s))) by (rewrite (eff_vars _ _ _ _ _ E1); reflexivity).
  assert (S1 : subs s1 = subs s ++ [x]) by exact (e_subs _ _ _ _ _ E1).
  assert (Ps1 : forall j, j <= n -> In (KPose j) (vars s1)).
  { intros j Hj. rewrite X1. apply in_or_app. destruct (Nat.eq_dec j n) as [->|]; [right; left; reflexivity|left; apply Vs, Ivars; lia]. }
  assert (Od1 : use_odom O = true -> In KOdom (vars s1)).
  { intros Q. rewrite X1. apply in_or_app. destruct n as [|m] eqn:En; [right; unfold vvar; rewrite Q; right; left; reflexivity|left; apply Vs, Ivars; split; [exact Q|lia]]. }
  assert (H2 : eff s1 s2 (ofac O n x) [] [] /\ wf s2 /\ viewed s2 /\ keep s1 s2 /\ calib_inserted s2 = calib_inserted s1).
  { unfold s2, ofac. destruct (odom x) as [p|]; [destruct (use_odom O) eqn:Eo|].
    - split; [apply eff_add|]. split; [|split; [exact V1|split; [repeat split|reflexivity]]].
      apply wf_add; [exact W1|]. intros k [<-|[<-|[]]]; [apply Od1; reflexivity|apply Ps1; lia].
    - split; [apply eff_refl|]. split; [exact W1|]. split; [exact V1|]. repeat split.
    - split; [apply eff_refl|]. split; [exact W1|]. split; [exact V1|]. repeat split. }
  clearbody s2. destruct H2 as (E2 & W2 & V2 & K2 & C2).
  assert (S2 : subs s2 = subs s ++ [x]) by (rewrite (e_subs _ _ _ _ _ E2); exact S1).
  assert (H3 : exists s3, (if r_succeed r then add_loops junk n (r_edges r) s2 else Ok s2) = Ok s3 /\
    eff s2 s3 (map (fun e => let '(a, b, t) := e in FLoop a b t) (closed s r)) [] (closed s r) /\ wf s3 /\ viewed s3 /\ keep s2 s3 /\
    calib_inserted s3 = calib_inserted s2).
  { unfold closed. fold n. destruct (r_succeed r).
    - destruct (add_loops_ok n (r_edges r) s2) as (s3 & R3 & E3 & Z3).
      + exact W2. + exact V2. + rewrite S2, app_length. cbn. fold n. lia.
      + intros j Hj. apply (eff_incl _ _ _ _ _ E2). apply Ps1, Hj.
      + exact Edg.
      + exists s3. split; [exact R3|]. split; [|exact Z3].
        assert (forall e, In e (r_edges r) -> lfac (subs s2) n e = lfac (subs s) n e) as Lx by (intros e He; rewrite S2; apply lfac_app, Edg, He).
        rewrite map_map.
        replace (map (lfac (subs s) n) (r_edges r)) with (map (lfac (subs s2) n) (r_edges r)) by exact (map_ext_in _ _ _ Lx).
        replace (map (fun e => let '(a, b, t) := lfac (subs s) n e in FLoop a b t) (r_edges r))
          with (map (fun e => let '(a, b, t) := lfac (subs s2) n e in FLoop (enu := enu) a b t) (r_edges r)); [exact E3|].
        apply map_ext_in. intros e He. rewrite (Lx e He). reflexivity.
    - exists s2. split; [reflexivity|]. split; [apply eff_refl|]. split; [exact W2|]. split; [exact V2|]. repeat split. }
  destruct H3 as (s3 & -> & E3 & W3 & V3 & K3 & C3). cbn [bind].
  pose proof (eff_trans _ _ _ _ _ _ _ _ _ (eff_trans _ _ _ _ _ _ _ _ _ E1 E2) E3) as E03.
  pose proof (keep_trans _ _ _ (keep_trans _ _ _ K1 K2) K3) as (K03a & K03b & K03c).
  change (cached s0) with (cached s) in K03a. change (gps_known s0) with (gps_known s) in K03b.
  rewrite ?app_nil_r in E03.
  assert (X3 : vars s3 = vars s ++ map fst (vvar O n (pose x) (tf_odom s))) by (rewrite (eff_vars _ _ _ _ _ E03); reflexivity).
  assert (S3 : subs s3 = subs (push x s)) by exact (e_subs _ _ _ _ _ E03).
  assert (Ps3 : forall j, j <= n -> In (KPose j) (vars s3)) by (rewrite X3, <- X1; exact Ps1).
  assert (Nv : ~ In KGps (map fst (vvar O n (pose x) (tf_odom s))) /\ ~ In KCalib (map fst (vvar O n (pose x) (tf_odom s)))).
  { unfold vvar. destruct n; [destruct (use_odom O)|]; cbn; split; intuition discriminate. }
  destruct (gps_ok O n (gps x) s3) as (s4 & R4 & E4 & W4 & V4 & C4 & D4 & D4').
  { exact W3. } { exact V3. } { apply Ps3. lia. }
  { intros y Hy. rewrite K03a in Hy. apply Ps3. apply Ic in Hy. fold n in Hy. lia. }
  { intros Q. rewrite K03b in Q. rewrite X3. split; apply in_or_app; left; apply Vs, Ivars; exact Q. }
  { intros Q. rewrite K03b in Q. rewrite X3. split; intros Z; apply in_app_iff in Z; (destruct Z as [Z|Z]; [apply Vs, Ivars in Z; congruence|tauto]). }
  rewrite R4. cbn [bind]. rewrite isam_ok by exact W4. cbn [bind].
  rewrite (gfac_ext O n (gps x) (push x s) s3 K03a K03b S3), (gvar_ext O (gps x) (push x s) s3 K03a K03b S3) in E4.
  rewrite (gact_ext O (gps x) (push x s) s3 K03a K03b S3) in D4, D4'. rewrite K03a in D4. rewrite K03b in D4'.
  pose proof (eff_trans _ _ _ _ _ _ _ _ _ (eff_trans _ _ _ _ _ _ _ _ _ E03 E4) (eff_flush s4)) as E. rewrite ?app_nil_r in E.
  assert (Pi : In (KPose n) (map fst (ivars (flush s4)))).
  { change (In (KPose n) (vars s4)). apply (eff_incl _ _ _ _ _ E4). apply Ps3. lia. }
  apply has_in in Pi. rewrite Pi. cbn [check bind].
  destruct (update_all_ok (flush s4)) as (s' & R & U1 & U2 & U3 & U4 & U5 & U6 & U7 & U8 & U9 & (U10 & U11 & U12) & U13 & U14).
  { intros j Hj. change (In (KPose j) (vars s4)). apply (eff_incl _ _ _ _ _ E4). apply Ps3.
    change (subs (flush s4)) with (subs s4) in Hj. rewrite (e_subs _ _ _ _ _ E4), S3 in Hj. cbn in Hj. rewrite app_length in Hj. cbn in Hj. fold n in Hj. lia. }
  { exact V4. }
  exists s'. split; [reflexivity|]. split; [exact R|].
  assert (Hsub : subs s' = latest (count s') 0 (subs s ++ [x])).
  { rewrite U1, U14. f_equal. rewrite (e_subs _ _ _ _ _ E). reflexivity. }
  assert (Hlen : length (subs s') = Datatypes.S n) by (rewrite Hsub, latest_len, app_length; cbn; unfold n; lia).
  assert (Hv : ivars s' = ivars s ++ vvar O n (pose x) (tf_odom s) ++ gvar O (gps x) (push x s)).
  { rewrite U5. pose proof (e_tv _ _ _ _ _ E) as Q. rewrite tv_flush in Q. change (ivars (flush s4)) with (tv s4). rewrite Q.
    change (tv s0) with (tv s). unfold tv at 1. rewrite Ipv, app_nil_r. reflexivity. }
  assert (Hf : ifacs s' = ifacs s ++ (vfac O n (pose x) (from_last x) (tf_odom s) ++ ofac O n x ++
     map (fun e => let '(a, b, t) := e in FLoop a b t) (closed s r)) ++ gfac O n (gps x) (push x s)).
  { rewrite U4. pose proof (e_tf _ _ _ _ _ E) as Q. rewrite tf_flush in Q. change (ifacs (flush s4)) with (tf s4). rewrite Q.
    change (tf s0) with (tf s). unfold tf at 1. rewrite Ipf, app_nil_r, <- !app_assoc. reflexivity. }
  assert (Hk : gps_known s' = (if gact O (gps x) (push x s) =? 3 then true else gps_known s)) by (rewrite U11; exact D4').
  assert (Hc : cached s' = match gps x with Some e => if gact O (gps x) (push x s) =? 2 then cache (cached s) n e else cached s | None => cached s end).
  { rewrite U10. exact D4. }
  split; [|split; [|split; [reflexivity|split; [exact Edg|]]]].
  - constructor.
    + rewrite U6. reflexivity.
    + rewrite U7. reflexivity.
    + apply (wf_links (flush s4)); [unfold tf; rewrite U4, U6; reflexivity|unfold tv; rewrite U5, U7; reflexivity|apply wf_flush, W4].
    + exact U2.
    + rewrite Hlen, U3, (e_loop _ _ _ _ _ E). exact Rf.
    + intros k. rewrite Hv, Hlen, !map_app, !in_app_iff, Ivars, Hk. fold n.
      assert (G3 : gact O (gps x) (push x s) = 3 -> gps_known s = false).
      { unfold gact. change (gps_known (push x s)) with (gps_known s). destruct (gps x); [|discriminate]. destruct (use_gps O); [|discriminate].
        destruct (gps_known s); [discriminate|reflexivity]. }
      rewrite vvar_in, gvar_in. clear - G3. destruct (Nat.eqb_spec (gact O (gps x) (push x s)) 3) as [E3|E3].
      * specialize (G3 E3). rewrite G3. destruct k as [i| | |].
        -- split; [intros [Q|[[Q|[Q _]]|[_ [Q|Q]]]]; try discriminate; [lia|injection Q as ->; lia]|].
           intros Q. destruct (Nat.eq_dec i n) as [->|]; [auto|left; lia].
        -- split; [intros [[Q Q']|[[Q|(_ & _ & Q)]|[_ [Q|Q]]]]; try discriminate; split; [exact Q|lia|exact Q|lia]|].
           intros [Q _]. destruct n as [|m]; [right; left; right; auto|left; split; [exact Q|lia]].
        -- split; [reflexivity|]. intros _. right. right. auto.
        -- split; [reflexivity|]. intros _. right. right. auto.
      * destruct k as [i| | |].
        -- split; [intros [Q|[[Q|[Q _]]|[_ [Q|Q]]]]; try discriminate; [lia|injection Q as ->; lia]|].
           intros Q. destruct (Nat.eq_dec i n) as [->|]; [auto|left; lia].
        -- split; [intros [[Q Q']|[[Q|(_ & _ & Q)]|[_ [Q|Q]]]]; try discriminate; split; [exact Q|lia|exact Q|lia]|].
           intros [Q _]. destruct n as [|m]; [right; left; right; auto|left; split; [exact Q|lia]].
        -- split; [intros [Q|[[Q|[Q _]]|[Q _]]]; [exact Q|discriminate..|contradiction]|auto].
        -- split; [intros [Q|[[Q|[Q _]]|[Q _]]]; [exact Q|discriminate..|contradiction]|auto].
    + intros y Hy. rewrite Hlen. rewrite Hc in Hy. destruct (gps x) as [e|].
      * destruct (gact O (Some e) (push x s) =? 2).
        -- apply cache_in in Hy. destruct Hy as [->|Hy]; [cbn; lia|]. apply Ic in Hy. fold n in Hy. lia.
        -- apply Ic in Hy. fold n in Hy. lia.
      * apply Ic in Hy. fold n in Hy. lia.
    + rewrite Hlen, U13. change (calib_inserted (flush s4)) with (calib_inserted s4). rewrite C4, C3, C2, C1.
      change (calib_inserted s0) with (calib_inserted s). rewrite Ical. destruct n; cbn; destruct (use_odom O); reflexivity.
  - rewrite U3, (e_loop _ _ _ _ _ E). reflexivity.
  - constructor; fold n.
    + rewrite Hf, <- !app_assoc. reflexivity.
    + exact Hv.
    + rewrite U8. rewrite (e_links _ _ _ _ _ E). change (links s0) with (links s). rewrite ?app_nil_r. reflexivity.
    + exact Hsub.
    + rewrite U9. rewrite (e_odom _ _ _ _ _ E). reflexivity.
    + exact Hc.
    + exact Hk.
Qed.
End Isam.
