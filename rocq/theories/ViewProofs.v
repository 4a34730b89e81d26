(** Proofs about the view graph. *)
From Coq Require Import ZArith QArith List Lia Lqa Sorted String Ascii DecimalString Decimal DecimalFacts DecimalZ.
From Verif Require Import IdsModel IdsProps ViewModel ViewSpec.
Import ListNotations.
Local Open Scope Z_scope.

Section View.
Variable M : Type.
Variable garbage : M.
Notation graph := (graph M).
Notation item := (item M).
Notation update := (update M garbage).
Notation find := (find M).
Notation no_item := (no_item M garbage).

Definition sorted (g : graph) : Prop := StronglySorted Z.lt (map fst g).
Lemma update_keys : forall (g : graph) i f x, In x (map fst (update g i f)) -> x = i \/ In x (map fst g).
Proof.
  induction g as [|[j y] g IH]; intros i f x H; cbn in H |- *; [destruct H as [H|[]]; auto|].
  destruct (i =? j); [|destruct (i <? j)]; cbn in H; [auto|destruct H as [H|H]; auto|].
  destruct H as [H|H]; auto. destruct (IH _ _ _ H); auto.
Qed.
Lemma update_sorted : forall (g : graph) i f, sorted g -> sorted (update g i f).
Proof.
  unfold sorted. induction g as [|[j y] g IH]; intros i f H; cbn [ViewModel.update map fst].
  - constructor; constructor.
  - cbn in H. apply StronglySorted_inv in H. destruct H as [H1 H2]. destruct (Z.eqb_spec i j); [constructor; assumption|]. destruct (Z.ltb_spec i j); cbn [map fst].
    + constructor; [constructor; assumption|]. constructor; [assumption|]. eapply Forall_impl; [|exact H2]. cbn. intros; lia.
    + constructor; [apply IH, H1|]. rewrite Forall_forall in *. intros x Hx. destruct (update_keys _ _ _ _ Hx); [lia|auto].
Qed.
Lemma find_not_in : forall (g : graph) i, (forall x, In x (map fst g) -> i < x) -> find g i = None.
Proof.
  induction g as [|[j y] g IH]; intros i H; cbn [ViewModel.find]; [reflexivity|]. pose proof (H j (or_introl eq_refl)). destruct (Z.eqb_spec i j); [lia|]. apply IH. intros x Hx. apply H. right. exact Hx.
Qed.
Lemma find_update : forall (g : graph) i f k, sorted g ->
  find (update g i f) k = if k =? i then Some (f match find g i with Some x => x | None => no_item end) else find g k.
Proof.
  unfold sorted. induction g as [|[j y] g IH]; intros i f k H; cbn [ViewModel.update ViewModel.find].
  - destruct (k =? i); reflexivity.
  - cbn in H. apply StronglySorted_inv in H. destruct H as [H1 H2]. rewrite Forall_forall in H2.
    destruct (Z.eqb_spec i j) as [E|E].
    + subst j. cbn [ViewModel.find]. destruct (Z.eqb_spec k i); reflexivity.
    + destruct (Z.ltb_spec i j) as [L|L].
      * cbn [ViewModel.find]. rewrite (find_not_in g i) by (intros x Hx; specialize (H2 _ Hx); lia). reflexivity.
      * cbn [ViewModel.find]. destruct (Z.eqb_spec k j) as [K|K].
        -- subst k. destruct (Z.eqb_spec j i); [lia|]. reflexivity.
        -- apply IH, H1.
Qed.
Lemma update_id : forall (g : graph) i f, sorted g -> find g i <> None -> (forall x, f x = x) -> update g i f = g.
Proof.
  unfold sorted. induction g as [|[j y] g IH]; intros i f H F I; cbn in F; [congruence|]. cbn [ViewModel.update]. cbn in H. apply StronglySorted_inv in H. destruct H as [H1 H2].
  rewrite Forall_forall in H2. destruct (Z.eqb_spec i j); [rewrite I; reflexivity|]. destruct (Z.ltb_spec i j); [|rewrite IH by assumption; reflexivity].
  rewrite find_not_in in F; [congruence|]. intros x Hx. specialize (H2 _ Hx). lia.
Qed.
Lemma find_in : forall (g : graph) i x, sorted g -> (find g i = Some x <-> In (i, x) g).
Proof.
  unfold sorted. induction g as [|[j y] g IH]; intros i x H; cbn [ViewModel.find].
  - split; [discriminate|intros []].
  - cbn in H. apply StronglySorted_inv in H. destruct H as [H1 H2]. rewrite Forall_forall in H2. destruct (Z.eqb_spec i j) as [E|E].
    + subst j. split; [intros Q; injection Q as <-; left; reflexivity|]. intros [Q|Q]; [injection Q as <-; reflexivity|].
      specialize (H2 i). assert (i < i) by (apply H2; apply in_map_iff; exists (i, x); auto). lia.
    + destruct (IH i x H1) as [I1 I2]. split; [intros F; right; apply I1, F|]. intros F. destruct F as [F|F]; [congruence|apply I2, F].
Qed.

(** Drawing does not change the graph when all edges have known ends. *)
Definition closed (g : graph) : Prop := forall i x j t, In (i, x) g -> In (j, t) (connections M x) -> find g j <> None.
Lemma draw_same : forall x0 y1 res l (g : graph) i from, sorted g -> (forall j t, In (j, t) l -> find g j <> None) ->
  fst (draw M garbage x0 y1 res g i from l) = g.
Proof.
  induction l as [|[j t] l IH]; intros g i from S H; cbn [draw]; [reflexivity|].
  rewrite update_id; [|exact S|apply (H j t); left; reflexivity|reflexivity].
  specialize (IH g i from S). destruct (draw M garbage x0 y1 res g i from l) as [g2 ls]. cbn in *. apply IH. intros j' t' Hj. apply (H j' t'). right. exact Hj.
Qed.
Lemma draw_all_same : forall x0 y1 res items (g : graph), sorted g ->
  (forall i x j t, In (i, x) items -> In (j, t) (connections M x) -> find g j <> None) -> fst (draw_all M garbage x0 y1 res g items) = g.
Proof.
  induction items as [|[i x] items IH]; intros g S H; cbn [draw_all]; [reflexivity|].
  pose proof (draw_same x0 y1 res (connections M x) g i (to_image M x0 y1 res (self_pose M x)) S) as D.
  destruct (draw M garbage x0 y1 res g i (to_image M x0 y1 res (self_pose M x)) (connections M x)) as [g1 ls]. cbn in D. rewrite D.
  - specialize (IH g S). destruct (draw_all M garbage x0 y1 res g items) as [g2 ls']. cbn in *. apply IH. intros i' x' j t Hi. apply (H i' x'). right. exact Hi.
  - intros j t Hj. apply (H i x j t); [left; reflexivity|exact Hj].
Qed.

(** The state against the history. *)
Definition agrees (h : list (op M)) (s : state M) : Prop :=
  sorted (graph_of M s) /\
  (forall i, (find (graph_of M s) i <> None) <-> added M h i) /\
  (forall i x, find (graph_of M s) i = Some x -> last_pose M h i (self_pose M x) /\ edges_from M i h (connections M x)) /\
  (forall i x j t, find (graph_of M s) i = Some x -> In (j, t) (connections M x) -> find (graph_of M s) j <> None).
Lemma agrees_closed : forall h s, agrees h s -> closed (graph_of M s).
Proof. intros h s (S & _ & _ & C) i x j t Hi Hj. apply (C i x j t); [apply find_in; assumption|exact Hj]. Qed.
Lemma added_snoc : forall h o i, added M (h ++ [o]) i <-> added M h i \/ exists p, o = Vertex M i p.
Proof.
  intros h o i. unfold added. split.
  - intros (p & H). apply in_app_iff in H. destruct H as [H|[H|[]]]; [left; eauto|right; eauto].
  - intros [(p & H)|(p & H)]; exists p; apply in_app_iff; [left; exact H|right; left; exact H].
Qed.
Lemma save_graph : forall h s res, agrees h s -> graph_of M (fst (save_image M garbage s res)) = graph_of M s.
Proof.
  intros h s res A. unfold save_image. destruct (graph_of M s) as [|a g] eqn:E; [exact E|].
  pose proof (agrees_closed _ _ A) as C. destruct A as (S & _). rewrite E in *.
  pose proof (draw_all_same (xmin M s - 1)%Q (ymax M s + 1)%Q res (a :: g) (a :: g) S) as D.
  destruct (draw_all M garbage (xmin M s - 1) (ymax M s + 1) res (a :: g) (a :: g)) as [g' ls]. cbn [fst graph_of] in *. apply D.
  intros i x j t. apply C.
Qed.
Lemma last_pose_other : forall h o i p, last_pose M h i p -> (forall q, o <> Vertex M i q) -> last_pose M (h ++ [o]) i p.
Proof.
  intros h o i p (a & b & E & H) N. exists a, (b ++ [o]). split; [rewrite E, <- app_assoc; reflexivity|].
  intros q Q. apply in_app_iff in Q. destruct Q as [Q|[Q|[]]]; [apply (H q Q)|apply (N q Q)].
Qed.
Lemma find_dec : forall (g : graph) i, {find g i <> None} + {find g i = None}.
Proof. intros g i. destruct (find g i); [left; discriminate|right; reflexivity]. Qed.
Lemma agrees_step : forall h s o, agrees h s -> agrees (h ++ [o]) (step M garbage s o).
Proof.
  intros h s o A. pose proof A as A0. destruct A as (S & V & L & C). destruct o as [i p|a b t|res]; cbn [step].
  - unfold agrees, add_vertex. cbn [graph_of]. split; [apply update_sorted, S|]. split; [|split].
    + intros k. rewrite find_update by exact S. rewrite added_snoc. destruct (Z.eqb_spec k i) as [E|E].
      * subst k. split; [intros _; right; eauto|discriminate].
      * rewrite V. split; [auto|]. intros [H|(q & H)]; [exact H|injection H; congruence].
    + intros k x. rewrite find_update by exact S. destruct (Z.eqb_spec k i) as [E|E].
      * subst k. intros Q. injection Q as <-. cbn [self_pose connections]. split.
        { exists h, []. split; [reflexivity|]. intros q []. }
        destruct (find (graph_of M s) i) as [y|] eqn:F.
        { apply ef_other; [apply (L i y F)|discriminate]. }
        { cbn. apply ef_other; [|discriminate]. assert (~ added M h i) as Na by (rewrite <- V; congruence).
          clear - Na. induction h as [|o h IH] using rev_ind; [constructor|].
          rewrite added_snoc in Na. specialize (IH ltac:(tauto)). destruct o as [k q|a b t|res].
          - apply ef_other; [exact IH|discriminate].
          - destruct (Z.eq_dec a i) as [E|E]; [|apply ef_other; [exact IH|congruence]]. subst a. apply ef_rejected; [exact IH|]. tauto.
          - apply ef_other; [exact IH|discriminate]. }
      * intros F. destruct (L k x F) as [L1 L2]. split; [apply last_pose_other; [exact L1|congruence]|apply ef_other; [exact L2|discriminate]].
    + intros k x j t. rewrite !find_update by exact S. destruct (Z.eqb_spec j i); [discriminate|]. destruct (Z.eqb_spec k i) as [E|E]; [|apply C].
      intros Q. injection Q as <-. cbn [connections]. destruct (find (graph_of M s) i) as [y|] eqn:F; [apply (C i y j t F)|intros []].
  - unfold add_edge, count. destruct (find (graph_of M s) a) as [xa|] eqn:Fa; cbn [Nat.eqb orb]; [destruct (find (graph_of M s) b) as [xb|] eqn:Fb; cbn [Nat.eqb]|].
    + unfold agrees. cbn [graph_of]. split; [apply update_sorted, S|]. split; [|split].
      * intros k. rewrite find_update by exact S. rewrite added_snoc. destruct (Z.eqb_spec k a) as [E|E].
        -- subst k. split; [|discriminate]. intros _. left. apply V. congruence.
        -- rewrite V. split; [auto|]. intros [H|(q & H)]; [exact H|discriminate].
      * intros k x. rewrite find_update by exact S. destruct (Z.eqb_spec k a) as [E|E].
        -- subst k. intros Q. rewrite Fa in Q. injection Q as <-. cbn [self_pose connections]. destruct (L a xa Fa) as [L1 L2]. split; [apply last_pose_other; [exact L1|discriminate]|].
           apply ef_edge; [exact L2|apply V; congruence|apply V; congruence].
        -- intros F. destruct (L k x F) as [L1 L2]. split; [apply last_pose_other; [exact L1|discriminate]|apply ef_other; [exact L2|congruence]].
      * intros k x j t'. rewrite !find_update by exact S. destruct (Z.eqb_spec j a); [discriminate|]. destruct (Z.eqb_spec k a) as [E|E]; [|apply C].
        intros Q. rewrite Fa in Q. injection Q as <-. cbn [connections]. rewrite in_app_iff. intros [H|[H|[]]]; [apply (C a xa j t' Fa H)|injection H as <- _; congruence].
    + unfold agrees. split; [exact S|]. split; [|split; [|exact C]].
      * intros k. rewrite added_snoc, V. split; [auto|]. intros [H|(q & H)]; [exact H|discriminate].
      * intros k x F. destruct (L k x F) as [L1 L2]. split; [apply last_pose_other; [exact L1|discriminate]|].
        destruct (Z.eq_dec a k) as [E|E]; [subst a|apply ef_other; [exact L2|congruence]]. apply ef_rejected; [exact L2|]. rewrite <- !V. intros [_ H]. congruence.
    + unfold agrees. split; [exact S|]. split; [|split; [|exact C]].
      * intros k. rewrite added_snoc, V. split; [auto|]. intros [H|(q & H)]; [exact H|discriminate].
      * intros k x F. destruct (L k x F) as [L1 L2]. split; [apply last_pose_other; [exact L1|discriminate]|]. apply ef_other; [exact L2|congruence].
  - unfold agrees. rewrite (save_graph h s res A0). split; [exact S|]. split; [|split; [|exact C]].
    + intros k. rewrite added_snoc, V. split; [auto|]. intros [H|(q & H)]; [exact H|discriminate].
    + intros k x F. destruct (L k x F) as [L1 L2]. split; [apply last_pose_other; [exact L1|discriminate]|apply ef_other; [exact L2|discriminate]].
Qed.
Lemma run_snoc : forall l o, run M garbage (l ++ [o]) = step M garbage (run M garbage l) o.
Proof. intros l o. unfold run. rewrite fold_left_app. reflexivity. Qed.
Lemma agrees_run : forall l, agrees l (run M garbage l).
Proof.
  induction l as [|o l IH] using rev_ind.
  - unfold agrees, sorted. cbn. split; [constructor|]. split; [|split; discriminate]. intros i. split; [congruence|]. intros (p & []).
  - rewrite run_snoc. apply agrees_step, IH.
Qed.

(** ** The text dump *)
Definition adjacency (g : graph) : list (Z * list Z) := map (fun ix => (fst ix, map fst (connections M (snd ix)))) g.
Definition plain (c : ascii) : Prop := c <> " "%char /\ c <> ","%char /\ c <> ascii_of_nat 10.
Fixpoint all_plain (s : string) : Prop := match s with EmptyString => True | String c s' => plain c /\ all_plain s' end.
Lemma plain_uint : forall d, all_plain (NilEmpty.string_of_uint d).
Proof. induction d; cbn; auto; (split; [repeat split; discriminate|assumption]). Qed.
Lemma plain_to_string : forall z, all_plain (to_string z).
Proof.
  intros z. unfold to_string. destruct (Z.to_int z) as [d|d]; cbn [NilZero.string_of_int].
  - destruct d; try apply plain_uint. cbn. repeat split; discriminate.
  - cbn [all_plain]. split; [repeat split; discriminate|]. destruct d; try apply plain_uint. cbn. repeat split; discriminate.
Qed.
Lemma to_string_nonempty : forall z, exists c s, to_string z = String c s /\ plain c.
Proof.
  intros z. pose proof (plain_to_string z) as P. destruct (to_string z) as [|c s] eqn:E; [|exists c, s; split; [reflexivity|apply P]].
  exfalso. unfold to_string in E. destruct (Z.to_int z) as [d|d]; cbn in E; [destruct d|]; discriminate.
Qed.
Local Open Scope string_scope.
Lemma cut_plain : forall a b x y c d, all_plain a -> all_plain b -> ~ plain c -> ~ plain d ->
  a ++ String c x = b ++ String d y -> a = b /\ c = d /\ x = y.
Proof.
  induction a as [|u a IH]; intros [|v b] x y c d Ha Hb Hc Hd H; cbn in *.
  - injection H as -> ->. auto.
  - injection H as -> _. tauto.
  - injection H as <- _. tauto.
  - injection H as -> H. destruct (IH b x y c d) as (-> & -> & ->); tauto.
Qed.
Lemma sapp_assoc : forall a b c : string, (a ++ b) ++ c = a ++ (b ++ c).
Proof. induction a as [|u a IH]; intros b c; cbn; [reflexivity|]. rewrite IH. reflexivity. Qed.
Lemma not_plain_space : ~ plain " ". Proof. intros (H & _). congruence. Qed.
Lemma not_plain_comma : ~ plain ",". Proof. intros (_ & H & _). congruence. Qed.
Lemma targets_inj : forall (l l' : list (Z * M)) r r', targets M l ++ r = targets M l' ++ r' -> map fst l = map fst l' /\ r = r'.
Proof.
  induction l as [|[j t] l IH]; intros [|[j' t'] l'] r r' H; cbn [targets] in H.
  - cbn in H. injection H as ->. auto.
  - exfalso. destruct (to_string_nonempty j') as (c & s & E & P). rewrite E in H. cbn in H. injection H as <- _. destruct P as (_ & _ & P). apply P. reflexivity.
  - exfalso. destruct (to_string_nonempty j) as (c & s & E & P). rewrite E in H. cbn in H. injection H as -> _. destruct P as (_ & _ & P). apply P. reflexivity.
  - rewrite !sapp_assoc in H. cbn [append] in H. apply cut_plain in H; try apply plain_to_string; try apply not_plain_comma.
    destruct H as (H1 & _ & H2). injection H2 as H2. apply to_string_inj in H1. subst j'. destruct (IH _ _ _ H2) as [E ->]. cbn. rewrite E. auto.
Qed.
Lemma dump_inj : forall g g' : graph, dump M g = dump M g' -> adjacency g = adjacency g'.
Proof.
  induction g as [|[i x] g IH]; intros [|[i' x'] g'] H; cbn [dump] in H.
  - reflexivity.
  - exfalso. destruct (to_string_nonempty i') as (c & s & E & P). rewrite E in H. cbn in H. discriminate.
  - exfalso. destruct (to_string_nonempty i) as (c & s & E & P). rewrite E in H. cbn in H. discriminate.
  - rewrite !sapp_assoc in H. cbn [append] in H. apply cut_plain in H; try apply plain_to_string; try apply not_plain_space.
    destruct H as (H1 & _ & H2). injection H2 as H2. apply to_string_inj in H1. subst i'. apply targets_inj in H2. destruct H2 as [E H2].
    cbn. rewrite E. f_equal. apply IH, H2.
Qed.
Local Close Scope string_scope.

(** ** The bounding box *)
Local Open Scope Q_scope.
Lemma shrink_spec : forall a b, shrink a b <= b /\ (forall x, a = Some x -> shrink a b <= x) /\ (shrink a b = b \/ a = Some (shrink a b)).
Proof.
  intros [x|] b; unfold shrink, less; [|split; [lra|]; split; [discriminate|auto]].
  destruct (Qle_bool b x) eqn:E; cbn [negb].
  - apply Qle_bool_iff in E. split; [lra|]. split; [|auto]. intros y H. injection H as <-. exact E.
  - apply Bool.not_true_iff_false in E. rewrite Qle_bool_iff in E. apply Qnot_le_lt in E. split; [lra|]. split; [|auto]. intros y H. injection H as <-. lra.
Qed.
Lemma grow_spec : forall a b, b <= grow a b /\ (forall x, a = Some x -> x <= grow a b) /\ (grow a b = b \/ a = Some (grow a b)).
Proof.
  intros [x|] b; unfold grow, greater; [|split; [lra|]; split; [discriminate|auto]].
  destruct (Qle_bool x b) eqn:E; cbn [negb].
  - apply Qle_bool_iff in E. split; [lra|]. split; [|auto]. intros y H. injection H as <-. exact E.
  - apply Bool.not_true_iff_false in E. rewrite Qle_bool_iff in E. apply Qnot_le_lt in E. split; [lra|]. split; [|auto]. intros y H. injection H as <-. lra.
Qed.
End View.
