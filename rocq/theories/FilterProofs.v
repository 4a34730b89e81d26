(** Proofs about the filters. *)
From Coq Require Import ZArith List Bool Lia Sorted Permutation SpecFloat.
From Verif Require FrontProofs.
From Verif Require Import Outcome TimeModel LoopSpec LoopProofs FloatOrder FilterModel FilterSpec.
Import ListNotations.
Local Open Scope outcome_scope.

Lemma Forall2_impl : forall {A B} (P Q : A -> B -> Prop), (forall a b, P a b -> Q a b) ->
  forall l m, Forall2 P l m -> Forall2 Q l m.
Proof. intros A B P Q H l m F. induction F; constructor; auto. Qed.

(** ** The selection loop *)
Lemma select_spec : forall keep l k a b c, select keep l k = (a, b, c) ->
  StronglySorted lt a /\ StronglySorted lt b /\
  (forall i, In i a <-> k <= i /\ exists p, nth_error l (i - k) = Some p /\ keep i p = true) /\
  (forall i, In i b <-> k <= i /\ exists p, nth_error l (i - k) = Some p /\ keep i p = false) /\
  Forall2 (fun i p => k <= i /\ nth_error l (i - k) = Some p) a c.
Proof.
  intros keep. induction l as [|p l IH]; intros k a b c H; cbn in H.
  - injection H as <- <- <-.
    split; [constructor|]. split; [constructor|].
    split; [|split; [|constructor]]; intros i; split; cbn; try tauto;
      intros (_ & q & E & _); destruct (i - k); discriminate.
  - destruct (select keep l (S k)) as [[a' b'] c'] eqn:E.
    destruct (IH _ _ _ _ E) as (Sa & Sb & Ia & Ib & F).
    assert (Step : forall i, S k <= i -> nth_error (p :: l) (i - k) = nth_error l (i - S k)).
    { intros i Hi. replace (i - k) with (S (i - S k)) by lia. reflexivity. }
    assert (Zero : nth_error (p :: l) (k - k) = Some p) by (rewrite Nat.sub_diag; reflexivity).
    assert (La : Forall (lt k) a').
    { apply Forall_forall. intros i Hi. apply Ia in Hi. lia. }
    assert (Lb : Forall (lt k) b').
    { apply Forall_forall. intros i Hi. apply Ib in Hi. lia. }
    assert (F' : Forall2 (fun i q => k <= i /\ nth_error (p :: l) (i - k) = Some q) a' c').
    { eapply Forall2_impl; [|exact F]. intros i q (Hi & Hn). rewrite Step by lia. split; [lia|assumption]. }
    assert (R : forall i v, (S k <= i /\ exists q, nth_error l (i - S k) = Some q /\ keep i q = v) <->
                (i <> k /\ k <= i /\ exists q, nth_error (p :: l) (i - k) = Some q /\ keep i q = v)).
    { intros i v. split.
      - intros (Hi & q & Hn & Hk). split; [lia|]. split; [lia|]. exists q. rewrite Step by lia. auto.
      - intros (Hn0 & Hi & q & Hn & Hk). split; [lia|]. exists q. rewrite Step in Hn by lia. auto. }
    destruct (keep k p) eqn:K; injection H as <- <- <-.
    + split; [constructor; assumption|]. split; [assumption|]. split; [|split].
      * intros i. cbn. rewrite Ia, R. split.
        -- intros [<-|(? & H)]; [|exact H]. split; [lia|]. exists p. auto.
        -- intros H. destruct (Nat.eq_dec i k) as [->|Hn]; auto.
      * intros i. rewrite Ib, R. split; [tauto|]. intros H. split; [|exact H].
        intros ->. destruct H as (_ & q & Hq & Hv). rewrite Zero in Hq. congruence.
      * constructor; [split; [lia|exact Zero]|assumption].
    + split; [assumption|]. split; [constructor; assumption|]. split; [|split].
      * intros i. rewrite Ia, R. split; [tauto|]. intros H. split; [|exact H].
        intros ->. destruct H as (_ & q & Hq & Hv). rewrite Zero in Hq. congruence.
      * intros i. cbn. rewrite Ib, R. split.
        -- intros [<-|(? & H)]; [|exact H]. split; [lia|]. exists p. auto.
        -- intros H. destruct (Nat.eq_dec i k) as [->|Hn]; auto.
      * assumption.
Qed.

Lemma select_divided : forall keep l a b c, select keep l 0 = (a, b, c) ->
  divided (length l) a b /\ picked l a c /\
  forall i p, nth_error l i = Some p -> (In i a <-> keep i p = true).
Proof.
  intros keep l a b c H. destruct (select_spec _ _ _ _ _ _ H) as (Sa & Sb & Ia & Ib & F).
  split; [|split].
  - split; [assumption|]. split; [assumption|]. intros i. split.
    + intros Hi. apply nth_error_Some in Hi. destruct (nth_error l i) as [p|] eqn:E; [|congruence].
      rewrite Ia, Ib, Nat.sub_0_r.
      destruct (keep i p) eqn:K; [left|right]; (split; [split; [lia|exists p; auto]|]);
        intros (_ & q & Hq & Hv); congruence.
    + rewrite Ia, Ib, Nat.sub_0_r. intros [(_ & q & Hq & _)|(_ & q & Hq & _)];
        apply nth_error_Some; congruence.
  - eapply Forall2_impl; [|exact F]. cbn. intros i p (_ & Hi). rewrite Nat.sub_0_r in Hi. exact Hi.
  - intros i p Hp. rewrite Ia, Nat.sub_0_r. split.
    + intros (_ & q & Hq & Hv). congruence.
    + intros K. split; [lia|eauto].
Qed.

Lemma seq_picked : forall l, picked l (seq 0 (length l)) l.
Proof.
  assert (G : forall l pre : list point, Forall2 (fun i p => nth_error (pre ++ l) i = Some p) (seq (length pre) (length l)) l).
  { induction l as [|p l IH]; intros pre; cbn; constructor.
    - rewrite nth_error_app2, Nat.sub_diag by lia. reflexivity.
    - specialize (IH (pre ++ [p])). rewrite app_length, <- app_assoc in IH. cbn in IH.
      rewrite Nat.add_1_r in IH. exact IH. }
  intros l. exact (G l []).
Qed.
Lemma seq_sorted : forall n k, StronglySorted lt (seq k n).
Proof.
  induction n; intros k; cbn; constructor; [apply IHn|].
  apply Forall_forall. intros i Hi. apply in_seq in Hi. lia.
Qed.

(** ** Predicates *)
Lemma SFltb_fgt : forall x y, SFltb x y = true <-> fgt y x.
Proof.
  intros x y. unfold SFltb, fgt. rewrite (Verif.FrontProofs.SFcompare_opp x y).
  destruct (SFcompare x y) as [[]|]; cbn; split; auto; try discriminate; tauto.
Qed.
Lemma within_b : forall x lo hi, SFleb lo x && SFleb x hi = true <-> within x lo hi.
Proof. intros. unfold within. rewrite andb_true_iff, !SFleb_fle. tauto. Qed.
Lemma beyond_b : forall x lo hi, beyond x lo hi = false <-> ~ fgt lo x /\ ~ fgt x hi.
Proof.
  intros. unfold beyond. rewrite orb_false_iff, <- !SFltb_fgt, <- !not_true_iff_false. tauto.
Qed.

Lemma keeps_wanted : forall k i p, predicate k -> passes k = false -> (keeps k i p = true <-> wanted k i p).
Proof.
  intros [lo hi|lo hi ax|x0 y0 z0 x1 y1 z1|al r d| |s od ord|lf ht ls] i p Hp Hq; cbn in Hp; try contradiction.
  - apply within_b.
  - cbn [keeps wanted passes] in *. rewrite negb_true_iff.
    assert (N : ~ (SFcompare lo flt_lowest = Some Eq /\ SFcompare hi flt_max = Some Eq)).
    { intros (A & B). unfold SFeqb in Hq. rewrite A, B in Hq. discriminate. }
    unfold coord.
    destruct (Z.eqb_spec ax 0) as [->|N0]; [|destruct (Z.eqb_spec ax 1) as [->|N1]; [|destruct (Z.eqb_spec ax 2) as [->|N2]]].
    + rewrite beyond_b. split.
      * intros H. right. intros x [(_ & ->)|[(E & _)|(E & _)]]; [exact H|lia|lia].
      * intros [H|H]; [tauto|]. apply H. auto.
    + rewrite beyond_b. split.
      * intros H. right. intros x [(E & _)|[(_ & ->)|(E & _)]]; [lia|exact H|lia].
      * intros [H|H]; [tauto|]. apply H. auto.
    + rewrite beyond_b. split.
      * intros H. right. intros x [(E & _)|[(E & _)|(_ & ->)]]; [lia|lia|exact H].
      * intros [H|H]; [tauto|]. apply H. auto.
    + split; auto. intros _. right. intros x [(E & _)|[(E & _)|(E & _)]]; lia.
  - cbn [keeps wanted]. rewrite negb_true_iff, <- not_true_iff_false, !andb_true_iff.
    unfold within. rewrite !SFleb_fle. tauto.
  - cbn [keeps wanted passes] in *. subst al. rewrite SFleb_fle. split; [auto|intros [H|H]; [discriminate|auto]].
Qed.
Lemma passes_wanted : forall k i p, predicate k -> passes k = true -> wanted k i p.
Proof.
  intros [lo hi|lo hi ax|x0 y0 z0 x1 y1 z1|al r d| |s od ord|lf ht ls] i p Hp Hq; cbn in Hp; try contradiction; try discriminate.
  - cbn [passes wanted] in *. left. apply andb_true_iff in Hq. destruct Hq as [A B]. unfold SFeqb in A, B.
    destruct (SFcompare lo flt_lowest) as [[]|]; try discriminate.
    destruct (SFcompare hi flt_max) as [[]|]; try discriminate. auto.
  - left. exact Hq.
Qed.

Lemma body_predicate : forall k o pts, predicate k -> box_ordered k -> body k o pts = Ok (select (keeps k) pts 0).
Proof.
  intros [lo hi|lo hi ax|x0 y0 z0 x1 y1 z1|al r d| |s od ord|lf ht ls] o pts Hp Hb; cbn in Hp; try contradiction; try reflexivity.
  cbn [body]. cbn [box_ordered] in Hb. rewrite <- !SFltb_fgt in Hb. destruct Hb as (-> & -> & ->). reflexivity.
Qed.

Lemma set_input_predicate : forall k h a prev, predicate k -> points (h a) <> [] ->
  set_input k h (Some a) prev = Ok (mkObj (Some a) [] [] (voxels prev)).
Proof.
  intros k h a prev Hp Hn. unfold set_input. destruct (points (h a)); [congruence|].
  destruct k; try reflexivity. contradiction.
Qed.

Lemma filter_predicate : forall k h d o a, predicate k -> inner o = Some a ->
  filter k h (Some d) o =
  if passes k then
    Ok (upd h d (h a), mkObj (inner o) (inliers o ++ seq 0 (length (points (h a)))) [] (voxels o))
  else
    let h1 := upd h d (mkCloud (stamp (h a)) []) in
    let* r := body k o (points (h1 a)) in
    let '(x, y, q) := r in
    Ok (upd h1 d (mkCloud (stamp (h1 d)) q), mkObj (inner o) x y (voxels o)).
Proof.
  intros k h d o a Hp Hi. unfold filter. rewrite Hi. destruct k; try reflexivity. contradiction.
Qed.

Lemma upd_same : forall h a c, upd h a c a = c.
Proof. intros. unfold upd. rewrite Nat.eqb_refl. reflexivity. Qed.
Lemma upd_other : forall h a b c, b <> a -> upd h a c b = h b.
Proof. intros. unfold upd. destruct (Nat.eqb_spec b a); [congruence|reflexivity]. Qed.

Lemma predicate_split : forall k h a d prev, predicate k -> box_ordered k -> a <> d -> points (h a) <> [] ->
  exists h' o, apply k h a d prev = Ok (h', o) /\
    (forall b, b <> d -> h' b = h b) /\
    stamp (h' d) = stamp (h a) /\
    divided (length (points (h a))) (inliers o) (outliers o) /\
    picked (points (h a)) (inliers o) (points (h' d)) /\
    (forall i p, nth_error (points (h a)) i = Some p -> (In i (inliers o) <-> wanted k i p)).
Proof.
  intros k h a d prev Hp Hb Hd Hn. unfold apply. rewrite set_input_predicate by assumption. cbn [bind].
  rewrite (filter_predicate k h d _ a) by auto. cbn [inner inliers outliers voxels].
  destruct (passes k) eqn:P.
  - eexists _, _. split; [reflexivity|]. rewrite upd_same. cbn [inliers outliers app].
    split; [intros b Hx; apply upd_other; assumption|]. split; [reflexivity|].
    split; [|split; [apply seq_picked|]].
    + split; [apply seq_sorted|]. split; [constructor|]. intros i. rewrite in_seq. cbn. split; [left|]; lia.
    + intros i p Hi. split; [intros _; apply passes_wanted; assumption|].
      intros _. apply in_seq. assert (i < length (points (h a))) by (apply nth_error_Some; congruence). lia.
  - cbv zeta. rewrite upd_same, (upd_other _ d a) by assumption. cbn [stamp].
    rewrite body_predicate by assumption. cbn [bind].
    destruct (select (keeps k) (points (h a)) 0) as [[x y] q] eqn:S.
    destruct (select_divided _ _ _ _ _ S) as (D & K & W).
    eexists _, _. split; [reflexivity|]. cbn [inliers outliers]. rewrite upd_same. cbn [stamp points].
    split; [intros b Hx; rewrite !upd_other by assumption; reflexivity|].
    split; [reflexivity|]. split; [assumption|]. split; [assumption|].
    intros i p Hi. rewrite (W i p Hi). apply keeps_wanted; assumption.
Qed.

Lemma bad_box : forall x0 y0 z0 x1 y1 z1 h a d prev, points (h a) <> [] ->
  ~ box_ordered (Box x0 y0 z0 x1 y1 z1) -> apply (Box x0 y0 z0 x1 y1 z1) h a d prev = Abort.
Proof.
  intros x0 y0 z0 x1 y1 z1 h a d prev Hn Hb. unfold apply. rewrite set_input_predicate by (exact I || assumption).
  cbn [bind]. rewrite (filter_predicate _ h d _ a) by (exact I || reflexivity). cbn [passes body].
  replace (SFltb x0 x1 && SFltb y0 y1 && SFltb z0 z1) with false; [reflexivity|].
  symmetry. apply not_true_iff_false. rewrite !andb_true_iff, !SFltb_fgt. cbn in Hb. tauto.
Qed.

Lemma alias_empties : forall k h a prev, predicate k -> box_ordered k -> passes k = false -> points (h a) <> [] ->
  exists h' o, apply k h a a prev = Ok (h', o) /\ h' a = mkCloud (stamp (h a)) [] /\
    inliers o = [] /\ outliers o = [].
Proof.
  intros k h a prev Hp Hb P Hn. unfold apply. rewrite set_input_predicate by assumption. cbn [bind].
  rewrite (filter_predicate k h a _ a) by auto. rewrite P. cbv zeta. rewrite upd_same. cbn [points stamp].
  rewrite body_predicate by assumption. cbn [select bind]. eexists _, _. split; [reflexivity|].
  rewrite upd_same. auto.
Qed.

Lemma repeat_doubles : forall k h a d prev, predicate k -> passes k = true -> a <> d -> points (h a) <> [] ->
  exists h' o, (let* r := apply k h a d prev in filter k (fst r) (Some d) (snd r)) = Ok (h', o) /\
    inliers o = seq 0 (length (points (h a))) ++ seq 0 (length (points (h a))) /\
    length (points (h' d)) = length (points (h a)).
Proof.
  intros k h a d prev Hp P Hd Hn. unfold apply. rewrite set_input_predicate by assumption. cbn [bind].
  rewrite (filter_predicate k h d _ a) by auto. rewrite P. cbn [bind fst snd].
  rewrite (filter_predicate k _ d _ a) by auto. rewrite P.
  eexists _, _. split; [reflexivity|]. cbn [inliers inner voxels app]. rewrite upd_same, upd_other by assumption. auto.
Qed.

(** ** NaN *)
Lemma nan_range : forall p, px p = S754_nan \/ py p = S754_nan \/ pz p = S754_nan -> range_of p = S754_nan.
Proof.
  intros [x y z it f] H. unfold range_of. cbn [px py pz] in *.
  assert (AddR : forall u, fadd u S754_nan = S754_nan) by (intros [| | |]; reflexivity).
  assert (AddL : forall u, fadd S754_nan u = S754_nan) by (intros [| | |]; reflexivity).
  destruct H as [-> | [-> | ->]].
  - change (fmul S754_nan S754_nan) with S754_nan. rewrite !AddL. reflexivity.
  - change (fmul S754_nan S754_nan) with S754_nan. rewrite AddR, AddL. reflexivity.
  - change (fmul S754_nan S754_nan) with S754_nan. rewrite AddR. reflexivity.
Qed.
