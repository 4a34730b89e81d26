(** Lemmas about GroundRemoval2. *)
From Coq Require Import ZArith List Bool Lia.
From Verif Require Import Outcome Ground2Model Ground2Spec.
Import ListNotations.

Section Proofs.
Context {A : arith} {P : Type} (S : setup A P).
Notation pt := (@pt A).
Notation desc := (@desc A).
Hypothesis Ord : ordered A.

(** ** The maximal error *)
Lemma comparable_zero : comparable A (zero A).
Proof. right. exists (minus_one A). apply lt_minus, Ord. Qed.
Lemma max_error_spec : forall l m x, ltb A x (get_max_error l m) = false -> Forall (fun q => ltb A x (error_of m q) = false) l.
Proof.
  intros l m x. unfold get_max_error.
  assert (G : forall l e, comparable A e -> ltb A x (fold_left (fun e q => if ltb A e (error_of m q) then error_of m q else e) l e) = false ->
    ltb A x e = false /\ Forall (fun q => ltb A x (error_of m q) = false) l).
  { induction l0 as [|q l0 IH]; cbn [fold_left]; intros e C H; [split; auto|].
    destruct (ltb A e (error_of m q)) eqn:L.
    - destruct (IH _ (or_intror (ex_intro _ e L)) H) as [H1 H2]. split; [|constructor; auto].
      destruct (ltb A x e) eqn:X; auto. rewrite (lt_trans A Ord x e (error_of m q) X L) in H1. discriminate.
    - destruct (IH _ C H) as [H1 H2]. split; auto. constructor; auto.
      destruct (ltb A x (error_of m q)) eqn:X; auto. rewrite (lt_keep A Ord x (error_of m q) e C X L) in H1. discriminate. }
  intros H. apply (G l (zero A)) in H; [tauto|]. apply comparable_zero.
Qed.

(** ** Lists *)
Lemma increasing_snoc : forall (c : desc) x, c <> [] -> increasing c -> (fst (last_of c) < fst x)%Z -> increasing (c ++ [x]).
Proof.
  unfold last_of. induction c as [|a c IH]; intros x N I L; [contradiction|]. destruct c as [|b c].
  - cbn in *. auto.
  - cbn [app increasing] in *. destruct I as [I1 I2]. split; auto. apply (IH x); [discriminate|auto|exact L].
Qed.
Lemma increasing_in : forall (c : desc) x y, increasing (x :: c) -> In y c -> (fst x < fst y)%Z.
Proof.
  induction c as [|a c IH]; intros x y I H; [contradiction|]. cbn [increasing] in I. destruct I as [I1 I2].
  destruct H as [<-|H]; auto. assert (fst a < fst y)%Z by (apply IH; auto). lia.
Qed.
Lemma increasing_last : forall (c : desc) y, increasing c -> In y c -> (fst y <= fst (last_of c))%Z.
Proof.
  unfold last_of. induction c as [|a c IH]; intros y I H; [contradiction|]. destruct c as [|b c].
  - destruct H as [<-|[]]. cbn. lia.
  - change (last (a :: b :: c) nothing) with (last (b :: c) nothing). destruct H as [<-|H].
    + assert (In (last (b :: c) nothing) (b :: c)).
      { destruct (exists_last (l := b :: c)) as [r [z E]]; [discriminate|]. rewrite E, last_last. apply in_or_app. right. left. reflexivity. }
      pose proof (increasing_in _ _ _ I H). lia.
    + apply IH; auto. cbn [increasing] in I. apply I.
Qed.
Lemma increasing_first : forall (c : desc) y, increasing c -> In y c -> (fst (first_of c) <= fst y)%Z.
Proof.
  intros [|a c] y I H; [contradiction|]. cbn [first_of hd]. destruct H as [<-|H]; [lia|]. pose proof (increasing_in _ _ _ I H). lia.
Qed.
Lemma last_in : forall (c : desc), c <> [] -> In (last_of c) c.
Proof.
  intros c N. destruct (exists_last N) as [r [z E]]. rewrite E. unfold last_of. rewrite last_last. apply in_or_app. right. left. reflexivity.
Qed.
Lemma first_in : forall (c : desc), c <> [] -> In (first_of c) c.
Proof. intros [|a c] N; [contradiction|]. left. reflexivity. Qed.
Lemma last_app1 : forall (c : desc) x, last_of (c ++ [x]) = x.
Proof. intros. unfold last_of. apply last_last. Qed.
Lemma first_app1 : forall (c : desc) x, c <> [] -> first_of (c ++ [x]) = first_of c.
Proof. intros [|a c] x N; [contradiction|]. reflexivity. Qed.

Lemma first_last : forall (c : desc), increasing c -> (2 <= length c)%nat -> (fst (first_of c) < fst (last_of c))%Z.
Proof.
  intros [|x [|y c]] H L; cbn in L; try lia. change (first_of (x :: y :: c)) with x. apply (increasing_in (y :: c) x); auto.
  change (last_of (x :: y :: c)) with (last_of (y :: c)). apply last_in. discriminate.
Qed.
Lemma in_same : forall (c : desc) x y, increasing c -> In x c -> In y c -> fst x = fst y -> x = y.
Proof.
  induction c as [|a c IH]; intros x y I Hx Hy E; [contradiction|]. destruct Hx as [<-|Hx], Hy as [<-|Hy]; auto.
  - pose proof (increasing_in _ _ _ I Hy). lia.
  - pose proof (increasing_in _ _ _ I Hx). lia.
  - apply IH; auto. cbn [increasing] in I. apply I.
Qed.

(** ** Fitting *)
Definition end_height (d : desc) : num A :=
  let m := fit S (map snd d) in add A (mul A (fst m) (fst (snd (last_of d)))) (snd m).
Fixpoint final (h : num A) (ds : list desc) : num A := match ds with [] => h | d :: r => final (end_height d) r end.
Lemma chained_snoc : forall ds h d, chained S h ds ->
  ltb A (absv A (sub A (snd (snd (first_of d))) (final h ds))) (max_start S) = true -> chained S h (ds ++ [d]).
Proof.
  induction ds as [|x ds IH]; intros h d C H; cbn [app chained final] in *.
  - split; auto.
  - destruct C as [C1 C2]. split; auto.
Qed.
Lemma final_snoc : forall ds h d, final h (ds ++ [d]) = end_height d.
Proof. induction ds as [|x ds IH]; intros h d; cbn [app final]; auto. Qed.

(** The lowest points as the grids have them. *)
Definition glow (g : grids (A:=A)) (s : Z) (b : Z) (q : pt) : Prop := g_pts (g s b) <> [] /\ g_min (g s b) = Some q.
Section Segment.
Variable g : grids (A:=A).
Variable s : Z.

Lemma gap_snoc : forall (c : desc) z, c <> [] -> spans_gap S (c ++ [z]) ->
  spans_gap S c \/ leb A (long_line S) (sub A (fst (snd z)) (fst (snd (last_of c)))) = true.
Proof.
  intros c z Ne [l1 [x [y [l2 [E H]]]]]. destruct l2 as [|w l2 _] using rev_ind.
  - right. change (x :: [y]) with ([x] ++ [y]) in E. rewrite app_assoc in E. apply app_inj_tail in E. destruct E as [-> ->].
    rewrite last_app1. exact H.
  - left. rewrite !app_comm_cons, app_assoc in E. apply app_inj_tail in E. destruct E as [-> _]. exists l1, x, y, l2. auto.
Qed.
Lemma gap_one : forall z, ~ spans_gap S [z].
Proof. intros z [l1 [x [y [l2 [E _]]]]]. destruct l1 as [|a [|b l1]]; discriminate. Qed.
Lemma steady_snoc : forall (c : desc) z, steady S c -> (spans_gap S (c ++ [z]) ->
    (2 <= length c)%nat /\
    let m := fit S (map snd c) in
    let expected := if (2 <? length c)%nat then add A (mul A (fst m) (fst (snd z))) (snd m) else flt_max A in
    ltb A (long_height S) (absv A (sub A expected (snd (snd z)))) = false) -> steady S (c ++ [z]).
Proof.
  intros c z Sc H pre y post E G. destruct post as [|w post _] using rev_ind.
  - apply app_inj_tail in E. destruct E as [<- <-]. auto.
  - rewrite app_comm_cons, app_assoc in E. apply app_inj_tail in E. destruct E as [E _]. eapply Sc; eauto.
Qed.
Lemma steady_one : forall z, steady S [z].
Proof.
  intros z pre y post E G. exfalso. destruct pre as [|a pre]; [|destruct pre; discriminate]. exact (gap_one _ G).
Qed.

Record inv (i : Z) (st : state) (ds : list desc) (c : desc) : Prop := {
  i_pts : map snd c = all_pts st;
  i_low : Forall (lowest S (glow g s)) c;
  i_inc : increasing c;
  i_lt : Forall (fun x => (fst x < i)%Z) c;
  i_all : forall b, (fst (first_of c) <= b < i)%Z -> g_pts (g s b) <> [] -> In b (map fst c);
  i_cur : (3 <= length c)%nat -> cur st = fit S (map snd c) /\ accepted S c;
  i_start : (2 <= length c)%nat -> ltb A (absv A (sub A (snd (snd (first_of c))) (ground st))) (max_start S) = true;
  i_found : Forall2 (is_line S (glow g s)) ds (found st);
  i_dlt : Forall (Forall (fun x => (fst x < i)%Z)) ds;
  i_chain : chained S (start_height S) ds;
  i_ground : ground st = final (start_height S) ds;
  i_long : spans_gap S c -> is_long st = true;
  i_steady : steady S c }.

Lemma c_nonempty : forall (c : desc) (st : state (A:=A)), map snd c = all_pts st -> c <> [].
Proof. intros c st E ->. unfold all_pts in E. destruct (rev (prev st)); discriminate. Qed.
Lemma c_last : forall (c : desc) (st : state (A:=A)), map snd c = all_pts st -> snd (last_of c) = back st.
Proof.
  intros c st E. destruct (exists_last (c_nonempty c st E)) as [r [z Ez]]. rewrite Ez in *. rewrite last_app1.
  unfold all_pts in E. rewrite map_app in E. apply app_inj_tail in E. destruct E as [_ E]. exact E.
Qed.
Lemma c_length : forall (c : desc) (st : state (A:=A)), map snd c = all_pts st -> length c = Datatypes.S (length (prev st)).
Proof.
  intros c st E. rewrite <- (map_length snd c), E. unfold all_pts. rewrite app_length, rev_length. cbn. lia.
Qed.
Lemma c_first : forall (c : desc) (st : state (A:=A)), map snd c = all_pts st -> snd (first_of c) = first_pt st.
Proof.
  intros c st E. unfold all_pts in E. unfold first_pt. destruct c as [|a c]; [destruct (rev (prev st)); discriminate|]. cbn [first_of hd].
  destruct (prev st) as [|x p] using rev_ind.
  - cbn in E. injection E as E _. exact E.
  - rewrite rev_app_distr in E. cbn in E. injection E as E _. rewrite last_last. exact E.
Qed.

Lemma accepted_of : forall (c : desc) m, m = fit S (map snd c) ->
  ltb A (max_error S) (get_max_error (map snd c) m) = false -> ltb A (max_slope S) (absv A (fst m)) = false -> accepted S c.
Proof.
  intros c m -> E L. split; auto. apply max_error_spec in E. apply Forall_forall. intros x H.
  apply (proj1 (Forall_forall _ _) E). apply in_map. exact H.
Qed.

Lemma line_of : forall i st ds c, inv i st ds c -> (3 <= length c)%nat ->
  is_line S (glow g s) c (to_line (fit S (all_pts st)) (first_pt st) (back st)).
Proof.
  intros i st ds c I L. destruct I. split; [auto|split; [auto|split; [auto|split; [|split; [apply (i_cur0 L)|split; [auto|split]]]]]].
  - intros b q Hb [Hn _]. apply i_all0; auto. pose proof (increasing_last c (last_of c) i_inc0).
    assert (In (last_of c) c) by (apply last_in; eapply c_nonempty; eauto).
    pose proof (proj1 (Forall_forall _ _) i_lt0 _ H0). cbn in H1. lia.
  - rewrite (c_first _ _ i_pts0), i_pts0. reflexivity.
  - rewrite (c_last _ _ i_pts0), i_pts0. reflexivity.
Qed.

Lemma end_height_of : forall i st ds c, inv i st ds c -> end_height c = on_line (fit S (all_pts st)) (fst (back st)).
Proof. intros i st ds c I. destruct I. unfold end_height, on_line. rewrite (c_last _ _ i_pts0), i_pts0. reflexivity. Qed.

Lemma lt_weaken : forall (c : desc) i j, Forall (fun x => (fst x < i)%Z) c -> (i <= j)%Z -> Forall (fun x => (fst x < j)%Z) c.
Proof. intros c i j H L. eapply Forall_impl; [|exact H]. cbn. intros. lia. Qed.
Lemma lt_weaken2 : forall (ds : list desc) i j, Forall (Forall (fun x => (fst x < i)%Z)) ds -> (i <= j)%Z -> Forall (Forall (fun x => (fst x < j)%Z)) ds.
Proof. intros ds i j H L. eapply Forall_impl; [|exact H]. intros. eapply lt_weaken; eauto. Qed.

Lemma skip : forall i st ds c, inv i st ds c -> g_pts (g s i) = [] -> inv (i + 1) st ds c.
Proof.
  intros i st ds c [] E. constructor; auto.
  - eapply lt_weaken; eauto. lia.
  - intros b Hb Hn. apply i_all0; auto. destruct (Z.eq_dec b i) as [->|]; [contradiction|lia].
  - eapply lt_weaken2; eauto. lia.
Qed.

Lemma examine_inv : forall i st ds c q on st', inv i st ds c -> lowest S (glow g s) (i, q) -> examine S st q = (on, st') ->
  (on = true /\ ((inv (i + 1) st' ds (c ++ [(i, q)]) /\ is_long st' = (if leb A (long_line S) (sub A (fst q) (fst (back st))) then true else is_long st)
                 /\ ((2 <= length c)%nat \/ is_long st' = false)) \/
                 (inv (i + 1) st' ds [(i, q)] /\ length c = 1%nat /\ is_long st' = (if leb A (long_line S) (sub A (fst q) (fst (back st))) then true else is_long st)))) \/
  (on = false /\ (2 <= length c)%nat /\ is_long st' = false /\ back st' = back st /\
    (((3 <= length c)%nat /\ inv i st' (ds ++ [c]) [last_of c]) \/ (length c = 2%nat /\ inv i st' ds [last_of c]))).
Proof.
  intros i st ds c q on st' I Lq E. pose proof I as I0. destruct I. unfold examine in E.
  pose proof (c_length _ _ i_pts0) as Len. pose proof (c_nonempty _ _ i_pts0) as Ne. pose proof (c_last _ _ i_pts0) as La.
  pose proof (proj1 (Forall_forall _ _) i_lt0 _ (last_in c Ne)) as Ll. cbn in Ll.
  set (long := if leb A (long_line S) (sub A (fst q) (fst (back st))) then true else is_long st) in *.
  assert (Pts : map snd (c ++ [(i, q)]) = all_pts st ++ [q]) by (rewrite map_app, i_pts0; reflexivity).
  assert (Sl : spans_gap S (c ++ [(i, q)]) -> long = true).
  { intros G. apply gap_snoc in G; auto. rewrite La in G. cbn [fst snd] in G. unfold long. destruct G as [G|G]; [rewrite (i_long0 G); destruct (leb _ _ _); auto|rewrite G; auto]. }
  assert (Push : forall m, (2 <= length c)%nat -> m = fit S (all_pts st ++ [q]) ->
    ltb A (max_error S) (get_max_error (all_pts st ++ [q]) m) = false -> ltb A (max_slope S) (absv A (fst m)) = false ->
    long && ltb A (long_height S) (absv A (sub A (if long && (2 <? Datatypes.S (length (prev st)))%nat then on_line (cur st) (fst q) else flt_max A) (snd q))) = false ->
    inv (i + 1) (mkState q (back st :: prev st) m long (ground st) (found st)) ds (c ++ [(i, q)])).
  { intros m L Em Ee Es Eg. constructor; cbn [cur ground found]; auto.
    - apply Forall_app. split; auto.
    - apply increasing_snoc; auto.
    - apply Forall_app. split; [eapply lt_weaken; eauto; lia|]. constructor; auto. cbn. lia.
    - intros b Hb Hn. rewrite first_app1 in Hb by auto. rewrite map_app. apply in_or_app.
      destruct (Z.eq_dec b i) as [->|]; [right; left; reflexivity|left]. apply i_all0; auto. lia.
    - intros _. rewrite Pts. split; auto. apply (accepted_of _ m); rewrite ?Pts; auto.
    - intros _. rewrite first_app1 by auto. auto.
    - eapply lt_weaken2; eauto. lia.
    - apply steady_snoc; auto. intros G. split; auto. rewrite (Sl G) in Eg. cbn [andb fst snd] in *. rewrite Len.
      destruct (Nat.ltb_spec 2 (Datatypes.S (length (prev st)))) as [L2|L2]; [|exact Eg].
      destruct i_cur0 as [Ec _]; [lia|]. rewrite <- Ec. exact Eg. }
  assert (Restart : forall m, inv i (mkState (back st) [] m false (ground st) (found st)) ds [last_of c]).
  { intros m. constructor; cbn [cur ground found]; auto.
    - cbn. rewrite La. reflexivity.
    - constructor; auto. apply (proj1 (Forall_forall _ _) i_low0). apply last_in; auto.
    - cbn. auto.
    - intros b Hb Hn. cbn [first_of hd] in Hb. left. assert (K : In b (map fst c)).
      { apply i_all0; auto. pose proof (increasing_first c (last_of c) i_inc0 (last_in c Ne)). lia. }
      apply in_map_iff in K. destruct K as [x [Ex Hx]]. pose proof (increasing_last c x i_inc0 Hx). lia.
    - cbn. lia.
    - cbn. lia.
    - intros G. destruct (gap_one _ G).
    - apply steady_one. }
  destruct (Nat.leb_spec 2 (Datatypes.S (length (prev st)))) as [L2|L2].
  - set (m := fit S (all_pts st ++ [q])) in *.
    destruct (ltb A (max_error S) (get_max_error (all_pts st ++ [q]) m)) eqn:Ee; cbn [orb] in E.
    2: destruct (ltb A (max_slope S) (absv A (fst m))) eqn:Es; cbn [orb] in E.
    3: match type of E with context [if ?x then _ else _] => destruct x eqn:Eg end.
    4: { inversion E; subst on st'; clear E. left. split; auto. left. cbn [is_long]. split; [apply Push; auto; lia|]. split; auto. left. lia. }
    all: right; destruct (Nat.leb_spec 3 (Datatypes.S (length (prev st)))) as [L3|L3]; inversion E; subst on st'; clear E;
      (split; [reflexivity|]); (split; [lia|]); (split; [reflexivity|]); (split; [reflexivity|]).
    all: try (right; split; [lia|apply Restart]).
    all: left; split; [lia|]; specialize (Restart m); destruct Restart; constructor; auto; cbn [found ground cur] in *; auto.
    all: try (cbn; lia).
    all: try (apply Forall2_app; [exact i_found0|constructor; [|constructor]]; eapply line_of; eauto; lia).
    all: try (apply Forall_app; split; auto; fail).
    all: try (apply chained_snoc; auto; rewrite <- i_ground0; apply i_start0; lia).
    all: rewrite final_snoc; symmetry; eapply end_height_of; eauto.
  - left. destruct (negb long && ltb A (absv A (sub A (snd (back st)) (ground st))) (max_start S)) eqn:G; inversion E; subst on st'; clear E; (split; [reflexivity|]).
    + left. apply andb_prop in G. destruct G as [G1 G2]. cbn [is_long]. split; [|split; [reflexivity|right; destruct long; [discriminate|reflexivity]]].
      assert (L1 : length c = 1%nat) by lia. destruct c as [|x [|y c]]; try (cbn in L1; lia). cbn [last_of last] in La.
      constructor; cbn [cur ground found]; auto.
      * apply Forall_app. split; auto.
      * apply increasing_snoc; auto.
      * apply Forall_app. split; [eapply lt_weaken; eauto; lia|]. constructor; auto. cbn. lia.
      * intros b Hb Hn. rewrite first_app1 in Hb by auto. rewrite map_app. apply in_or_app.
        destruct (Z.eq_dec b i) as [->|]; [right; left; reflexivity|left]. apply i_all0; auto. lia.
      * cbn. lia.
      * intros _. cbn [app first_of hd]. rewrite La. exact G2.
      * eapply lt_weaken2; eauto. lia.
      * apply steady_snoc; auto. intros G. rewrite (Sl G) in G1. discriminate.
    + right. cbn [is_long]. split; [|split; [lia|reflexivity]]. constructor; cbn [cur ground found]; auto.
      * cbn. auto.
      * constructor; auto. cbn. lia.
      * intros b Hb Hn. cbn [first_of hd fst] in Hb. left. cbn. lia.
      * cbn. lia.
      * cbn. lia.
      * eapply lt_weaken2; eauto. lia.
      * intros G0. destruct (gap_one _ G0).
      * apply steady_one.
Qed.

(** ** The loop ends; gaps *)
Definition has_min : Prop := forall b, g_pts (g s b) <> [] -> exists q, g_min (g s b) = Some q.
Definition ggap (b b' : Z) (q q' : pt) : Prop :=
  lowest S (glow g s) (b, q) /\ lowest S (glow g s) (b', q') /\ (b < b')%Z /\ (forall x, (b < x < b')%Z -> g_pts (g s x) = []) /\
  leb A (long_line S) (sub A (fst q') (fst q)) = true.
Definition phase (b b' : Z) (i : Z) (st : state (A:=A)) (ds : list desc) (c : desc) : Prop :=
  (b' < i)%Z -> Exists (bridges b b') ds \/ (bridges b b' c /\ (3 <= length c)%nat) \/
    (is_long st = true /\ length c = 1%nat /\ Forall (fun d => (fst (first_of d) < b)%Z) ds).

Lemma lowest_inj : forall b q q', lowest S (glow g s) (b, q) -> lowest S (glow g s) (b, q') -> q = q'.
Proof. intros b q q' [_ [_ E]] [_ [_ E']]. cbn in *. congruence. Qed.

Lemma before_gap : forall b b' q q' x, ggap b b' q q' -> lowest S (glow g s) x -> (fst x < b')%Z -> (fst x <= b)%Z.
Proof.
  intros b b' q q' x [_ [_ [_ [N _]]]] [_ [K _]] L. destruct (Z.le_gt_cases (fst x) b); auto. exfalso. apply K. apply N. lia.
Qed.

Lemma at_gap : forall b b' q q' st ds c, ggap b b' q q' -> inv b' st ds c -> back st = q /\ In b (map fst c) /\ ((2 <= length c)%nat -> (fst (first_of c) < b)%Z).
Proof.
  intros b b' q q' st ds c G I. destruct I. pose proof (c_nonempty _ _ i_pts0) as Ne.
  pose proof (proj1 (Forall_forall _ _) i_low0 _ (first_in c Ne)) as F1. pose proof (proj1 (Forall_forall _ _) i_lt0 _ (first_in c Ne)) as F2. cbn in F2.
  pose proof (before_gap _ _ _ _ _ G F1 F2) as F3. pose proof G as [[G1 [G2 G3]] [_ [G4 _]]]. cbn [fst snd] in *.
  assert (B : In b (map fst c)) by (apply i_all0; auto; lia).
  apply in_map_iff in B. destruct B as [x [Ex Hx]].
  pose proof (proj1 (Forall_forall _ _) i_low0 _ (last_in c Ne)) as L1. pose proof (proj1 (Forall_forall _ _) i_lt0 _ (last_in c Ne)) as L2. cbn in L2.
  pose proof (before_gap _ _ _ _ _ G L1 L2) as L3. pose proof (increasing_last c x i_inc0 Hx) as L4.
  assert (E : fst (last_of c) = b) by lia. rewrite <- (c_last _ _ i_pts0). destruct (last_of c) as [bl ql] eqn:EL. cbn in E. subst bl. cbn [snd]. split; [|split].
  - apply (lowest_inj b); [exact L1|]. split; [exact G1|split; [exact G2|exact G3]].
  - apply in_map_iff. eauto.
  - intros L5. pose proof (first_last c i_inc0 L5) as L6. rewrite EL in L6. exact L6.
Qed.

Lemma found_before : forall b b' q q' st ds c, ggap b b' q q' -> inv b' st ds c -> Forall (fun d => (fst (first_of d) < b)%Z) ds.
Proof.
  intros b b' q q' st ds c G I. destruct I. apply Forall_forall. intros d Hd.
  pose proof (proj1 (Forall_forall _ _) i_dlt0 d Hd) as D1.
  assert (D2 : exists L, is_line S (glow g s) d L).
  { clear - i_found0 Hd. induction i_found0; [contradiction|]. destruct Hd as [<-|Hd]; eauto. }
  destruct D2 as [L [D2 [D3 [D4 _]]]]. assert (Ne : d <> []) by (destruct d; [cbn in D2; lia|discriminate]).
  pose proof (first_last d D4 ltac:(lia)) as K. eapply Z.lt_le_trans; [exact K|]. eapply before_gap; eauto.
  - apply (proj1 (Forall_forall _ _) D3). apply last_in; auto.
  - apply (proj1 (Forall_forall _ _) D1). apply last_in; auto.
Qed.

(** What one pass gives, with all gaps at once. *)
Lemma examine_step : forall i st ds c x on st', inv i st ds c -> lowest S (glow g s) (i, x) ->
  (forall b b' q q', ggap b b' q q' -> phase b b' i st ds c) -> examine S st x = (on, st') ->
  exists ds' c', inv (if on then i + 1 else i) st' ds' c' /\
    (forall b b' q q', ggap b b' q q' -> phase b b' (if on then i + 1 else i) st' ds' c') /\
    (on = false -> (2 <= length c)%nat /\ length c' = 1%nat).
Proof.
  intros i st ds c x on st' I Lx Ph E. destruct (examine_inv i st ds c x on st' I Lx E) as [[-> [[I' [Lo Sz]]|[I' [Lc Lo]]]]|[-> [L2 [Lo [Bk D]]]]].
  - exists ds, (c ++ [(i, x)]). split; auto. split; [|discriminate]. intros b b' q q' G Hi. specialize (Ph _ _ _ _ G).
    destruct (Z.eq_dec i b') as [->|Ni].
    + destruct (at_gap _ _ _ _ _ _ _ G I) as [Bq [Bc Bf]]. pose proof G as [_ [G2 [_ [_ G5]]]].
      assert (x = q') as -> by (eapply lowest_inj; eauto). rewrite Bq, G5 in Lo. right. left.
      assert (2 <= length c)%nat by (destruct Sz as [Sz|Sz]; auto; rewrite Sz in Lo; discriminate). split.
      * unfold bridges. rewrite map_app, first_app1 by (destruct c; [cbn in *; lia|discriminate]). split; auto.
        split; apply in_or_app; [left; auto|right; left; reflexivity].
      * rewrite app_length. cbn. destruct Sz as [Sz|Sz]; [lia|]. rewrite Sz in Lo. discriminate.
    + destruct Ph as [Ph|[[[Ph0 [Ph1 Ph1']] Ph2]|[Ph1 [Ph2 Ph3]]]]; [lia|left; auto| |].
      * right. left. split; [|rewrite app_length; lia]. unfold bridges. rewrite map_app, first_app1 by (destruct c; [cbn in *; lia|discriminate]). split; auto. split; apply in_or_app; left; auto.
      * exfalso. rewrite Ph1 in Lo. destruct Sz as [Sz|Sz]; [lia|]. rewrite Sz in Lo. destruct (leb _ _ _); discriminate.
  - exists ds, [(i, x)]. split; auto. split; [|discriminate]. intros b b' q q' G Hi. specialize (Ph _ _ _ _ G).
    destruct (Z.eq_dec i b') as [->|Ni].
    + destruct (at_gap _ _ _ _ _ _ _ G I) as [Bq [Bc Bf]]. pose proof G as [_ [G2 [_ [_ G5]]]].
      assert (x = q') as -> by (eapply lowest_inj; eauto). rewrite Bq, G5 in Lo. right. right. split; auto. split; [reflexivity|].
      eapply found_before; eauto.
    + destruct Ph as [Ph|[[_ Ph2]|[Ph1 [Ph2 Ph3]]]]; [lia|left; auto|lia|]. right. right. split; [|split; auto].
      rewrite Lo, Ph1. destruct (leb _ _ _); reflexivity.
  - destruct D as [[L3 I']|[L2' I']].
    + exists (ds ++ [c]), [last_of c]. split; auto. split; [|split; auto]. intros b b' q q' G Hi. specialize (Ph _ _ _ _ G Hi). left.
      apply Exists_app. destruct Ph as [Ph|[[Ph1 _]|[_ [Ph2 _]]]]; [left; auto|right; constructor; auto|lia].
    + exists ds, [last_of c]. split; auto. split; [|split; auto]. intros b b' q q' G Hi. specialize (Ph _ _ _ _ G Hi).
      destruct Ph as [Ph|[[_ Ph]|[_ [Ph _]]]]; [left; auto|lia|lia].
Qed.

Lemma loop_ends : has_min -> forall fuel i st ds c, (0 <= i <= bins S)%Z -> inv i st ds c ->
  (forall b b' q q', ggap b b' q q' -> phase b b' i st ds c) ->
  (2 * Z.to_nat (bins S - i) + (if Nat.leb 2 (length c) then 1 else 0) < fuel)%nat ->
  exists st' ds' c', loop S fuel g s i st = Some st' /\ inv (bins S) st' ds' c' /\
    (forall b b' q q', ggap b b' q q' -> phase b b' (bins S) st' ds' c').
Proof.
  intros Hm. induction fuel as [|f IH]; intros i st ds c Hi I Ph F; [lia|]. cbn [loop].
  destruct (Z.leb_spec (bins S) i) as [L|L].
  { assert (i = bins S) as -> by lia. eauto 8. }
  destruct (g_pts (g s i)) as [|y l] eqn:Gp.
  - apply (IH (i + 1)%Z st ds c); [lia|apply skip; auto| |].
    + intros b b' q q' G Hb. apply (Ph _ _ _ _ G). destruct (Z.eq_dec i b') as [->|]; [|lia]. destruct G as [_ [[_ [G _]] _]]. cbn in G. contradiction.
    + replace (Z.to_nat (bins S - i)) with (Datatypes.S (Z.to_nat (bins S - (i + 1)))) in F by lia. lia.
  - destruct (Hm i) as [q Eq]; [rewrite Gp; discriminate|]. rewrite Eq.
    destruct (examine S st q) as [on st'] eqn:E.
    assert (Lq : lowest S (glow g s) (i, q)) by (split; [cbn; lia|split; [cbn; rewrite Gp; discriminate|exact Eq]]).
    destruct (examine_step i st ds c q on st' I Lq Ph E) as [ds' [c' [I' [Ph' On]]]].
    destruct on.
    + apply (IH (i + 1)%Z st' ds' c'); auto; [lia|].
      replace (Z.to_nat (bins S - i)) with (Datatypes.S (Z.to_nat (bins S - (i + 1)))) in F by lia.
      destruct (Nat.leb 2 (length c')), (Nat.leb 2 (length c)); lia.
    + destruct (On eq_refl) as [L2 L1]. apply (IH i st' ds' c'); auto. rewrite L1. cbn [Nat.leb].
      destruct (Nat.leb_spec 2 (length c)); lia.
Qed.

Lemma first_bin_spec : forall n i, (i <= first_bin n g s i <= i + Z.of_nat n)%Z /\
  ((first_bin n g s i < i + Z.of_nat n)%Z -> g_pts (g s (first_bin n g s i)) <> []) /\
  (forall b, (i <= b < first_bin n g s i)%Z -> g_pts (g s b) = []).
Proof.
  induction n as [|n IH]; intros i; cbn [first_bin].
  - repeat split; intros; lia.
  - destruct (g_pts (g s i)) as [|y l] eqn:E.
    + destruct (IH (i + 1)%Z) as [H1 [H2 H3]]. repeat split; [lia|lia| |].
      * intros L. apply H2. lia.
      * intros b Hb. destruct (Z.eq_dec b i) as [->|]; auto. apply H3. lia.
    + repeat split; [lia|lia| |intros; lia]. intros _. rewrite E. discriminate.
Qed.

Lemma max_error_conv : forall l m x, Forall (fun q => ltb A x (error_of m q) = false) l -> ltb A x (zero A) = false -> ltb A x (get_max_error l m) = false.
Proof.
  intros l m x. unfold get_max_error. generalize (zero A). induction l as [|q l IH]; intros z F Z; cbn [fold_left]; auto.
  inversion F; subst. apply IH; auto. destruct (ltb A z (error_of m q)); auto.
Qed.

(** A floor is one line. *)
Lemma loop_floor : has_min -> floor_ S (glow g s) -> forall x0, lowest S (glow g s) x0 -> (forall b, (0 <= b < fst x0)%Z -> g_pts (g s b) = []) ->
  forall fuel i st c st', inv i st [] c -> first_of c = x0 -> is_long st = false -> (0 <= i <= bins S)%Z ->
  loop S fuel g s i st = Some st' -> exists c', inv (bins S) st' [] c' /\ first_of c' = x0.
Proof.
  intros Hm [Fs Fc Ff Fe] x0 Lx0 Bx0. induction fuel as [|f IH]; intros i st c st' I Ec Lo Hi E; [discriminate|]. cbn [loop] in E.
  destruct (Z.leb_spec (bins S) i) as [L|L].
  { assert (i = bins S) as -> by lia. inversion E; subst. eauto. }
  destruct (g_pts (g s i)) as [|y l] eqn:Gp.
  - apply (IH (i + 1)%Z st c st'); auto; [apply skip; auto|lia].
  - destruct (Hm i) as [q Eq]; [rewrite Gp; discriminate|]. rewrite Eq in E.
    destruct (examine S st q) as [on st1] eqn:Ex.
    assert (Lq : lowest S (glow g s) (i, q)) by (split; [cbn; lia|split; [cbn; rewrite Gp; discriminate|exact Eq]]).
    pose proof I as I0. destruct I. pose proof (c_nonempty _ _ i_pts0) as Ne. pose proof (c_length _ _ i_pts0) as Len.
    pose proof (proj1 (Forall_forall _ _) i_low0 _ (last_in c Ne)) as L1. pose proof (proj1 (Forall_forall _ _) i_lt0 _ (last_in c Ne)) as L2. cbn in L2.
    pose proof (increasing_first c _ i_inc0 (last_in c Ne)) as L3.
    assert (Cl : leb A (long_line S) (sub A (fst q) (fst (back st))) = false).
    { destruct (leb A (long_line S) (sub A (fst q) (fst (back st)))) eqn:G; auto. exfalso. apply (Fc (fst (last_of c)) i).
      exists (snd (last_of c)), q. split; [destruct (last_of c); exact L1|]. split; auto. split; auto. split.
      - intros b r Hb [Hn _]. assert (In b (map fst c)) as Hc by (apply i_all0; auto; lia). apply in_map_iff in Hc. destruct Hc as [z [<- Hz]].
        pose proof (increasing_last c z i_inc0 Hz). lia.
      - rewrite (c_last _ _ i_pts0). exact G. }
    destruct (examine_inv i st [] c q on st1 I0 Lq Ex) as [[-> [[I' [Lo' Sz]]|[I' [Lc Lo']]]]|[-> [Ls [Lo' [Bk D]]]]].
    + apply (IH (i + 1)%Z st1 (c ++ [(i, q)]) st'); auto; [rewrite first_app1; auto|rewrite Lo', Cl; exact Lo|lia].
    + exfalso. unfold examine in Ex. rewrite Cl, Lo in Ex. cbn [andb negb] in Ex.
      assert (Lp : length (prev st) = 0%nat) by lia. rewrite Lp in Ex. cbn [Nat.leb] in Ex.
      assert (Bs : ltb A (absv A (sub A (snd (back st)) (ground st))) (max_start S) = true).
      { rewrite i_ground0. change (final (start_height S) []) with (start_height S).
        rewrite <- (c_last _ _ i_pts0). destruct c as [|z [|z' c]]; cbn in Lc; try lia. cbn in Ec. subst z. cbn [last_of last].
        apply (Fs x0); auto. intros b r Hb [Hn _]. apply Hn. apply Bx0. exact Hb. }
      rewrite Bs in Ex. inversion Ex; subst st1. pose proof (c_length _ _ (i_pts _ _ _ _ I')) as K. cbn in K. rewrite Lp in K. lia.
    + exfalso. unfold examine in Ex. rewrite Cl, Lo in Ex. cbn [andb negb] in Ex. rewrite <- Len in Ex.
      destruct (Nat.leb_spec 2 (length c)); [|lia].
      assert (Ac : accepted S (c ++ [(i, q)])).
      { apply Ff.
        - rewrite app_length. cbn. lia.
        - apply Forall_app. auto.
        - apply increasing_snoc; auto.
        - rewrite last_app1. cbn [fst]. intros b r Hb [Hn _]. rewrite map_app. apply in_or_app. destruct (Z.eq_dec b i) as [->|]; [right; left; reflexivity|].
          left. apply i_all0; auto. rewrite Ec. destruct (Z.lt_ge_cases b (fst x0)); [|lia]. exfalso. apply Hn. apply Bx0. lia. }
      destruct Ac as [Ac1 Ac2]. rewrite map_app, i_pts0 in Ac1, Ac2. cbn [map snd] in Ac1, Ac2.
      rewrite max_error_conv in Ex; auto.
      * rewrite Ac2 in Ex. cbn [orb] in Ex. discriminate.
      * rewrite <- i_pts0. change [q] with (map snd [(i, q)]). rewrite <- map_app. apply Forall_forall. intros z Hz. apply in_map_iff in Hz. destruct Hz as [w [<- Hw]].
        rewrite map_app, i_pts0. exact (proj1 (Forall_forall _ _) Ac1 w Hw).
Qed.

Lemma ggap_of : has_min -> forall b b', gapped S (glow g s) b b' -> exists q q', ggap b b' q q'.
Proof.
  intros Hm b b' [q [q' [G1 [G2 [G3 [G4 G5]]]]]]. exists q, q'. repeat split; try apply G1; try apply G2; auto.
  intros x Hx. destruct (g_pts (g s x)) eqn:E; auto. exfalso. destruct (Hm x) as [r Hr]; [rewrite E; discriminate|]. apply (G4 x r Hx). split; auto. rewrite E. discriminate.
Qed.

Lemma fit_lines_spec : has_min -> (0 < bins S)%Z -> exists ls, fit_lines S g s = Ok ls /\ lines S (glow g s) ls.
Proof.
  intros Hm Hb. unfold fit_lines. set (i := first_bin (Z.to_nat (bins S)) g s 0).
  destruct (first_bin_spec (Z.to_nat (bins S)) 0) as [F1 [F2 F3]]. fold i in F1, F2, F3.
  destruct (Z.leb_spec (bins S - 1) i) as [L|L].
  { exists []. split; auto. split; [exists []; split; [constructor|split; [exact I|intros b b' d _ []]]|]. intros _ [x [y [z [Lx [Ly [Lz K]]]]]]. exfalso.
    assert (H : forall w, lowest S (glow g s) w -> (i <= fst w)%Z).
    { intros w [W1 [W2 _]]. destruct (Z.le_gt_cases i (fst w)); auto. exfalso. apply W2. apply F3. lia. }
    pose proof (H x Lx). destruct Lz as [Lz _]. lia. }
  assert (Ne : g_pts (g s i) <> []) by (apply F2; lia). destruct (Hm i Ne) as [q Eq]. rewrite Eq.
  set (st := mkState q [] (zero A, zero A) false (start_height S) []).
  assert (I : inv (i + 1) st [] [(i, q)]).
  { constructor; cbn; auto; try lia.
    - constructor; auto. split; cbn; [lia|split; auto].
    - constructor; auto. cbn. lia.
    - intros G. destruct (gap_one _ G).
    - apply steady_one. }
  assert (Li : lowest S (glow g s) (i, q)) by (split; cbn; [lia|split; auto]).
  destruct (loop_ends Hm (2 * Z.to_nat (bins S) + 2) (i + 1) st [] [(i, q)]) as [st' [ds [c [E [I' Ph]]]]]; auto; [lia| |cbn [length Nat.leb]; lia|].
  - intros b b' qb qb' G Hg. destruct G as [[G1 [G2 G3]] [[G4 [G5 _]] [G6 _]]]. cbn [fst snd] in *.
    exfalso. assert (i <= b)%Z. { destruct (Z.le_gt_cases i b); auto. exfalso. apply G2. apply F3. lia. } lia.
  - rewrite E.
    assert (Fl : floor_ S (glow g s) -> exists c', inv (bins S) st' [] c' /\ first_of c' = (i, q)).
    { intros Fl. apply (loop_floor Hm Fl (i, q) Li F3 _ _ _ _ _ I eq_refl eq_refl ltac:(lia) E). }
    assert (All : forall c', inv (bins S) st' [] c' -> first_of c' = (i, q) -> forall b r, (0 <= b < bins S)%Z -> glow g s b r -> In b (map fst c')).
    { intros c' Ic Ec b r Hbb [Hn _]. apply Ic; auto. rewrite Ec. cbn [fst]. destruct (Z.lt_ge_cases b i); [|lia]. exfalso. apply Hn. apply F3. lia. }
    eexists. split; [reflexivity|]. split.
    + pose proof (c_length c st' (i_pts _ _ _ _ I')) as Lc. rewrite <- Lc. destruct (Nat.ltb_spec 2 (length c)) as [L2|L2].
      * exists (ds ++ [c]). split; [|split].
        -- apply Forall2_app; [apply I'|]. constructor; [|constructor]. eapply line_of; eauto.
        -- apply chained_snoc; [apply I'|]. rewrite <- (i_ground _ _ _ _ I'). apply I'. lia.
        -- intros b b' d G Hd Hf. destruct (ggap_of Hm _ _ G) as [qb [qb' G']]. assert (Hb' : (b' < bins S)%Z) by (destruct G' as [_ [[G' _] _]]; cbn in G'; lia).
           destruct (Ph _ _ _ _ G' Hb') as [K|[[K _]|[_ [K _]]]]; [apply Exists_app; left; auto|apply Exists_app; right; constructor; auto|lia].
      * exists ds. split; [apply I'|split; [apply I'|]].
        intros b b' d G Hd Hf. destruct (ggap_of Hm _ _ G) as [qb [qb' G']]. assert (Hb' : (b' < bins S)%Z) by (destruct G' as [_ [[G' _] _]]; cbn in G'; lia).
        destruct (Ph _ _ _ _ G' Hb') as [K|[[_ K]|[_ [_ K]]]]; [auto|lia|].
        pose proof (proj1 (Forall_forall _ _) K d Hd). cbn in H. lia.
    + intros Ff [x [y [z [Lx [Ly [Lz K]]]]]]. destruct (Fl Ff) as [c' [Ic Ec]]. pose proof (All c' Ic Ec) as Ac.
      assert (L3 : (3 <= length c')%nat).
      { assert (Hx : In (fst x) (map fst c')) by (apply (Ac _ (snd x)); apply Lx). assert (Hy : In (fst y) (map fst c')) by (apply (Ac _ (snd y)); apply Ly).
        assert (Hz : In (fst z) (map fst c')) by (apply (Ac _ (snd z)); apply Lz). clear - Hx Hy Hz K. rewrite <- (map_length fst c').
        assert (Inc : incl [fst x; fst y; fst z] (map fst c')) by (intros w [<-|[<-|[<-|[]]]]; auto). apply NoDup_incl_length in Inc; auto.
        repeat constructor; cbn; lia. }
      pose proof (c_length c' st' (i_pts _ _ _ _ Ic)) as Lc. rewrite <- Lc. destruct (Nat.ltb_spec 2 (length c')); [|lia].
      exists c'. eexists. split; [|split; [eapply line_of; eauto|exact Ac]].
      pose proof (i_found _ _ _ _ Ic) as Fo. inversion Fo. reflexivity.
Qed.
End Segment.

(** ** The grids *)
Notation placed := (list (P * option (Z * Z))).
Lemma places_spec : forall l ps, places S l = Ok ps -> Forall2 (fun p x => fst x = p /\ place S p = Ok (snd x)) l ps.
Proof.
  induction l as [|p l IH]; intros ps H; cbn [places] in H.
  - inversion H; subst. constructor.
  - destruct (place S p) as [a| | |] eqn:E; try discriminate. destruct (places S l) as [r| | |]; try discriminate. cbn [bind] in H.
    inversion H; subst. constructor; auto.
Qed.
Lemma places_nth : forall l ps, places S l = Ok ps -> forall i p a, nth_error ps i = Some (p, a) -> nth_error l i = Some p /\ place S p = Ok a.
Proof.
  intros l ps H. apply places_spec in H. induction H as [|p x l ps [H1 H2] H IH]; intros i q a E; [destruct i; discriminate|].
  destruct i as [|i]; cbn [nth_error] in *; [|auto]. inversion E; subst. cbn in *. subst. auto.
Qed.
Lemma places_nth' : forall l ps, places S l = Ok ps -> forall i p, nth_error l i = Some p -> exists a, nth_error ps i = Some (p, a) /\ place S p = Ok a.
Proof.
  intros l ps H. apply places_spec in H. induction H as [|p x l ps [H1 H2] H IH]; intros i q E; [destruct i; discriminate|].
  destruct i as [|i]; cbn [nth_error] in *; [|auto]. inversion E; subst. exists (snd x). destruct x. cbn in *. subst. auto.
Qed.
Lemma place_range : forall p s b, (0 < bins S)%Z -> (0 < segs S)%Z -> place S p = Ok (Some (s, b)) -> (0 <= s < segs S /\ 0 <= b < bins S)%Z.
Proof.
  intros p s b B G H. unfold place in H. destruct (_ && _); [discriminate|]. destruct (sector S p) as [x| | |]; try discriminate. cbn [bind] in H.
  destruct (ring S (range S p)) as [y| | |]; try discriminate. cbn [bind] in H. inversion H; subst. unfold clamp.
  destruct (Z.leb_spec (segs S) x), (Z.ltb_spec x 0), (Z.leb_spec (bins S) y), (Z.ltb_spec y 0); lia.
Qed.

Record ginv (ps : placed) (n : nat) (g : grids (A:=A)) : Prop := {
  g_from : forall s b j q, In (j, q) (g_pts (g s b)) -> (j < n)%nat /\ exists p, nth_error ps j = Some (p, Some (s, b)) /\ q = (range S p, height S p);
  g_some : forall s b m, g_min (g s b) = Some m -> exists j p, (j < n)%nat /\ nth_error ps j = Some (p, Some (s, b)) /\ m = (range S p, height S p);
  g_low : forall s b j p, (j < n)%nat -> nth_error ps j = Some (p, Some (s, b)) ->
          exists m, g_min (g s b) = Some m /\ ltb A (height S p) (snd m) = false;
  g_empty : forall s b j p, (j < n)%nat -> nth_error ps j = Some (p, Some (s, b)) -> g_pts (g s b) = [] -> ~ comparable A (height S p);
  g_nodup : forall s b, NoDup (map fst (g_pts (g s b)));
  g_has : forall s b, g_pts (g s b) <> [] -> g_min (g s b) <> None }.

Lemma ginv_empty : forall ps, ginv ps 0 (fun _ _ => no_grid).
Proof. intros ps. constructor; cbn; try contradiction; try discriminate; try lia. constructor. Qed.
Lemma set_same : forall (g : grids (A:=A)) s b x, set_grid g s b x s b = x.
Proof. intros. unfold set_grid. rewrite !Z.eqb_refl. reflexivity. Qed.
Lemma set_other : forall (g : grids (A:=A)) s b x s' b', s' <> s \/ b' <> b -> set_grid g s b x s' b' = g s' b'.
Proof.
  intros g s b x s' b' H. unfold set_grid. destruct (Z.eqb_spec s' s), (Z.eqb_spec b' b); cbn; auto. exfalso. destruct H; contradiction.
Qed.

Lemma ginv_insert : forall ps n g p a, ginv ps n g -> nth_error ps n = Some (p, a) -> ginv ps (Datatypes.S n) (insert S g n p a).
Proof.
  intros ps n g p a G E. destruct a as [[s b]|]; cbn [insert].
  2: { destruct G. constructor; auto.
    - intros s b j q H. destruct (g_from0 s b j q H) as [H1 H2]. split; auto.
    - intros s b m H. destruct (g_some0 s b m H) as [j [q [H1 H2]]]. exists j, q. split; auto.
    - intros s b j q H1 H2. apply (g_low0 s b j); auto. destruct (Nat.eq_dec j n) as [->|]; [rewrite E in H2; discriminate|lia].
    - intros s b j q H1 H2. apply (g_empty0 s b j); auto. destruct (Nat.eq_dec j n) as [->|]; [rewrite E in H2; discriminate|lia]. }
  set (q := (range S p, height S p)). cbn [snd fst]. destruct G.
  set (m := match g_min (g s b) with
            | Some m => if match g_pts (g s b) with [] => true | _ => false end || ltb A (height S p) (snd m) then q else m
            | None => q end).
  set (pts := if near A (height S p) (snd m) then g_pts (g s b) ++ [(n, q)] else g_pts (g s b)).
  change (ginv ps (Datatypes.S n) (set_grid g s b (mkGrid (Some m) pts))).
  assert (M : m = q \/ g_min (g s b) = Some m).
  { unfold m. destruct (g_min (g s b)); auto. destruct (_ || _); auto. }
  assert (Lp : ltb A (height S p) (snd m) = false).
  { unfold m. destruct (g_min (g s b)) as [m0|]; [|apply lt_irrefl, Ord]. destruct (ltb A (height S p) (snd m0)) eqn:L.
    - rewrite orb_true_r. apply lt_irrefl, Ord.
    - rewrite orb_false_r. destruct (g_pts (g s b)); [apply lt_irrefl, Ord|exact L]. }
  constructor.
  - intros s' b' j r H. destruct (Z.eq_dec s' s) as [->|Ns]; [destruct (Z.eq_dec b' b) as [->|Nb]|].
    + rewrite set_same in H. cbn [g_pts] in H. assert (K : In (j, r) (g_pts (g s b)) \/ (j, r) = (n, q)).
      { unfold pts in H. destruct (near _ _ _); auto. apply in_app_or in H. destruct H as [H|[H|[]]]; auto. }
      destruct K as [K|K]; [destruct (g_from0 s b j r K); auto|]. inversion K; subst. split; [lia|]. exists p. auto.
    + rewrite set_other in H by auto. destruct (g_from0 s b' j r H); auto.
    + rewrite set_other in H by auto. destruct (g_from0 s' b' j r H); auto.
  - intros s' b' m' H. destruct (Z.eq_dec s' s) as [->|Ns]; [destruct (Z.eq_dec b' b) as [->|Nb]|].
    + rewrite set_same in H. cbn [g_min] in H. inversion H; subst m'. destruct M as [M|M].
      * exists n, p. repeat split; auto.
      * destruct (g_some0 s b m M) as [j [r [K1 K2]]]. exists j, r. split; [lia|auto].
    + rewrite set_other in H by auto. destruct (g_some0 s b' m' H) as [j [r [K1 K2]]]. exists j, r. split; [lia|auto].
    + rewrite set_other in H by auto. destruct (g_some0 s' b' m' H) as [j [r [K1 K2]]]. exists j, r. split; [lia|auto].
  - intros s' b' j r H1 H2. destruct (Z.eq_dec s' s) as [->|Ns]; [destruct (Z.eq_dec b' b) as [->|Nb]|].
    + rewrite set_same. cbn [g_min]. exists m. split; auto. destruct (Nat.eq_dec j n) as [->|Nj].
      * rewrite E in H2. inversion H2; subst. exact Lp.
      * destruct (g_low0 s b j r) as [m0 [K1 K2]]; [lia|auto|]. unfold m. rewrite K1.
        destruct (g_pts (g s b)) eqn:Gp; cbn [orb].
        { assert (NC : ~ comparable A (height S r)) by (apply (g_empty0 s b j); auto; lia).
          destruct (ltb A (height S r) (snd q)) eqn:L; auto. exfalso. apply NC. left. eauto. }
        destruct (ltb A (height S p) (snd m0)) eqn:L; auto.
        destruct (ltb A (height S r) (snd q)) eqn:L'; auto. cbn [snd q] in L'. rewrite (lt_trans A Ord _ _ _ L' L) in K2. discriminate.
    + rewrite set_other by auto. apply (g_low0 s b' j); auto. destruct (Nat.eq_dec j n) as [->|]; [rewrite E in H2; inversion H2; congruence|lia].
    + rewrite set_other by auto. apply (g_low0 s' b' j); auto. destruct (Nat.eq_dec j n) as [->|]; [rewrite E in H2; inversion H2; congruence|lia].
  - intros s' b' j r H1 H2 H3. destruct (Z.eq_dec s' s) as [->|Ns]; [destruct (Z.eq_dec b' b) as [->|Nb]|].
    + rewrite set_same in H3. cbn [g_pts] in H3. unfold pts in H3. destruct (near A (height S p) (snd m)) eqn:Nr; [apply app_eq_nil in H3; destruct H3; discriminate|].
      destruct (Nat.eq_dec j n) as [->|Nj]; [|apply (g_empty0 s b j); auto; lia].
      rewrite E in H2. inversion H2; subst r. intros C. unfold m in Nr. rewrite H3 in Nr. cbn [orb] in Nr.
      assert (near A (height S p) (height S p) = true) by (apply near_self; auto).
      destruct (g_min (g s b)); cbn [snd q] in Nr; congruence.
    + rewrite set_other in H3 by auto. apply (g_empty0 s b' j); auto. destruct (Nat.eq_dec j n) as [->|]; [rewrite E in H2; inversion H2; congruence|lia].
    + rewrite set_other in H3 by auto. apply (g_empty0 s' b' j); auto. destruct (Nat.eq_dec j n) as [->|]; [rewrite E in H2; inversion H2; congruence|lia].
  - intros s' b'. destruct (Z.eq_dec s' s) as [->|Ns]; [destruct (Z.eq_dec b' b) as [->|Nb]|].
    + rewrite set_same. cbn [g_pts]. unfold pts. destruct (near _ _ _); auto. rewrite map_app. cbn [map fst].
      pose proof (NoDup_rev (g_nodup0 s b)) as D. rewrite <- (rev_involutive (map fst _ ++ _)), rev_unit. apply NoDup_rev. constructor; auto.
      rewrite <- in_rev. intros H. apply in_map_iff in H. destruct H as [[j r] [H1 H2]]. cbn in H1. subst j. destruct (g_from0 s b n r H2). lia.
    + rewrite set_other by auto. auto.
    + rewrite set_other by auto. auto.
  - intros s' b'. destruct (Z.eq_dec s' s) as [->|Ns]; [destruct (Z.eq_dec b' b) as [->|Nb]|].
    + rewrite set_same. cbn. discriminate.
    + rewrite set_other by auto. auto.
    + rewrite set_other by auto. auto.
Qed.

Lemma ginv_all : forall l pre g, ginv (pre ++ l) (length pre) g -> ginv (pre ++ l) (length (pre ++ l)) (insert_all S g (length pre) l).
Proof.
  induction l as [|[p a] l IH]; intros pre g G; cbn [insert_all].
  - rewrite app_nil_r in *. exact G.
  - replace (pre ++ (p, a) :: l) with ((pre ++ [(p, a)]) ++ l) in * by (rewrite <- app_assoc; reflexivity).
    specialize (IH (pre ++ [(p, a)]) (insert S g (length pre) p a)). rewrite (app_length pre) in IH. cbn [length] in IH.
    rewrite Nat.add_1_r in IH. apply IH. apply ginv_insert; auto. rewrite <- app_assoc. rewrite nth_error_app2, Nat.sub_diag by lia. reflexivity.
Qed.

(** The grids in terms of the cloud. *)
Lemma set_input_spec : forall l g, set_input S l = Ok g ->
  (forall s b j q, In (j, q) (g_pts (g s b)) -> exists p, in_cell S l s b j p /\ q = (range S p, height S p)) /\
  (forall s b m, g_min (g s b) = Some m -> exists j p, in_cell S l s b j p /\ m = (range S p, height S p)) /\
  (forall s b j p, in_cell S l s b j p -> exists m, g_min (g s b) = Some m /\ ltb A (height S p) (snd m) = false) /\
  (forall s b j p, in_cell S l s b j p -> comparable A (height S p) -> g_pts (g s b) <> []) /\
  (forall s b, NoDup (map fst (g_pts (g s b)))) /\
  (forall s b, g_pts (g s b) <> [] -> g_min (g s b) <> None).
Proof.
  intros l g H. unfold set_input in H. destruct (places S l) as [ps| | |] eqn:E; try discriminate. cbn [bind] in H. inversion H; subst g; clear H.
  pose proof (ginv_all ps [] _ (ginv_empty ([] ++ ps))) as G. cbn [app length] in G. destruct G.
  assert (C : forall s b j p, in_cell S l s b j p -> nth_error ps j = Some (p, Some (s, b)) /\ (j < length ps)%nat).
  { intros s b j p [H1 H2]. destruct (places_nth' l ps E j p H1) as [a [H3 H4]]. rewrite H2 in H4. inversion H4; subst. split; auto. apply nth_error_Some. rewrite H3. discriminate. }
  repeat split; auto.
  - intros s b j q H. destruct (g_from0 s b j q H) as [_ [p [H1 H2]]]. exists p. split; auto. apply (places_nth l ps E j p _ H1).
  - intros s b m H. destruct (g_some0 s b m H) as [j [p [_ [H1 H2]]]]. exists j, p. split; auto. apply (places_nth l ps E j p _ H1).
  - intros s b j p H. destruct (C _ _ _ _ H). eauto.
  - intros s b j p H Cm K. destruct (C _ _ _ _ H). eapply g_empty0; eauto.
Qed.

(** ** Distances *)
Lemma covers_over : forall L q, covers (A:=A) L q = true <-> over L q.
Proof. intros. unfold covers, over. apply andb_true_iff. Qed.
Definition proper (l : line (A:=A)) : Prop := ltb A (fst (l_start l)) (fst (l_end l)) = true.
Lemma vertical_spec : forall ls q d, Forall proper ls ->
  (exists L, vertical q ls d = Ok (distance L q) /\ counts ls q L) \/ (vertical q ls d = Ok d /\ uncovered ls q).
Proof.
  induction ls as [|l ls IH]; intros q d F; cbn [vertical].
  - right. split; auto. intros L [].
  - inversion F; subst. unfold proper in H1. rewrite H1. destruct (IH q (if covers l q then gap l q else d) H2) as [[L [E C]]|[E U]].
    + left. exists L. split; auto. destruct C as [l1 [l2 [-> C]]]. exists (l :: l1), l2. auto.
    + destruct (covers l q) eqn:Cv.
      * left. exists l. split; auto. exists [], ls. split; auto. split; [apply covers_over; auto|exact U].
      * right. split; auto. intros L [<-|HL]; [rewrite <- covers_over, Cv; discriminate|auto].
Qed.
Lemma counts_unique : forall (ls : list (line (A:=A))) q L L', counts ls q L -> counts ls q L' -> L = L'.
Proof.
  induction ls as [|l ls IH]; intros q L L' [l1 [l2 [E [O N]]]] [l1' [l2' [E' [O' N']]]]; [destruct l1; discriminate|].
  destruct l1 as [|x l1], l1' as [|x' l1']; cbn in E, E'; injection E as E1 E2; injection E' as E1' E2'; subst.
  - reflexivity.
  - exfalso. apply (N L'); auto. apply in_or_app. right. left. reflexivity.
  - exfalso. apply (N' L); auto. apply in_or_app. right. left. reflexivity.
  - apply (IH q); [exists l1, l2|exists l1', l2']; auto.
Qed.
Lemma counts_uncovered : forall (ls : list (line (A:=A))) q L, counts ls q L -> ~ uncovered ls q.
Proof. intros ls q L [l1 [l2 [-> [O _]]]] U. apply (U L); auto. apply in_or_app. right. left. reflexivity. Qed.

Lemma zero_minus : ltb A (zero A) (minus_one A) = false.
Proof.
  destruct (ltb A (zero A) (minus_one A)) eqn:E; auto. pose proof (lt_trans A Ord _ _ _ E (lt_minus A Ord)) as K. rewrite (lt_irrefl A Ord) in K. discriminate.
Qed.

Ltac sp := repeat match goal with |- _ /\ _ => split end.
Section Search.
Variable ss : list (list (line (A:=A))).
Hypothesis Len : length ss = Z.to_nat (segs S).
Hypothesis Prop_ : Forall (Forall proper) ss.

Lemma segment_ok : forall t, (0 <= t < segs S)%Z -> exists ls, segment_at ss t = Ok ls /\ nth_error ss (Z.to_nat t) = Some ls /\ Forall proper ls.
Proof.
  intros t H. unfold segment_at. destruct (Z.ltb_spec t 0); [lia|]. destruct (nth_error ss (Z.to_nat t)) as [ls|] eqn:E.
  - exists ls. sp; auto. apply (proj1 (Forall_forall _ _) Prop_). apply nth_error_In in E. exact E.
  - apply nth_error_None in E. lia.
Qed.
Lemma wrap_around : forall s k, (0 <= s < segs S)%Z -> (Z.abs k <= segs S)%Z -> around S s k (wrap S (s + k)).
Proof.
  intros s k H K. unfold around, wrap. destruct (Z.ltb_spec (s + k) 0); [split; [lia|exists 1%Z; lia]|].
  destruct (Z.leb_spec (segs S) (s + k)); [split; [lia|exists (-1)%Z; lia]|split; [lia|exists 0%Z; lia]].
Qed.
Lemma around_unique : forall s k t t', around S s k t -> around S s k t' -> t = t'.
Proof. intros s k t t' [H [n E]] [H' [n' E']]. assert (n = n') by nia. subst. reflexivity. Qed.

Lemma candidates_in : forall n k, In k (candidates n) <-> (0 < Z.abs k <= Z.of_nat n)%Z.
Proof.
  induction n as [|n IH]; intros k.
  - cbn. lia.
  - assert (C : candidates (Datatypes.S n) = Z.of_nat (Datatypes.S n) :: (- Z.of_nat (Datatypes.S n))%Z :: candidates n) by reflexivity.
    rewrite C. cbn [In]. rewrite IH. lia.
Qed.
(** What has been tried before [k]. *)
Lemma candidates_split : forall n pre k post, candidates n = pre ++ k :: post ->
  forall j, In j pre <-> (0 < Z.abs j /\ (Z.abs k < Z.abs j <= Z.of_nat n \/ j = - k /\ 0 < j))%Z.
Proof.
  induction n as [|n IH]; intros pre k post E j; [destruct pre; discriminate|].
  assert (C : candidates (Datatypes.S n) = Z.of_nat (Datatypes.S n) :: (- Z.of_nat (Datatypes.S n))%Z :: candidates n) by reflexivity.
  rewrite C in E. destruct pre as [|a [|b pre]]; cbn [app] in E.
  - injection E as E1 E2. subst. cbn [In]. lia.
  - injection E as E1 E2 E3. subst. cbn [In]. lia.
  - injection E as E1 E2 E3. subst. pose proof (IH pre k post E3 j) as K. cbn [In]. rewrite K.
    assert (Kk : In k (candidates n)) by (rewrite E3; apply in_or_app; right; left; reflexivity). apply candidates_in in Kk. lia.
Qed.

Lemma search_spec : forall s q cs d, (0 <= s < segs S)%Z -> (forall k, In k cs -> (Z.abs k <= segs S)%Z) ->
  exists d', search S ss s q cs d = Ok d' /\
  ((exists pre k post t ls L, cs = pre ++ k :: post /\ around S s k t /\ nth_error ss (Z.to_nat t) = Some ls /\ counts ls q L /\
     d' = distance L q /\ ltb A (zero A) d' = true /\
     forall j t' ls' L', In j pre -> around S s j t' -> nth_error ss (Z.to_nat t') = Some ls' -> counts ls' q L' -> ltb A (zero A) (distance L' q) = false) \/
   ((cs = [] /\ d' = d \/ ltb A (zero A) d' = false) /\
     forall j t' ls' L', In j cs -> around S s j t' -> nth_error ss (Z.to_nat t') = Some ls' -> counts ls' q L' -> ltb A (zero A) (distance L' q) = false)).
Proof.
  intros s q cs. induction cs as [|k cs IH]; intros d Hs Hk; cbn [search].
  - exists d. split; auto. right. split; auto. intros j t' ls' L' [].
  - pose proof (wrap_around s k Hs (Hk k (or_introl eq_refl))) as Ar. destruct (segment_ok (wrap S (s + k)) (proj1 Ar)) as [ls [-> [Nt Pr]]]. cbn [bind].
    destruct (vertical_spec ls q (minus_one A) Pr) as [[L [-> C]]|[-> U]]; cbn [bind].
    + destruct (ltb A (zero A) (distance L q)) eqn:Z0.
      * exists (distance L q). split; auto. left. exists [], k, cs, (wrap S (s + k)), ls, L. sp; auto. intros j t' ls' L' [].
      * destruct (IH (distance L q) Hs (fun j Hj => Hk j (or_intror Hj))) as [d' [E D]]. exists d'. split; auto.
        assert (Old : forall t' ls' L', around S s k t' -> nth_error ss (Z.to_nat t') = Some ls' -> counts ls' q L' -> ltb A (zero A) (distance L' q) = false).
        { intros t' ls' L' A' N' C'. rewrite (around_unique _ _ _ _ A' Ar) in N'. rewrite Nt in N'. inversion N'; subst. rewrite (counts_unique _ _ _ _ C' C). exact Z0. }
        destruct D as [[pre [k' [post [t [ls2 [L2 [D1 [D2 [D3 [D4 [D5 [D6 D7]]]]]]]]]]]]|[D1 D2]].
        -- left. exists (k :: pre), k', post, t, ls2, L2. subst cs. sp; auto. intros j t' ls' L' [<-|Hj]; eauto.
        -- right. split; [destruct D1 as [[-> ->]|D1]; auto|]. intros j t' ls' L' [<-|Hj]; eauto.
    + rewrite zero_minus. destruct (IH (minus_one A) Hs (fun j Hj => Hk j (or_intror Hj))) as [d' [E D]]. exists d'. split; auto.
      assert (Old : forall t' ls' L', around S s k t' -> nth_error ss (Z.to_nat t') = Some ls' -> counts ls' q L' -> ltb A (zero A) (distance L' q) = false).
      { intros t' ls' L' A' N' C'. rewrite (around_unique _ _ _ _ A' Ar) in N'. rewrite Nt in N'. inversion N'; subst. exfalso. eapply counts_uncovered; eauto. }
      destruct D as [[pre [k' [post [t [ls2 [L2 [D1 [D2 [D3 [D4 [D5 [D6 D7]]]]]]]]]]]]|[D1 D2]].
      * left. exists (k :: pre), k', post, t, ls2, L2. subst cs. sp; auto. intros j t' ls' L' [<-|Hj]; eauto.
      * right. split; [destruct D1 as [[-> ->]|D1]; [right; apply zero_minus|auto]|]. intros j t' ls' L' [<-|Hj]; eauto.
Qed.

(** A point is near a ground line iff the line that decides says so. *)
Lemma decide_spec : forall s q, (0 <= s < segs S)%Z -> (steps S <= segs S)%Z -> exists d, decide S ss s q = Ok d /\
  (ltb A (zero A) d = true /\ leb A d (max_dist S) = true <->
   exists L, deciding S ss s q L /\ ltb A (zero A) (distance L q) = true /\ leb A (distance L q) (max_dist S) = true).
Proof.
  intros s q Hs Hst. unfold decide. destruct (segment_ok s Hs) as [own [-> [No Po]]]. cbn [bind].
  destruct (vertical_spec own q (minus_one A) Po) as [[L [-> C]]|[-> U]]; cbn [bind].
  - unfold distance at 1. rewrite (abs_pos A Ord). fold (distance L q). exists (distance L q). split; auto. split.
    + intros [H1 H2]. exists L. split; [exists own; auto|auto].
    + intros [L' [[own' [No' [C'|[U' _]]]] [H1 H2]]]; rewrite No in No'; inversion No'; subst own'.
      * rewrite (counts_unique _ _ _ _ C C'). auto.
      * exfalso. eapply counts_uncovered; eauto.
  - rewrite (lt_minus A Ord).
    destruct (search_spec s q (candidates (Z.to_nat (steps S))) (minus_one A) Hs) as [d [E D]].
    { intros k Hk. apply candidates_in in Hk. lia. }
    exists d. split; auto. split.
    + intros [H1 H2]. destruct D as [[pre [k [post [t [ls [L [D1 [D2 [D3 [D4 [D5 [D6 D7]]]]]]]]]]]]|[D1 _]].
      * exists L. subst d. split; auto. exists own. split; auto. right. split; auto. exists k, t, ls.
        assert (Kk : In k (candidates (Z.to_nat (steps S)))) by (rewrite D1; apply in_or_app; right; left; reflexivity). apply candidates_in in Kk.
        sp; auto; try lia; try apply D2. intros j t' ls' L' Hj Tj. apply D7. apply (candidates_split _ _ _ _ D1). unfold tried_before in Tj. lia.
      * destruct D1 as [[_ ->]|D1]; [rewrite zero_minus in H1|]; congruence.
    + intros [L' [[own' [No' [C'|[_ [k [t [ls [K1 [K2 [K3 [K4 [K5 K6]]]]]]]]]]]] [H1 H2]]].
      { rewrite No in No'. inversion No'; subst. exfalso. eapply counts_uncovered; eauto. }
      assert (Kk : In k (candidates (Z.to_nat (steps S)))) by (apply candidates_in; lia).
      destruct D as [[pre [k2 [post [t2 [ls2 [L2 [D1 [D2 [D3 [D4 [D5 [D6 D7]]]]]]]]]]]]|[_ D2]].
      * assert (Eq : k = k2).
        { pose proof (candidates_split _ _ _ _ D1) as Cs. assert (K2' : In k2 (candidates (Z.to_nat (steps S)))) by (rewrite D1; apply in_or_app; right; left; reflexivity).
          apply candidates_in in K2'. assert (N1 : ~ tried_before S k k2).
          { intros T. assert (In k pre) by (apply Cs; unfold tried_before in T; lia). rewrite (D7 k t ls L') in K5; auto. discriminate. }
          assert (N2 : ~ tried_before S k2 k).
          { intros T. subst d. rewrite (K6 k2 t2 ls2 L2) in D6; auto; [discriminate|lia]. }
          unfold tried_before in N1, N2. lia. }
        subst k2. rewrite (around_unique _ _ _ _ D2 K2) in D3. rewrite K3 in D3. inversion D3; subst ls2. rewrite (counts_unique _ _ _ _ K4 D4) in *. subst d. auto.
      * rewrite (D2 k t ls L') in K5; auto. discriminate.
Qed.

Lemma task_spec : forall s l m, (0 <= s < segs S)%Z -> (steps S <= segs S)%Z -> exists m', task S ss s l m = Ok m' /\
  forall i, In i m' <-> In i m \/ exists q L, In (i, q) l /\ deciding S ss s q L /\ ltb A (zero A) (distance L q) = true /\ leb A (distance L q) (max_dist S) = true.
Proof.
  intros s. induction l as [|[i q] l IH]; intros m Hs Hst; cbn [task].
  - exists m. split; auto. intros i. split; auto. intros [H|[q [L [[] _]]]]; auto.
  - destruct (decide_spec s q Hs Hst) as [d [-> D]].
    destruct (IH (if ltb A (zero A) d && leb A d (max_dist S) then m ++ [i] else m) Hs Hst) as [m' [E M]]. exists m'. split; auto.
    intros j. rewrite M. clear M E IH. destruct (ltb A (zero A) d && leb A d (max_dist S)) eqn:B.
    + apply andb_prop in B. apply D in B. destruct B as [L B]. split.
      * intros [H|[q' [L' [H1 H2]]]]; [apply in_app_or in H; destruct H as [H|[<-|[]]]; auto|].
        -- right. exists q, L. split; [left; auto|auto].
        -- right. exists q', L'. split; [right; auto|auto].
      * intros [H|[q' [L' [[H1|H1] H2]]]].
        -- left. apply in_or_app. auto.
        -- left. apply in_or_app. right. left. congruence.
        -- right. exists q', L'. auto.
    + split.
      * intros [H|[q' [L' [H1 H2]]]]; auto. right. exists q', L'. split; [right; auto|auto].
      * intros [H|[q' [L' [[H1|H1] H2]]]]; auto.
        -- exfalso. inversion H1; subst. assert (ltb A (zero A) d = true /\ leb A d (max_dist S) = true) as [X1 X2] by (apply D; exists L'; auto).
           rewrite X1, X2 in B. discriminate.
        -- right. exists q', L'. auto.
Qed.

Lemma run_tasks_spec : forall n g, (Z.of_nat n <= segs S)%Z -> (steps S <= segs S)%Z -> exists m, run_tasks S n ss g = Ok m /\
  forall i, In i m <-> exists s q L, (0 <= s < Z.of_nat n)%Z /\ In (i, q) (segment_points S g s) /\ deciding S ss s q L /\
    ltb A (zero A) (distance L q) = true /\ leb A (distance L q) (max_dist S) = true.
Proof.
  induction n as [|n IH]; intros g Hn Hst; cbn [run_tasks].
  - exists []. split; auto. intros i. split; [intros []|]. intros [s [q [L [H _]]]]. lia.
  - destruct (IH g) as [m [-> M]]; auto; [lia|]. cbn [bind].
    destruct (task_spec (Z.of_nat n) (segment_points S g (Z.of_nat n)) []) as [m' [-> M']]; auto; [lia|]. cbn [bind].
    exists (m ++ m'). split; auto. intros i. rewrite in_app_iff, M, M'. split.
    + intros [[s [q [L [H1 H2]]]]|[[]|[q [L H2]]]].
      * exists s, q, L. split; [lia|auto].
      * exists (Z.of_nat n), q, L. split; [lia|auto].
    + intros [s [q [L [H1 H2]]]]. destruct (Z.eq_dec s (Z.of_nat n)) as [->|].
      * right. right. exists q, L. auto.
      * left. exists s, q, L. split; [lia|auto].
Qed.
End Search.

Lemma segment_points_in : forall g s i q, In (i, q) (segment_points S g s) <-> exists b, (0 <= b < bins S)%Z /\ In (i, q) (g_pts (g s b)).
Proof.
  intros. unfold segment_points. rewrite in_flat_map. split.
  - intros [b [H1 H2]]. apply in_seq in H1. exists (Z.of_nat b). split; [lia|auto].
  - intros [b [H1 H2]]. exists (Z.to_nat b). split; [apply in_seq; lia|]. rewrite Z2Nat.id by lia. exact H2.
Qed.

(** ** The whole filter *)
Definition rings_apart : Prop := forall p p' s b s' b', place S p = Ok (Some (s, b)) -> place S p' = Ok (Some (s', b')) -> (b < b')%Z ->
  ltb A (range S p) (range S p') = true.

Lemma set_input_min : forall l g, set_input S l = Ok g -> forall s, has_min g s.
Proof.
  intros l g H s b N. destruct (set_input_spec l g H) as [_ [_ [_ [_ [_ K]]]]]. specialize (K s b N). destruct (g_min (g s b)) as [q|]; [eauto|contradiction].
Qed.

Lemma line_proper : forall l g s d L, rings_apart -> set_input S l = Ok g -> is_line S (glow g s) d L -> proper L.
Proof.
  intros l g s d L R H [D1 [D2 [D3 [_ [_ [_ [D5 D6]]]]]]]. destruct (set_input_spec l g H) as [_ [K _]].
  assert (Ne : d <> []) by (destruct d; [cbn in D1; lia|discriminate]).
  pose proof (proj1 (Forall_forall _ _) D2 _ (first_in d Ne)) as [_ [_ F]]. pose proof (proj1 (Forall_forall _ _) D2 _ (last_in d Ne)) as [_ [_ E]].
  apply K in F. apply K in E. destruct F as [i [p [[_ Pp] Fp]]]. destruct E as [j [p' [[_ Pp'] Ep]]].
  unfold proper. rewrite D5, D6. cbn [fst]. rewrite Fp, Ep. cbn [fst]. eapply R; eauto.
  destruct d as [|x [|y d]]; cbn in D1; try lia. pose proof (increasing_in (y :: d) x (last_of (x :: y :: d)) D3) as Li.
  change (first_of (x :: y :: d)) with x. apply Li. change (last_of (x :: y :: d)) with (last_of (y :: d)). apply last_in. discriminate.
Qed.

Lemma fit_segments_spec : forall l g, (0 < bins S)%Z -> rings_apart -> set_input S l = Ok g -> forall n, exists ss, fit_segments S n g = Ok ss /\
  length ss = n /\ Forall (Forall proper) ss /\ forall t, (t < n)%nat -> exists ls, nth_error ss t = Some ls /\ fit_lines S g (Z.of_nat t) = Ok ls.
Proof.
  intros l g B R H. induction n as [|n [ss [Es [L [F N]]]]]; cbn [fit_segments]; [|rewrite Es].
  - exists []. sp; auto. intros. lia.
  - cbn [bind]. destruct (fit_lines_spec g (Z.of_nat n) (set_input_min l g H _) B) as [ls [E [[ds [D _]] _]]]. rewrite E. cbn [bind].
    exists (ss ++ [ls]). split; auto. split; [rewrite app_length; cbn; lia|]. split.
    + apply Forall_app. split; auto. constructor; auto. clear E N. induction D; constructor; auto. eapply line_proper; eauto.
    + intros t Ht. destruct (Nat.eq_dec t n) as [->|].
      * exists ls. split; auto. rewrite nth_error_app2, L, Nat.sub_diag by lia. reflexivity.
      * destruct (N t) as [ls' [N1 N2]]; [lia|]. exists ls'. split; auto. rewrite nth_error_app1 by lia. exact N1.
Qed.

(** ** The same grids in terms of the cloud, for heights that are numbers *)
Section Numbers.
Variable ps : placed.
Definition cell (s b : Z) (j : nat) (p : P) : Prop := nth_error ps j = Some (p, Some (s, b)).
Hypothesis Num : forall s b j p, cell s b j p -> comparable A (height S p).
Definition fl (s b : Z) (n j : nat) (p : P) : Prop :=
  (j < n)%nat /\ cell s b j p /\
  (forall k r, (k < n)%nat -> cell s b k r -> ltb A (height S r) (height S p) = false) /\
  (forall k r, (k < j)%nat -> cell s b k r -> ltb A (height S p) (height S r) = true).
Definition st_ (s b : Z) (i : nat) (p : P) : Prop :=
  cell s b i p /\ exists j r, fl s b (Datatypes.S i) j r /\ near A (height S p) (height S r) = true.
Definition gst (n : nat) (g : grids (A:=A)) : Prop := forall s b,
  ((g_min (g s b) = None /\ g_pts (g s b) = [] /\ forall j p, (j < n)%nat -> ~ cell s b j p) \/
   (exists j p, fl s b n j p /\ g_min (g s b) = Some (range S p, height S p) /\ g_pts (g s b) <> [])) /\
  (forall i q, In (i, q) (g_pts (g s b)) <-> (i < n)%nat /\ exists p, st_ s b i p /\ q = (range S p, height S p)).

Lemma fl_keep : forall s b n j p, (forall r, ~ cell s b n r) -> fl s b n j p -> fl s b (Datatypes.S n) j p.
Proof.
  intros s b n j p N [F1 [F2 [F3 F4]]]. split; [lia|]. split; auto. split; auto. intros k r Hk Hc. destruct (Nat.eq_dec k n) as [->|]; [exfalso; apply (N r Hc)|apply (F3 k); auto; lia].
Qed.
Lemma fl_unique : forall s b n j p j' p', fl s b n j p -> fl s b n j' p' -> j = j' /\ p = p'.
Proof.
  intros s b n j p j' p' [F1 [F2 [F3 F4]]] [F1' [F2' [F3' F4']]]. destruct (Nat.lt_trichotomy j j') as [H|[H|H]].
  - pose proof (F4' j p H F2). rewrite (F3 j' p') in H0; auto. discriminate.
  - subst j'. split; auto. unfold cell in *. congruence.
  - pose proof (F4 j' p' H F2'). rewrite (F3' j p) in H0; auto. discriminate.
Qed.

Lemma gst_insert : forall n g p a, gst n g -> nth_error ps n = Some (p, a) -> gst (Datatypes.S n) (insert S g n p a).
Proof.
  intros n g p a G E.
  assert (Other : forall s b, (forall r, ~ cell s b n r) -> forall x, x = g s b ->
    ((g_min x = None /\ g_pts x = [] /\ forall j p, (j < Datatypes.S n)%nat -> ~ cell s b j p) \/
     (exists j p, fl s b (Datatypes.S n) j p /\ g_min x = Some (range S p, height S p) /\ g_pts x <> [])) /\
    (forall i q, In (i, q) (g_pts x) <-> (i < Datatypes.S n)%nat /\ exists p, st_ s b i p /\ q = (range S p, height S p))).
  { intros s b N x ->. destruct (G s b) as [G1 G2]. split.
    - destruct G1 as [[G1 [G3 G4]]|[j [r [G1 G3]]]]; [left|right].
      + repeat split; auto. intros j r Hj Hc. destruct (Nat.eq_dec j n) as [->|]; [apply (N r Hc)|apply (G4 j r); auto; lia].
      + exists j, r. split; auto. apply fl_keep; auto.
    - intros i q. rewrite G2. split; intros [H1 H2]; split; auto. destruct (Nat.eq_dec i n) as [->|]; [|lia].
      destruct H2 as [r [[H2 _] _]]. exfalso. apply (N r H2). }
  destruct a as [[s b]|]; cbn [insert].
  2: { intros s b. apply Other; auto. intros r Hc. unfold cell in Hc. rewrite E in Hc. discriminate. }
  intros s' b'. assert (Hs : (s' = s /\ b' = b) \/ (s' <> s \/ b' <> b)) by lia. destruct Hs as [[-> ->]|Hs].
  2: { rewrite set_other by auto. apply Other; auto. intros r Hc. unfold cell in Hc. rewrite E in Hc. inversion Hc; subst. destruct Hs; congruence. }
  rewrite set_same. cbn [g_min g_pts snd]. clear Other. set (q := (range S p, height S p)).
  assert (Cn : cell s b n p) by exact E. destruct (G s b) as [G1 G2]. clear G E.
  (* the new minimum *)
  assert (M : exists j r, fl s b (Datatypes.S n) j r /\
    match g_min (g s b) with Some m => if match g_pts (g s b) with [] => true | _ => false end || ltb A (height S p) (snd m) then q else m | None => q end
    = (range S r, height S r)).
  { destruct G1 as [[-> [G3 G4]]|[j [r [[F1 [F2 [F3 F4]]] [-> G3]]]]].
    - exists n, p. split; auto. split; [lia|]. split; auto. split.
      + intros k r Hk Hc. destruct (Nat.eq_dec k n) as [->|]; [|exfalso; apply (G4 k r); auto; lia]. unfold cell in *. rewrite Cn in Hc. inversion Hc; subst. apply lt_irrefl, Ord.
      + intros k r Hk Hc. exfalso. apply (G4 k r); auto.
    - destruct (g_pts (g s b)); [contradiction|]. cbn [orb snd]. destruct (ltb A (height S p) (height S r)) eqn:L.
      + exists n, p. split; auto. split; [lia|]. split; auto. split.
        * intros k w Hk Hc. destruct (Nat.eq_dec k n) as [->|]; [unfold cell in *; rewrite Cn in Hc; inversion Hc; subst; apply lt_irrefl, Ord|].
          destruct (ltb A (height S w) (height S p)) eqn:L'; auto. rewrite <- (F3 k w); [|lia|auto]. symmetry. apply (lt_trans A Ord _ _ _ L' L).
        * intros k w Hk Hc. apply (lt_keep A Ord _ (height S r)); auto. { apply (Num s b k w Hc). } { apply (F3 k w); auto. }
      + exists j, r. split; auto. split; [lia|]. split; auto. split; auto.
        intros k w Hk Hc. destruct (Nat.eq_dec k n) as [->|]; [unfold cell in *; rewrite Cn in Hc; inversion Hc; subst; auto|apply (F3 k w); auto; lia]. }
  destruct M as [j [r [F ->]]]. cbn [snd].
  assert (Near : near A (height S p) (height S r) = false -> g_pts (g s b) <> []).
  { intros Nr Em. destruct G1 as [[_ [_ G4]]|[_ [_ [_ [_ K]]]]]; [|contradiction].
    assert (j = n /\ r = p) as [-> ->].
    { destruct F as [F1 [F2 _]]. assert (j = n) as -> by (destruct (Nat.eq_dec j n); auto; exfalso; apply (G4 j r); auto; lia). split; auto. unfold cell in *. congruence. }
    rewrite (near_self A Ord) in Nr; [discriminate|]. apply (Num s b n p Cn). }
  split.
  - right. exists j, r. split; auto. split; auto. destruct (near A (height S p) (height S r)) eqn:Nr; [intros K; apply app_eq_nil in K; destruct K; discriminate|auto].
  - intros i w. assert (St : st_ s b n p <-> near A (height S p) (height S r) = true).
    { split.
      - intros [_ [j' [r' [F' Nr]]]]. destruct (fl_unique _ _ _ _ _ _ _ F F') as [_ ->]. exact Nr.
      - intros Nr. split; auto. exists j, r. auto. }
    destruct (near A (height S p) (height S r)) eqn:Nr.
    + rewrite in_app_iff, G2. cbn [In]. split.
      * intros [[H1 H2]|[H|[]]]; [split; auto|]. inversion H; subst i w. split; [lia|]. exists p. split; auto. apply St. reflexivity.
      * intros [H1 [v [H2 H3]]]. destruct (Nat.eq_dec i n) as [->|]; [|left; split; [lia|eauto]]. right. left. destruct H2 as [H2 _]. unfold cell in *. rewrite Cn in H2. inversion H2; subst. reflexivity.
    + rewrite G2. split.
      * intros [H1 H2]. split; auto.
      * intros [H1 [v [H2 H3]]]. destruct (Nat.eq_dec i n) as [->|]; [|split; [lia|eauto]]. exfalso. pose proof H2 as [H4 _]. unfold cell in *. rewrite Cn in H4. inversion H4; subst v. apply St in H2. discriminate.
Qed.
End Numbers.

Lemma gst_all : forall l pre g, (forall s b j p, cell (pre ++ l) s b j p -> comparable A (height S p)) -> gst (pre ++ l) (length pre) g ->
  gst (pre ++ l) (length (pre ++ l)) (insert_all S g (length pre) l).
Proof.
  induction l as [|[p a] l IH]; intros pre g N G; cbn [insert_all].
  - rewrite app_nil_r in *. exact G.
  - replace (pre ++ (p, a) :: l) with ((pre ++ [(p, a)]) ++ l) in * by (rewrite <- app_assoc; reflexivity).
    specialize (IH (pre ++ [(p, a)]) (insert S g (length pre) p a) N). rewrite (app_length pre) in IH. cbn [length] in IH.
    rewrite Nat.add_1_r in IH. apply IH. apply gst_insert; auto. rewrite <- app_assoc. rewrite nth_error_app2, Nat.sub_diag by lia. reflexivity.
Qed.

Lemma places_length : forall l ps, places S l = Ok ps -> length ps = length l.
Proof. intros l ps H. apply places_spec in H. induction H; cbn; auto. Qed.

Lemma set_input_numbers : forall l g, (forall p, In p l -> comparable A (height S p)) -> set_input S l = Ok g ->
  (forall s b i q, In (i, q) (g_pts (g s b)) <-> exists p, stored S l s b i p /\ q = (range S p, height S p)) /\
  (forall s b q, glow g s b q <-> low S l s b q).
Proof.
  intros l g N H. unfold set_input in H. destruct (places S l) as [ps| | |] eqn:E; try discriminate. cbn [bind] in H. inversion H; subst g; clear H.
  assert (C : forall s b j p, cell ps s b j p <-> in_cell S l s b j p).
  { intros s b j p. split.
    - intros Hc. apply (places_nth l ps E) in Hc. exact Hc.
    - intros [H1 H2]. destruct (places_nth' l ps E j p H1) as [a [H3 H4]]. rewrite H2 in H4. inversion H4; subst. exact H3. }
  assert (F : forall s b n j p, fl ps s b n j p <-> first_lowest S l s b n j p).
  { intros s b n j p. unfold fl, first_lowest. split; intros [F1 [F2 [F3 F4]]]; (split; [auto|]); (split; [apply C; auto|]); (split; [intros k r Hk Hc; apply (F3 k); auto; apply C; auto|intros k r Hk Hc; apply (F4 k); auto; apply C; auto]). }
  assert (Nn : forall s b j p, cell ([] ++ ps) s b j p -> comparable A (height S p)).
  { intros s b j p Hc. apply N. apply C in Hc. destruct Hc as [Hc _]. eapply nth_error_In; eauto. }
  pose proof (gst_all ps [] (fun _ _ => no_grid) Nn) as G. cbn [app length] in G.
  assert (G0 : gst ps 0 (fun _ _ => no_grid)).
  { intros s b. split; [left; repeat split; auto; intros; lia|]. intros i q. cbn. split; [intros []|intros [K _]; lia]. }
  specialize (G G0). rewrite (places_length l ps E) in G. split.
  - intros s b i q. destruct (G s b) as [_ G2]. rewrite G2. split.
    + intros [H1 [p [[H2 [j [r [H3 H4]]]] H5]]]. exists p. split; auto. split; [apply C; auto|]. exists j, r. split; auto. apply F; auto.
    + intros [p [[H2 [j [r [H3 H4]]]] H5]]. split.
      * destruct H2 as [H2 _]. apply nth_error_Some. congruence.
      * exists p. split; auto. split; [apply C; auto|]. exists j, r. split; auto. apply F; auto.
  - intros s b q. destruct (G s b) as [[[G1 [G2 G3]]|[j [p [G1 [G2 G3]]]]] _]; unfold glow, low.
    + split.
      * intros [K _]. contradiction.
      * intros [i [p [[K1 [K2 _]] _]]]. exfalso. apply (G3 i p K1). apply C. exact K2.
    + split.
      * intros [_ K]. rewrite G2 in K. inversion K; subst. exists j, p. split; auto. apply F. exact G1.
      * intros [i [r [K ->]]]. split; auto. apply F in K. destruct (fl_unique _ _ _ _ _ _ _ _ G1 K) as [_ <-]. exact G2.
Qed.

(** The lines depend on the lowest points only. *)
Lemma lowest_ext : forall (l1 l2 : Z -> pt -> Prop), (forall b q, l1 b q <-> l2 b q) -> forall x, lowest S l1 x <-> lowest S l2 x.
Proof. intros l1 l2 H x. unfold lowest. rewrite H. tauto. Qed.
Lemma is_line_ext : forall (l1 l2 : Z -> pt -> Prop), (forall b q, l1 b q <-> l2 b q) -> forall d L, is_line S l1 d L -> is_line S l2 d L.
Proof.
  intros l1 l2 H d L [I1 [I2 [I3 [I4 I5]]]]. split; auto. split; [|split; [|split]]; auto.
  - eapply Forall_impl; [|exact I2]. intros x. apply (lowest_ext l1 l2 H).
  - intros b q Hb Hl. apply (I4 b q); auto. apply H. exact Hl.
Qed.
Lemma gapped_ext : forall (l1 l2 : Z -> pt -> Prop), (forall b q, l1 b q <-> l2 b q) -> forall b b', gapped S l1 b b' -> gapped S l2 b b'.
Proof.
  intros l1 l2 H b b' [q [q' [G1 [G2 [G3 [G4 G5]]]]]]. exists q, q'. split; [apply (lowest_ext l1 l2 H); auto|]. split; [apply (lowest_ext l1 l2 H); auto|].
  split; auto. split; auto. intros c r Hc Hl. apply (G4 c r Hc). apply H. exact Hl.
Qed.
Lemma floor_ext : forall (l1 l2 : Z -> pt -> Prop), (forall b q, l1 b q <-> l2 b q) -> floor_ S l1 -> floor_ S l2.
Proof.
  intros l1 l2 H [F1 F2 F3 F4]. assert (H' : forall b q, l2 b q <-> l1 b q) by (intros; symmetry; apply H). constructor; auto.
  - intros x Lx K. apply F1; [apply (lowest_ext l1 l2 H); auto|]. intros b q Hb Hl. apply (K b q Hb). apply H. exact Hl.
  - intros b b' G. apply (F2 b b'). eapply gapped_ext; eauto.
  - intros d D1 D2 D3 D4. apply F3; auto.
    + eapply Forall_impl; [|exact D2]. intros x. apply (lowest_ext l2 l1 H').
    + intros b q Hb Hl. apply (D4 b q Hb). apply H. exact Hl.
Qed.
Lemma lines_ext : forall (l1 l2 : Z -> pt -> Prop), (forall b q, l1 b q <-> l2 b q) -> forall ls, lines S l1 ls -> lines S l2 ls.
Proof.
  intros l1 l2 H ls [[ds [D1 [D2 D3]]] D4]. assert (H' : forall b q, l2 b q <-> l1 b q) by (intros; symmetry; apply H). split.
  - exists ds. split; [|split; auto].
    + clear D2 D3 D4. induction D1; constructor; auto. eapply is_line_ext; eauto.
    + intros b b' d G. apply D3. eapply gapped_ext; eauto.
  - intros F [x [y [z [X [Y [Z K]]]]]]. destruct D4 as [d [L [E [I N]]]].
    + eapply floor_ext; eauto.
    + exists x, y, z. rewrite !(lowest_ext l1 l2 H). auto.
    + exists d, L. split; auto. split; [eapply is_line_ext; eauto|]. intros b q Hb Hl. apply (N b q Hb). apply H. exact Hl.
Qed.

(** ** The outputs *)
Lemma pick_spec : forall m (l : list P) i, map Some (pick m i l) = map (fun j => nth_error l (j - i)) (filter (fun j => negb (marked_in m j)) (seq i (length l))).
Proof.
  intros m. induction l as [|p l IH]; intros i; cbn [pick length seq filter map]; auto.
  assert (E : map (fun j => nth_error l (j - Datatypes.S i)) (filter (fun j => negb (marked_in m j)) (seq (Datatypes.S i) (length l))) =
              map (fun j => nth_error (p :: l) (j - i)) (filter (fun j => negb (marked_in m j)) (seq (Datatypes.S i) (length l)))).
  { apply map_ext_in. intros j Hj. apply filter_In in Hj. destruct Hj as [Hj _]. apply in_seq in Hj.
    replace (j - i)%nat with (Datatypes.S (j - Datatypes.S i)) by lia. reflexivity. }
  destruct (marked_in m i); cbn [negb map]; rewrite IH, E; auto. rewrite Nat.sub_diag. reflexivity.
Qed.
Lemma marked_spec : forall m i, marked_in m i = true <-> In i m.
Proof.
  intros m i. unfold marked_in. rewrite existsb_exists. split.
  - intros [x [H E]]. apply Nat.eqb_eq in E. subst. exact H.
  - intros H. exists i. split; auto. apply Nat.eqb_refl.
Qed.

Lemma set_input_ok : forall l, (forall p, In p l -> exists a, place S p = Ok a) -> exists g, set_input S l = Ok g.
Proof.
  intros l H. assert (exists ps, places S l = Ok ps) as [ps E].
  { induction l as [|p l IH]; cbn [places]; eauto. destruct (H p (or_introl eq_refl)) as [a ->]. destruct IH as [r ->]; [intros q Hq; apply H; right; auto|]. cbn [bind]. eauto. }
  unfold set_input. rewrite E. cbn [bind]. eauto.
Qed.

Definition ring_monotone : Prop := forall x y a b, ring S x = Ok a -> ring S y = Ok b -> (a < b)%Z -> ltb A x y = true.
Lemma rings_apart_of : (0 < bins S)%Z -> ring_monotone -> rings_apart.
Proof.
  intros B M p p' s b s' b' H H' L. unfold place in H, H'. destruct (_ && _); [discriminate|]. destruct (_ && _); [discriminate|].
  destruct (sector S p) as [x| | |]; try discriminate. destruct (sector S p') as [x'| | |]; try discriminate. cbn [bind] in H, H'.
  destruct (ring S (range S p)) as [y| | |] eqn:E; try discriminate. destruct (ring S (range S p')) as [y'| | |] eqn:E'; try discriminate. cbn [bind] in H, H'.
  inversion H; inversion H'; subst. apply (M _ _ _ _ E E'). unfold clamp in L.
  destruct (Z.leb_spec (bins S) y), (Z.ltb_spec y 0), (Z.leb_spec (bins S) y'), (Z.ltb_spec y' 0); lia.
Qed.
End Proofs.
