(** Properties C43, C44, C45, C81: loop detection. *)
From Coq Require Import List Bool ZArith SpecFloat Lia Permutation.
From Verif Require Import Outcome Pose MathModel LoopModel LoopSpec LoopProofs.
Import ListNotations.

Section Props.
Variable G : group.
Variables tn rn : G -> spec_float.
Variable S : settings.
Notation add_frame := (add_frame G tn rn S).
Notation hist := (hist G tn rn S).

(** The settings are ints. *)
Hypothesis ignore_int : (- 2 ^ 31 <= ignore S < 2 ^ 31)%Z.

(** ** C44 *)
(** Every call succeeds if nearest_history_pos_num is positive. *)
Theorem C44_total : forall s o d, (1 <= nearest S < 2 ^ 30)%Z -> (Z.of_nat (frames s) < 2 ^ 31 - 1)%Z ->
  exists s' r, add_frame s o d = Ok (s', r).
Proof.
  intros s o d Hk Hf. rewrite add_frame_eq by assumption. destruct (skipped S s d) eqn:E; [eauto|].
  destruct (not_skipped _ _ _ ignore_int Hf E) as [_ Hi].
  destruct (cand_ok S (wellm G S s o) (close_c G S s o) Hk) as (q & Q1 & Q2 & Q3 & Q4 & Q5);
    [apply wellm_nodup|pose proof (wellm_len G S s o); lia|].
  rewrite Q1. cbn [bind]. destruct (advance S (stat s) (acc s) (det_of G S s o)) as [st a] eqn:Ea. cbn [fst snd].
  destruct st; eauto. destruct q as [|x q]; cbn; [|eauto]. exfalso.
  unfold det_of in Ea. rewrite (proj1 Q5 eq_refl) in Ea. destruct (stat s); discriminate.
Qed.

(** The candidates of a call. *)
Theorem C44_candidates : forall s o d s' r, (1 <= nearest S < 2 ^ 30)%Z -> (Z.of_nat (frames s) < 2 ^ 31 - 1)%Z ->
  add_frame s o d = Ok (s', r) ->
  r_index r = frames s /\ frames s' = Datatypes.S (frames s) /\ NoDup (r_cand r) /\ (Z.of_nat (length (r_cand r)) <= nearest S + 1)%Z /\
  (forall i, In i (r_cand r) -> eligible (window s) (ignore S) (frames s) i /\ near S o i) /\
  (r_ran r = true -> (r_cand r <> [] <-> exists i, eligible (window s) (ignore S) (frames s) i /\ near S o i /\ alike S o i)).
Proof.
  intros s o d s' r Hk Hf H. rewrite add_frame_eq in H by assumption. destruct (skipped S s d) eqn:E.
  { injection H as <- <-. cbn. split; [reflexivity|]. split; [reflexivity|]. split; [constructor|]. split; [lia|]. split; [tauto|discriminate]. }
  destruct (not_skipped _ _ _ ignore_int Hf E) as [_ Hi].
  destruct (cand_ok S (wellm G S s o) (close_c G S s o) Hk) as (q & Q1 & Q2 & Q3 & Q4 & Q5);
    [apply wellm_nodup|pose proof (wellm_len G S s o); lia|].
  rewrite Q1 in H. cbn [bind] in H.
  assert (r_index r = frames s /\ frames s' = Datatypes.S (frames s) /\ r_cand r = q) as (R1 & R2 & ->).
  { destruct (fst (advance S (stat s) (acc s) (det_of G S s o))); try (injection H as <- <-; auto; fail).
    destruct (check _) in H; try discriminate. injection H as <- <-. auto. }
  split; [exact R1|]. split; [exact R2|]. split; [exact Q2|]. split; [exact Q3|]. split.
  - intros i Hq. apply seen_in; [lia|]. destruct (Q4 i Hq) as [X|X].
    + apply wellm_in in X; [|lia]. apply seen_in; [lia|]. tauto.
    + apply close_in; [lia|exact X].
  - intros _. rewrite Q5. split.
    + intros Hw. destruct (wellm G S s o) as [|i w] eqn:Ew; [congruence|]. exists i. apply wellm_in; [lia|]. rewrite Ew. left. reflexivity.
    + intros (i & Hi') Hw. apply wellm_in in Hi'; [|lia]. rewrite Hw in Hi'. destruct Hi'.
Qed.

(** Edges are candidates for which the registration succeeded, each at most once. *)
Theorem C44_edges : forall s o d s' r, (1 <= nearest S < 2 ^ 30)%Z -> (Z.of_nat (frames s) < 2 ^ 31 - 1)%Z -> fair o ->
  add_frame s o d = Ok (s', r) ->
  NoDup (map fst (r_edges r)) /\
  (forall i p, In (i, p) (r_edges r) <-> r_tried r = true /\ In i (r_cand r) /\ close o i = Some p).
Proof.
  intros s o d s' r Hk Hf Fo H. pose proof (C44_candidates s o d s' r Hk Hf H) as (_ & _ & Nd & _).
  rewrite add_frame_eq in H by assumption. destruct (skipped S s d) eqn:E.
  { injection H as <- <-. cbn. split; [constructor|]. split; [tauto|intros [X _]; discriminate]. }
  destruct (candidates S (wellm G S s o) (close_c G S s o)) as [q| | |]; try discriminate. cbn [bind] in H.
  assert ((r_tried r = false /\ r_edges r = []) \/ (r_tried r = true /\
    r_edges r = finish o (flat_map (fun i => match close o i with Some p => [(i, p)] | None => [] end) (r_cand r)))) as [[-> ->]|[-> Ee]].
  { destruct (fst (advance S (stat s) (acc s) (det_of G S s o))); try (injection H as <- <-; auto; fail).
    destruct (check _) in H; try discriminate. injection H as <- <-. auto. }
  { split; [constructor|]. intros i p. cbn. intuition discriminate. }
  rewrite Ee. generalize dependent (r_cand r). intros c Nd _. split.
  - eapply Permutation_NoDup; [apply Permutation_sym, Permutation_map, Fo|].
    clear - Nd. induction Nd as [|i l Hi Nd IH]; cbn; [constructor|]. rewrite map_app. destruct (close o i); [|exact IH].
    cbn. constructor; [|exact IH]. intros X. apply Hi. clear - X. induction l as [|j l IH]; [exact X|]. cbn in X. rewrite map_app, in_app_iff in X.
    destruct X as [X|X]; [|right; auto]. destruct (close o j); cbn in X; [|contradiction]. destruct X as [<-|[]]. left. reflexivity.
  - intros i p. assert (In (i, p) (flat_map (fun j => match close o j with Some p0 => [(j, p0)] | None => [] end) c) <->
      In (i, p) (finish o (flat_map (fun j => match close o j with Some p0 => [(j, p0)] | None => [] end) c))) as <-.
    { split; apply Permutation_in; [apply Permutation_sym, Fo|apply Fo]. }
    rewrite in_flat_map. split.
    + intros (j & Hj & X). destruct (close o j) eqn:Ej; [|destruct X]. destruct X as [X|[]]. injection X as -> ->. auto.
    + intros (_ & Hi & Hp). exists i. split; [exact Hi|]. rewrite Hp. left. reflexivity.
Qed.

(** nearest_history_pos_num 0 divides by zero at the first frame at a visited place. *)
Theorem C44_nearest_zero : forall s o, nearest S = 0%Z -> (Z.of_nat (frames s) < 2 ^ 31 - 1)%Z ->
  (0 <= ignore S <= Z.of_nat (frames s))%Z ->
  (exists i, eligible (window s) (ignore S) (frames s) i /\ near S o i /\ alike S o i) -> add_frame s o true = UB.
Proof.
  intros s o K Hf Hi (i & Ei). rewrite add_frame_eq by assumption.
  assert (skipped S s true = false) as ->. { unfold skipped. cbn. apply Z.leb_gt. rewrite Z.mod_small by lia. lia. }
  apply wellm_in in Ei; [|lia]. unfold candidates. rewrite K. cbn. destruct (wellm G S s o); [destruct Ei|]. reflexivity.
Qed.
(** A value below -1 throws as soon as a detection is carried out. *)
Theorem C44_nearest_negative : forall s o, (nearest S < -1)%Z -> (Z.of_nat (frames s) < 2 ^ 31 - 1)%Z ->
  (0 <= ignore S <= Z.of_nat (frames s))%Z -> add_frame s o true = Throw.
Proof.
  intros s o K Hf Hi. rewrite add_frame_eq by assumption.
  assert (skipped S s true = false) as ->. { unfold skipped. cbn. apply Z.leb_gt. rewrite Z.mod_small by lia. lia. }
  unfold candidates. replace (nearest S =? 2 ^ 31 - 1)%Z with false by (symmetry; apply Z.eqb_neq; lia).
  replace (nearest S + 1 <? 0)%Z with true by (symmetry; apply Z.ltb_lt; lia). reflexivity.
Qed.
(** A negative loop_ignore_threshold switches detection off. *)
Theorem C44_negative_threshold : forall s o d s' r, (ignore S < 0)%Z -> (Z.of_nat (frames s) < 2 ^ 31 - 1)%Z ->
  add_frame s o d = Ok (s', r) -> r_ran r = false /\ r_edges r = [] /\ r_succeed r = false.
Proof.
  intros s o d s' r K Hf H. rewrite add_frame_eq in H by assumption.
  assert (skipped S s d = true) as E. { destruct d; [apply skipped_neg; lia|reflexivity]. }
  rewrite E in H. injection H as <- <-. auto.
Qed.

(** ** C43 *)
Notation D := (fun l => Z.of_nat (detections l)).
Definition need : Z := Z.max 1 (tries S).
Definition inv (s : det) (p : list (result G)) : Prop :=
  (stat s = Entering \/ stat s = Continuous -> exists a x c, p = a ++ x :: c /\ r_ran x = true /\ detected x = true /\
     forall y, In y c -> r_ran y = false) /\
  (forall a x w, p = a ++ x :: w -> r_status x = NoLoop -> (forall y, In y w -> r_status y <> NoLoop) ->
   match stat s with
   | NoLoop => True
   | Trying => (acc s <= D (x :: w))%Z
   | Entering => (need <= D (x :: w))%Z /\ (acc s <= D (x :: w))%Z
   | Continuous => (need + 1 <= D (x :: w))%Z
   | Leaving => acc s = 0%Z
   end).
Lemma detections_snoc : forall (l : list (result G)) r, D (l ++ [r]) = (D l + if detected r then 1 else 0)%Z.
Proof. intros l r. cbn. unfold detections. rewrite filter_app, app_length. cbn. destruct (detected r); cbn; lia. Qed.
Lemma snoc_cut : forall {A} (p a w : list A) x r, p ++ [r] = a ++ x :: w ->
  (w = [] /\ a = p /\ x = r) \/ exists w', w = w' ++ [r] /\ p = a ++ x :: w'.
Proof.
  intros A p a w x r H. destruct w as [|y w0] using rev_ind.
  - left. apply app_inj_tail in H. destruct H. auto.
  - right. exists w0. change (a ++ x :: w0 ++ [y]) with (a ++ (x :: w0) ++ [y]) in H. rewrite app_assoc in H.
    apply app_inj_tail in H. destruct H as [-> ->]. auto.
Qed.
Lemma inv_skip : forall s s' p r, stat s' = stat s -> acc s' = acc s -> r_status r = stat s -> r_ran r = false -> r_cand r = [] ->
  inv s p -> inv s' (p ++ [r]).
Proof.
  intros s s' p r E1 E2 Rs Rr Rc [I1 I2]. split.
  - rewrite E1. intros H. destruct (I1 H) as (a & x & c & -> & H1 & H2 & H3). exists a, x, (c ++ [r]). rewrite <- app_assoc. cbn.
    split; [reflexivity|]. split; [exact H1|]. split; [exact H2|]. intros y Hy. apply in_app_iff in Hy. destruct Hy as [Hy|[<-|[]]]; auto.
  - intros a x w Hp Hx Hw. rewrite E1, E2. apply snoc_cut in Hp. destruct Hp as [(-> & -> & ->)|(w' & -> & Hp)].
    + rewrite <- Rs, Hx. exact I.
    + specialize (I2 a x w' Hp Hx (fun y Hy => Hw y (in_or_app _ _ _ (or_introl Hy)))).
      change (x :: w' ++ [r]) with ((x :: w') ++ [r]). rewrite detections_snoc. unfold detected. rewrite Rc.
      destruct (stat s); auto; lia.
Qed.
Lemma inv_ran : forall s s' p r, stat s' = fst (advance S (stat s) (acc s) (detected r)) ->
  acc s' = snd (advance S (stat s) (acc s) (detected r)) -> r_status r = stat s -> r_ran r = true ->
  inv s p -> inv s' (p ++ [r]).
Proof.
  intros s s' p r E1 E2 Rs Rr [I1 I2]. split.
  - rewrite E1. intros H. exists p, r, []. split; [reflexivity|]. split; [exact Rr|]. split; [|intros y []].
    destruct (detected r); [reflexivity|]. destruct (stat s); cbn in H; destruct H; discriminate.
  - intros a x w Hp Hx Hw. rewrite E1, E2. apply snoc_cut in Hp. destruct Hp as [(-> & -> & ->)|(w' & -> & Hp)].
    + rewrite <- Rs, Hx. unfold detections, need. cbn [filter length]. destruct (detected r); cbn.
      * destruct (Z.leb_spec (tries S) 1); cbn; lia.
      * exact I.
    + assert (stat s <> NoLoop) as Nn. { rewrite <- Rs. apply Hw. apply in_app_iff. right. left. reflexivity. }
      specialize (I2 a x w' Hp Hx (fun y Hy => Hw y (in_or_app _ _ _ (or_introl Hy)))).
      change (x :: w' ++ [r]) with ((x :: w') ++ [r]). rewrite detections_snoc. unfold need in *.
      assert (0 <= Z.of_nat (detections (x :: w')))%Z as Np by lia. revert I2 Np. generalize (Z.of_nat (detections (x :: w'))). intros N I2 Np.
      destruct (stat s); [congruence| | | |]; destruct (detected r); cbn [advance fst snd]; try exact I; try lia.
      destruct (Z.leb_spec (tries S) (acc s + 1)); cbn; lia.
Qed.

(** For every history of calls: CloseLoop is only attempted if the frame and the last frame
    before it for which detection was carried out were both detected at visited places, and
    since the last time the detector reported NoLoop at least max(1, trying_detect_loop_count)
    + 1 detections have happened. *)
Theorem C43_consecutive : forall junk l s rs r a b, (1 <= nearest S < 2 ^ 30)%Z -> (Z.of_nat (length l) < 2 ^ 31)%Z ->
  hist (det0 junk) l = Ok (s, rs) -> rs = a ++ r :: b -> r_tried r = true ->
  detected r = true /\
  (exists a' x c, a = a' ++ x :: c /\ r_ran x = true /\ detected x = true /\ forall y, In y c -> r_ran y = false) /\
  (forall u x w, a ++ [r] = u ++ x :: w -> r_status x = NoLoop -> (forall y, In y w -> r_status y <> NoLoop) ->
     (Z.max 1 (tries S) + 1 <= Z.of_nat (detections (x :: w)))%Z).
Proof.
  intros junk l s rs r a b Hk Hl H Hr Ht.
  assert (forall l s0 p s rs, inv s0 p -> (Z.of_nat (frames s0) + Z.of_nat (length l) < 2 ^ 31)%Z -> hist s0 l = Ok (s, rs) ->
    forall a r b, rs = a ++ r :: b -> r_tried r = true -> detected r = true /\
    (exists a' x c, p ++ a = a' ++ x :: c /\ r_ran x = true /\ detected x = true /\ forall y, In y c -> r_ran y = false) /\
    (forall u x w, p ++ a ++ [r] = u ++ x :: w -> r_status x = NoLoop -> (forall y, In y w -> r_status y <> NoLoop) ->
       (need + 1 <= Z.of_nat (detections (x :: w)))%Z)) as Go.
  { clear l s rs r a b Hl H Hr Ht. induction l as [|e l IH]; intros s0 p s rs Hi Hl H a r b Hr Ht.
    - injection H as <- <-. destruct a; discriminate.
    - cbn [LoopModel.hist] in H. destruct e as [o d|wa wb].
      + destruct (add_frame s0 o d) as [[s1 r1]| | |] eqn:Ea; try discriminate. cbn [bind fst snd] in H.
        destruct (hist s1 l) as [[s2 rs2]| | |] eqn:Eh; try discriminate. cbn [bind fst snd] in H. injection H as <- <-.
        assert (Z.of_nat (frames s0) < 2 ^ 31 - 1)%Z as Hs0 by (cbn [length] in Hl; lia).
        assert (inv s1 (p ++ [r1]) /\ frames s1 = Datatypes.S (frames s0) /\
                (r_tried r1 = true -> detected r1 = true /\ stat s1 = Continuous /\ (stat s0 = Entering \/ stat s0 = Continuous))) as (J1 & J2 & J3).
        { pose proof (C44_candidates s0 o d s1 r1 Hk Hs0 Ea) as (_ & F1 & _ & _ & _ & Dx).
          rewrite add_frame_eq in Ea by assumption. destruct (skipped S s0 d) eqn:Es.
          - injection Ea as <- <-. split; [apply (inv_skip s0); auto|]. split; [reflexivity|discriminate].
          - destruct (not_skipped _ _ _ ignore_int Hs0 Es) as [_ Hg].
            destruct (cand_ok S (wellm G S s0 o) (close_c G S s0 o) Hk) as (q & Q1 & Q2 & Q3 & Q4 & Q5);
              [apply wellm_nodup|pose proof (wellm_len G S s0 o); cbn [length] in Hl; lia|].
            rewrite Q1 in Ea. cbn [bind] in Ea.
            assert (det_of G S s0 o = match q with [] => false | _ => true end) as Ed.
            { unfold det_of. destruct (wellm G S s0 o); [rewrite (proj2 Q5 eq_refl); reflexivity|].
              destruct q; [|reflexivity]. exfalso. assert (n :: l0 = []) by (apply Q5; reflexivity). discriminate. }
            assert (r_cand r1 = q /\ r_status r1 = stat s0 /\ r_ran r1 = true /\ stat s1 = fst (advance S (stat s0) (acc s0) (det_of G S s0 o)) /\
              acc s1 = snd (advance S (stat s0) (acc s0) (det_of G S s0 o)) /\ (r_tried r1 = true -> stat s1 = Continuous /\ q <> [])) as (A1 & A2 & A3 & A4 & A5 & A6).
            { destruct (fst (advance S (stat s0) (acc s0) (det_of G S s0 o))) eqn:E1;
                try (injection Ea as <- <-; cbn; do 5 (split; [auto; fail|]); discriminate).
              destruct q as [|q0 q]; cbn [check bind] in Ea; [discriminate|]. injection Ea as <- <-. cbn.
              do 5 (split; [auto; fail|]). intros _. split; [reflexivity|discriminate]. }
            assert (detected r1 = det_of G S s0 o) as Ed' by (unfold detected; rewrite A1; auto).
            split; [apply (inv_ran s0); rewrite ?Ed'; auto|]. split; [exact F1|]. intros T. destruct (A6 T) as [B1 B2].
            assert (detected r1 = true) as B3. { unfold detected. rewrite A1. destruct q; [congruence|reflexivity]. }
            split; [exact B3|]. split; [exact B1|]. rewrite A4, <- Ed', B3 in B1. destruct (stat s0); cbn in B1; auto.
            + destruct (tries S <=? 1)%Z; discriminate.
            + destruct (tries S <=? acc s0 + 1)%Z; discriminate.
            + discriminate. }
        destruct a as [|a0 a].
        * cbn in Hr. injection Hr as <- Hb. destruct (J3 Ht) as (K1 & K2 & K3). split; [exact K1|]. split.
          -- rewrite app_nil_r. destruct Hi as [Hi _]. exact (Hi K3).
          -- intros u x w Hu Hx Hw. cbn in Hu. destruct J1 as [_ J1]. specialize (J1 u x w Hu Hx Hw). rewrite K2 in J1. exact J1.
        * cbn in Hr. injection Hr as <- Hb. destruct (IH s1 (p ++ [r1]) s2 rs2 J1 ltac:(cbn [length] in Hl; lia) Eh a r b Hb Ht) as (K1 & K2 & K3).
          rewrite <- !app_assoc in *. cbn [app] in *. auto.
      + unfold set_window in H. destruct (check (0 <=? wa)%Z); try discriminate. cbn [bind] in H.
        destruct (check (0 <=? wb)%Z); try discriminate. cbn [bind] in H. destruct (check (wa <=? wb)%Z); try discriminate. cbn [bind] in H.
        apply (IH (mkDet (frames s0) (stat s0) (acc s0) wa wb) p s rs) with (b := b);
          [exact Hi|cbn [length frames] in *; lia|exact H|exact Hr|exact Ht]. }
  destruct (Go l (det0 junk) [] s rs) with (a := a) (r := r) (b := b) as (K1 & K2 & K3); auto.
  { split; [intros [X|X]; discriminate|]. intros a0 x w X. destruct a0; discriminate. }
Qed.

(** The returned status is the one before the call. *)
Theorem C81_status_lags : forall s o d s' r, (Z.of_nat (frames s) < 2 ^ 31 - 1)%Z -> add_frame s o d = Ok (s', r) -> r_status r = stat s.
Proof.
  intros s o d s' r Hf H. rewrite add_frame_eq in H by assumption. destruct (skipped S s d); [injection H as <- <-; reflexivity|].
  destruct (candidates S (wellm G S s o) (close_c G S s o)) as [q| | |]; try discriminate. cbn [bind] in H.
  destruct (fst (advance S (stat s) (acc s) (det_of G S s o))); try (injection H as <- <-; reflexivity).
  destruct (check _) in H; try discriminate. injection H as <- <-. reflexivity.
Qed.

(** The status follows the transition table; frames without detection leave it alone. *)
Theorem C43_transitions : forall s o d s' r, (1 <= nearest S < 2 ^ 30)%Z -> (Z.of_nat (frames s) < 2 ^ 31 - 1)%Z ->
  (0 <= acc s)%Z -> add_frame s o d = Ok (s', r) ->
  (r_ran r = true -> follows (tries S <=? 1)%Z (stat s) (detected r) (stat s')) /\ (r_ran r = false -> stat s' = stat s).
Proof.
  intros s o d s' r Hk Hf Ha H. rewrite add_frame_eq in H by assumption. destruct (skipped S s d) eqn:E.
  { injection H as <- <-. cbn. split; [discriminate|reflexivity]. }
  destruct (not_skipped _ _ _ ignore_int Hf E) as [_ Hi].
  destruct (cand_ok S (wellm G S s o) (close_c G S s o) Hk) as (q & Q1 & Q2 & Q3 & Q4 & Q5);
    [apply wellm_nodup|pose proof (wellm_len G S s o); lia|].
  rewrite Q1 in H. cbn [bind] in H.
  assert (stat s' = fst (advance S (stat s) (acc s) (det_of G S s o)) /\ r_cand r = q /\ r_ran r = true) as (R1 & R2 & R3).
  { destruct (fst (advance S (stat s) (acc s) (det_of G S s o))) eqn:Ea; try (injection H as <- <-; cbn; auto; fail).
    destruct (check _) in H; try discriminate. injection H as <- <-. cbn. auto. }
  split; [|rewrite R3; discriminate]. intros _.
  assert (detected r = det_of G S s o) as ->.
  { unfold detected, det_of. rewrite R2. destruct q as [|x q].
    - rewrite (proj1 Q5 eq_refl). reflexivity.
    - destruct (wellm G S s o); [|reflexivity]. discriminate (proj2 Q5 eq_refl). }
  rewrite R1. destruct (stat s), (det_of G S s o); cbn; try constructor.
  - destruct (Z.leb_spec (tries S) 1); constructor; reflexivity.
  - destruct (Z.leb_spec (tries S) (acc s + 1)); constructor. apply Z.leb_gt. lia.
Qed.

(** ** C45 *)
(** A loop is reported closed exactly if there are at least two edges and none is farther than
    0.25 or 0.02 from the first. *)
Theorem C45_accepted_iff : forall s o d s' r, (Z.of_nat (frames s) < 2 ^ 31 - 1)%Z -> add_frame s o d = Ok (s', r) ->
  (r_succeed r = true <-> exists e f l, r_edges r = e :: f :: l /\ forall x, In x (f :: l) ->
     ~ fgt (tn (gmul (ginv (snd e)) (snd x))) quarter /\ ~ fgt (rn (gmul (ginv (snd e)) (snd x))) fiftieth).
Proof.
  intros s o d s' r Hf H.
  assert (r_succeed r = check_result G tn rn (r_edges r)) as ->.
  { rewrite add_frame_eq in H by assumption. destruct (skipped S s d); [injection H as <- <-; reflexivity|].
    destruct (candidates S (wellm G S s o) (close_c G S s o)) as [q| | |]; try discriminate. cbn [bind] in H.
    destruct (fst (advance S (stat s) (acc s) (det_of G S s o))); try (injection H as <- <-; reflexivity).
    destruct (check _) in H; try discriminate. injection H as <- <-. reflexivity. }
  assert (forall x y, SFltb y x = true <-> fgt x y) as Lt.
  { intros x y. unfold SFltb, fgt. assert (SFcompare y x = option_map CompOpp (SFcompare x y)) as ->.
    { destruct x as [a|a| |a m e], y as [b|b| |b n f]; cbn; try reflexivity;
        try (destruct a; reflexivity); try (destruct b; reflexivity); try (destruct a, b; reflexivity).
      rewrite (Z.compare_antisym e f). destruct a, b; cbn; try reflexivity;
        destruct (Z.compare e f); cbn; try reflexivity;
        change (Pos.compare_cont Eq n m) with (Pos.compare n m); change (Pos.compare_cont Eq m n) with (Pos.compare m n);
        rewrite (Pos.compare_antisym m n); destruct (Pos.compare m n); reflexivity. }
    destruct (SFcompare x y) as [[| |]|]; cbn; intuition congruence. }
  assert (forall x, negb (SFltb quarter (tn x) || SFltb fiftieth (rn x)) = true <-> ~ fgt (tn x) quarter /\ ~ fgt (rn x) fiftieth) as Nb.
  { intros x. rewrite negb_true_iff, orb_false_iff, <- !not_true_iff_false, !Lt. reflexivity. }
  destruct (r_edges r) as [|e [|f l]]; cbn [check_result].
  - split; [discriminate|]. intros (e & f & l & X & _). discriminate.
  - split; [discriminate|]. intros (e' & f & l & X & _). discriminate.
  - rewrite forallb_forall. split.
    + intros X. exists e, f, l. split; [reflexivity|]. intros x Hx. apply Nb. apply (X x Hx).
    + intros (e' & f' & l' & X & Y). injection X as <- <- <-. intros x Hx. apply Nb. apply Y. exact Hx.
Qed.
(** So if no difference is a NaN, all edges agree with the first. *)
Theorem C45_agree_with_first : forall s o d s' r e l, (Z.of_nat (frames s) < 2 ^ 31 - 1)%Z -> add_frame s o d = Ok (s', r) ->
  r_succeed r = true -> r_edges r = e :: l ->
  (forall x, In x l -> tn (gmul (ginv (snd e)) (snd x)) <> S754_nan /\ rn (gmul (ginv (snd e)) (snd x)) <> S754_nan) ->
  l <> [] /\ forall x, In x l -> agree tn rn (snd e) (snd x).
Proof.
  intros s o d s' r e l Hf H Hs He Hn. apply (C45_accepted_iff s o d s' r Hf H) in Hs. destruct Hs as (e' & f & l' & X & Y).
  rewrite He in X. injection X as <- ->. split; [discriminate|]. intros x Hx. destruct (Hn x Hx) as [N1 N2], (Y x Hx) as [Y1 Y2].
  assert (forall a b, a <> S754_nan -> b = quarter \/ b = fiftieth -> ~ fgt a b -> fle a b) as T.
  { intros a b Na Hb. unfold fgt, fle. destruct (SFcompare a b) as [[| |]|] eqn:E; try tauto. exfalso.
    assert (b <> S754_nan) as Nb by (destruct Hb as [-> | ->]; discriminate). clear Hb.
    destruct a as [x1|x1| |x1 m1 e1], b as [x2|x2| |x2 m2 e2]; try congruence; cbn in E; try discriminate;
      try (destruct x1; discriminate); try (destruct x2; discriminate); destruct x1, x2; try discriminate;
      destruct (Z.compare e1 e2); discriminate. }
  split; [apply T; auto|apply T; auto].
Qed.
End Props.

(** ** Witnesses and concrete cases: positions on a line in units of 1/8 m *)
Definition fl8 (z : Z) : spec_float := binary_normalize 53 1024 z (-3) false.
Definition ex_tn (a : Zgroup) : spec_float := fl8 (Z.abs a).
Definition ex_rn (a : Zgroup) : spec_float := S754_zero false.
Definition ex_set : settings := mkSet false 2 1 4 (fl8 200) (fl8 8).
Definition ex_obs (dist : nat -> spec_float) (fin : list (edge Zgroup) -> list (edge Zgroup)) (p : nat -> option Zgroup) : obs Zgroup :=
  mkObs dist (fun _ => S754_zero false) (fun _ => true) p fin.
(** frame 0 is near to everything, other frames far away *)
Definition d0 (i : nat) : spec_float := if Nat.ltb i 2 then fl8 8 else fl8 1000.
Definition quiet := ex_obs d0 (fun l => l) (fun _ => None).
Definition warm : outcome (det * list (result Zgroup)) :=
  hist Zgroup ex_tn ex_rn ex_set (det0 0) [Add quiet true; Add quiet true; Add quiet true; Add quiet true].
(** After four frames the detector is entering a loop; the fifth attempts to close it. *)
Example C43_example : exists s rs, warm = Ok (s, rs) /\ stat s = Entering /\ frames s = 4 /\
  map (@r_tried Zgroup) rs = [false; false; false; false] /\ map detected rs = [false; false; false; true] /\
  exists s' r, add_frame Zgroup ex_tn ex_rn ex_set s (ex_obs d0 (fun l => l) (fun i => Some 0%Z)) true = Ok (s', r) /\
    r_tried r = true /\ r_cand r = [0; 1] /\ r_succeed r = true.
Proof.
  eexists _, _. split; [vm_compute; reflexivity|]. repeat (split; [vm_compute; reflexivity|]).
  eexists _, _. split; [vm_compute; reflexivity|]. repeat (split; [vm_compute; reflexivity|]). reflexivity.
Qed.
Definition s5 : det := mkDet 4 Entering 1 (-1) (-1).
Definition d3 (i : nat) : spec_float := fl8 8.
Definition s9 : det := mkDet 9 Continuous 1 (-1) (-1).
Definition pos3 (i : nat) : option Zgroup := match i with 0 => Some 0%Z | 1 => Some 2%Z | 2 => Some (-2)%Z | _ => None end.
(** Accepted edges need not agree with each other: the edges from frames 1 and 2 place the new
    frame half a metre apart. *)
Theorem C45_pairwise_refuted : exists o s' r p q, fair o /\ add_frame Zgroup ex_tn ex_rn ex_set s9 o true = Ok (s', r) /\
  r_succeed r = true /\ In (1, p) (r_edges r) /\ In (2, q) (r_edges r) /\ ~ agree ex_tn ex_rn p q.
Proof.
  exists (mkObs (fun i => fl8 (Z.of_nat i)) (fun _ => S754_zero false) (fun _ => true) pos3 (fun l => l)).
  eexists _, _, 2%Z, (-2)%Z. split; [intros l; apply Permutation_refl|]. split; [vm_compute; reflexivity|].
  split; [vm_compute; reflexivity|]. split; [vm_compute; auto|]. split; [vm_compute; auto|].
  vm_compute. tauto.
Qed.
(** The verdict depends on the order in which the matching tasks finish. *)
Theorem C45_depends_on_order : exists o1 o2 s1 r1 s2 r2, fair o1 /\ fair o2 /\ (forall i, xy o1 i = xy o2 i) /\ (forall i, zd o1 i = zd o2 i) /\
  (forall i, close o1 i = close o2 i) /\ (forall i, dmatch o1 i = dmatch o2 i) /\
  add_frame Zgroup ex_tn ex_rn ex_set s9 o1 true = Ok (s1, r1) /\ add_frame Zgroup ex_tn ex_rn ex_set s9 o2 true = Ok (s2, r2) /\
  Permutation (r_edges r1) (r_edges r2) /\ r_succeed r1 = true /\ r_succeed r2 = false.
Proof.
  exists (mkObs (fun i => fl8 (Z.of_nat i)) (fun _ => S754_zero false) (fun _ => true) pos3 (fun l => l)).
  exists (mkObs (fun i => fl8 (Z.of_nat i)) (fun _ => S754_zero false) (fun _ => true) pos3 (@rev (edge Zgroup))).
  eexists _, _, _, _. split; [intros l; apply Permutation_refl|]. split; [intros l; apply Permutation_sym, Permutation_rev|].
  split; [reflexivity|]. split; [reflexivity|]. split; [reflexivity|]. split; [reflexivity|].
  split; [vm_compute; reflexivity|]. split; [vm_compute; reflexivity|].
  split; [|split; reflexivity]. cbn. apply (Permutation_rev [(0, 0%Z); (1, 2%Z); (2, (-2)%Z)]).
Qed.
(** Edges whose difference is not a number are accepted. *)
Theorem C45_nan_accepted : exists o s' r, fair o /\
  add_frame Zgroup (fun _ => S754_nan) (fun _ => S754_nan) ex_set s9 o true = Ok (s', r) /\ r_succeed r = true /\
  forall p q : Zgroup, ~ agree (fun _ => S754_nan) (fun _ => S754_nan) p q.
Proof.
  exists (mkObs (fun i => fl8 (Z.of_nat i)) (fun _ => S754_zero false) (fun _ => true) pos3 (fun l => l)).
  eexists _, _. split; [intros l; apply Permutation_refl|]. split; [vm_compute; reflexivity|].
  split; [reflexivity|]. intros p q [X _]. exact X.
Qed.
(** With a search window the partner can be the frame just before. *)
Example C44_window_example : exists s r, add_frame Zgroup ex_tn ex_rn ex_set (mkDet 9 Continuous 1 8 100)
  (ex_obs d3 (fun l => l) (fun _ => None)) true = Ok (s, r) /\ r_index r = 9 /\ r_cand r = [8].
Proof. eexists _, _. split; vm_compute; auto. Qed.
(** Sub-sampling nine matches to four, plus the closest one. *)
Example C44_subsampling_example : exists s r, add_frame Zgroup ex_tn ex_rn ex_set (mkDet 11 Continuous 1 (-1) (-1))
  (ex_obs (fun i => if Nat.eqb i 7 then fl8 1 else fl8 9) (fun l => l) (fun _ => None)) true = Ok (s, r) /\ r_cand r = [0; 2; 4; 6; 7].
Proof. eexists _, _. split; vm_compute; auto. Qed.
Example C81_example : exists s r, add_frame Zgroup ex_tn ex_rn ex_set s5 (ex_obs d0 (fun l => l) (fun _ => None)) true = Ok (s, r) /\
  r_status r = Entering /\ stat s = Continuous.
Proof. eexists _, _. split; vm_compute; auto. Qed.

Print Assumptions C43_consecutive.
Print Assumptions C43_transitions.
Print Assumptions C44_total.
Print Assumptions C44_candidates.
Print Assumptions C44_edges.
Print Assumptions C44_nearest_zero.
Print Assumptions C44_nearest_negative.
Print Assumptions C44_negative_threshold.
Print Assumptions C45_accepted_iff.
Print Assumptions C45_agree_with_first.
Print Assumptions C45_pairwise_refuted.
Print Assumptions C45_depends_on_order.
Print Assumptions C45_nan_accepted.
Print Assumptions C81_status_lags.
