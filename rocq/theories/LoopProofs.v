(** Loop detection: proofs. *)
From Coq Require Import List Bool ZArith SpecFloat Lia Permutation.
From Verif Require Import Outcome Pose MathModel LoopModel LoopSpec.
Import ListNotations.

Lemma SFleb_fle : forall x y, SFleb x y = true <-> fle x y.
Proof. intros. unfold SFleb, fle. destruct (SFcompare x y) as [[| |]|]; intuition congruence. Qed.

Section Proofs.
Variable G : group.
Variables tn rn : G -> spec_float.

Definition inr (S : settings) (o : obs G) (i : nat) : bool := SFleb (xy o i) (maxd S) && SFleb (zd o i) (maxz S).
Lemma inr_near : forall S o i, inr S o i = true <-> near S o i.
Proof. intros. unfold inr, near. rewrite andb_true_iff, !SFleb_fle. reflexivity. Qed.

Lemma look_fold : forall S o l a, fst (fold_left (look G S o) l a) = fst a ++ filter (inr S o) l /\
  (forall c, fst (snd (fold_left (look G S o) l a)) = Some c -> fst (snd a) = Some c \/ In c (filter (inr S o) l)).
Proof.
  intros S o l. induction l as [|i l IH]; intros a; cbn [fold_left filter].
  - rewrite app_nil_r. split; [reflexivity|]. auto.
  - destruct (IH (look G S o a i)) as [H1 H2]. unfold look in *. fold (inr S o i) in *.
    destruct (inr S o i) eqn:E.
    + split; [rewrite H1; cbn; rewrite <- app_assoc; reflexivity|]. intros c Hc. apply H2 in Hc. cbn [fst snd] in Hc.
      destruct Hc as [Hc|Hc]; [|right; right; exact Hc].
      destruct (SFltb (xy o i) (snd (snd a))); [|auto]. injection Hc as ->. right. left. reflexivity.
    + split; [exact H1|exact H2].
Qed.

Lemma well_ok : forall S o cur l, ~ In cur l ->
  well G S o cur l = Ok (if use_descriptor S then filter (dmatch o) l else l).
Proof.
  intros S o cur l. induction l as [|i l IH]; intros H; cbn [well].
  - destruct (use_descriptor S); reflexivity.
  - assert (~ In cur l) as H' by (intros X; apply H; right; exact X). rewrite (IH H').
    destruct (use_descriptor S); [|reflexivity].
    replace (Nat.eqb i cur) with false by (symmetry; apply Nat.eqb_neq; intros ->; apply H; left; reflexivity).
    cbn. destruct (dmatch o i); reflexivity.
Qed.

Lemma pick_ok : forall l st k i, (0 <= i)%Z -> (0 < st)%Z -> (k = 0 \/ ((i + Z.of_nat k - 1) * st < Z.of_nat (length l))%Z) ->
  exists q, pick l st i k = Ok q /\ length q = k /\
    forall j, j < k -> nth_error q j = nth_error l (Z.to_nat ((i + Z.of_nat j) * st)).
Proof.
  intros l st k. induction k as [|k IH]; intros i Hi Hs Hk.
  - exists []. split; [reflexivity|]. split; [reflexivity|]. lia.
  - destruct Hk as [Hk|Hk]; [lia|]. cbn [pick]. unfold at_.
    assert (0 <= i * st)%Z by nia.
    assert (Z.to_nat (i * st) < length l) as Hl by nia.
    destruct (nth_error l (Z.to_nat (i * st))) as [x|] eqn:E; [|apply nth_error_None in E; lia].
    replace (i * st <? 0)%Z with false by (symmetry; apply Z.ltb_ge; lia). cbn [bind].
    destruct (IH (i + 1)%Z ltac:(lia) Hs) as (q & Q1 & Q2 & Q3).
    { destruct k; [left; reflexivity|right]. replace (i + 1 + Z.of_nat (S k) - 1)%Z with (i + Z.of_nat (S (S k)) - 1)%Z by lia. exact Hk. }
    rewrite Q1. cbn [bind]. exists (x :: q). split; [reflexivity|]. split; [cbn; lia|].
    intros [|j] Hj; cbn [nth_error]; [rewrite Z.add_0_r; auto|]. rewrite Q3 by lia. f_equal. f_equal. f_equal. lia.
Qed.
Lemma picked : forall (l : list nat) st i k (q : list nat), (0 <= i)%Z -> (0 < st)%Z -> NoDup l -> length q = k ->
  ((i + Z.of_nat k - 1) * st < Z.of_nat (length l))%Z ->
  (forall j, j < k -> nth_error q j = nth_error l (Z.to_nat ((i + Z.of_nat j) * st))) ->
  NoDup q /\ incl q l.
Proof.
  intros l st i k q Hi Hs Hn Hl Hk H. split.
  - apply NoDup_nth_error. intros a b Ha E. assert (b < length q) as Hb.
    { apply nth_error_Some. rewrite <- E. apply nth_error_Some. exact Ha. }
    rewrite Hl in Ha, Hb. rewrite !H in E by assumption.
    rewrite NoDup_nth_error in Hn.
    assert (Z.to_nat ((i + Z.of_nat a) * st) < length l) as Hx by nia.
    apply Hn in E; [|exact Hx]. apply Z2Nat.inj in E; [|nia|nia]. apply Z.mul_cancel_r in E; lia.
  - intros x Hx. apply In_nth_error in Hx. destruct Hx as [j Hj].
    assert (j < k) as Hjk by (rewrite <- Hl; apply nth_error_Some; congruence).
    rewrite H in Hj by exact Hjk. apply nth_error_In in Hj. exact Hj.
Qed.

Lemma cand_ok : forall S l cl, (1 <= nearest S < 2 ^ 30)%Z -> NoDup l -> (Z.of_nat (length l) < 2 ^ 31)%Z ->
  exists q, candidates S l cl = Ok q /\ NoDup q /\ (Z.of_nat (length q) <= nearest S + 1)%Z /\
    (forall x, In x q -> In x l \/ cl = Some x) /\ (q = [] <-> l = []).
Proof.
  intros S l cl Hk Hn Hl. unfold candidates.
  replace (nearest S =? 2 ^ 31 - 1)%Z with false by (symmetry; apply Z.eqb_neq; lia).
  replace (nearest S + 1 <? 0)%Z with false by (symmetry; apply Z.ltb_ge; lia).
  destruct l as [|x0 l0] eqn:El; [exists []; split; [reflexivity|]; split; [constructor|]; split; [cbn; lia|]; split; [intros x []|tauto]|].
  rewrite <- El in *. assert (0 < length l) as Hpos by (rewrite El; cbn; lia).
  replace (2 ^ 30 <=? nearest S)%Z with false by (symmetry; apply Z.leb_gt; lia).
  rewrite Z.mod_small by lia. rewrite Z.mod_small by lia.
  replace (nearest S =? 0)%Z with false by (symmetry; apply Z.eqb_neq; lia).
  assert (exists b, (if nearest S * 2 <=? Z.of_nat (length l)
     then pick l (Z.of_nat (length l) ÷ nearest S) 0 (Z.to_nat (nearest S))
     else pick l 1 0 (Z.to_nat (if nearest S <? Z.of_nat (length l) then nearest S else Z.of_nat (length l))))%Z = Ok b /\
     NoDup b /\ (Z.of_nat (length b) <= nearest S)%Z /\ incl b l /\ b <> []) as (b & B1 & B2 & B3 & B4 & B5).
  { assert (forall st k, (0 < st)%Z -> (1 <= k <= nearest S)%Z -> ((k - 1) * st < Z.of_nat (length l))%Z ->
      exists b, pick l st 0 (Z.to_nat k) = Ok b /\ NoDup b /\ (Z.of_nat (length b) <= nearest S)%Z /\ incl b l /\ b <> []) as P.
    { intros st k Hs Hk1 Hk2. destruct (pick_ok l st (Z.to_nat k) 0 ltac:(lia) Hs) as (b & B1 & B2 & B3).
      { right. rewrite Z2Nat.id by lia. exact Hk2. }
      exists b. split; [exact B1|].
      destruct (picked l st 0 (Z.to_nat k) b ltac:(lia) Hs Hn B2) as [N I]; [rewrite Z2Nat.id by lia; exact Hk2|exact B3|].
      split; [exact N|]. split; [lia|]. split; [exact I|]. intros ->. cbn in B2. lia. }
    destruct (Z.leb_spec (nearest S * 2) (Z.of_nat (length l))) as [L|L].
    - apply P; [|lia|].
      + rewrite Z.quot_div_nonneg by lia. apply Z.div_str_pos. lia.
      + rewrite Z.quot_div_nonneg by lia. pose proof (Z.mul_div_le (Z.of_nat (length l)) (nearest S) ltac:(lia)).
        assert (0 < Z.of_nat (length l) / nearest S)%Z by (apply Z.div_str_pos; lia). nia.
    - apply P; [lia| |]; destruct (Z.ltb_spec (nearest S) (Z.of_nat (length l))); lia. }
  rewrite B1. cbn [bind]. destruct cl as [c|].
  - destruct (existsb (Nat.eqb c) b) eqn:Ex.
    + exists b. split; [reflexivity|]. split; [exact B2|]. split; [lia|]. split; [auto|]. split; intros Hq; [contradiction|rewrite Hq in Hpos; cbn in Hpos; lia].
    + exists (b ++ [c]). split; [reflexivity|]. split.
      { apply (Permutation_NoDup (Permutation_cons_append b c)). constructor; [|exact B2]. intros Hc.
        assert (existsb (Nat.eqb c) b = true) by (apply existsb_exists; exists c; split; [exact Hc|apply Nat.eqb_refl]). congruence. }
      split; [rewrite app_length; cbn; lia|]. split.
      { intros x Hx. apply in_app_iff in Hx. destruct Hx as [Hx|[->|[]]]; auto. }
      split; intros H; [destruct b; discriminate|rewrite H in Hpos; cbn in Hpos; lia].
  - exists b. split; [reflexivity|]. split; [exact B2|]. split; [lia|]. split; [auto|]. split; intros Hq; [contradiction|rewrite Hq in Hpos; cbn in Hpos; lia].
Qed.

(** The range of frames looked at. *)
Lemma clamp_id : forall v lo hi, (lo <= hi)%Z -> iclamp v lo hi = Z.max lo (Z.min v hi).
Proof.
  intros v lo hi H. unfold iclamp, clamp. rewrite Z.gtb_ltb. destruct (Z.ltb_spec hi v); [lia|]. destruct (Z.ltb_spec v lo); lia.
Qed.
Definition from_ (s : det) : Z := if (0 <=? wend s)%Z && (0 <=? wstart s)%Z then iclamp (wstart s) 0 (Z.of_nat (frames s) + 1 - 1) else 0%Z.
Definition to_ (S : settings) (s : det) : Z :=
  if (0 <=? wend s)%Z && (0 <=? wstart s)%Z then iclamp (wend s) 0 (Z.of_nat (frames s) + 1 - 1)
  else (Z.of_nat (frames s) + 1 - 1 - ignore S)%Z.
Lemma range_eligible : forall S s i, (0 <= ignore S)%Z ->
  In i (seq (Z.to_nat (from_ s)) (Z.to_nat (to_ S s) - Z.to_nat (from_ s))) <-> eligible (window s) (ignore S) (frames s) i.
Proof.
  intros S s i Hi. rewrite in_seq. unfold from_, to_, eligible, window.
  rewrite (andb_comm (0 <=? wend s)%Z). destruct ((0 <=? wstart s) && (0 <=? wend s))%Z eqn:E.
  - apply andb_true_iff in E. destruct E as [E1 E2]. apply Z.leb_le in E1, E2. rewrite !clamp_id by lia. lia.
  - lia.
Qed.

(** What is examined by a call that carries out the detection. *)
Definition seen (S : settings) (s : det) (o : obs G) : list nat :=
  filter (inr S o) (seq (Z.to_nat (from_ s)) (Z.to_nat (to_ S s) - Z.to_nat (from_ s))).
Definition wellm (S : settings) (s : det) (o : obs G) : list nat :=
  if use_descriptor S then filter (dmatch o) (seen S s o) else seen S s o.
Definition close_c (S : settings) (s : det) (o : obs G) : option nat :=
  closest S (snd (scan G S o (from_ s) (to_ S s))).
Definition det_of (S : settings) (s : det) (o : obs G) : bool := match wellm S s o with [] => false | _ => true end.

Lemma NoDup_filter' : forall {A} (f : A -> bool) l, NoDup l -> NoDup (filter f l).
Proof.
  intros A f l H. induction H as [|x l Hx Hl IH]; cbn; [constructor|]. destruct (f x); [|exact IH]. constructor; [|exact IH].
  intros X. apply Hx. apply filter_In in X. tauto.
Qed.
Lemma wellm_nodup : forall S s o, NoDup (wellm S s o).
Proof.
  intros. unfold wellm, seen. destruct (use_descriptor S); repeat apply NoDup_filter'; apply seq_NoDup.
Qed.
Lemma filter_len : forall {A} (f : A -> bool) l, length (filter f l) <= length l.
Proof. intros A f l. induction l; cbn; [lia|]. destruct (f a); cbn; lia. Qed.
Lemma wellm_len : forall S s o, (0 <= ignore S)%Z -> length (wellm S s o) <= frames s.
Proof.
  intros S s o Hi. apply Nat.le_trans with (length (seq (Z.to_nat (from_ s)) (Z.to_nat (to_ S s) - Z.to_nat (from_ s)))).
  - unfold wellm, seen. destruct (use_descriptor S).
    + eapply Nat.le_trans; [apply filter_len|apply filter_len].
    + apply filter_len.
  - rewrite seq_length. unfold to_. destruct ((0 <=? wend s) && (0 <=? wstart s))%Z; [rewrite clamp_id by lia; lia|lia].
Qed.
Lemma seen_in : forall S s o i, (0 <= ignore S)%Z -> In i (seen S s o) <-> eligible (window s) (ignore S) (frames s) i /\ near S o i.
Proof. intros. unfold seen. rewrite filter_In, range_eligible, inr_near by assumption. reflexivity. Qed.
Lemma wellm_in : forall S s o i, (0 <= ignore S)%Z -> In i (wellm S s o) <->
  eligible (window s) (ignore S) (frames s) i /\ near S o i /\ alike S o i.
Proof.
  intros S s o i H. unfold wellm, alike. destruct (use_descriptor S).
  - rewrite filter_In, seen_in by assumption. tauto.
  - rewrite seen_in by assumption. intuition congruence.
Qed.
Lemma close_in : forall S s o c, (0 <= ignore S)%Z -> close_c S s o = Some c -> In c (seen S s o).
Proof.
  intros S s o c H E. unfold close_c, closest in E. destruct (SFleb _ _) in E; [discriminate|].
  unfold scan in E. apply look_fold in E. destruct E as [E|E]; [discriminate|exact E].
Qed.

Definition skipped (S : settings) (s : det) (d : bool) : bool := negb d || (Z.of_nat (frames s) + 1 <=? ignore S mod 2 ^ 64)%Z.
Lemma skipped_neg : forall S s, (- 2 ^ 31 <= ignore S < 0)%Z -> (Z.of_nat (frames s) < 2 ^ 31 - 1)%Z -> skipped S s true = true.
Proof.
  intros S s H Hf. unfold skipped. cbn. apply Z.leb_le. rewrite <- (Z_mod_plus_full _ 1), Z.mod_small by lia. lia.
Qed.
Lemma not_skipped : forall S s d, (- 2 ^ 31 <= ignore S < 2 ^ 31)%Z -> (Z.of_nat (frames s) < 2 ^ 31 - 1)%Z ->
  skipped S s d = false -> d = true /\ (0 <= ignore S <= Z.of_nat (frames s))%Z.
Proof.
  intros S s d H Hf E. destruct d; [|discriminate]. split; [reflexivity|]. destruct (Z.lt_ge_cases (ignore S) 0) as [L|L].
  - rewrite skipped_neg in E by lia. discriminate.
  - unfold skipped in E. cbn in E. apply Z.leb_gt in E. rewrite Z.mod_small in E by lia. lia.
Qed.

(** A call, unfolded. *)
Lemma add_frame_eq : forall S s o d, (- 2 ^ 31 <= ignore S < 2 ^ 31)%Z -> (Z.of_nat (frames s) < 2 ^ 31 - 1)%Z ->
  add_frame G tn rn S s o d =
  if skipped S s d
  then Ok (mkDet (Datatypes.S (frames s)) (stat s) (acc s) (wstart s) (wend s), mkRes (stat s) (frames s) false [] false [] false)
  else bind (candidates S (wellm S s o) (close_c S s o)) (fun c =>
    let st' := fst (advance S (stat s) (acc s) (det_of S s o)) in
    let s2 := mkDet (Datatypes.S (frames s)) st' (snd (advance S (stat s) (acc s) (det_of S s o))) (wstart s) (wend s) in
    match st' with
    | Continuous =>
        bind (check (match c with [] => false | _ => true end)) (fun _ =>
        let e := finish o (flat_map (fun i => match close o i with Some p => [(i, p)] | None => [] end) c) in
        Ok (s2, mkRes (stat s) (frames s) (check_result G tn rn e) e true c true))
    | _ => Ok (s2, mkRes (stat s) (frames s) false [] true c false)
    end).
Proof.
  intros S s o d Hi Hf. unfold add_frame. fold (skipped S s d). destruct (skipped S s d) eqn:E; [reflexivity|].
  destruct (not_skipped _ _ _ Hi Hf E) as [_ Hg]. fold (from_ s). fold (to_ S s).
  assert (fst (scan G S o (from_ s) (to_ S s)) = seen S s o) as E1.
  { unfold scan. rewrite (proj1 (look_fold S o _ _)). reflexivity. }
  rewrite E1, well_ok; [|intros X; apply seen_in in X; [destruct X as [[X _] _]; lia|lia]].
  fold (wellm S s o). cbn [bind]. fold (close_c S s o). destruct (candidates S (wellm S s o) (close_c S s o)) as [c| | |]; try reflexivity.
  cbn [bind]. fold (det_of S s o). destruct (advance S (stat s) (acc s) (det_of S s o)) as [st' a']. reflexivity.
Qed.
End Proofs.
