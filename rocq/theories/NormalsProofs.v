From Coq Require Import List Bool ZArith QArith Arith Lia Permutation Sorted.
From Verif Require Import Outcome NormalsModel NormalsSpec.
Import ListNotations.
Local Open Scope nat_scope.

(** ** Array access *)
Lemma get_Ok : forall A (l : list A) i d, i < length l -> get l i = Ok (nth i l d).
Proof.
  intros A l i d H. unfold get. destruct (nth_error l i) eqn:E.
  - erewrite nth_error_nth; eauto.
  - apply nth_error_None in E. lia.
Qed.
Lemma gets_Ok : forall A (l : list A) d is, Forall (fun i => i < length l) is ->
  gets l is = Ok (map (fun i => nth i l d) is).
Proof.
  intros A l d is H. induction H as [|i r H _ IH]; cbn; [reflexivity|].
  rewrite (get_Ok _ _ _ d H). cbn. rewrite IH. reflexivity.
Qed.
Lemma set_length : forall A (l l' : list A) i a, set l i a = Ok l' -> length l' = length l.
Proof.
  intros A l l' i a H. unfold set in H. destruct (Nat.ltb_spec i (length l)); [|discriminate].
  assert (l' = firstn i l ++ a :: skipn (S i) l) as -> by congruence.
  rewrite app_length, firstn_length. cbn [length]. rewrite skipn_length. lia.
Qed.
Lemma set_Ok : forall A (l : list A) i a d, i < length l ->
  exists l', set l i a = Ok l' /\ length l' = length l /\ nth i l' d = a /\
    forall j, j <> i -> nth j l' d = nth j l d.
Proof.
  intros A l i a d H. unfold set. destruct (Nat.ltb_spec i (length l)); [|lia].
  eexists. split; [reflexivity|].
  split; [rewrite app_length, firstn_length; cbn [length]; rewrite skipn_length; lia|].
  assert (length (firstn i l) = i) as L by (rewrite firstn_length; lia).
  split.
  - rewrite app_nth2 by lia. rewrite L, Nat.sub_diag. reflexivity.
  - intros j Hj. destruct (Nat.lt_ge_cases j i).
    + rewrite app_nth1 by lia. rewrite <- (firstn_skipn i l) at 2. rewrite app_nth1 by lia. reflexivity.
    + rewrite app_nth2 by lia. rewrite L. destruct (j - i) as [|k] eqn:E; [lia|]. cbn [nth].
      rewrite <- (firstn_skipn (S i) l) at 2. rewrite app_nth2 by (rewrite firstn_length; lia).
      rewrite firstn_length. f_equal. lia.
Qed.

Lemma seq_nth_mid : forall (A S B : list nat) d,
  map (fun i => nth i (A ++ S ++ B) d) (seq (length A) (length S)) = S.
Proof.
  intros A S B d. revert A. induction S as [|s S IH]; intros A; cbn [length seq map]; [reflexivity|].
  rewrite app_nth2 by lia. rewrite Nat.sub_diag. cbn [nth app]. f_equal.
  specialize (IH (A ++ [s])). rewrite app_length in IH. cbn [length] in IH.
  rewrite Nat.add_1_r, <- app_assoc in IH. exact IH.
Qed.

Lemma gets_slice : forall (A S B : list nat), gets (A ++ S ++ B) (seq (length A) (length S)) = Ok S.
Proof.
  intros A S B. rewrite (gets_Ok _ _ 0).
  - rewrite seq_nth_mid. reflexivity.
  - apply Forall_forall. intros i Hi. apply in_seq in Hi. rewrite !app_length. lia.
Qed.

(** ** Comparisons *)
Lemma qlt_true : forall a b, qlt a b = true <-> (a < b)%Q.
Proof.
  intros a b. unfold qlt. rewrite negb_true_iff. rewrite <- not_true_iff_false, Qle_bool_iff.
  split; [apply Qnot_le_lt|apply Qlt_not_le].
Qed.
Lemma qlt_false : forall a b, qlt a b = false <-> (b <= a)%Q.
Proof. intros a b. unfold qlt. rewrite negb_false_iff. apply Qle_bool_iff. Qed.

Lemma compare_irrefl : forall pts d a, compare_dim pts d a a = false.
Proof. intros. unfold compare_dim. apply qlt_false. apply Qle_refl. Qed.
Lemma compare_trans : forall pts d a b c, compare_dim pts d a b = true ->
  compare_dim pts d b c = true -> compare_dim pts d a c = true.
Proof. intros pts d a b c. unfold compare_dim. rewrite !qlt_true. apply Qlt_trans. Qed.
Lemma compare_ntrans : forall pts d a b c, compare_dim pts d a b = false ->
  compare_dim pts d b c = false -> compare_dim pts d a c = false.
Proof. intros pts d a b c. unfold compare_dim. rewrite !qlt_false. intros H1 H2. eapply Qle_trans; eassumption. Qed.

Lemma arg_max_lt : forall v, arg_max v < 3.
Proof.
  intros v. unfold arg_max. cbn [fold_left fst snd].
  repeat (match goal with |- context [if ?b then _ else _] => destruct b end; cbn [fst snd]); lia.
Qed.

Section P.
Variable degenerate : list vec -> bool.
Variable normal_of : list vec -> vec.
Variable nth_element : (nat -> nat -> bool) -> list nat -> nat -> list nat.
Hypothesis nth_ok : nth_element_ok nth_element.
Variable orig : list vec.
Notation N := (length orig).

Definition kept (gs : list (list nat)) : list (list nat) :=
  filter (fun g => negb (degenerate (select orig g))) gs.

Definition agree (pts : list vec) (S : list nat) : Prop :=
  forall i, In i S -> nth i pts vzero = nth i orig vzero.

Definition written (f : list vec -> vec) (ks : list (list nat)) (old new : list vec) : Prop :=
  (forall g, In g ks -> nth (hd 0 g) new vzero = f (select orig g)) /\
  (forall i, ~ In i (heads ks) -> nth i new vzero = nth i old vzero).

Lemma heads_in : forall gs i, Forall (fun g => 1 <= length g) gs -> In i (heads (kept gs)) ->
  In i (concat gs).
Proof.
  intros gs i H Hi. unfold heads in Hi. apply in_map_iff in Hi. destruct Hi as (g & <- & Hg).
  apply filter_In in Hg. destruct Hg as [Hg _]. rewrite in_concat. exists g. split; [exact Hg|].
  rewrite Forall_forall in H. specialize (H g Hg). destruct g; [cbn in H; lia|left; reflexivity].
Qed.

Lemma kept_app : forall a b, kept (a ++ b) = kept a ++ kept b.
Proof. intros. apply filter_app. Qed.
Lemma heads_app : forall a b, heads (a ++ b) = heads a ++ heads b.
Proof. intros. apply map_app. Qed.

Lemma build_spec : forall fuel c A S B lo hi,
  indices c = A ++ S ++ B -> 1 <= length S <= fuel ->
  length (points c) = N -> length (normals c) = N ->
  NoDup S -> Forall (fun i => i < N) S -> agree (points c) S ->
  exists c' gs,
    build_normals degenerate normal_of nth_element fuel c (length A) (length A + length S) lo hi = Ok c' /\
    indices c' = A ++ concat gs ++ B /\ Permutation (concat gs) S /\
    Forall (fun g => 1 <= length g <= 7) gs /\
    (8 <= length S -> Forall (fun g => 4 <= length g) gs) /\
    (length S <= 7 -> length gs = 1) /\
    keep c' = keep c ++ heads (kept gs) /\
    factors c' = factors c /\
    length (points c') = N /\ length (normals c') = N /\
    written mean (kept gs) (points c) (points c') /\
    written normal_of (kept gs) (normals c) (normals c') /\
    ForallOrdPairs (separated orig) gs.
Proof.
  induction fuel as [|fuel IH]; intros c A S B lo hi Hi Hf Hp Hn Hd Hr Ha; [lia|].
  cbn [build_normals]. replace (length A + length S - length A) with (length S) by lia.
  assert (map (fun i => nth i (points c) vzero) S = select orig S) as Hsel.
  { apply map_ext_in. exact Ha. }
  destruct (Nat.leb_spec (length S) 7) as [Hs|Hs].
  - (* a leaf *)
    unfold calculate_group. replace (length A + length S - length A) with (length S) by lia.
    rewrite Hi, gets_slice. cbn [bind].
    rewrite (gets_Ok _ _ vzero) by (rewrite Hp; exact Hr). rewrite Hsel. cbn [bind].
    destruct (degenerate (select orig S)) eqn:Ed.
    + exists c, [S]. split; [reflexivity|]. cbn [concat]. rewrite app_nil_r.
      split; [exact Hi|]. split; [reflexivity|].
      split; [constructor; [lia|constructor]|]. split; [lia|]. split; [reflexivity|].
      unfold kept. cbn [filter]. rewrite Ed. cbn [negb]. unfold heads, written. cbn [map].
      rewrite app_nil_r. repeat split; auto; try contradiction; try (cbn; contradiction).
      constructor; constructor.
    + destruct S as [|k S']; [cbn in Hf; lia|].
      assert (k < N) as Hk by (inversion Hr; assumption).
      rewrite (get_Ok _ _ _ 0) by (rewrite !app_length; cbn; lia).
      rewrite app_nth2 by lia. rewrite Nat.sub_diag. cbn [nth app bind].
      destruct (set_Ok _ (points c) k (mean (select orig (k :: S'))) vzero) as (p' & E1 & L1 & V1 & O1);
        [rewrite Hp; exact Hk|].
      destruct (set_Ok _ (normals c) k (normal_of (select orig (k :: S'))) vzero) as (n' & E2 & L2 & V2 & O2);
        [rewrite Hn; exact Hk|].
      rewrite E1. cbn [bind]. rewrite E2. cbn [bind].
      eexists; exists [k :: S']. split; [reflexivity|]. cbn [indices keep factors points normals].
      cbn [concat]. rewrite app_nil_r. split; [reflexivity|]. split; [reflexivity|].
      split; [constructor; [exact (conj (proj1 Hf) Hs)|constructor]|]. split; [lia|]. split; [reflexivity|].
      unfold kept. cbn [filter]. rewrite Ed. cbn [negb]. unfold heads, written. cbn [map hd].
      split; [reflexivity|]. split; [reflexivity|]. split; [congruence|]. split; [congruence|].
      split; [|split; [|constructor; constructor]].
      * split.
        -- intros g [<-|[]]. exact V1.
        -- intros i Hni. apply O1. intros ->. apply Hni. left. reflexivity.
      * split.
        -- intros g [<-|[]]. exact V2.
        -- intros i Hni. apply O2. intros ->. apply Hni. left. reflexivity.
  - (* a split *)
    set (cut := arg_max (vsub hi lo)). set (lc := length S - length S / 2).
    assert (lc < length S /\ 1 <= lc <= fuel /\ 1 <= length S - lc <= fuel /\
            4 <= lc /\ 4 <= length S - lc) as (Hlc & Hl1 & Hl2 & Hl3 & Hl4).
    { unfold lc. pose proof (Nat.div_mod (length S) 2 ltac:(lia)).
      pose proof (Nat.mod_upper_bound (length S) 2 ltac:(lia)). lia. }
    rewrite Hi, gets_slice. cbn [bind].
    rewrite (gets_Ok _ _ vzero) by (rewrite Hp; exact Hr). cbn [bind].
    destruct (nth_ok (compare_dim (points c) cut) S lc) as [HP HQ].
    specialize (HQ (compare_irrefl _ _) (compare_trans _ _) (compare_ntrans _ _) Hlc).
    set (S' := nth_element (compare_dim (points c) cut) S lc) in *.
    assert (firstn (length A) (A ++ S ++ B) = A) as F1.
    { rewrite firstn_app, Nat.sub_diag. cbn. rewrite app_nil_r. apply firstn_all. }
    assert (skipn (length A + length S) (A ++ S ++ B) = B) as F2.
    { rewrite app_assoc. rewrite <- app_length. rewrite skipn_app, Nat.sub_diag, skipn_all. reflexivity. }
    rewrite F1, F2. pose proof (Permutation_length HP) as LP.
    assert (exists m, nth_error S' lc = Some m) as [m Hm].
    { destruct (nth_error S' lc) eqn:E; [eauto|]. apply nth_error_None in E. lia. }
    assert (In m S) as HmS by (eapply Permutation_in; [exact HP|eapply nth_error_In; exact Hm]).
    assert (m < N) as HmN by (rewrite Forall_forall in Hr; auto).
    assert (get (A ++ S' ++ B) (length A + lc) = Ok m) as G.
    { unfold get. rewrite nth_error_app2 by lia.
      replace (length A + lc - length A) with lc by lia. rewrite nth_error_app1 by lia. rewrite Hm. reflexivity. }
    rewrite G. cbn [bind].
    rewrite (get_Ok _ _ _ vzero) by (rewrite Hp; exact HmN). cbn [bind].
    set (cv := coord cut (nth m (points c) vzero)).
    set (L := firstn lc S'). set (R := skipn lc S').
    assert (S' = L ++ R) as HLR by (unfold L, R; symmetry; apply firstn_skipn).
    assert (length L = lc) as LL by (unfold L; rewrite firstn_length; lia).
    assert (length R = length S - lc) as LR by (unfold R; rewrite skipn_length; lia).
    assert (NoDup (L ++ R)) as HND.
    { rewrite <- HLR. eapply Permutation_NoDup; [apply Permutation_sym; exact HP|exact Hd]. }
    assert (Forall (fun i => i < N) (L ++ R)) as HFR.
    { rewrite <- HLR. eapply Permutation_Forall; [apply Permutation_sym; exact HP|exact Hr]. }
    apply Forall_app in HFR. destruct HFR as [HrL HrR].
    assert (forall i, In i (L ++ R) -> In i S) as Hin.
    { intros i H. rewrite <- HLR in H. eapply Permutation_in; eassumption. }
    set (c1 := mkE (points c) (normals c) (A ++ S' ++ B) (keep c) (factors c)).
    destruct (IH c1 A L (R ++ B) lo (set_coord cut cv hi)) as
      (c2 & g1 & E2 & I2 & P2 & S2 & F2' & O2 & K2 & Fa2 & LP2 & LN2 & W2 & V2 & Sep2); try assumption.
    { cbn. rewrite HLR. rewrite <- app_assoc. reflexivity. }
    { lia. }
    { clear -HND. induction L; cbn in *; [constructor|]. inversion HND; subst.
      constructor; [|auto]. intros H. apply H1. apply in_or_app. auto. }
    { intros i H. cbn. apply Ha. apply Hin. apply in_or_app. auto. }
    rewrite LL in E2. rewrite E2. cbn [bind].
    assert (forall i, In i R -> ~ In i (heads (kept g1))) as HRL.
    { intros i HiR Hh. apply heads_in in Hh; [|eapply Forall_impl; [|exact S2]; cbn; intros; lia].
      eapply Permutation_in in Hh; [|exact P2].
      clear -HND Hh HiR. induction L; [contradiction|]. cbn in HND. inversion HND; subst.
      destruct Hh as [->|Hh]; [apply H1; apply in_or_app; auto|auto]. }
    assert (length (concat g1) = lc) as LG1 by (rewrite (Permutation_length P2); exact LL).
    destruct (IH c2 (A ++ concat g1) R B (set_coord cut cv lo) hi) as
      (c3 & g2 & E3 & I3 & P3 & S3 & F3' & O3 & K3 & Fa3 & LP3 & LN3 & W3 & V3 & Sep3); try assumption.
    { rewrite I2. rewrite <- app_assoc. reflexivity. }
    { lia. }
    { clear -HND. induction L; cbn in *; [assumption|]. inversion HND; subst. auto. }
    { intros i H. rewrite (proj2 W2) by (apply HRL; exact H). cbn. apply Ha. apply Hin.
      apply in_or_app. auto. }
    rewrite app_length, LG1 in E3. replace (length A + lc + length R) with (length A + length S) in E3 by lia.
    rewrite E3. exists c3, (g1 ++ g2). split; [reflexivity|].
    rewrite concat_app. split; [rewrite I3; rewrite <- !app_assoc; reflexivity|].
    split.
    { rewrite P2, P3, <- HLR. exact HP. }
    split; [apply Forall_app; auto|].
    assert (forall (T : list nat) gg, 4 <= length T -> (8 <= length T -> Forall (fun g => 4 <= length g) gg) ->
              (length T <= 7 -> length gg = 1) -> Permutation (concat gg) T ->
              Forall (fun g : list nat => 4 <= length g) gg) as Hsz.
    { intros T gg H1 H2 H3 H4. destruct (Nat.le_gt_cases 8 (length T)); [auto|].
      destruct gg as [|g [|]]; try (specialize (H3 ltac:(lia)); discriminate).
      constructor; [|constructor]. cbn in H4. rewrite app_nil_r in H4.
      apply Permutation_length in H4. lia. }
    split.
    { intros _. apply Forall_app. split; [apply (Hsz L); auto; lia|apply (Hsz R); auto; lia]. }
    split; [lia|].
    rewrite kept_app, heads_app. split; [rewrite K3, K2; cbn; rewrite app_assoc; reflexivity|].
    split; [rewrite Fa3, Fa2; reflexivity|]. split; [exact LP3|]. split; [exact LN3|].
    assert (forall g i, In g (kept g1) -> i = hd 0 g -> ~ In i (heads (kept g2))) as HLR2.
    { intros g i Hg -> Hh. apply (HRL (hd 0 g)).
      - eapply Permutation_in; [exact P3|]. apply heads_in; [|exact Hh].
        eapply Forall_impl; [|exact S3]; cbn; intros; lia.
      - unfold heads. apply in_map_iff. eauto. }
    assert (forall f old mid new, written f (kept g1) old mid -> written f (kept g2) mid new ->
             written f (kept g1 ++ kept g2) old new) as Hw.
    { intros f old mid new [Wa Wb] [Wc Wd]. split.
      - intros g Hg. apply in_app_or in Hg. destruct Hg as [Hg|Hg].
        + rewrite Wd by (eapply HLR2; [exact Hg|reflexivity]). apply Wa. exact Hg.
        + apply Wc. exact Hg.
      - intros i Hni. rewrite heads_app in Hni.
        rewrite Wd by (intros H; apply Hni; apply in_or_app; auto).
        apply Wb. intros H; apply Hni; apply in_or_app; auto. }
    split; [exact (Hw mean _ _ _ W2 W3)|]. split; [exact (Hw normal_of _ _ _ V2 V3)|].
    assert (forall a b, In a g1 -> In b g2 -> separated orig a b) as Hcross.
    { intros a b Hga Hgb. exists cut, cv. split; [apply arg_max_lt|].
      assert (forall i, In i S -> coord cut (nth i orig vzero) = coord cut (nth i (points c) vzero)) as Hco.
      { intros i H. rewrite Ha by exact H. reflexivity. }
      split.
      - intros i Hia.
        assert (In i L) as HiL by (eapply Permutation_in; [exact P2|]; apply in_concat; eauto).
        rewrite Hco by (apply Hin; apply in_or_app; auto).
        apply In_nth_error in HiL. destruct HiL as [q Hq].
        assert (q < lc) by (rewrite <- LL; apply nth_error_Some; congruence).
        assert (nth_error S' q = Some i) as Hq' by (rewrite HLR, nth_error_app1 by lia; exact Hq).
        specialize (HQ q lc i m ltac:(lia) ltac:(lia) Hq' Hm). apply qlt_false in HQ. exact HQ.
      - intros j Hjb.
        assert (In j R) as HjR by (eapply Permutation_in; [exact P3|]; apply in_concat; eauto).
        rewrite Hco by (apply Hin; apply in_or_app; auto).
        apply In_nth_error in HjR. destruct HjR as [q Hq].
        assert (nth_error S' (lc + q) = Some j) as Hq'.
        { rewrite HLR, nth_error_app2 by lia. rewrite LL. replace (lc + q - lc) with q by lia. exact Hq. }
        specialize (HQ lc (lc + q) m j ltac:(lia) ltac:(lia) Hm Hq'). apply qlt_false in HQ. exact HQ. }
    clear -Sep2 Sep3 Hcross. induction Sep2 as [|a l Hfa Hfo IHs]; [exact Sep3|].
    cbn. constructor.
    + apply Forall_app. split; [exact Hfa|]. apply Forall_forall. intros b Hb.
      apply Hcross; [left; reflexivity|exact Hb].
    + apply IHs. intros a0 b0 H1 H2. apply Hcross; [right; exact H1|exact H2].
Qed.

(** ** Sorting and compaction *)
Lemma insert_perm : forall a l, Permutation (insert_sorted a l) (a :: l).
Proof.
  intros a l. induction l as [|b r IH]; cbn; [reflexivity|].
  destruct (Nat.leb a b); [reflexivity|]. rewrite IH. apply perm_swap.
Qed.
Lemma sort_perm : forall l, Permutation (sort l) l.
Proof. induction l as [|a l IH]; cbn; [constructor|]. rewrite insert_perm, IH. reflexivity. Qed.
Lemma insert_sorted_ok : forall a l, StronglySorted le l -> StronglySorted le (insert_sorted a l).
Proof.
  intros a l H. induction H as [|b r H IH Hb]; cbn; [constructor; constructor|].
  destruct (Nat.leb_spec a b).
  - constructor; [constructor; assumption|]. constructor; [assumption|].
    eapply Forall_impl; [|exact Hb]. cbn; intros; lia.
  - constructor; [exact IH|]. eapply Permutation_Forall; [apply Permutation_sym, insert_perm|].
    constructor; [lia|exact Hb].
Qed.
Lemma sort_sorted : forall l, StronglySorted le (sort l).
Proof. induction l as [|a l IH]; cbn; [constructor|]. apply insert_sorted_ok, IH. Qed.
Lemma sort_strict : forall l, NoDup l -> StronglySorted lt (sort l).
Proof.
  intros l H. assert (NoDup (sort l)) as Hn by (eapply Permutation_NoDup; [apply Permutation_sym, sort_perm|exact H]).
  pose proof (sort_sorted l) as Hs. revert Hn Hs. generalize (sort l). clear l H.
  intros l Hn Hs. induction Hs as [|a l Hs IH Ha]; constructor.
  - inversion Hn; subst. auto.
  - inversion Hn; subst. apply Forall_forall. intros b Hb. rewrite Forall_forall in Ha. specialize (Ha b Hb).
    assert (a <> b) by (intros ->; contradiction). lia.
Qed.

Lemma compact_ok : forall ks i p n, StronglySorted lt ks -> Forall (fun k => i <= k) ks ->
  Forall (fun k => k < length p) ks -> length n = length p ->
  exists p' n', compact i ks p n = Ok (p', n') /\ length p' = length p /\ length n' = length p /\
    firstn (i + length ks) p' = firstn i p ++ map (fun k => nth k p vzero) ks /\
    firstn (i + length ks) n' = firstn i n ++ map (fun k => nth k n vzero) ks.
Proof.
  induction ks as [|k ks IH]; intros i p n Hs Hi Hp Hl; cbn [compact].
  - exists p, n. rewrite Nat.add_0_r. cbn. rewrite !app_nil_r. auto.
  - inversion Hs as [|? ? Hs' Hk]; subst. inversion Hi as [|? ? Hik Hi']; subst.
    inversion Hp as [|? ? Hkp Hp']; subst.
    destruct (Nat.leb_spec i k); [|lia]. cbn [check bind].
    rewrite (get_Ok _ p k vzero) by lia. cbn [bind].
    destruct (set_Ok _ p i (nth k p vzero) vzero ltac:(lia)) as (p1 & E1 & L1 & V1 & O1).
    rewrite E1. cbn [bind]. rewrite (get_Ok _ n k vzero) by lia. cbn [bind].
    destruct (set_Ok _ n i (nth k n vzero) vzero ltac:(lia)) as (n1 & E2 & L2 & V2 & O2).
    rewrite E2. cbn [bind].
    destruct (IH (S i) p1 n1) as (p' & n' & E & Lp & Ln & Fp & Fn); try assumption.
    { eapply Forall_impl; [|exact Hk]. cbn. intros; lia. }
    { rewrite L1. exact Hp'. }
    { lia. }
    exists p', n'. split; [exact E|]. split; [lia|]. split; [lia|].
    cbn [length]. replace (i + S (length ks)) with (S i + length ks) by lia. rewrite Fp, Fn.
    assert (forall (q q1 : list vec), length q1 = length q -> i < length q ->
              nth i q1 vzero = nth k q vzero -> (forall j, j <> i -> nth j q1 vzero = nth j q vzero) ->
              firstn (S i) q1 ++ map (fun k => nth k q1 vzero) ks =
              firstn i q ++ map (fun k => nth k q vzero) (k :: ks)) as Haux.
    { intros q q1 Hq Hiq Hv Ho.
      assert (firstn (S i) q1 = firstn i q ++ [nth k q vzero]) as ->.
      { apply (nth_ext _ _ vzero vzero).
        - rewrite app_length, !firstn_length. cbn [length]. lia.
        - intros j Hj. rewrite firstn_length in Hj.
          assert (nth j (firstn (S i) q1) vzero = nth j q1 vzero) as ->.
          { rewrite <- (firstn_skipn (S i) q1) at 2. rewrite app_nth1; [reflexivity|]. rewrite firstn_length. lia. }
          destruct (Nat.eq_dec j i) as [->|Hne].
          + rewrite app_nth2 by (rewrite firstn_length; lia). rewrite firstn_length.
            replace (i - Nat.min i (length q)) with 0 by lia. cbn. exact Hv.
          + rewrite app_nth1 by (rewrite firstn_length; lia). rewrite Ho by exact Hne.
            rewrite <- (firstn_skipn i q) at 1. rewrite app_nth1 by (rewrite firstn_length; lia). reflexivity. }
      rewrite <- app_assoc. f_equal. cbn. f_equal. apply map_ext_in. intros j Hj. apply Ho.
      rewrite Forall_forall in Hk. specialize (Hk j Hj). lia. }
    split; [apply Haux; auto; lia|apply Haux; auto; lia].
Qed.

(** Groups listed in the order of their first index. *)
Lemma perm_heads : forall (gs : list (list nat)) ks, Permutation ks (heads gs) ->
  exists gs', Permutation gs' gs /\ heads gs' = ks.
Proof.
  intros gs ks H. unfold heads in *.
  apply Permutation_map_inv in H. destruct H as (l & -> & Hl). exists l. split; [apply Permutation_sym; exact Hl|reflexivity].
Qed.

Lemma nodup_heads : forall gs, Forall (fun g => 1 <= length g) gs -> NoDup (concat gs) -> NoDup (heads (kept gs)).
Proof.
  intros gs. induction gs as [|g gs IH]; intros H Hn; [constructor|].
  inversion H; subst. cbn [concat] in Hn.
  assert (NoDup (concat gs)) as Hn2.
  { clear -Hn. induction g; cbn in Hn; [assumption|]. inversion Hn; auto. }
  unfold kept. cbn [filter]. fold (kept gs). destruct (negb (degenerate (select orig g))); [|auto].
  cbn. constructor; [|auto]. intros Hh. apply heads_in in Hh; [|assumption].
  destruct g as [|a g]; [cbn in *; lia|]. cbn in Hh, Hn. inversion Hn; subst. apply H4.
  apply in_or_app. auto.
Qed.

Theorem normals_spec : 1 <= N -> forall c,
  points c = orig -> indices c = seq 0 N -> keep c = [] ->
  exists c' gs ks,
    calculate_normals degenerate normal_of nth_element c = Ok c' /\
    Permutation (concat gs) (seq 0 N) /\
    Forall (fun g => 1 <= length g <= 7) gs /\
    (8 <= N -> Forall (fun g => 4 <= length g) gs) /\
    (N <= 7 -> length gs = 1) /\
    ForallOrdPairs (separated orig) gs /\
    Permutation ks (kept gs) /\ StronglySorted lt (heads ks) /\
    points c' = map (fun g => mean (select orig g)) ks /\
    normals c' = map (fun g => normal_of (select orig g)) ks /\
    factors c' = factors c /\ keep c' = heads ks /\ indices c' = concat gs.
Proof.
  intros HN c Hp Hi Hk. unfold calculate_normals. rewrite Hp.
  destruct (Nat.eqb_spec N 0); [lia|].
  set (c0 := mkE orig (repeat vzero N) (indices c) (keep c) (factors c)).
  destruct (build_spec (S N) c0 [] (seq 0 N) [] (low orig) (high orig)) as
    (c1 & gs & E & I & P & Sz & S8 & S7 & K & F & Lp & Ln & Wp & Wn & Sep).
  { cbn. rewrite app_nil_r. exact Hi. }
  { rewrite seq_length. lia. }
  { reflexivity. }
  { cbn. apply repeat_length. }
  { apply seq_NoDup. }
  { apply Forall_forall. intros i H. apply in_seq in H. lia. }
  { intros i _. reflexivity. }
  cbn [length] in E. rewrite seq_length in *. cbn [Nat.add] in E. rewrite E. cbn [bind].
  cbn [keep c0] in K. rewrite Hk in K. cbn [app] in K. rewrite app_nil_r in I. cbn [app] in I.
  assert (Forall (fun g : list nat => 1 <= length g) gs) as Sz1
    by (eapply Forall_impl; [|exact Sz]; cbn; intros; lia).
  assert (NoDup (keep c1)) as Hnd.
  { rewrite K. apply nodup_heads; [exact Sz1|]. eapply Permutation_NoDup; [apply Permutation_sym; exact P|].
    apply seq_NoDup. }
  assert (forall k, In k (keep c1) -> k < N) as Hlt.
  { intros k H. rewrite K in H. apply heads_in in H; [|exact Sz1].
    eapply Permutation_in in H; [|exact P]. apply in_seq in H. lia. }
  destruct (compact_ok (sort (keep c1)) 0 (points c1) (normals c1)) as (p' & n' & Ec & L1 & L2 & F1 & F2).
  { apply sort_strict. exact Hnd. }
  { apply Forall_forall. intros; lia. }
  { rewrite Lp. apply Forall_forall. intros k H. apply Hlt. eapply Permutation_in; [apply sort_perm|exact H]. }
  { congruence. }
  rewrite Ec. cbn [bind fst snd].
  assert (length (sort (keep c1)) <= N) as Hle.
  { rewrite (Permutation_length (sort_perm _)). rewrite <- (seq_length N 0).
    apply NoDup_incl_length; [exact Hnd|]. intros k H. apply in_seq. specialize (Hlt k H). lia. }
  rewrite Lp. destruct (Nat.ltb_spec N (length (sort (keep c1)))); [lia|].
  destruct (perm_heads (kept gs) (sort (keep c1))) as (ks & Pk & Hks).
  { rewrite <- K. apply sort_perm. }
  eexists; exists gs, ks. split; [reflexivity|]. cbn [points normals factors keep indices].
  split; [exact P|]. split; [exact Sz|]. split; [exact S8|]. split; [exact S7|]. split; [exact Sep|].
  split; [exact Pk|]. split; [rewrite Hks; apply sort_strict; exact Hnd|].
  cbn [Nat.add firstn app] in F1, F2. rewrite F1, F2.
  split; [|split; [|split; [exact F|split; [symmetry; exact Hks|exact I]]]].
  - rewrite <- Hks. unfold heads. rewrite map_map. apply map_ext_in. intros g Hg.
    apply (proj1 Wp). eapply Permutation_in; [exact Pk|exact Hg].
  - rewrite <- Hks. unfold heads. rewrite map_map. apply map_ext_in. intros g Hg.
    apply (proj1 Wn). eapply Permutation_in; [exact Pk|exact Hg].
Qed.

End P.

(** ** A correct nth_element (full insertion sort), for the examples *)
Fixpoint ins (less : nat -> nat -> bool) (a : nat) (l : list nat) : list nat :=
  match l with [] => [a] | b :: r => if less b a then b :: ins less a r else a :: l end.
Definition isort (less : nat -> nat -> bool) (l : list nat) (n : nat) : list nat := fold_right (ins less) [] l.

Lemma ins_perm : forall less a l, Permutation (ins less a l) (a :: l).
Proof.
  intros less a l. induction l as [|b r IH]; cbn; [reflexivity|].
  destruct (less b a); [|reflexivity]. rewrite IH. apply perm_swap.
Qed.
Lemma ins_sorted : forall less,
  (forall a, less a a = false) ->
  (forall a b c, less a b = true -> less b c = true -> less a c = true) ->
  (forall a b c, less a b = false -> less b c = false -> less a c = false) ->
  forall c s, StronglySorted (fun a b => less b a = false) s ->
    StronglySorted (fun a b => less b a = false) (ins less c s).
Proof.
  intros less Hi Ht Hn c s Hs. induction Hs as [|b r Hs IH Hb]; cbn; [constructor; constructor|].
  destruct (less b c) eqn:E.
  - constructor; [exact IH|]. eapply Permutation_Forall; [apply Permutation_sym, ins_perm|].
    constructor; [|exact Hb]. destruct (less c b) eqn:E'; [|reflexivity].
    rewrite <- (Hi c). symmetry. eapply Ht; eassumption.
  - constructor; [constructor; assumption|]. constructor; [exact E|].
    eapply Forall_impl; [|exact Hb]. cbn. intros a Ha. eapply Hn; eassumption.
Qed.
Lemma sorted_nth : forall (R : nat -> nat -> Prop) l, (forall a, R a a) -> StronglySorted R l ->
  forall i j a b, i <= j -> nth_error l i = Some a -> nth_error l j = Some b -> R a b.
Proof.
  intros R l Hr Hs. induction Hs as [|c l Hs IH Hc]; intros i j a b Hij Ha Hb.
  - destruct i; discriminate.
  - destruct i as [|i], j as [|j]; cbn in Ha, Hb.
    + injection Ha as <-. injection Hb as <-. apply Hr.
    + injection Ha as <-. rewrite Forall_forall in Hc. apply Hc. eapply nth_error_In; eassumption.
    + lia.
    + eapply IH; [|eassumption|eassumption]. lia.
Qed.
Lemma isort_ok : nth_element_ok isort.
Proof.
  intros less l n. split.
  - unfold isort. induction l as [|a l IH]; cbn; [constructor|]. rewrite ins_perm, IH. reflexivity.
  - intros Hi Ht Hn _ i j a b Hin Hnj Ha Hb.
    eapply (sorted_nth (fun a b => less b a = false)); [exact Hi| | |exact Ha|exact Hb]; [|lia].
    unfold isort. clear Ha Hb. induction l as [|c l IH]; cbn; [constructor|].
    apply ins_sorted; assumption.
Qed.

(** Rank of the covariance at most one: all points on a line. *)
Definition cross_zero (u v : vec) : bool :=
  Qeq_bool (y_ u * z_ v) (z_ u * y_ v) && Qeq_bool (z_ u * x_ v) (x_ u * z_ v) &&
  Qeq_bool (x_ u * y_ v) (y_ u * x_ v).
Definition collinear (l : list vec) : bool :=
  forallb (fun a => forallb (fun b => forallb (fun c => cross_zero (vsub b a) (vsub c a)) l) l) l.
Definition pts8 : list vec :=
  map (fun t => match t with (a, b, c) => mkVec (inject_Z a) (inject_Z b) (inject_Z c) end)
    [(100, 0, 0); (101, 3, 1); (102, 1, 4); (103, 7, 2); (0, 0, 1); (1, 5, 1); (2, 1, 3); (3, 8, 0)]%Z.

Lemma fresh : forall pts c, from_points pts = Ok c ->
  points c = pts /\ indices c = seq 0 (length pts) /\ keep c = [] /\
  length (factors c) = length pts /\ 1 <= length pts.
Proof.
  intros pts c Hc. unfold from_points in Hc.
  destruct (Nat.eqb_spec (length pts) 0) as [|H0]; [discriminate|]. cbn in Hc. injection Hc as <-.
  cbn. rewrite map_length, seq_length. repeat split; lia.
Qed.
