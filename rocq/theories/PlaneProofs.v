(** Proofs for PlaneDetector and the sampler. *)
From Coq Require Import ZArith QArith Qround Lqa List Bool Lia Sorting.Sorted Permutation.
From Verif Require Import Outcome PlaneModel PlaneSpec.
Import ListNotations.

Lemma idx_cmp_eq : forall a b, idx_cmp a b = Eq <-> a = b.
Proof.
  intros [[a b] c] [[x y] z]. unfold idx_cmp. cbn [fst snd]. split.
  - destruct (Z.compare_spec a x); try discriminate. destruct (Z.compare_spec b y); try discriminate. intros H1. apply Z.compare_eq in H1. congruence.
  - intros H. inversion H; subst. rewrite !Z.compare_refl. reflexivity.
Qed.
Lemma idx_dec : forall a b : idx3, {a = b} + {a <> b}.
Proof. intros [[a b] c] [[x y] z]. destruct (Z.eq_dec a x), (Z.eq_dec b y), (Z.eq_dec c z); [left; congruence|right; congruence..]. Qed.
Lemma idx_cmp_anti : forall a b, idx_cmp a b = CompOpp (idx_cmp b a).
Proof.
  intros [[a b] c] [[x y] z]. unfold idx_cmp. cbn [fst snd]. rewrite (Z.compare_antisym x a), (Z.compare_antisym y b), (Z.compare_antisym z c).
  destruct (x ?= a)%Z; cbn; try reflexivity. destruct (y ?= b)%Z; reflexivity.
Qed.
Lemma idx_cmp_trans : forall a b c, idx_cmp a b = Lt -> idx_cmp b c = Lt -> idx_cmp a c = Lt.
Proof.
  intros [[a b] c] [[d e] f] [[x y] z]. unfold idx_cmp. cbn [fst snd].
  destruct (Z.compare_spec a d); destruct (Z.compare_spec d x); try discriminate; try (intros; destruct (Z.compare_spec a x); try lia; reflexivity).
  subst. rewrite Z.compare_refl.
  destruct (Z.compare_spec b e); destruct (Z.compare_spec e y); try discriminate; try (intros; destruct (Z.compare_spec b y); try lia; reflexivity).
  subst. rewrite Z.compare_refl. rewrite !Z.compare_lt_iff. lia.
Qed.

(** The voxels: keys ascend. *)
Definition key_lt (a b : idx3 * list nat) : Prop := idx_cmp (fst a) (fst b) = Lt.
Lemma put_in : forall k i m k' is, StronglySorted key_lt m ->
  In (k', is) (put k i m) <-> (k' <> k /\ In (k', is) m) \/ (k' = k /\ exists old, is = old ++ [i] /\ (In (k, old) m \/ old = [] /\ ~ In k (map fst m))).
Proof.
  intros k i m k' is. induction m as [|[h l] m IH]; intros S.
  - cbn. split.
    + intros [H|[]]. inversion H; subst. right. split; [reflexivity|]. exists []. auto.
    + intros [[_ []]|[-> (old & -> & [[]|[-> _]])]]. left. reflexivity.
  - inversion S as [|? ? S' F]; subst. specialize (IH S'). cbn [put].
    assert (Out : forall x, In x (map fst m) -> idx_cmp h x = Lt).
    { intros x Hx. apply in_map_iff in Hx. destruct Hx as ([y z] & <- & Hy). rewrite Forall_forall in F. apply (F _ Hy). }
    destruct (idx_cmp k h) eqn:C.
    + apply idx_cmp_eq in C. subst h. cbn [In map fst]. split.
      * intros [H|H].
        { inversion H; subst. right. split; [reflexivity|]. exists l. auto. }
        { left. split; [|auto]. intros ->. assert (idx_cmp k k = Lt) by (apply Out; apply in_map_iff; exists (k, is); auto).
          rewrite (proj2 (idx_cmp_eq k k) eq_refl) in H0. discriminate. }
      * intros [[N [H|H]]|[-> (old & -> & [[H|H]|[-> H]])]].
        { inversion H; congruence. } { auto. }
        { inversion H; subst. auto. }
        { assert (idx_cmp k k = Lt) by (apply Out; apply in_map_iff; exists (k, old); auto). rewrite (proj2 (idx_cmp_eq k k) eq_refl) in H0. discriminate. }
        { exfalso. apply H. auto. }
    + cbn [In map fst]. assert (Nk : ~ In k (h :: map fst m)).
      { intros [H|H]; [subst h; rewrite (proj2 (idx_cmp_eq k k) eq_refl) in C; discriminate|].
        pose proof (idx_cmp_trans _ _ _ C (Out _ H)) as T. rewrite (proj2 (idx_cmp_eq k k) eq_refl) in T. discriminate. }
      split.
      * intros [H|[H|H]].
        { inversion H; subst. right. split; [reflexivity|]. exists []. split; [reflexivity|]. right. split; [reflexivity|exact Nk]. }
        { left. inversion H; subst. split; [|auto]. intros ->. apply Nk. left. reflexivity. }
        { left. split; [|auto]. intros ->. apply Nk. right. apply in_map_iff. exists (k, is). auto. }
      * intros [[N [H|H]]|[-> (old & -> & [[H|H]|[-> H]])]]; auto.
        { exfalso. apply Nk. left. congruence. }
        { exfalso. apply Nk. right. apply in_map_iff. exists (k, old). auto. }
    + assert (Nh : h <> k) by (intros ->; rewrite (proj2 (idx_cmp_eq k k) eq_refl) in C; discriminate).
      cbn [In map fst]. rewrite IH. split.
      * intros [H|[[N H]|[-> (old & -> & H)]]].
        { inversion H; subst. left. auto. } { auto. }
        { right. split; [reflexivity|]. exists old. split; [reflexivity|]. destruct H as [H|[-> H]]; [auto|]. right. split; [reflexivity|]. intros [E|E]; congruence. }
      * intros [[N [H|H]]|[-> (old & -> & [[H|H]|[-> H]])]]; auto.
        { inversion H; congruence. }
        { right. right. split; [reflexivity|]. exists old. auto. }
        { right. right. split; [reflexivity|]. exists []. split; [reflexivity|]. right. split; [reflexivity|]. intros E. apply H. auto. }
Qed.
Lemma put_keys : forall k i m x, In x (map fst (put k i m)) -> x = k \/ In x (map fst m).
Proof.
  intros k i m x. induction m as [|[h l] m IH]; cbn [put map fst In]; [intuition|].
  destruct (idx_cmp k h); cbn [map fst In]; intuition.
Qed.
Lemma put_sorted : forall k i m, StronglySorted key_lt m -> StronglySorted key_lt (put k i m).
Proof.
  intros k i m. induction m as [|[h l] m IH]; intros S; [repeat constructor|].
  inversion S as [|? ? S' F]; subst. cbn [put]. destruct (idx_cmp k h) eqn:C.
  - constructor; [assumption|]. rewrite Forall_forall in *. intros x Hx. apply (F _ Hx).
  - constructor; [assumption|]. constructor; [exact C|]. rewrite Forall_forall in *. intros x Hx. eapply idx_cmp_trans; [exact C|apply (F _ Hx)].
  - constructor; [auto|]. rewrite Forall_forall. intros [x xs] Hx. unfold key_lt. cbn [fst].
    assert (K : In x (map fst (put k i m))) by (apply in_map_iff; exists (x, xs); auto).
    destruct (put_keys _ _ _ _ K) as [->|K'].
    + rewrite idx_cmp_anti, C. reflexivity.
    + apply in_map_iff in K'. destruct K' as ([y ys] & E & Hy). cbn in E. subst y. rewrite Forall_forall in F. apply (F _ Hy).
Qed.

Section Detect.
  Variable P : Type.
  Variable height : P -> Q.
  Variable cell : Q -> P -> outcome idx3.
  Variable segment : list P -> list nat.
  Variable dense : nat -> nat -> bool.
  Variable leaf : Q.
  Variable least : nat.
  Notation inside := (inside P cell leaf).
  Notation voxel := (voxel P cell leaf).

  (** The voxels hold the first [n] points of the cloud. *)
  Definition holds (l : list P) (n : nat) (m : voxels) : Prop :=
    StronglySorted key_lt m /\
    (forall k is, In (k, is) m -> is <> [] /\ StronglySorted lt is /\ forall i, In i is <-> (i < n)%nat /\ inside l k i) /\
    (forall k i, (i < n)%nat -> inside l k i -> In k (map fst m)).
  Lemma sorted_snoc : forall l i, StronglySorted lt l -> (forall j, In j l -> (j < i)%nat) -> StronglySorted lt (l ++ [i]).
  Proof.
    induction l as [|a l IH]; intros i S H; cbn; [repeat constructor|]. inversion S as [|? ? S' F]; subst.
    constructor; [apply IH; [assumption|intros; apply H; right; assumption]|].
    apply Forall_app. split; [assumption|]. constructor; [apply H; left; reflexivity|constructor].
  Qed.
  Lemma holds_put : forall l n m p k, holds l n m -> nth_error l n = Some p -> cell leaf p = Ok k -> holds l (S n) (put k n m).
  Proof.
    intros l n m p k (S & H & C) E K.
    assert (At : forall k', inside l k' n <-> k' = k).
    { intros k'. split; [intros (q & Q1 & Q2); congruence|intros ->; exists p; auto]. }
    split; [apply put_sorted; assumption|]. split.
    - intros k' is Hin. apply put_in in Hin; [|assumption]. destruct Hin as [[N Hin]|[-> (old & -> & Hin)]].
      + destruct (H _ _ Hin) as (A & B & D). split; [assumption|]. split; [assumption|]. intros i. rewrite D. split; [intros [? ?]; split; [lia|assumption]|].
        intros [L I]. split; [|assumption]. destruct (Nat.eq_dec i n) as [->|]; [|lia]. apply At in I. congruence.
      + split; [destruct old; discriminate|].
        assert (D : StronglySorted lt old /\ forall i, In i old <-> (i < n)%nat /\ inside l k i).
        { destruct Hin as [Hin|[-> N]]; [apply (H _ _ Hin)|]. split; [constructor|]. intros i. split; [intros []|]. intros [L I]. apply N. eapply C; eassumption. }
        destruct D as [D1 D2]. split; [apply sorted_snoc; [assumption|intros j Hj; apply D2 in Hj; apply Hj]|].
        intros i. rewrite in_app_iff, D2. cbn [In]. split.
        * intros [[L I]|[<-|[]]]; [split; [lia|assumption]|]. split; [lia|]. apply At. reflexivity.
        * intros [L I]. destruct (Nat.eq_dec i n) as [->|]; [auto|]. left. split; [lia|assumption].
    - intros k' i L I. destruct (Nat.eq_dec i n) as [->|N].
      + apply At in I. subst k'. apply in_map_iff.
        destruct (in_dec idx_dec k (map fst m)) as [Y|Y].
        * apply in_map_iff in Y. destruct Y as ([k0 old] & E0 & Y). cbn in E0. subst k0.
          exists (k, old ++ [n]). split; [reflexivity|]. apply put_in; [assumption|]. right. split; [reflexivity|]. exists old. auto.
        * exists (k, [n]). split; [reflexivity|]. apply put_in; [assumption|]. right. split; [reflexivity|]. exists []. auto.
      + assert (Y : In k' (map fst m)) by (eapply C; [|eassumption]; lia). apply in_map_iff in Y. destruct Y as ([k0 old] & E0 & Y). cbn in E0. subst k0.
        apply in_map_iff. destruct (idx_cmp k' k) eqn:D.
        * apply idx_cmp_eq in D. subst k'. exists (k, old ++ [n]). split; [reflexivity|]. apply put_in; [assumption|]. right. split; [reflexivity|]. exists old. auto.
        * exists (k', old). split; [reflexivity|]. apply put_in; [assumption|]. left. split; [|assumption]. intros ->. rewrite (proj2 (idx_cmp_eq k k) eq_refl) in D. discriminate.
        * exists (k', old). split; [reflexivity|]. apply put_in; [assumption|]. left. split; [|assumption]. intros ->. rewrite (proj2 (idx_cmp_eq k k) eq_refl) in D. discriminate.
  Qed.
  Lemma put_all_holds : forall r l pre m, l = pre ++ r -> holds l (length pre) m -> (forall p, In p r -> exists k, cell leaf p = Ok k) ->
    exists m', put_all P cell leaf (length pre) r m = Ok m' /\ holds l (length l) m'.
  Proof.
    induction r as [|p r IH]; intros l pre m E H C; cbn [put_all].
    - exists m. rewrite app_nil_r in E. subst. auto.
    - destruct (C p (or_introl eq_refl)) as [k K]. rewrite K. cbn [bind].
      assert (N : nth_error l (length pre) = Some p) by (subst l; rewrite nth_error_app2, Nat.sub_diag by lia; reflexivity).
      specialize (IH l (pre ++ [p]) (put k (length pre) m)). rewrite app_length in IH. cbn [length] in IH. rewrite Nat.add_1_r in IH.
      apply IH; [rewrite <- app_assoc; exact E|eapply holds_put; eassumption|]. intros; apply C; right; assumption.
  Qed.
  Lemma holds_nil : forall l, holds l 0 [].
  Proof. intros l. split; [constructor|]. split; [intros ? ? []|]. intros; lia. Qed.
  Lemma holds_voxel : forall l m k is, holds l (length l) m -> In (k, is) m -> voxel l k is.
  Proof.
    intros l m k is (_ & H & _) I. destruct (H _ _ I) as (_ & S & E). split; [assumption|]. intros i. rewrite E. split; [intros [_ ?]; assumption|].
    intros Hi. split; [|assumption]. destruct Hi as (p & Hp & _). apply nth_error_Some. congruence.
  Qed.
  Lemma sorted_same : forall a b : list nat, StronglySorted lt a -> StronglySorted lt b -> (forall i, In i a <-> In i b) -> a = b.
  Proof.
    induction a as [|x a IH]; intros [|y b] Sa Sb E; auto.
    - exfalso. apply (E y). left. reflexivity.
    - exfalso. apply (E x). left. reflexivity.
    - inversion Sa as [|? ? Sa' Fa]; inversion Sb as [|? ? Sb' Fb]; subst. rewrite Forall_forall in Fa, Fb.
      assert (x = y).
      { destruct (proj1 (E x) (or_introl eq_refl)) as [H|H]; [auto|]. destruct (proj2 (E y) (or_introl eq_refl)) as [H'|H']; [auto|]. apply Fb in H. apply Fa in H'. lia. }
      subst y. f_equal. apply IH; auto. intros i. split; intros Hi.
      + destruct (proj1 (E i) (or_intror Hi)) as [->|H]; [apply Fa in Hi; lia|assumption].
      + destruct (proj2 (E i) (or_intror Hi)) as [->|H]; [apply Fb in Hi; lia|assumption].
  Qed.
  Lemma voxel_same : forall l k a b, voxel l k a -> voxel l k b -> a = b.
  Proof. intros l k a b [Sa Ea] [Sb Eb]. apply sorted_same; auto. intros i. rewrite Ea, Eb. reflexivity. Qed.
  Lemma voxel_in : forall l m k is, holds l (length l) m -> voxel l k is -> is <> [] -> In (k, is) m.
  Proof.
    intros l m k is H V N. destruct is as [|i is]; [congruence|]. assert (I : inside l k i) by (apply V; left; reflexivity).
    assert (K : In k (map fst m)). { apply H with i; [|assumption]. destruct I as (p & Hp & _). apply nth_error_Some. congruence. }
    apply in_map_iff in K. destruct K as ([k0 js] & E & K). cbn in E. subst k0. rewrite (voxel_same l k (i :: is) js); auto. eapply holds_voxel; eassumption.
  Qed.

  Lemma fetch_ok : forall (A : Type) (l : list A) is, (forall i, In i is -> (i < length l)%nat) -> exists ps, fetch l is = Ok ps /\ map Some ps = map (nth_error l) is.
  Proof.
    intros A l is. induction is as [|i is IH]; intros H; cbn [fetch].
    - exists []. auto.
    - destruct (nth_error l i) as [p|] eqn:E; [|apply nth_error_None in E; specialize (H i (or_introl eq_refl)); lia].
      destruct IH as (ps & -> & M); [intros; apply H; right; assumption|]. exists (p :: ps). split; [reflexivity|]. cbn. rewrite M, E. reflexivity.
  Qed.
  Lemma above_spec : forall zs m, (m <= fold_left above zs m)%Q /\ (forall z, In z zs -> z <= fold_left above zs m)%Q /\
    (fold_left above zs m == m \/ exists z, In z zs /\ fold_left above zs m == z)%Q.
  Proof.
    induction zs as [|z zs IH]; intros m; cbn [fold_left].
    - split; [lra|]. split; [intros ? []|]. left. reflexivity.
    - destruct (IH (above m z)) as (A & B & C). unfold above in *. destruct (Qle_bool z m) eqn:E.
      + apply Qle_bool_iff in E. split; [assumption|]. split; [intros x [<-|Hx]; [lra|auto]|]. destruct C as [C|(x & Hx & C)]; [auto|right; exists x; cbn; auto].
      + assert (m < z)%Q by (apply Qnot_le_lt; intros H; apply Qle_bool_iff in H; congruence).
        split; [lra|]. split; [intros x [<-|Hx]; [assumption|auto]|]. right. destruct C as [C|(x & Hx & C)]; [exists z; cbn; auto|exists x; cbn; auto].
  Qed.
  Lemma under_spec : forall zs m, (fold_left under zs m <= m)%Q /\ (forall z, In z zs -> fold_left under zs m <= z)%Q /\
    (fold_left under zs m == m \/ exists z, In z zs /\ fold_left under zs m == z)%Q.
  Proof.
    induction zs as [|z zs IH]; intros m; cbn [fold_left].
    - split; [lra|]. split; [intros ? []|]. left. reflexivity.
    - destruct (IH (under m z)) as (A & B & C). unfold under in *. destruct (Qle_bool m z) eqn:E.
      + apply Qle_bool_iff in E. split; [assumption|]. split; [intros x [<-|Hx]; [lra|auto]|]. destruct C as [C|(x & Hx & C)]; [auto|right; exists x; cbn; auto].
      + assert (z < m)%Q by (apply Qnot_le_lt; intros H; apply Qle_bool_iff in H; congruence).
        split; [lra|]. split; [intros x [<-|Hx]; [assumption|auto]|]. right. destruct C as [C|(x & Hx & C)]; [exists z; cbn; auto|exists x; cbn; auto].
  Qed.
  (** The spread of the heights, if they are not too large. *)
  Lemma spread : forall zs thr, zs <> [] -> (forall z, In z zs -> - (1000000000 # 1) <= z <= (1000000000 # 1))%Q ->
    let delta := (fold_left above zs (- (1000000000 # 1)) - fold_left under zs (1000000000 # 1))%Q in
    Qle_bool 0 delta && Qle_bool delta thr = true <-> (forall a b, In a zs -> In b zs -> a - b <= thr)%Q.
  Proof.
    intros zs thr N B delta. unfold delta. clear delta.
    destruct (above_spec zs (- (1000000000 # 1))) as (A1 & A2 & A3). destruct (under_spec zs (1000000000 # 1)) as (U1 & U2 & U3).
    set (mx := fold_left above zs _) in *. set (mn := fold_left under zs _) in *. clearbody mx mn.
    destruct zs as [|z0 zs]; [congruence|]. pose proof (A2 z0 (or_introl eq_refl)). pose proof (U2 z0 (or_introl eq_refl)). pose proof (B z0 (or_introl eq_refl)).
    rewrite andb_true_iff, !Qle_bool_iff. split.
    - intros [_ D] a b Ha Hb. specialize (A2 a Ha). specialize (U2 b Hb). lra.
    - intros D. split; [lra|].
      assert (Mx : exists z, In z (z0 :: zs) /\ (mx == z)%Q) by (destruct A3 as [A3|?]; [exists z0; split; [left; reflexivity|lra]|assumption]).
      assert (Mn : exists z, In z (z0 :: zs) /\ (mn == z)%Q) by (destruct U3 as [U3|?]; [exists z0; split; [left; reflexivity|lra]|assumption]).
      destruct Mx as (a & Ha & Ea), Mn as (b & Hb & Eb). specialize (D a b Ha Hb). lra.
  Qed.

  Variable l : list P.
  Variable thr : Q.
  Hypothesis Bounded : forall p, In p l -> (- (1000000000 # 1) <= height p <= (1000000000 # 1))%Q.
  Hypothesis Sound : sound_segments P segment.
  Notation plane := (plane P height cell segment dense leaf least l thr).
  (** What one voxel adds. *)
  Definition adds (k : idx3) (is : list nat) (i : nat) : Prop :=
    In i is /\ (least <= length is)%nat /\
      ((zi k <= 0)%Z /\ level P height l thr is \/
       (0 < zi k)%Z /\ (2 * least <= length is)%nat /\
       exists ps n, map Some ps = map (nth_error l) is /\ dense (length (segment ps)) (length is) = true /\
         In n (segment ps) /\ nth_error is n = Some i).
  Lemma sorted_nodup : forall a : list nat, StronglySorted lt a -> NoDup a.
  Proof.
    induction 1 as [|x a S IH F]; constructor; [|assumption]. intros H. rewrite Forall_forall in F. apply F in H. lia.
  Qed.
  Lemma some_map : forall (A : Type) (a b : list A), map Some a = map Some b -> a = b.
  Proof. intros A a. induction a as [|x a IH]; intros [|y b] H; try discriminate; auto. cbn in H. injection H as -> H. f_equal. auto. Qed.
  Lemma detect_voxel_spec : forall k is ground, voxel l k is -> is <> [] ->
    exists js, detect_voxel P height segment dense least l thr (k, is) ground = Ok (ground ++ js) /\ NoDup js /\ forall i, In i js <-> adds k is i.
  Proof.
    intros k is ground V N. destruct V as [S E].
    assert (R : forall i, In i is -> (i < length l)%nat). { intros i Hi. apply E in Hi. destruct Hi as (p & Hp & _). apply nth_error_Some. congruence. }
    destruct (fetch_ok P l is R) as (ps & Fp & Mp).
    assert (None : forall Q0 : Prop, (forall i, adds k is i -> False) -> (exists js, Ok ground = Ok (ground ++ js) /\ NoDup js /\ forall i, In i js <-> adds k is i)).
    { intros _ H. exists []. rewrite app_nil_r. split; [reflexivity|]. split; [constructor|]. intros i. split; [intros []|apply H]. }
    unfold detect_voxel. destruct (Nat.ltb_spec (length is) least) as [L|L].
    - apply (None True). intros i (_ & H & _). lia.
    - destruct (Z.leb_spec (zi k) 0) as [Zk|Zk].
      + rewrite Fp. cbn [bind].
        assert (Sp : (forall a b, In a (map height ps) -> In b (map height ps) -> a - b <= thr)%Q <-> level P height l thr is).
        { assert (Ip : forall p, In p ps <-> exists i, In i is /\ nth_error l i = Some p).
          { intros p. split.
            - intros H. apply (in_map Some) in H. rewrite Mp in H. apply in_map_iff in H. destruct H as (i & H1 & H2). eauto.
            - intros (i & H1 & H2). apply (in_map (nth_error l)) in H1. rewrite H2, <- Mp in H1. apply in_map_iff in H1. destruct H1 as (q & Q1 & Q2). congruence. }
          unfold level. split.
          - intros H i j p q Hi Hj Hp Hq. apply H; apply in_map; apply Ip; eauto.
          - intros H a b Ha Hb. apply in_map_iff in Ha, Hb. destruct Ha as (p & <- & Hp), Hb as (q & <- & Hq). apply Ip in Hp, Hq.
            destruct Hp as (i & I1 & I2), Hq as (j & J1 & J2). exact (H i j p q I1 J1 I2 J2). }
        pose proof (spread (map height ps) thr) as D. cbv zeta in D.
        assert (N' : map height ps <> []). { intros Z0. apply N. apply map_eq_nil in Z0. subst ps. cbn in Mp. symmetry in Mp. apply map_eq_nil in Mp. assumption. }
        assert (B' : forall z, In z (map height ps) -> (- (1000000000 # 1) <= z <= (1000000000 # 1))%Q).
        { intros z Hz. apply in_map_iff in Hz. destruct Hz as (p & <- & Hp). apply Bounded. apply (in_map Some) in Hp. rewrite Mp in Hp. apply in_map_iff in Hp.
          destruct Hp as (i & H1 & _). eapply nth_error_In. eassumption. }
        specialize (D N' B'). destruct (Qle_bool 0 _ && _) eqn:T.
        * exists is. split; [reflexivity|]. split; [apply sorted_nodup; assumption|]. intros i. unfold adds. split; [|tauto].
          intros Hi. split; [assumption|]. split; [assumption|]. left. split; [assumption|]. apply Sp, D. reflexivity.
        * apply (None True). intros i (_ & _ & [[_ H]|[H _]]); [|lia]. pose proof (proj2 D (proj2 Sp H)) as Y; congruence.
      + destruct (Nat.ltb_spec (length is) (2 * least)) as [L2|L2].
        * apply (None True). intros i (_ & _ & [[H _]|(_ & H & _)]); lia.
        * rewrite Fp. cbn [bind]. destruct (Sound ps) as [Nd Rg]. assert (Len : length ps = length is) by (rewrite <- (map_length Some), Mp, map_length; reflexivity).
          destruct (dense (length (segment ps)) (length is)) eqn:Dn.
          { destruct (fetch_ok nat is (segment ps)) as (js & Fj & Mj); [intros n Hn; apply Rg in Hn; lia|]. rewrite Fj. cbn [bind]. exists js. split; [reflexivity|].
            split.
            - apply NoDup_nth_error. intros a b Ha Hab. assert (La : length js = length (segment ps)) by (rewrite <- (map_length Some), Mj, map_length; reflexivity).
              assert (X : forall c, (c < length js)%nat -> exists n i, nth_error (segment ps) c = Some n /\ nth_error js c = Some i /\ nth_error is n = Some i).
              { intros c Hc. destruct (nth_error js c) as [i|] eqn:Ei; [|apply nth_error_None in Ei; lia].
                destruct (nth_error (segment ps) c) as [n|] eqn:En; [|apply nth_error_None in En; lia].
                exists n, i. repeat split; auto. pose proof (map_nth_error Some c js Ei) as Y. rewrite Mj in Y. rewrite (map_nth_error _ _ _ En) in Y. congruence. }
              assert (Hb : (b < length js)%nat) by (apply nth_error_Some; rewrite <- Hab; apply nth_error_Some; assumption).
              destruct (X a Ha) as (n & i & A1 & A2 & A3), (X b Hb) as (n' & i' & B1 & B2 & B3). assert (i = i') by congruence. subst i'.
              pose proof (proj1 (NoDup_nth_error is) (sorted_nodup _ S) n n') as Y. specialize (Y ltac:(apply nth_error_Some; congruence) ltac:(congruence)). subst n'.
              apply (proj1 (NoDup_nth_error _) Nd a b); [lia|congruence].
            - intros i. unfold adds. split.
              + intros Hi. apply (in_map Some) in Hi. rewrite Mj in Hi. apply in_map_iff in Hi. destruct Hi as (n & H1 & H2).
                split; [eapply nth_error_In; eassumption|]. split; [assumption|]. right. split; [assumption|]. split; [assumption|]. exists ps, n. auto.
              + intros (_ & _ & [[H _]|(_ & _ & qs & n & H1 & H2 & H3 & H4)]); [lia|]. assert (qs = ps) by (apply some_map; congruence). subst qs.
                apply (in_map (nth_error is)) in H3. rewrite H4, <- Mj in H3. apply in_map_iff in H3. destruct H3 as (x & X1 & X2). congruence. }
          { apply (None True). intros i (_ & _ & [[H _]|(_ & _ & qs & n & H1 & H2 & _)]); [lia|]. assert (qs = ps) by (apply some_map; congruence). subst qs. congruence. }
  Qed.
  Lemma detect_all_spec : forall m ground, StronglySorted key_lt m -> (forall k is, In (k, is) m -> voxel l k is /\ is <> []) ->
    exists js, detect_all P height segment dense least l thr m ground = Ok (ground ++ js) /\ NoDup js /\
      forall i, In i js <-> exists k is, In (k, is) m /\ adds k is i.
  Proof.
    induction m as [|[k is] m IH]; intros ground S H; cbn [detect_all].
    - exists []. rewrite app_nil_r. split; [reflexivity|]. split; [constructor|]. intros i. split; [intros []|intros (? & ? & [] & _)].
    - inversion S as [|? ? S' F]; subst. destruct (H k is (or_introl eq_refl)) as [V N].
      destruct (detect_voxel_spec k is ground V N) as (a & -> & Na & Ia). cbn [bind].
      destruct (IH (ground ++ a) S') as (b & -> & Nb & Ib); [intros; apply H; right; assumption|].
      exists (a ++ b). rewrite <- app_assoc. split; [reflexivity|]. split.
      + assert (Dis : forall i, In i a -> ~ In i b).
        { intros i A B. apply Ia in A. apply Ib in B. destruct B as (k' & is' & B1 & B2). destruct A as [A _], B2 as [B2 _].
          destruct (H k' is' (or_intror B1)) as [V' _]. apply V in A. apply V' in B2. destruct A as (p & A1 & A2), B2 as (q & B3 & B4).
          assert (k = k') by congruence. subst k'. rewrite Forall_forall in F. specialize (F _ B1). unfold key_lt in F. cbn in F.
          rewrite (proj2 (idx_cmp_eq k k) eq_refl) in F. discriminate. }
        clear - Na Nb Dis. induction a as [|x a IHa]; [assumption|]. inversion Na; subst. cbn. constructor.
        * rewrite in_app_iff. intros [?|?]; [auto|]. apply (Dis x); [left; reflexivity|assumption].
        * apply IHa; [assumption|]. intros i Hi. apply Dis. right. assumption.
      + intros i. rewrite in_app_iff, Ia, Ib. split.
        * intros [A|(k' & is' & B1 & B2)]; [exists k, is; split; [left; reflexivity|assumption]|exists k', is'; split; [right; assumption|assumption]].
        * intros (k' & is' & [B1|B1] & B2); [inversion B1; subst; auto|right; eauto].
  Qed.
  Lemma detect_spec : forall m, holds l (length l) m ->
    exists g, detect_all P height segment dense least l thr m [] = Ok g /\ NoDup g /\ forall i, In i g <-> plane i.
  Proof.
    intros m H. destruct (detect_all_spec m []) as (g & E & N & I).
    - apply H.
    - intros k is Hin. split; [eapply holds_voxel; eassumption|]. apply H in Hin. apply Hin.
    - exists g. split; [exact E|]. split; [assumption|]. intros i. rewrite I. split.
      + intros (k & is & Hin & A). exists k, is. split; [eapply holds_voxel; eassumption|exact A].
      + intros (k & is & V & A). exists k, is. split; [|exact A]. eapply voxel_in; try eassumption. destruct A as [A _]. intros ->. exact A.
  Qed.
  Lemma plane_lt : forall i, plane i -> (i < length l)%nat.
  Proof. intros i (k & is & V & I & _). apply V in I. destruct I as (p & Hp & _). apply nth_error_Some. congruence. Qed.
End Detect.

(** Sorting. *)
Lemma insert_perm : forall i l, Permutation (insert i l) (i :: l).
Proof.
  intros i l. induction l as [|j l IH]; cbn; [constructor; constructor|]. destruct (i <=? j)%nat; [apply Permutation_refl|].
  eapply Permutation_trans; [apply perm_skip, IH|apply perm_swap].
Qed.
Lemma sort_perm : forall l, Permutation (sort l) l.
Proof. induction l as [|i l IH]; cbn; [constructor|]. eapply Permutation_trans; [apply insert_perm|]. apply perm_skip, IH. Qed.
Lemma insert_sorted : forall i l, StronglySorted lt l -> ~ In i l -> StronglySorted lt (insert i l).
Proof.
  intros i l. induction l as [|j l IH]; intros S N; cbn; [repeat constructor|]. inversion S as [|? ? S' F]; subst. rewrite Forall_forall in F.
  destruct (Nat.leb_spec i j).
  - constructor; [assumption|]. assert (i <> j) by (intros ->; apply N; left; reflexivity). apply Forall_forall. intros x [<-|Hx]; [lia|]. apply F in Hx. lia.
  - constructor; [apply IH; [assumption|intros ?; apply N; right; assumption]|]. apply Forall_forall. intros x Hx.
    apply (Permutation_in _ (insert_perm i l)) in Hx. destruct Hx as [<-|Hx]; [assumption|auto].
Qed.
Lemma sort_sorted : forall l, NoDup l -> StronglySorted lt (sort l).
Proof.
  induction 1 as [|i l N D IH]; cbn; [constructor|]. apply insert_sorted; [assumption|]. intros H. apply N. apply (Permutation_in _ (sort_perm l)). assumption.
Qed.

Lemma mem_in : forall i g, mem i g = true <-> In i g.
Proof.
  intros. unfold mem. rewrite existsb_exists. split; [intros (x & H & E); apply Nat.eqb_eq in E; congruence|]. intros H. exists i. split; [assumption|apply Nat.eqb_refl].
Qed.
Lemma mem_same : forall a b i, (In i a <-> In i b) -> mem i a = mem i b.
Proof. intros. apply eq_true_iff_eq. rewrite !mem_in. assumption. Qed.
Lemma filter_same : forall (A : Type) (f g : A -> bool) l, (forall x, In x l -> f x = g x) -> filter f l = filter g l.
Proof. induction l as [|x l IH]; intros H; cbn; [reflexivity|]. rewrite (H x (or_introl eq_refl)), IH; [reflexivity|]. intros; apply H; right; assumption. Qed.

Section Sample.
  Variable P : Type.
  Variable below : Q -> nat -> nat -> bool.
  Variables rate lo hi : Q.
  Hypothesis Lo : (0 <= lo)%Q. Hypothesis LoHi : (lo <= hi)%Q. Hypothesis Hi : (hi <= 1)%Q.
  Hypothesis Low : forall t n, (0 < n)%nat -> (inject_Z (Z.of_nat t) < lo * inject_Z (Z.of_nat n))%Q -> below rate t n = true.
  Hypothesis High : forall t n, (0 < n)%nat -> below rate t n = true -> (inject_Z (Z.of_nat t) < hi * inject_Z (Z.of_nat n))%Q.
  Definition balanced (n t : nat) : Prop := (at_rate lo n <= Z.of_nat t <= at_rate hi n)%Z.
  Lemma ceil_le : forall q z, (q <= inject_Z z)%Q -> (Qceiling q <= z)%Z.
  Proof. intros q z H. rewrite <- (Qceiling_Z z). apply Qceiling_resp_le. assumption. Qed.
  Lemma inj_S : forall n, (inject_Z (Z.of_nat (S n)) == inject_Z (Z.of_nat n) + 1)%Q.
  Proof. intros n. rewrite Nat2Z.inj_succ. unfold Z.succ. rewrite inject_Z_plus. reflexivity. Qed.
  Lemma balanced_step : forall n t, balanced n t -> balanced (S n) (if below rate t (S n) then S t else t).
  Proof.
    intros n t [A B]. unfold balanced, at_rate in *.
    pose proof (inj_S n) as En. pose proof (inj_S t) as Et.
    pose proof (Qle_ceiling (lo * inject_Z (Z.of_nat n))) as A'.
    assert (A2 : (inject_Z (Qceiling (lo * inject_Z (Z.of_nat n))) <= inject_Z (Z.of_nat t))%Q) by (rewrite <- Zle_Qle; assumption).
    assert (M : (hi * inject_Z (Z.of_nat n) <= hi * inject_Z (Z.of_nat (S n)))%Q) by (rewrite En; lra).
    assert (L : (lo * inject_Z (Z.of_nat (S n)) <= lo * inject_Z (Z.of_nat n) + 1)%Q) by (rewrite En; lra).
    destruct (below rate t (S n)) eqn:E.
    - split.
      + apply ceil_le. rewrite Et. lra.
      + apply High in E; [|lia]. assert (Z.of_nat t < Qceiling (hi * inject_Z (Z.of_nat (S n))))%Z; [|lia].
        rewrite Zlt_Qlt. eapply Qlt_le_trans; [exact E|apply Qle_ceiling].
    - split.
      + apply ceil_le. apply Qnot_lt_le. intros H. apply Low in H; [congruence|lia].
      + eapply Z.le_trans; [exact B|]. apply Qceiling_resp_le. assumption.
  Qed.

  Lemma mem_cons : forall x i g, mem x (i :: g) = (x =? i)%nat || mem x g.
  Proof. reflexivity. Qed.
  Lemma mem_no : forall i g, (forall j, In j g -> (i < j)%nat) -> mem i g = false.
  Proof. intros i g H. apply not_true_is_false. rewrite mem_in. intros I. apply H in I. lia. Qed.
  Lemma mem_skip : forall i n x g, In x (seq (S i) n) -> mem x (i :: g) = mem x g.
  Proof. intros i n x g H. apply in_seq in H. rewrite mem_cons. replace (x =? i)%nat with false by (symmetry; apply Nat.eqb_neq; lia). reflexivity. Qed.
  Lemma sample_kept : forall l i planes n t, StronglySorted lt planes -> (forall f, In f planes -> (i <= f < i + length l)%nat) ->
    (l = [] \/ In (i + length l - 1)%nat planes) -> balanced n t ->
    exists out kept, sample P below rate i l planes n t = Ok out /\ StronglySorted lt kept /\ (forall f, In f kept -> (i <= f)%nat) /\
      map Some out = map (fun j => nth_error l (j - i)) kept /\ incl planes kept /\
      forall j, (j <= length l)%nat -> balanced (n + others planes i j) (t + taken planes kept i j).
  Proof.
    induction l as [|p l IH]; intros i planes n t S R E B.
    - exists [], []. cbn [sample]. split; [reflexivity|]. split; [constructor|]. split; [intros ? []|]. split; [reflexivity|]. split.
      + intros f Hf. apply R in Hf. cbn in Hf. lia.
      + intros j Hj. cbn in Hj. replace j with 0%nat by lia. unfold others, taken. cbn. rewrite !Nat.add_0_r. assumption.
    - cbn [length] in *. destruct E as [E|E]; [discriminate|]. cbn [sample]. destruct planes as [|f ps]; [destruct E|].
      inversion S as [|? ? S' F]; subst. rewrite Forall_forall in F.
      assert (Shift : forall kept, (forall j, In j kept -> (Datatypes.S i <= j)%nat) -> map (fun j => nth_error l (j - Datatypes.S i)) kept = map (fun j => nth_error (p :: l) (j - i)) kept).
      { intros kept H. apply map_ext_in. intros j Hj. apply H in Hj. replace (j - i)%nat with (Datatypes.S (j - Datatypes.S i)) by lia. reflexivity. }
      destruct (Nat.eqb_spec i f) as [<-|Nf].
      + (* a plane point *)
        destruct (IH (Datatypes.S i) ps n t) as (out & kept & Eo & Sk & Rk & Mk & Ik & Bk); auto.
        { intros f Hf. specialize (F f Hf). specialize (R f (or_intror Hf)). lia. }
        { destruct E as [E|E]; [left; destruct l; [reflexivity|cbn in E; lia]|]. right. replace (Datatypes.S i + length l - 1)%nat with (i + Datatypes.S (length l) - 1)%nat by lia. assumption. }
        rewrite Eo. cbn [bind]. exists (p :: out), (i :: kept). split; [reflexivity|].
        split; [constructor; [assumption|apply Forall_forall; intros x Hx; apply Rk in Hx; lia]|].
        split; [intros x [<-|Hx]; [lia|apply Rk in Hx; lia]|]. split; [|split].
        * cbn [map]. rewrite Nat.sub_diag. cbn [nth_error]. rewrite Mk, (Shift _ Rk). reflexivity.
        * intros x [<-|Hx]; [left; reflexivity|right; apply Ik; assumption].
        * intros [|j] Hj; [unfold others, taken; cbn; rewrite !Nat.add_0_r; assumption|]. specialize (Bk j ltac:(lia)).
          unfold others, taken in *. cbn [seq filter]. rewrite mem_cons, Nat.eqb_refl. cbn [orb negb andb].
          rewrite (filter_same _ _ (fun x => negb (mem x ps))) by (intros x Hx; rewrite (mem_skip i j) by assumption; reflexivity).
          rewrite (filter_same _ (fun x => negb (mem x (i :: ps)) && mem x (i :: kept)) (fun x => negb (mem x ps) && mem x kept)) by (intros x Hx; rewrite !(mem_skip i j) by assumption; reflexivity).
          exact Bk.
      + assert (Ri : (i < f)%nat) by (specialize (R f (or_introl eq_refl)); lia).
        assert (Mi : mem i (f :: ps) = false) by (apply mem_no; intros j [<-|Hj]; [assumption|apply F in Hj; lia]).
        pose proof (balanced_step n t B) as B'.
        assert (Rec : (forall g, In g (f :: ps) -> (Datatypes.S i <= g < Datatypes.S i + length l)%nat)).
        { intros g Hg. pose proof (R g Hg). destruct Hg as [<-|Hg]; [lia|]. apply F in Hg. lia. }
        assert (Last : l = [] \/ In (Datatypes.S i + length l - 1)%nat (f :: ps)).
        { right. replace (Datatypes.S i + length l - 1)%nat with (i + Datatypes.S (length l) - 1)%nat by lia. assumption. }
        destruct (below rate t (Datatypes.S n)) eqn:Bl.
        * destruct (IH (Datatypes.S i) (f :: ps) (Datatypes.S n) (Datatypes.S t)) as (out & kept & Eo & Sk & Rk & Mk & Ik & Bk); auto.
          rewrite Eo. cbn [bind]. exists (p :: out), (i :: kept). split; [reflexivity|].
          split; [constructor; [assumption|apply Forall_forall; intros x Hx; apply Rk in Hx; lia]|].
          split; [intros x [<-|Hx]; [lia|apply Rk in Hx; lia]|]. split; [|split].
          { cbn [map]. rewrite Nat.sub_diag. cbn [nth_error]. rewrite Mk, (Shift _ Rk). reflexivity. }
          { intros x Hx. right. apply Ik. assumption. }
          { intros [|j] Hj; [unfold others, taken; cbn; rewrite !Nat.add_0_r; assumption|]. specialize (Bk j ltac:(lia)).
            unfold others, taken in *. cbn [seq filter]. rewrite Mi, mem_cons, Nat.eqb_refl. cbn [orb negb andb length].
            rewrite (filter_same _ (fun x => negb (mem x (f :: ps)) && mem x (i :: kept)) (fun x => negb (mem x (f :: ps)) && mem x kept)) by (intros x Hx; rewrite !(mem_skip i j) by assumption; reflexivity).
            rewrite <- !plus_n_Sm. exact Bk. }
        * destruct (IH (Datatypes.S i) (f :: ps) (Datatypes.S n) t) as (out & kept & Eo & Sk & Rk & Mk & Ik & Bk); auto.
          rewrite Eo. exists out, kept. split; [reflexivity|]. split; [assumption|]. split; [intros x Hx; apply Rk in Hx; lia|]. split; [|split].
          { rewrite Mk. apply Shift. assumption. }
          { assumption. }
          { intros [|j] Hj; [unfold others, taken; cbn; rewrite !Nat.add_0_r; assumption|]. specialize (Bk j ltac:(lia)).
            unfold others, taken in *. cbn [seq filter]. rewrite Mi, (mem_no i kept) by (intros x Hx; apply Rk in Hx; lia). cbn [negb andb length].
            rewrite <- !plus_n_Sm. exact Bk. }
  Qed.
End Sample.
(** Without a plane point at the end the loop reads the front of an empty vector. *)
Lemma sample_ub : forall P below rate l i planes n t, StronglySorted lt planes -> (forall f, In f planes -> (i <= f < i + length l)%nat) ->
  l <> [] -> ~ In (i + length l - 1)%nat planes -> sample P below rate i l planes n t = UB.
Proof.
  intros P below rate. induction l as [|p l IH]; intros i planes n t S R E N; [congruence|].
  cbn [sample]. destruct planes as [|f ps]; [reflexivity|]. cbn [length] in *. inversion S as [|? ? S' F]; subst. rewrite Forall_forall in F.
  destruct (Nat.eqb_spec i f) as [<-|Nf].
  - rewrite IH; [reflexivity|assumption| | |].
    + intros f Hf. specialize (F f Hf). specialize (R f (or_intror Hf)). lia.
    + intros ->. apply N. left. cbn. lia.
    + intros H. apply N. right. replace (i + Datatypes.S (length l) - 1)%nat with (Datatypes.S i + length l - 1)%nat by lia. assumption.
  - assert (Ri : (i < f)%nat) by (specialize (R f (or_introl eq_refl)); lia).
    assert (Rec : (forall g, In g (f :: ps) -> (Datatypes.S i <= g < Datatypes.S i + length l)%nat)).
    { intros g Hg. pose proof (R g Hg). destruct Hg as [<-|Hg]; [lia|]. apply F in Hg. lia. }
    assert (E' : l <> []) by (intros ->; specialize (R f (or_introl eq_refl)); cbn in R; lia).
    assert (N' : ~ In (Datatypes.S i + length l - 1)%nat (f :: ps)) by (replace (Datatypes.S i + length l - 1)%nat with (i + Datatypes.S (length l) - 1)%nat by lia; assumption).
    destruct (below rate t (Datatypes.S n)); rewrite IH; auto.
Qed.
