(** Proofs about the data of the concurrent submap. *)
From Coq Require Import List Bool ZArith Lia Arith.
From Verif Require Import Outcome EvictModel EvictSpec EvictProofs.
Import ListNotations.

Section Data.
Variable P : Type.
Variable disk_saving : bool.
Variable delay : Z.
Variable c : list P.
Hypothesis c_points : c <> [].
Notation state := (state P).
Notation data := (data P).
Notation step := (@step P disk_saving delay).
Notation reach := (@reach P disk_saving delay).

Definition coherent (d : data) : Prop :=
  (d_in_memory d = true /\ d_inner d = c) \/ (d_in_memory d = false /\ d_inner d = []).
Definition khold (d : data) (b : mode) (k : know) : Prop :=
  match k with
  | KNone => b = Exclusive -> coherent d
  | KMem => (b = Upgrade \/ b = Exclusive) /\ d_in_memory d = true /\ d_inner d = c
  | KDropped => b = Exclusive /\ d_inner d = []
  | KLoaded => b = Exclusive /\ d_inner d = c
  end.
Definition saved (d : data) : bool := disk_saving && d_matched d.
Definition todo_nset (t : thread) : nat := nsets (t_todo t).

Record inv_data (s : state) : Prop := {
  id_lock : inv_lock P s;
  id_thread : forall i t, nth_error (s_threads s) i = Some t -> exists k sv, typed t k sv /\
     khold (s_data s) (t_cloud t) k /\ (sv = true -> disk_saving = true -> d_file (s_data s) = Some c);
  id_coherent : n_of Exclusive MCloud (s_threads s) = 0 -> coherent (s_data s);
  id_saved : saved (s_data s) = true -> d_file (s_data s) = Some c;
  id_unsaved : saved (s_data s) = true \/
     (d_in_memory (s_data s) = true /\ d_inner (s_data s) = c /\ drops (d_log (s_data s)) = 0 /\
      forall i t, nth_error (s_threads s) i = Some t -> all_guarded (t_todo t) = true);
  id_nset : cnt todo_nset (s_threads s) <= 1;
  id_matched : d_matched (s_data s) = true -> cnt todo_nset (s_threads s) = 0;
  id_followed : forall i t, nth_error (s_threads s) i = Some t -> followed (t_todo t) }.

Lemma khold_same : forall d d' b k, d_in_memory d' = d_in_memory d -> d_inner d' = d_inner d ->
  khold d b k -> khold d' b k.
Proof.
  intros d d' b k E1 E2. unfold khold, coherent. rewrite E1, E2. auto.
Qed.
(** Knowledge of a thread that does not own the cloud. *)
Lemma khold_no : forall d d' k, khold d No k -> khold d' No k.
Proof.
  intros d d' k H. destruct k; simpl in *; try discriminate; destruct H as [H _];
    try discriminate; destruct H; discriminate.
Qed.

Lemma update_n_excl : forall (l : list thread) i t t', nth_error l i = Some t ->
  n_of Exclusive MCloud (update l i t') + is_mode Exclusive MCloud t =
  n_of Exclusive MCloud l + is_mode Exclusive MCloud t'.
Proof. intros. apply cnt_update; auto. Qed.

Lemma guarded_app : forall l m, all_guarded (l ++ m) = all_guarded l && all_guarded m.
Proof. intros. apply forallb_app. Qed.

Lemma drops_app : forall l m : list (event P), drops (l ++ m) = drops l + drops m.
Proof. intros. unfold drops. rewrite filter_app, app_length. auto. Qed.

(** A step that leaves the cloud, the file and the flags alone. *)
Lemma inv_quiet : forall (s s' : state) i t t' k sv, inv_data s -> nth_error (s_threads s) i = Some t ->
  inv_lock P s' ->
  s_threads s' = update (s_threads s) i t' ->
  d_in_memory (s_data s') = d_in_memory (s_data s) -> d_inner (s_data s') = d_inner (s_data s) ->
  d_file (s_data s') = d_file (s_data s) -> d_matched (s_data s') = d_matched (s_data s) ->
  drops (d_log (s_data s')) = drops (d_log (s_data s)) ->
  typed t' k sv -> khold (s_data s) (t_cloud t') k ->
  (sv = true -> disk_saving = true -> d_file (s_data s) = Some c) ->
  (n_of Exclusive MCloud (s_threads s') = 0 -> coherent (s_data s)) ->
  (all_guarded (t_todo t') = true \/ saved (s_data s) = true \/ all_guarded (t_todo t) = false) ->
  todo_nset t' <= todo_nset t -> followed (t_todo t') -> inv_data s'.
Proof.
  intros s s' i t t' k sv I Hi L Et E1 E2 E3 E4 E5 Ty K Sv Co Gd Ns Fo.
  destruct I as [I1 I2 I3 I4 I5 I6 I7 I8].
  pose proof (cnt_update todo_nset (s_threads s) i t t' Hi) as C.
  constructor; auto; rewrite ?Et.
  - intros j u Hj. destruct (nth_update _ _ _ _ _ _ Hi Hj) as [[-> ->]|[_ Hj']].
    + exists k, sv. split; auto. split; [eapply khold_same; eauto|]. rewrite E3. auto.
    + destruct (I2 _ _ Hj') as (k' & sv' & A & B & D). exists k', sv'. split; auto.
      split; [eapply khold_same; eauto|]. rewrite E3. auto.
  - rewrite <- Et. intros N. specialize (Co N). unfold coherent in *. rewrite E1, E2. auto.
  - unfold saved. rewrite E3, E4. auto.
  - unfold saved. rewrite E1, E2, E4, E5. destruct I5 as [I5|(A & B & D & F)]; [left; auto|].
    destruct Gd as [Gd|[Gd|Gd]]; [|left; auto|].
    + right. repeat split; auto. intros j u Hj. destruct (nth_update _ _ _ _ _ _ Hi Hj) as [[-> ->]|[_ Hj']]; eauto.
    + rewrite (F _ _ Hi) in Gd. discriminate.
  - lia.
  - rewrite E4. intros M. specialize (I7 M). lia.
  - intros j u Hj. destruct (nth_update _ _ _ _ _ _ Hi Hj) as [[-> ->]|[_ Hj']]; eauto.
Qed.

(** A step of the exclusive owner of the cloud. *)
Lemma inv_write : forall (s s' : state) i t t' k sv, inv_data s -> nth_error (s_threads s) i = Some t ->
  inv_lock P s' ->
  s_threads s' = update (s_threads s) i t' -> t_cloud t = Exclusive -> t_cloud t' = Exclusive ->
  d_file (s_data s') = d_file (s_data s) -> d_matched (s_data s') = d_matched (s_data s) ->
  saved (s_data s) = true ->
  typed t' k sv -> khold (s_data s') Exclusive k ->
  (sv = true -> disk_saving = true -> d_file (s_data s) = Some c) ->
  todo_nset t' = todo_nset t -> followed (t_todo t') -> inv_data s'.
Proof.
  intros s s' i t t' k sv I Hi L Et X X' E3 E4 Gd Ty K Sv Ns Fo.
  destruct I as [I1 I2 I3 I4 I5 I6 I7 I8].
  pose proof (cnt_update todo_nset (s_threads s) i t t' Hi) as C.
  constructor; auto; rewrite ?Et.
  - intros j u Hj. destruct (nth_update _ _ _ _ _ _ Hi Hj) as [[-> ->]|[Nj Hj']].
    + exists k, sv. split; auto. rewrite X', E3. auto.
    + destruct (I2 _ _ Hj') as (k' & sv' & A & B & D). exists k', sv'. split; auto.
      assert (U : t_cloud u = No) by (eapply (alone P s i j t u); eauto).
      rewrite U in *. split; [eapply khold_no; eauto|]. rewrite E3. auto.
  - intros N. exfalso. pose proof (update_n_excl (s_threads s) i t t' Hi) as Q.
    pose proof (cnt_ge (is_mode Exclusive MCloud) _ _ _ Hi) as G. unfold n_of in *.
    unfold is_mode in Q at 2 4. unfold is_mode in G at 1. simpl in Q, G. rewrite X, ?X' in *. simpl in *. lia.
  - unfold saved. rewrite E3, E4. auto.
  - left. unfold saved. rewrite E4. auto.
  - lia.
  - rewrite E4. intros M. specialize (I7 M). lia.
  - intros j u Hj. destruct (nth_update _ _ _ _ _ _ Hi Hj) as [[-> ->]|[_ Hj']]; eauto.
Qed.

(** Something to be executed that writes the cloud: the points are on disk. *)
Lemma write_saved : forall s i t x k, inv_data s -> nth_error (s_threads s) i = Some t -> t_todo t = x :: k ->
  guarded x = false -> saved (s_data s) = true.
Proof.
  intros s i t x k I Hi T G. destruct (id_unsaved _ I) as [S|(_ & _ & _ & F)]; auto.
  specialize (F _ _ Hi). rewrite T in F. simpl in F. rewrite G in F. discriminate.
Qed.
(** Something that has to come before SetMatched: still in memory. *)
Lemma need_memory : forall s i t x k, inv_data s -> nth_error (s_threads s) i = Some t -> t_todo t = x :: k ->
  needs x = true -> d_matched (s_data s) = false /\ d_in_memory (s_data s) = true /\ d_inner (s_data s) = c.
Proof.
  intros s i t x k I Hi T N.
  pose proof (id_followed _ I _ _ Hi) as F. rewrite T in F. destruct F as [F _]. specialize (F N).
  pose proof (cnt_ge todo_nset _ _ _ Hi) as G. unfold todo_nset in G at 1. rewrite T in G. simpl in G.
  assert (M : d_matched (s_data s) = false).
  { destruct (d_matched (s_data s)) eqn:M; auto. pose proof (id_matched _ I M). lia. }
  split; auto.
  destruct (id_unsaved _ I) as [S|(A & B & _)]; auto. unfold saved in S. rewrite M, andb_false_r in S. discriminate.
Qed.

Lemma inv_data_step : forall s i t s', inv_data s -> nth_error (s_threads s) i = Some t ->
  stepped P disk_saving delay s i t (Ok s') -> inv_data s'.
Proof.
  intros s i t s' I Hi St.
  assert (L : inv_lock P s') by (eapply inv_lock_step; eauto; apply (id_lock _ I)).
  destruct (id_thread _ I _ _ Hi) as (kn & sv & Ty & K & Sv).
  pose proof (id_followed _ I _ _ Hi) as Fo.
  inversion St as [m o k r Tk Hr Eq | tst body k Tk Eq | x k d Tk N1 N2 Ha Eq | ]; subst; clear St.
  - (* lock *)
    destruct (typed_lock _ _ _ _ _ _ Tk Ty) as (x & kn' & A & B & C & D1 & D2).
    rewrite B in *.
    assert (Dt : s_data (put (set_lock s m r) i (set_owns t m x k)) = s_data s) by (destruct m; reflexivity).
    assert (Th : s_threads (put (set_lock s m r) i (set_owns t m x k)) = update (s_threads s) i (set_owns t m x k))
      by (destruct m; reflexivity).
    rewrite Tk in Fo. simpl in Fo. destruct Fo as [_ Fo].
    assert (Coh : n_of Exclusive MCloud (s_threads s) = 0 \/ t_cloud t = Exclusive ->
                  t_cloud t = Exclusive -> kn = KNone \/ kn = KMem -> coherent (s_data s)).
    { intros _ X [E|E]; rewrite E in K; simpl in K; auto. left. tauto. }
    eapply (inv_quiet s _ i t (set_owns t m x k) kn' sv); eauto; rewrite ?Dt; auto.
    + (* khold *)
      destruct m.
      * destruct (D1 eq_refl) as [_ ->]. exact K.
      * specialize (D2 eq_refl). simpl. destruct o; simpl in A.
        -- subst kn'. simpl. intros ->. destruct (t_cloud t); discriminate.
        -- subst kn'. simpl. intros ->. destruct (t_cloud t); discriminate.
        -- subst kn'. simpl. intros ->. destruct (t_cloud t); discriminate.
        -- subst kn'. simpl. intros ->. destruct (t_cloud t); discriminate.
        -- destruct D2 as [D2 ->]. simpl. intros ->. destruct (t_cloud t); discriminate.
        -- destruct D2 as [D2 ->]. simpl. intros ->.
           apply (id_coherent _ I).
           (* the mutex was free of owners *)
           destruct (id_lock _ I) as (_ & L2 & _). destruct L2 as [Q1 Q2 Q3 Q4 Q5].
           pose proof (cnt_ge (is_mode Waiting MCloud) _ _ _ Hi) as G. unfold is_mode in G at 1. simpl in G.
           destruct (t_cloud t); simpl in A; try discriminate. simpl in G. unfold n_of in *. lia.
        -- destruct D2 as (-> & D2 & D3). destruct (t_cloud t) eqn:Ec; try discriminate. inversion A; subst x.
           destruct kn; simpl in *; try congruence. tauto.
    + (* coherent *)
      rewrite Th. intros N.
      pose proof (update_n_excl (s_threads s) i t (set_owns t m x k) Hi) as Q. rewrite N in Q.
      destruct (Nat.eq_dec (n_of Exclusive MCloud (s_threads s)) 0) as [Z|Z]; [apply (id_coherent _ I Z)|].
      assert (X : t_cloud t = Exclusive).
      { unfold is_mode in Q at 1. simpl in Q. destruct (mode_eqb (t_cloud t) Exclusive) eqn:E; [apply mode_eqb_eq; auto|lia]. }
      destruct m.
      * unfold is_mode in Q. simpl in Q. rewrite X in Q. simpl in Q. lia.
      * specialize (D2 eq_refl). simpl in A. rewrite X in A. destruct o; simpl in A; try discriminate.
        destruct D2 as (-> & D2 & D3). destruct kn; simpl in K; auto; try congruence; try (left; tauto).
    + rewrite todo_set. destruct (all_guarded (t_todo t)) eqn:G; auto. left. rewrite Tk in G. exact G.
    + unfold todo_nset. rewrite todo_set, Tk. simpl. lia.
    + rewrite todo_set. exact Fo.
  - (* test *)
    destruct (typed_if _ _ _ _ _ _ Tk Ty) as (A & kn' & sv' & B & C1 & C2 & C3).
    rewrite Tk in Fo. cbn [followed] in Fo. destruct Fo as [Fo1 Fo2]. rewrite needs_if in Fo1.
    remember (run_test disk_saving delay (s_data s) tst) as b eqn:Eb. symmetry in Eb.
    set (d' := log_test (s_data s) b tst) in *.
    assert (E1 : d_in_memory d' = d_in_memory (s_data s)) by (unfold d', log_test; destruct b; auto).
    assert (E2 : d_inner d' = d_inner (s_data s)) by (unfold d', log_test; destruct b; auto).
    assert (E3 : d_file d' = d_file (s_data s)) by (unfold d', log_test; destruct b; auto).
    assert (E4 : d_matched d' = d_matched (s_data s)) by (unfold d', log_test; destruct b; auto).
    assert (E5 : drops (d_log d') = drops (d_log (s_data s))).
    { unfold d', log_test; destruct b; auto. simpl. rewrite drops_app. destruct tst; simpl; auto. }
    assert (Co : n_of Exclusive MCloud (update (s_threads s) i (mkThread (t_submap t) (t_cloud t) (if b then body ++ k else k))) = 0 ->
                 coherent (s_data s)).
    { intros N. apply (id_coherent _ I).
      pose proof (update_n_excl (s_threads s) i t (mkThread (t_submap t) (t_cloud t) (if b then body ++ k else k)) Hi) as Q.
      unfold is_mode in Q. simpl in Q. lia. }
    destruct b.
    + eapply (inv_quiet s _ i t (mkThread (t_submap t) (t_cloud t) (body ++ k)) kn sv); eauto; simpl.
      * destruct (all_guarded (t_todo t)) eqn:G; auto. rewrite Tk in G. simpl in G.
        apply andb_true_iff in G. destruct G as [G1 G2].
        change (guarded (IIf tst body) = true) in G1. rewrite guarded_if in G1.
        rewrite guarded_app. fold (all_guarded k) in G2. rewrite G2, andb_true_r.
        destruct tst; auto.
        destruct (id_unsaved _ I) as [S|(S & _)]; auto. simpl in Eb. rewrite S in Eb. discriminate.
      * unfold todo_nset. simpl. rewrite Tk, nsets_app. simpl. fold nset. 
        change (nsets body + nsets k <= nset (IIf tst body) + nsets k). rewrite nset_if. lia.
      * apply followed_app; auto.
    + eapply (inv_quiet s _ i t (mkThread (t_submap t) (t_cloud t) k) kn' sv'); eauto; simpl.
      * destruct tst; try (rewrite C2 by congruence; exact K).
        destruct (C1 eq_refl) as (-> & -> & U & _). simpl. rewrite U in *. split; auto.
        simpl in Eb. apply negb_false_iff in Eb.
        destruct (id_unsaved _ I) as [S|(S1 & S2 & _)]; auto.
        assert (Z : n_of Exclusive MCloud (s_threads s) = 0).
        { destruct (id_lock _ I) as (_ & L2 & _). destruct L2 as [Q1 Q2 Q3 Q4 Q5].
          pose proof (cnt_ge (is_mode Upgrade MCloud) _ _ _ Hi) as G. unfold is_mode in G at 1. simpl in G.
          rewrite U in G. simpl in G. unfold n_of in *. lia. }
        destruct (id_coherent _ I Z) as [[S1 S2]|[S1 _]]; auto. congruence.
      * destruct tst; try (rewrite C3 by congruence; exact Sv).
        intros _ Dk. simpl in Eb. congruence.
      * destruct (all_guarded (t_todo t)) eqn:G; auto. rewrite Tk in G. simpl in G.
        apply andb_true_iff in G. left. tauto.
      * unfold todo_nset. simpl. rewrite Tk. simpl. lia.
  - (* other *)
    destruct (typed_act _ _ _ _ _ Tk N1 N2 Ty) as (kn' & sv' & B & C).
    rewrite Tk in Fo. simpl in Fo. destruct Fo as [Fo1 Fo2].
    assert (Co : n_of Exclusive MCloud (update (s_threads s) i (mkThread (t_submap t) (t_cloud t) k)) = 0 ->
                 coherent (s_data s)).
    { intros N. apply (id_coherent _ I).
      pose proof (update_n_excl (s_threads s) i t (mkThread (t_submap t) (t_cloud t) k) Hi) as Q.
      unfold is_mode in Q. simpl in Q. lia. }
    assert (Gd : all_guarded k = true \/ saved (s_data s) = true \/ all_guarded (t_todo t) = false).
    { destruct (all_guarded (t_todo t)) eqn:G; auto. rewrite Tk in G. simpl in G. apply andb_true_iff in G. tauto. }
    assert (Ns : todo_nset (mkThread (t_submap t) (t_cloud t) k) + nset x = todo_nset t).
    { unfold todo_nset. simpl. rewrite Tk. simpl. lia. }
    assert (Quiet : d_in_memory d = d_in_memory (s_data s) -> d_inner d = d_inner (s_data s) ->
       d_file d = d_file (s_data s) -> d_matched d = d_matched (s_data s) -> drops (d_log d) = drops (d_log (s_data s)) ->
       kn' = kn -> sv' = sv -> inv_data (put (put_data s d) i (mkThread (t_submap t) (t_cloud t) k))).
    { intros E1 E2 E3 E4 E5 -> ->.
      eapply (inv_quiet s _ i t (mkThread (t_submap t) (t_cloud t) k) kn sv); eauto. lia. }
    destruct x; try (exfalso; eapply N1; reflexivity); try (exfalso; eapply N2; reflexivity); simpl in Ha.
    + inversion Ha; subst d. destruct C. apply Quiet; auto. simpl. rewrite drops_app. apply Nat.add_0_r.
    + inversion Ha; subst d. destruct C. apply Quiet; auto. simpl. rewrite drops_app. apply Nat.add_0_r.
    + (* drop *)
      inversion Ha; subst d. destruct C as (X & -> & ->).
      eapply (inv_write s _ i t (mkThread (t_submap t) (t_cloud t) k) KDropped sv); eauto; simpl; auto.
      * eapply write_saved; eauto.
      * simpl in Ns. lia.
    + (* load *)
      destruct C as (X & -> & ->).
      assert (S : saved (s_data s) = true) by (eapply write_saved; eauto).
      assert (Hd : d = mkData c (d_in_memory (s_data s)) (d_file (s_data s)) (d_matched (s_data s))
                              (d_inactive (s_data s)) (d_log (s_data s))).
      { pose proof (id_saved _ I S) as F. rewrite F in *. clear - Ha c_points. destruct c; [congruence|].
        inversion Ha; reflexivity. }
      subst d.
      eapply (inv_write s _ i t (mkThread (t_submap t) (t_cloud t) k) KLoaded sv); eauto; simpl; auto.
      simpl in Ns. lia.
    + (* flag *)
      inversion Ha; subst d.
      assert (S : saved (s_data s) = true) by (eapply write_saved; eauto).
      destruct b.
      * destruct C as (X & Kk & -> & ->).
        eapply (inv_write s _ i t (mkThread (t_submap t) (t_cloud t) k) KMem sv); eauto; simpl; auto.
        -- split; auto. split; auto. destruct Kk as [Kk|Kk]; rewrite Kk in K; simpl in K; tauto.
        -- simpl in Ns. lia.
      * destruct C as (X & Kk & -> & ->).
        eapply (inv_write s _ i t (mkThread (t_submap t) (t_cloud t) k) KNone sv); eauto; simpl; auto.
        -- intros _. right. simpl. rewrite Kk in K. simpl in K. tauto.
        -- simpl in Ns. lia.
    + assert (Ed : d = s_data s) by (clear - Ha; destruct (d_in_memory (s_data s)); congruence). subst d. apply Quiet; auto; tauto.
    + assert (Ed : d = s_data s) by (clear - Ha; destruct (d_inner (s_data s)); congruence). subst d. apply Quiet; auto; tauto.
    + (* save *)
      inversion Ha; subst d. destruct C as (X & -> & ->).
      destruct (need_memory _ _ _ _ _ I Hi Tk eq_refl) as (M1 & M2 & M3).
      destruct I as [I1 I2 I3 I4 I5 I6 I7 I8].
      pose proof (cnt_update todo_nset (s_threads s) i t (mkThread (t_submap t) (t_cloud t) k) Hi) as Cn.
      simpl in Ns.
      constructor; simpl; auto.
      * intros j u Hj. destruct (nth_update _ _ _ _ _ _ Hi Hj) as [[-> ->]|[Nj Hj']].
        -- exists kn, true. split; auto. simpl. split; [eapply khold_same; eauto|]. rewrite M3. auto.
        -- destruct (I2 _ _ Hj') as (k' & sv' & A' & B' & D'). exists k', sv'. split; auto.
           split; [eapply khold_same; eauto; reflexivity|]. rewrite M3. auto.
      * rewrite M3; auto.
      * destruct I5 as [I5|(A & B' & D & F)]; [left; auto|].
        right. repeat split; auto. intros j u Hj. destruct (nth_update _ _ _ _ _ _ Hi Hj) as [[-> ->]|[_ Hj']]; eauto.
        destruct Gd as [Gd|[Gd|Gd]]; auto. 2:{ rewrite (F _ _ Hi) in Gd. discriminate. }
        unfold saved in Gd. rewrite M1, andb_false_r in Gd. discriminate.
      * lia.
      * rewrite M1. discriminate.
      * intros j u Hj. destruct (nth_update _ _ _ _ _ _ Hi Hj) as [[-> ->]|[_ Hj']]; eauto.
    + assert (Ed : d = s_data s) by (clear - Ha; destruct (d_matched (s_data s)); congruence). subst d. apply Quiet; auto; tauto.
    + (* set matched *)
      inversion Ha; subst d. destruct C as (Es & -> & ->). specialize (Sv Es).
      destruct I as [I1 I2 I3 I4 I5 I6 I7 I8].
      pose proof (cnt_update todo_nset (s_threads s) i t (mkThread (t_submap t) (t_cloud t) k) Hi) as Cn.
      simpl in Ns.
      assert (M : d_matched (s_data s) = false).
      { destruct (d_matched (s_data s)) eqn:M; auto. specialize (I7 eq_refl).
        pose proof (cnt_ge todo_nset _ _ _ Hi). lia. }
      constructor; simpl; auto.
      * intros j u Hj. destruct (nth_update _ _ _ _ _ _ Hi Hj) as [[-> ->]|[Nj Hj']].
        -- exists kn, false. split; [exact B|]. simpl. split; [eapply khold_same; eauto|]. intros; discriminate.
        -- destruct (I2 _ _ Hj') as (k' & sv' & A' & B' & D'). exists k', sv'. split; [exact A'|].
           split; [eapply khold_same; eauto; reflexivity|]. auto.
      * unfold saved. simpl. rewrite andb_true_r. auto.
      * destruct I5 as [I5|(A & B' & D & F)].
        { unfold saved in I5. rewrite M, andb_false_r in I5. discriminate. }
        right. repeat split; auto. intros j u Hj. destruct (nth_update _ _ _ _ _ _ Hi Hj) as [[-> ->]|[_ Hj']]; eauto.
        destruct Gd as [Gd|[Gd|Gd]]; auto. 2:{ rewrite (F _ _ Hi) in Gd. discriminate. }
        unfold saved in Gd. rewrite M, andb_false_r in Gd. discriminate.
      * lia.
      * intros _. lia.
      * intros j u Hj. destruct (nth_update _ _ _ _ _ _ Hi Hj) as [[-> ->]|[_ Hj']]; eauto.
    + inversion Ha; subst d. destruct C. apply Quiet; auto. simpl. rewrite drops_app. apply Nat.add_0_r.
    + inversion Ha; subst d. destruct C as (_ & -> & ->). apply Quiet; auto.
    + inversion Ha; subst d. destruct C as (_ & -> & ->). apply Quiet; auto.
Qed.

Lemma inv_data_no_abort : forall s i t o, inv_data s -> nth_error (s_threads s) i = Some t ->
  stepped P disk_saving delay s i t o -> exists s', o = Ok s'.
Proof.
  intros s i t o I Hi St. destruct St as [m lo k r Tk Hr | tst body k Tk | x k d Tk N1 N2 Ha | x k o Tk N1 N2 Ha No]; eauto.
  exfalso. destruct (id_thread _ I _ _ Hi) as (kn & sv & Ty & K & Sv).
  destruct (typed_act _ _ _ _ _ Tk N1 N2 Ty) as (kn' & sv' & B & C).
  subst o. destruct x; simpl in No; try (eapply No; reflexivity).
  - assert (S : saved (s_data s) = true) by (eapply write_saved; eauto).
    rewrite (id_saved _ I S) in No. destruct c; [congruence|]. eapply No; reflexivity.
  - destruct C as (_ & -> & _). simpl in K. destruct K as (_ & K & _). rewrite K in No. eapply No; reflexivity.
  - destruct (need_memory _ _ _ _ _ I Hi Tk eq_refl) as (_ & _ & M). rewrite M in No.
    destruct c; [congruence|]. eapply No; reflexivity.
  - destruct (need_memory _ _ _ _ _ I Hi Tk eq_refl) as (M & _). rewrite M in No. eapply No; reflexivity.
Qed.

(** Start. *)
Lemma code_guarded : forall cs, all_guarded (flat_map code cs) = true.
Proof.
  induction cs as [|x cs IH]; simpl; auto. rewrite guarded_app, IH. destruct x; reflexivity.
Qed.
Lemma code_followed : forall cs, followed (flat_map code cs).
Proof.
  induction cs as [|x cs IH]; simpl; auto. apply followed_app2; auto.
  destruct x; simpl; repeat split; intros; try discriminate; lia.
Qed.
Lemma code_nsets : forall cs, nsets (flat_map code cs) = length (filter is_matched_call cs).
Proof.
  induction cs as [|x cs IH]; simpl; auto. rewrite nsets_app, IH. destruct x; reflexivity.
Qed.
Lemma start_nsets : forall calls, cnt todo_nset (s_threads (start c calls)) = matched_calls calls.
Proof.
  intros calls. simpl. unfold matched_calls. induction calls as [|cs calls IH]; simpl; auto.
  rewrite IH, filter_app, app_length. unfold todo_nset. simpl. rewrite code_nsets. auto.
Qed.

Lemma inv_data_start : forall calls, matched_calls calls <= 1 -> inv_data (start c calls).
Proof.
  intros calls M. constructor.
  - apply inv_lock_start.
  - intros i t H. destruct (start_threads _ _ _ _ _ H) as (cs & _ & ->). exists KNone, false.
    split; [apply codes_typed|]. simpl. split; discriminate.
  - intros _. left. auto.
  - unfold saved. simpl. rewrite andb_false_r. discriminate.
  - right. repeat split. intros i t H. destruct (start_threads _ _ _ _ _ H) as (cs & _ & ->). apply code_guarded.
  - rewrite start_nsets. auto.
  - simpl. discriminate.
  - intros i t H. destruct (start_threads _ _ _ _ _ H) as (cs & _ & ->). apply code_followed.
Qed.

Lemma reach_data : forall calls o, matched_calls calls <= 1 -> reach c calls o -> exists s, o = Ok s /\ inv_data s.
Proof.
  intros calls o M R. induction R.
  - eexists; split; eauto. apply inv_data_start; auto.
  - destruct IHR as (s0 & E & I). inversion E; subst s0.
    destruct (step_inv _ _ _ _ _ _ H) as (t & Hi & St).
    destruct (inv_data_no_abort _ _ _ _ I Hi St) as (s' & ->). exists s'. split; auto.
    eapply inv_data_step; eauto.
Qed.

(** What callers get: all points or none. *)
Lemma inner_cases : forall s, inv_data s -> d_inner (s_data s) = c \/ d_inner (s_data s) = [].
Proof.
  intros s I. destruct (Nat.eq_dec (n_of Exclusive MCloud (s_threads s)) 0) as [Z|Z].
  - destruct (id_coherent _ I Z) as [[_ A]|[_ A]]; auto.
  - destruct (cnt_pos (is_mode Exclusive MCloud) (s_threads s)) as (i & t & Hi & Ho); [unfold n_of in *; lia|].
    apply mode_of in Ho. simpl in Ho. destruct (id_thread _ I _ _ Hi) as (kn & sv & Ty & K & _). rewrite Ho in K.
    destruct kn; simpl in K.
    + destruct (K eq_refl) as [[_ A]|[_ A]]; auto.
    + left; tauto.
    + right; tauto.
    + left; tauto.
Qed.
End Data.

(** * The history. *)
Section History.
Variable P : Type.
Variable disk_saving : bool.
Variable delay : Z.
Notation state := (state P).
Notation reach := (@reach P disk_saving delay).
Definition todo_drops (t : thread) : nat := ndrops (t_todo t).

Lemma since_app : forall (l : list (event P)) e, since_access (l ++ [e]) =
  match e with EReset => 0%Z | EAdd k => (since_access l + k)%Z | _ => since_access l end.
Proof. intros l e. unfold since_access. rewrite fold_left_app. reflexivity. Qed.
Lemma decisions_app : forall l m : list (event P), decisions (l ++ m) = decisions l + decisions m.
Proof. intros. unfold decisions. rewrite filter_app, app_length. auto. Qed.

Record inv_log (s : state) : Prop := {
  il_time : d_inactive (s_data s) = since_access (d_log (s_data s));
  il_old : forall l1 l2, d_log (s_data s) = l1 ++ EOld :: l2 -> (delay < since_access l1)%Z;
  il_drops : drops (d_log (s_data s)) + cnt todo_drops (s_threads s) <= decisions (d_log (s_data s));
  il_single : forall i t, nth_error (s_threads s) i = Some t -> singles (t_todo t) = true }.

Lemma snoc_cases : forall A (l : list A) x l1 y l2, l ++ [x] = l1 ++ y :: l2 ->
  (l1 = l /\ x = y) \/ exists l3, l = l1 ++ y :: l3.
Proof.
  intros A l x l1 y l2 H. destruct l2 as [|z l2] using rev_ind.
  - apply app_inj_tail in H. destruct H; subst. auto.
  - clear IHl2. right. rewrite app_comm_cons, app_assoc in H. apply app_inj_tail in H. destruct H. eauto.
Qed.

Lemma log_act : forall i (d d' : data P) x, act i d x = Ok d' ->
  (d_log d' = d_log d /\ d_inactive d' = d_inactive d) \/
  (exists e, d_log d' = d_log d ++ [e] /\ e <> EOld /\
     match x with
     | IResetTime => e = EReset /\ d_inactive d' = 0%Z
     | IAddTime k => e = EAdd k /\ d_inactive d' = (d_inactive d + k)%Z
     | IDropCloud => e = EDrop /\ d_inactive d' = d_inactive d
     | _ => e = EGot i (d_inner d) /\ d_inactive d' = d_inactive d
     end).
Proof.
  intros i d d' x H. destruct x; simpl in H; try (inversion H; subst d'; auto; fail).
  - inversion H; subst. right. exists EReset. simpl. repeat split; congruence.
  - inversion H; subst. right. exists (EAdd k). simpl. repeat split; congruence.
  - inversion H; subst. right. exists EDrop. simpl. repeat split; congruence.
  - destruct (d_file d) as [[|]|]; inversion H; subst; auto.
  - destruct (d_in_memory d); inversion H; subst; auto.
  - destruct (d_inner d); inversion H; subst; auto.
  - destruct (d_matched d); inversion H; subst; auto.
  - inversion H; subst. right. eexists. simpl. split; [reflexivity|]. repeat split; eauto; congruence.
Qed.

Lemma act_matched : forall i (d d' : data P) x, act i d x = Ok d' -> d_matched d = true -> d_matched d' = true.
Proof.
  intros i d d' x H M. destruct x; simpl in H; try (inversion H; subst d'; auto; fail).
  - destruct (d_file d) as [[|]|]; inversion H; subst; auto.
  - destruct (d_in_memory d); inversion H; subst; auto.
  - destruct (d_inner d); inversion H; subst; auto.
  - destruct (d_matched d); inversion H; subst; congruence.
Qed.

(** The new event of a step. *)
Lemma step_log : forall (s : state) i t s', stepped P disk_saving delay s i t (Ok s') ->
  d_log (s_data s') = d_log (s_data s) \/ exists e, d_log (s_data s') = d_log (s_data s) ++ [e] /\
    (forall j l, e = EGot j l -> l = d_inner (s_data s)).
Proof.
  intros s i t s' St.
  inversion St as [m lo k r Tk Hr Eq | tst body k Tk Eq | x k d Tk N1 N2 Ha Eq | ]; subst; clear St.
  - left. destruct m; reflexivity.
  - simpl. unfold log_test. destruct (run_test _ _ _ _); auto. simpl. destruct tst; simpl; rewrite ?app_nil_r; auto.
    right. eexists. split; eauto. discriminate.
  - simpl. destruct (log_act _ _ _ _ Ha) as [[E1 _]|(e & E1 & _ & E2)]; auto. right. exists e. split; auto.
    intros j l ->. destruct x; destruct E2 as [E2 _]; inversion E2; auto.
Qed.
Lemma step_matched : forall (s : state) i t s', stepped P disk_saving delay s i t (Ok s') ->
  d_matched (s_data s) = true -> d_matched (s_data s') = true.
Proof.
  intros s i t s' St M.
  inversion St as [m lo k r Tk Hr Eq | tst body k Tk Eq | x k d Tk N1 N2 Ha Eq | ]; subst; clear St.
  - destruct m; exact M.
  - simpl. unfold log_test. destruct (run_test _ _ _ _); auto.
  - simpl. eapply act_matched; eauto.
Qed.

Lemma inv_log_step : forall s i t s', inv_log s -> nth_error (s_threads s) i = Some t ->
  stepped P disk_saving delay s i t (Ok s') -> inv_log s'.
Proof.
  intros s i t s' [I1 I2 I3 I4] Hi St.
  pose proof (I4 _ _ Hi) as Si.
  inversion St as [m o k r Tk Hr Eq | tst body k Tk Eq | x k d Tk N1 N2 Ha Eq | ]; subst; clear St.
  - assert (Dt : s_data (put (set_lock s m r) i (set_owns t m (mode_step o) k)) = s_data s) by (destruct m; reflexivity).
    assert (Th : s_threads (put (set_lock s m r) i (set_owns t m (mode_step o) k)) = update (s_threads s) i (set_owns t m (mode_step o) k))
      by (destruct m; reflexivity).
    pose proof (cnt_update todo_drops _ _ _ (set_owns t m (mode_step o) k) Hi) as C.
    unfold todo_drops at 2 4 in C. rewrite Tk, todo_set in C. simpl in C.
    constructor; rewrite ?Dt, ?Th; auto; [lia|].
    intros j u Hj. destruct (nth_update _ _ _ _ _ _ Hi Hj) as [[-> ->]|[_ Hj']]; eauto.
    rewrite todo_set. rewrite Tk in Si. simpl in Si. auto.
  - rewrite Tk in Si. cbn [singles forallb] in Si. apply andb_true_iff in Si. destruct Si as [S1 S2].
    rewrite single_if in S1. apply andb_true_iff in S1. destruct S1 as [S0 S1].
    remember (run_test disk_saving delay (s_data s) tst) as b eqn:Eb. symmetry in Eb.
    pose proof (cnt_update todo_drops _ _ _ (mkThread (t_submap t) (t_cloud t) (if b then body ++ k else k)) Hi) as C.
    unfold todo_drops at 2 4 in C. rewrite Tk in C. simpl t_todo in C.
    change (ndrops (IIf tst body :: k)) with (ndrop (IIf tst body) + ndrops k) in C. rewrite ndrop_if in C.
    assert (Sg : forall j u, nth_error (update (s_threads s) i (mkThread (t_submap t) (t_cloud t) (if b then body ++ k else k))) j = Some u -> singles (t_todo u) = true).
    { intros j u Hj. destruct (nth_update _ _ _ _ _ _ Hi Hj) as [[-> ->]|[_ Hj']]; eauto.
      simpl. destruct b; auto. unfold singles. rewrite forallb_app. fold (singles body). rewrite S0. auto. }
    destruct b.
    + rewrite ndrops_app in C. unfold log_test.
      destruct tst; simpl test_event; rewrite ?app_nil_r;
        try (constructor; simpl; rewrite ?app_nil_r; auto; lia).
      (* the decision *)
      constructor; simpl.
      * rewrite since_app. auto.
      * intros l1 l2 E. destruct (snoc_cases _ _ _ _ _ _ E) as [[-> _]|[l3 E']]; eauto.
        rewrite <- I1. simpl in Eb. apply Z.ltb_lt in Eb. auto.
      * rewrite drops_app, decisions_app. apply Nat.leb_le in S1.
        change (drops [@EOld P]) with 0. change (decisions [@EOld P]) with 1. lia.
      * exact Sg.
    + constructor; simpl; auto. destruct tst; lia.
  - rewrite Tk in Si. simpl in Si. apply andb_true_iff in Si. destruct Si as [S1 S2].
    pose proof (cnt_update todo_drops _ _ _ (mkThread (t_submap t) (t_cloud t) k) Hi) as C.
    unfold todo_drops at 2 4 in C. rewrite Tk in C. simpl in C.
    assert (Sg : forall j u, nth_error (update (s_threads s) i (mkThread (t_submap t) (t_cloud t) k)) j = Some u -> singles (t_todo u) = true).
    { intros j u Hj. destruct (nth_update _ _ _ _ _ _ Hi Hj) as [[-> ->]|[_ Hj']]; eauto. }
    destruct (log_act _ _ _ _ Ha) as [[E1 E2]|(e & E1 & Ne & E2)].
    + constructor; simpl; rewrite ?E1, ?E2; auto. lia.
    + constructor; simpl; rewrite ?E1; auto.
      * rewrite since_app. destruct x; simpl in E2; destruct E2 as [-> ->]; lia.
      * intros l1 l2 E. destruct (snoc_cases _ _ _ _ _ _ E) as [[_ E']|[l3 E']]; eauto. congruence.
      * rewrite drops_app, decisions_app.
        destruct x; simpl in E2, C; destruct E2 as [-> _];
          unfold drops, decisions in *; simpl; lia.
Qed.

Lemma inv_log_start : forall (c : list P) calls, inv_log (start c calls).
Proof.
  intros c calls. constructor; simpl; auto.
  - intros [|] l2 H; discriminate.
  - apply Nat.eq_le_incl. induction calls as [|cs calls IH]; simpl; auto. rewrite IH, Nat.add_0_r.
    unfold todo_drops. simpl. induction cs as [|x cs IH2]; simpl; auto. rewrite ndrops_app, IH2. destruct x; reflexivity.
  - intros i t H. destruct (start_threads P c _ _ _ H) as (cs & _ & ->). simpl. clear H.
    induction cs as [|x cs IH2]; simpl; auto. unfold singles. rewrite forallb_app. fold (singles (flat_map code cs)).
    rewrite IH2. destruct x; reflexivity.
Qed.

Lemma reach_log : forall c calls o, reach c calls o -> forall s, o = Ok s -> inv_log s.
Proof.
  intros c calls o R. induction R; intros s0 E.
  - inversion E. apply inv_log_start.
  - subst. destruct (step_inv _ _ _ _ _ _ H) as (t & A & B). eapply inv_log_step; eauto.
Qed.
End History.

(** * Every access resets the counter. *)
Section Access.
Variable P : Type.
Variable disk_saving : bool.
Variable delay : Z.
Notation state := (state P).
Notation reach := (@reach P disk_saving delay).

Fixpoint quiet (x : instr) : bool :=
  match x with
  | IIf _ b => (fix go l := match l with [] => true | y :: r => quiet y && go r end) b
  | IResetTime | IGetInner => false
  | _ => true
  end.
Definition quiets (l : list instr) : bool := forallb quiet l.
Lemma quiet_if : forall t b, quiet (IIf t b) = quiets b.
Proof. intros t b. induction b; simpl in *; auto. Qed.
Definition is_reset (x : instr) : nat := match x with IResetTime => 1 | _ => 0 end.
Definition is_get (x : instr) : nat := match x with IGetInner => 1 | _ => 0 end.
Fixpoint count (f : instr -> nat) (l : list instr) : nat := match l with [] => 0 | x :: r => f x + count f r end.
Lemma count_app : forall f l m, count f (l ++ m) = count f l + count f m.
Proof. induction l; intros; simpl; auto. rewrite IHl. lia. Qed.
Lemma quiet_count : forall l, quiets l = true -> count is_reset l = 0 /\ count is_get l = 0.
Proof.
  induction l as [|x l IH]; simpl; auto. intros H. apply andb_true_iff in H. destruct H as [H1 H2].
  destruct (IH H2) as [-> ->]. destruct x; simpl in *; auto; discriminate.
Qed.
Definition still (x : instr) : Prop := match x with IIf _ b => quiets b = true | _ => True end.
Lemma quiet_still : forall x, quiet x = true -> still x.
Proof. destruct x; simpl; auto. Qed.
Fixpoint balanced (l : list instr) : Prop :=
  match l with
  | [] => True
  | x :: r => still x /\ count is_reset (x :: r) <= count is_get (x :: r) /\ balanced r
  end.
Lemma balanced_le : forall l, balanced l -> count is_reset l <= count is_get l.
Proof. destruct l; simpl; auto. tauto. Qed.
Lemma balanced_quiet : forall l m, quiets l = true -> balanced m -> balanced (l ++ m).
Proof.
  induction l as [|x l IH]; simpl; auto. intros m H B. apply andb_true_iff in H. destruct H as [H1 H2].
  destruct (quiet_count _ H2) as [R G]. pose proof (balanced_le _ B).
  rewrite !count_app, R, G. split; [apply quiet_still; auto|]. split; auto.
  destruct x; simpl in *; try lia; discriminate.
Qed.
Lemma balanced_codes : forall cs, balanced (flat_map code cs).
Proof.
  induction cs as [|x cs IH]; simpl; auto. pose proof (balanced_le _ IH).
  destruct x; simpl; repeat split; auto; lia.
Qed.

Definition todo_resets (t : thread) := count is_reset (t_todo t).
Definition todo_gets (t : thread) := count is_get (t_todo t).
Record inv_access (n : nat) (s : state) : Prop := {
  ia_resets : resets (d_log (s_data s)) + cnt todo_resets (s_threads s) = n;
  ia_gets : gots (d_log (s_data s)) + cnt todo_gets (s_threads s) = n;
  ia_balanced : forall i t, nth_error (s_threads s) i = Some t -> balanced (t_todo t) }.
Lemma resets_app : forall l m : list (event P), resets (l ++ m) = resets l + resets m.
Proof. intros. unfold resets. rewrite filter_app, app_length. auto. Qed.
Lemma gots_app : forall l m : list (event P), gots (l ++ m) = gots l + gots m.
Proof. intros. unfold gots. rewrite filter_app, app_length. auto. Qed.

(** The events that an instruction leaves. *)
Lemma act_access : forall i (d d' : data P) x, act i d x = Ok d' ->
  resets (d_log d') = resets (d_log d) + is_reset x /\ gots (d_log d') = gots (d_log d) + is_get x.
Proof.
  intros i d d' x H.
  destruct x; simpl in H;
    repeat match type of H with context[match ?y with _ => _ end] => destruct y end;
    inversion H; subst d'; simpl; rewrite ?resets_app, ?gots_app; unfold resets, gots; simpl; lia.
Qed.

Lemma inv_access_step : forall n s i t s', inv_access n s -> nth_error (s_threads s) i = Some t ->
  stepped P disk_saving delay s i t (Ok s') -> inv_access n s'.
Proof.
  intros n s i t s' [I1 I2 I3] Hi St. pose proof (I3 _ _ Hi) as Bt.
  assert (U : forall t', balanced (t_todo t') -> forall j u, nth_error (update (s_threads s) i t') j = Some u -> balanced (t_todo u)).
  { intros t' B j u Hj. destruct (nth_update _ _ _ _ _ _ Hi Hj) as [[-> ->]|[_ Hj']]; eauto. }
  inversion St as [m o k r Tk Hr Eq | tst body k Tk Eq | x k d Tk N1 N2 Ha Eq | ]; subst s'; clear St;
    rewrite Tk in Bt; simpl in Bt; destruct Bt as (B1 & _ & B2).
  - set (t' := set_owns t m (mode_step o) k).
    assert (Dt : s_data (put (set_lock s m r) i t') = s_data s) by (destruct m; reflexivity).
    assert (Th : s_threads (put (set_lock s m r) i t') = update (s_threads s) i t') by (destruct m; reflexivity).
    pose proof (cnt_update todo_resets _ _ _ t' Hi) as C1. pose proof (cnt_update todo_gets _ _ _ t' Hi) as C2.
    unfold todo_resets at 2 4 in C1. unfold todo_gets at 2 4 in C2. unfold t' in C1, C2.
    rewrite Tk, todo_set in C1, C2. fold t' in C1, C2. simpl in C1, C2.
    constructor; rewrite ?Dt, ?Th; try lia. apply U. unfold t'. rewrite todo_set. auto.
  - set (b := run_test disk_saving delay (s_data s) tst).
    set (t' := mkThread (t_submap t) (t_cloud t) (if b then body ++ k else k)).
    destruct (quiet_count _ B1) as [Q1 Q2].
    assert (L : resets (d_log (log_test (s_data s) b tst)) = resets (d_log (s_data s)) /\
                gots (d_log (log_test (s_data s) b tst)) = gots (d_log (s_data s))).
    { unfold log_test. destruct b; auto. simpl. rewrite resets_app, gots_app. destruct tst; unfold resets, gots; simpl; lia. }
    destruct L as [L1 L2].
    assert (T1 : todo_resets t' = todo_resets t).
    { unfold todo_resets. rewrite Tk. unfold t'. simpl. destruct b; auto. rewrite count_app, Q1. auto. }
    assert (T2 : todo_gets t' = todo_gets t).
    { unfold todo_gets. rewrite Tk. unfold t'. simpl. destruct b; auto. rewrite count_app, Q2. auto. }
    pose proof (cnt_update todo_resets _ _ _ t' Hi) as C1. pose proof (cnt_update todo_gets _ _ _ t' Hi) as C2.
    constructor; cbn [put put_data s_data s_threads]; try lia.
    apply U. unfold t'. simpl. destruct b; auto. apply balanced_quiet; auto.
  - set (t' := mkThread (t_submap t) (t_cloud t) k).
    destruct (act_access _ _ _ _ Ha) as [L1 L2].
    pose proof (cnt_update todo_resets _ _ _ t' Hi) as C1. pose proof (cnt_update todo_gets _ _ _ t' Hi) as C2.
    unfold todo_resets at 2 4 in C1. unfold todo_gets at 2 4 in C2. rewrite Tk in C1, C2.
    change (t_todo t') with k in C1, C2. simpl count in C1, C2.
    constructor; cbn [put put_data s_data s_threads]; try lia.
    apply U. auto.
Qed.

Lemma count_codes : forall cs, count is_reset (flat_map code cs) = length (filter is_get_call cs) /\
  count is_get (flat_map code cs) = length (filter is_get_call cs).
Proof.
  induction cs as [|x cs [A B]]; simpl; auto. rewrite !count_app, A, B. destruct x; simpl; auto.
Qed.
Lemma start_count : forall f calls, (forall cs, count f (flat_map code cs) = length (filter is_get_call cs)) ->
  cnt (fun t => count f (t_todo t)) (map (fun cs => mkThread No No (flat_map code cs)) calls) = get_calls calls.
Proof.
  intros f calls H. unfold get_calls. induction calls as [|cs calls IH]; cbn [map cnt concat]; auto.
  rewrite filter_app, app_length, IH. cbn [t_todo]. rewrite H. auto.
Qed.
Lemma reach_access : forall (c : list P) calls o, reach c calls o -> forall s, o = Ok s -> inv_access (get_calls calls) s.
Proof.
  intros c calls o R. induction R; intros s0 E.
  - inversion E. subst s0. constructor.
    + apply (start_count is_reset). intros cs. apply count_codes.
    + apply (start_count is_get). intros cs. apply count_codes.
    + intros i t H. destruct (start_threads P c _ _ _ H) as (cs & _ & ->). apply balanced_codes.
  - subst. destruct (step_inv _ _ _ _ _ _ H) as (t & A & B). eapply inv_access_step; eauto.
Qed.
Lemma cnt_le : forall f g (l : list thread), (forall i t, nth_error l i = Some t -> f t <= g t) -> cnt f l <= cnt g l.
Proof.
  intros f g l. induction l as [|x l IH]; intros H; simpl; auto. pose proof (H 0 x eq_refl).
  assert (cnt f l <= cnt g l) by (apply IH; intros i t Hi; apply (H (S i)); auto). lia.
Qed.
Lemma cnt_zero : forall f (l : list thread), (forall i t, nth_error l i = Some t -> f t = 0) -> cnt f l = 0.
Proof.
  intros f l. induction l as [|x l IH]; intros H; simpl; auto. rewrite (H 0 x eq_refl).
  apply IH. intros i t Hi. apply (H (S i)); auto.
Qed.
End Access.
