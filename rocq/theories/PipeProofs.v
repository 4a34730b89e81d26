From Coq Require Import List Bool Arith Lia.
From Verif Require Import Outcome TimeModel PipeModel PipeSpec.
Import ListNotations.

Section Proofs.
Variable cloud : Type.
Variable stamp : cloud -> time.
Variable filt : cloud -> outcome cloud -> Prop.
Notation pipe := (pipe cloud).
Notation reach := (preach stamp filt).
Notation step := (pstep stamp filt).

Record inv (s : pipe) : Prop := {
  i_hist : exists done, inserted s = done ++ unfiltered (pre s) ++ raw s /\
     Forall2 (passed stamp filt) done (map snd (taken s) ++ out s ++ filtered (pre s));
  i_raw : pre s = K2 \/ pre s = K3 -> raw s <> [];
  i_mutex : forall t, mutex s = Some t <-> inside s t }.

Lemma inv_init : inv pipe_init.
Proof.
  split; cbn.
  - exists []. auto.
  - intros [H|H]; discriminate.
  - intros []; cbn; split; try discriminate.
    + intros [c H]; discriminate.
    + intros [H|[c H]]; discriminate.
    + congruence.
Qed.

Ltac mtx Hm :=
  let t := fresh "t" in
  intros t; specialize (Hm t); destruct t; cbn in Hm |- *;
  intuition (try discriminate; try congruence; eauto).

Lemma mutex_unique : forall s t t', inv s -> inside s t -> inside s t' -> t = t'.
Proof.
  intros s t t' [_ _ M] H H'. apply M in H. apply M in H'. congruence.
Qed.

Lemma inv_step : forall s r, inv s -> step s r ->
  match r with Next s' => inv s' | Crash _ => True end.
Proof.
  intros s r Hinv H. pose proof Hinv as [(done & Hi & Hf) Hr Hm].
  assert (HU : forall t t', inside s t -> inside s t' -> t = t') by (intros; eapply mutex_unique; eauto).
  destruct H as [s c Hp Hx|s c Hp|s Hp Hk|s Hp Hk|s Hp Hq|s c q Hp Hq|s Hp Hx|s c q Hp Hq|s Hp Hq
                |s c c' Hp Hff Ht|s c c' Hp Hff Ht|s c Hp Hff|s c Hp Hff|s c Hp Hff
                |s c Hp Hx|s c Hp|s Hp Hx|s Hp Hq|s c q Hp Hq|s Hp Hx|s Hp|s]; try exact I;
    split; cbn [raw out mutex kill prod pre cons inserted taken unfiltered filtered];
    try (rewrite Hp in *; cbn [unfiltered filtered app] in *);
    try (exists done; split; assumption);
    try assumption;
    try (intros [E|E]; try discriminate; apply Hr; auto; fail).
  - (* lock *) intros t. pose proof (Hm t) as Ht. rewrite Hx in Ht.
    destruct t; cbn in *; split; intros; try discriminate; try reflexivity; eauto;
      exfalso; apply Ht in H; discriminate.
  - (* push *) exists done. rewrite Hi. rewrite <- !app_assoc. auto.
  - intros E. destruct (raw s); discriminate.
  - intros t. split; [discriminate|]. intros Hin. exfalso.
    destruct t; cbn in Hin.
    + destruct Hin as [x Hin]; discriminate.
    + specialize (HU Producer Preproc). cbn in HU. rewrite Hp in HU.
      assert (Producer = Preproc) by (apply HU; eauto). discriminate.
    + specialize (HU Producer Consumer). cbn in HU. rewrite Hp in HU.
      assert (Producer = Consumer) by (apply HU; eauto). discriminate.
  - (* kill *) intros t. rewrite (Hm t). destruct t; cbn; rewrite ?Hp; try tauto.
    split; intros [E|[x E]]; discriminate.
  - intros t. rewrite (Hm t). destruct t; cbn; rewrite ?Hp; try tauto.
    split; intros [E|[x E]]; discriminate.
  - intros t. rewrite (Hm t). destruct t; cbn; rewrite ?Hp; try tauto.
    split; intros [E|[x E]]; discriminate.
  - intros _. rewrite Hq. discriminate.
  - intros t. rewrite (Hm t). destruct t; cbn; rewrite ?Hp; try tauto.
    split; intros [E|[x E]]; discriminate.
  - (* lock *) intros t. pose proof (Hm t) as Ht. rewrite Hx in Ht.
    destruct t; cbn in *; split; intros; try discriminate; try reflexivity; eauto;
      exfalso; apply Ht in H; discriminate.
  - (* pop *) exists done. rewrite Hi, Hq. auto.
  - intros t. split; [discriminate|]. intros Hin. exfalso.
    destruct t; cbn in Hin.
    + specialize (HU Preproc Producer). cbn in HU. rewrite Hp in HU.
      assert (Preproc = Producer) by (apply HU; eauto). discriminate.
    + destruct Hin as [E|[x E]]; discriminate.
    + specialize (HU Preproc Consumer). cbn in HU. rewrite Hp in HU.
      assert (Preproc = Consumer) by (apply HU; eauto). discriminate.
  - (* filter *) exists (done ++ [c]). rewrite Hi. rewrite <- app_assoc. split; [reflexivity|].
    rewrite app_nil_r in Hf. rewrite app_assoc. apply Forall2_app; [assumption|].
    repeat constructor; assumption.
  - intros t. rewrite (Hm t). destruct t; cbn; rewrite ?Hp; try tauto.
    split; intros [E|[x E]]; discriminate.
  - (* lock2 *) intros t. pose proof (Hm t) as Ht. rewrite Hx in Ht.
    destruct t; cbn in *; split; intros; try discriminate; try reflexivity; eauto;
      exfalso; apply Ht in H; discriminate.
  - (* push out *) exists done. rewrite app_nil_r. auto.
  - intros t. split; [discriminate|]. intros Hin. exfalso.
    destruct t; cbn in Hin.
    + specialize (HU Preproc Producer). cbn in HU. rewrite Hp in HU.
      assert (Preproc = Producer) by (apply HU; eauto). discriminate.
    + destruct Hin as [E|[x E]]; discriminate.
    + specialize (HU Preproc Consumer). cbn in HU. rewrite Hp in HU.
      assert (Preproc = Consumer) by (apply HU; eauto). discriminate.
  - (* consumer lock *) intros t. pose proof (Hm t) as Ht. rewrite Hx in Ht.
    destruct t; cbn in *; split; intros; try discriminate; try reflexivity; eauto;
      exfalso; apply Ht in H; discriminate.
  - (* null *) intros t. split; [discriminate|]. intros Hin. exfalso.
    destruct t; cbn in Hin; [| |congruence].
    + specialize (HU Consumer Producer). cbn in HU. rewrite Hp in HU.
      assert (Consumer = Producer) by (apply HU; [discriminate|eauto]). discriminate.
    + specialize (HU Consumer Preproc). cbn in HU. rewrite Hp in HU.
      assert (Consumer = Preproc) by (apply HU; [discriminate|eauto]). discriminate.
  - (* get *) exists done. split; [assumption|]. rewrite Hq in Hf. rewrite map_app, <- app_assoc. exact Hf.
  - intros t. split; [discriminate|]. intros Hin. exfalso.
    destruct t; cbn in Hin; [| |congruence].
    + specialize (HU Consumer Producer). cbn in HU. rewrite Hp in HU.
      assert (Consumer = Producer) by (apply HU; [discriminate|eauto]). discriminate.
    + specialize (HU Consumer Preproc). cbn in HU. rewrite Hp in HU.
      assert (Consumer = Preproc) by (apply HU; [discriminate|eauto]). discriminate.
  - (* lock2 *) intros t. pose proof (Hm t) as Ht. rewrite Hx in Ht.
    destruct t; cbn in *; split; intros; try discriminate; try reflexivity; eauto;
      exfalso; apply Ht in H; discriminate.
  - (* clear *) exists done. split; [assumption|].
    rewrite map_app, map_map, map_id, <- app_assoc. exact Hf.
  - intros t. split; [discriminate|]. intros Hin. exfalso.
    destruct t; cbn in Hin; [| |congruence].
    + specialize (HU Consumer Producer). cbn in HU. rewrite Hp in HU.
      assert (Consumer = Producer) by (apply HU; [discriminate|eauto]). discriminate.
    + specialize (HU Consumer Preproc). cbn in HU. rewrite Hp in HU.
      assert (Consumer = Preproc) by (apply HU; [discriminate|eauto]). discriminate.
Qed.

Lemma inv_reach : forall r, reach r -> match r with Next s => inv s | Crash _ => True end.
Proof.
  intros r H. induction H as [|s r H IH Hs]; [apply inv_init|].
  eapply inv_step; eassumption.
Qed.

Lemma pipe_history : forall s, reach (Next s) ->
  exists done, inserted s = done ++ unfiltered (pre s) ++ raw s /\
    Forall2 (passed stamp filt) done (map snd (taken s) ++ out s ++ filtered (pre s)).
Proof. intros s H. apply inv_reach in H. apply H. Qed.

Lemma pipe_mutual_exclusion : forall s t t', reach (Next s) ->
  inside s t -> inside s t' -> t = t'.
Proof. intros s t t' H. apply inv_reach in H. apply mutex_unique. assumption. Qed.

Lemma pipe_crash : forall o, reach (Crash o) ->
  exists s c, reach (Next s) /\ pre s = K4 c /\
    ((o = Abort /\ (filt c Abort \/ exists c', filt c (Ok c') /\ t_eq (stamp c) (stamp c') = Ok false)) \/
     (o = UB /\ filt c UB) \/ (o = Throw /\ filt c Throw)).
Proof.
  intros o H. inversion H as [|s r Hs Hst E]; subst.
  inversion Hst; subst; try (exists s; eexists; split; [assumption|]; split; [eassumption|]; eauto 6; fail).
  exfalso. pose proof (inv_reach _ Hs) as I. cbn in I. destruct I as [_ R _].
  apply R; auto.
Qed.

(** The unlocked emptiness test races with the push. *)
Lemma pipe_race : forall c : cloud, exists s, reach (Next s) /\
  pre s = K1 /\ prod s = P1 c /\ mutex s = Some Producer.
Proof.
  intros c. eexists. split.
  - eapply preach_step; [eapply preach_step; [apply preach_init|apply KGo; reflexivity]|].
    apply (PLock _ stamp filt _ c); reflexivity.
  - cbn. auto.
Qed.

End Proofs.

Section Progress.
Variable cloud : Type.
Variable stamp : cloud -> time.
Variable filt : cloud -> outcome cloud -> Prop.
Notation reach := (preach stamp filt).
Notation step := (pstep stamp filt).

Inductive psteps : pipe cloud -> pipe cloud -> Prop :=
| psteps_refl : forall s, psteps s s
| psteps_cons : forall s s1 s2, step s (Next s1) -> psteps s1 s2 -> psteps s s2.

Lemma psteps_trans : forall a b c, psteps a b -> psteps b c -> psteps a c.
Proof. intros a b c H. induction H; eauto using psteps. Qed.

Lemma reach_psteps : forall a b, reach (Next a) -> psteps a b -> reach (Next b).
Proof. intros a b H S. induction S; eauto using preach_step. Qed.

(** Whoever holds the mutex can release it in one step without touching the clouds'
    order; used to show that nothing blocks for ever. *)
Lemma holder_releases : forall s t, reach (Next s) -> mutex s = Some t ->
  exists s', step s (Next s') /\ mutex s' = None.
Proof.
  intros s t H Hm. apply inv_reach in H. cbn in H. destruct H as [_ R M].
  apply M in Hm. destruct t; cbn in Hm.
  - destruct Hm as [c Hc]. eexists. split; [eapply PPush; eassumption|reflexivity].
  - destruct Hm as [Hk|[c Hk]].
    + destruct (raw s) as [|c q] eqn:E; [exfalso; apply R; auto|].
      eexists. split; [eapply KPop; eassumption|reflexivity].
    + eexists. split; [eapply KPush; eassumption|reflexivity].
  - destruct (cons s) eqn:E; [congruence| |].
    + destruct (out s) as [|c q] eqn:Eo; eexists;
        (split; [first [eapply CNull; eassumption | eapply CGet; eassumption]|reflexivity]).
    + eexists. split; [eapply CClear; eassumption|reflexivity].
Qed.

End Progress.
