(** From every reachable state FinishAllComputations can complete (no deadlock). *)
From Coq Require Import List Bool ZArith Lia.
From Verif Require Import Outcome BuilderModel BuilderSpec BuilderProofs.
Import ListNotations.
Local Open Scope nat_scope.

Section Live.
Variables cloud frame smst : Type.
Variable sm_init : smst.
Variable sm_step : smst -> cloud -> smst * option frame.
Variable fc : Z.
Notation bstep := (bstep cloud frame smst sm_step fc false).
Notation breach := (breach cloud frame smst sm_init sm_step fc false).
Notation st := (st cloud frame smst).
Notation n := (Z.to_nat fc).
Hypothesis fc_pos : (0 < fc < 2 ^ 31)%Z.

Inductive star : st -> st -> Prop :=
| star_refl s : star s s
| star_step s s1 s2 : bstep s (Next s1) -> star s1 s2 -> star s s2.
Lemma star_trans : forall a b c, star a b -> star b c -> star a c.
Proof. induction 1; [auto|]. intros. econstructor; eauto. Qed.
Lemma star_reach : forall a b, star a b -> breach (Next a) -> breach (Next b).
Proof. induction 1; [auto|]. intros. apply IHstar. econstructor; eassumption. Qed.
Lemma rinv : forall s, breach (Next s) -> inv cloud frame smst sm_init sm_step fc s.
Proof. intros s H. exact (inv_reach cloud frame smst sm_init sm_step fc false fc_pos _ H). Qed.

Ltac go c := eapply star_step; [eapply c; cbn; first [eassumption | reflexivity | idtac]|].

(** scan-match thread *)
Lemma scan_get_end : forall m s, endf s = true -> spc (sc s) = SGet -> length (out (co s)) <= m ->
  exists s', star s s' /\ spc (sc s') = SEnd /\ ap s' = ap s /\ endf s' = true.
Proof.
  induction m as [|m IH]; intros s He Hs Hl.
  - destruct (out (co s)) eqn:Eo; [|cbn in Hl; lia]. eexists. split.
    + eapply star_step; [apply SGetNone; assumption|].
      eapply star_step; [apply SNullEnd; [reflexivity|exact He]|].
      eapply star_step; [apply SExit; reflexivity|]. apply star_refl.
    + cbn. auto.
  - destruct (out (co s)) as [|c q] eqn:Eo.
    + eexists. split.
      * eapply star_step; [apply SGetNone; assumption|].
        eapply star_step; [apply SNullEnd; [reflexivity|exact He]|].
        eapply star_step; [apply SExit; reflexivity|]. apply star_refl.
      * cbn. auto.
    + destruct (sm_step (sst (sc s)) c) as [x [f|]] eqn:Ex.
      * pose proof (SGetSome cloud frame smst sm_step fc false s c q Hs Eo) as S1.
        match type of S1 with BuilderModel.bstep _ _ _ _ _ _ _ (Next ?s1) => set (a := s1) in * end.
        pose proof (SWorkKey cloud frame smst sm_step fc false a c x f eq_refl Ex) as S2.
        match type of S2 with BuilderModel.bstep _ _ _ _ _ _ _ (Next ?s1) => set (b := s1) in * end.
        pose proof (SPushed cloud frame smst sm_step fc false b f eq_refl) as S3.
        match type of S3 with BuilderModel.bstep _ _ _ _ _ _ _ (Next ?s1) => set (d := s1) in * end.
        destruct (IH d He eq_refl) as (s' & A1 & A2 & A3 & A4); [cbn in *; lia|].
        exists s'. split; [|auto]. eapply star_step; [exact S1|]. eapply star_step; [exact S2|]. eapply star_step; [exact S3|]. exact A1.
      * pose proof (SGetSome cloud frame smst sm_step fc false s c q Hs Eo) as S1.
        match type of S1 with BuilderModel.bstep _ _ _ _ _ _ _ (Next ?s1) => set (a := s1) in * end.
        pose proof (SWorkNone cloud frame smst sm_step fc false a c x eq_refl Ex) as S2.
        match type of S2 with BuilderModel.bstep _ _ _ _ _ _ _ (Next ?s1) => set (b := s1) in * end.
        destruct (IH b He eq_refl) as (s' & A1 & A2 & A3 & A4); [cbn in *; lia|].
        exists s'. split; [|auto]. eapply star_step; [exact S1|]. eapply star_step; [exact S2|]. exact A1.
Qed.
Lemma scan_end : forall s, endf s = true -> spc (sc s) <> SInit ->
  exists s', star s s' /\ spc (sc s') = SEnd /\ ap s' = ap s /\ endf s' = true.
Proof.
  intros s He Hs. destruct (spc (sc s)) as [| | |c|f| |] eqn:E.
  - congruence.
  - eapply scan_get_end; [exact He|exact E|reflexivity].
  - eexists. split; [eapply star_step; [apply SNullEnd; assumption|];
                     eapply star_step; [apply SExit; reflexivity|]; apply star_refl|cbn; auto].
  - destruct (sm_step (sst (sc s)) c) as [x [f|]] eqn:Ex.
    + pose proof (SWorkKey cloud frame smst sm_step fc false s c x f E Ex) as S2.
      match type of S2 with BuilderModel.bstep _ _ _ _ _ _ _ (Next ?s1) => set (b := s1) in * end.
      pose proof (SPushed cloud frame smst sm_step fc false b f eq_refl) as S3.
      match type of S3 with BuilderModel.bstep _ _ _ _ _ _ _ (Next ?s1) => set (d := s1) in * end.
      destruct (scan_get_end _ d He eq_refl (le_n _)) as (s' & A1 & A2 & A3 & A4).
      exists s'. split; [|auto]. eapply star_step; [exact S2|]. eapply star_step; [exact S3|]. exact A1.
    + pose proof (SWorkNone cloud frame smst sm_step fc false s c x E Ex) as S2.
      match type of S2 with BuilderModel.bstep _ _ _ _ _ _ _ (Next ?s1) => set (b := s1) in * end.
      destruct (scan_get_end _ b He eq_refl (le_n _)) as (s' & A1 & A2 & A3 & A4).
      exists s'. split; [|auto]. eapply star_step; [exact S2|]. exact A1.
  - pose proof (SPushed cloud frame smst sm_step fc false s f E) as S3.
    match type of S3 with BuilderModel.bstep _ _ _ _ _ _ _ (Next ?s1) => set (d := s1) in * end.
    destruct (scan_get_end _ d He eq_refl (le_n _)) as (s' & A1 & A2 & A3 & A4).
    exists s'. split; [|auto]. eapply star_step; [exact S3|]. exact A1.
  - eexists. split; [eapply star_step; [apply SExit; assumption|]; apply star_refl|cbn; auto].
  - exists s. split; [apply star_refl|auto].
Qed.

(** submap thread *)
Definition same (s s' : st) : Prop := sc s' = sc s /\ ap s' = ap s /\ endf s' = endf s.
Lemma same_trans : forall a b c, same a b -> same b c -> same a c.
Proof. unfold same. intros a b c (?&?&?) (?&?&?). repeat split; congruence. Qed.
Lemma frames_end : forall s, breach (Next s) -> spc (sc s) = SEnd -> exists F, frames (sc s) = map Some F.
Proof. intros s R E. destruct (rinv s R) as (_ & I2 & _). unfold inv2 in I2. rewrite E in I2. destruct I2 as (F & _ & EF). eauto. Qed.
Lemma build : forall i s, breach (Next s) -> spc (sc s) = SEnd -> mpc (su s) = MBuild i ->
  exists s', star s s' /\ same s s' /\ mpc (su s') = MBuild 0 /\ idx (su s') = idx (su s) + i.
Proof.
  induction i as [|i IH]; intros s R E M.
  - exists s. split; [apply star_refl|]. split; [repeat split|]. split; [exact M|lia].
  - destruct (frames_end s R E) as (F & EF). destruct (rinv s R) as (_ & _ & (T & _ & _ & _ & _ & J5) & _).
    rewrite M in J5. destruct (nth_error F (idx (su s))) as [f|] eqn:Ef.
    2:{ apply nth_error_None in Ef. rewrite EF, map_length in J5. lia. }
    pose proof (MInsert cloud frame smst sm_step fc false s i f M) as S1.
    rewrite EF, nth_error_map, Ef in S1. specialize (S1 eq_refl).
    match type of S1 with BuilderModel.bstep _ _ _ _ _ _ _ (Next ?s1) => set (a := s1) in * end.
    destruct (IH a (breach_step _ _ _ _ _ _ _ _ _ R S1) E eq_refl) as (s' & A1 & A2 & A3 & A4).
    exists s'. split; [eapply star_step; [exact S1|exact A1]|]. split; [exact A2|]. split; [exact A3|]. rewrite A4. cbn. lia.
Qed.
Lemma enq_size : forall s k, mpc (su s) = MEnq k -> exists s', star s s' /\ same s s' /\ mpc (su s') = MSize /\ idx (su s') = idx (su s).
Proof.
  intros s k M. eexists. split; [eapply star_step; [eapply MEnqueue; exact M|apply star_refl]|].
  split; [repeat split|]. split; reflexivity.
Qed.
Lemma push2_size : forall s, mpc (su s) = MPush2 -> exists s', star s s' /\ same s s' /\ mpc (su s') = MSize /\ idx (su s') = idx (su s).
Proof.
  intros s M. pose proof (MPushed cloud frame smst sm_step fc false s M) as S1.
  match type of S1 with BuilderModel.bstep _ _ _ _ _ _ _ (Next ?s1) => set (a := s1) in * end.
  destruct (enq_size a _ eq_refl) as (s' & A1 & A2 & A3 & A4). exists s'.
  split; [eapply star_step; [exact S1|exact A1]|]. auto.
Qed.
Lemma push_size : forall s, mpc (su s) = MPush -> exists s', star s s' /\ same s s' /\ mpc (su s') = MSize /\ idx (su s') = idx (su s).
Proof.
  intros s M. pose proof (MPush1 cloud frame smst sm_step fc false s M) as S1.
  match type of S1 with BuilderModel.bstep _ _ _ _ _ _ _ (Next ?s1) => set (a := s1) in * end.
  destruct (push2_size a eq_refl) as (s' & A1 & A2 & A3 & A4). exists s'.
  split; [eapply star_step; [exact S1|exact A1]|]. auto.
Qed.
Lemma full_size : forall s, breach (Next s) -> mpc (su s) = MFull -> exists s', star s s' /\ same s s' /\ mpc (su s') = MSize /\ idx (su s') = idx (su s).
Proof.
  intros s R M. destruct (rinv s R) as (_ & _ & (T & _ & _ & _ & _ & J5) & _). rewrite M in J5.
  assert (cur (su s) <> [] /\ Z.of_nat (length (cur (su s))) = fc) as Hf.
  { split; [intros X; rewrite X in J5; cbn in J5; lia|lia]. }
  pose proof (MFullOk cloud frame smst sm_step fc false s M Hf) as S1.
  match type of S1 with BuilderModel.bstep _ _ _ _ _ _ _ (Next ?s1) => set (a := s1) in * end.
  destruct (push_size a eq_refl) as (s' & A1 & A2 & A3 & A4). exists s'.
  split; [eapply star_step; [exact S1|exact A1]|]. auto.
Qed.
Lemma build_size : forall i s, breach (Next s) -> spc (sc s) = SEnd -> mpc (su s) = MBuild i ->
  exists s', star s s' /\ same s s' /\ mpc (su s') = MSize /\ idx (su s') = idx (su s) + i.
Proof.
  intros i s R E M. destruct (build i s R E M) as (a & A1 & A2 & A3 & A4).
  pose proof (MBuilt cloud frame smst sm_step fc false a A3) as S1.
  match type of S1 with BuilderModel.bstep _ _ _ _ _ _ _ (Next ?s1) => set (b := s1) in * end.
  assert (breach (Next b)) as Rb by (econstructor; [eapply star_reach; [exact A1|exact R]|exact S1]).
  destruct (full_size b Rb eq_refl) as (s' & B1 & B2 & B3 & B4). exists s'.
  split; [eapply star_trans; [exact A1|]; eapply star_step; [exact S1|exact B1]|].
  split; [eapply same_trans; [exact A2|exact B2]|]. split; [exact B3|]. rewrite B4. cbn. exact A4.
Qed.
Lemma size_end : forall m s, breach (Next s) -> spc (sc s) = SEnd -> mpc (su s) = MSize ->
  length (frames (sc s)) - idx (su s) <= m ->
  exists s', star s s' /\ same s s' /\ mpc (su s') = MJoin.
Proof.
  induction m as [m IH] using lt_wf_ind. intros s R E M Hm.
  destruct (too_few fc (length (frames (sc s))) (idx (su s))) eqn:Et.
  - destruct (rinv s R) as (_ & _ & _ & _ & _ & I6). destruct I6 as (I1 & _). rewrite E in I1.
    eexists. split.
    + eapply star_step; [apply MFew; [reflexivity|exact M|exact Et]|].
      eapply star_step; [apply MStop; [reflexivity|reflexivity|exact I1]|].
      eapply star_step; [apply MSetDone; reflexivity|]. apply star_refl.
    + split; [repeat split|reflexivity].
  - pose proof (MEnough cloud frame smst sm_step fc false s eq_refl M Et) as S1.
    match type of S1 with BuilderModel.bstep _ _ _ _ _ _ _ (Next ?s1) => set (a := s1) in * end.
    assert (breach (Next a)) as Ra by (econstructor; eassumption).
    destruct (build_size _ a Ra E eq_refl) as (b & B1 & B2 & B3 & B4).
    destruct (rinv a Ra) as (_ & _ & (T & _ & _ & _ & _ & J5) & _). cbn in J5.
    assert (breach (Next b)) as Rb by (eapply star_reach; eassumption).
    assert (sc b = sc s) as Eb by (destruct B2 as (X & _); rewrite X; reflexivity).
    destruct (IH (m - n)) with (s := b) as (s' & D1 & D2 & D3);
      [cbn in *; lia|exact Rb|rewrite Eb; exact E|exact B3|rewrite Eb, B4; cbn; lia|].
    exists s'. split; [eapply star_step; [exact S1|]; eapply star_trans; eassumption|].
    split; [|exact D3]. eapply same_trans; [exact B2|exact D2].
Qed.
Lemma sub_end : forall s, breach (Next s) -> spc (sc s) = SEnd -> mpc (su s) <> MNone ->
  exists s', star s s' /\ same s s' /\ (mpc (su s') = MJoin \/ mpc (su s') = MEnd).
Proof.
  intros s R E M.
  assert (forall b, star s b -> same s b -> mpc (su b) = MSize ->
    exists s', star s s' /\ same s s' /\ (mpc (su s') = MJoin \/ mpc (su s') = MEnd)) as Via.
  { intros b B1 B2 B3. assert (breach (Next b)) as Rb by (eapply star_reach; eassumption).
    assert (sc b = sc s) as Eb by (destruct B2 as (X & _); exact X).
    destruct (size_end _ b Rb ltac:(rewrite Eb; exact E) B3 (le_n _)) as (s' & D1 & D2 & D3).
    exists s'. split; [eapply star_trans; eassumption|]. split; [eapply same_trans; eassumption|auto]. }
  destruct (rinv s R) as (_ & _ & _ & _ & _ & I6). destruct I6 as (I1 & _). rewrite E in I1.
  destruct (mpc (su s)) as [| | | |b|i| | | |k| | |] eqn:Em.
  - congruence.
  - eapply Via; [eapply star_step; [eapply MBegin; exact Em|apply star_refl]|repeat split|reflexivity].
  - eapply Via; [apply star_refl|repeat split|exact Em].
  - eexists. split; [eapply star_step; [apply MStop; [reflexivity|exact Em|exact I1]|];
      eapply star_step; [apply MSetDone; reflexivity|]; apply star_refl|]. split; [repeat split|left; reflexivity].
  - (* MRetry: not reachable without exchanged reads, but harmless *)
    destruct b.
    + destruct (too_few fc (length (frames (sc s))) (idx (su s))) eqn:Et.
      * eexists. split; [eapply star_step; [apply MSwWait; [exact Em|exact Et]|];
          eapply star_step; [apply MStop; [reflexivity|reflexivity|exact I1]|];
          eapply star_step; [apply MSetDone; reflexivity|]; apply star_refl|]. split; [repeat split|left; reflexivity].
      * pose proof (MSwEnough cloud frame smst sm_step fc false s true Em Et) as S1.
        match type of S1 with BuilderModel.bstep _ _ _ _ _ _ _ (Next ?s1) => set (a := s1) in * end.
        assert (breach (Next a)) as Ra by (econstructor; eassumption).
        destruct (build_size _ a Ra E eq_refl) as (b & B1 & B2 & B3 & B4).
        eapply Via; [eapply star_step; [exact S1|exact B1]|exact B2|exact B3].
    + destruct (too_few fc (length (frames (sc s))) (idx (su s))) eqn:Et.
      * eexists. split; [eapply star_step; [apply MSwStop; [exact Em|exact Et]|];
          eapply star_step; [apply MSetDone; reflexivity|]; apply star_refl|]. split; [repeat split|left; reflexivity].
      * pose proof (MSwEnough cloud frame smst sm_step fc false s false Em Et) as S1.
        match type of S1 with BuilderModel.bstep _ _ _ _ _ _ _ (Next ?s1) => set (a := s1) in * end.
        assert (breach (Next a)) as Ra by (econstructor; eassumption).
        destruct (build_size _ a Ra E eq_refl) as (b & B1 & B2 & B3 & B4).
        eapply Via; [eapply star_step; [exact S1|exact B1]|exact B2|exact B3].
  - destruct (build_size i s R E Em) as (b & B1 & B2 & B3 & B4). eapply Via; eassumption.
  - destruct (full_size s R Em) as (b & B1 & B2 & B3 & B4). eapply Via; eassumption.
  - destruct (push_size s Em) as (b & B1 & B2 & B3 & B4). eapply Via; eassumption.
  - destruct (push2_size s Em) as (b & B1 & B2 & B3 & B4). eapply Via; eassumption.
  - destruct (enq_size s k Em) as (b & B1 & B2 & B3 & B4). eapply Via; eassumption.
  - eexists. split; [eapply star_step; [apply MSetDone; exact Em|]; apply star_refl|]. split; [repeat split|left; reflexivity].
  - exists s. split; [apply star_refl|]. split; [repeat split|auto].
  - exists s. split; [apply star_refl|]. split; [repeat split|auto].
Qed.

(** match tasks *)
Definition same2 (s s' : st) : Prop := same s s' /\ su s' = su s.
Lemma drain : forall m s, breach (Next s) -> length (pend (cn s)) <= m ->
  exists s', star s s' /\ same2 s s' /\ pend (cn s') = [].
Proof.
  induction m as [|m IH]; intros s R Hm.
  - exists s. split; [apply star_refl|]. split; [repeat split|]. destruct (pend (cn s)); [reflexivity|cbn in Hm; lia].
  - destruct (pend (cn s)) as [|k p] eqn:Ep; [exists s; split; [apply star_refl|]; split; [repeat split|exact Ep]|].
    destruct (rinv s R) as (_ & _ & _ & K & _). destruct K as (K1 & K2 & K3 & K4).
    assert (matched (cn s) (k - 1) = false) as Mk by (apply K2; rewrite Ep; left; reflexivity).
    pose proof (TMatch cloud frame smst sm_step fc false s [] k p Ep Mk) as S1.
    match type of S1 with BuilderModel.bstep _ _ _ _ _ _ _ (Next ?s1) => set (a := s1) in * end.
    destruct (IH a (breach_step _ _ _ _ _ _ _ _ _ R S1)) as (s' & A1 & A2 & A3); [cbn in *; lia|].
    exists s'. split; [eapply star_step; [exact S1|exact A1]|]. split; [exact A2|exact A3].
Qed.

(** connecting *)
Definition ready (s : st) : Prop := done (su s) = true /\ pend (cn s) = [].
Lemma ready_matched : forall s j, breach (Next s) -> ready s -> S j < length (traj (su s)) -> matched (cn s) j = true.
Proof.
  intros s j R [Hd Hp] Hj. destruct (rinv s R) as (_ & _ & _ & K & _ & I6). destruct K as (K1 & K2 & K3 & K4).
  destruct I6 as (_ & _ & _ & _ & _ & I6' & _). rewrite Hd in I6'.
  destruct (matched (cn s) j) eqn:E; [reflexivity|exfalso].
  assert (In (S j) (pend (cn s))) as X; [|rewrite Hp in X; destruct X].
  apply K2. replace (S j - 1) with j by lia. split; [|exact E].
  unfold enq, tlen, half. destruct (mpc (su s)); try congruence; cbn; lia.
Qed.
Lemma conn_size : forall l s, xpc (cn s) = XConn l -> exists s', star s s' /\ same2 s s' /\
  pend (cn s') = pend (cn s) /\ xpc (cn s') = XSize /\ fin (cn s') = fin (cn s) + length l.
Proof.
  induction l as [|k l IH]; intros s X.
  - eexists. split; [eapply star_step; [apply XConnected; exact X|apply star_refl]|]. split; [repeat split|].
    split; [reflexivity|]. split; [reflexivity|]. cbn. lia.
  - pose proof (XConnect cloud frame smst sm_step fc false s k l X) as S1.
    match type of S1 with BuilderModel.bstep _ _ _ _ _ _ _ (Next ?s1) => set (a := s1) in * end.
    destruct (IH a eq_refl) as (s' & A1 & A2 & A3 & A4 & A5). exists s'.
    split; [eapply star_step; [exact S1|exact A1]|]. split; [exact A2|]. split; [exact A3|]. split; [exact A4|].
    rewrite A5. cbn. lia.
Qed.
Lemma slot_ok : forall s m i l, breach (Next s) -> xpc (cn s) = XCol m i l -> i < m ->
  exists f, nth_error (traj (su s)) i = Some (Some f).
Proof.
  intros s m i l R X Hi. destruct (rinv s R) as (_ & I2 & I3 & K & I5 & I6).
  destruct (tlen_eq _ _ _ _ fc_pos s I3) as (T & T1 & T2 & T3). rewrite T1. apply nth_Some_half. rewrite T2.
  destruct I5 as (F1 & F2 & F3). rewrite X in F3. destruct F3 as (G1 & G2 & G3 & G4 & G5).
  destruct (G4 Hi) as [-> | Hm]; [apply F2; exact G1|].
  destruct (Nat.eq_dec i (fin (cn s))) as [-> | Hne]; [apply F2; exact G1|].
  assert (xpc (cn s) <> XEnd) as NX by congruence.
  pose proof (inv4_lt _ _ _ _ fc_pos s (i - 1) I3 K NX Hm). lia.
Qed.
(** collecting runs up to some [j]; up to the number of submaps seen when everything is matched *)
Lemma col_end : forall d m i l s, breach (Next s) -> xpc (cn s) = XCol m i l -> m - i <= d ->
  exists s' m' i', star s s' /\ same2 s s' /\ pend (cn s') = pend (cn s) /\ fin (cn s') = fin (cn s) /\
    xpc (cn s') = XCol m' i' (l ++ seq i (i' - i)) /\ m' <= i' /\ i <= i' /\
    ((forall j, i <= j < m -> S j < m -> matched (cn s) j = true) -> m <= i').
Proof.
  induction d as [|d IH]; intros m i l s R X Hd.
  - exists s, m, i. split; [apply star_refl|]. split; [repeat split|]. split; [reflexivity|]. split; [reflexivity|].
    rewrite Nat.sub_diag, app_nil_r. split; [exact X|]. split; [lia|]. split; [lia|]. intros _. lia.
  - destruct (Nat.le_gt_cases m i) as [Hle|Hgt].
    { exists s, m, i. split; [apply star_refl|]. split; [repeat split|]. split; [reflexivity|]. split; [reflexivity|].
      rewrite Nat.sub_diag, app_nil_r. split; [exact X|]. split; [lia|]. split; [lia|]. intros _. lia. }
    assert (exists f, nth_error (traj (su s)) i = Some (Some f)) as (f & Ef).
    { eapply slot_ok; eassumption. }
    pose proof (XCollect cloud frame smst sm_step fc false s m i l f X Hgt Ef) as S1.
    match type of S1 with BuilderModel.bstep _ _ _ _ _ _ _ (Next ?s1) => set (a := s1) in * end.
    destruct (IH (if matched (cn s) i then m else i) (S i) (l ++ [i]) a (breach_step _ _ _ _ _ _ _ _ _ R S1) eq_refl)
      as (s' & m' & i' & A1 & A2 & A3 & A4 & A5 & A6 & A7 & A8); [destruct (matched (cn s) i); lia|].
    exists s', m', i'. split; [eapply star_step; [exact S1|exact A1]|]. split; [exact A2|]. split; [exact A3|]. split; [exact A4|].
    split; [rewrite A5, <- app_assoc; cbn; replace (i' - i) with (S (i' - S i)) by lia; reflexivity|].
    split; [exact A6|]. split; [lia|]. intros Hm. destruct (matched (cn s) i) eqn:E.
    + apply A8. intros j Hj1 Hj2. change (matched (cn a) j) with (matched (cn s) j). apply Hm; lia.
    + destruct (Nat.lt_ge_cases (S i) m) as [Hs|Hs]; [|lia]. rewrite Hm in E by lia. discriminate.
Qed.
Lemma same2_trans : forall a b c, same2 a b -> same2 b c -> same2 a c.
Proof. intros a b c [? ?] [? ?]. split; [eapply same_trans; eassumption|congruence]. Qed.
Lemma xsize_end_last : forall s, breach (Next s) -> ready s -> xpc (cn s) = XSize ->
  (length (traj (su s)) = 0 \/ length (traj (su s)) = S (fin (cn s))) ->
  exists s', star s s' /\ same2 s s' /\ pend (cn s') = [] /\ xpc (cn s') = XEnd.
Proof.
  intros s R [Hd Hp] X L.
  assert (exists a, star s a /\ same2 s a /\ pend (cn a) = [] /\ xpc (cn a) = XLast) as (a & A1 & A2 & A3 & A4).
  { eexists. split; [eapply star_step; [apply XNothing; assumption|];
      eapply star_step; [apply XQuit; [reflexivity|exact Hd]|]; apply star_refl|].
    split; [repeat split|]. split; [exact Hp|reflexivity]. }
  assert (breach (Next a)) as Ra by (eapply star_reach; eassumption).
  destruct (traj (su a)) as [|x r] eqn:Et.
  - eexists. split; [eapply star_trans; [exact A1|]; eapply star_step; [apply XLastNone; assumption|apply star_refl]|].
    split; [exact A2|]. split; [exact A3|reflexivity].
  - destruct (rinv a Ra) as (_ & I2 & I3 & K & I5 & I6).
    destruct (nth_error (traj (su a)) (length (traj (su a)) - 1)) as [[f|]|] eqn:En.
    + destruct (matched (cn a) (length (traj (su a)) - 1)) eqn:Em.
      * exfalso. assert (xpc (cn a) <> XEnd) as NX by congruence.
        pose proof (inv4_lt _ _ _ _ fc_pos a _ I3 K NX Em) as Y. unfold tlen in Y. lia.
      * eexists. split; [eapply star_trans; [exact A1|]; eapply star_step; [eapply XLastMark; [exact A4|exact En|exact Em]|apply star_refl]|].
        split; [exact A2|]. split; [exact A3|reflexivity].
    + exfalso. assert (bstep a (Crash UB)) as Hc by (apply XLastUB; assumption).
      destruct (crash_step _ _ _ _ _ _ _ fc_pos a UB I2 I3 K I5 I6 Hc) as (_ & i0 & f & M & _).
      destruct A2 as [_ A2]. rewrite A2 in M. destruct (rinv s R) as (_ & _ & _ & _ & _ & I6s).
      destruct I6s as (_ & _ & _ & _ & _ & Y & _). rewrite Hd, M in Y. discriminate.
    + exfalso. apply nth_error_None in En. rewrite Et in En. cbn in En. lia.
Qed.
Lemma xsize_end : forall s, breach (Next s) -> ready s -> xpc (cn s) = XSize ->
  exists s', star s s' /\ same2 s s' /\ pend (cn s') = [] /\ xpc (cn s') = XEnd.
Proof.
  intros s R Rd X. destruct Rd as [Hd Hp].
  destruct (Nat.eq_dec (length (traj (su s))) 0) as [E|E]; [apply xsize_end_last; [exact R|split; assumption|exact X|auto]|].
  destruct (Nat.eq_dec (length (traj (su s))) (S (fin (cn s)))) as [E'|E']; [apply xsize_end_last; [exact R|split; assumption|exact X|auto]|].
  assert (~ (length (traj (su s)) = 0 \/ length (traj (su s)) = S (fin (cn s)))) as L by lia.
  pose proof (XSome cloud frame smst sm_step fc false s X L) as S1.
  match type of S1 with BuilderModel.bstep _ _ _ _ _ _ _ (Next ?s1) => set (a := s1) in * end.
  assert (breach (Next a)) as Ra by (econstructor; eassumption).
  destruct (rinv a Ra) as (_ & I2 & I3 & K & I5 & I6). destruct I5 as (F1 & F2 & F3).
  change (S (fin (cn s)) < length (traj (su s)) /\ length (traj (su s)) <= length (traj (su s))) in F3.
  assert (exists b, star a b /\ same2 a b /\ pend (cn b) = [] /\ fin (cn b) = fin (cn s) /\
          xpc (cn b) = XCol (length (traj (su s))) (fin (cn s)) []) as (b & B1 & B2 & B3 & B4 & B5).
  { destruct (firsti (cn a)) eqn:Ef.
    - eexists. split; [eapply star_step; [eapply XFirstSkip; [reflexivity|exact Ef]|apply star_refl]|].
      split; [repeat split|]. split; [exact Hp|]. split; reflexivity.
    - destruct (nth_error (traj (su a)) 0) as [[f|]|] eqn:En.
      + eexists. split; [eapply star_step; [eapply XFirstAdd; [reflexivity|exact Ef|eauto]|apply star_refl]|].
        split; [repeat split|]. split; [exact Hp|]. split; reflexivity.
      + exfalso. destruct I6 as (_ & _ & _ & _ & _ & Y & _). change (done (su a)) with (done (su s)) in Y. rewrite Hd in Y.
        destruct (tlen_eq _ _ _ _ fc_pos a I3) as (T & T1 & T2 & T3). unfold half in T1.
        assert (traj (su a) = map Some T) as T1' by (destruct (mpc (su a)); try congruence; rewrite T1; apply app_nil_r).
        rewrite T1' in En. apply nth_error_map_Some in En. destruct En as (? & ? & _). discriminate.
      + exfalso. apply nth_error_None in En. change (traj (su a)) with (traj (su s)) in En. lia. }
  assert (breach (Next b)) as Rb by (eapply star_reach; eassumption).
  assert (su b = su s) as Eb by (destruct B2 as [_ Y]; exact Y).
  destruct (col_end _ _ _ _ b Rb B5 (le_n _)) as (c & m' & i' & C1 & C2 & C3 & C4 & C5 & C6 & C7 & C8).
  assert (length (traj (su s)) <= i') as Hi.
  { apply C8. intros j _ Hj. apply ready_matched; [exact Rb|split; [rewrite Eb; exact Hd|exact B3]|rewrite Eb; exact Hj]. }
  assert (breach (Next c)) as Rc by (eapply star_reach; eassumption).
  assert (su c = su s) as Ec by (destruct C2 as [_ Y]; congruence).
  rewrite app_nil_l in C5.
  pose proof (XManyCol cloud frame smst sm_step fc false c _ _ _ C5 C6) as S2. rewrite seq_length in S2.
  specialize (S2 ltac:(lia)).
  match type of S2 with BuilderModel.bstep _ _ _ _ _ _ _ (Next ?s1) => set (d := s1) in * end.
  assert (breach (Next d)) as Rdd by (econstructor; eassumption).
  destruct (conn_size _ d eq_refl) as (e & D1 & D2 & D3 & D4 & D5).
  assert (breach (Next e)) as Re by (eapply star_reach; eassumption).
  assert (su e = su s) as Ee by (destruct D2 as [_ Y]; rewrite Y; exact Ec).
  assert (ready e) as Rye by (split; [rewrite Ee; exact Hd|rewrite D3; cbn [d cn pend set_xpc set_cn]; rewrite C3; exact B3]).
  assert (length (traj (su e)) = S (fin (cn e))) as Le.
  { destruct (rinv e Re) as (_ & _ & _ & _ & I5e & _). destruct I5e as (Fe1 & Fe2 & _).
    assert (fin (cn e) = i' - 1) as Fe.
    { rewrite D5. change (fin (cn d)) with (fin (cn c)). rewrite C4, B4.
      destruct (i' - fin (cn s)) as [|q] eqn:Eq; [lia|]. cbn [seq tl]. rewrite seq_length. lia. }
    destruct (firsti (cn e)) eqn:Ef; [destruct (Fe2 eq_refl) as [Y _]; unfold tlen in Y; rewrite Ee in *; lia|].
    destruct (Fe1 eq_refl). lia. }
  destruct (xsize_end_last e Re Rye D4 (or_intror Le)) as (s' & E1 & E2 & E3 & E4).
  exists s'. split.
  - eapply star_step; [exact S1|]. eapply star_trans; [exact B1|]. eapply star_trans; [exact C1|].
    eapply star_step; [exact S2|]. eapply star_trans; [exact D1|exact E1].
  - split; [|auto]. eapply same2_trans; [exact B2|]. eapply same2_trans; [exact C2|]. eapply same2_trans; [exact D2|exact E2].
Qed.
Lemma con_end : forall s, breach (Next s) -> ready s ->
  exists s', star s s' /\ same2 s s' /\ pend (cn s') = [] /\ xpc (cn s') = XEnd.
Proof.
  intros s R Rd. pose proof Rd as [Hd Hp].
  assert (forall b, star s b -> same2 s b -> pend (cn b) = [] -> xpc (cn b) = XSize ->
    exists s', star s s' /\ same2 s s' /\ pend (cn s') = [] /\ xpc (cn s') = XEnd) as Via.
  { intros b B1 B2 B3 B4. assert (su b = su s) as Eb by (destruct B2 as [_ Y]; exact Y).
    destruct (xsize_end b) as (s' & E1 & E2 & E3 & E4);
      [eapply star_reach; eassumption|split; [rewrite Eb; exact Hd|exact B3]|exact B4|].
    exists s'. split; [eapply star_trans; eassumption|]. split; [eapply same2_trans; eassumption|auto]. }
  assert (forall b m i l, star s b -> same2 s b -> pend (cn b) = [] -> xpc (cn b) = XCol m i l ->
    exists s', star s s' /\ same2 s s' /\ pend (cn s') = [] /\ xpc (cn s') = XEnd) as ViaC.
  { intros b m i l B1 B2 B3 B4. assert (breach (Next b)) as Rb by (eapply star_reach; eassumption).
    destruct (col_end _ _ _ _ b Rb B4 (le_n _)) as (c & m' & i' & C1 & C2 & C3 & C4 & C5 & C6 & C7 & C8).
    destruct (Nat.le_gt_cases (length (l ++ seq i (i' - i))) 1) as [Hl|Hl].
    - eapply Via; [eapply star_trans; [exact B1|]; eapply star_trans; [exact C1|]; eapply star_step;
        [eapply XFewCol; eassumption|apply star_refl]| |rewrite <- B3, <- C3; reflexivity|reflexivity].
      eapply same2_trans; [exact B2|exact C2].
    - pose proof (XManyCol cloud frame smst sm_step fc false c _ _ _ C5 C6 Hl) as S2.
      match type of S2 with BuilderModel.bstep _ _ _ _ _ _ _ (Next ?s1) => set (d := s1) in * end.
      destruct (conn_size _ d eq_refl) as (e & D1 & D2 & D3 & D4 & D5).
      eapply Via; [eapply star_trans; [exact B1|]; eapply star_trans; [exact C1|]; eapply star_step; [exact S2|exact D1]| | |exact D4].
      + eapply same2_trans; [exact B2|]. eapply same2_trans; [exact C2|exact D2].
      + rewrite D3. change (pend (cn d)) with (pend (cn c)). congruence. }
  destruct (rinv s R) as (_ & I2 & I3 & K & I5 & I6). destruct (xpc (cn s)) as [| | |m|m i l|l| |] eqn:X.
  - exfalso. destruct I6 as (_ & _ & _ & _ & [Y _] & Z & _). rewrite Hd in Z. destruct (Y X) as [M|M]; rewrite M in Z; discriminate.
  - eapply Via; [apply star_refl|repeat split|exact Hp|exact X].
  - assert (exists a, star s a /\ same2 s a /\ pend (cn a) = [] /\ xpc (cn a) = XLast) as (a & A1 & A2 & A3 & A4).
    { eexists. split; [eapply star_step; [apply XQuit; [exact X|exact Hd]|]; apply star_refl|].
      split; [repeat split|]. split; [exact Hp|reflexivity]. }
    assert (su a = su s) as Ea by (destruct A2 as [_ Y]; exact Y).
    assert (breach (Next a)) as Ra by (eapply star_reach; eassumption).
    destruct (rinv a Ra) as (_ & I2a & I3a & Ka & I5a & I6a).
    destruct (traj (su a)) as [|x r] eqn:Et.
    + eexists. split; [eapply star_trans; [exact A1|]; eapply star_step; [apply XLastNone; assumption|apply star_refl]|].
      split; [exact A2|]. split; [exact A3|reflexivity].
    + destruct (nth_error (traj (su a)) (length (traj (su a)) - 1)) as [[f|]|] eqn:En.
      * destruct (matched (cn a) (length (traj (su a)) - 1)) eqn:Em.
        -- exfalso. assert (xpc (cn a) <> XEnd) as NX by congruence.
           pose proof (inv4_lt _ _ _ _ fc_pos a _ I3a Ka NX Em) as Y. unfold tlen in Y. lia.
        -- eexists. split; [eapply star_trans; [exact A1|]; eapply star_step; [eapply XLastMark; [exact A4|exact En|exact Em]|apply star_refl]|].
           split; [exact A2|]. split; [exact A3|reflexivity].
      * exfalso. assert (bstep a (Crash UB)) as Hc by (apply XLastUB; assumption).
        destruct (crash_step _ _ _ _ _ _ _ fc_pos a UB I2a I3a Ka I5a I6a Hc) as (_ & i0 & f & M & _).
        rewrite Ea in M. destruct I6 as (_ & _ & _ & _ & _ & Y & _). rewrite Hd, M in Y. discriminate.
      * exfalso. apply nth_error_None in En. rewrite Et in En. cbn in En. lia.
  - destruct I5 as (F1 & F2 & F3). rewrite X in F3. destruct (firsti (cn s)) eqn:Ef.
    + eapply ViaC; [eapply star_step; [eapply XFirstSkip; [exact X|exact Ef]|apply star_refl]|repeat split|exact Hp|reflexivity].
    + destruct (nth_error (traj (su s)) 0) as [[f|]|] eqn:En.
      * eapply ViaC; [eapply star_step; [eapply XFirstAdd; [exact X|exact Ef|eauto]|apply star_refl]|repeat split|exact Hp|reflexivity].
      * exfalso. destruct I6 as (_ & _ & _ & _ & _ & Y & _). rewrite Hd in Y.
        destruct (tlen_eq _ _ _ _ fc_pos s I3) as (T & T1 & T2 & T3). unfold half in T1.
        assert (traj (su s) = map Some T) as T1' by (destruct (mpc (su s)); try congruence; rewrite T1; apply app_nil_r).
        rewrite T1' in En. apply nth_error_map_Some in En. destruct En as (? & ? & _). discriminate.
      * exfalso. apply nth_error_None in En. lia.
  - eapply ViaC; [apply star_refl|repeat split|exact Hp|exact X].
  - destruct (conn_size l s X) as (e & D1 & D2 & D3 & D4 & D5). eapply Via; [exact D1|exact D2|congruence|exact D4].
  - destruct (traj (su s)) as [|x r] eqn:Et.
    + eexists. split; [eapply star_step; [apply XLastNone; assumption|apply star_refl]|].
      split; [repeat split|]. split; [exact Hp|reflexivity].
    + destruct (nth_error (traj (su s)) (length (traj (su s)) - 1)) as [[f|]|] eqn:En.
      * destruct (matched (cn s) (length (traj (su s)) - 1)) eqn:Em.
        -- exfalso. assert (xpc (cn s) <> XEnd) as NX by congruence.
           pose proof (inv4_lt _ _ _ _ fc_pos s _ I3 K NX Em) as Y. unfold tlen in Y. lia.
        -- eexists. split; [eapply star_step; [eapply XLastMark; [exact X|exact En|exact Em]|apply star_refl]|].
           split; [repeat split|]. split; [exact Hp|reflexivity].
      * exfalso. assert (bstep s (Crash UB)) as Hc by (apply XLastUB; assumption).
        destruct (crash_step _ _ _ _ _ _ _ fc_pos s UB I2 I3 K I5 I6 Hc) as (_ & i0 & f & M & _).
        destruct I6 as (_ & _ & _ & _ & _ & Y & _). rewrite Hd, M in Y. discriminate.
      * exfalso. apply nth_error_None in En. rewrite Et in En. cbn in En. lia.
  - exists s. split; [apply star_refl|]. split; [repeat split|auto].
Qed.

(** main *)
Lemma finish : forall s, breach (Next s) -> exists s', star s s' /\ ap s' = ADone.
Proof.
  intros s R.
  (* the main thread calls FinishAllComputations *)
  assert (exists a, star s a /\ ap a <> AWait /\ ap a <> ARun) as (a & A1 & A2 & A3).
  { destruct (ap s) eqn:Ea; try (exists s; split; [apply star_refl|split; congruence]).
    - destruct (rinv s R) as (_ & _ & _ & _ & _ & I6). destruct I6 as (I1 & _ & _ & _ & _ & _ & _ & I8 & _).
      assert (exists b, star s b /\ running (sc b) = true /\ ap b = AWait) as (b & B1 & B2 & B3).
      { destruct (running (sc s)) eqn:Er; [exists s; split; [apply star_refl|auto]|].
        destruct (spc (sc s)) eqn:Es; try discriminate.
        - eexists. split; [eapply star_step; [apply SStart; exact Es|apply star_refl]|]. split; [reflexivity|exact Ea].
        - exfalso. assert (endf s = true) as Y by auto. destruct (rinv s R) as (_ & _ & _ & _ & _ & I6).
          destruct I6 as (_ & _ & Z & _). rewrite Ea in Z. congruence. }
      eexists. split; [eapply star_trans; [exact B1|]; eapply star_step; [apply AStart; assumption|];
        eapply star_step; [apply AFinish; reflexivity|]; apply star_refl|]. cbn. split; discriminate.
    - eexists. split; [eapply star_step; [apply AFinish; exact Ea|]; apply star_refl|]. cbn. split; discriminate. }
  assert (breach (Next a)) as Ra by (eapply star_reach; eassumption).
  destruct (rinv a Ra) as (_ & _ & _ & _ & _ & I6). destruct I6 as (I1 & I2 & I3 & I4' & _).
  assert (endf a = true) as He by (rewrite I3; destruct (ap a); congruence).
  assert (spc (sc a) <> SInit) as Hs by (intros Y; apply A2; apply I2; exact Y).
  destruct (scan_end a He Hs) as (b & B1 & B2 & B3 & B4).
  assert (breach (Next b)) as Rb by (eapply star_reach; eassumption).
  assert (exists c, star b c /\ spc (sc c) = SEnd /\ (ap c = AJoin2 \/ ap c = ADone)) as (c & C1 & C2 & C3).
  { destruct (rinv b Rb) as (_ & _ & _ & _ & _ & I6b). destruct I6b as (I1b & _). rewrite B2 in I1b.
    destruct (ap b) eqn:Eb; try congruence.
    - eexists. split; [eapply star_step; [apply APoll; assumption|]; eapply star_step; [apply AJoinScan; [reflexivity|exact B2]|]; apply star_refl|].
      split; [exact B2|left; reflexivity].
    - eexists. split; [eapply star_step; [apply AJoinScan; [exact Eb|exact B2]|]; apply star_refl|].
      split; [exact B2|left; reflexivity].
    - exists b. split; [apply star_refl|auto].
    - exists b. split; [apply star_refl|auto]. }
  assert (star s c) as Sc by (eapply star_trans; [exact A1|]; eapply star_trans; [exact B1|exact C1]).
  destruct C3 as [C3|C3]; [|exists c; auto].
  assert (breach (Next c)) as Rc by (eapply star_reach; eassumption).
  destruct (sub_end c Rc C2) as (d & D1 & D2 & D3).
  { destruct (rinv c Rc) as (_ & _ & _ & _ & _ & I6c). destruct I6c as (_ & _ & _ & [Y _] & _). intros Z. specialize (Y Z). congruence. }
  assert (breach (Next d)) as Rd by (eapply star_reach; eassumption).
  assert (ap d = AJoin2) as Ad by (destruct D2 as (_ & Y & _); congruence).
  destruct D3 as [D3|D3].
  2:{ eexists. split; [eapply star_trans; [exact Sc|]; eapply star_trans; [exact D1|]; eapply star_step; [apply AJoinSub; assumption|apply star_refl]|reflexivity]. }
  destruct (drain _ d Rd (le_n _)) as (e & E1 & E2 & E3).
  assert (breach (Next e)) as Re by (eapply star_reach; eassumption).
  assert (su e = su d) as Se by (destruct E2 as [_ Y]; exact Y).
  destruct (con_end e Re) as (g & G1 & G2 & G3 & G4).
  { split; [|exact E3]. destruct (rinv e Re) as (_ & _ & _ & _ & _ & I6e). destruct I6e as (_ & _ & _ & _ & _ & Y & _).
    rewrite Y, Se, D3. reflexivity. }
  assert (mpc (su g) = MJoin) as Mg by (destruct G2 as [_ Y]; rewrite Y, Se; exact D3).
  assert (ap g = AJoin2) as Ag by (destruct G2 as [(_ & Y & _) _]; destruct E2 as [(_ & Z & _) _]; congruence).
  eexists. split.
  - eapply star_trans; [exact Sc|]. eapply star_trans; [exact D1|]. eapply star_trans; [exact E1|]. eapply star_trans; [exact G1|].
    eapply star_step; [apply MJoined; assumption|]. eapply star_step; [apply AJoinSub; [exact Ag|reflexivity]|]. apply star_refl.
  - reflexivity.
Qed.
End Live.
