(** Property C57, C85: bag playback. *)
From Coq Require Import ZArith List Bool Lia Sorted.
From Verif Require Import Outcome BagModel.
Import ListNotations.
Local Open Scope Z_scope.

Section Bag.
Variable Msg : Type.
Variable time : Msg -> Z.
Variable delay : Z.
Notation available := (available Msg time delay).
Notation advance := (advance Msg time delay).
Notation playback := (playback Msg time delay).
Notation play := (play Msg time delay).
Notation state := (state Msg).

(** All times are large enough for the delay to be subtracted. *)
Definition late_enough (bag : list Msg) : Prop := forall m, In m bag -> delay <= time m /\ time m - delay < 2 ^ 32 * 1000000000.
Definition contents (s : state) : list Msg := buffer Msg s ++ rest Msg s.

Lemma last_in : forall (A : Type) (l : list A) d, l <> [] -> In (last l d) l.
Proof. intros A l d H. destruct (exists_last H) as (a & x & ->). rewrite last_last. apply in_app_iff. right. left. reflexivity. Qed.
Lemma available_ok : forall buf, late_enough buf -> exists b, available buf = Ok b /\
  (b = true <-> exists m l, buf = m :: l /\ time m < time (last buf m) - delay).
Proof.
  intros [|m l] H; cbn [BagModel.available].
  - exists false. split; [reflexivity|]. split; [discriminate|]. intros (m & l & E & _). discriminate.
  - assert (In (last (m :: l) m) (m :: l)) as Hin by (apply last_in; discriminate). specialize (H _ Hin). set (x := last (m :: l) m) in *.
    unfold time_minus. replace (time x - delay <? 0) with false by (symmetry; apply Z.ltb_ge; lia). replace (2 ^ 32 * 1000000000 <=? time x - delay) with false by (symmetry; apply Z.leb_gt; lia).
    cbn [orb bind]. eexists. split; [reflexivity|]. rewrite Z.ltb_lt. split; [intros L; exists m, l; auto|]. intros (m' & l' & E & L). injection E as <- <-. exact L.
Qed.
Lemma late_app : forall a b, late_enough (a ++ b) -> late_enough a /\ late_enough b.
Proof. intros a b H. split; intros m Hm; apply H, in_app_iff; auto. Qed.
Lemma advance_ok : forall r buf, late_enough (buf ++ r) -> exists s, advance r buf = Ok s /\ contents s = buf ++ r /\
  (finished Msg s = true -> rest Msg s = []) /\ (finished Msg s = true \/ available (buffer Msg s) = Ok true).
Proof.
  induction r as [|m r IH]; intros buf H; cbn [BagModel.advance].
  - eexists. split; [reflexivity|]. unfold contents. cbn. auto.
  - replace (buf ++ m :: r) with ((buf ++ [m]) ++ r) in H |- * by (rewrite <- app_assoc; reflexivity).
    destruct (available_ok (buf ++ [m])) as ([|] & E & _); [apply late_app in H; apply H| |]; rewrite E; cbn [bind].
    + eexists. split; [reflexivity|]. unfold contents. cbn [buffer rest finished]. split; [reflexivity|]. split; [discriminate|]. right. exact E.
    + apply IH, H.
Qed.
Definition stable (s : state) : Prop :=
  (finished Msg s = true -> rest Msg s = []) /\ (finished Msg s = true \/ available (buffer Msg s) = Ok true).
Lemma next_ok : forall s, stable s -> late_enough (contents s) -> available (buffer Msg s) = Ok true ->
  exists m s', next Msg time delay s = Ok (m, s') /\ contents s = m :: contents s' /\ stable s'.
Proof.
  intros s [St1 St2] H Av. unfold next. rewrite Av. cbn [bind check]. unfold contents in *.
  destruct (buffer Msg s) as [|m b] eqn:Eb; [cbn in Av; discriminate|]. unfold advance_until. cbn [finished rest buffer]. destruct (finished Msg s) eqn:F.
  - cbn [bind]. eexists _, _. split; [reflexivity|]. cbn. split; [reflexivity|]. split; auto.
  - destruct (advance_ok (rest Msg s) b) as (s' & E & C & S1 & S2).
    { intros x Hx. apply H. cbn. right. exact Hx. }
    rewrite E. cbn [bind]. eexists _, _. split; [reflexivity|]. unfold contents in C. rewrite C. split; [reflexivity|]. split; assumption.
Qed.
(** What the loop does from a stable state. *)
Lemma play_ok : forall fuel s, stable s -> late_enough (contents s) -> (length (contents s) < fuel)%nat ->
  exists out left, play fuel s = Some (Ok out) /\ contents s = out ++ left /\ available left = Ok false /\
  (forall a m b, contents s = a ++ m :: b -> (length a < length out)%nat -> exists c d, b = c ++ d /\ available (m :: c) = Ok true).
Proof.
  induction fuel as [|fuel IH]; intros s St H Hf; [lia|]. cbn [BagModel.play].
  destruct (available_ok (buffer Msg s)) as ([|] & E & _); [apply late_app in H; apply H| |]; rewrite E.
  - destruct (next_ok s St H E) as (m & s' & En & Ec & St'). rewrite En.
    destruct (IH s' St') as (out & left & P1 & P2 & P3 & P4). { intros x Hx. apply H. rewrite Ec. right. exact Hx. } { rewrite Ec in Hf. cbn in Hf. lia. }
    rewrite P1. exists (m :: out), left. split; [reflexivity|]. split; [rewrite Ec, P2; reflexivity|]. split; [exact P3|].
    intros a x b Eb La. destruct a as [|y a].
    + cbn in Eb. unfold contents in Eb, Ec. destruct (buffer Msg s) as [|z w] eqn:Ebuf; [cbn in E; discriminate|].
      cbn in Eb. injection Eb as <- Eb. exists w, (rest Msg s). split; [symmetry; exact Eb|exact E].
    + rewrite Ec in Eb. cbn in Eb. injection Eb as <- Eb. cbn in La. apply (P4 a x b Eb). lia.
  - destruct St as [S1 S2]. destruct S2 as [S2|S2]; [|congruence].
    exists [], (buffer Msg s). split; [reflexivity|]. unfold contents. rewrite (S1 S2), app_nil_r. split; [reflexivity|]. split; [exact E|]. intros a m b _ L. cbn in L. lia.
Qed.
Lemma construct_ok : forall bag, late_enough bag -> exists s, construct Msg time delay bag = Ok s /\ contents s = bag /\ stable s.
Proof. intros bag H. unfold construct, advance_until. cbn [finished rest buffer]. destruct (advance_ok bag [] H) as (s & E & C & S). exists s. unfold stable. auto. Qed.

(** ** C57 *)
(** Asking for a message while none is available aborts: the oldest buffered message is not older
    than the newest by more than the delay. *)
Theorem C57_not_available_aborts : forall r f b, late_enough b ->
  (forall m l, b = m :: l -> time (last b m) - delay <= time m) -> next Msg time delay (mkState Msg r b f) = Abort.
Proof.
  intros r f b L H. unfold next. cbn [buffer]. destruct (available_ok b L) as ([|] & E & A); rewrite E; cbn [bind check]; [|reflexivity].
  destruct (proj1 A eq_refl) as (m & l & Eb & Q). specialize (H m l Eb). lia.
Qed.
(** Playback ends; the delivered messages are a prefix of the bag, in order. *)
Theorem C57_prefix : forall bag, late_enough bag -> exists out left, bag = out ++ left /\
  forall fuel, (length bag < fuel)%nat -> playback fuel bag = Some (Ok out).
Proof.
  intros bag H. destruct (construct_ok bag H) as (s & E & C & S).
  assert (exists out left, play (Datatypes.S (length bag)) s = Some (Ok out) /\ contents s = out ++ left) as (out & left & P & Q).
  { destruct (play_ok (Datatypes.S (length bag)) s S) as (out & left & P & Q & _); [rewrite C; exact H|rewrite C; lia|]. eauto. }
  exists out, left. split; [rewrite <- C; exact Q|]. intros fuel Hf. unfold BagModel.playback. rewrite E.
  assert (forall f f' s r, (f <= f')%nat -> play f s = Some r -> play f' s = Some r) as Mono.
  { clear. induction f as [|f IH]; intros f' s r L; [discriminate|]. destruct f' as [|f']; [lia|]. cbn [BagModel.play].
    destruct (available (buffer Msg s)) as [[|]| | |]; auto. destruct (next Msg time delay s) as [[m s']| | |]; auto.
    destruct (play f s') as [r0|] eqn:E; [|discriminate]. rewrite (IH f' s' r0) by (lia || exact E). auto. }
  apply (Mono (Datatypes.S (length bag))); [lia|exact P].
Qed.
Definition ordered (bag : list Msg) : Prop := StronglySorted (fun a b => time a <= time b) bag.
Lemma ordered_app : forall a b, ordered (a ++ b) -> ordered a /\ ordered b /\ forall x y, In x a -> In y b -> time x <= time y.
Proof.
  induction a as [|m a IH]; intros b H; [split; [constructor|]; split; [exact H|intros x y []]|].
  cbn in H. apply StronglySorted_inv in H. destruct H as [H1 H2]. destruct (IH b H1) as (A & B & C). rewrite Forall_forall in H2. split; [|split; [exact B|]].
  - constructor; [exact A|]. apply Forall_forall. intros x Hx. apply H2, in_app_iff. auto.
  - intros x y [<-|Hx] Hy; [apply H2, in_app_iff; auto|apply C; assumption].
Qed.
Lemma last_app_cons : forall (A : Type) (a : list A) m b d, last (a ++ m :: b) d = last (m :: b) d.
Proof. intros A a m b d. induction a as [|x a IH]; [reflexivity|]. cbn [app]. destruct (a ++ m :: b) eqn:E; [destruct a; discriminate|]. rewrite <- IH. reflexivity. Qed.
(** For a time-ordered bag exactly the messages more than [delay] before the last one are
    delivered. *)
Theorem C57_exact : forall bag z fuel, late_enough (bag ++ [z]) -> ordered (bag ++ [z]) -> (length (bag ++ [z]) < fuel)%nat -> 0 <= delay ->
  playback fuel (bag ++ [z]) = Some (Ok (filter (fun m => time m <? time z - delay) (bag ++ [z]))).
Proof.
  intros bag z fuel H O Hf D. destruct (construct_ok (bag ++ [z]) H) as (s & E & C & S). unfold BagModel.playback. rewrite E.
  destruct (play_ok fuel s S) as (out & left & P1 & P2 & P3 & P4); [rewrite C; exact H|rewrite C; exact Hf|]. rewrite P1. f_equal. f_equal.
  rewrite C in P2, P4. rewrite P2. rewrite filter_app.
  assert (forall m, In m (bag ++ [z]) -> time m <= time z) as Mx.
  { intros m Hm. apply in_app_iff in Hm. destruct (ordered_app _ _ O) as (_ & _ & Lt). destruct Hm as [Hm|[<-|[]]]; [apply Lt; [exact Hm|left; reflexivity]|lia]. }
  assert (forall m, In m out -> time m < time z - delay) as Lo.
  { intros m Hm. apply in_split in Hm. destruct Hm as (a & b & Eo).
    destruct (P4 a m (b ++ left)) as (c & d & E1 & E2). { rewrite P2, Eo, <- app_assoc. reflexivity. } { rewrite Eo, app_length. cbn. lia. }
    assert (forall x, In x (m :: c) -> In x (bag ++ [z])) as Sub. { intros x Hx. rewrite P2, Eo, <- app_assoc. cbn. rewrite E1. apply in_app_iff. right. destruct Hx as [<-|Hx]; [left; reflexivity|right; apply in_app_iff; auto]. }
    destruct (available_ok (m :: c)) as (b0 & F1 & F2). { intros x Hx. apply H, Sub, Hx. }
    rewrite E2 in F1. injection F1 as <-. destruct (proj1 F2 eq_refl) as (m' & l' & G1 & G2). injection G1 as <- <-.
    pose proof (Mx _ (Sub _ (last_in _ (m :: c) m ltac:(discriminate)))). lia. }
  assert (forall m, In m left -> ~ time m < time z - delay) as Hi.
  { intros m Hm Bad. destruct left as [|m0 left']; [destruct Hm|]. destruct (available_ok (m0 :: left')) as (b0 & F1 & F2). { intros x Hx. apply H. rewrite P2. apply in_app_iff. auto. }
    rewrite P3 in F1. injection F1 as <-. assert (last (m0 :: left') m0 = z) as El. { rewrite <- (last_app_cons _ out), <- P2. apply last_last. }
    assert (time m0 <= time m) as Le. { rewrite P2 in O. apply ordered_app in O. destruct O as (_ & O & _). apply StronglySorted_inv in O. destruct O as [_ O]. rewrite Forall_forall in O. destruct Hm as [<-|Hm]; [lia|apply O, Hm]. }
    assert (false = true) as X; [|discriminate]. apply F2. exists m0, left'. split; [reflexivity|]. rewrite El. lia. }
  assert (filter (fun m => time m <? time z - delay) out = out) as F1.
  { clear - Lo. induction out as [|m out IH]; [reflexivity|]. cbn. rewrite (proj2 (Z.ltb_lt _ _) (Lo m (or_introl eq_refl))). rewrite IH; [reflexivity|]. intros x Hx. apply Lo. right. exact Hx. }
  assert (filter (fun m => time m <? time z - delay) left = []) as F2.
  { clear - Hi. induction left as [|m l IH]; [reflexivity|]. cbn. rewrite (proj2 (Z.ltb_ge _ _)) by (pose proof (Hi m (or_introl eq_refl)); lia). apply IH. intros x Hx. apply Hi. right. exact Hx. }
  rewrite F1, F2, app_nil_r. reflexivity.
Qed.

(** ** C85 *)
(** A bag whose first message is stamped less than [delay] after time zero cannot be played. *)
Theorem C85_early_bag_throws : forall m bag fuel, time m < delay -> playback fuel (m :: bag) = Some Throw.
Proof.
  intros m bag fuel H. unfold BagModel.playback, construct, advance_until. cbn [finished rest buffer BagModel.advance app BagModel.available last].
  unfold time_minus. replace (time m - delay <? 0) with true by (symmetry; apply Z.ltb_lt; lia). reflexivity.
Qed.
End Bag.

(** A bag with stamps 2.0, 2.4, 3.0, 3.1 s and a delay of 1 s: 2.0 is delivered. *)
Definition ex_bag : list Z := [2000000000; 2400000000; 3000000000; 3100000000].
Example C57_example : playback Z (fun t => t) 1000000000 10 ex_bag = Some (Ok [2000000000]).
Proof. vm_compute. reflexivity. Qed.
Example C57_hypotheses : late_enough Z (fun t => t) 1000000000 ex_bag /\ ordered Z (fun t => t) ex_bag.
Proof. split; [intros m Hm; cbn in Hm; lia|]. unfold ordered, ex_bag. repeat constructor; lia. Qed.
(** Simulation time starting at zero. *)
Example C57_not_available_example : next Z (fun t => t) 1000000000 (mkState Z [7000000000] [5000000000; 5500000000] false) = Abort.
Proof. reflexivity. Qed.
Example C85_example : playback Z (fun t => t) 1000000000 10 [0; 5000000000; 9000000000] = Some Throw.
Proof. vm_compute. reflexivity. Qed.

Print Assumptions C57_not_available_aborts.
Print Assumptions C57_prefix.
Print Assumptions C57_exact.
Print Assumptions C85_early_bag_throws.
