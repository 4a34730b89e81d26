(** Invariants of the map builder's threads. *)
From Coq Require Import List Bool ZArith Lia.
From Verif Require Import Outcome BuilderModel BuilderSpec.
Import ListNotations.
Local Open Scope nat_scope.

Lemma nth_error_map_Some : forall {A} (F : list A) i x, nth_error (map Some F) i = Some x ->
  exists f, x = Some f /\ nth_error F i = Some f.
Proof. intros A. induction F; intros [|i] x H; cbn in *; try discriminate; eauto. injection H as <-; eauto. Qed.
Lemma firstn_app_le : forall {A} (l r : list A) i, i <= length l -> firstn i (l ++ r) = firstn i l.
Proof. intros A l r i H. rewrite firstn_app. replace (i - length l) with 0 by lia. cbn. apply app_nil_r. Qed.
Lemma firstn_S_nth : forall {A} (l : list A) i x, nth_error l i = Some x -> firstn (S i) l = firstn i l ++ [x].
Proof.
  intros A. induction l as [|a l IH]; intros [|i] x H; try discriminate; cbn in *.
  - injection H as <-. reflexivity.
  - f_equal. apply IH. exact H.
Qed.
Lemma nth_error_firstn_lt : forall {A} (l : list A) i j, i < j -> nth_error (firstn j l) i = nth_error l i.
Proof. intros A. induction l; intros [|i] [|j] H; cbn; try reflexivity; try lia. apply IHl. lia. Qed.
Lemma fill_app : forall {A} (l : list (option A)) o x, fill (l ++ [o]) x = l ++ [Some x].
Proof. intros. unfold fill. rewrite removelast_last. reflexivity. Qed.
Lemma concat_len : forall {A} n (T : list (list A)), Forall (fun x => length x = n) T -> length (concat T) = n * length T.
Proof. intros A n T H. induction H; cbn [concat length]; [lia|]. rewrite app_length. lia. Qed.

Section Builder.
Variables cloud frame smst : Type.
Variable sm_init : smst.
Variable sm_step : smst -> cloud -> smst * option frame.
Variable fc : Z.
Variable swapped : bool.
Notation bstep := (bstep cloud frame smst sm_step fc swapped).
Notation breach := (breach cloud frame smst sm_init sm_step fc swapped).
Notation st := (st cloud frame smst).
Notation n := (Z.to_nat fc).

Ltac inv H := inversion H; subst; clear H.
Ltac steps H := inversion H; subst; clear H; cbn in *.

(** ** collector *)
Definition inv1 (s : st) : Prop := ins (co s) = tkn (co s) ++ out (co s) ++ held (hold (co s)) ++ raw (co s).
Lemma inv1_step : forall s s', inv1 s -> bstep s (Next s') -> inv1 s'.
Proof.
  unfold inv1. intros s s' I H. steps H; try exact I.
  - rewrite I, <- !app_assoc. reflexivity.
  - rewrite I, H1, H2. reflexivity.
  - rewrite I, H1. cbn. rewrite <- !app_assoc. reflexivity.
  - rewrite I, H2, <- app_assoc. reflexivity.
Qed.

(** ** scan matching *)
Fixpoint smrun (x : smst) (l : list cloud) : smst * list frame :=
  match l with
  | [] => (x, [])
  | c :: r => let (x', o) := sm_step x c in
              let (y, F) := smrun x' r in (y, match o with Some f => f :: F | None => F end)
  end.
Lemma smrun_keys : forall l x, snd (smrun x l) = key_frames sm_step x l.
Proof.
  induction l as [|c l IH]; intros x; cbn; [reflexivity|]. destruct (sm_step x c) as [x' o]. specialize (IH x').
  destruct (smrun x' l) as [y F]. cbn in *. destruct o; congruence.
Qed.
Lemma smrun_snoc : forall l x c, smrun x (l ++ [c]) =
  let (y, F) := smrun x l in let (z, o) := sm_step y c in (z, F ++ match o with Some f => [f] | None => [] end).
Proof.
  induction l as [|a l IH]; intros x c; cbn.
  - destruct (sm_step x c) as [x' [f|]]; reflexivity.
  - destruct (sm_step x a) as [x' o]. rewrite IH. destruct (smrun x' l) as [y F]. destruct (sm_step y c) as [z [f|]], o; cbn; rewrite ?app_nil_r; reflexivity.
Qed.
Definition inv2 (s : st) : Prop :=
  match spc (sc s) with
  | SWork c => exists t F, tkn (co s) = t ++ [c] /\ smrun sm_init t = (sst (sc s), F) /\ frames (sc s) = map Some F
  | SPush f => exists F, smrun sm_init (tkn (co s)) = (sst (sc s), F ++ [f]) /\ frames (sc s) = map Some F ++ [None]
  | _ => exists F, smrun sm_init (tkn (co s)) = (sst (sc s), F) /\ frames (sc s) = map Some F
  end.
Lemma inv2_step : forall s s', inv2 s -> bstep s (Next s') -> inv2 s'.
Proof.
  unfold inv2. intros s s' I H. steps H; try exact I; rewrite H1 in I; try exact I.
  - destruct I as (F & I1 & I2). exists (tkn (co s)), F. auto.
  - destruct I as (t & F & I1 & I2 & I3). exists F. rewrite I1, smrun_snoc, I2, H2, app_nil_r. auto.
  - destruct I as (t & F & I1 & I2 & I3). exists F. rewrite I1, smrun_snoc, I2, H2, I3. auto.
  - destruct I as (F & I1 & I2). exists (F ++ [f]). rewrite I1, I2, fill_app, map_app. auto.
Qed.

(** ** control flags *)
Definition inv6 (s : st) : Prop :=
  (running (sc s) = match spc (sc s) with SInit | SEnd => false | _ => true end) /\
  (spc (sc s) = SInit -> ap s = AWait) /\
  (endf s = match ap s with AWait | ARun => false | _ => true end) /\
  (mpc (su s) = MNone <-> ap s = AWait) /\
  (xpc (cn s) = XNone <-> mpc (su s) = MNone \/ mpc (su s) = MStart) /\
  (done (su s) = match mpc (su s) with MJoin | MEnd => true | _ => false end) /\
  ((xpc (cn s) = XLast \/ xpc (cn s) = XEnd) -> done (su s) = true) /\
  ((spc (sc s) = SStop \/ spc (sc s) = SEnd) -> endf s = true) /\
  (match ap s with AJoin | AJoin2 | ADone => spc (sc s) = SEnd | _ => True end) /\
  (ap s = ADone -> mpc (su s) = MEnd) /\
  (mpc (su s) = MEnd -> xpc (cn s) = XEnd /\ pend (cn s) = []).
Lemma inv6_step : forall s s', inv6 s -> bstep s (Next s') -> inv6 s'.
Proof.
  unfold inv6. intros s s' (I1 & I2 & I3 & I4 & I5 & I6 & I7 & I8 & I9 & I10 & I11) H.
  steps H;
  repeat match goal with
  | E : ap ?s = _ |- _ => rewrite E in *
  | E : spc (sc ?s) = _ |- _ => rewrite E in *
  | E : mpc (su ?s) = _ |- _ => rewrite E in *
  | E : xpc (cn ?s) = _ |- _ => rewrite E in *
  end; cbn in *.
  all: repeat match goal with |- _ /\ _ => split | |- _ <-> _ => split end.
  all: try assumption; try congruence; try exact Logic.I.
  all: try (intros; first [congruence | tauto]).
  all: try (destruct swapped; intuition congruence).
  all: try (intuition congruence).
  - intros E. rewrite E in I1. congruence.
  - rewrite I6. destruct I4 as [_ I4]. rewrite I4 by reflexivity. reflexivity.
  - destruct (spc (sc s)) eqn:E; try congruence. specialize (I2 eq_refl). congruence.
  - destruct (ap s); auto; congruence.
  - destruct (ap s); auto; congruence.
  - destruct (ap s); auto; congruence.
  - destruct (ap s); auto; congruence.
  - destruct (ap s); auto; congruence.
  - destruct (ap s); auto; congruence.
  - destruct (ap s); auto; congruence.
  - destruct (ap s); auto; congruence.
  - destruct (ap s); auto; congruence.
  - intros E. specialize (I11 E). destruct I11 as [_ I11]. rewrite I11 in *. destruct p1; discriminate.
Qed.

(** ** the submap thread *)
Hypothesis fc_pos : (0 < fc < 2 ^ 31)%Z.

Definition incur (s : st) : list frame :=
  match mpc (su s) with MBuild _ | MFull | MPush | MPush2 => cur (su s) | _ => [] end.
Definition half (s : st) : list (option (list frame)) := match mpc (su s) with MPush2 => [None] | _ => [] end.
Definition inv3 (s : st) : Prop := exists T,
  traj (su s) = map Some T ++ half s /\ Forall (fun x => length x = n) T /\
  firstn (idx (su s)) (frames (sc s)) = map Some (concat T ++ incur s) /\
  idx (su s) = n * length T + length (incur s) /\
  match mpc (su s) with
  | MBuild i => length (cur (su s)) + i = n /\ idx (su s) + i <= length (frames (sc s))
  | MFull | MPush | MPush2 => length (cur (su s)) = n
  | MEnq k => S k = length T
  | MNone | MStart => T = []
  | _ => True
  end.
Lemma too_few_false : forall m i, i <= m -> too_few fc m i = false -> i + n <= m.
Proof.
  intros m i Hi H. unfold too_few in H. apply Z.ltb_ge in H. rewrite (Z.mod_small fc) in H by lia.
  assert ((Z.of_nat m - Z.of_nat i) mod 2 ^ 64 <= Z.of_nat m - Z.of_nat i)%Z by (apply Z.mod_le; lia). lia.
Qed.
Lemma too_few_true : forall m i, i <= m -> (Z.of_nat m < 2 ^ 64)%Z -> too_few fc m i = true -> m < i + n.
Proof.
  intros m i Hi Hm H. unfold too_few in H. apply Z.ltb_lt in H. rewrite (Z.mod_small fc) in H by lia.
  rewrite Z.mod_small in H by lia. lia.
Qed.
Lemma firstn_some_le : forall {A} i (l : list (option A)) (F : list A), firstn i l = map Some F -> length F = i -> i <= length l.
Proof. intros A i l F H H1. apply (f_equal (@length _)) in H. rewrite map_length, firstn_length in H. lia. Qed.
Lemma firstn_half : forall {A} i (F : list A) (X : list A), firstn i (map Some F ++ [None]) = map Some X -> length X = i -> i <= length F.
Proof.
  intros A i F X H Hl. destruct (Nat.le_gt_cases i (length F)) as [|Hgt]; [assumption|exfalso].
  rewrite firstn_all2 in H by (rewrite app_length, map_length; cbn; lia).
  assert (In None (map Some X)) as Hin by (rewrite <- H; apply in_or_app; right; left; reflexivity).
  apply in_map_iff in Hin. destruct Hin as (y & ? & _). discriminate.
Qed.
Lemma inv3_step : forall s s', inv2 s -> inv3 s -> inv6 s -> bstep s (Next s') -> inv3 s'.
Proof.
  intros s s' I2 (T & J1 & J2 & J3 & J4 & J5) I6 H.
  assert (idx (su s) <= length (frames (sc s))) as Hle.
  { eapply firstn_some_le; [exact J3|]. rewrite app_length, (concat_len n) by assumption. lia. }
  assert (length (concat T ++ incur s) = idx (su s)) as Hlen.
  { rewrite app_length, (concat_len n) by assumption. lia. }
  unfold inv3, half, incur, inv2 in *.
  steps H; try (exists T; auto; fail);
  repeat match goal with E : mpc (su ?s) = _ |- _ => rewrite E in * end; cbn in *;
  try (exists T; auto; fail).
  - destruct I6 as (_ & _ & _ & [_ I4] & _). rewrite (I4 H1) in *. exists T; auto.
  - exists T. split; [exact J1|]. split; [exact J2|]. split; [rewrite firstn_app_le by exact Hle; exact J3|].
    split; [exact J4|]. destruct (mpc (su s)); try exact J5. rewrite app_length. cbn. lia.
  - rewrite H1 in I2. destruct I2 as (F & F1 & F2). rewrite F2 in *. rewrite fill_app.
    pose proof (firstn_half _ _ _ J3 Hlen) as Hh.
    exists T. split; [exact J1|]. split; [exact J2|].
    split; [rewrite firstn_app_le in * by (rewrite map_length; exact Hh); exact J3|]. split; [exact J4|].
    destruct (mpc (su s)); try exact J5. rewrite !app_length in *. cbn in *. exact J5.
  - destruct swapped; exists T; auto.
  - exists T. split; [exact J1|]. split; [exact J2|]. split; [exact J3|]. split; [exact J4|].
    split; [lia|]. apply too_few_false; assumption.
  - exists T. split; [exact J1|]. split; [exact J2|]. split; [exact J3|]. split; [exact J4|].
    split; [lia|]. apply too_few_false; assumption.
  - exists T. split; [exact J1|]. split; [exact J2|].
    change (match frames (sc s) with [] => [] | a :: l => a :: firstn (idx (su s)) l end)
      with (firstn (S (idx (su s))) (frames (sc s))).
    split; [rewrite (firstn_S_nth _ _ _ H2), J3, !map_app, <- app_assoc; reflexivity|].
    rewrite app_length. cbn. split; [lia|]. lia.
  - exists T. split; [exact J1|]. split; [exact J2|]. split; [exact J3|]. split; [exact J4|]. lia.
  - exists T. rewrite app_nil_r in J1. rewrite J1. auto.
  - exists (T ++ [cur (su s)]). rewrite J1, fill_app, map_app, app_nil_r, !app_length, map_length, concat_app. cbn.
    rewrite !app_nil_r. split; [reflexivity|]. split; [apply Forall_app; auto|]. split; [exact J3|]. split; lia.
  - destruct swapped; exists T; auto.
Qed.

(** ** matching and connecting *)
Definition tlen (s : st) : nat := length (traj (su s)) - length (half s).
Definition enq (s : st) : nat := match mpc (su s) with MEnq k => k - 1 | _ => tlen s - 1 end.
Definition I4 (p : list nat) (m : nat -> bool) (e t : nat) (x : Prop) : Prop :=
  NoDup p /\ (forall k, In k p <-> 1 <= k <= e /\ m (k - 1) = false) /\
  (forall j, m j = true -> j < e \/ (x /\ S j = t)) /\ (x -> 0 < t -> m (t - 1) = true).
Definition inv4 (s : st) : Prop :=
  I4 (pend (cn s)) (matched (cn s)) (enq s) (tlen s) (xpc (cn s) = XEnd).
Definition inv5 (s : st) : Prop :=
  (firsti (cn s) = false -> fin (cn s) = 0 /\ conn (cn s) = []) /\
  (firsti (cn s) = true -> fin (cn s) < tlen s /\ conn (cn s) = seq 0 (S (fin (cn s)))) /\
  match xpc (cn s) with
  | XFirst m => S (fin (cn s)) < m /\ m <= length (traj (su s))
  | XCol m i l => firsti (cn s) = true /\ fin (cn s) <= i /\ l = seq (fin (cn s)) (i - fin (cn s)) /\
      (i < m -> i = fin (cn s) \/ matched (cn s) (i - 1) = true) /\ (forall j, In j l -> j < tlen s)
  | XConn l => firsti (cn s) = true /\ l = seq (S (fin (cn s))) (length l) /\ fin (cn s) + length l < tlen s
  | _ => True
  end.
Lemma tlen_eq : forall s, inv3 s -> exists T, traj (su s) = map Some T ++ half s /\ length T = tlen s /\
  (forall k, mpc (su s) = MEnq k -> S k = tlen s).
Proof.
  intros s (T & J1 & J2 & J3 & J4 & J5). exists T. unfold tlen. rewrite J1, app_length, map_length.
  split; [reflexivity|]. split; [lia|]. intros k E. rewrite E in J5. lia.
Qed.
Lemma NoDup_snoc : forall (l : list nat) k, NoDup l -> ~ In k l -> NoDup (l ++ [k]).
Proof.
  intros l k H Hk. induction H as [|a l Ha Hl IH]; cbn; [repeat constructor; auto|].
  constructor; [|apply IH; intros ?; apply Hk; right; assumption].
  intros X. apply in_app_or in X. destruct X as [X|[X|[]]]; [auto|]. apply Hk. left. congruence.
Qed.
Lemma I4_enqueue : forall p m k x, ~ x -> I4 p m (k - 1) (S k) x -> I4 (if 0 <? k then p ++ [k] else p) m k (S k) x.
Proof.
  intros p m k x NX (K1 & K2 & K3 & K4).
  assert (0 < k -> m (k - 1) = false) as Mk.
  { intros Hk. destruct (m (k - 1)) eqn:E; [|reflexivity]. destruct (K3 _ E) as [?|[? ?]]; [lia|contradiction]. }
  destruct (Nat.ltb_spec 0 k).
  - split; [apply NoDup_snoc; [exact K1|]; intros X; apply K2 in X; lia|]. split; [|split; [|tauto]].
    + intros j. rewrite in_app_iff, K2. cbn. split.
      * intros [[? ?]|[<-|[]]]; (split; [lia|auto]).
      * intros [? ?]. destruct (Nat.eq_dec k j) as [->|]; [right; left; reflexivity|left; split; [lia|assumption]].
    + intros j Hj. destruct (K3 j Hj) as [?|[? ?]]; [left; lia|contradiction].
  - replace k with 0 in * by lia. split; [exact K1|]. split; [exact K2|]. split; [exact K3|tauto].
Qed.
Lemma I4_match : forall p1 k p2 m e t x, I4 (p1 ++ k :: p2) m e t x -> I4 (p1 ++ p2) (upd m (k - 1)) e t x.
Proof.
  intros p1 k p2 m e t x (K1 & K2 & K3 & K4).
  pose proof (NoDup_remove_1 _ _ _ K1) as N1. pose proof (NoDup_remove_2 _ _ _ K1) as N2.
  assert (1 <= k <= e) as Hk by (apply K2; apply in_or_app; right; left; reflexivity).
  split; [exact N1|]. unfold upd. split; [|split].
  - intros j. specialize (K2 j). rewrite in_app_iff in *. cbn in K2.
    destruct (Nat.eqb_spec (j - 1) (k - 1)) as [E|E].
    + split; [intros X|intros [_ X]; discriminate]. exfalso.
      assert (1 <= j) by (apply K2; tauto). assert (j = k) by lia. subst j. apply N2. first [exact X | apply in_or_app; exact X].
    + rewrite <- K2. split; [tauto|]. intros [X|[X|X]]; [auto|subst; congruence|auto].
  - intros j Hj. destruct (Nat.eqb_spec j (k - 1)); [left; subst; lia|]. apply K3. exact Hj.
  - intros Hx Ht. destruct (Nat.eqb_spec (t - 1) (k - 1)); [reflexivity|]. apply K4; assumption.
Qed.
Lemma I4_last : forall p m t x (y : Prop), ~ x -> y -> 0 < t -> I4 p m (t - 1) t x -> I4 p (upd m (t - 1)) (t - 1) t y.
Proof.
  intros p m t x y NX Hy Ht (K1 & K2 & K3 & K4). unfold upd. split; [exact K1|]. split; [|split].
  - intros k. rewrite K2. destruct (Nat.eqb_spec (k - 1) (t - 1)) as [E|E]; [|reflexivity].
    split; [intros [X _]; lia|intros [X Y]; discriminate].
  - intros j Hj. destruct (Nat.eqb_spec j (t - 1)); [right; split; [exact Hy|lia]|].
    destruct (K3 j Hj) as [?|[? ?]]; [left; assumption|contradiction].
  - intros _ _. rewrite Nat.eqb_refl. reflexivity.
Qed.
Lemma I4_none : forall p m e x (y : Prop), ~ x -> I4 p m e 0 x -> I4 p m e 0 y.
Proof.
  intros p m e x y NX (K1 & K2 & K3 & K4). split; [exact K1|]. split; [exact K2|].
  split; [intros j Hj; destruct (K3 j Hj) as [?|[? ?]]; [left; assumption|contradiction]|lia].
Qed.
Lemma I4_iff : forall p m e t (x y : Prop), (x <-> y) -> I4 p m e t x -> I4 p m e t y.
Proof.
  intros p m e t x y E (K1 & K2 & K3 & K4). split; [exact K1|]. split; [exact K2|].
  split; [intros j Hj; destruct (K3 j Hj) as [?|[? ?]]; [left; assumption|right; tauto]|tauto].
Qed.
Lemma I4_grow : forall p m e t t' (x : Prop), ~ x -> I4 p m e t x -> I4 p m e t' x.
Proof.
  intros p m e t t' x NX (K1 & K2 & K3 & K4). split; [exact K1|]. split; [exact K2|].
  split; [intros j Hj; destruct (K3 j Hj) as [?|[? ?]]; [left; assumption|contradiction]|tauto].
Qed.
Lemma inv4_step : forall s s', inv3 s -> inv6 s -> inv4 s -> bstep s (Next s') -> inv4 s'.
Proof.
  intros s s' I3 I6 K H. destruct (tlen_eq s I3) as (T & T1 & T2 & T3).
  destruct I6 as (_ & _ & _ & [_ I4'] & I5' & I6' & I7' & _).
  assert (done (su s) = false -> xpc (cn s) <> XEnd) as NX.
  { intros Hd Hx. rewrite Hd in I7'. specialize (I7' (or_intror Hx)). discriminate. }
  assert (forall s', pend (cn s') = pend (cn s) -> matched (cn s') = matched (cn s) -> enq s' = enq s ->
            tlen s' = tlen s -> (xpc (cn s) = XEnd <-> xpc (cn s') = XEnd) -> inv4 s') as Same.
  { intros s0 E1 E2 E3 E4 E5. unfold inv4. rewrite E1, E2, E3, E4. eapply I4_iff; [exact E5|exact K]. }
  inversion H; subst; clear H;
  try (apply Same; unfold enq, tlen, half; cbn;
       repeat match goal with E : mpc (su ?s) = _ |- _ => rewrite E in * end;
       repeat match goal with E : xpc (cn ?s) = _ |- _ => rewrite E in * end;
       try (split; intros); first [reflexivity | congruence]; fail).
  - apply Same; unfold enq, tlen, half; cbn; rewrite ?(I4' H1); try reflexivity.
  - apply Same; unfold enq, tlen, half; cbn; rewrite ?H1; try (destruct swapped; reflexivity).
    destruct I5' as [_ I5']. rewrite I5' by auto. split; congruence.
  - apply Same; unfold enq, tlen, half; cbn; rewrite ?H1, ?app_length; cbn; try reflexivity; lia.
  - unfold inv4 in *. cbn. rewrite H1 in *.
    assert (xpc (cn s) <> XEnd) as NX1 by (apply NX; rewrite I6'; reflexivity).
    unfold enq, tlen, half in *. cbn in *. rewrite H1 in *. cbn in *. 
    replace (length (traj (su s)) - 1 - 1) with (length (traj (su s)) - 2) in * by lia.
    eapply I4_grow; [exact NX1|exact K].
  - assert (xpc (cn s) <> XEnd) as NX1 by (apply NX; rewrite I6', H1; reflexivity).
    specialize (T3 _ H1). unfold inv4 in *.
    assert (tlen s = length (traj (su s))) as Et by (unfold tlen, half; rewrite H1; cbn; lia).
    assert (forall p, p = MFlag \/ p = MSize -> forall c, tlen (set_cn cloud frame smst (set_mpc cloud frame smst s p) c) = S k /\ enq (set_cn cloud frame smst (set_mpc cloud frame smst s p) c) = k) as Ep.
    { intros p Hp c. unfold enq, tlen, half. cbn. destruct Hp as [-> | ->]; cbn; lia. }
    destruct (Ep (if swapped then MFlag else MSize) ltac:(destruct swapped; auto)
      (mkCon (xpc (cn s)) (if 0 <? k then pend (cn s) ++ [k] else pend (cn s)) (matched (cn s)) (fin (cn s)) (firsti (cn s)) (conn (cn s)))) as [Ep1 Ep2].
    rewrite Ep1, Ep2. cbn. apply I4_enqueue; [exact NX1|].
    rewrite <- T3 in K. unfold enq in K. rewrite H1 in K. exact K.
  - unfold inv4 in *. rewrite H1 in K. apply I4_match in K. exact K.
  - unfold inv4 in *. assert (tlen s = 0) as E0 by (unfold tlen; rewrite H2; reflexivity).
    change (tlen (set_xpc cloud frame smst s XEnd)) with (tlen s).
    change (enq (set_xpc cloud frame smst s XEnd)) with (enq s). rewrite E0 in *.
    apply (I4_none _ _ _ (xpc (cn s) = XEnd)); [congruence|exact K].
  - assert (done (su s) = true) as Hd by auto. rewrite I6' in Hd.
    assert (tlen s = length (traj (su s))) as Et by (unfold tlen, half; destruct (mpc (su s)); cbn; try congruence; lia).
    assert (enq s = tlen s - 1) as Ee by (unfold enq; destruct (mpc (su s)); congruence).
    assert (0 < tlen s) as Hpos by (rewrite Et; destruct (traj (su s)); [discriminate|cbn; lia]).
    unfold inv4 in *. rewrite Ee in K.
    match goal with |- I4 _ _ (enq ?s') _ _ => change (enq s') with (enq s); change (tlen s') with (tlen s) end.
    rewrite Ee. cbn [cn pend matched xpc set_cn]. rewrite <- Et.
    apply (I4_last _ _ _ (xpc (cn s) = XEnd)); [congruence|reflexivity|exact Hpos|exact K].
Qed.
Lemma enq_lt : forall s j, inv3 s -> j < enq s -> S j < tlen s.
Proof.
  intros s j I3 H. destruct (tlen_eq s I3) as (T & T1 & T2 & T3). unfold enq in H.
  destruct (mpc (su s)) eqn:E; try lia. specialize (T3 _ eq_refl). lia.
Qed.
Lemma inv4_lt : forall s j, inv3 s -> inv4 s -> xpc (cn s) <> XEnd -> matched (cn s) j = true -> S j < tlen s.
Proof.
  intros s j I3 (K1 & K2 & K3 & K4) NX Hj. destruct (K3 j Hj) as [?|[? ?]]; [|contradiction].
  apply enq_lt; assumption.
Qed.

Lemma inv5_step : forall s s', inv3 s -> inv4 s -> inv6 s -> inv5 s -> bstep s (Next s') -> inv5 s'.
Proof.
  intros s s' I3 K I6 (F1 & F2 & F3) H. destruct (tlen_eq s I3) as (T & T1 & T2 & T3).
  destruct I6 as (_ & _ & _ & [_ I4'] & I5' & I6' & I7' & _).
  assert (forall s', xpc (cn s') = xpc (cn s) -> fin (cn s') = fin (cn s) -> firsti (cn s') = firsti (cn s) ->
            conn (cn s') = conn (cn s) -> tlen s <= tlen s' -> length (traj (su s)) <= length (traj (su s')) ->
            (forall j, matched (cn s) j = true -> matched (cn s') j = true) -> inv5 s') as Same.
  { intros s0 E1 E2 E3 E4 E5 E6 E7. unfold inv5. rewrite E1, E2, E3, E4. split; [exact F1|].
    split; [intros X; destruct (F2 X); split; [lia|assumption]|].
    destruct (xpc (cn s)); try exact F3; try lia.
    - destruct F3 as (G1 & G2 & G3 & G4 & G5). repeat (split; [assumption|]).
      split; [intros X; destruct (G4 X); auto|]. intros j Hj. specialize (G5 j Hj). lia.
    - destruct F3 as (G1 & G2 & G3). split; [assumption|]. split; [assumption|lia]. }
  assert (forall s' x', s' = set_xpc cloud frame smst s x' ->
     match x' with XFirst _ | XCol _ _ _ | XConn _ => False | _ => True end -> inv5 s') as Ctl.
  { intros s0 x' -> Hx. split; [exact F1|]. split; [exact F2|]. cbn. destruct x'; try contradiction; exact Logic.I. }
  inversion H; subst; clear H;
  try (eapply Ctl; [reflexivity|exact Logic.I]; fail);
  try (apply Same; unfold enq, tlen, half; cbn;
       repeat match goal with E : mpc (su ?s) = _ |- _ => rewrite E in * end;
       try reflexivity; try lia; auto; fail).
  - destruct I5' as [_ I5']. specialize (I5' (or_intror H1)). 
    assert (tlen (set_xpc cloud frame smst (set_mpc cloud frame smst s (if swapped then MFlag else MSize)) XSize) = tlen s) as Et
      by (unfold tlen, half; cbn; rewrite H1; destruct swapped; reflexivity).
    split; [exact F1|]. split; [|exact Logic.I]. rewrite Et. exact F2.
  - apply Same; unfold tlen, half; cbn; rewrite ?H1, ?app_length; cbn; auto; lia.
  - assert (length (fill (traj (su s)) (cur (su s))) = length (traj (su s))) as Hf.
    { rewrite T1. unfold half. rewrite H1. rewrite fill_app, !app_length. reflexivity. }
    apply Same; unfold tlen, half; cbn; rewrite ?H1, ?Hf; cbn; auto; lia.
  - apply Same; unfold tlen, half; cbn; rewrite ?H1; auto. destruct swapped; cbn; lia.
  - apply Same; unfold tlen, half; cbn; auto. intros j Hj. unfold upd. destruct (j =? k - 1); auto.
  - split; [exact F1|]. split; [exact F2|]. cbn.
    assert (fin (cn s) <= length (traj (su s)) - 1) as Hle.
    { destruct (firsti (cn s)) eqn:E; [destruct (F2 eq_refl) as [X _]; unfold tlen in X; lia|destruct (F1 eq_refl); lia]. }
    lia.
  - rewrite H1 in F3. destruct (F1 H2) as [Z1 Z2]. split; [discriminate|].
    assert (0 < tlen s) as Hpos.
    { unfold tlen, half. destruct (mpc (su s)); cbn; try lia. }
    split; [intros _; cbn; rewrite Z1, Z2; split; [exact Hpos|reflexivity]|]. cbn.
    split; [reflexivity|]. split; [lia|]. rewrite Nat.sub_diag. split; [reflexivity|]. split; [auto|]. intros j [].
  - rewrite H1 in F3. split; [exact F1|]. split; [exact F2|]. cbn. rewrite Nat.sub_diag.
    repeat split; auto. intros j [].
  - rewrite H1 in F3. destruct F3 as (G1 & G2 & G3 & G4 & G5).
    split; [exact F1|]. split; [exact F2|]. cbn [cn xpc set_xpc set_cn fin firsti conn matched pend]. split; [exact G1|]. split; [lia|].
    split; [rewrite G3; replace (S i - fin (cn s)) with (S (i - fin (cn s))) by lia; rewrite seq_S; do 3 f_equal; lia|].
    split.
    + intros X. right. replace (S i - 1) with i by lia. destruct (matched (cn s) i) eqn:E; [reflexivity|lia].
    + intros j Hj. apply in_app_or in Hj. destruct Hj as [Hj|[<-|[]]]; [apply G5; exact Hj|].
      match goal with |- _ < ?t => change t with (tlen s) end.
      destruct (G4 H2) as [-> | Hm]; [apply F2; exact G1|].
      destruct (Nat.eq_dec i (fin (cn s))) as [-> | Hne]; [apply F2; exact G1|].
      assert (xpc (cn s) <> XEnd) as NX by congruence. pose proof (inv4_lt s (i - 1) I3 K NX Hm). lia.
  - rewrite H1 in F3. destruct F3 as (G1 & G2 & G3 & G4 & G5). split; [exact F1|]. split; [exact F2|]. cbn.
    rewrite G3 in H3 |- *. rewrite seq_length in H3. destruct (i - fin (cn s)) as [|m'] eqn:E; [lia|].
    cbn [seq tl]. rewrite seq_length. split; [exact G1|]. split; [reflexivity|].
    change (tlen (set_xpc cloud frame smst s (XConn (seq (S (fin (cn s))) m')))) with (tlen s).
    apply G5. rewrite G3. apply in_seq. lia.
  - rewrite H1 in F3. destruct F3 as (G1 & G2 & G3). cbn [length seq] in *. injection G2 as -> G2.
    destruct (F2 G1) as [X1 X2]. split; [cbn; congruence|].
    split; [intros _; cbn [cn fin conn set_cn]; split; [unfold tlen, half in *; cbn; lia|]|].
    + rewrite X2. rewrite (seq_S (S (fin (cn s))) 0). reflexivity.
    + cbn [cn xpc set_cn fin firsti]. split; [exact G1|]. split; [exact G2|]. unfold tlen, half in *; cbn. lia.
  - split; [exact F1|]. split; [exact F2|exact Logic.I].
Qed.

(** ** crashes *)
Lemma nth_Some_half : forall {A} (T : list A) h i, i < length T -> exists f, nth_error (map Some T ++ h) i = Some (Some f).
Proof.
  intros A T h i H. rewrite nth_error_app1 by (rewrite map_length; exact H).
  destruct (nth_error T i) as [f|] eqn:E; [|apply nth_error_None in E; lia].
  exists f. rewrite nth_error_map, E. reflexivity.
Qed.
Lemma crash_step : forall s o, inv2 s -> inv3 s -> inv4 s -> inv5 s -> inv6 s -> bstep s (Crash o) ->
  o = UB /\ exists i f, mpc (su s) = MBuild (S i) /\ nth_error (frames (sc s)) (idx (su s)) = Some None /\
    spc (sc s) = SPush f.
Proof.
  intros s o I2 I3 K (F1 & F2 & F3) I6 H. destruct (tlen_eq s I3) as (T & T1 & T2 & T3).
  destruct I6 as (_ & _ & _ & _ & _ & I6' & I7' & _).
  destruct I3 as (T' & J1 & J2 & J3 & J4 & J5).
  inversion H; subst; clear H.
  - split; [reflexivity|]. rewrite H1 in J5. destruct J5 as [J5 J6].
    destruct (nth_error (frames (sc s)) (idx (su s))) as [[f|]|] eqn:E;
      [exfalso; eapply H2; reflexivity| |apply nth_error_None in E; lia].
    unfold inv2 in I2. assert (forall F, frames (sc s) <> map Some F) as NF.
    { intros F EF. rewrite EF in E. apply nth_error_map_Some in E. destruct E as (f & ? & _). discriminate. }
    destruct (spc (sc s)) eqn:Es; try (destruct I2 as (F & _ & EF); exfalso; eapply NF; exact EF);
      try (destruct I2 as (t & F & _ & _ & EF); exfalso; eapply NF; exact EF).
    exists i, f. auto.
  - exfalso. rewrite H1 in J5. apply H2. rewrite J5. split; [|lia]. intros X. rewrite X in J5. cbn in J5. lia.
  - exfalso. destruct K as (K1 & K2 & K3 & K4). rewrite H1 in K2. specialize (K2 k).
    destruct K2 as [K2 _]. destruct K2 as [_ K2]; [apply in_or_app; right; left; reflexivity|]. congruence.
  - exfalso. rewrite H1 in F3. destruct (nth_Some_half T (half s) 0) as (f & Ef).
    + rewrite T2. unfold tlen, half. destruct (mpc (su s)); cbn; lia.
    + rewrite <- T1 in Ef. eapply H3; exact Ef.
  - exfalso. rewrite H1 in F3. destruct F3 as (G1 & G2 & G3 & G4 & G5).
    destruct (nth_Some_half T (half s) i) as (f & Ef).
    + rewrite T2. destruct (G4 H2) as [-> | Hm]; [apply F2; exact G1|].
      destruct (Nat.eq_dec i (fin (cn s))) as [-> | Hne]; [apply F2; exact G1|].
      assert (xpc (cn s) <> XEnd) as NX by congruence.
      assert (inv3 s) as I3 by (exists T'; auto).
      pose proof (inv4_lt s (i - 1) I3 K NX Hm). lia.
    + rewrite <- T1 in Ef. eapply H3; exact Ef.
  - exfalso. assert (done (su s) = true) as Hd by auto. rewrite I6' in Hd.
    assert (xpc (cn s) <> XEnd) as NX by congruence.
    assert (inv3 s) as I3 by (exists T'; auto).
    pose proof (inv4_lt s _ I3 K NX H3) as X. unfold tlen in X. lia.
  - exfalso. assert (done (su s) = true) as Hd by auto. rewrite I6' in Hd.
    assert (half s = []) as Hh by (unfold half; destruct (mpc (su s)); congruence).
    rewrite Hh, app_nil_r in T1. rewrite T1 in H2. apply nth_error_map_Some in H2. destruct H2 as (f & ? & _). discriminate.
Qed.

Definition inv (s : st) : Prop := inv1 s /\ inv2 s /\ inv3 s /\ inv4 s /\ inv5 s /\ inv6 s.
Lemma inv_init : inv (init sm_init).
Proof.
  split; [reflexivity|]. split; [exists []; auto|]. split; [exists []; cbn; rewrite Nat.mul_0_r; auto|].
  split; [|split; [|]].
  - split; [constructor|]. split; [|split; [discriminate|discriminate]]. intros k. cbn. split; [tauto|lia].
  - cbn. split; [auto|]. split; [discriminate|exact Logic.I].
  - unfold inv6. cbn. repeat split; try reflexivity; try discriminate; try tauto; try congruence.
    intros [?|?]; discriminate. intros [?|?]; discriminate.
Qed.
Lemma inv_reach : forall r, breach r -> match r with Next s => inv s | Crash o => True end.
Proof.
  intros r H. induction H as [|s r H IH Hs]; [exact inv_init|]. cbn in IH. destruct r as [s'|]; [|exact Logic.I].
  destruct IH as (I1 & I2 & I3 & K & I5 & I6). unfold inv.
  split; [eapply inv1_step; eassumption|]. split; [eapply inv2_step; eassumption|].
  split; [eapply inv3_step; eassumption|]. split; [eapply inv4_step; eassumption|].
  split; [eapply inv5_step; eassumption|]. eapply inv6_step; eassumption.
Qed.

(** ** with the two reads exchanged *)
Definition inv7 (s : st) : Prop :=
  match mpc (su s) with
  | MRetry false => spc (sc s) = SEnd
  | MDone | MJoin | MEnd => spc (sc s) = SEnd /\ too_few fc (length (frames (sc s))) (idx (su s)) = true
  | _ => True
  end.
Lemma inv7_step : swapped = true -> forall s s', inv6 s -> inv7 s -> bstep s (Next s') -> inv7 s'.
Proof.
  intros Sw s s' (I1 & I2 & _ & I4' & I5' & I6' & I7' & _) I7 H. unfold inv7 in *.
  steps H; try congruence; try exact I7;
  repeat match goal with E : mpc (su ?s) = _ |- _ => rewrite E in * end; cbn in *; try exact I7; try exact Logic.I; try tauto;
  try (destruct (mpc (su s)) as [| | | | [|] | | | | | | | |] eqn:Em; auto;
       try (destruct I7; congruence); try congruence; fail).
  - destruct (running (sc s)) eqn:E; [exact Logic.I|]. destruct (spc (sc s)) eqn:Es; try congruence.
    specialize (I2 eq_refl). destruct I4' as [_ I4']. specialize (I4' I2). congruence.
Qed.
Lemma inv7_reach : swapped = true -> forall r, breach r -> match r with Next s => inv7 s | Crash o => True end.
Proof.
  intros Sw r H. induction H as [|s r H IH Hs]; [exact Logic.I|]. cbn in IH. destruct r as [s'|]; [|exact Logic.I].
  pose proof (inv_reach _ H) as (_ & _ & _ & _ & _ & I6). eapply inv7_step; eassumption.
Qed.
End Builder.
