From Coq Require Import ZArith QArith Qabs List Bool Lia Lqa.
From Coq Require Import ZifyBool.
From Verif Require Import Outcome TimeModel TimeSpec TimeProofs GpsModel GpsSpec.
Import ListNotations.
Local Open Scope Z_scope.
Local Open Scope outcome_scope.

(** * Lists *)

Lemma nth_error_last : forall A (l : list A) x, nth_error (l ++ [x]) (length l) = Some x.
Proof. intros. rewrite nth_error_app2 by lia. rewrite Nat.sub_diag. reflexivity. Qed.

Lemma back_snoc : forall A (l : list A) x, back (l ++ [x]) = Some x.
Proof.
  intros. unfold back. rewrite app_length. cbn [length].
  replace (length l + 1 - 1)%nat with (length l) by lia. apply nth_error_last.
Qed.

Lemma increasing_snoc : forall l b x,
  back l = Some b -> increasing l -> elapsed b < elapsed x -> increasing (l ++ [x]).
Proof.
  intros l b x Hb Hinc Hlt i u v Hu Hv.
  assert (Hi : (S i < length (l ++ [x]))%nat) by (eapply nth_error_Some_length; exact Hv).
  rewrite app_length in Hi; cbn [length] in Hi.
  rewrite nth_error_app1 in Hu by lia.
  destruct (Nat.eq_dec (S i) (length l)) as [E|E].
  - rewrite E, nth_error_last in Hv. injection Hv as <-.
    unfold back in Hb. replace (length l - 1)%nat with i in Hb by lia.
    rewrite Hb in Hu. injection Hu as <-. assumption.
  - rewrite nth_error_app1 in Hv by lia. eapply Hinc; eassumption.
Qed.

Lemma increasing_prefix : forall l l', increasing (l ++ l') -> increasing l.
Proof.
  intros l l' H i a b Ha Hb. apply (H i a b).
  - rewrite nth_error_app1; [assumption|eapply nth_error_Some_length; exact Ha].
  - rewrite nth_error_app1; [assumption|eapply nth_error_Some_length; exact Hb].
Qed.

Lemma increasing_last : forall l x b, increasing (l ++ [x]) -> back l = Some b ->
  elapsed b < elapsed x.
Proof.
  intros l x b H Hb. unfold back in Hb.
  pose proof (nth_error_Some_length Hb) as Hl.
  apply (H (length l - 1)%nat b x).
  - rewrite nth_error_app1; assumption.
  - replace (S (length l - 1)) with (length l) by lia. apply nth_error_last.
Qed.

Lemma increasing_lt : forall l, increasing l -> forall j i a b, (i < j)%nat ->
  nth_error l i = Some a -> nth_error l j = Some b -> elapsed a < elapsed b.
Proof.
  intros l H. induction j as [|j IH]; intros i a b Hij Ha Hb; [lia|].
  assert (exists c, nth_error l j = Some c) as [c Hc].
  { destruct (nth_error l j) eqn:E; [eauto|]. apply nth_error_None in E.
    pose proof (nth_error_Some_length Hb). lia. }
  pose proof (H j c b Hc Hb).
  destruct (Nat.eq_dec i j) as [->|Hne].
  - rewrite Ha in Hc. injection Hc as ->. assumption.
  - specialize (IH i a c ltac:(lia) Ha Hc). lia.
Qed.

Lemma increasing_sorted : forall l, increasing l -> time_sorted l.
Proof.
  intros l H i j a b [Hi Ha] [Hj Hb] Hij.
  destruct (Z.eq_dec i j) as [->|Hne].
  - rewrite Ha in Hb. injection Hb as ->. lia.
  - pose proof (increasing_lt l H (Z.to_nat j) (Z.to_nat i) a b ltac:(lia) Ha Hb). lia.
Qed.

Lemma increasing_cons : forall x l, increasing (x :: l) -> increasing l.
Proof. intros x l H i a b Ha Hb. apply (H (S i) a b); assumption. Qed.

Lemma increasing_skipn : forall n l, increasing l -> increasing (skipn n l).
Proof.
  induction n as [|n IH]; intros l H; [assumption|].
  destruct l as [|x l]; [assumption|]. cbn [skipn]. apply IH. eapply increasing_cons, H.
Qed.

Lemma nth_error_skipn_ : forall A n (l : list A) k,
  nth_error (skipn n l) k = nth_error l (n + k).
Proof.
  induction n as [|n IH]; intros [|x l] k; cbn; auto. destruct k; reflexivity.
Qed.

Lemma run_app : forall S I (step : S -> I -> outcome S) l1 l2 s,
  run step s (l1 ++ l2) = (let* s' := run step s l1 in run step s' l2).
Proof.
  induction l1 as [|i l1 IH]; intros l2 s; [reflexivity|].
  cbn [app run]. destruct (step s i); cbn [bind]; auto.
Qed.

(** * Admission *)
Section Admission.
Variable L : Type.
Variable forward : L -> L -> vec3.
Notation nav := (navsat L).

Definition entry (r : L) (m : nav) : gps L :=
  mkGps (n_stamp m) (n_status m =? 0) (forward r (n_lla m)) (n_lla m).
Definition accepted (r : L) (ms : list nav) : gps_state L :=
  mkGS (Some r) (map (entry r) ms)
       (map (fun m => (forward r (n_lla m), n_status m)) ms).

Lemma back_map : forall A B (f : A -> B) l, back (map f l) = option_map f (back l).
Proof. intros. unfold back. rewrite map_length. apply nth_error_map. Qed.

Lemma back_nonempty : forall A (l : list A), l <> [] -> exists x, back l = Some x.
Proof.
  intros A l H. unfold back. destruct (nth_error l (length l - 1)) eqn:E; [eauto|].
  apply nth_error_None in E. destruct l; [congruence|cbn in E; lia].
Qed.

Lemma add_accepted : forall r ms m, ms <> [] ->
  Forall (fun m => rep (n_stamp m)) ms -> rep (n_stamp m) ->
  exists b, back (map n_stamp ms) = Some b /\ rep b /\
    add_gps forward (accepted r ms) m =
      (if elapsed b <? elapsed (n_stamp m) then Ok (accepted r (ms ++ [m])) else Abort).
Proof.
  intros r ms m Hne Hr Hm.
  destruct (back_nonempty _ ms Hne) as [b Hb].
  assert (Rb : rep (n_stamp b)).
  { eapply Forall_forall in Hr; [exact Hr|]. unfold back in Hb. eapply nth_error_In, Hb. }
  exists (n_stamp b). rewrite back_map, Hb. split; [reflexivity|]. split; [assumption|].
  unfold add_gps, accepted; cbn [gs_ref gs_track gs_path].
  rewrite back_map, Hb. cbn [option_map entry g_time].
  destruct (order_spec (n_stamp m) (n_stamp b) Hm Rb) as (_ & _ & G & _).
  destruct (elapsed (n_stamp b) <? elapsed (n_stamp m)) eqn:E.
  - replace (t_gt (n_stamp m) (n_stamp b)) with true by (symmetry; apply G; lia).
    cbn [check bind]. rewrite !map_app. reflexivity.
  - destruct (t_gt (n_stamp m) (n_stamp b)) eqn:T.
    + pose proof (proj1 G eq_refl). lia.
    + reflexivity.
Qed.

Lemma run_accepted : forall r l ms, ms <> [] ->
  Forall (fun m => rep (n_stamp m)) (ms ++ l) -> increasing (map n_stamp ms) ->
  (increasing (map n_stamp (ms ++ l)) /\
     run (add_gps forward) (accepted r ms) l = Ok (accepted r (ms ++ l))) \/
  (~ increasing (map n_stamp (ms ++ l)) /\
     run (add_gps forward) (accepted r ms) l = Abort).
Proof.
  intros r. induction l as [|m l IH]; intros ms Hne Hr Hinc.
  - left. rewrite app_nil_r. split; [assumption|reflexivity].
  - apply Forall_app in Hr as [Hr1 Hr2]. inversion Hr2 as [|? ? Hm Hr3]; subst.
    destruct (add_accepted r ms m Hne Hr1 Hm) as (b & Hb & Rb & Hadd).
    cbn [run]. rewrite Hadd.
    replace (ms ++ m :: l) with ((ms ++ [m]) ++ l) by (rewrite <- app_assoc; reflexivity).
    destruct (elapsed b <? elapsed (n_stamp m)) eqn:E; cbn [bind].
    + apply IH.
      * destruct ms; discriminate.
      * rewrite <- app_assoc. apply Forall_app. split; [assumption|constructor; assumption].
      * rewrite map_app. cbn [map]. eapply increasing_snoc; [exact Hb|assumption|lia].
    + right. split; [|reflexivity]. intros Hbad.
      rewrite map_app in Hbad. apply increasing_prefix in Hbad.
      rewrite map_app in Hbad. cbn [map] in Hbad.
      pose proof (increasing_last _ _ _ Hbad Hb). lia.
Qed.

Lemma split_first_fixed : forall ms : list nav,
  exists pre rest, ms = pre ++ rest /\ Forall (fun m => n_status m <> 0) pre /\
    (rest = [] \/ exists m0 tl, rest = m0 :: tl /\ n_status m0 = 0).
Proof.
  induction ms as [|m ms IH].
  - exists [], []. auto.
  - destruct (Z.eq_dec (n_status m) 0) as [E|E].
    + exists [], (m :: ms). split; [reflexivity|]. split; [constructor|]. right. eauto.
    + destruct IH as (pre & rest & -> & Hp & Hr). exists (m :: pre), rest.
      split; [reflexivity|]. split; [constructor; assumption|assumption].
Qed.

Lemma run_unfixed : forall l, Forall (fun m : nav => n_status m <> 0) l ->
  run (add_gps forward) gps_init l = Ok gps_init.
Proof.
  induction 1 as [|m l Hm _ IH]; [reflexivity|].
  cbn [run]. unfold add_gps at 1. cbn [gs_ref gps_init].
  replace (n_status m =? 0) with false by lia. cbn [bind]. exact IH.
Qed.

Lemma gps_admission : forall ms : list nav, Forall (fun m => rep (n_stamp m)) ms ->
  exists pre rest, ms = pre ++ rest /\ Forall (fun m => n_status m <> 0) pre /\
    match rest with
    | [] => run (add_gps forward) gps_init ms = Ok gps_init
    | first :: _ => n_status first = 0 /\
      ((increasing (map n_stamp rest) /\
        run (add_gps forward) gps_init ms = Ok (accepted (n_lla first) rest)) \/
       (~ increasing (map n_stamp rest) /\
        run (add_gps forward) gps_init ms = Abort))
    end.
Proof.
  intros ms Hr. destruct (split_first_fixed ms) as (pre & rest & -> & Hp & Hrest).
  exists pre, rest. split; [reflexivity|]. split; [assumption|].
  destruct Hrest as [->|(m0 & tl & -> & H0)].
  - rewrite app_nil_r. apply run_unfixed, Hp.
  - split; [assumption|]. rewrite run_app, run_unfixed by assumption. cbn [bind run].
    unfold add_gps at 1 3. cbn [gs_ref gps_init gs_track gs_path app].
    replace (n_status m0 =? 0) with true by lia.
    change (back (@nil (gps L))) with (@None (gps L)). cbn [bind].
    apply Forall_app in Hr as [_ Hr].
    assert (E : mkGS (Some (n_lla m0))
                  [mkGps (n_stamp m0) true (forward (n_lla m0) (n_lla m0)) (n_lla m0)]
                  [(forward (n_lla m0) (n_lla m0), n_status m0)]
                = accepted (n_lla m0) [m0]).
    { unfold accepted, entry; cbn [map]. replace (n_status m0 =? 0) with true by lia.
      reflexivity. }
    cbn [g_enu]. rewrite E.
    apply (run_accepted (n_lla m0) tl [m0]); [discriminate|assumption|].
    intros [|i] a b Ha Hb; [discriminate Hb|]. destruct i; discriminate Ha.
Qed.

End Admission.

(** * Interpolation *)

Lemma to_sec_elapsed : forall t, (to_sec t == elapsed t # 1000000000)%Q.
Proof.
  intros t. unfold to_sec, elapsed. unfold Qeq, Qplus; cbn [Qnum Qden].
  change (10 ^ 9) with 1000000000. lia.
Qed.

Lemma Qle_bool_comp : forall a b c d, (a == c)%Q -> (b == d)%Q ->
  Qle_bool a b = Qle_bool c d.
Proof.
  intros a b c d H1 H2. apply eq_true_iff_eq. rewrite !Qle_bool_iff, H1, H2. reflexivity.
Qed.

Lemma Qle_bool_Z : forall a b (p q : positive),
  Qle_bool (a # p) (b # q) = (a * Z.pos q <=? b * Z.pos p).
Proof. reflexivity. Qed.

Lemma Qltb_gap : forall t k, Qltb (k # 1000000000) (to_sec t) = (k <? elapsed t).
Proof.
  intros t k. unfold Qltb.
  rewrite (Qle_bool_comp _ _ (elapsed t # 1000000000) (k # 1000000000))
    by (try apply to_sec_elapsed; reflexivity).
  rewrite Qle_bool_Z. lia.
Qed.

Lemma at_nth : forall A (l : list A) n x, nth_error l n = Some x -> at_ l (Z.of_nat n) = Ok x.
Proof.
  intros A l n x H. unfold at_. replace (Z.of_nat n <? 0) with false by lia.
  rewrite Nat2Z.id, H. reflexivity.
Qed.

Lemma nth_ex : forall A (l : list A) n, (n < length l)%nat -> exists x, nth_error l n = Some x.
Proof.
  intros A l n H. destruct (nth_error l n) eqn:E; [eauto|].
  apply nth_error_None in E. lia.
Qed.

Lemma back_nth : forall A (l : list A) x, back l = Some x -> nth_error l (length l - 1) = Some x.
Proof. auto. Qed.

Section Bracket.
Variable A : Type.
Variable stamp : A -> time.

Lemma bracket_search : forall (track : list A) t i a b,
  Forall (fun x => rep (stamp x)) track -> rep t -> increasing (map stamp track) ->
  bracket stamp track t i a b ->
  binary_search (map stamp track) t = Some (Ok (Z.of_nat i, Z.of_nat i + 1)).
Proof.
  intros track t i a b Hr Ht Hinc (Ha & Hb & Hat & Htb).
  pose proof (nth_error_Some_length Hb) as Hlen.
  destruct (binary_search_spec (map stamp track) t) as (j & Hj & J0 & J1 & C & D).
  - rewrite map_length; lia.
  - rewrite Forall_map. assumption.
  - assumption.
  - apply increasing_sorted; assumption.
  - rewrite map_length in *.
    assert (Hma : nth_error (map stamp track) i = Some (stamp a)) by (rewrite nth_error_map, Ha; reflexivity).
    assert (Hmb : nth_error (map stamp track) (S i) = Some (stamp b)) by (rewrite nth_error_map, Hb; reflexivity).
    assert (j = Z.of_nat i); [|subst j; assumption].
    destruct (Z.lt_trichotomy j (Z.of_nat i)) as [Hlt|[E|Hgt]]; [|assumption|].
    + exfalso. specialize (D (Z.of_nat i) (stamp a)).
      assert (elapsed t < elapsed (stamp a)).
      { apply D; [|lia]. split; [lia|]. rewrite Nat2Z.id. assumption. }
      lia.
    + exfalso.
      assert (Hk : exists c, nth_error (map stamp track) (Z.to_nat j) = Some c)
        by (apply nth_ex; rewrite map_length; lia).
      destruct Hk as [c Hc].
      assert (elapsed c <= elapsed t) by (apply (C j c); [split; [lia|assumption]|lia]).
      destruct (Nat.eq_dec (Z.to_nat j) (S i)) as [E|E].
      * rewrite E, Hmb in Hc. injection Hc as <-. lia.
      * pose proof (increasing_lt _ Hinc (Z.to_nat j) (S i) (stamp b) c ltac:(lia) Hmb Hc). lia.
Qed.

Lemma bracket_exists : forall (track : list A) t f l,
  Forall (fun x => rep (stamp x)) track -> rep t -> increasing (map stamp track) ->
  (2 <= length track)%nat ->
  nth_error track 0 = Some f -> back track = Some l ->
  elapsed (stamp f) <= elapsed t <= elapsed (stamp l) ->
  exists i a b, bracket stamp track t i a b.
Proof.
  intros track t f l Hr Ht Hinc Hlen Hf Hl Hb.
  destruct (binary_search_spec (map stamp track) t) as (j & Hj & J0 & J1 & C & D).
  - rewrite map_length; lia.
  - rewrite Forall_map. assumption.
  - assumption.
  - apply increasing_sorted; assumption.
  - rewrite map_length in *.
    destruct (nth_ex _ track (Z.to_nat j)) as [a Ha]; [lia|].
    destruct (nth_ex _ track (S (Z.to_nat j))) as [b Hbb]; [lia|].
    exists (Z.to_nat j), a, b. split; [assumption|]. split; [assumption|].
    assert (Hs : forall k x, nth_error track k = Some x -> sample (map stamp track) (Z.of_nat k) (stamp x)).
    { intros k x Hx. split; [lia|]. rewrite Nat2Z.id, nth_error_map, Hx. reflexivity. }
    split.
    + destruct (Z.eq_dec j 0) as [->|Hj0].
      * change (Z.to_nat 0) with 0%nat in Ha. rewrite Hf in Ha. injection Ha as <-. lia.
      * apply (C j). { replace j with (Z.of_nat (Z.to_nat j)) by lia. apply Hs, Ha. } lia.
    + destruct (Nat.eq_dec (S (S (Z.to_nat j))) (length track)) as [E|E].
      * unfold back in Hl. replace (length track - 1)%nat with (S (Z.to_nat j)) in Hl by lia.
        rewrite Hbb in Hl. injection Hl as ->. lia.
      * left. apply (D (j + 1)); [|lia].
        replace (j + 1) with (Z.of_nat (S (Z.to_nat j))) by lia. apply Hs, Hbb.
Qed.

(** The bracket survives dropping the samples before it, and every bracket of a later
    query lies at or after it. *)
Lemma bracket_skipn : forall (track : list A) t n i a b,
  bracket stamp track t i a b -> (n <= i)%nat ->
  bracket stamp (skipn n track) t (i - n) a b.
Proof.
  intros track t n i a b (Ha & Hb & H1 & H2) Hn.
  pose proof (nth_error_Some_length Hb) as Hlen.
  assert (Hsk : forall k, nth_error (skipn n track) k = nth_error track (n + k)).
  { intros k. rewrite <- (firstn_skipn n track) at 2.
    rewrite nth_error_app2; rewrite firstn_length_le by lia; [|lia].
    f_equal; lia. }
  split; [rewrite Hsk; replace (n + (i - n))%nat with i by lia; assumption|].
  split; [rewrite Hsk; replace (n + S (i - n))%nat with (S i) by lia; assumption|].
  split; [assumption|]. destruct H2 as [H2|[H2 H3]]; [left; assumption|right].
  rewrite skipn_length. split; [lia|assumption].
Qed.

Lemma bracket_mono : forall (track : list A) t t' i j a b c d,
  increasing (map stamp track) ->
  bracket stamp track t i a b -> bracket stamp track t' j c d ->
  elapsed t <= elapsed t' -> (i <= j)%nat.
Proof.
  intros track t t' i j a b c d Hinc (Ha & Hb & H1 & H2) (Hc & Hd & H3 & H4) Htt.
  destruct (Nat.le_gt_cases i j) as [H|H]; [assumption|exfalso].
  assert (Hm : forall k x, nth_error track k = Some x -> nth_error (map stamp track) k = Some (stamp x))
    by (intros k x Hx; rewrite nth_error_map, Hx; reflexivity).
  pose proof (nth_error_Some_length Hb) as Hlen.
  assert (elapsed (stamp d) <= elapsed (stamp a)).
  { destruct (Nat.eq_dec (S j) i) as [E|E].
    - subst i. rewrite Hd in Ha. injection Ha as ->. lia.
    - pose proof (increasing_lt _ Hinc i (S j) (stamp d) (stamp a) ltac:(lia) (Hm _ _ Hd) (Hm _ _ Ha)). lia. }
  destruct H4 as [H4|[H4 _]]; lia.
Qed.

End Bracket.

Lemma factor_bounds : forall x d, 0 < d -> 0 <= x <= d ->
  Qle_bool 0 ((x # 1000000000) / (d # 1000000000)) = true /\
  Qle_bool ((x # 1000000000) / (d # 1000000000)) 1 = true.
Proof.
  intros x d Hd Hx. rewrite !Qle_bool_iff.
  assert (Hq : (0 < d # 1000000000)%Q) by (unfold Qlt; cbn; lia).
  split.
  - apply Qle_shift_div_l; [assumption|]. rewrite Qmult_0_l. unfold Qle; cbn; lia.
  - apply Qle_shift_div_r; [assumption|]. rewrite Qmult_1_l. unfold Qle; cbn; lia.
Qed.

Lemma lerp_segment : forall a b f ta tb t,
  ta < tb -> ta <= t <= tb ->
  (f == (t - ta # 1000000000) / (tb - ta # 1000000000))%Q ->
  linear_between a b (a + f * (b - a)) ta tb t /\ between a b (a + f * (b - a)).
Proof.
  intros a b f ta tb t Hlt Ht Hf.
  assert (Hf' : (f * inject_Z (tb - ta) == inject_Z (t - ta))%Q).
  { rewrite Hf. unfold Qdiv.
    assert (E1 : (t - ta # 1000000000 == inject_Z (t - ta) * (1 # 1000000000))%Q)
      by (unfold Qeq, Qmult, inject_Z; cbn [Qnum Qden]; lia).
    assert (E2 : (tb - ta # 1000000000 == inject_Z (tb - ta) * (1 # 1000000000))%Q)
      by (unfold Qeq, Qmult, inject_Z; cbn [Qnum Qden]; lia).
    rewrite E1, E2. field. unfold Qeq, inject_Z; cbn; lia. }
  assert (H0 : (0 <= f)%Q).
  { rewrite Hf. apply Qle_bool_iff, (proj1 (factor_bounds (t - ta) (tb - ta) ltac:(lia) ltac:(lia))). }
  assert (H1 : (f <= 1)%Q).
  { rewrite Hf. apply Qle_bool_iff, (proj2 (factor_bounds (t - ta) (tb - ta) ltac:(lia) ltac:(lia))). }
  split.
  - unfold linear_between. rewrite <- Hf'. ring.
  - unfold between. destruct (Qlt_le_dec a b) as [Hab|Hab]; [left|right]; split; nra.
Qed.

Section Interp.
Variable L : Type.
Notation gps := (gps L).

Definition gap (a b : gps) : Z := elapsed (g_time b) - elapsed (g_time a).

Lemma Forall_nth : forall A (P : A -> Prop) l n x, Forall P l -> nth_error l n = Some x -> P x.
Proof. intros A P l n x H Hn. eapply Forall_forall in H; [exact H|]. eapply nth_error_In, Hn. Qed.

Lemma interpolate_inside : forall (track : list gps) t thr (trim : bool) i a b,
  (thr <= 1 # 2)%Q ->
  Forall (fun x => normal (g_time x)) track -> normal t ->
  increasing (map g_time track) ->
  bracket g_time track t i a b ->
  let track' := if trim then skipn i track else track in
  (gap a b <= 1000 -> interpolate_gps track t thr trim = Some Abort) /\
  (1000 < gap a b -> (200000000 < gap a b \/ g_fixed a = false \/ g_fixed b = false) ->
     interpolate_gps track t thr trim = Some (Ok (None, track'))) /\
  (1000 < gap a b <= 200000000 -> g_fixed a = true -> g_fixed b = true ->
     exists v, interpolate_gps track t thr trim = Some (Ok (Some v, track')) /\
       on_segment (g_enu a) (g_enu b) v
         (elapsed (g_time a)) (elapsed (g_time b)) (elapsed t)).
Proof.
  intros track t thr trim i a b Hthr Hn Ht Hinc Hbr track'.
  assert (Hr : Forall (fun x => rep (g_time x)) track).
  { eapply Forall_impl; [|exact Hn]. intros x; apply normal_rep. }
  pose proof (bracket_search _ g_time track t i a b Hr (normal_rep _ Ht) Hinc Hbr) as Hs.
  destruct Hbr as (Ha & Hb & Hat & Htb).
  pose proof (nth_error_Some_length Hb) as Hlen.
  pose proof (Forall_nth _ _ _ _ _ Hn Ha) as Na. pose proof (Forall_nth _ _ _ _ _ Hn Hb) as Nb.
  cbn beta in Na, Nb.
  assert (Hab : elapsed (g_time a) < elapsed (g_time b)).
  { apply (Hinc i); rewrite nth_error_map; [rewrite Ha|rewrite Hb]; reflexivity. }
  assert (Htb' : elapsed t <= elapsed (g_time b)) by lia.
  destruct track as [|g0 [|g1 tl]]; [cbn in Hlen; lia|cbn in Hlen; lia|].
  set (track := g0 :: g1 :: tl) in *.
  destruct (back_nonempty _ track) as [lst Hl]; [discriminate|].
  assert (Hm : forall k x, nth_error track k = Some x -> nth_error (map g_time track) k = Some (g_time x))
    by (intros k x Hx; rewrite nth_error_map, Hx; reflexivity).
  assert (H0 : elapsed (g_time g0) <= elapsed (g_time a)).
  { destruct i as [|i']; [cbn in Ha; injection Ha as <-; lia|].
    pose proof (increasing_lt _ Hinc (S i') 0 (g_time g0) (g_time a) ltac:(lia) eq_refl (Hm _ _ Ha)). lia. }
  assert (Hbl : elapsed (g_time b) <= elapsed (g_time lst)).
  { unfold back in Hl. destruct (Nat.eq_dec (S i) (length track - 1)) as [E|E].
    - rewrite <- E, Hb in Hl. injection Hl as <-. lia.
    - pose proof (increasing_lt _ Hinc (length track - 1) (S i) (g_time b) (g_time lst) ltac:(lia) (Hm _ _ Hb) (Hm _ _ Hl)). lia. }
  assert (Ng0 : rep (g_time g0)) by (inversion Hr; assumption).
  assert (Nl : rep (g_time lst)) by (apply (Forall_nth _ _ _ _ _ Hr Hl)).
  pose proof (normal_rep _ Ht) as Rt. pose proof (normal_rep _ Na) as Ra. pose proof (normal_rep _ Nb) as Rb.
  assert (Hout : t_lt t (g_time g0) || t_gt t (g_time lst) = false).
  { destruct (order_spec t (g_time g0) Rt Ng0) as (O1 & _).
    destruct (order_spec t (g_time lst) Rt Nl) as (_ & _ & O2 & _).
    apply orb_false_iff. split; apply not_true_iff_false; intros X; [apply O1 in X|apply O2 in X]; lia. }
  assert (Hck : t_ge t (g_time a) && t_le t (g_time b) = true).
  { destruct (order_spec t (g_time a) Rt Ra) as (_ & _ & _ & O1).
    destruct (order_spec t (g_time b) Rt Rb) as (_ & O2 & _).
    apply andb_true_iff. split; [apply O1|apply O2]; lia. }
  destruct (t_sub_spec (g_time b) (g_time a) Rb Ra) as (dt & Hdt & Ndt & Edt).
  destruct (t_sub_spec t (g_time a) Rt Ra) as (ft & Hft & Nft & Eft).
  pose proof (normal_elapsed _ Nb). pose proof (normal_elapsed _ Na). pose proof (normal_elapsed _ Ht).
  rewrite Z.mod_small in Edt by lia. rewrite Z.mod_small in Eft by lia.
  assert (Eq : interpolate_gps track t thr trim = Some (
        let* _ := check (Qltb (1 # 1000000) (to_sec dt)) in
        if Qltb (1 # 5) (to_sec dt) || negb (g_fixed a) || negb (g_fixed b)
        then Ok (None, track')
        else
          let factor := (to_sec ft / to_sec dt)%Q in
          let* _ := check (Qle_bool 0 factor && Qle_bool factor 1) in
          let delta := vscale factor (vsub (g_enu b) (g_enu a)) in
          Ok (Some (vadd (g_enu a) delta), track'))).
  { unfold interpolate_gps at 1. unfold track at 1. fold track.
    replace (Qle_bool thr (1 # 2)) with true by (symmetry; apply Qle_bool_iff; assumption).
    cbn [negb]. rewrite Hl, Hout, Hs. cbn [bind fst snd].
    rewrite (at_nth _ _ _ _ Ha).
    replace (Z.of_nat i + 1) with (Z.of_nat (S i)) by lia.
    rewrite (at_nth _ _ _ _ Hb). cbn [bind]. rewrite Hck. cbn [check bind].
    rewrite Hdt, Hft. cbn [bind]. rewrite Nat2Z.id. reflexivity. }
  rewrite Eq.
  assert (G1 : Qltb (1 # 1000000) (to_sec dt) = (1000 <? gap a b)).
  { transitivity (Qltb (1000 # 1000000000) (to_sec dt)).
    - unfold Qltb. f_equal. apply Qle_bool_comp; [reflexivity|]. unfold Qeq; cbn; lia.
    - rewrite Qltb_gap. f_equal. unfold gap. lia. }
  assert (G2 : Qltb (1 # 5) (to_sec dt) = (200000000 <? gap a b)).
  { transitivity (Qltb (200000000 # 1000000000) (to_sec dt)).
    - unfold Qltb. f_equal. apply Qle_bool_comp; [reflexivity|]. unfold Qeq; cbn; lia.
    - rewrite Qltb_gap. f_equal. unfold gap. lia. }
  rewrite G1, G2. clear Eq. split; [|split].
  - intros Hg. replace (1000 <? gap a b) with false by lia. reflexivity.
  - intros Hg Hc. replace (1000 <? gap a b) with true by lia. cbn [check bind].
    replace ((200000000 <? gap a b) || negb (g_fixed a) || negb (g_fixed b)) with true; [reflexivity|].
    destruct Hc as [Hc|[Hc|Hc]].
    + replace (200000000 <? gap a b) with true by lia. reflexivity.
    + rewrite Hc. cbn. rewrite orb_true_r. reflexivity.
    + rewrite Hc. cbn. rewrite !orb_true_r. reflexivity.
  - intros Hg Fa Fb. replace (1000 <? gap a b) with true by lia. cbn [check bind].
    replace (200000000 <? gap a b) with false by lia. rewrite Fa, Fb. cbn [negb orb].
    set (factor := (to_sec ft / to_sec dt)%Q).
    assert (Ef : (factor == (elapsed t - elapsed (g_time a) # 1000000000) /
                  (elapsed (g_time b) - elapsed (g_time a) # 1000000000))%Q).
    { unfold factor. rewrite !to_sec_elapsed.
      replace (elapsed ft) with (elapsed t - elapsed (g_time a)) by lia.
      replace (elapsed dt) with (elapsed (g_time b) - elapsed (g_time a)) by lia.
      reflexivity. }
    destruct (factor_bounds (elapsed t - elapsed (g_time a)) (elapsed (g_time b) - elapsed (g_time a))) as [B1 B2]; [lia|lia|].
    rewrite (Qle_bool_comp 0 factor _ _ (Qeq_refl 0) Ef), B1.
    rewrite (Qle_bool_comp factor 1 _ _ Ef (Qeq_refl 1)), B2. cbn [andb check bind].
    eexists. split; [reflexivity|].
    unfold on_segment, vadd, vscale, vsub; cbn [vx vy vz].
    destruct (lerp_segment (vx (g_enu a)) (vx (g_enu b)) factor _ _ (elapsed t) Hab ltac:(lia) Ef).
    destruct (lerp_segment (vy (g_enu a)) (vy (g_enu b)) factor _ _ (elapsed t) Hab ltac:(lia) Ef).
    destruct (lerp_segment (vz (g_enu a)) (vz (g_enu b)) factor _ _ (elapsed t) Hab ltac:(lia) Ef).
    repeat split; assumption.
Qed.

Lemma interpolate_outside : forall (track : list gps) t thr trim f l,
  (thr <= 1 # 2)%Q -> (2 <= length track)%nat ->
  Forall (fun x => rep (g_time x)) track -> rep t ->
  nth_error track 0 = Some f -> back track = Some l ->
  elapsed t < elapsed (g_time f) \/ elapsed (g_time l) < elapsed t ->
  interpolate_gps track t thr trim = Some (Ok (None, track)).
Proof.
  intros track t thr trim f l Hthr Hlen Hr Rt Hf Hl Hout.
  pose proof (Forall_nth _ _ _ _ _ Hr Hf) as Rf. pose proof (Forall_nth _ _ _ _ _ Hr Hl) as Rl.
  cbn beta in Rf, Rl.
  destruct track as [|g0 [|g1 tl]]; [cbn in Hlen; lia|cbn in Hlen; lia|].
  cbn in Hf. injection Hf as ->.
  unfold interpolate_gps.
  replace (Qle_bool thr (1 # 2)) with true by (symmetry; apply Qle_bool_iff; assumption).
  cbn [negb]. rewrite Hl.
  replace (t_lt t (g_time f) || t_gt t (g_time l)) with true; [reflexivity|].
  destruct (order_spec t (g_time f) Rt Rf) as (O1 & _).
  destruct (order_spec t (g_time l) Rt Rl) as (_ & _ & O2 & _).
  symmetry. apply orb_true_iff. destruct Hout; [left; apply O1|right; apply O2]; lia.
Qed.

Lemma interpolate_short : forall t thr trim,
  (thr <= 1 # 2)%Q ->
  interpolate_gps (@nil gps) t thr trim = Some (Ok (None, [])) /\
  (forall g : gps, exists r,
     interpolate_gps [g] t thr trim = Some (Ok (r, [g])) /\
     (r = None \/ r = Some (g_enu g)) /\
     (r = Some (g_enu g) <-> g_fixed g = true /\
        (Z.abs (elapsed t - elapsed (g_time g)) # 1000000000 <= thr)%Q)).
Proof.
  intros t thr trim Hthr. unfold interpolate_gps.
  replace (Qle_bool thr (1 # 2)) with true by (symmetry; apply Qle_bool_iff; assumption).
  cbn [negb]. split; [reflexivity|]. intros g.
  assert (E : (Qabs (to_sec t - to_sec (g_time g)) == Z.abs (elapsed t - elapsed (g_time g)) # 1000000000)%Q).
  { rewrite !to_sec_elapsed. unfold Qminus, Qplus, Qopp, Qabs, Qeq; cbn [Qnum Qden]. lia. }
  destruct (Qle_bool _ thr && g_fixed g) eqn:C.
  - exists (Some (g_enu g)). split; [reflexivity|]. split; [auto|].
    apply andb_true_iff in C as [C1 C2]. apply Qle_bool_iff in C1. rewrite E in C1. tauto.
  - exists None. split; [reflexivity|]. split; [auto|]. split; [discriminate|].
    intros [H1 H2]. rewrite <- E in H2. apply Qle_bool_iff in H2. rewrite H1, H2 in C. discriminate.
Qed.

Lemma bracket_fun : forall A stamp (track : list A) t i j a b c d,
  increasing (map stamp track) ->
  bracket stamp track t i a b -> bracket stamp track t j c d -> i = j /\ a = c /\ b = d.
Proof.
  intros A stamp track t i j a b c d Hinc H1 H2.
  pose proof (bracket_mono _ stamp _ _ _ _ _ _ _ _ _ Hinc H1 H2 (Z.le_refl _)).
  pose proof (bracket_mono _ stamp _ _ _ _ _ _ _ _ _ Hinc H2 H1 (Z.le_refl _)).
  assert (i = j) by lia. subst j.
  destruct H1 as (? & ? & _), H2 as (? & ? & _). split; [reflexivity|]. split; congruence.
Qed.

Lemma interpolate_sound : forall (track track' : list gps) t thr trim v,
  (thr <= 1 # 2)%Q -> (2 <= length track)%nat ->
  Forall (fun x => normal (g_time x)) track -> normal t ->
  increasing (map g_time track) ->
  interpolate_gps track t thr trim = Some (Ok (Some v, track')) ->
  exists i a b, bracket g_time track t i a b /\
    g_fixed a = true /\ g_fixed b = true /\ 1000 < gap a b <= 200000000 /\
    on_segment (g_enu a) (g_enu b) v
      (elapsed (g_time a)) (elapsed (g_time b)) (elapsed t).
Proof.
  intros track track' t thr trim v Hthr Hlen Hn Ht Hinc Hres.
  assert (Hr : Forall (fun x => rep (g_time x)) track).
  { eapply Forall_impl; [|exact Hn]. intros x; apply normal_rep. }
  destruct (nth_ex _ track 0) as [f Hf]; [lia|].
  destruct (back_nonempty _ track) as [l Hl]; [destruct track; [cbn in Hlen; lia|discriminate]|].
  destruct (Z_lt_le_dec (elapsed t) (elapsed (g_time f))) as [H1|H1].
  { rewrite (interpolate_outside track t thr trim f l) in Hres; auto using normal_rep. discriminate. }
  destruct (Z_lt_le_dec (elapsed (g_time l)) (elapsed t)) as [H2|H2].
  { rewrite (interpolate_outside track t thr trim f l) in Hres; auto using normal_rep. discriminate. }
  destruct (bracket_exists _ g_time track t f l Hr (normal_rep _ Ht) Hinc Hlen Hf Hl (conj H1 H2))
    as (i & a & b & Hbr).
  exists i, a, b. split; [assumption|].
  destruct (interpolate_inside track t thr trim i a b Hthr Hn Ht Hinc Hbr) as (C1 & C2 & C3).
  destruct (Z_le_gt_dec (gap a b) 1000) as [G|G].
  { rewrite C1 in Hres by assumption. discriminate. }
  destruct (Z_lt_le_dec 200000000 (gap a b)) as [G2|G2].
  { rewrite C2 in Hres; [discriminate|lia|auto]. }
  destruct (g_fixed a) eqn:Fa; [|rewrite C2 in Hres; [discriminate|lia|auto]].
  destruct (g_fixed b) eqn:Fb; [|rewrite C2 in Hres; [discriminate|lia|auto]].
  destruct (C3 ltac:(lia) eq_refl eq_refl) as (w & Hw & Hseg).
  rewrite Hw in Hres. injection Hres as -> _.
  repeat (split; [first [reflexivity|lia]|]). assumption.
Qed.

Lemma interpolate_safe : forall (track : list gps) t thr trim,
  (thr <= 1 # 2)%Q ->
  Forall (fun x => normal (g_time x)) track -> normal t ->
  (forall i a b, nth_error track i = Some a -> nth_error track (S i) = Some b -> 1000 < gap a b) ->
  exists r track', interpolate_gps track t thr trim = Some (Ok (r, track')).
Proof.
  intros track t thr trim Hthr Hn Ht Hgap.
  assert (Hinc : increasing (map g_time track)).
  { intros i x y Hx Hy. rewrite nth_error_map in Hx, Hy.
    destruct (nth_error track i) as [a|] eqn:Ha; [|discriminate].
    destruct (nth_error track (S i)) as [b|] eqn:Hb; [|discriminate].
    injection Hx as <-. injection Hy as <-.
    specialize (Hgap i a b Ha Hb). unfold gap in Hgap. lia. }
  assert (Hr : Forall (fun x => rep (g_time x)) track).
  { eapply Forall_impl; [|exact Hn]. intros x; apply normal_rep. }
  destruct (interpolate_short t thr trim Hthr) as [S0 S1].
  destruct track as [|g0 [|g1 tl]]; [eauto|destruct (S1 g0) as (r & -> & _); eauto|].
  set (track := g0 :: g1 :: tl) in *.
  destruct (back_nonempty _ track) as [l Hl]; [discriminate|].
  destruct (Z_lt_le_dec (elapsed t) (elapsed (g_time g0))) as [H1|H1].
  { rewrite (interpolate_outside track t thr trim g0 l); auto using normal_rep; [eauto|cbn; lia]. }
  destruct (Z_lt_le_dec (elapsed (g_time l)) (elapsed t)) as [H2|H2].
  { rewrite (interpolate_outside track t thr trim g0 l); auto using normal_rep; [eauto|cbn; lia]. }
  destruct (bracket_exists _ g_time track t g0 l Hr (normal_rep _ Ht) Hinc) as (i & a & b & Hbr);
    [cbn; lia|reflexivity|assumption|lia|].
  destruct (interpolate_inside track t thr trim i a b Hthr Hn Ht Hinc Hbr) as (_ & C2 & C3).
  assert (1000 < gap a b) by (apply (Hgap i); apply Hbr).
  destruct (Z_lt_le_dec 200000000 (gap a b)) as [G2|G2]; [rewrite C2 by auto; eauto|].
  destruct (g_fixed a) eqn:Fa; [|rewrite C2 by auto; eauto].
  destruct (g_fixed b) eqn:Fb; [|rewrite C2 by auto; eauto].
  destruct (C3 ltac:(lia) eq_refl eq_refl) as (w & -> & _). eauto.
Qed.

(** Trimming inside InterpolateGps never changes the answer of a later query. *)
Lemma skipn_back : forall A n (l : list A), (n < length l)%nat -> back (skipn n l) = back l.
Proof.
  intros A n l H. unfold back. rewrite skipn_length, nth_error_skipn_. f_equal; lia.
Qed.

Lemma interpolate_trim_later : forall (track track' : list gps) t t' thr thr' r,
  (thr <= 1 # 2)%Q -> (thr' <= 1 # 2)%Q -> (2 <= length track)%nat ->
  Forall (fun x => normal (g_time x)) track -> normal t -> normal t' ->
  increasing (map g_time track) -> elapsed t <= elapsed t' ->
  interpolate_gps track t thr true = Some (Ok (r, track')) ->
  (2 <= length track')%nat /\ increasing (map g_time track') /\
  (exists dropped, track = dropped ++ track' /\
     Forall (fun x => elapsed (g_time x) < elapsed t) dropped) /\
  option_map (fun o => let* p := o in Ok (fst p)) (interpolate_gps track' t' thr' false) =
  option_map (fun o => let* p := o in Ok (fst p)) (interpolate_gps track t' thr' false).
Proof.
  intros track track' t t' thr thr' r Hthr Hthr' Hlen Hn Ht Ht' Hinc Htt Hres.
  assert (Hr : Forall (fun x => rep (g_time x)) track).
  { eapply Forall_impl; [|exact Hn]. intros x; apply normal_rep. }
  destruct (nth_ex _ track 0) as [f Hf]; [lia|].
  destruct (back_nonempty _ track) as [l Hl]; [destruct track; [cbn in Hlen; lia|discriminate]|].
  assert (Hsame : track' = track -> (2 <= length track')%nat /\ increasing (map g_time track') /\
    (exists dropped, track = dropped ++ track' /\
      Forall (fun x => elapsed (g_time x) < elapsed t) dropped) /\
    option_map (fun o => let* p := o in Ok (fst p)) (interpolate_gps track' t' thr' false) =
    option_map (fun o => let* p := o in Ok (fst p)) (interpolate_gps track t' thr' false)).
  { intros ->. split; [assumption|]. split; [assumption|]. split; [|reflexivity].
    exists []. split; [reflexivity|constructor]. }
  destruct (Z_lt_le_dec (elapsed t) (elapsed (g_time f))) as [H1|H1].
  { rewrite (interpolate_outside track t thr true f l) in Hres; auto using normal_rep.
    injection Hres as _ <-. apply Hsame; reflexivity. }
  destruct (Z_lt_le_dec (elapsed (g_time l)) (elapsed t)) as [H2|H2].
  { rewrite (interpolate_outside track t thr true f l) in Hres; auto using normal_rep.
    injection Hres as _ <-. apply Hsame; reflexivity. }
  clear Hsame.
  destruct (bracket_exists _ g_time track t f l Hr (normal_rep _ Ht) Hinc Hlen Hf Hl (conj H1 H2))
    as (i & a & b & Hbr).
  assert (Htr : track' = skipn i track).
  { destruct (interpolate_inside track t thr true i a b Hthr Hn Ht Hinc Hbr) as (C1 & C2 & C3).
    destruct (Z_le_gt_dec (gap a b) 1000) as [G|G].
    { rewrite C1 in Hres by assumption. discriminate. }
    destruct (Z_lt_le_dec 200000000 (gap a b)) as [G2|G2].
    { rewrite C2 in Hres; [injection Hres as _ <-; reflexivity|lia|auto]. }
    destruct (g_fixed a) eqn:Fa;
      [|rewrite C2 in Hres; [injection Hres as _ <-; reflexivity|lia|auto]].
    destruct (g_fixed b) eqn:Fb;
      [|rewrite C2 in Hres; [injection Hres as _ <-; reflexivity|lia|auto]].
    destruct (C3 ltac:(lia) eq_refl eq_refl) as (w & Hw & Hseg).
    rewrite Hw in Hres. injection Hres as _ <-. reflexivity. }
  subst track'. clear Hres.
  pose proof Hbr as (Ha & Hb & Hat & Htb).
  pose proof (nth_error_Some_length Hb) as Hlen2.
  assert (Hl2 : (2 <= length (skipn i track))%nat) by (rewrite skipn_length; lia).
  assert (Hinc2 : increasing (map g_time (skipn i track))).
  { rewrite <- skipn_map. apply increasing_skipn, Hinc. }
  split; [assumption|]. split; [assumption|].
  assert (Hm : forall k x, nth_error track k = Some x -> nth_error (map g_time track) k = Some (g_time x))
    by (intros k x Hx; rewrite nth_error_map, Hx; reflexivity).
  split.
  { exists (firstn i track). split; [symmetry; apply firstn_skipn|].
    apply Forall_forall. intros x Hx. apply In_nth_error in Hx as [k Hk].
    pose proof (nth_error_Some_length Hk) as Hki. rewrite firstn_length_le in Hki by lia.
    assert (Hk' : nth_error track k = Some x).
    { rewrite <- (firstn_skipn i track). rewrite nth_error_app1 by (rewrite firstn_length_le; lia). assumption. }
    pose proof (increasing_lt _ Hinc i k (g_time x) (g_time a) Hki (Hm _ _ Hk') (Hm _ _ Ha)). lia. }
  assert (Hn2 : Forall (fun x => normal (g_time x)) (skipn i track)).
  { rewrite <- (firstn_skipn i track) in Hn. apply Forall_app in Hn. apply Hn. }
  assert (Hr2 : Forall (fun x => rep (g_time x)) (skipn i track)).
  { eapply Forall_impl; [|exact Hn2]. intros x; apply normal_rep. }
  assert (Hl3 : back (skipn i track) = Some l) by (rewrite skipn_back by lia; assumption).
  assert (Hsk : nth_error (skipn i track) 0 = Some a).
  { rewrite nth_error_skipn_, Nat.add_0_r. assumption. }
  destruct (Z_lt_le_dec (elapsed (g_time l)) (elapsed t')) as [H3|H3].
  { rewrite (interpolate_outside track t' thr' false f l) by auto using normal_rep.
    rewrite (interpolate_outside (skipn i track) t' thr' false a l); auto using normal_rep. }
  destruct (bracket_exists _ g_time track t' f l Hr (normal_rep _ Ht') Hinc Hlen Hf Hl ltac:(lia))
    as (j & c & d & Hbr').
  pose proof (bracket_mono _ g_time _ _ _ _ _ _ _ _ _ Hinc Hbr Hbr' Htt) as Hij.
  pose proof (bracket_skipn _ g_time _ _ _ _ _ _ Hbr' Hij) as Hbr2.
  pose proof (bracket_search _ g_time _ _ _ _ _ Hr (normal_rep _ Ht') Hinc Hbr') as B1.
  pose proof (bracket_search _ g_time _ _ _ _ _ Hr2 (normal_rep _ Ht') Hinc2 Hbr2) as B2.
  (* unfold both calls: same neighbours *)
  assert (Hgen : forall (tr : list gps) k f0 thr0, (thr0 <= 1 # 2)%Q -> (2 <= length tr)%nat ->
     Forall (fun x => rep (g_time x)) tr ->
     nth_error tr 0 = Some f0 -> back tr = Some l -> elapsed (g_time f0) <= elapsed t' ->
     bracket g_time tr t' k c d ->
     binary_search (map g_time tr) t' = Some (Ok (Z.of_nat k, Z.of_nat k + 1)) ->
     option_map (fun o => let* p := o in Ok (fst p)) (interpolate_gps tr t' thr0 false) =
     Some (let* _ := check (t_ge t' (g_time c) && t_le t' (g_time d)) in
        let* dt := t_sub (g_time d) (g_time c) in
        let* _ := check (Qltb (1 # 1000000) (to_sec dt)) in
        if Qltb (1 # 5) (to_sec dt) || negb (g_fixed c) || negb (g_fixed d)
        then Ok None
        else
          let* ft := t_sub t' (g_time c) in
          let factor := (to_sec ft / to_sec dt)%Q in
          let* _ := check (Qle_bool 0 factor && Qle_bool factor 1) in
          Ok (Some (vadd (g_enu c) (vscale factor (vsub (g_enu d) (g_enu c))))))).
  { clear - H3 Ht'. intros tr k f0 thr0 Hthr0 Hlen Hr Hf Hl Hft (Hc & Hd & _) Hs.
    pose proof (Forall_nth _ _ _ _ _ Hr Hf) as Rf. pose proof (Forall_nth _ _ _ _ _ Hr Hl) as Rl.
    cbn beta in Rf, Rl.
    destruct tr as [|g0 [|g1 tl]]; [cbn in Hlen; lia|cbn in Hlen; lia|].
    set (tr := g0 :: g1 :: tl) in *. cbn in Hf. injection Hf as ->.
    unfold interpolate_gps. unfold tr at 1.
    replace (Qle_bool thr0 (1 # 2)) with true by (symmetry; apply Qle_bool_iff; assumption).
    cbn [negb]. fold tr. rewrite Hl.
    replace (t_lt t' (g_time f0) || t_gt t' (g_time l)) with false; cycle 1.
    { destruct (order_spec t' (g_time f0) (normal_rep _ Ht') Rf) as (O1 & _).
      destruct (order_spec t' (g_time l) (normal_rep _ Ht') Rl) as (_ & _ & O2 & _).
      symmetry. apply orb_false_iff. split; apply not_true_iff_false; intros X;
        [apply O1 in X|apply O2 in X]; lia. }
    rewrite Hs. cbn [bind fst snd option_map].
    rewrite (at_nth _ _ _ _ Hc).
    replace (Z.of_nat k + 1) with (Z.of_nat (S k)) by lia.
    rewrite (at_nth _ _ _ _ Hd). cbn [bind]. f_equal.
    destruct (check _); cbn [bind]; try reflexivity.
    destruct (t_sub (g_time d) (g_time c)); cbn [bind]; try reflexivity.
    destruct (check _); cbn [bind]; try reflexivity.
    destruct (_ || _); [reflexivity|].
    destruct (t_sub t' (g_time c)); cbn [bind]; try reflexivity.
    destruct (check _); cbn [bind]; reflexivity. }
  rewrite (Hgen track j f thr' Hthr' Hlen Hr Hf Hl ltac:(lia) Hbr' B1).
  rewrite (Hgen (skipn i track) (j - i)%nat a thr' Hthr' Hl2 Hr2 Hsk Hl3 ltac:(lia) Hbr2 B2).
  reflexivity.
Qed.

End Interp.

(** * Trimming *)
Section Trim.
Variable A : Type.
Variable stamp : A -> time.

Lemma trim_count_le : forall t n l, (trim_count stamp t n l <= n)%nat.
Proof.
  intros t. induction n as [|n IH]; intros l; destruct l; cbn; try lia.
  destruct (t_ge _ _); [lia|]. specialize (IH l). lia.
Qed.

Lemma trim_count_old : forall t n l k x,
  (k < trim_count stamp t n l)%nat -> nth_error l k = Some x -> t_ge (stamp x) t = false.
Proof.
  intros t. induction n as [|n IH]; intros l k x Hk Hx; destruct l as [|y l]; cbn in Hk; try lia.
  destruct (t_ge (stamp y) t) eqn:E; [lia|].
  destruct k as [|k]; cbn in Hx; [injection Hx as <-; assumption|].
  apply (IH l k x); [lia|assumption].
Qed.

Lemma trim_count_stop : forall t n l x,
  (trim_count stamp t n l < n)%nat -> nth_error l (trim_count stamp t n l) = Some x ->
  t_ge (stamp x) t = true.
Proof.
  intros t. induction n as [|n IH]; intros l x Hk Hx; [lia|].
  destruct l as [|y l]; cbn in *; [discriminate|].
  destruct (t_ge (stamp y) t) eqn:E; cbn in Hx; [injection Hx as <-; assumption|].
  apply (IH l x); [lia|assumption].
Qed.

Lemma trim_spec : forall t (l : list A),
  Forall (fun x => rep (stamp x)) l -> rep t ->
  exists dropped, l = dropped ++ trim_data stamp t l /\
    Forall (fun x => elapsed (stamp x) < elapsed t) dropped /\
    (length l <= 2 -> dropped = [])%nat /\
    (2 < length l -> 2 <= length (trim_data stamp t l))%nat /\
    (forall x, nth_error (trim_data stamp t l) 0 = Some x ->
       (2 < length (trim_data stamp t l))%nat -> elapsed t <= elapsed (stamp x)).
Proof.
  intros t l Hr Rt. unfold trim_data.
  destruct (Z.of_nat (length l) <=? 2) eqn:E.
  - exists []. split; [reflexivity|]. split; [constructor|]. split; [auto|].
    split; [lia|]. intros x Hx Hl. lia.
  - set (c := trim_count stamp t (length l - 2) l).
    pose proof (trim_count_le t (length l - 2) l) as Hc. fold c in Hc.
    exists (firstn c l). split; [symmetry; apply firstn_skipn|].
    split; [|split; [lia|split; [rewrite skipn_length; lia|]]].
    + apply Forall_forall. intros x Hx. apply In_nth_error in Hx as [k Hk].
      pose proof (nth_error_Some_length Hk) as Hki. rewrite firstn_length_le in Hki by lia.
      assert (Hk' : nth_error l k = Some x).
      { rewrite <- (firstn_skipn c l). rewrite nth_error_app1 by (rewrite firstn_length_le; lia). assumption. }
      pose proof (trim_count_old t (length l - 2) l k x Hki Hk') as Ho.
      assert (Rx : rep (stamp x)) by (eapply Forall_forall in Hr; [exact Hr|eapply nth_error_In, Hk']).
      destruct (order_spec (stamp x) t Rx Rt) as (_ & _ & _ & G).
      destruct (Z_lt_le_dec (elapsed (stamp x)) (elapsed t)); [assumption|].
      assert (t_ge (stamp x) t = true) by (apply G; lia). congruence.
    + intros x Hx Hl. rewrite skipn_length in Hl.
      assert (Hx' : nth_error l c = Some x).
      { rewrite nth_error_skipn_, Nat.add_0_r in Hx. assumption. }
      assert (Rx : rep (stamp x)) by (eapply Forall_forall in Hr; [exact Hr|eapply nth_error_In, Hx']).
      destruct (order_spec (stamp x) t Rx Rt) as (_ & _ & _ & G).
      assert (t_ge (stamp x) t = true) as Hg by (apply (trim_count_stop t (length l - 2) l x); fold c; [lia|assumption]).
      apply G in Hg. lia.
Qed.
End Trim.

Lemma odom_outside : forall P (interp : P -> P -> Q -> P) (track : list (odom P)) t thr trim f l,
  (thr <= 1 # 2)%Q -> (2 <= length track)%nat ->
  Forall (fun x => rep (o_time x)) track -> rep t ->
  nth_error track 0 = Some f -> back track = Some l ->
  elapsed t < elapsed (o_time f) \/ elapsed (o_time l) < elapsed t ->
  interpolate_odom interp track t thr trim = Some (Ok (None, track)).
Proof.
  intros P interp track t thr trim f l Hthr Hlen Hr Rt Hf Hl Hout.
  pose proof (Forall_nth _ _ _ _ _ Hr Hf) as Rf. pose proof (Forall_nth _ _ _ _ _ Hr Hl) as Rl.
  cbn beta in Rf, Rl.
  destruct track as [|g0 [|g1 tl]]; [cbn in Hlen; lia|cbn in Hlen; lia|].
  cbn in Hf. injection Hf as ->.
  unfold interpolate_odom.
  replace (Qle_bool thr (1 # 2)) with true by (symmetry; apply Qle_bool_iff; assumption).
  cbn [negb]. rewrite Hl.
  replace (t_lt t (o_time f) || t_gt t (o_time l)) with true; [reflexivity|].
  destruct (order_spec t (o_time f) Rt Rf) as (O1 & _).
  destruct (order_spec t (o_time l) Rt Rl) as (_ & _ & O2 & _).
  symmetry. apply orb_true_iff. destruct Hout; [left; apply O1|right; apply O2]; lia.
Qed.

Lemma odom_short : forall P (interp : P -> P -> Q -> P) t thr trim,
  (thr <= 1 # 2)%Q ->
  interpolate_odom interp (@nil (odom P)) t thr trim = Some (Ok (None, [])) /\
  (forall g : odom P, exists r,
     interpolate_odom interp [g] t thr trim = Some (Ok (r, [g])) /\
     (r = None \/ r = Some (o_pose g)) /\
     (r = Some (o_pose g) <->
        (Z.abs (elapsed t - elapsed (o_time g)) # 1000000000 <= thr)%Q)).
Proof.
  intros P interp t thr trim Hthr. unfold interpolate_odom.
  replace (Qle_bool thr (1 # 2)) with true by (symmetry; apply Qle_bool_iff; assumption).
  cbn [negb]. split; [reflexivity|]. intros g.
  assert (E : (Qabs (to_sec t - to_sec (o_time g)) == Z.abs (elapsed t - elapsed (o_time g)) # 1000000000)%Q).
  { rewrite !to_sec_elapsed. unfold Qminus, Qplus, Qopp, Qabs, Qeq; cbn [Qnum Qden]. lia. }
  destruct (Qle_bool (Qabs _) thr) eqn:C.
  - exists (Some (o_pose g)). split; [reflexivity|]. split; [auto|].
    apply Qle_bool_iff in C. rewrite E in C. tauto.
  - exists None. split; [reflexivity|]. split; [auto|]. split; [discriminate|].
    intros H2. rewrite <- E in H2. apply Qle_bool_iff in H2. congruence.
Qed.
