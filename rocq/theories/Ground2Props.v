(** C114, C115, C116: GroundRemoval2, the ground filter that fits lines per sector. *)
From Coq Require Import ZArith List Bool Lia QArith Qabs Qround Sorting.Sorted.
From Verif Require Import Outcome Ground2Model Ground2Spec Ground2Proofs.
Import ListNotations.
Local Open Scope outcome_scope.

(** What the theorems assume of the members and of the quotient that gives the ring of a point: it does not
    decrease with the distance. *)
Record usable {A P} (S : setup A P) : Prop := {
  u_bins : (0 < bins S)%Z;
  u_segs : (0 < segs S)%Z;
  u_steps : (steps S <= segs S)%Z;
  u_ring : forall x y a b, ring S x = Ok a -> ring S y = Ok b -> (a < b)%Z -> ltb A x y = true }.

Section Claims.
Context {A : arith} {P : Type} (S : setup A P).
Hypothesis Ord : ordered A.
Hypothesis U : usable S.
Notation Sn := Datatypes.S.

(** The outputs fit each other: every index is in one of the two lists, both ascend, and the points written
    are the inliers in their order. *)
Definition split_of (l out : list P) (inl outl : list nat) : Prop :=
  StronglySorted lt inl /\ StronglySorted lt outl /\
  (forall i, (i < length l)%nat <-> In i inl \/ In i outl) /\ (forall i, In i inl -> ~ In i outl) /\
  map Some out = map (nth_error l) inl.

Lemma seq_sorted : forall n i, StronglySorted lt (seq i n).
Proof.
  induction n as [|n IH]; intros i; cbn [seq]; constructor; auto. apply Forall_forall. intros x H. apply in_seq in H. lia.
Qed.
Lemma filter_sorted : forall (f : nat -> bool) l, StronglySorted lt l -> StronglySorted lt (filter f l).
Proof.
  intros f l H. induction H as [|x l H IH F]; cbn [filter]; [constructor|]. destruct (f x); auto. constructor; auto.
  apply Forall_forall. intros y Hy. apply filter_In in Hy. apply (proj1 (Forall_forall _ _) F). apply Hy.
Qed.
Lemma split_ok : forall m (l : list P),
  split_of l (pick m 0 l) (filter (fun i => negb (marked_in m i)) (seq 0 (length l))) (filter (marked_in m) (seq 0 (length l))).
Proof.
  intros m l. split; [apply filter_sorted, seq_sorted|]. split; [apply filter_sorted, seq_sorted|]. split; [|split].
  - intros i. rewrite !filter_In, in_seq. destruct (marked_in m i); cbn; intuition (try lia; try discriminate).
  - intros i H1 H2. apply filter_In in H1. apply filter_In in H2. destruct H1 as [_ H1], H2 as [_ H2]. rewrite H2 in H1. discriminate.
  - rewrite pick_spec. apply map_ext. intros j. rewrite Nat.sub_0_r. reflexivity.
Qed.

Lemma fitted : forall l g, set_input S l = Ok g -> exists ss, fit_segments S (Z.to_nat (segs S)) g = Ok ss /\
  length ss = Z.to_nat (segs S) /\ Forall (Forall proper) ss /\
  forall t ls, nth_error ss t = Some ls -> lines S (glow g (Z.of_nat t)) ls.
Proof.
  intros l g H. destruct U. pose proof (rings_apart_of S u_bins0 u_ring0) as R.
  destruct (fit_segments_spec S Ord l g u_bins0 R H (Z.to_nat (segs S))) as [ss [E [L [F N]]]].
  exists ss. split; auto. split; auto. split; auto. intros t ls Ht.
  assert (Hl : (t < Z.to_nat (segs S))%nat) by (rewrite <- L; apply nth_error_Some; congruence).
  destruct (N t Hl) as [ls' [N1 N2]]. destruct (fit_lines_spec S Ord g (Z.of_nat t) (set_input_min S Ord l g H _) u_bins0) as [ls2 [E2 Ln]].
  assert (ls2 = ls) as -> by congruence. exact Ln.
Qed.

(** *** C114 *)
(** With a place for every point and a number of threads that is not negative the filter ends, without failed
    CHECK or exception, and divides the cloud. *)
Theorem C114_divides : forall l, (0 <= threads S)%Z -> (forall p, In p l -> exists a, place S p = Ok a) ->
  exists out inl outl, ground_removal S l = Ok (out, inl, outl) /\ split_of l out inl outl.
Proof.
  intros l T H. destruct (set_input_ok S l H) as [g G]. destruct (fitted l g G) as [ss [E [L [F _]]]].
  unfold ground_removal. rewrite G. cbn [bind]. rewrite E. cbn [bind]. unfold cluster.
  destruct (Z.ltb_spec (threads S) 0); [lia|]. destruct (Z.eqb_spec (threads S) 0).
  - cbn [bind]. eexists _, _, _. split; [reflexivity|apply split_ok].
  - destruct (run_tasks_spec S Ord ss L F (Z.to_nat (segs S)) g) as [m [-> _]]; [destruct U; lia|apply U|]. cbn [bind].
    eexists _, _, _. split; [reflexivity|apply split_ok].
Qed.

(** Without threads every point is kept; with a negative number the program ends. *)
Theorem C114_threads : forall l, (forall p, In p l -> exists a, place S p = Ok a) ->
  (threads S = 0%Z -> ground_removal S l = Ok (l, seq 0 (length l), [])) /\
  ((threads S < 0)%Z -> ground_removal S l = Abort).
Proof.
  intros l H. destruct (set_input_ok S l H) as [g G]. destruct (fitted l g G) as [ss [E [L [F _]]]].
  unfold ground_removal. rewrite G. cbn [bind]. rewrite E. cbn [bind]. unfold cluster. split.
  - intros ->. cbn [bind Z.ltb Z.compare Z.eqb]. assert (Pk : forall i r, pick (P:=P) [] i r = r).
    { intros i r. revert i. induction r as [|p r IH]; intros i; cbn [pick]; auto. change (marked_in [] i) with false. cbv iota. rewrite IH. reflexivity. }
    rewrite Pk. assert (Fl : forall r : list nat, filter (fun i => negb (marked_in [] i)) r = r /\ filter (marked_in []) r = []).
    { induction r as [|x r [IH1 IH2]]; [split; reflexivity|]. cbn [filter marked_in existsb negb]. unfold marked_in in IH1, IH2. cbn [existsb negb] in IH1. rewrite IH1. auto. }
    destruct (Fl (seq 0 (length l))) as [-> ->]. reflexivity.
  - intros T. destruct (Z.ltb_spec (threads S) 0); [reflexivity|lia].
Qed.

(** A point whose angle or distance gives no int (NaN, infinity) is undefined behaviour. *)
Theorem C114_no_place : forall l1 p l2, (forall q, In q l1 -> exists a, place S q = Ok a) -> place S p = UB ->
  ground_removal S (l1 ++ p :: l2) = UB.
Proof.
  intros l1 p l2 H Hp. unfold ground_removal, set_input. assert (places S (l1 ++ p :: l2) = UB) as ->; [|reflexivity].
  induction l1 as [|q l1 IH]; cbn [app places]; [rewrite Hp; reflexivity|]. destruct (H q (or_introl eq_refl)) as [a ->]. cbn [bind].
  rewrite IH; auto. intros r Hr. apply H. right. exact Hr.
Qed.

(** The test of the range never excludes a point. *)
Theorem C114_range_unchecked : ltb A (r_max S) (r_min S) = false -> forall p a, place S p = Ok a ->
  exists s b, a = Some (s, b) /\ (0 <= s < segs S)%Z /\ (0 <= b < bins S)%Z.
Proof.
  intros R p a H. pose proof H as H0. unfold place in H. destruct (ltb A (range S p) (r_min S)) eqn:L1; [destruct (ltb A (r_max S) (range S p)) eqn:L2|]; cbn [andb] in H.
  - rewrite (lt_trans A Ord _ _ _ L2 L1) in R. discriminate.
  - destruct (sector S p) as [x| | |]; try discriminate. cbn [bind] in H. destruct (ring S (range S p)) as [y| | |]; try discriminate. cbn [bind] in H.
    inversion H; subst a. eexists _, _. split; [reflexivity|]. apply (place_range S p); [apply U|apply U|exact H0].
  - destruct (sector S p) as [x| | |]; try discriminate. cbn [bind] in H. destruct (ring S (range S p)) as [y| | |]; try discriminate. cbn [bind] in H.
    inversion H; subst a. eexists _, _. split; [reflexivity|]. apply (place_range S p); [apply U|apply U|exact H0].
Qed.

(** *** C115, C116 *)
(** The removed points: those that count for their cell and whose deciding line is more than 0 and at most
    max_dist_to_line away.  The lines are those of [lines]. *)
Theorem C115_removed : forall l out inl outl, (0 < threads S)%Z -> (forall p, In p l -> comparable A (height S p)) ->
  ground_removal S l = Ok (out, inl, outl) ->
  exists ss, length ss = Z.to_nat (segs S) /\ (forall t ls, nth_error ss t = Some ls -> lines S (low S l (Z.of_nat t)) ls) /\
  forall i, In i outl <-> exists s b p L, stored S l s b i p /\ deciding S ss s (range S p, height S p) L /\
    ltb A (zero A) (distance L (range S p, height S p)) = true /\ leb A (distance L (range S p, height S p)) (max_dist S) = true.
Proof.
  intros l out inl outl T N H. unfold ground_removal in H. destruct (set_input S l) as [g| | |] eqn:G; try discriminate. cbn [bind] in H.
  destruct (fitted l g G) as [ss [E [L [F Ln]]]]. rewrite E in H. cbn [bind] in H. unfold cluster in H.
  destruct (Z.ltb_spec (threads S) 0); [lia|]. destruct (Z.eqb_spec (threads S) 0); [lia|].
  assert (Hsegs : (Z.of_nat (Z.to_nat (segs S)) <= segs S)%Z) by (destruct U; lia).
  destruct (run_tasks_spec S Ord ss L F (Z.to_nat (segs S)) g Hsegs (u_steps S U)) as [m [Em M]]. rewrite Em in H. cbn [bind] in H.
  inversion H; subst out inl outl. clear H. destruct (set_input_numbers S Ord l g N G) as [Gs Gl].
  exists ss. split; auto. split.
  { intros t ls Ht. eapply lines_ext; [|apply Ln; exact Ht]. intros b q. apply Gl. }
  intros i. rewrite filter_In, marked_spec, M. split.
  - intros [_ [s [q [L' [Hs [Hi Hd]]]]]]. apply segment_points_in in Hi. destruct Hi as [b [Hb Hi]]. apply Gs in Hi. destruct Hi as [p [Hp ->]].
    exists s, b, p, L'. auto.
  - intros [s [b [p [L' [Hp Hd]]]]]. pose proof Hp as [[Hn Hc] _]. pose proof (place_range S p s b (u_bins S U) (u_segs S U) Hc) as [R1 R2]. split.
    + apply in_seq. split; [lia|]. apply nth_error_Some. rewrite Hn. discriminate.
    + exists s, (range S p, height S p), L'. split; [lia|]. split; auto. apply segment_points_in. exists b. split; auto. apply Gs. exists p. auto.
Qed.

(** A floor is removed: if a sector is one (see [floor_]) and has three cells with points, every point that
    counts for its cell, is over the line and off it by at most max_dist_to_line, is removed; the others over
    the line are kept. *)
Theorem C116_floor : forall l out inl outl s, (0 < threads S)%Z -> (forall p, In p l -> comparable A (height S p)) ->
  ground_removal S l = Ok (out, inl, outl) -> (0 <= s < segs S)%Z ->
  floor_ S (low S l s) ->
  (exists x y z, lowest S (low S l s) x /\ lowest S (low S l s) y /\ lowest S (low S l s) z /\ (fst x < fst y < fst z)%Z) ->
  exists d L, is_line S (low S l s) d L /\ (forall b q, (0 <= b < bins S)%Z -> low S l s b q -> In b (map fst d)) /\
  forall b i p, in_cell S l s b i p -> over L (range S p, height S p) ->
    (In i outl <-> stored S l s b i p /\ ltb A (zero A) (distance L (range S p, height S p)) = true /\
                   leb A (distance L (range S p, height S p)) (max_dist S) = true).
Proof.
  intros l out inl outl s T N H Hs Fl Th. destruct (C115_removed l out inl outl T N H) as [ss [Len [Ln Rm]]].
  destruct (nth_error ss (Z.to_nat s)) as [ls|] eqn:E; [|apply nth_error_None in E; lia].
  destruct (Ln _ _ E) as [_ Lf]. rewrite Z2Nat.id in Lf by lia. destruct (Lf Fl Th) as [d [L [-> [Is All]]]].
  exists d, L. split; auto. split; auto. intros b i p Hc Ov. rewrite Rm.
  assert (Cs : counts [L] (range S p, height S p) L) by (exists [], []; split; [reflexivity|split; [exact Ov|intros ? []]]).
  split.
  - intros [s' [b' [p' [L' [St [De Di]]]]]]. pose proof St as [[K1 K2] _]. pose proof Hc as [K3 K4].
    assert (p' = p) as -> by congruence. assert (s' = s /\ b' = b) as [-> ->] by (split; congruence).
    destruct De as [own [Eo [Co|[Un _]]]]; rewrite E in Eo; inversion Eo; subst own.
    + rewrite (counts_unique _ _ _ _ Co Cs) in Di. destruct Di. auto.
    + exfalso. exact (counts_uncovered _ _ _ Cs Un).
  - intros [St Di]. exists s, b, p, L. split; auto. split; auto. exists [L]. split; auto.
Qed.

(** A line goes over a gap only after three cells; from there on each point is at most max_long_line_height off the line fitted to the
    points before it.  Every removed point is near such a line. *)
Theorem C116_over_gap : forall l out inl outl, (0 < threads S)%Z -> (forall p, In p l -> comparable A (height S p)) ->
  (forall p, In p l -> ltb A (long_height S) (absv A (sub A (flt_max A) (height S p))) = true) ->
  ground_removal S l = Ok (out, inl, outl) -> forall i, In i outl ->
  exists p s d L, nth_error l i = Some p /\ is_line S (low S l s) d L /\ over L (range S p, height S p) /\
    leb A (distance L (range S p, height S p)) (max_dist S) = true /\
    forall l1 x y l2, d = l1 ++ x :: y :: l2 -> leb A (long_line S) (sub A (fst (snd y)) (fst (snd x))) = true ->
      (2 <= length l1)%nat /\
      forall pre z post, y :: l2 = pre ++ z :: post ->
        let m := fit S (map snd (l1 ++ x :: pre)) in
        ltb A (long_height S) (absv A (sub A (add A (mul A (fst m) (fst (snd z))) (snd m)) (snd (snd z)))) = false.
Proof.
  intros l out inl outl T N Far H i Hi. destruct (C115_removed l out inl outl T N H) as [ss [Len [Ln Rm]]].
  apply Rm in Hi. destruct Hi as [s [c [p [L [[[K1 K2] _] [[own [Eo De]] [_ Di]]]]]]].
  assert (exists t ls, (0 <= t)%Z /\ nth_error ss (Z.to_nat t) = Some ls /\ counts ls (range S p, height S p) L) as [t [ls [Ht [Et Co]]]].
  { pose proof (place_range S p s c (u_bins S U) (u_segs S U) K2) as [R1 R2].
    destruct De as [Co|[_ [k [t [ls [_ [[Ht _] [Et [Co _]]]]]]]]]; [exists s, own|exists t, ls]; repeat split; auto; lia. }
  destruct Co as [a1 [a2 [-> [Ov _]]]]. destruct (Ln _ _ Et) as [[ds [D1 _]] _]. rewrite Z2Nat.id in D1 by lia.
  assert (exists d, is_line S (low S l t) d L) as [d Id].
  { clear - D1. assert (Hl : In L (a1 ++ L :: a2)) by (apply in_or_app; right; left; reflexivity). induction D1; [contradiction|].
    destruct Hl as [<-|Hl]; eauto. }
  exists p, t, d, L. split; auto. split; auto. split; auto. split; auto. intros l1 x y l2 Ed G.
  destruct Id as [_ [Lo [_ [_ [_ [St _]]]]]].
  assert (Three : (2 <= length l1)%nat).
  { destruct (St (l1 ++ [x]) y l2) as [S1 S2]; [rewrite <- app_assoc; exact Ed|exists l1, x, y, []; split; auto; rewrite <- app_assoc; auto|].
    rewrite app_length in S1, S2. cbn [length] in S1, S2. destruct (Nat.ltb_spec 2 (length l1 + 1)); [lia|]. exfalso. cbv zeta in S2.
    assert (Hy : In y d) by (rewrite Ed; apply in_or_app; right; right; left; reflexivity).
    pose proof (proj1 (Forall_forall _ _) Lo y Hy) as [_ [j [r [[_ [[Hr _] _]] Er]]]]. rewrite Er in S2. cbn [snd] in S2.
    rewrite Far in S2; [discriminate|]. eapply nth_error_In; eauto. }
  split; auto. intros pre z post Ey.
  destruct (St (l1 ++ x :: pre) z post) as [S1 S2].
  - rewrite Ed, Ey, <- app_assoc. reflexivity.
  - destruct pre as [|w pre]; cbn [app] in Ey; injection Ey as Ew Er; subst.
    + exists l1, x, z, []. split; auto. rewrite <- app_assoc. reflexivity.
    + exists l1, x, w, (pre ++ [z]). split; auto. rewrite <- app_assoc. reflexivity.
  - rewrite app_length in S2. cbn [length] in S2. destruct (Nat.ltb_spec 2 (length l1 + Datatypes.S (length pre))); [exact S2|lia].
Qed.

(** If the first two cells with points of a sector are long_line_threshold apart the sector has no line at
    all: none of its points is removed because of its own sector. *)
Theorem C116_gap_at_start : forall l out inl outl s b b', (0 < threads S)%Z -> (forall p, In p l -> comparable A (height S p)) ->
  ground_removal S l = Ok (out, inl, outl) -> (0 <= s < segs S)%Z ->
  gapped S (low S l s) b b' -> (forall c q, (0 <= c < b)%Z -> ~ low S l s c q) ->
  (forall k t c q, (0 < Z.abs k <= steps S)%Z -> around S s k t -> ~ low S l t c q) ->
  forall c i p, in_cell S l s c i p -> ~ In i outl.
Proof.
  intros l out inl outl s b b' T N H Hs Gp Fs Nb c i p Hc Hi. destruct (C115_removed l out inl outl T N H) as [ss [Len [Ln Rm]]].
  apply Rm in Hi. destruct Hi as [s' [c' [p' [L [[[K1 K2] _] [[own [Eo De]] _]]]]]]. destruct Hc as [K3 K4].
  assert (p' = p) as -> by congruence. assert (s' = s /\ c' = c) as [-> ->] by (split; congruence).
  destruct De as [[l1 [l2 [-> _]]]|[_ [k [t [ls [Hk [Ar [Et [[l1 [l2 [-> _]]] _]]]]]]]]].
  - destruct (Ln _ _ Eo) as [[ds [D1 [_ D3]]] _]. rewrite Z2Nat.id in D1, D3 by lia.
    assert (exists d, In d ds /\ is_line S (low S l s) d L) as [d [Hd Id]].
    { clear - D1. assert (Hl : In L (l1 ++ L :: l2)) by (apply in_or_app; right; left; reflexivity). induction D1; [contradiction|].
      destruct Hl as [<-|Hl]; [eauto using in_eq|]. destruct (IHD1 Hl) as [d [K1 K2]]. exists d. split; auto. right. exact K1. }
    assert (First : forall d' L', is_line S (low S l s) d' L' -> (b <= fst (first_of d'))%Z).
    { intros d' L' [J1 [J2 _]]. assert (Ne : d' <> []) by (destruct d'; [cbn in J1; lia|discriminate]).
      pose proof (proj1 (Forall_forall _ _) J2 _ (first_in d' Ne)) as [J3 J4]. destruct (Z.le_gt_cases b (fst (first_of d'))); auto.
      exfalso. apply (Fs (fst (first_of d')) (snd (first_of d'))); auto. lia. }
    pose proof (D3 b b' d Gp Hd (First d L Id)) as Ex. apply Exists_exists in Ex. destruct Ex as [d' [Hd' [Br _]]].
    assert (exists L', is_line S (low S l s) d' L') as [L' Id'].
    { clear - D1 Hd'. induction D1; [contradiction|]. destruct Hd' as [<-|Hd']; eauto. }
    pose proof (First d' L' Id'). lia.
  - destruct Ar as [Ht Ar]. destruct (Ln _ _ Et) as [[ds [D1 _]] _]. rewrite Z2Nat.id in D1 by lia.
    assert (exists d, is_line S (low S l t) d L) as [d [J1 [J2 _]]].
    { clear - D1. assert (Hl : In L (l1 ++ L :: l2)) by (apply in_or_app; right; left; reflexivity). induction D1; [contradiction|].
      destruct Hl as [<-|Hl]; eauto. }
    assert (Ne : d <> []) by (destruct d; [cbn in J1; lia|discriminate]).
    pose proof (proj1 (Forall_forall _ _) J2 _ (first_in d Ne)) as [_ J4]. apply (Nb k t _ _ Hk (conj Ht Ar) J4).
Qed.
End Claims.
Print Assumptions C114_divides.
Print Assumptions C114_threads.
Print Assumptions C114_no_place.
Print Assumptions C114_range_unchecked.
Print Assumptions C115_removed.
Print Assumptions C116_floor.
Print Assumptions C116_over_gap.
Print Assumptions C116_gap_at_start.

(** *** Examples in exact arithmetic *)
Definition rational : arith :=
  Arith Q (fun a b => negb (Qle_bool b a)) Qle_bool (fun a b => Qred (a + b)) (fun a b => Qred (a - b)) (fun a b => Qred (a * b))
    (fun a b => Qred (a / b)) Qabs 0 (-1 # 1) (1 # 10) (1000000 # 1) (fun z m => Qle_bool z (m + (1 # 2))).
Lemma rational_lt : forall a b, ltb rational a b = true <-> a < b.
Proof.
  intros a b. cbn. rewrite negb_true_iff. split.
  - intros H. apply Qnot_le_lt. intros K. apply Qle_bool_iff in K. congruence.
  - intros H. destruct (Qle_bool b a) eqn:E; auto. apply Qle_bool_iff in E. apply Qle_not_lt in E. contradiction.
Qed.
Lemma rational_nlt : forall a b, ltb rational a b = false <-> b <= a.
Proof.
  intros a b. cbn. rewrite negb_false_iff. apply Qle_bool_iff.
Qed.
Example C114_ex_ordered : ordered rational.
Proof.
  constructor.
  - intros a b c. rewrite !rational_lt. apply Qlt_trans.
  - intros a. apply rational_nlt. apply Qle_refl.
  - intros a b c _ H1 H2. rewrite rational_lt in *. rewrite rational_nlt in H2. eapply Qlt_le_trans; eauto.
  - reflexivity.
  - intros z _. cbn. apply Qle_bool_iff. rewrite <- (Qplus_0_r z) at 1. apply Qplus_le_r. discriminate.
  - intros x. apply rational_nlt. apply Qabs_nonneg.
Qed.

(** Least squares. *)
Definition sum (f : Q * Q -> Q) (l : list (Q * Q)) : Q := fold_right (fun x a => Qred (f x + a)) 0 l.
Definition least_squares (l : list (Q * Q)) : Q * Q :=
  let n := inject_Z (Z.of_nat (length l)) in
  let sx := sum fst l in let sy := sum snd l in
  let sxx := sum (fun x => fst x * fst x) l in let sxy := sum (fun x => fst x * snd x) l in
  let m := Qred ((n * sxy - sx * sy) / (n * sxx - sx * sx)) in
  (m, Qred ((sy - m * sx) / n)).
(** Points: sector, distance, height.  Rings of 0.5 from 1 on; the other values are the defaults. *)
Definition demo : setup rational (Z * Q * Q) :=
  Setup rational (Z * Q * Q) (fun p => snd (fst p)) snd (fun p => Ok (fst (fst p))) (fun x => Ok (Qfloor ((x - 1) * 2))) least_squares
    1 11 20 8 (-1 # 4) 1 (1 # 10) (1 # 5) (1 # 20) (26 # 100) (1 # 20) 2 4.
Example C114_ex_usable : usable demo.
Proof.
  constructor; [cbn; lia|cbn; lia|cbn; lia|]. intros x y a b Ha Hb L.
  change (Ok (Qfloor ((x - 1) * 2)) = Ok a) in Ha. change (Ok (Qfloor ((y - 1) * 2)) = Ok b) in Hb. injection Ha as <-. injection Hb as <-. apply rational_lt.
  destruct (Qlt_le_dec x y) as [K|K]; auto. exfalso. assert ((y - 1) * 2 <= (x - 1) * 2) as M.
  { apply Qmult_le_compat_r; [apply Qplus_le_compat; [auto|apply Qle_refl]|discriminate]. }
  apply Qfloor_resp_le in M. exact (Zlt_not_le _ _ L M).
Qed.
Example C114_ex_numbers : forall z, comparable rational z.
Proof. intros z. left. exists (z + 1). apply rational_lt. rewrite <- (Qplus_0_r z) at 1. apply Qplus_lt_r. reflexivity. Qed.

(** An uneven floor with something on it (index 4), and a wall (index 5). *)
Definition floor1 : list (Z * Q * Q) :=
  [(0%Z, 125 # 100, -26 # 100); (0%Z, 175 # 100, -24 # 100); (0%Z, 225 # 100, -26 # 100); (0%Z, 275 # 100, -24 # 100);
   (0%Z, 226 # 100, 10 # 100); (0%Z, 176 # 100, 2 # 1)].
Example C115_ex_removed : exists out, ground_removal demo floor1 = Ok (out, [4; 5]%nat, [0; 1; 2; 3]%nat).
Proof. eexists. vm_compute. reflexivity. Qed.
Example C114_ex_places : forall p, In p floor1 -> exists a, place demo p = Ok a.
Proof. intros p H. cbn in H. intuition (subst; eexists; vm_compute; reflexivity). Qed.

(** "A flat floor at the expected height is removed": no, a point exactly on its line is kept. *)
Definition flat : list (Z * Q * Q) := map (fun k => (0%Z, (5 # 4) + inject_Z k * (1 # 2), -1 # 4)) [0; 1; 2; 3; 4]%Z.
Theorem C115_flat_floor_refuted :
  ~ (forall l out inl outl, ground_removal demo l = Ok (out, inl, outl) -> Forall (fun p => snd p == -1 # 4) l ->
       (forall k, (0 <= k < 5)%Z -> In (0%Z, (5 # 4) + inject_Z k * (1 # 2), -1 # 4) l) -> (exists i, In i outl)).
Proof.
  intros H. destruct (H flat flat [0; 1; 2; 3; 4]%nat []) as [i []].
  - vm_compute. reflexivity.
  - repeat constructor; reflexivity.
  - intros k Hk. unfold flat. apply (in_map (fun k => (0%Z, (5 # 4) + inject_Z k * (1 # 2), -1 # 4))). cbn. lia.
Qed.
Print Assumptions C115_flat_floor_refuted.

(** "Of the sectors around, the nearest with a line over the point decides": no, the farthest. *)
Definition sloped (s : Z) (z : Q) : list (Z * Q * Q) :=
  [(s, 125 # 100, z - (1 # 100)); (s, 175 # 100, z + (1 # 100)); (s, 225 # 100, z - (1 # 100)); (s, 275 # 100, z + (1 # 100))].
Definition neighbours : list (Z * Q * Q) := [(0%Z, 2 # 1, -24 # 100)] ++ sloped 1 (-25 # 100) ++ sloped 2 (-15 # 100).
Definition neighbour_lines := Eval vm_compute in
  match set_input demo neighbours with Ok g => match fit_segments demo 8 g with Ok r => r | _ => [] end | _ => [] end.
Definition neighbour_result := Eval vm_compute in ground_removal demo neighbours.
Theorem C115_nearest_refuted :
  ~ (forall l out inl outl ss, ground_removal demo l = Ok (out, inl, outl) -> length ss = 8%nat ->
       (forall g, set_input demo l = Ok g -> fit_segments demo 8 g = Ok ss) ->
       forall ls L, nth_error ss 1 = Some ls -> counts ls (2 # 1, -24 # 100) L -> nth_error l 0 = Some (0%Z, 2 # 1, -24 # 100) ->
       nth_error ss 0 = Some [] -> ltb rational 0 (distance L (2 # 1, -24 # 100)) = true ->
       leb rational (distance L (2 # 1, -24 # 100)) (1 # 20) = true -> In 0%nat outl).
Proof.
  intros H.
  assert (K : match set_input demo neighbours with Ok g => fit_segments demo 8 g | _ => UB end = Ok neighbour_lines) by (vm_compute; reflexivity).
  assert (R : ground_removal demo neighbours = neighbour_result) by (vm_compute; reflexivity). unfold neighbour_result in R.
  assert (X := H neighbours _ _ _ neighbour_lines R eq_refl).
  match type of X with _ -> forall _ _, _ -> _ -> _ -> _ -> _ -> _ -> ?G => assert (Y : G); [|cbn in Y; lia] end.
  eapply X; clear X H.
  - intros g G. rewrite G in K. exact K.
  - reflexivity.
  - eexists [], []. split; [reflexivity|]. split; [split; vm_compute; reflexivity|intros ? []].
  - reflexivity.
  - reflexivity.
  - vm_compute. reflexivity.
  - vm_compute. reflexivity.
Qed.
Print Assumptions C115_nearest_refuted.

(** "Points nearer than r_min or farther than r_max are kept": no. *)
Definition near_and_far : list (Z * Q * Q) :=
  [(0%Z, 9 # 10, -26 # 100); (0%Z, 175 # 100, -24 # 100); (0%Z, 225 # 100, -26 # 100); (0%Z, 275 # 100, -24 # 100)].
Theorem C114_out_of_range_refuted :
  ~ (forall l out inl outl, ground_removal demo l = Ok (out, inl, outl) -> forall i p, nth_error l i = Some p ->
       range demo p < r_min demo -> ~ In i outl).
Proof.
  intros H. destruct (ground_removal demo near_and_far) as [[[out inl] outl]| | |] eqn:R; try (vm_compute in R; discriminate).
  apply (H _ _ _ _ R 0%nat (0%Z, 9 # 10, -26 # 100)); [reflexivity|reflexivity|]. vm_compute in R. inversion R; subst. cbn. auto.
Qed.
Print Assumptions C114_out_of_range_refuted.

(** "A floor that starts with a gap is removed": no, not even its part behind the gap. *)
Definition gap_floor : list (Z * Q * Q) :=
  (0%Z, 125 # 100, -1 # 4) :: map (fun p => (fst (fst p), snd (fst p) + (3 # 2), snd p)) (sloped 0 (-1 # 4)).
Example C116_ex_gap : ground_removal demo gap_floor = Ok (gap_floor, [0; 1; 2; 3; 4]%nat, []) /\
  exists out, ground_removal demo (tl gap_floor) = Ok (out, [], [0; 1; 2; 3]%nat).
Proof. split; [vm_compute; reflexivity|]. eexists. vm_compute. reflexivity. Qed.
(** A gap after three cells. *)
Definition bridged : list (Z * Q * Q) :=
  [(0%Z, 125 # 100, -26 # 100); (0%Z, 175 # 100, -24 # 100); (0%Z, 225 # 100, -26 # 100); (0%Z, 475 # 100, -25 # 100);
   (0%Z, 525 # 100, -23 # 100)].
Example C116_ex_over_gap : (exists out, ground_removal demo bridged = Ok (out, [], [0; 1; 2; 3; 4]%nat)) /\
  (forall p, In p bridged -> ltb rational (long_height demo) (absv rational (sub rational (flt_max rational) (height demo p))) = true) /\
  leb rational (long_line demo) (sub rational (475 # 100) (225 # 100)) = true.
Proof.
  split; [eexists; vm_compute; reflexivity|]. split; [|vm_compute; reflexivity].
  intros p H. cbn in H. intuition (subst; vm_compute; reflexivity).
Qed.
Theorem C116_gap_refuted :
  ~ (forall l p out inl outl, ground_removal demo l = Ok (out, inl, outl) -> forall out' inl' outl',
       ground_removal demo (p :: l) = Ok (out', inl', outl') -> fst (fst p) = 0%Z -> snd p == -1 # 4 ->
       forall i, In i outl -> In (Datatypes.S i) outl').
Proof.
  intros H. destruct C116_ex_gap as [E1 [out E2]].
  apply (H (tl gap_floor) (0%Z, 125 # 100, -1 # 4) _ _ _ E2 _ _ _ E1 eq_refl (Qeq_refl _) 0%nat). cbn. auto.
Qed.
Print Assumptions C116_gap_refuted.

(** A sector that is a floor: flat, with a point 2 cm above it (index 5), which is removed. *)
Definition floor2 : list (Z * Q * Q) := flat ++ [(0%Z, 13 # 10, -23 # 100)].
Lemma floor2_low : forall b q, low demo floor2 0 b q <-> (0 <= b < 5)%Z /\ q = ((5 # 4) + inject_Z b * (1 # 2), -1 # 4).
Proof.
  assert (Pl : forall i p s b, in_cell demo floor2 s b i p ->
    (i < 5)%nat /\ b = Z.of_nat i /\ p = (0%Z, (5 # 4) + inject_Z b * (1 # 2), -1 # 4) \/ i = 5%nat /\ b = 0%Z /\ p = (0%Z, 13 # 10, -23 # 100)).
  { intros i p s b [H1 H2]. do 6 (destruct i as [|i]; [vm_compute in H1; injection H1 as <-; vm_compute in H2; injection H2 as <- <-; vm_compute; intuition lia|]).
    destruct i; discriminate. }
  intros b q. split.
  - intros [i [p [[_ [C [M _]]] ->]]]. destruct (Pl _ _ _ _ C) as [[H1 [H2 ->]]|[-> [-> ->]]].
    + split; [lia|]. reflexivity.
    + exfalso. assert (K : in_cell demo floor2 0 0 0 (0%Z, (5 # 4) + inject_Z 0 * (1 # 2), -1 # 4)) by (split; vm_compute; reflexivity).
      assert (0 < length floor2)%nat as L0 by (cbn; lia). specialize (M 0%nat _ L0 K). vm_compute in M. discriminate.
  - intros [Hb ->]. exists (Z.to_nat b), (0%Z, (5 # 4) + inject_Z b * (1 # 2), -1 # 4). split; [|reflexivity].
    assert (C : in_cell demo floor2 0 b (Z.to_nat b) (0%Z, (5 # 4) + inject_Z b * (1 # 2), -1 # 4)).
    { assert (b = 0 \/ b = 1 \/ b = 2 \/ b = 3 \/ b = 4)%Z as [->|[->|[->|[->| ->]]]] by lia; split; vm_compute; reflexivity. }
    split; [cbn; lia|]. split; auto. split.
    + intros j r _ Hr. destruct (Pl _ _ _ _ Hr) as [[_ [_ ->]]|[_ [_ ->]]]; vm_compute; reflexivity.
    + intros j r Hj Hr. destruct (Pl _ _ _ _ Hr) as [[_ [K _]]|[-> [_ _]]]; lia.
Qed.

Lemma sum_const : forall l c, Forall (fun x => snd x = c) l -> sum snd l == inject_Z (Z.of_nat (length l)) * c.
Proof.
  intros l c H. induction H as [|x l E H IH]; [reflexivity|]. cbn [sum fold_right length]. rewrite Qred_correct. fold (sum snd l). rewrite IH, E, Nat2Z.inj_succ.
  unfold Z.succ. rewrite inject_Z_plus. ring.
Qed.
Lemma sum_prod : forall l c, Forall (fun x => snd x = c) l -> sum (fun x => fst x * snd x) l == sum fst l * c.
Proof.
  intros l c H. induction H as [|x l E H IH]; [cbn; ring|]. cbn [sum fold_right length]. rewrite !Qred_correct. fold (sum fst l). fold (sum (fun x => fst x * snd x) l).
  rewrite IH, E. ring.
Qed.
Lemma flat_fit : forall l, l <> [] -> Forall (fun x => snd x = -1 # 4) l -> least_squares l = (0, -1 # 4).
Proof.
  intros l Ne H. unfold least_squares. pose proof (sum_const l _ H) as S1. pose proof (sum_prod l _ H) as S2.
  set (n := inject_Z (Z.of_nat (length l))) in *. set (den := n * sum (fun x => fst x * fst x) l - sum fst l * sum fst l).
  assert (N : ~ n == 0). { unfold n. destruct l; [contradiction|]. cbn [length]. rewrite Nat2Z.inj_succ. intros K. unfold Qeq, inject_Z in K. cbn [Qnum Qden] in K. lia. }
  assert (M : (n * sum (fun x => fst x * snd x) l - sum fst l * sum snd l) / den == 0).
  { rewrite S2, S1. setoid_replace (n * (sum fst l * (-1 # 4)) - sum fst l * (n * (-1 # 4))) with 0 by ring. unfold Qdiv. ring. }
  rewrite (Qred_complete _ _ M). change (Qred 0) with 0.
  assert (B : (sum snd l - 0 * sum fst l) / n == -1 # 4) by (rewrite S1; field; exact N).
  rewrite (Qred_complete _ _ B). reflexivity.
Qed.

Example C116_ex_floor : floor_ demo (low demo floor2 0) /\
  (exists x y z, lowest demo (low demo floor2 0) x /\ lowest demo (low demo floor2 0) y /\ lowest demo (low demo floor2 0) z /\ (fst x < fst y < fst z)%Z) /\
  exists out, ground_removal demo floor2 = Ok (out, [0; 1; 2; 3; 4]%nat, [5]%nat).
Proof.
  split; [|split].
  - constructor.
    + intros [b q] [_ Hl] _. apply floor2_low in Hl. destruct Hl as [_ ->]. vm_compute. reflexivity.
    + intros b b' [q [q' [[_ H1] [[_ H2] [H3 [H4 H5]]]]]]. cbn [fst snd] in H1, H2. apply floor2_low in H1. apply floor2_low in H2.
      destruct H1 as [H1 ->], H2 as [H2 ->]. assert (b' = b + 1)%Z as ->.
      { destruct (Z.eq_dec b' (b + 1)); auto. exfalso. apply (H4 (b + 1)%Z ((5 # 4) + inject_Z (b + 1) * (1 # 2), -1 # 4)); [lia|]. apply floor2_low. split; [lia|reflexivity]. }
      assert (b = 0 \/ b = 1 \/ b = 2 \/ b = 3)%Z as [->|[->|[->| ->]]] by lia; vm_compute in H5; discriminate.
    + intros d D1 D2 _ _. assert (F : Forall (fun x => snd x = -1 # 4) (map snd d)).
      { apply Forall_forall. intros x Hx. apply in_map_iff in Hx. destruct Hx as [[by_ qy] [<- Hy]]. pose proof (proj1 (Forall_forall _ _) D2 _ Hy) as [_ K].
        cbn [fst snd] in *. apply floor2_low in K. destruct K as [_ ->]. reflexivity. }
      unfold accepted. change (fit demo (map snd d)) with (least_squares (map snd d)). rewrite flat_fit; [|destruct d; [cbn in D1; lia|discriminate]|auto]. split.
      * apply Forall_forall. intros [bx qx] Hx. pose proof (proj1 (Forall_forall _ _) D2 _ Hx) as [_ K]. cbn [fst snd] in K. apply floor2_low in K. destruct K as [K ->]. cbn [fst snd].
        assert (bx = 0 \/ bx = 1 \/ bx = 2 \/ bx = 3 \/ bx = 4)%Z as [->|[->|[->|[->| ->]]]] by lia; vm_compute; reflexivity.
      * vm_compute. reflexivity.
    + vm_compute. reflexivity.
  - exists (0%Z, ((5 # 4) + inject_Z 0 * (1 # 2), -1 # 4)), (1%Z, ((5 # 4) + inject_Z 1 * (1 # 2), -1 # 4)), (2%Z, ((5 # 4) + inject_Z 2 * (1 # 2), -1 # 4)).
    assert (L : forall b, (0 <= b < 5)%Z -> lowest demo (low demo floor2 0) (b, ((5 # 4) + inject_Z b * (1 # 2), -1 # 4))).
    { intros b Hb. split; [cbn; lia|]. apply floor2_low. split; [exact Hb|reflexivity]. }
    split; [apply L; lia|]. split; [apply L; lia|]. split; [apply L; lia|cbn; lia].
  - eexists. vm_compute. reflexivity.
Qed.
