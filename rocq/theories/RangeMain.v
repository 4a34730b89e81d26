(** Filter followed by DepthCluster. *)
From Coq Require Import ZArith List Bool Lia Sorted Relations SpecFloat.
From Verif Require Import Outcome TimeModel LoopSpec LoopProofs FloatOrder FilterModel FilterSpec FilterProofs FilterVoxels FilterGround RangeModel RangeSpec RangeProofs RangeVisible RangeCluster.
Import ListNotations.
Local Open Scope outcome_scope.

Lemma floats_one : forall C l p, floats C l -> In p l -> floats C [p].
Proof. intros C l p (A & B) I. split; [assumption|]. intros q [<-|[]]. auto. Qed.
Lemma floats_visible : forall C l, quiet C -> floats C l -> visible C l.
Proof. intros C l Q F p q I H. apply (place_visible C p q Q (floats_one C l p F I) H). Qed.

Lemma spots_nth : forall C l ws, spots C l ws -> forall i q, nth_error ws i = Some (Some q) ->
  exists p, nth_error l i = Some p /\ place C p = Ok (Some q).
Proof.
  intros C l ws S. induction S as [|p w l ws H S IH]; intros [|i] q E; cbn in *; try discriminate; eauto.
  injection E as ->. eauto.
Qed.
Lemma spots_length : forall C l ws, spots C l ws -> length ws = length l.
Proof. intros C l ws S. induction S; cbn; congruence. Qed.

Lemma filling_filled : forall C c cl ws s, quiet C -> floats C (points c) -> spots C (points c) ws -> filling C c cl ws s -> filled C s.
Proof.
  intros C c cl ws s Q F S Fi. repeat split.
  - intros q (_ & V). rewrite (fi_matrix _ _ _ _ _ Fi) in V. rewrite (fi_pixels _ _ _ _ _ Fi). destruct (first_at ws q) as [i|]; [|discriminate].
    cbn. eauto.
  - intros q. unfold label_of. rewrite (fi_pixels _ _ _ _ _ Fi). destruct (first_at ws q); reflexivity.
  - intros q. rewrite (fi_matrix _ _ _ _ _ Fi). destruct (first_at ws q) as [i|] eqn:E; [|discriminate].
    apply first_at_in in E. destruct E as (E & _). destruct (spots_nth _ _ _ S i q E) as (p & Np & Hp). rewrite Np.
    apply (place_visible C p q Q); [|assumption]. eapply floats_one; [eassumption|]. eapply nth_error_In; eassumption.
Qed.

(** Occupied pixels are those some point falls into. *)
Lemma filling_occupied : forall C c cl ws s q, quiet C -> floats C (points c) -> spots C (points c) ws -> filling C c cl ws s ->
  (occupied C (matrix s) q <-> exists i, first_in ws i q).
Proof.
  intros C c cl ws s q Q F S Fi. unfold occupied. rewrite (fi_matrix _ _ _ _ _ Fi). split.
  - intros (_ & V). destruct (first_at ws q) as [i|] eqn:E; [|discriminate]. exists i. apply first_at_in. assumption.
  - intros (i & H). pose proof H as (E & _). apply first_at_in in H. rewrite H. destruct (spots_nth _ _ _ S i q E) as (p & Np & Hp). rewrite Np.
    split; [eapply place_inside; eassumption|]. apply (place_visible C p q Q); [|assumption]. eapply floats_one; [eassumption|]. eapply nth_error_In; eassumption.
Qed.
Lemma filling_index : forall C c cl ws s q i, filling C c cl ws s -> first_in ws i q -> index_of s q = i.
Proof. intros C c cl ws s q i Fi H. unfold index_of. apply first_at_in in H. rewrite (fi_pixels _ _ _ _ _ Fi), H. reflexivity. Qed.

Lemma labelled_spec : forall pts m, (forall k v i, In (k, v) m -> In i v -> i < length pts) ->
  exists out, labelled pts m = Ok out /\ reported pts m out.
Proof.
  intros pts. induction m as [|[k v] m IH]; intros H; cbn [labelled].
  - exists []. split; [reflexivity|]. exists []. split; [constructor|reflexivity].
  - destruct (gather_spec pts v) as (q & -> & P); [intros; eapply H; [left; reflexivity|assumption]|].
    destruct IH as (r & -> & (qs & R & ->)); [intros; eapply H; [right; eassumption|assumption]|].
    cbn [bind]. eexists. split; [reflexivity|]. exists (map (pair k) q :: qs). split; [|reflexivity].
    constructor; [|assumption]. exists q. split; [exact P|reflexivity].
Qed.
Lemma gather_ub : forall pts l, (exists i, In i l /\ length pts <= i) -> gather pts l = UB.
Proof.
  intros pts. induction l as [|j l IH]; intros (i & I & L); [contradiction|]. cbn. destruct (nth_error pts j) as [p|] eqn:E; [|reflexivity].
  destruct I as [->|I]; [assert (nth_error pts i = None) by (apply nth_error_None; assumption); congruence|].
  rewrite IH by eauto. reflexivity.
Qed.
Lemma labelled_ub : forall pts m, (exists k v i, In (k, v) m /\ In i v /\ length pts <= i) -> labelled pts m = UB.
Proof.
  intros pts. induction m as [|[j w] m IH]; intros (k & v & i & I & Iv & L); [contradiction|]. cbn [labelled].
  assert (G : (exists q, gather pts w = Ok q) \/ gather pts w = UB).
  { clear. induction w as [|x w IH]; cbn; [eauto|]. destruct (nth_error pts x); [|auto]. destruct IH as [(q & ->)| ->]; cbn; eauto. }
  destruct I as [E|I].
  - injection E as -> ->. rewrite gather_ub by eauto. reflexivity.
  - destruct G as [(q & ->)| ->]; [|reflexivity]. cbn [bind]. rewrite IH by eauto 8. reflexivity.
Qed.

Lemma grid_length : forall C, (0 <= rows C)%Z -> (0 <= cols C)%Z -> length (grid C) = Z.to_nat (rows C * cols C).
Proof.
  intros C Hr Hc. unfold grid. rewrite Z2Nat.inj_mul by assumption.
  generalize (Z.to_nat (rows C)), (Z.to_nat (cols C)). intros n m.
  assert (G : forall k, length (flat_map (fun r => map (fun c => (Z.of_nat r, Z.of_nat c)) (seq 0 m)) (seq k n)) = n * m); [|apply G].
  induction n as [|n IH]; intros k; cbn [seq flat_map]; [reflexivity|].
  rewrite app_length, map_length, seq_length, IH. reflexivity.
Qed.

Lemma cluster_run : forall C c s0 ws old fuel, (0 < rows C)%Z -> (2 <= cols C)%Z -> points c <> [] -> quiet C ->
  floats C (points c) -> spots C (points c) ws -> Z.to_nat (7 * rows C * cols C + 1) <= fuel ->
  exists s1 out s2 next, filter C (set_input C (Some c) s0) old = Ok (s1, out) /\ filling C c (clusters s0) ws s1 /\
    (forall q, occupied C (matrix s1) q <-> exists i, first_in ws i q) /\
    sweep C fuel (grid C) 1 s1 = Some (Ok s2) /\ labelling C s1 s2 next /\
    (forall p, occupied C (matrix s1) p -> label_of s2 p <> 0) /\
    (clusters s0 = [] -> tidy C s2 next) /\
    ((forall ps, NoDup ps -> (forall q, In q ps -> occupied C (matrix s1) q) -> length ps < 20) -> clusters s2 = clusters s0).
Proof.
  intros C c s0 ws old fuel Hr Hc Hn Q F S Hf.
  destruct (filter_ok C c s0 ws old Hr ltac:(lia) Hn (floats_visible C _ Q F) S) as (s1 & out & E & Fi & _).
  pose proof (filling_filled C c _ ws s1 Q F S Fi) as Fd.
  destruct (cluster_spec C Hc s1 fuel Fd) as (s2 & next & Sw & La & A & T & Sm).
  { rewrite grid_length by lia. lia. }
  exists s1, out, s2, next. rewrite (fi_clusters _ _ _ _ _ Fi) in T, Sm. split; [assumption|]. split; [assumption|].
  split; [intros q; eapply filling_occupied; eassumption|]. auto 10.
Qed.

Lemma enumerated_bound : forall C c cl ws s1 s2 next k v i, filling C c cl ws s1 -> spots C (points c) ws -> labelling C s1 s2 next ->
  (forall q, occupied C (matrix s1) q <-> exists i, first_in ws i q) -> enumerates C s2 k v -> In i v -> i < length (points c).
Proof.
  intros C c cl ws s1 s2 next k v i Fi S La Oc (ps & N & I & ->) Hi. apply in_map_iff in Hi. destruct Hi as (q & <- & Hq).
  apply I in Hq. destruct Hq as (O & _). rewrite (la_matrix _ _ _ _ La) in O. apply Oc in O. destruct O as (j & Hj).
  rewrite (la_index _ _ _ _ La), (filling_index _ _ _ _ _ _ _ Fi Hj). destruct Hj as (E & _).
  rewrite <- (spots_length _ _ _ S). apply nth_error_Some. congruence.
Qed.

Lemma few_points : forall C c cl ws s1, filling C c cl ws s1 -> spots C (points c) ws -> (forall q, occupied C (matrix s1) q <-> exists i, first_in ws i q) ->
  forall ps, NoDup ps -> (forall q, In q ps -> occupied C (matrix s1) q) -> length ps <= length (points c).
Proof.
  intros C c cl ws s1 Fi S Oc ps N H. rewrite <- (map_length (index_of s1) ps), <- (seq_length (length (points c)) 0).
  apply NoDup_incl_length.
  - clear S. induction ps as [|p ps IH]; cbn; [constructor|]. inversion_clear N as [|? ? N1 N2].
    constructor; [|apply IH; [assumption|intros; apply H; right; assumption]].
    intros I. apply in_map_iff in I. destruct I as (q & E & I).
    destruct (proj1 (Oc p) (H p (or_introl eq_refl))) as (i & Hi). destruct (proj1 (Oc q) (H q (or_intror I))) as (j & Hj).
    rewrite (filling_index _ _ _ _ _ _ _ Fi Hi), (filling_index _ _ _ _ _ _ _ Fi Hj) in E. subst j.
    destruct Hi as (Ei & _), Hj as (Ej & _). congruence.
  - intros i I. apply in_map_iff in I. destruct I as (q & <- & I). destruct (proj1 (Oc q) (H q I)) as (j & Hj).
    rewrite (filling_index _ _ _ _ _ _ _ Fi Hj). destruct Hj as (E & _). apply in_seq. rewrite <- (spots_length _ _ _ S).
    split; [lia|]. apply nth_error_Some. congruence.
Qed.

(** One column: the step by two leaves the image. *)
Lemma one_column : forall C s fuel, cols C = 1%Z -> filled C s -> (exists q, occupied C (matrix s) q) -> 0 < fuel ->
  sweep C fuel (grid C) 1 s = Some UB.
Proof.
  intros C s fuel H1 (P & Z0 & _) (q0 & O0) Hf.
  assert (One : forall q, occupied C (matrix s) q -> label_one C fuel 1 q s = Some UB).
  { intros q (Iq & V). destruct fuel as [|n]; [lia|]. unfold label_one. cbn [spread]. unfold read at 1.
    rewrite (proj2 (in_image_inside C q) Iq). cbn [bind]. rewrite V. unfold at_pix at 1. destruct (P q (conj Iq V)) as (i & E). rewrite E. cbn [bind snd Nat.ltb Nat.leb fst].
    set (s1 := mkImage _ _ _ _ _ _). destruct q as [r c]. assert (c = 0%Z) by (destruct Iq as (_ & Hc); cbn [snd] in Hc; lia). subst c.
    assert (V1 : visit C s1 (r, 0%Z) steps = UB); [|rewrite V1; reflexivity].
    destruct Iq as (Hr & _). cbn [fst] in Hr.
    assert (Back : forall d, (d = 1 \/ d = -1)%Z -> neighbour C (r, 0%Z) (0%Z, d) = Some (r, 0%Z)).
    { intros d D. unfold neighbour. cbn [fst snd]. rewrite Z.add_0_r, H1.
      destruct (Z.ltb_spec r 0); [lia|]. destruct (Z.leb_spec (rows C) r); [lia|]. cbn [orb]. destruct D as [-> | ->]; reflexivity. }
    assert (Skip : forall l d, (d = 1 \/ d = -1)%Z -> visit C s1 (r, 0%Z) ((0%Z, d) :: l) = visit C s1 (r, 0%Z) l).
    { intros l d D. cbn [visit]. rewrite Back by assumption. unfold read at 1.
      rewrite (proj2 (in_image_inside C (r, 0%Z))) by (split; cbn [fst snd]; lia). cbn [bind].
      change (matrix s1) with (matrix s). rewrite V. unfold at_pix at 1. cbn [pixels s1]. unfold set_pix. rewrite pix_eq_refl. reflexivity. }
    unfold steps. rewrite Skip by auto. rewrite Skip by auto. cbn [visit].
    assert (N : neighbour C (r, 0%Z) (0, 2)%Z = Some (r, 1)%Z).
    { unfold neighbour. cbn [fst snd]. rewrite Z.add_0_r, H1. destruct (Z.ltb_spec r 0); [lia|]. destruct (Z.leb_spec (rows C) r); [lia|]. reflexivity. }
    rewrite N. unfold read at 1. unfold in_image. cbn [fst snd]. rewrite H1. rewrite andb_false_r. reflexivity. }
  assert (Sw : forall l, (forall q, In q l -> inside C q) -> (exists q, In q l /\ vacant (matrix s q) = false) -> sweep C fuel l 1 s = Some UB).
  { induction l as [|p l IH]; intros Hl (q & Iq & Vq); [contradiction|]. cbn [sweep]. destruct (vacant (matrix s p)) eqn:V.
    - apply IH; [intros; apply Hl; right; assumption|]. exists q. split; [|assumption]. destruct Iq as [->|Iq]; [congruence|assumption].
    - assert (O : occupied C (matrix s) p) by (split; [apply Hl; left; reflexivity|assumption]). unfold at_pix. destruct (P p O) as (i & E). rewrite E. cbn [snd Nat.ltb Nat.leb].
      rewrite One by assumption. reflexivity. }
  apply Sw; [intros q; apply in_grid|]. exists q0. split; [apply in_grid; apply O0|apply O0].
Qed.
