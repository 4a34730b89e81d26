(** Proofs about depth clustering. *)
From Coq Require Import ZArith List Bool Lia Sorted Relations SpecFloat.
From Verif Require Import Outcome TimeModel LoopSpec LoopProofs FloatOrder FilterModel FilterSpec FilterProofs FilterVoxels FilterGround RangeModel RangeSpec RangeProofs.
Import ListNotations.
Local Open Scope outcome_scope.

Lemma in_image_inside : forall C q, in_image C q = true <-> inside C q.
Proof. intros C q. unfold in_image, inside. rewrite !andb_true_iff, !Z.leb_le, !Z.ltb_lt. tauto. Qed.
Lemma in_grid : forall C q, In q (grid C) <-> inside C q.
Proof.
  intros C [r c]. unfold grid, inside. cbn [fst snd]. rewrite in_flat_map. split.
  - intros (i & Hi & H). apply in_map_iff in H. destruct H as (j & E & Hj). injection E as <- <-. rewrite in_seq in Hi, Hj. lia.
  - intros (Hr & Hc). exists (Z.to_nat r). rewrite in_seq. split; [lia|]. apply in_map_iff. exists (Z.to_nat c). rewrite in_seq.
    split; [f_equal; lia|lia].
Qed.

(** ** Neighbours *)
Lemma neighbour_inside : forall C p st q, (2 <= cols C)%Z -> inside C p -> In st steps -> neighbour C p st = Some q -> inside C q.
Proof.
  intros C [r c] st q H2 (Hr & Hc) Hs H. cbn [fst snd] in *. unfold neighbour in H. cbv zeta in H. cbn [fst snd] in H.
  destruct ((r + fst st <? 0) || (rows C <=? r + fst st))%Z eqn:B; [discriminate|]. injection H as <-.
  apply orb_false_iff in B. rewrite Z.ltb_ge, Z.leb_gt in B. unfold inside. cbn [fst snd].
  assert (D : (-2 <= snd st <= 2)%Z) by (repeat (destruct Hs as [<-|Hs]; [cbn; lia|]); destruct Hs).
  split; [lia|]. destruct (Z.ltb_spec (c + snd st) 0); [lia|]. destruct (Z.leb_spec (cols C) (c + snd st)); lia.
Qed.
Lemma neighbour_adjacent : forall C p st q, (2 <= cols C)%Z -> inside C p -> In st steps -> neighbour C p st = Some q ->
  adjacent C (Z.eqb (fst st) 0) p q.
Proof.
  intros C [r c] st q H2 (Hr & Hc) Hs H. cbn [fst snd] in *. unfold neighbour in H. cbv zeta in H. cbn [fst snd] in H.
  destruct ((r + fst st <? 0) || (rows C <=? r + fst st))%Z eqn:B; [discriminate|]. injection H as <-.
  assert (M : forall k, (k = 0 \/ k = cols C \/ k = - cols C -> k mod cols C = 0)%Z).
  { intros k [->|[->| ->]]; [apply Z.mod_0_l; lia|apply Z.mod_same; lia|].
    rewrite <- (Z.mul_1_l (cols C)) at 1. rewrite <- Z.mul_opp_l. apply Z.mod_mul. lia. }
  unfold steps in Hs. cbn [In] in Hs. unfold adjacent. cbn [fst snd].
  destruct Hs as [<-|[<-|[<-|[<-|[<-|[<-|[]]]]]]]; cbn [fst snd Z.eqb].
  - split; [lia|]. exists 1%Z. split; [lia|]. left. apply M. destruct (Z.ltb_spec (c + 1) 0), (Z.leb_spec (cols C) (c + 1)); lia.
  - split; [lia|]. exists 1%Z. split; [lia|]. right. apply M. destruct (Z.ltb_spec (c + -1) 0), (Z.leb_spec (cols C) (c + -1)); lia.
  - split; [lia|]. exists 2%Z. split; [lia|]. left. apply M. destruct (Z.ltb_spec (c + 2) 0), (Z.leb_spec (cols C) (c + 2)); lia.
  - split; [lia|]. exists 2%Z. split; [lia|]. right. apply M. destruct (Z.ltb_spec (c + -2) 0), (Z.leb_spec (cols C) (c + -2)); lia.
  - split; [|lia]. destruct (Z.ltb_spec (c + 0) 0), (Z.leb_spec (cols C) (c + 0)); lia.
  - split; [|lia]. destruct (Z.ltb_spec (c + 0) 0), (Z.leb_spec (cols C) (c + 0)); lia.
Qed.
Lemma mod_zero_cases : forall n k, (0 < n -> - 2 * n < k < 2 * n -> k mod n = 0 -> k = 0 \/ k = n \/ k = - n)%Z.
Proof.
  intros n k Hn Hk M. pose proof (Z.div_mod k n ltac:(lia)) as D. rewrite M, Z.add_0_r in D.
  assert (-2 < k / n < 2)%Z by nia. assert (k / n = -1 \/ k / n = 0 \/ k / n = 1)%Z as [E|[E|E]] by lia; rewrite E in D; lia.
Qed.
Lemma adjacent_neighbour : forall C h p q, (2 <= cols C)%Z -> inside C p -> inside C q -> adjacent C h p q ->
  exists st, In st steps /\ neighbour C p st = Some q /\ Z.eqb (fst st) 0 = h.
Proof.
  intros C h [r c] [u v] H2 (Hr & Hc) (Hu & Hv) A. cbn [fst snd] in *. unfold neighbour. cbv zeta. cbn [fst snd].
  assert (W : forall d dc, (0 <= d < rows C)%Z -> (-2 <= dc <= 2)%Z -> (v - c - dc = 0 \/ v - c - dc = cols C \/ v - c - dc = - cols C)%Z ->
    (if ((d <? 0) || (rows C <=? d))%Z then None
     else Some (d, if (c + dc <? 0)%Z then (c + dc + cols C)%Z else if (cols C <=? c + dc)%Z then (c + dc - cols C)%Z else (c + dc)%Z)) = Some (d, v)).
  { intros d dc Hd Hdc Hv'. replace ((d <? 0) || (rows C <=? d))%Z with false by (symmetry; apply orb_false_iff; rewrite Z.ltb_ge, Z.leb_gt; lia).
    f_equal. f_equal. destruct (Z.ltb_spec (c + dc) 0); [lia|]. destruct (Z.leb_spec (cols C) (c + dc)); lia. }
  unfold adjacent in A. destruct h; cbn [fst snd] in A.
  - destruct A as (<- & d & Hd & M).
    assert (K : exists dc, In (0%Z, dc) steps /\ (-2 <= dc <= 2)%Z /\ (v - c - dc = 0 \/ v - c - dc = cols C \/ v - c - dc = - cols C)%Z).
    { destruct M as [M|M]; (apply mod_zero_cases in M; [|lia|lia]).
      - exists d. destruct Hd as [->| ->]; (split; [cbn; tauto|]); split; lia.
      - exists (- d)%Z. destruct Hd as [->| ->]; (split; [cbn; tauto|]); split; lia. }
    destruct K as (dc & I & B & K). exists (0%Z, dc). split; [assumption|]. cbn [fst snd]. split; [|reflexivity].
    replace (r + 0)%Z with r by lia. apply W; lia || assumption.
  - destruct A as (<- & A). exists (u - r, 0)%Z. assert (E : (u - r = 1 \/ u - r = -1)%Z) by lia. split; [|split].
    + destruct E as [->| ->]; cbn; tauto.
    + cbn [fst snd]. replace (r + (u - r))%Z with u by lia. apply W; lia.
    + cbn [fst]. apply Z.eqb_neq. lia.
Qed.
Lemma adjacent_sym : forall C h p q, adjacent C h p q -> adjacent C h q p.
Proof.
  intros C [] p q H; cbn in *.
  - destruct H as (E & d & D & M). split; [congruence|]. exists d. tauto.
  - destruct H as (E & M). split; [congruence|lia].
Qed.
Lemma linked_sym : forall C m p q, linked C m p q -> linked C m q p.
Proof.
  intros C m p q (A & B & h & hi & lo & D & E & F). split; [assumption|]. split; [assumption|]. exists h, hi, lo.
  split; [apply adjacent_sym; assumption|]. split; [tauto|assumption].
Qed.
Lemma connected_sym : forall C m p q, connected C m p q -> connected C m q p.
Proof. intros C m p q H. induction H; [apply rt_step, linked_sym; assumption|apply rt_refl|eapply rt_trans; eassumption]. Qed.

(** std::max and std::min on two ranges that are not NaN. *)
Lemma vacant_num : forall x, x <> S754_nan -> num x.
Proof. intros x H. apply num_nan. assumption. Qed.
Lemma not_zero : forall s, vacant (S754_zero s) = true.
Proof. intros []; reflexivity. Qed.
Lemma max_min : forall a b, a <> S754_nan -> b <> S754_nan -> vacant a = false -> vacant b = false ->
  forall hi lo, ((hi = a /\ lo = b) \/ (hi = b /\ lo = a)) /\ fle lo hi <->
    hi = (if SFltb a b then b else a) /\ lo = (if SFltb b a then b else a).
Proof.
  intros a b Na Nb Va Vb hi lo. apply vacant_num in Na, Nb.
  assert (T : SFltb a b = true -> SFltb b a = true -> False).
  { intros H K. pose proof (SFltb_leb_trans _ _ _ H (SFltb_leb _ _ K)) as F. apply SFltb_key in F.
    destruct F as (x & y & E1 & E2 & F). rewrite E1 in E2. injection E2 as <-. exact (klt_irrefl _ F). }
  assert (Eqv : SFltb a b = false -> SFltb b a = false -> a = b).
  { intros H K. destruct (le_le_same a b) as [E|(s & t & -> & ->)].
    - apply SFltb_false; assumption.
    - apply SFltb_false; assumption.
    - assumption.
    - rewrite not_zero in Va. discriminate. }
  destruct (SFltb a b) eqn:Lab, (SFltb b a) eqn:Lba.
  - exfalso. auto.
  - split.
    + intros ([(-> & ->)|(-> & ->)] & F); [|auto]. exfalso. apply SFleb_fle in F. pose proof (SFltb_leb_trans _ _ _ Lab F) as G.
      apply SFltb_key in G. destruct G as (x & y & E1 & E2 & G). rewrite E1 in E2. injection E2 as <-. exact (klt_irrefl _ G).
    + intros (-> & ->). split; [right; auto|]. apply SFleb_fle, SFltb_leb. assumption.
  - split.
    + intros ([(-> & ->)|(-> & ->)] & F); [auto|]. exfalso. apply SFleb_fle in F. pose proof (SFltb_leb_trans _ _ _ Lba F) as G.
      apply SFltb_key in G. destruct G as (x & y & E1 & E2 & G). rewrite E1 in E2. injection E2 as <-. exact (klt_irrefl _ G).
    + intros (-> & ->). split; [left; auto|]. apply SFleb_fle, SFltb_leb. assumption.
  - rewrite (Eqv eq_refl eq_refl) in *. split.
    + intros ([(-> & ->)|(-> & ->)] & F); auto.
    + intros (-> & ->). split; [left; auto|]. apply SFleb_fle, SFleb_refl. assumption.
Qed.

(** ** One step of the search *)
Section Search.
  Variable C : config.
  Hypothesis two : (2 <= cols C)%Z.

  Definition present (s : image) : Prop := forall q, occupied C (matrix s) q -> exists v, pixels s q = Some v.
  Definition no_nan (s : image) : Prop := forall q, matrix s q <> S754_nan.

  Lemma visit_spec : forall s p l, (forall st, In st l -> In st steps) -> present s -> no_nan s -> occupied C (matrix s) p ->
    exists new, visit C s p l = Ok new /\ length new <= length l /\
      forall q, In q new <-> (exists st, In st l /\ neighbour C p st = Some q /\ occupied C (matrix s) q /\ label_of s q = 0 /\
        wide C (Z.eqb (fst st) 0) (if SFltb (matrix s p) (matrix s q) then matrix s q else matrix s p)
          (if SFltb (matrix s q) (matrix s p) then matrix s q else matrix s p) = true).
  Proof.
    intros s p l Hl Pr NN (Ip & Vp). induction l as [|st l IH].
    - exists []. cbn. split; [reflexivity|]. split; [lia|]. intros q. split; [contradiction|intros (? & [] & _)].
    - destruct IH as (new & E & Len & Inew); [intros; apply Hl; right; assumption|]. cbn [visit].
      assert (Skip : forall P : Prop, (forall q, neighbour C p st = Some q -> occupied C (matrix s) q -> label_of s q = 0 ->
          wide C (Z.eqb (fst st) 0) (if SFltb (matrix s p) (matrix s q) then matrix s q else matrix s p)
            (if SFltb (matrix s q) (matrix s p) then matrix s q else matrix s p) = true -> False) ->
        exists new0, visit C s p l = Ok new0 /\ length new0 <= length (st :: l) /\
          forall q, In q new0 <-> (exists st0, In st0 (st :: l) /\ neighbour C p st0 = Some q /\ occupied C (matrix s) q /\ label_of s q = 0 /\
            wide C (Z.eqb (fst st0) 0) (if SFltb (matrix s p) (matrix s q) then matrix s q else matrix s p)
              (if SFltb (matrix s q) (matrix s p) then matrix s q else matrix s p) = true)).
      { intros _ No. exists new. split; [assumption|]. split; [cbn; lia|]. intros q. rewrite Inew. split.
        - intros (st0 & I & R). exists st0. split; [right; assumption|assumption].
        - intros (st0 & [<-|I] & R1 & R2 & R3 & R4); [exfalso; eauto|exists st0; auto]. }
      destruct (neighbour C p st) as [q|] eqn:Nq; [|apply (Skip True); discriminate].
      pose proof (neighbour_inside C p st q two Ip (Hl st (or_introl eq_refl)) Nq) as Iq.
      unfold read at 1. rewrite (proj2 (in_image_inside C q) Iq). cbn [bind].
      destruct (vacant (matrix s q)) eqn:Vq.
      { apply (Skip True). intros q' Eq' (_ & Vq') _ _. injection Eq' as <-. congruence. }
      destruct (Pr q (conj Iq Vq)) as ([i lb] & Pq). unfold at_pix. rewrite Pq. cbn [bind snd].
      destruct (Nat.ltb_spec 0 lb).
      { apply (Skip True). intros q' Eq' _ Lq _. injection Eq' as <-. unfold label_of in Lq. rewrite Pq in Lq. lia. }
      unfold read. rewrite (proj2 (in_image_inside C p) Ip). cbn [bind]. rewrite E. cbn [bind].
      destruct (wide C (Z.eqb (fst st) 0) _ _) eqn:Wq.
      + exists (q :: new). split; [reflexivity|]. split; [cbn; lia|]. intros q'. cbn [In]. rewrite Inew. split.
        * intros [<-|(st0 & I & R)]; [|exists st0; auto]. exists st. split; [auto|]. split; [assumption|]. split; [split; assumption|].
          split; [unfold label_of; rewrite Pq; lia|assumption].
        * intros (st0 & [<-|I] & R1 & R); [left; congruence|right; exists st0; auto].
      + exists new. split; [reflexivity|]. split; [cbn; lia|]. intros q'. rewrite Inew. split.
        * intros (st0 & I & R). exists st0. split; [right; assumption|assumption].
        * intros (st0 & [<-|I] & R1 & R2 & R3 & R4); [|exists st0; auto]. rewrite Nq in R1. injection R1 as <-. congruence.
  Qed.

  (** In terms of links: exactly the linked pixels without a label are pushed. *)
  Lemma visit_links : forall s p, present s -> no_nan s -> occupied C (matrix s) p ->
    exists new, visit C s p steps = Ok new /\ length new <= 6 /\
      forall q, In q new <-> linked C (matrix s) p q /\ label_of s q = 0.
  Proof.
    intros s p Pr NN Op. destruct (visit_spec s p steps (fun _ H => H) Pr NN Op) as (new & E & Len & I).
    exists new. split; [assumption|]. split; [exact Len|]. intros q. rewrite I. clear I. split.
    - intros (st & Hs & Nq & Oq & Lq & W). split; [|assumption]. split; [assumption|]. split; [assumption|].
      exists (Z.eqb (fst st) 0). eexists _, _. split; [eapply neighbour_adjacent; try eassumption; apply Op|].
      apply and_assoc. split; [|exact W]. apply max_min; auto; [apply Op|apply Oq].
    - intros ((_ & Oq & h & hi & lo & A & D & F & W) & Lq).
      destruct (adjacent_neighbour C h p q two (proj1 Op) (proj1 Oq) A) as (st & Hs & Nq & Eh).
      exists st. repeat (split; [assumption|]). rewrite Eh.
      destruct (proj1 (max_min (matrix s p) (matrix s q) (NN p) (NN q) (proj2 Op) (proj2 Oq) hi lo) (conj D F)) as (E1 & E2).
      rewrite E1, E2 in W. exact W.
  Qed.

  (** ** Termination *)
  Definition open_pix (s : image) (p : pix) : bool := in_image C p && negb (vacant (matrix s p)) && Nat.eqb (label_of s p) 0.
  Definition work (s : image) : nat := length (List.filter (open_pix s) (grid C)).
  Definition relabel (s : image) (p : pix) (i l : nat) : image :=
    mkImage (source s) (matrix s) (set_pix (pixels s) p (Some (i, l))) (clusters s) (kept s) (dropped s).

  Lemma label_relabel : forall s p i l q, label_of (relabel s p i l) q = if pix_eq q p then l else label_of s q.
  Proof. intros. unfold label_of, relabel, set_pix. cbn [pixels]. destruct (pix_eq q p); reflexivity. Qed.
  Lemma index_relabel : forall s p i l q, index_of (relabel s p i l) q = if pix_eq q p then i else index_of s q.
  Proof. intros. unfold index_of, relabel, set_pix. cbn [pixels]. destruct (pix_eq q p); reflexivity. Qed.

  Lemma filter_shrinks : forall (f g : pix -> bool) l x, (forall y, g y = true -> f y = true) -> In x l -> f x = true -> g x = false ->
    length (List.filter g l) < length (List.filter f l).
  Proof.
    intros f g l x H. assert (Le : forall l, length (List.filter g l) <= length (List.filter f l)).
    { induction l0 as [|y l0 IH]; cbn; [lia|]. destruct (g y) eqn:G; [rewrite (H y G); cbn; lia|destruct (f y); cbn; lia]. }
    induction l as [|y l IH]; intros I Fx Gx; [contradiction|]. cbn. destruct I as [->|I].
    - rewrite Fx, Gx. cbn. specialize (Le l). lia.
    - specialize (IH I Fx Gx). destruct (g y) eqn:G; [rewrite (H y G); cbn; lia|destruct (f y); cbn; lia].
  Qed.
  Lemma work_relabel : forall s p i l, occupied C (matrix s) p -> label_of s p = 0 -> 0 < l -> work (relabel s p i l) < work s.
  Proof.
    intros s p i l (Ip & Vp) L Hl. unfold work. apply (filter_shrinks _ _ _ p).
    - intros y. unfold open_pix. rewrite label_relabel. cbn [matrix relabel]. destruct (pix_eq_spec y p) as [->|]; [|auto].
      rewrite !andb_true_iff, Nat.eqb_eq. lia.
    - apply in_grid. assumption.
    - unfold open_pix. rewrite (proj2 (in_image_inside C p) Ip), Vp, L. reflexivity.
    - unfold open_pix. rewrite label_relabel, pix_eq_refl. destruct l; [lia|]. cbn. apply andb_false_r.
  Qed.
  Lemma present_relabel : forall s p i l, present s -> present (relabel s p i l).
  Proof.
    intros s p i l H q O. cbn [matrix relabel] in O. destruct (H q O) as (v & E). cbn [pixels relabel]. unfold set_pix.
    destruct (pix_eq q p); eauto.
  Qed.

  (** ** The search of one component *)
  Record searching (s0 : image) (start : pix) (label : nat) (s : image) (queue : list pix) (found : list nat) (ds : list pix) : Prop := {
    se_source : source s = source s0;
    se_matrix : matrix s = matrix s0;
    se_clusters : clusters s = clusters s0;
    se_kept : kept s = kept s0; se_dropped : dropped s = dropped s0;
    se_label : forall q, label_of s q = if existsb (pix_eq q) ds then label else label_of s0 q;
    se_index : forall q, index_of s q = index_of s0 q;
    se_present : present s;
    se_nodup : NoDup ds;
    se_open : forall p, In p ds -> occupied C (matrix s0) p /\ label_of s0 p = 0;
    se_found : found = map (index_of s0) ds;
    se_queue : forall p, In p queue -> occupied C (matrix s0) p;
    se_conn : forall p, In p ds \/ In p queue -> connected C (matrix s0) start p;
    se_closed : forall p q, In p ds -> linked C (matrix s0) p q -> In q ds \/ In q queue \/ label_of s0 q <> 0;
    se_start : In start ds \/ In start queue;
    se_fresh : label_of s0 start = 0
  }.

  Lemma existsb_pix : forall q l, existsb (pix_eq q) l = true <-> In q l.
  Proof.
    intros q l. rewrite existsb_exists. split.
    - intros (x & I & E). apply pix_eq_true in E. congruence.
    - intros I. exists q. split; [assumption|apply pix_eq_refl].
  Qed.

  Lemma NoDup_app_snoc : forall (l : list pix) x, NoDup l -> ~ In x l -> NoDup (l ++ [x]).
  Proof.
    induction l as [|y l IH]; intros x N I; cbn; [constructor; [easy|constructor]|]. inversion_clear N as [|? ? N1 N2].
    constructor; [|apply IH; [assumption|intros H; apply I; right; assumption]].
    rewrite in_app_iff. intros [H|[->|[]]]; [contradiction|apply I; left; reflexivity].
  Qed.

  Lemma spread_spec : forall fuel s0 start label s queue found ds, 0 < label -> no_nan s0 ->
    searching s0 start label s queue found ds -> 7 * work s + length queue <= fuel ->
    exists s' found' ds', spread C fuel label queue found s = Some (Ok (s', found')) /\
      searching s0 start label s' [] found' ds'.
  Proof.
    induction fuel as [|n IH]; intros s0 start label s queue found ds Hl NN Inv Hf.
    - destruct queue as [|p queue]; [|cbn in Hf; lia]. exists s, found, ds. cbn. auto.
    - destruct queue as [|p queue]; [exists s, found, ds; cbn; auto|]. cbn [spread].
      destruct (se_queue _ _ _ _ _ _ _ Inv p (or_introl eq_refl)) as (Ip & Vp).
      unfold read. rewrite (proj2 (in_image_inside C p) Ip). cbn [bind].
      assert (Vs : vacant (matrix s p) = false) by (rewrite (se_matrix _ _ _ _ _ _ _ Inv); exact Vp). rewrite Vs.
      destruct (se_present _ _ _ _ _ _ _ Inv p) as ([i lb] & Pp); [rewrite (se_matrix _ _ _ _ _ _ _ Inv); split; assumption|].
      unfold at_pix. rewrite Pp. cbn [bind snd fst].
      assert (Lp : label_of s p = lb) by (unfold label_of; rewrite Pp; reflexivity).
      assert (Xp : index_of s p = i) by (unfold index_of; rewrite Pp; reflexivity).
      destruct (Nat.ltb_spec 0 lb) as [L|L].
      + (* already labelled *)
        apply (IH s0 start label s queue found ds Hl NN); [|cbn in Hf; lia].
        assert (Old : In p ds \/ label_of s0 p <> 0).
        { pose proof (se_label _ _ _ _ _ _ _ Inv p) as E. rewrite Lp in E. destruct (existsb (pix_eq p) ds) eqn:Ex.
          - left. apply existsb_pix. assumption.
          - right. lia. }
        destruct Inv. constructor; try assumption.
        * intros q Hq. apply se_queue0. right. assumption.
        * intros q Hq. apply se_conn0. destruct Hq; [left|right; right]; assumption.
        * intros a q Ha Lk. destruct (se_closed0 a q Ha Lk) as [H|[[<-|H]|H]]; auto. destruct Old; auto.
        * destruct se_start0 as [H|[->|H]]; auto. destruct Old as [H|H]; [auto|congruence].
      + (* a new pixel *)
        assert (Nd : ~ In p ds).
        { intros I. pose proof (se_label _ _ _ _ _ _ _ Inv p) as E. rewrite Lp in E. apply existsb_pix in I. rewrite I in E. lia. }
        assert (L0 : label_of s0 p = 0).
        { pose proof (se_label _ _ _ _ _ _ _ Inv p) as E. rewrite Lp in E. destruct (existsb (pix_eq p) ds) eqn:Ex; [|lia].
          apply existsb_pix in Ex. contradiction. }
        pose proof (se_matrix _ _ _ _ _ _ _ Inv) as M.
        fold (relabel s p i label). set (s1 := relabel s p i label).
        assert (M1 : matrix s1 = matrix s0) by exact M.
        destruct (visit_links s1 p) as (new & Ev & Len & New).
        { apply present_relabel. apply (se_present _ _ _ _ _ _ _ Inv). }
        { intros q. rewrite M1. apply NN. }
        { rewrite M1. split; assumption. }
        rewrite Ev. rewrite M1 in New.
        assert (Lab1 : forall q, label_of s1 q = if existsb (pix_eq q) (ds ++ [p]) then label else label_of s0 q).
        { intros q. unfold s1. rewrite label_relabel, existsb_app. cbn [existsb]. rewrite orb_false_r, (se_label _ _ _ _ _ _ _ Inv).
          destruct (pix_eq q p); [rewrite orb_true_r; reflexivity|rewrite orb_false_r; reflexivity]. }
        apply (IH s0 start label s1 (queue ++ new) (found ++ [i]) (ds ++ [p]) Hl NN).
        * pose proof (se_conn _ _ _ _ _ _ _ Inv p (or_intror (or_introl eq_refl))) as Cp.
          assert (Xi : i = index_of s0 p) by (rewrite <- (se_index _ _ _ _ _ _ _ Inv p); congruence).
          destruct Inv. constructor; try assumption.
          -- intros q. unfold s1. rewrite index_relabel. destruct (pix_eq_spec q p) as [->|]; [congruence|apply se_index0].
          -- apply present_relabel. assumption.
          -- apply NoDup_app_snoc; assumption.
          -- intros q Hq. apply in_app_iff in Hq. destruct Hq as [Hq|[<-|[]]]; [auto|]. split; [split; assumption|assumption].
          -- rewrite map_app. cbn [map]. congruence.
          -- intros q Hq. apply in_app_iff in Hq. destruct Hq as [Hq|Hq]; [apply se_queue0; right; assumption|].
             apply New in Hq. destruct Hq as ((_ & Oq & _) & _). exact Oq.
          -- intros q Hq. rewrite !in_app_iff in Hq. destruct Hq as [[Hq|[<-|[]]]|[Hq|Hq]]; auto.
             ++ apply se_conn0. right. right. assumption.
             ++ apply New in Hq. eapply rt_trans; [exact Cp|apply rt_step; tauto].
          -- intros a q Ha Lk. rewrite !in_app_iff. apply in_app_iff in Ha. destruct Ha as [Ha|[<-|[]]].
             ++ destruct (se_closed0 a q Ha Lk) as [H|[[<-|H]|H]]; cbn; tauto.
             ++ destruct (Nat.eq_dec (label_of s1 q) 0) as [Z|Z].
                ** right. left. right. apply New. auto.
                ** rewrite Lab1 in Z. destruct (existsb (pix_eq q) (ds ++ [p])) eqn:Ex; [|auto].
                   apply existsb_pix, in_app_iff in Ex. left. exact Ex.
          -- rewrite !in_app_iff. destruct se_start0 as [H|[<-|H]]; cbn; tauto.
        * assert (W : work s1 < work s).
          { apply work_relabel; [rewrite M; split; assumption|rewrite Lp; lia|assumption]. }
          rewrite app_length. cbn in Hf. lia.
  Qed.

  (** ** All components *)
  Record labelling (b s : image) (next : nat) : Prop := {
    la_source : source s = source b;
    la_matrix : matrix s = matrix b;
    la_kept : kept s = kept b; la_dropped : dropped s = dropped b;
    la_index : forall q, index_of s q = index_of b q;
    la_present : present s;
    la_range : forall p, label_of s p <> 0 -> occupied C (matrix b) p /\ label_of s p < next;
    la_closed : forall p q, label_of s p <> 0 -> linked C (matrix b) p q -> label_of s q = label_of s p;
    la_conn : forall p q, label_of s p <> 0 -> label_of s p = label_of s q -> connected C (matrix b) p q;
    la_all : forall k, 0 < k < next -> exists v, enumerates C s k v /\ (20 <= length v -> In (k, v) (clusters s));
    la_next : 0 < next
  }.
  (** The clusters when none were there before. *)
  Definition tidy (s : image) (next : nat) : Prop :=
    StronglySorted lt (map fst (clusters s)) /\
    forall k v, In (k, v) (clusters s) -> 0 < k < next /\ 20 <= length v /\ enumerates C s k v.

  Lemma set_cluster_keeps : forall m k v, In (k, v) (set_cluster m k v).
  Proof.
    induction m as [|[j w] m IH]; intros k v; cbn [set_cluster In]; [auto|]. destruct (Nat.eqb_spec k j); [left; reflexivity|].
    destruct (Nat.ltb k j); [left; reflexivity|right; apply IH].
  Qed.
  Lemma set_cluster_other : forall m k v j w, j <> k -> In (j, w) m -> In (j, w) (set_cluster m k v).
  Proof.
    induction m as [|[i u] m IH]; intros k v j w N I; [contradiction|]. cbn [set_cluster]. destruct (Nat.eqb_spec k i) as [->|].
    - destruct I as [E|I]; [injection E as -> ->; congruence|right; assumption].
    - destruct (Nat.ltb k i); [right; assumption|]. destruct I as [E|I]; [left; assumption|right; apply IH; assumption].
  Qed.
  Lemma set_cluster_above : forall m k v, Forall (fun x => fst x < k) m -> set_cluster m k v = m ++ [(k, v)].
  Proof.
    induction m as [|[i u] m IH]; intros k v F; [reflexivity|]. inversion_clear F as [|? ? F1 F2]. cbn [fst] in *.
    cbn [set_cluster]. destruct (Nat.eqb_spec k i); [lia|]. destruct (Nat.ltb_spec k i); [lia|]. rewrite IH by assumption. reflexivity.
  Qed.

  Lemma enumerates_ext : forall s s' k v, matrix s = matrix s' -> (forall q, index_of s q = index_of s' q) ->
    (forall q, occupied C (matrix s) q -> (label_of s q = k <-> label_of s' q = k)) -> enumerates C s k v -> enumerates C s' k v.
  Proof.
    intros s s' k v M X L (ps & N & I & E). exists ps. split; [assumption|]. split.
    - intros p. rewrite I, <- M. split; intros (O & H); (split; [assumption|]); apply (L p O); assumption.
    - rewrite E. apply map_ext. assumption.
  Qed.

  Lemma label_one_spec : forall b s next p fuel, no_nan b -> labelling b s next -> occupied C (matrix b) p -> label_of s p = 0 ->
    7 * length (grid C) + 1 <= fuel ->
    exists s', label_one C fuel next p s = Some (Ok s') /\ labelling b s' (S next) /\ label_of s' p <> 0 /\ (forall q, label_of s q <> 0 -> label_of s' q <> 0) /\ (tidy s next -> tidy s' (S next)) /\ ((forall ps, NoDup ps -> (forall q, In q ps -> occupied C (matrix b) q) -> length ps < 20) -> clusters s' = clusters s).
  Proof.
    intros b s next p fuel NN La Op Lp Hf.
    assert (Mb : matrix s = matrix b) by apply La.
    assert (NNs : no_nan s) by (intros q; rewrite Mb; apply NN).
    assert (Np : 0 < next) by apply (la_next _ _ _ La).
    assert (Init : searching s p next s [p] [] []).
    { constructor; try reflexivity.
      - apply La.
      - constructor.
      - intros ? [].
      - intros q [<-|[]]. rewrite Mb. assumption.
      - intros q [[]|[<-|[]]]. apply rt_refl.
      - intros ? ? [].
      - right. left. reflexivity.
      - assumption. }
    destruct (spread_spec fuel s p next s [p] [] [] Np NNs Init) as (s1 & found & ds & E & Fin).
    { cbn [length]. assert (work s <= length (grid C)); [|lia]. unfold work. clear. induction (grid C) as [|q l IH]; cbn; [lia|].
      destruct (open_pix s q); cbn; lia. }
    unfold label_one. rewrite E. cbn [bind].
    destruct Fin as [F1 F2 F3 F4 F4' F5 F6 F7 F8 F9 F10 F11 F12 F13 F14 F15].
    assert (Cl : forall a q, In a ds -> linked C (matrix b) a q -> In q ds).
    { intros a q Ha Lk. destruct (F13 a q Ha ltac:(rewrite Mb; exact Lk)) as [H|[[]|H]]; [assumption|]. exfalso.
      pose proof (la_closed _ _ _ La q a H (linked_sym _ _ _ _ Lk)) as G. destruct (F9 a Ha) as (_ & Z). congruence. }
    assert (Dsp : In p ds) by (destruct F14 as [H|[]]; exact H).
    assert (Lab : forall q, (In q ds /\ label_of s1 q = next) \/ (~ In q ds /\ label_of s1 q = label_of s q)).
    { intros q. rewrite F5. destruct (existsb (pix_eq q) ds) eqn:Ex; [left|right]; (split; [|reflexivity]).
      - apply existsb_pix. assumption.
      - intros I. apply existsb_pix in I. congruence. }
    assert (En : enumerates C s1 next found).
    { exists ds. split; [assumption|]. split.
      - intros q. rewrite F2. split.
        + intros I. split; [apply F9; assumption|]. destruct (Lab q) as [(_ & L)|(N & _)]; [assumption|contradiction].
        + intros (O & L). destruct (Lab q) as [(I & _)|(_ & L')]; [assumption|]. exfalso.
          destruct (la_range _ _ _ La q) as (_ & R); [lia|lia].
      - rewrite F10. apply map_ext. intros q. symmetry. apply F6. }
    assert (Old : forall k v, 0 < k < next -> enumerates C s k v -> enumerates C s1 k v).
    { intros k v K. apply enumerates_ext; [congruence|intros; symmetry; apply F6|]. intros q O.
      destruct (Lab q) as [(I & L)|(_ & ->)]; [|tauto]. destruct (F9 q I) as (_ & Z). lia. }
    set (s' := if Nat.leb 20 (length found) then _ else s1).
    assert (Lab' : forall q, label_of s' q = label_of s1 q) by (intros q; unfold s'; destruct (Nat.leb 20 (length found)); reflexivity).
    assert (X' : forall q, index_of s' q = index_of s1 q) by (intros q; unfold s'; destruct (Nat.leb 20 (length found)); reflexivity).
    assert (M' : matrix s' = matrix s1) by (unfold s'; destruct (Nat.leb 20 (length found)); reflexivity).
    assert (En' : forall k v, enumerates C s1 k v -> enumerates C s' k v).
    { intros k v. apply enumerates_ext; [congruence|intros; symmetry; apply X'|]. intros q _. rewrite Lab'. tauto. }
    assert (ClNew : 20 <= length found -> In (next, found) (clusters s')).
    { intros H. unfold s'. rewrite (proj2 (Nat.leb_le _ _) H). cbn [clusters]. apply set_cluster_keeps. }
    assert (ClOld : forall k v, k <> next -> In (k, v) (clusters s) -> In (k, v) (clusters s')).
    { intros k v N I. unfold s'. rewrite <- F3 in I. destruct (Nat.leb 20 (length found)); [|assumption]. cbn [clusters].
      apply set_cluster_other; assumption. }
    exists s'. split; [reflexivity|]. split; [|split; [|split; [|split]]].
    - constructor.
      + unfold s'. destruct (Nat.leb 20 (length found)); cbn [source]; rewrite F1; apply La.
      + congruence.
      + unfold s'. destruct (Nat.leb 20 (length found)); cbn [kept]; rewrite F4; apply La.
      + unfold s'. destruct (Nat.leb 20 (length found)); cbn [dropped]; rewrite F4'; apply La.
      + intros q. rewrite X', F6. apply La.
      + intros q O. rewrite M' in O. destruct (F7 q O) as (v & Ev). exists v. unfold s'. destruct (Nat.leb 20 (length found)); exact Ev.
      + intros q H. rewrite Lab' in *. destruct (Lab q) as [(I & L)|(I & L)].
        * rewrite <- Mb. split; [apply F9; assumption|lia].
        * rewrite L in *. destruct (la_range _ _ _ La q H). split; [assumption|lia].
      + intros a q H Lk. rewrite !Lab' in *. destruct (Lab a) as [(I & L)|(I & L)].
        * destruct (Lab q) as [(Iq & Lq)|(Iq & Lq)]; [congruence|]. exfalso. apply Iq, (Cl a q I Lk).
        * rewrite L in *. pose proof (la_closed _ _ _ La a q H Lk) as G. destruct (Lab q) as [(Iq & Lq)|(Iq & Lq)]; [|congruence].
          destruct (F9 q Iq) as (_ & Z). congruence.
      + intros a q H Eq. rewrite !Lab' in *. destruct (Lab a) as [(I & L)|(I & L)], (Lab q) as [(Iq & Lq)|(Iq & Lq)].
        * rewrite <- Mb. eapply rt_trans; [apply connected_sym, F12; left; assumption|apply F12; left; assumption].
        * exfalso. destruct (la_range _ _ _ La q); [congruence|lia].
        * exfalso. destruct (la_range _ _ _ La a); [congruence|lia].
        * apply (la_conn _ _ _ La); congruence.
      + intros k K. destruct (Nat.eq_dec k next) as [->|N].
        * exists found. split; [apply En', En|exact ClNew].
        * destruct (la_all _ _ _ La k) as (v & Ev & Iv); [lia|]. exists v. split; [apply En', Old; [lia|assumption]|].
          intros H. apply ClOld; auto.
      + lia.
    - rewrite Lab'. destruct (Lab p) as [(_ & L)|(I & _)]; [lia|contradiction].
    - intros q H. rewrite Lab'. destruct (Lab q) as [(_ & L)|(_ & L)]; [lia|congruence].
    - intros (Srt & Ti).
      assert (Below : Forall (fun x => fst x < next) (clusters s1)).
      { rewrite F3. apply Forall_forall. intros [k v] I. apply Ti in I. cbn. lia. }
      assert (Keep : forall k v, In (k, v) (clusters s1) -> 0 < k < Datatypes.S next /\ 20 <= length v /\ enumerates C s' k v).
      { intros k v I. rewrite F3 in I. apply Ti in I. destruct I as (K & L & Ev). split; [lia|]. split; [assumption|]. apply En', Old; assumption. }
      unfold tidy. unfold s' at 1 2. destruct (Nat.leb_spec 20 (length found)).
      + cbn [clusters]. rewrite set_cluster_above by assumption. split.
        * rewrite map_app. cbn [map fst]. rewrite F3 in *. clear - Srt Below. induction (clusters s) as [|[k v] m IH]; cbn; [repeat constructor|].
          inversion_clear Srt as [|? ? S1 S2]. inversion_clear Below as [|? ? B1 B2]. constructor; [auto|].
          apply Forall_app. split; [assumption|]. constructor; [assumption|constructor].
        * intros k v I. apply in_app_iff in I. destruct I as [I|[Eq|[]]]; [auto|]. injection Eq as <- <-. split; [lia|].
          split; [assumption|]. apply En', En.
      + split; [rewrite F3; assumption|assumption].
    - intros Small. unfold s'. destruct (Nat.leb_spec 20 (length found)); [|assumption]. exfalso.
      rewrite F10, map_length in H. specialize (Small ds F8). rewrite <- Mb in Small. specialize (Small (fun q I => proj1 (F9 q I))). lia.
  Qed.

  Lemma sweep_spec : forall b fuel, no_nan b -> 7 * length (grid C) + 1 <= fuel -> forall l s next, (forall p, In p l -> inside C p) ->
    labelling b s next ->
    exists s' next', sweep C fuel l next s = Some (Ok s') /\ labelling b s' next' /\ (forall p, In p l -> occupied C (matrix b) p -> label_of s' p <> 0) /\ (forall q, label_of s q <> 0 -> label_of s' q <> 0) /\ (tidy s next -> tidy s' next') /\ ((forall ps, NoDup ps -> (forall q, In q ps -> occupied C (matrix b) q) -> length ps < 20) -> clusters s' = clusters s).
  Proof.
    intros b fuel NN Hf. induction l as [|p l IH]; intros s next Hl La.
    - exists s, next. cbn. split; [reflexivity|]. split; [assumption|]. split; [contradiction|]. auto.
    - assert (Ip : inside C p) by (apply Hl; left; reflexivity).
      assert (Hl' : forall q, In q l -> inside C q) by (intros; apply Hl; right; assumption).
      cbn [sweep]. rewrite (la_matrix _ _ _ La).
      destruct (vacant (matrix b p)) eqn:V.
      + destruct (IH s next Hl' La) as (s' & next' & E & L' & A & R). exists s', next'. split; [assumption|]. split; [assumption|].
        split; [|assumption]. intros q [<-|I] O; [destruct O; congruence|auto].
      + destruct (la_present _ _ _ La p) as ([i lb] & Pp); [rewrite (la_matrix _ _ _ La); split; assumption|].
        unfold at_pix. rewrite Pp. cbn [snd]. assert (Lp : label_of s p = lb) by (unfold label_of; rewrite Pp; reflexivity).
        destruct (Nat.ltb_spec 0 lb).
        * destruct (IH s next Hl' La) as (s' & next' & E & L' & A & B & R). exists s', next'. split; [assumption|]. split; [assumption|].
          split; [|split; assumption]. intros q [<-|I] O; [apply B; lia|auto].
        * destruct (label_one_spec b s next p fuel NN La (conj Ip V) ltac:(lia) Hf) as (s1 & E1 & L1 & P1 & K1 & T1 & S1).
          rewrite E1. destruct (IH s1 (S next) Hl' L1) as (s' & next' & E & L' & A & B & T & R). exists s', next'.
          split; [assumption|]. split; [assumption|]. split; [intros q [<-|I] O; auto|]. split; [auto|]. split; [auto|].
          intros Small. rewrite R, S1; auto.
  Qed.

  Lemma cluster_spec : forall b fuel, filled C b -> 7 * length (grid C) + 1 <= fuel ->
    exists s' next, sweep C fuel (grid C) 1 b = Some (Ok s') /\ labelling b s' next /\ (forall p, occupied C (matrix b) p -> label_of s' p <> 0) /\ (clusters b = [] -> tidy s' next) /\ ((forall ps, NoDup ps -> (forall q, In q ps -> occupied C (matrix b) q) -> length ps < 20) -> clusters s' = clusters b).
  Proof.
    intros b fuel (P & Z & NN) Hf.
    destruct (sweep_spec b fuel NN Hf (grid C) b 1) as (s' & next & E & La & A & _ & T & S).
    - intros p. apply in_grid.
    - constructor; try reflexivity.
      + intros q O. destruct (P q O) as (i & Ei). eauto.
      + intros p H. specialize (Z p). lia.
      + intros p q H. specialize (Z p). lia.
      + intros p q H. specialize (Z p). lia.
      + intros k K. lia.
      + lia.
    - exists s', next. split; [assumption|]. split; [assumption|]. split; [|split; [|assumption]].
      + intros p O. apply A; [apply in_grid; apply O|assumption].
      + intros Cl. apply T. split; [rewrite Cl; constructor|rewrite Cl; intros ? ? []].
  Qed.
  Lemma labelling_connected : forall b s next, labelling b s next -> (forall p, occupied C (matrix b) p -> label_of s p <> 0) ->
    forall p q, occupied C (matrix b) p -> occupied C (matrix b) q -> (label_of s p = label_of s q <-> connected C (matrix b) p q).
  Proof.
    intros b s next La A p q Op Oq. split.
    - intros E. apply (la_conn _ _ _ La); auto.
    - intros Cn. clear Oq. pose proof (A p Op) as N. clear Op. induction Cn as [p q Lk|p|p q r C1 IH1 C2 IH2].
      + symmetry. apply (la_closed _ _ _ La); assumption.
      + reflexivity.
      + rewrite (IH1 N). apply IH2. rewrite <- (IH1 N). assumption.
  Qed.
End Search.
