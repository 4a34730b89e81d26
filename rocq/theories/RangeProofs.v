(** Proofs about the range image. *)
From Coq Require Import ZArith List Bool Lia Sorted Relations SpecFloat.
From Verif Require Import Outcome TimeModel LoopSpec LoopProofs FloatOrder FilterModel FilterSpec FilterProofs FilterVoxels FilterGround RangeModel RangeSpec.
Import ListNotations.
Local Open Scope outcome_scope.

Lemma pix_eq_true : forall a b, pix_eq a b = true <-> a = b.
Proof.
  intros [a b] [c d]. unfold pix_eq. cbn. rewrite andb_true_iff, !Z.eqb_eq. split; [intros (-> & ->); reflexivity|intros E; injection E; auto].
Qed.
Lemma pix_eq_spec : forall a b, reflect (a = b) (pix_eq a b).
Proof. intros. apply iff_reflect. symmetry. apply pix_eq_true. Qed.
Lemma pix_eq_refl : forall a, pix_eq a a = true.
Proof. intros. apply pix_eq_true. reflexivity. Qed.
Lemma set_same : forall A (f : pix -> A) p a, set_pix f p a p = a.
Proof. intros. unfold set_pix. rewrite pix_eq_refl. reflexivity. Qed.
Lemma set_other : forall A (f : pix -> A) p a q, q <> p -> set_pix f p a q = f q.
Proof. intros. unfold set_pix. destruct (pix_eq_spec q p); [congruence|reflexivity]. Qed.

(** ** Filter *)
Definition hit (ws : list (option pix)) (q : pix) (i : nat) : bool :=
  match nth_error ws i with Some (Some r) => pix_eq r q | _ => false end.
Definition first_at (ws : list (option pix)) (q : pix) : option nat := find (hit ws q) (seq 0 (length ws)).

Lemma find_app : forall A (f : A -> bool) l m, find f (l ++ m) = match find f l with Some x => Some x | None => find f m end.
Proof. intros A f l m. induction l as [|x l IH]; cbn; [reflexivity|]. destruct (f x); auto. Qed.
Lemma find_ext_in : forall A (f g : A -> bool) l, (forall x, In x l -> f x = g x) -> find f l = find g l.
Proof.
  intros A f g l. induction l as [|x l IH]; intros H; cbn; [reflexivity|]. rewrite (H x (or_introl eq_refl)).
  destruct (g x); [reflexivity|]. apply IH. intros; apply H; right; assumption.
Qed.
Lemma hit_app : forall ws v q i, i < length ws -> hit (ws ++ v) q i = hit ws q i.
Proof. intros. unfold hit. rewrite nth_error_app1 by assumption. reflexivity. Qed.
Lemma first_at_snoc : forall ws w q, first_at (ws ++ [w]) q =
  match first_at ws q with
  | Some i => Some i
  | None => match w with Some r => if pix_eq r q then Some (length ws) else None | None => None end
  end.
Proof.
  intros ws w q. unfold first_at. rewrite app_length, Nat.add_1_r, seq_S, find_app.
  rewrite (find_ext_in _ (hit (ws ++ [w]) q) (hit ws q)) by (intros i Hi; apply in_seq in Hi; apply hit_app; lia).
  destruct (find (hit ws q) (seq 0 (length ws))); [reflexivity|]. cbn. unfold hit.
  rewrite nth_error_app2, Nat.sub_diag by lia. cbn. destruct w as [r|]; [|reflexivity]. destruct (pix_eq r q); reflexivity.
Qed.
Lemma first_at_in : forall ws q i, first_at ws q = Some i <-> first_in ws i q.
Proof.
  intros ws. induction ws as [|w ws IH] using rev_ind; intros q i.
  - split; [discriminate|]. intros (H & _). destruct i; discriminate.
  - rewrite first_at_snoc. unfold first_in in *. destruct (first_at ws q) as [k|] eqn:E.
    + pose proof (proj1 (IH q k) E) as (A & B).
      assert (K : k < length ws) by (apply nth_error_Some; congruence). split.
      * intros F. injection F as <-. split; [rewrite nth_error_app1 by assumption; exact A|].
        intros j Hj. rewrite nth_error_app1 by lia. apply B; assumption.
      * intros (A' & B'). destruct (Nat.lt_trichotomy i k) as [L|[->|L]]; [|reflexivity|].
        -- rewrite nth_error_app1 in A' by lia. exfalso. exact (B i L A').
        -- exfalso. apply (B' k L). rewrite nth_error_app1 by assumption. exact A.
    + assert (N : forall j, nth_error ws j <> Some (Some q)).
      { intros j Hj. destruct (find (hit ws q) (seq 0 (length ws))) eqn:F; [unfold first_at in E; congruence|].
        assert (J : j < length ws) by (apply nth_error_Some; congruence).
        pose proof (find_none _ _ F j) as G. rewrite in_seq in G. specialize (G ltac:(lia)). unfold hit in G. rewrite Hj, pix_eq_refl in G. discriminate. }
      split.
      * intros F. destruct w as [r|]; [|discriminate]. destruct (pix_eq_spec r q) as [->|]; [|discriminate]. injection F as <-.
        split; [rewrite nth_error_app2, Nat.sub_diag by lia; reflexivity|]. intros j Hj. rewrite nth_error_app1 by assumption. apply N.
      * intros (A' & B'). destruct (Nat.lt_ge_cases i (length ws)) as [L|L].
        -- rewrite nth_error_app1 in A' by assumption. exfalso. exact (N i A').
        -- rewrite nth_error_app2 in A' by assumption. destruct (i - length ws) as [|n] eqn:D; cbn in A'; [|destruct n; discriminate].
           injection A' as ->. rewrite pix_eq_refl. f_equal. lia.
Qed.

Definition is_first (ws : list (option pix)) (i : nat) : bool :=
  match nth_error ws i with
  | Some (Some q) => match first_at ws q with Some j => Nat.eqb j i | None => false end
  | _ => false
  end.
Lemma is_first_app : forall ws w i, i < length ws -> is_first (ws ++ [w]) i = is_first ws i.
Proof.
  intros ws w i H. unfold is_first. rewrite nth_error_app1 by assumption. destruct (nth_error ws i) as [[q|]|] eqn:E; try reflexivity.
  rewrite first_at_snoc. destruct (first_at ws q) eqn:F; [reflexivity|]. destruct w as [r|]; [|reflexivity].
  destruct (pix_eq r q); [|reflexivity]. apply Nat.eqb_neq. lia.
Qed.
Lemma is_first_last : forall ws w, is_first (ws ++ [w]) (length ws) =
  match w with Some q => match first_at ws q with Some _ => false | None => true end | None => false end.
Proof.
  intros ws w. unfold is_first. rewrite nth_error_app2, Nat.sub_diag by lia. cbn. destruct w as [q|]; [|reflexivity].
  rewrite first_at_snoc, pix_eq_refl. destruct (first_at ws q) as [j|] eqn:F; [|apply Nat.eqb_refl].
  apply first_at_in in F. destruct F as (F & _). assert (j < length ws) by (apply nth_error_Some; congruence). apply Nat.eqb_neq. lia.
Qed.
Lemma is_first_in : forall ws i, is_first ws i = true <-> exists q, first_in ws i q.
Proof.
  intros ws i. unfold is_first. split.
  - destruct (nth_error ws i) as [[q|]|] eqn:E; try discriminate. destruct (first_at ws q) as [j|] eqn:F; [|discriminate].
    intros H. apply Nat.eqb_eq in H. subst j. exists q. apply first_at_in. assumption.
  - intros (q & H). pose proof H as (E & _). rewrite E. apply first_at_in in H. rewrite H. apply Nat.eqb_refl.
Qed.

Record filling (C : config) (src : cloud) (cl : list (nat * list nat)) (ws : list (option pix)) (s : image) : Prop := {
  fi_source : source s = Some src;
  fi_clusters : clusters s = cl;
  fi_kept : kept s = List.filter (is_first ws) (seq 0 (length ws));
  fi_dropped : dropped s = List.filter (fun i => negb (is_first ws i)) (seq 0 (length ws));
  fi_pixels : forall q, pixels s q = option_map (fun i => (i, 0)) (first_at ws q);
  fi_matrix : forall q, matrix s q = match first_at ws q with
                                     | Some i => match nth_error (points src) i with Some p => range_of (moved C p) | None => S754_zero false end
                                     | None => S754_zero false
                                     end
}.

Lemma filter_snoc : forall (f g : nat -> bool) n, (forall i, i < n -> f i = g i) ->
  List.filter f (seq 0 (n + 1)) = List.filter g (seq 0 n) ++ (if f n then [n] else []).
Proof.
  intros f g n H. rewrite Nat.add_1_r, seq_S, filter_app. f_equal.
  apply filter_ext_in. intros i Hi. apply in_seq in Hi. apply H. lia.
Qed.

(** Points that reach a pixel are not vacant: their range is at least their distance in the plane. *)
Definition visible (C : config) (l : list point) : Prop :=
  forall p q, In p l -> place C p = Ok (Some q) -> vacant (range_of (moved C p)) = false.

Lemma vacant_zero : vacant (S754_zero false) = true.
Proof. reflexivity. Qed.

Lemma fill_spec : forall C src cl, visible C (points src) -> forall l l0 ws0 ws s, points src = l0 ++ l ->
  spots C l0 ws0 -> spots C l ws ->
  filling C src cl ws0 s -> exists s', fill C l (length l0) s = Ok s' /\ filling C src cl (ws0 ++ ws) s'.
Proof.
  intros C src cl Vis. induction l as [|p l IH]; intros l0 ws0 ws s E S0 S F.
  - inversion_clear S. exists s. rewrite app_nil_r. auto.
  - inversion S as [|? w ? ws' Hp S']; subst. cbn [fill]. rewrite Hp. cbn [bind].
    assert (Len : length ws0 = length l0) by (symmetry; clear - S0; induction S0; cbn; congruence).
    assert (Next : forall s1, filling C src cl (ws0 ++ [w]) s1 ->
      exists s', fill C l (Datatypes.S (length l0)) s1 = Ok s' /\ filling C src cl (ws0 ++ w :: ws') s').
    { intros s1 F1. destruct (IH (l0 ++ [p]) (ws0 ++ [w]) ws' s1) as (s' & E' & F').
      - rewrite <- app_assoc. exact E.
      - apply Forall2_app; [assumption|]. constructor; [assumption|constructor].
      - assumption.
      - assumption.
      - rewrite app_length, Nat.add_1_r in E'. rewrite <- app_assoc in F'. eauto. }
    assert (Np : nth_error (points src) (length ws0) = Some p).
    { rewrite E, Len, nth_error_app2, Nat.sub_diag by lia. reflexivity. }
    assert (Drop : first_at ws0 (match w with Some q => q | None => (0, 0)%Z end) <> None \/ w = None ->
      filling C src cl (ws0 ++ [w]) (mkImage (source s) (matrix s) (pixels s) (clusters s) (kept s) (dropped s ++ [length l0]))).
    { intros D. destruct F as [F1 F2 F3 F4 F5 F6].
      assert (L : is_first (ws0 ++ [w]) (length ws0) = false).
      { rewrite is_first_last. destruct w as [q|]; [|reflexivity]. destruct (first_at ws0 q); [reflexivity|]. destruct D; congruence. }
      assert (Fa : forall q, first_at (ws0 ++ [w]) q = first_at ws0 q).
      { intros q. rewrite first_at_snoc. destruct (first_at ws0 q) eqn:G; [reflexivity|]. destruct w as [r|]; [|reflexivity].
        destruct (pix_eq_spec r q) as [->|]; [|reflexivity]. destruct D; congruence. }
      constructor; cbn [source clusters kept dropped pixels matrix]; try assumption.
      - rewrite app_length. cbn [length]. rewrite (filter_snoc _ (is_first ws0)) by (intros; apply is_first_app; assumption).
        rewrite L, app_nil_r. assumption.
      - rewrite app_length. cbn [length]. rewrite (filter_snoc _ (fun i => negb (is_first ws0 i))) by (intros; f_equal; apply is_first_app; assumption).
        rewrite L, F4, Len. reflexivity.
      - intros q. rewrite Fa. apply F5.
      - intros q. rewrite Fa. apply F6. }
    destruct w as [q|].
    + destruct (first_at ws0 q) as [j|] eqn:Fq.
      * assert (V : vacant (matrix s q) = false).
        { rewrite (fi_matrix _ _ _ _ _ F), Fq. apply first_at_in in Fq. destruct Fq as (Fq & _).
          assert (J : j < length l0) by (rewrite <- Len; apply nth_error_Some; congruence).
          rewrite E, nth_error_app1 by assumption. destruct (nth_error l0 j) as [p'|] eqn:Pj; [|apply nth_error_None in Pj; lia].
          apply (Vis p' q).
          - rewrite E, in_app_iff. left. eapply nth_error_In; eassumption.
          - clear - S0 Fq Pj. revert j Fq Pj. induction S0; intros [|j] Fq Pj; cbn in *; try discriminate; [congruence|eauto]. }
        rewrite V. apply Next, Drop. left. discriminate.
      * assert (V : vacant (matrix s q) = true) by (rewrite (fi_matrix _ _ _ _ _ F), Fq; reflexivity).
        rewrite V. apply Next. destruct F as [F1 F2 F3 F4 F5 F6].
        assert (L : is_first (ws0 ++ [Some q]) (length ws0) = true) by (rewrite is_first_last, Fq; reflexivity).
        constructor; cbn [source clusters kept dropped pixels matrix]; try assumption.
        -- rewrite app_length. cbn [length]. rewrite (filter_snoc _ (is_first ws0)) by (intros; apply is_first_app; assumption).
           rewrite L, F3, Len. reflexivity.
        -- rewrite app_length. cbn [length]. rewrite (filter_snoc _ (fun i => negb (is_first ws0 i))) by (intros; f_equal; apply is_first_app; assumption).
           rewrite L, app_nil_r. assumption.
        -- intros r. rewrite first_at_snoc. destruct (pix_eq_spec q r) as [->|N].
           ++ rewrite set_same, Fq, Len. reflexivity.
           ++ rewrite set_other by congruence. rewrite F5. destruct (first_at ws0 r); reflexivity.
        -- intros r. rewrite first_at_snoc. destruct (pix_eq_spec q r) as [->|N].
           ++ rewrite set_same, Fq, Np. reflexivity.
           ++ rewrite set_other by congruence. rewrite F6. destruct (first_at ws0 r); reflexivity.
    + apply Next, Drop. right. reflexivity.
Qed.

Lemma filter_seq_sorted : forall (f : nat -> bool) n k, StronglySorted lt (List.filter f (seq k n)).
Proof.
  intros f. induction n; intros k; cbn; [constructor|]. destruct (f k); [|apply IHn].
  constructor; [apply IHn|]. apply Forall_forall. intros i Hi. apply filter_In in Hi. destruct Hi as (Hi & _). apply in_seq in Hi. lia.
Qed.

Lemma place_inside : forall C p q, place C p = Ok (Some q) -> inside C q.
Proof.
  intros C p q H. unfold place in H. cbv zeta in H.
  destruct (SFltb _ centi); [discriminate|]. destruct (double_to_int _) as [r| | |]; try discriminate. cbn [bind] in H.
  destruct (_ || _)%bool eqn:A in H; [discriminate|]. destruct (_ || _)%bool eqn:B in H; [discriminate|].
  injection H as <-. apply orb_false_iff in A, B. rewrite Z.ltb_ge, Z.leb_gt in A, B. split; cbn [fst snd]; lia.
Qed.

Lemma filter_ok : forall C c s0 ws old, (0 < rows C)%Z -> (0 < cols C)%Z -> points c <> [] ->
  visible C (points c) -> spots C (points c) ws ->
  exists s' out, filter C (set_input C (Some c) s0) old = Ok (s', out) /\
    filling C c (clusters s0) ws s' /\
    divided (length (points c)) (kept s') (dropped s') /\
    picked (points c) (kept s') (points out) /\ stamp out = stamp c.
Proof.
  intros C c s0 ws old Hr Hc Hn Vis Sp. unfold filter, set_input.
  destruct (points c) as [|p0 pts] eqn:Ep; [congruence|]. rewrite <- Ep in *. clear Hn.
  replace ((rows C <=? 0) || (cols C <=? 0))%Z with false by (symmetry; apply orb_false_iff; rewrite !Z.leb_gt; lia).
  cbn [source matrix pixels clusters].
  assert (Len : length ws = length (points c)) by (symmetry; clear - Sp; induction Sp; cbn; congruence).
  destruct (fill_spec C c (clusters s0) Vis (points c) [] [] ws (mkImage (Some c) (fun _ => S754_zero false) no_pixels (clusters s0) [] [])) as (s' & E & F).
  - reflexivity.
  - constructor.
  - assumption.
  - constructor; cbn; auto.
  - cbn [length app] in E, F. rewrite E. cbn [bind].
    destruct (gather_spec (points c) (kept s')) as (q & G & P).
    { intros i Hi. rewrite (fi_kept _ _ _ _ _ F) in Hi. apply filter_In in Hi. destruct Hi as (Hi & _). apply in_seq in Hi. lia. }
    rewrite G. cbn [bind]. eexists _, _. split; [reflexivity|]. split; [assumption|]. split; [|split; [assumption|reflexivity]].
    rewrite (fi_kept _ _ _ _ _ F), (fi_dropped _ _ _ _ _ F), <- Len.
    split; [apply filter_seq_sorted|]. split; [apply filter_seq_sorted|]. intros i. rewrite !filter_In, in_seq. split.
    + intros Hi. destruct (is_first ws i); [left|right]; cbn; intuition; discriminate.
    + intuition.
Qed.

Lemma fill_ub : forall C l i s, (exists p, In p l /\ place C p = UB) -> (forall p, In p l -> (exists w, place C p = Ok w) \/ place C p = UB) ->
  fill C l i s = UB.
Proof.
  intros C. induction l as [|p l IH]; intros i s (p' & Hp & U) A; [contradiction|]. cbn [fill].
  destruct (A p (or_introl eq_refl)) as [(w & E)|E]; rewrite E; [|reflexivity]. cbn [bind].
  assert (R : exists p', In p' l /\ place C p' = UB) by (destruct Hp as [->|Hp]; [congruence|eauto]).
  assert (B : forall p, In p l -> (exists w, place C p = Ok w) \/ place C p = UB) by (intros; apply A; right; assumption).
  destruct w as [q|]; [destruct (vacant (matrix s q))|]; apply IH; assumption.
Qed.
Lemma place_total : forall C p, (exists w, place C p = Ok w) \/ place C p = UB.
Proof.
  intros C p. unfold place. cbv zeta. destruct (SFltb _ centi); [eauto|]. unfold double_to_int, to_int.
  destruct (trunc_fl _) as [z|]; [|right; reflexivity]. destruct (_ && _)%bool; [|right; reflexivity]. cbn [bind].
  destruct (_ || _)%bool; [eauto|]. destruct (_ || _)%bool; eauto.
Qed.
