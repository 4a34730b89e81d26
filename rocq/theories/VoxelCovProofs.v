From Coq Require Import ZArith List Bool Reals Lia Lra.
From Verif Require Import Outcome TimeModel RigidModel RigidSpec RigidProofs VoxelCovModel VoxelCovSpec.
Import ListNotations.
Local Open Scope Z_scope.

Lemma bind_ok : forall A B (m : outcome A) (f : A -> outcome B) b, bind m f = Ok b -> exists a, m = Ok a /\ f a = Ok b.
Proof. intros A B [a| | |] f b H; cbn in H; try discriminate. exists a. auto. Qed.
Ltac ib H := let a := fresh "a" in let E := fresh "E" in apply bind_ok in H; destruct H as (a & E & H).
Lemma i32_ok : forall x y, i32 x = Ok y -> y = x /\ - 2 ^ 31 <= x < 2 ^ 31.
Proof.
  intros x y H. unfold i32 in H. destruct ((- 2 ^ 31 <=? x) && (x <? 2 ^ 31)) eqn:A; [|discriminate].
  apply andb_true_iff in A. destruct A as [A B]. apply Z.leb_le in A. apply Z.ltb_lt in B. injection H as <-. lia.
Qed.
Lemma i64_ok : forall x y, i64 x = Ok y -> y = x /\ - 2 ^ 63 <= x < 2 ^ 63.
Proof.
  intros x y H. unfold i64 in H. destruct ((- 2 ^ 63 <=? x) && (x <? 2 ^ 63)) eqn:A; [|discriminate].
  apply andb_true_iff in A. destruct A as [A B]. apply Z.leb_le in A. apply Z.ltb_lt in B. injection H as <-. lia.
Qed.
Lemma i32_in : forall x, - 2 ^ 31 <= x < 2 ^ 31 -> i32 x = Ok x.
Proof.
  intros x H. unfold i32. replace (- 2 ^ 31 <=? x) with true by (symmetry; apply Z.leb_le; lia).
  replace (x <? 2 ^ 31) with true by (symmetry; apply Z.ltb_lt; lia). reflexivity.
Qed.
Lemma i64_in : forall x, - 2 ^ 63 <= x < 2 ^ 63 -> i64 x = Ok x.
Proof.
  intros x H. unfold i64. replace (- 2 ^ 63 <=? x) with true by (symmetry; apply Z.leb_le; lia).
  replace (x <? 2 ^ 63) with true by (symmetry; apply Z.ltb_lt; lia). reflexivity.
Qed.

(** Packing of three indices. *)
Lemma pack_inj : forall e0 e1 a b c a' b' c', 0 <= a < e0 -> 0 <= b < e1 -> 0 <= a' < e0 -> 0 <= b' < e1 ->
  a * 1 + b * e0 + c * (e0 * e1) = a' * 1 + b' * e0 + c' * (e0 * e1) -> a = a' /\ b = b' /\ c = c'.
Proof.
  intros e0 e1 a b c a' b' c' Ha Hb Ha' Hb' E.
  assert (E0 : (b + c * e1) * e0 + a = (b' + c' * e1) * e0 + a') by lia.
  assert (A : a = a' /\ b + c * e1 = b' + c' * e1).
  { pose proof (Z.div_mod_unique e0 (b + c * e1) (b' + c' * e1) a a') as U. destruct U as [U1 U2]; try lia. }
  destruct A as [A1 A2].
  pose proof (Z.div_mod_unique e1 c c' b b') as U. destruct U as [U1 U2]; try lia.
Qed.

Section Grid.
  Variable F : Type.
  Variable le : F -> F -> bool.
  Variable finite : F -> bool.
  Variables cell_mul cell_div : F -> Z.
  Variable span : F -> F -> Z.
  Variables St P : Type.
  Variable st0 : St.
  Variable add : St -> pt F -> St.
  Variable few : Z -> St -> St.
  Variable enough : Z -> St -> Z * St.
  Variable center : Z -> St -> P.
  Variable min_points : Z.
  Variable near : list P -> pt F -> list nat.
  Notation leaf := (leaf St).
  Notation leaves := (leaves St).
  Notation touch := (touch st0).

  (** The map. *)
  Fixpoint sorted (m : leaves) : Prop :=
    match m with
    | [] => True
    | (k, _) :: m => (forall k' l, In (k', l) m -> k < k') /\ sorted m
    end.
  Lemma in_touch : forall k f m k' l, In (k', l) (touch k f m) -> k' = k \/ In (k', l) m.
  Proof.
    intros k f m. induction m as [|[k1 l1] m IH]; intros k' l H; cbn in H.
    - destruct H as [H|[]]. inversion H. auto.
    - destruct (k <? k1); [destruct H as [H|H]; [inversion H; auto|auto]|].
      destruct (k =? k1) eqn:E; [destruct H as [H|H]; [inversion H; left; lia|cbn; auto]|].
      destruct H as [H|H]; [cbn; auto|]. destruct (IH _ _ H); cbn; auto.
  Qed.
  Lemma sorted_touch : forall k f m, sorted m -> sorted (touch k f m).
  Proof.
    intros k f m. induction m as [|[k1 l1] m IH]; intros S; cbn.
    - split; [intros; contradiction|exact I].
    - destruct S as [S1 S2]. destruct (k <? k1) eqn:A.
      + split; [|split; assumption]. intros k' l [H|H]; [inversion H; lia|]. apply S1 in H. lia.
      + destruct (k =? k1) eqn:B; [split; assumption|]. split; [|apply IH; assumption].
        intros k' l H. apply in_touch in H. destruct H as [->|H]; [lia|]. eapply S1; eassumption.
  Qed.
  Lemma find_above : forall k (m : leaves), (forall k' l, In (k', l) m -> k < k') -> find_leaf k m = None.
  Proof.
    intros k m. induction m as [|[k1 l1] m IH]; intros H; [reflexivity|]. cbn.
    assert (k < k1) by (eapply H; left; reflexivity). replace (k =? k1) with false by lia.
    apply IH. intros. eapply H; right; eassumption.
  Qed.
  Lemma find_touch : forall k f m j, sorted m ->
    find_leaf j (touch k f m) =
    if j =? k then Some (f (match find_leaf k m with Some l => l | None => mkLeaf 0 st0 end)) else find_leaf j m.
  Proof.
    intros k f m. induction m as [|[k1 l1] m IH]; intros j S; cbn.
    - destruct (j =? k); reflexivity.
    - destruct S as [S1 S2]. destruct (k <? k1) eqn:A; cbn.
      + replace (k =? k1) with false by lia. rewrite (find_above k m) by (intros k' l H; apply S1 in H; lia).
        destruct (j =? k) eqn:B; [reflexivity|]. destruct (j =? k1); reflexivity.
      + destruct (k =? k1) eqn:B; cbn.
        * replace (j =? k) with (j =? k1) by (f_equal; lia). destruct (j =? k1); reflexivity.
        * rewrite IH by assumption. destruct (j =? k1) eqn:C; [|reflexivity].
          replace (j =? k) with false by lia. reflexivity.
  Qed.
  Lemma find_in : forall k l (m : leaves), sorted m -> In (k, l) m -> find_leaf k m = Some l.
  Proof.
    intros k l m. induction m as [|[k1 l1] m IH]; intros S H; [contradiction|]. destruct S as [S1 S2]. cbn.
    destruct H as [H|H]; [inversion H; rewrite Z.eqb_refl; reflexivity|].
    apply S1 in H as L. replace (k =? k1) with false by lia. apply IH; assumption.
  Qed.
  Lemma in_find : forall k l (m : leaves), find_leaf k m = Some l -> In (k, l) m.
  Proof.
    intros k l m. induction m as [|[k1 l1] m IH]; intros H; [discriminate|]. cbn in H.
    destruct (k =? k1) eqn:A; [inversion H; left; f_equal; lia|right; auto].
  Qed.
  Lemma find_map : forall (h : leaf -> leaf) k (m : leaves),
    find_leaf k (map (fun kl => (fst kl, h (snd kl))) m) = option_map h (find_leaf k m).
  Proof.
    intros h k m. induction m as [|[k1 l1] m IH]; [reflexivity|]. cbn. destruct (k =? k1); [reflexivity|exact IH].
  Qed.

  (** The key of a point. *)
  Definition ix (n : idx3) (e0 e01 : Z) (c : idx3) : Z :=
    (fst (fst c) - fst (fst n)) * 1 + (snd (fst c) - snd (fst n)) * e0 + (snd c - snd n) * e01.
  Notation cell_of := (cell_of cell_mul).
  Lemma leaf_index_ok : forall n e0 e01 p k, leaf_index cell_mul n (1, e0, e01) p = Ok k -> k = ix n e0 e01 (cell_of p).
  Proof.
    intros [[n0 n1] n2] e0 e01 [[x y] z] k H. unfold leaf_index, ix, cell_of, fst3, snd3, thd3 in *. cbn [fst snd] in *.
    ib H. ib H. ib H. ib H. ib H. ib H. ib H.
    apply i32_ok in E, E0, E1, E2, E3, E4, E5, H.
    destruct E as [-> _], E0 as [-> _], E1 as [-> _], E2 as [-> _], E3 as [-> _], E4 as [-> _], E5 as [-> _], H as [-> _].
    reflexivity.
  Qed.

  Definition of_points (q : list (pt F)) : leaf := mkLeaf (Z.of_nat (length q)) (fold_left add q st0).
  Notation run_insert n e0 e01 := (run (insert cell_mul st0 add n (1, e0, e01))).
  Lemma run_snoc : forall A B (step : A -> B -> outcome A) l x s,
    run step s (l ++ [x]) = bind (run step s l) (fun s' => step s' x).
  Proof.
    intros A B step l. induction l as [|y l IH]; intros x s; cbn.
    - destruct (step s x); reflexivity.
    - destruct (step s y); cbn; auto.
  Qed.
  Lemma run_leaves : forall n e0 e01 ps m, run_insert n e0 e01 [] ps = Ok m ->
    sorted m /\ forall k, find_leaf k m =
      match filter (fun p => ix n e0 e01 (cell_of p) =? k) ps with [] => None | q => Some (of_points q) end.
  Proof.
    intros n e0 e01 ps. induction ps as [|p ps IH] using rev_ind; intros m H.
    - cbn in H. inversion H. split; [exact I|]. intros k. reflexivity.
    - rewrite run_snoc in H. ib H. destruct (IH _ E) as [S Hf]. unfold insert in H. ib H.
      apply leaf_index_ok in E0. inversion H; subst m. split; [apply sorted_touch; assumption|].
      intros k. rewrite find_touch by assumption. rewrite filter_app. cbn [filter]. rewrite <- E0, (Z.eqb_sym k a0).
      destruct (a0 =? k) eqn:K.
      + apply Z.eqb_eq in K; subst k. rewrite Hf. destruct (filter _ ps) as [|x q] eqn:Q.
        * reflexivity.
        * change ((x :: q) ++ [p]) with (x :: (q ++ [p])). cbn iota. f_equal. unfold of_points. cbn [nr_points stats fold_left length].
          rewrite fold_left_app, app_length. cbn [fold_left length]. f_equal. lia.
      + rewrite app_nil_r. apply Hf.
  Qed.
  Lemma run_keys : forall n e0 e01 ps m k l, run_insert n e0 e01 [] ps = Ok m -> In (k, l) m ->
    exists p, In p ps /\ k = ix n e0 e01 (cell_of p).
  Proof.
    intros n e0 e01 ps m k l H K. destruct (run_leaves _ _ _ _ _ H) as [S Hf].
    apply find_in in K; [|assumption]. rewrite Hf in K. destruct (filter _ ps) as [|p q] eqn:Q; [discriminate|].
    assert (A : In p (filter (fun p => ix n e0 e01 (cell_of p) =? k) ps)) by (rewrite Q; left; reflexivity).
    apply filter_In in A. exists p. split; [apply A|]. destruct A as [_ A]. lia.
  Qed.
  Lemma run_each : forall n e0 e01 ps m p, run_insert n e0 e01 [] ps = Ok m -> In p ps ->
    leaf_index cell_mul n (1, e0, e01) p = Ok (ix n e0 e01 (cell_of p)).
  Proof.
    intros n e0 e01 ps. induction ps as [|q ps IH] using rev_ind; intros m p H I; [contradiction|].
    rewrite run_snoc in H. ib H. apply in_app_iff in I. destruct I as [I|[<-|[]]]; [eapply IH; eassumption|].
    unfold insert in H. ib H. pose proof (leaf_index_ok _ _ _ _ _ E0) as R. rewrite <- R. exact E0.
  Qed.

  (** Extremes. *)
  Hypothesis ord : ordered le finite cell_mul.
  Lemma min_of_spec : forall l x, finite x = true -> Forall (fun y => finite y = true) l ->
    (min_of le x l = x \/ In (min_of le x l) l) /\ cell_mul (min_of le x l) <= cell_mul x /\
    forall y, In y l -> cell_mul (min_of le x l) <= cell_mul y.
  Proof.
    destruct ord as [tot mono]. intros l. induction l as [|z l IH]; intros x Hx Hl; cbn [min_of fold_left].
    - split; [auto|]. split; [lia|]. intros y [].
    - inversion Hl as [|? ? Hz Hl']; subst. unfold min_of in *.
      assert (M : finite (min2 le x z) = true /\ (min2 le x z = x \/ min2 le x z = z) /\
                  cell_mul (min2 le x z) <= cell_mul x /\ cell_mul (min2 le x z) <= cell_mul z).
      { unfold min2. destruct (le x z) eqn:L.
        - pose proof (mono x z Hx Hz L). repeat split; auto; lia.
        - destruct (tot x z Hx Hz) as [T|T]; [congruence|]. pose proof (mono z x Hz Hx T). repeat split; auto; lia. }
      destruct M as (Mf & Me & M1 & M2). destruct (IH (min2 le x z) Mf Hl') as (A & B & C). split.
      + destruct A as [A|A]; [rewrite A; cbn; destruct Me; auto|cbn; auto].
      + split; [lia|]. intros y [<-|Y]; [lia|]. apply C; assumption.
  Qed.
  Lemma max_of_spec : forall l x, finite x = true -> Forall (fun y => finite y = true) l ->
    (max_of le x l = x \/ In (max_of le x l) l) /\ cell_mul x <= cell_mul (max_of le x l) /\
    forall y, In y l -> cell_mul y <= cell_mul (max_of le x l).
  Proof.
    destruct ord as [tot mono]. intros l. induction l as [|z l IH]; intros x Hx Hl; cbn [max_of fold_left].
    - split; [auto|]. split; [lia|]. intros y [].
    - inversion Hl as [|? ? Hz Hl']; subst. unfold max_of in *.
      assert (M : finite (max2 le x z) = true /\ (max2 le x z = x \/ max2 le x z = z) /\
                  cell_mul x <= cell_mul (max2 le x z) /\ cell_mul z <= cell_mul (max2 le x z)).
      { unfold max2. destruct (le x z) eqn:L.
        - pose proof (mono x z Hx Hz L). repeat split; auto; lia.
        - destruct (tot x z Hx Hz) as [T|T]; [congruence|]. pose proof (mono z x Hz Hx T). repeat split; auto; lia. }
      destruct M as (Mf & Me & M1 & M2). destruct (IH (max2 le x z) Mf Hl') as (A & B & C). split.
      + destruct A as [A|A]; [rewrite A; cbn; destruct Me; auto|cbn; auto].
      + split; [lia|]. intros y [<-|Y]; [lia|]. apply C; assumption.
  Qed.

  Definition in_box (n m c : idx3) : Prop :=
    fst (fst n) <= fst (fst c) <= fst (fst m) /\ snd (fst n) <= snd (fst c) <= snd (fst m) /\ snd n <= snd c <= snd m.
  Definition e_0 (n m : idx3) : Z := fst (fst m) - fst (fst n) + 1.
  Definition e_1 (n m : idx3) : Z := snd (fst m) - snd (fst n) + 1.
  Definition corner (ext : F -> list F -> F) (p : pt F) (ps : list (pt F)) : idx3 :=
    (cell_mul (ext (fst3 p) (map (fst3 (F := F)) ps)), cell_mul (ext (snd3 p) (map (snd3 (F := F)) ps)),
     cell_mul (ext (thd3 p) (map (thd3 (F := F)) ps))).
  Lemma finite_parts : forall (f : pt F -> F) l, (forall p, finite_pt finite p = true -> finite (f p) = true) ->
    Forall (fun p => finite_pt finite p = true) l -> Forall (fun y => finite y = true) (map f l).
  Proof. intros f l H A. induction A; constructor; auto. Qed.
  Lemma fin1 : forall p, finite_pt finite p = true -> finite (fst3 p) = true /\ finite (snd3 p) = true /\ finite (thd3 p) = true.
  Proof.
    intros p H. unfold finite_pt in H. apply andb_true_iff in H. destruct H as [H C]. apply andb_true_iff in H.
    destruct H as [A B]. auto.
  Qed.
  Lemma corners : forall p ps, Forall (fun p => finite_pt finite p = true) (p :: ps) -> forall q, In q (p :: ps) ->
    in_box (corner (min_of le) p ps) (corner (max_of le) p ps) (cell_of q).
  Proof.
    intros p ps A q Q. inversion A as [|? ? Fp Fps]; subst. destruct (fin1 _ Fp) as (A1 & A2 & A3).
    pose proof (finite_parts (fst3 (F := F)) ps (fun p H => proj1 (fin1 _ H)) Fps) as L1.
    pose proof (finite_parts (snd3 (F := F)) ps (fun p H => proj1 (proj2 (fin1 _ H))) Fps) as L2.
    pose proof (finite_parts (thd3 (F := F)) ps (fun p H => proj2 (proj2 (fin1 _ H))) Fps) as L3.
    destruct (min_of_spec _ _ A1 L1) as (_ & a1 & b1). destruct (max_of_spec _ _ A1 L1) as (_ & c1 & d1).
    destruct (min_of_spec _ _ A2 L2) as (_ & a2 & b2). destruct (max_of_spec _ _ A2 L2) as (_ & c2 & d2).
    destruct (min_of_spec _ _ A3 L3) as (_ & a3 & b3). destruct (max_of_spec _ _ A3 L3) as (_ & c3 & d3).
    unfold in_box, corner, VoxelCovSpec.cell_of. cbn [fst snd].
    destruct Q as [->|Q].
    - unfold fst3, snd3, thd3 in *. lia.
    - pose proof (b1 _ (in_map (fst3 (F := F)) _ _ Q)). pose proof (d1 _ (in_map (fst3 (F := F)) _ _ Q)).
      pose proof (b2 _ (in_map (snd3 (F := F)) _ _ Q)). pose proof (d2 _ (in_map (snd3 (F := F)) _ _ Q)).
      pose proof (b3 _ (in_map (thd3 (F := F)) _ _ Q)). pose proof (d3 _ (in_map (thd3 (F := F)) _ _ Q)).
      unfold fst3, snd3, thd3 in *. lia.
  Qed.

  Lemma attained : forall (f : pt F -> F) p ps v, (v = f p \/ In v (map f ps)) -> exists q, In q (p :: ps) /\ v = f q.
  Proof.
    intros f p ps v [->|I]; [exists p; split; [left; reflexivity|reflexivity]|]. apply in_map_iff in I.
    destruct I as (q & <- & I). exists q. split; [right; assumption|reflexivity].
  Qed.
  Lemma corner_in : forall p ps lo hi, Forall (fun p => finite_pt finite p = true) (p :: ps) ->
    (forall q, In q (p :: ps) -> in_box lo hi (cell_of q)) ->
    in_box lo hi (corner (min_of le) p ps) /\ in_box lo hi (corner (max_of le) p ps).
  Proof.
    intros p ps lo hi A B. inversion A as [|? ? Fp Fps]; subst. destruct (fin1 _ Fp) as (A1 & A2 & A3).
    pose proof (finite_parts (fst3 (F := F)) ps (fun p H => proj1 (fin1 _ H)) Fps) as L1.
    pose proof (finite_parts (snd3 (F := F)) ps (fun p H => proj1 (proj2 (fin1 _ H))) Fps) as L2.
    pose proof (finite_parts (thd3 (F := F)) ps (fun p H => proj2 (proj2 (fin1 _ H))) Fps) as L3.
    destruct (min_of_spec _ _ A1 L1) as (a1 & _). destruct (max_of_spec _ _ A1 L1) as (c1 & _).
    destruct (min_of_spec _ _ A2 L2) as (a2 & _). destruct (max_of_spec _ _ A2 L2) as (c2 & _).
    destruct (min_of_spec _ _ A3 L3) as (a3 & _). destruct (max_of_spec _ _ A3 L3) as (c3 & _).
    apply attained in a1, a2, a3, c1, c2, c3.
    destruct a1 as (q1 & i1 & x1), a2 as (q2 & i2 & x2), a3 as (q3 & i3 & x3), c1 as (r1 & j1 & y1), c2 as (r2 & j2 & y2), c3 as (r3 & j3 & y3).
    apply B in i1, i2, i3, j1, j2, j3. unfold in_box, corner, VoxelCovSpec.cell_of in *. cbn [fst snd] in *.
    rewrite x1, x2, x3, y1, y2, y3. unfold fst3, snd3, thd3. lia.
  Qed.

  (** What filter leaves behind for a cloud that passes the test. *)
  Notation filter_grid := (filter_grid le finite cell_mul span st0 add few enough center min_points).
  Notation second := (second few enough min_points).
  Definition is_full (kl : Z * leaf) : bool := min_points <=? nr_points (snd kl).
  Definition built (g : grid St P) (ps : list (pt F)) (n mx : idx3) (m : leaves) : Prop :=
    (forall q, In q ps -> in_box n mx (cell_of q)) /\
    run_insert n (e_0 n mx) (e_0 n mx * e_1 n mx) [] ps = Ok m /\
    g_leaves g = map (fun kl => (fst kl, second (snd kl))) m /\
    g_min g = n /\ g_max g = mx /\ g_mul g = (1, e_0 n mx, e_0 n mx * e_1 n mx) /\
    g_centroids g = map (fun kl => center (nr_points (snd kl)) (stats (snd kl))) (filter is_full m).
  Lemma filter_built : forall g s dense pts g', filter_grid g s (Some (dense, pts)) = Ok g' -> fits le finite span pts ->
    exists n mx m, built g' (usable finite pts) n mx m /\
      (usable finite pts <> [] /\ forall lo hi, (forall q, In q (usable finite pts) -> in_box lo hi (cell_of q)) -> in_box lo hi n /\ in_box lo hi mx) /\
      g_searchable g' = s /\ g_indices g' = (if s then map fst (filter is_full m) else []) /\
      g_tree g' = (if s && negb (match g_centroids g' with [] => true | _ => false end) then Some (g_centroids g') else g_tree g).
  Proof.
    intros g s dense pts g' H Fi. unfold VoxelCovModel.filter_grid in H. ib H. unfold apply_filter in E.
    cbn [g_leaves g_min g_max g_mul g_centroids g_indices g_tree g_searchable] in *.
    destruct (dense && negb (forallb (finite_pt finite) pts)); [discriminate|].
    unfold fits in Fi. change (usable finite pts) with (filter (finite_pt finite) pts) in *.
    destruct (filter (finite_pt finite) pts) as [|p ps] eqn:U; [contradiction|].
    assert (AF : Forall (fun p => finite_pt finite p = true) (p :: ps)).
    { rewrite <- U. apply Forall_forall. intros q Q. apply filter_In in Q. apply Q. }
    cbv zeta in E.
    do 8 (let a := fresh "a" in let Ea := fresh "Ea" in apply bind_ok in E; destruct E as (a & Ea & E); apply i64_ok in Ea; destruct Ea as [-> _]).
    match type of E with (if ?b then _ else _) = _ => destruct b eqn:Big end.
    { apply Z.ltb_lt in Big. unfold extent in Fi. lia. }
    do 13 (let a := fresh "a" in let Ea := fresh "Ea" in apply bind_ok in E; destruct E as (a & Ea & E); apply i32_ok in Ea; destruct Ea as [-> _]).
    apply bind_ok in E; destruct E as (lm & Er & E). injection E as <-. injection H as <-.
    exists (corner (min_of le) p ps), (corner (max_of le) p ps), lm.
    cbn [g_leaves g_min g_max g_mul g_centroids g_indices g_tree g_searchable].
    split; [|split; [split; [discriminate|intros lo hi; apply corner_in; assumption]|split; [reflexivity|split; [reflexivity|reflexivity]]]].
    unfold built. cbn [g_leaves g_min g_max g_mul g_centroids g_indices g_tree g_searchable].
    split; [apply corners; assumption|]. repeat split; try reflexivity. exact Er.
  Qed.

  Notation points_in := (points_in cell_mul).
  Notation count := (count cell_mul).
  Notation sums := (sums cell_mul st0 add).
  Notation leaf_of := (leaf_of cell_mul st0 add enough).
  Notation found := (found cell_mul st0 add enough min_points).
  Lemma filter_same : forall A (f h : A -> bool) l, (forall x, In x l -> f x = h x) -> filter f l = filter h l.
  Proof.
    intros A f h l. induction l as [|x l IH]; intros H; [reflexivity|]. cbn.
    rewrite (H x (or_introl eq_refl)), IH by (intros; apply H; right; assumption). reflexivity.
  Qed.
  Lemma idx_eqb_eq : forall a b, idx_eqb a b = true <-> a = b.
  Proof.
    intros [[a1 a2] a3] [[b1 b2] b3]. unfold idx_eqb. cbn [fst snd]. rewrite !andb_true_iff, !Z.eqb_eq. split.
    - intros [[-> ->] ->]. reflexivity.
    - intros H. inversion H. auto.
  Qed.
  Lemma ix_inj : forall n mx c c', in_box n mx c -> in_box n mx c' ->
    ix n (e_0 n mx) (e_0 n mx * e_1 n mx) c = ix n (e_0 n mx) (e_0 n mx * e_1 n mx) c' -> c = c'.
  Proof.
    intros [[n0 n1] n2] [[m0 m1] m2] [[a b] c] [[a' b'] c'] B B' E.
    unfold in_box, ix, e_0, e_1 in *. cbn [fst snd] in *. apply pack_inj in E; try lia.
    destruct E as (E1 & E2 & E3). f_equal; [f_equal|]; lia.
  Qed.
  Lemma cell_points : forall ps n mx c, (forall q, In q ps -> in_box n mx (cell_of q)) -> in_box n mx c ->
    filter (fun p => ix n (e_0 n mx) (e_0 n mx * e_1 n mx) (cell_of p) =? ix n (e_0 n mx) (e_0 n mx * e_1 n mx) c) ps =
    points_in c ps.
  Proof.
    intros ps n mx c B C. apply filter_same. intros p I. destruct (idx_eqb (cell_of p) c) eqn:E.
    - apply idx_eqb_eq in E. rewrite E. apply Z.eqb_refl.
    - apply Z.eqb_neq. intros X. apply ix_inj in X; [|auto|assumption]. apply idx_eqb_eq in X. congruence.
  Qed.
  Lemma built_find : forall g ps n mx m c, built g ps n mx m -> in_box n mx c ->
    find_leaf (ix n (e_0 n mx) (e_0 n mx * e_1 n mx) c) (g_leaves g) =
    match points_in c ps with [] => None | q => Some (second (of_points q)) end.
  Proof.
    intros g ps n mx m c (B & R & L & _) C. destruct (run_leaves _ _ _ _ _ R) as [S Hf].
    rewrite L, find_map, Hf, (cell_points _ _ _ _ B C). destruct (points_in c ps); reflexivity.
  Qed.
  Lemma outside : forall ps n mx c, (forall q, In q ps -> in_box n mx (cell_of q)) -> ~ in_box n mx c -> points_in c ps = [].
  Proof.
    intros ps n mx c B C. unfold VoxelCovSpec.points_in. destruct (filter _ ps) as [|p l] eqn:E; [reflexivity|].
    exfalso. assert (I : In p (filter (fun p => idx_eqb (cell_of p) c) ps)) by (rewrite E; left; reflexivity).
    apply filter_In in I. destruct I as [I X]. apply idx_eqb_eq in X. apply C. rewrite <- X. auto.
  Qed.
  Lemma found_nil : forall c ps, 1 <= min_points -> points_in c ps = [] -> found c ps = [].
  Proof.
    intros c ps M E. unfold VoxelCovSpec.found, VoxelCovSpec.count. rewrite E. cbn [length].
    replace (min_points <=? Z.of_nat 0) with false by (symmetry; apply Z.leb_gt; lia). reflexivity.
  Qed.
  Lemma found_some : forall c ps q, points_in c ps = q -> q <> [] ->
    (if min_points <=? nr_points (second (of_points q)) then [second (of_points q)] else []) = found c ps.
  Proof.
    intros c ps q E N. unfold VoxelCovSpec.found, VoxelCovSpec.leaf_of, VoxelCovSpec.count, VoxelCovSpec.sums. rewrite E.
    unfold VoxelCovModel.second, of_points. cbn [nr_points stats].
    destruct (min_points <=? Z.of_nat (length q)) eqn:A; cbn [nr_points andb]; [reflexivity|]. rewrite A. reflexivity.
  Qed.
  Lemma neighbors_found : forall g ps n mx m ijk rel r, built g ps n mx m -> 1 <= min_points ->
    neighbors min_points g ijk rel = Ok r -> r = flat_map (fun d => found (shift ijk d) ps) rel.
  Proof.
    intros g ps n mx m ijk rel r B M. revert r. induction rel as [|d rel IH]; intros r H; [inversion H; reflexivity|].
    pose proof B as (Bx & R & L & Gn & Gx & Gm & _).
    destruct ijk as [[i j] k]. destruct n as [[n0 n1] n2]. destruct mx as [[m0 m1] m2].
    cbn [neighbors] in H. rewrite Gn, Gx, Gm in H.
    do 6 (let a := fresh "a" in let Ea := fresh "Ea" in apply bind_ok in H; destruct H as (a & Ea & H); apply i32_ok in Ea; destruct Ea as [-> _]).
    destruct d as [[x y] z]. cbn [flat_map]. unfold in_grid in H.
    match type of H with (if ?b then _ else _) = _ => destruct b eqn:G end.
    - rewrite !andb_true_iff, !Z.leb_le in G.
      apply bind_ok in H; destruct H as (key & Ek & H). apply i32_ok in Ek. destruct Ek as [-> _].
      apply bind_ok in H; destruct H as (rest & Er & H). apply IH in Er. subst rest.
      assert (C : in_box (n0, n1, n2) (m0, m1, m2) (shift (i, j, k) (x, y, z))) by (unfold in_box, shift; cbn [fst snd]; lia).
      pose proof (built_find _ _ _ _ _ _ B C) as Fd.
      unfold ix in Fd. unfold shift in Fd at 1 2 3. cbn [fst snd] in Fd. rewrite Fd in H.
      destruct (points_in (shift (i, j, k) (x, y, z)) ps) as [|q0 q] eqn:Q.
      + rewrite found_nil by assumption. inversion H. reflexivity.
      + rewrite <- (found_some _ _ _ Q) by discriminate. inversion H.
        destruct (min_points <=? nr_points (second (of_points (q0 :: q)))); reflexivity.
    - apply IH in H. subst r. rewrite found_nil; [reflexivity|assumption|]. apply (outside _ _ _ _ Bx).
      intros C. unfold in_box, shift in C. cbn [fst snd] in C. rewrite !andb_false_iff, !Z.leb_gt in G. lia.
  Qed.

  (** The cells with enough points, in the order of the map. *)
  Lemma choose : forall A B (Q : A -> B -> Prop) l, (forall x, In x l -> exists y, Q x y) -> exists l', Forall2 Q l l'.
  Proof.
    intros A B Q l. induction l as [|x l IH]; intros H; [exists []; constructor|].
    destruct (H x (or_introl eq_refl)) as [y Y]. destruct IH as [l' L]; [intros; apply H; right; assumption|].
    exists (y :: l'). constructor; assumption.
  Qed.
  Definition of_cell (ps : list (pt F)) (n mx : idx3) (kl : Z * leaf) (c : idx3) : Prop :=
    fst kl = ix n (e_0 n mx) (e_0 n mx * e_1 n mx) c /\ in_box n mx c /\ snd kl = of_points (points_in c ps) /\
    points_in c ps <> [].
  Lemma each_cell : forall g ps n mx m kl, built g ps n mx m -> In kl m -> exists c, of_cell ps n mx kl c.
  Proof.
    intros g ps n mx m [k l] (B & R & _) I. destruct (run_keys _ _ _ _ _ _ _ R I) as (p & Ip & E).
    exists (cell_of p). unfold of_cell. cbn [fst snd]. split; [assumption|]. split; [auto|].
    destruct (run_leaves _ _ _ _ _ R) as [S Hf]. apply find_in in I; [|assumption]. rewrite Hf, E, cell_points in I by auto.
    destruct (points_in (cell_of p) ps) as [|q0 q]; [discriminate|]. split; [congruence|discriminate].
  Qed.
  Lemma sorted_nodup : forall m : leaves, sorted m -> NoDup (map fst m).
  Proof.
    intros m. induction m as [|[k l] m IH]; intros S; [constructor|]. destruct S as [S1 S2]. constructor; [|auto].
    intros I. apply in_map_iff in I. destruct I as ([k' l'] & E & I). cbn in E. subst k'. apply S1 in I. lia.
  Qed.
  Lemma nodup_filter_map : forall A B (f : A -> B) (h : A -> bool) l, NoDup (map f l) -> NoDup (map f (filter h l)).
  Proof.
    intros A B f h l. induction l as [|x l IH]; intros N; [constructor|]. inversion N as [|? ? N1 N2]; subst. cbn.
    destruct (h x); [|auto]. cbn. constructor; [|auto]. intros I. apply N1. apply in_map_iff in I.
    destruct I as (y & E & I). apply filter_In in I. apply in_map_iff. exists y. tauto.
  Qed.
  Lemma full_cells : forall g ps n mx m, built g ps n mx m -> 1 <= min_points ->
    exists cs, Forall2 (of_cell ps n mx) (filter is_full m) cs /\ NoDup cs /\ forall c, In c cs <-> min_points <= count c ps.
  Proof.
    intros g ps n mx m B M. pose proof B as (Bx & R & _). destruct (run_leaves _ _ _ _ _ R) as [S Hf].
    destruct (choose _ _ (of_cell ps n mx) (filter is_full m)) as [cs C].
    { intros kl I. apply filter_In in I. eapply each_cell; [eassumption|apply I]. }
    exists cs. split; [assumption|]. split.
    - pose proof (nodup_filter_map _ _ fst is_full m (sorted_nodup _ S)) as N. revert N C. generalize (filter is_full m).
      intros l N C. induction C as [|kl c l cs O C IH]; [constructor|]. inversion N as [|? ? N1 N2]; subst.
      constructor; [|auto]. intros I. apply N1. clear - O C I. destruct O as (E & _). rewrite E. clear E.
      induction C as [|kl' c' l cs O' C IH]; [contradiction|]. destruct I as [->|I]; [left; apply O'|right; auto].
    - intros c. split.
      + intros I. assert (X : exists kl, In kl (filter is_full m) /\ of_cell ps n mx kl c).
        { clear - C I. induction C as [|kl c' l cs O C IH]; [contradiction|]. destruct I as [->|I].
          - exists kl. split; [left; reflexivity|assumption].
          - destruct (IH I) as (kl' & A & A'). exists kl'. split; [right; assumption|assumption]. }
        destruct X as ([k l] & I' & O). apply filter_In in I'. destruct I' as [_ I']. unfold is_full in I'.
        destruct O as (_ & _ & El & _). cbn [snd] in *. rewrite El in I'. apply Z.leb_le in I'. exact I'.
      + intros Cn. destruct (points_in c ps) as [|q0 q] eqn:Q.
        { unfold VoxelCovSpec.count in Cn. rewrite Q in Cn. cbn in Cn. lia. }
        assert (Ib : in_box n mx c).
        { assert (I : In q0 (points_in c ps)) by (rewrite Q; left; reflexivity). apply filter_In in I.
          destruct I as [I E]. apply idx_eqb_eq in E. rewrite <- E. auto. }
        assert (Fm : find_leaf (ix n (e_0 n mx) (e_0 n mx * e_1 n mx) c) m = Some (of_points (q0 :: q))).
        { rewrite Hf, cell_points, Q by assumption. reflexivity. }
        apply in_find in Fm.
        assert (If : In (ix n (e_0 n mx) (e_0 n mx * e_1 n mx) c, of_points (q0 :: q)) (filter is_full m)).
        { apply filter_In. split; [assumption|]. unfold is_full. cbn [snd of_points nr_points]. apply Z.leb_le.
          unfold VoxelCovSpec.count in Cn. rewrite Q in Cn. exact Cn. }
        clear - C If Ib. induction C as [|kl c' l cs O C IH]; [contradiction|]. destruct If as [->|I].
        * left. destruct O as (E & Ib' & _). cbn [fst] in E. symmetry. eapply ix_inj; eassumption.
        * right. auto.
  Qed.
  Lemma centroids_cells : forall ps n mx l cs, Forall2 (of_cell ps n mx) l cs ->
    map (fun kl => center (nr_points (snd kl)) (stats (snd kl))) l = map (fun c => center (count c ps) (sums c ps)) cs.
  Proof.
    intros ps n mx l cs C. induction C as [|kl c l cs O C IH]; [reflexivity|]. cbn [map]. rewrite IH. f_equal.
    destruct O as (_ & _ & -> & _). reflexivity.
  Qed.
  Lemma leaves_found : forall g ps n mx m cs ns, built g ps n mx m -> Forall2 (of_cell ps n mx) (filter is_full m) cs ->
    (forall c, In c cs -> min_points <= count c ps) ->
    g_indices g = map fst (filter is_full m) -> (forall i, In i ns -> (i < length cs)%nat) ->
    leaves_of g ns = Ok (map (fun i => leaf_of (nth i cs (0, 0, 0)) ps) ns).
  Proof.
    intros g ps n mx m cs ns B C Full Gi. induction ns as [|i ns IH]; intros H; [reflexivity|]. cbn [leaves_of].
    assert (Li : (i < length cs)%nat) by (apply H; left; reflexivity).
    assert (X : exists kl, nth_error (filter is_full m) i = Some kl /\ of_cell ps n mx kl (nth i cs (0, 0, 0))).
    { clear - C Li. revert i Li. induction C as [|kl c l cs O C IH]; intros i Li; [cbn in Li; lia|].
      destruct i as [|i]; [exists kl; split; [reflexivity|assumption]|]. apply IH. cbn in Li. lia. }
    destruct X as (kl & E & O & Ib & El & Np). rewrite Gi, nth_error_map, E. cbn [option_map]. rewrite O, (built_find _ _ _ _ _ _ B Ib).
    destruct (points_in (nth i cs (0, 0, 0)) ps) as [|q0 q] eqn:Q; [congruence|].
    rewrite IH by (intros; apply H; right; assumption). cbn [bind map]. do 2 f_equal.
    unfold VoxelCovModel.second, VoxelCovSpec.leaf_of, of_points, VoxelCovSpec.count, VoxelCovSpec.sums. rewrite Q.
    cbn [nr_points stats].
    replace (min_points <=? Z.of_nat (length (q0 :: q))) with true; [reflexivity|].
    symmetry. apply Z.leb_le. rewrite <- Q. apply (Full (nth i cs (0, 0, 0))). apply nth_In. assumption.
  Qed.

  (** Without overflow. *)
  Definition volume (n m : idx3) : Z := e_0 n m * e_1 n m * (snd m - snd n + 1).
  Lemma volume_bounds : forall n m, in_box n m n -> in_box n m m -> volume n m <= 2 ^ 31 - 1 ->
    1 <= e_0 n m /\ 1 <= e_1 n m /\ 1 <= snd m - snd n + 1 /\ e_0 n m <= volume n m /\ e_1 n m <= volume n m /\
    snd m - snd n + 1 <= volume n m /\ e_0 n m * e_1 n m <= volume n m.
  Proof.
    intros [[n0 n1] n2] [[m0 m1] m2] A B V. unfold in_box, volume, e_0, e_1 in *. cbn [fst snd] in *. clear V.
    assert (A1 : 1 <= m0 - n0 + 1) by lia. assert (A2 : 1 <= m1 - n1 + 1) by lia. assert (A3 : 1 <= m2 - n2 + 1) by lia.
    clear A B. revert A1 A2 A3. generalize (m0 - n0 + 1) (m1 - n1 + 1) (m2 - n2 + 1). clear. intros a b c A B C.
    assert (a * b >= a) by nia. assert (a * b >= b) by nia. assert (a * b * c >= a * b) by nia. assert (a * b * c >= c) by nia. lia.
  Qed.
  Lemma index_in : forall a b c x y z, 0 <= x < a -> 0 <= y < b -> 0 <= z < c -> a * b * c <= 2 ^ 31 - 1 ->
    0 <= y * a <= a * b * c /\ 0 <= z * (a * b) <= a * b * c /\ 0 <= x + y * a <= a * b * c /\
    0 <= x + y * a + z * (a * b) < a * b * c.
  Proof.
    intros a b c x y z X Y Z V. clear V.
    assert (A1 : 0 <= y * a <= (b - 1) * a) by nia.
    assert (A2 : 0 <= z * (a * b) <= (c - 1) * (a * b)) by (assert (0 <= a * b) by nia; nia).
    assert (A3 : a * b <= a * b * c) by (assert (0 <= a * b) by nia; nia).
    nia.
  Qed.
  Lemma leaf_index_in : forall n mx q, in_box n mx (cell_of q) -> volume n mx <= 2 ^ 31 - 1 ->
    leaf_index cell_mul n (1, e_0 n mx, e_0 n mx * e_1 n mx) q = Ok (ix n (e_0 n mx) (e_0 n mx * e_1 n mx) (cell_of q)).
  Proof.
    intros n mx q B V.
    assert (VB : 1 <= e_0 n mx /\ 1 <= e_1 n mx /\ 1 <= snd mx - snd n + 1 /\ e_0 n mx <= volume n mx /\ e_1 n mx <= volume n mx /\
                 snd mx - snd n + 1 <= volume n mx /\ e_0 n mx * e_1 n mx <= volume n mx).
    { apply volume_bounds; unfold in_box in *; try assumption; lia. }
    destruct n as [[n0 n1] n2]. destruct mx as [[m0 m1] m2]. unfold leaf_index, ix, VoxelCovSpec.cell_of, fst3, snd3, thd3 in *.
    cbn [fst snd] in *. unfold in_box in B. cbn [fst snd] in B.
    set (x := cell_mul (fst (fst q))) in *. set (y := cell_mul (snd (fst q))) in *. set (z := cell_mul (snd q)) in *.
    pose proof (index_in (e_0 (n0, n1, n2) (m0, m1, m2)) (e_1 (n0, n1, n2) (m0, m1, m2)) (m2 - n2 + 1) (x - n0) (y - n1) (z - n2)) as I.
    unfold volume in *. cbn [fst snd] in *.
    destruct I as (I1 & I2 & I3 & I4); try (unfold e_0, e_1; cbn [fst snd]; lia); try lia.
    assert (X : 0 <= x - n0 < e_0 (n0, n1, n2) (m0, m1, m2)) by (unfold e_0; cbn [fst snd]; lia).
    assert (Y : 0 <= y - n1 < e_1 (n0, n1, n2) (m0, m1, m2)) by (unfold e_1; cbn [fst snd]; lia).
    assert (Z : 0 <= z - n2 < m2 - n2 + 1) by lia.
    revert VB I1 I2 I3 I4 X Y Z V. generalize (e_0 (n0, n1, n2) (m0, m1, m2)) (e_1 (n0, n1, n2) (m0, m1, m2)) (m2 - n2 + 1) (x - n0) (y - n1) (z - n2).
    clear. intros a b c x y z VB I1 I2 I3 I4 X Y Z V.
    rewrite (i32_in x) by lia. cbn [bind]. rewrite (i32_in y) by lia. cbn [bind]. rewrite (i32_in z) by lia. cbn [bind].
    rewrite (i32_in (x * 1)) by lia. cbn [bind]. rewrite (i32_in (y * a)) by lia. cbn [bind].
    rewrite (i32_in (z * (a * b))) by lia. cbn [bind]. rewrite (i32_in (x * 1 + y * a)) by lia. cbn [bind].
    apply i32_in. lia.
  Qed.
  Lemma run_ok : forall n mx ps m0, (forall q, In q ps -> in_box n mx (cell_of q)) -> volume n mx <= 2 ^ 31 - 1 ->
    exists m, run_insert n (e_0 n mx) (e_0 n mx * e_1 n mx) m0 ps = Ok m.
  Proof.
    intros n mx ps. induction ps as [|p ps IH]; intros m0 B V; [exists m0; reflexivity|]. cbn [run]. unfold insert.
    rewrite leaf_index_in by (auto; apply B; left; reflexivity). cbn [bind]. apply IH; [|assumption].
    intros; apply B; right; assumption.
  Qed.
  Lemma volume_mono : forall n m lo hi, in_box lo hi n -> in_box lo hi m -> in_box n m n -> volume n m <= volume lo hi.
  Proof.
    intros [[n0 n1] n2] [[m0 m1] m2] [[l0 l1] l2] [[h0 h1] h2] A B C. unfold in_box, volume, e_0, e_1 in *. cbn [fst snd] in *.
    assert (X : 1 <= m0 - n0 + 1 <= h0 - l0 + 1) by lia. assert (Y : 1 <= m1 - n1 + 1 <= h1 - l1 + 1) by lia.
    assert (Z : 1 <= m2 - n2 + 1 <= h2 - l2 + 1) by lia. clear A B C. revert X Y Z.
    generalize (m0 - n0 + 1) (m1 - n1 + 1) (m2 - n2 + 1) (h0 - l0 + 1) (h1 - l1 + 1) (h2 - l2 + 1). clear.
    intros a b c a' b' c' X Y Z. assert (1 <= a * b <= a' * b') by nia. nia.
  Qed.
  Definition inside (b : Z) (n m : idx3) : Prop :=
    - b < fst (fst n) /\ fst (fst m) < b /\ - b < snd (fst n) /\ snd (fst m) < b /\ - b < snd n /\ snd m < b.
  Lemma filter_runs : forall g s dense pts lo hi,
    (forall a b, finite a = true -> finite b = true -> cell_mul a - cell_mul b - 1 <= span a b <= cell_mul a - cell_mul b) ->
    (dense = true -> forallb (finite_pt finite) pts = true) -> usable finite pts <> [] ->
    (forall q, In q (usable finite pts) -> in_box lo hi (cell_of q)) -> inside (2 ^ 30) lo hi -> volume lo hi <= 2 ^ 31 - 1 ->
    exists g', filter_grid g s (Some (dense, pts)) = Ok g' /\ fits le finite span pts.
  Proof.
    intros g s dense pts lo hi Sp D N B Is V. unfold VoxelCovModel.filter_grid, apply_filter, fits.
    change (usable finite pts) with (filter (finite_pt finite) pts) in *.
    replace (dense && negb (forallb (finite_pt finite) pts)) with false
      by (destruct dense; [rewrite D by reflexivity|]; reflexivity).
    destruct (filter (finite_pt finite) pts) as [|p ps] eqn:U; [congruence|].
    assert (AF : Forall (fun p => finite_pt finite p = true) (p :: ps)).
    { rewrite <- U. apply Forall_forall. intros q Q. apply filter_In in Q. apply Q. }
    destruct (corner_in p ps lo hi AF B) as [Cn Cm].
    pose proof (corners p ps AF p (or_introl eq_refl)) as Cp.
    assert (Bn : in_box (corner (min_of le) p ps) (corner (max_of le) p ps) (corner (min_of le) p ps)) by (unfold in_box in *; lia).
    assert (Bm : in_box (corner (min_of le) p ps) (corner (max_of le) p ps) (corner (max_of le) p ps)) by (unfold in_box in *; lia).
    pose proof (volume_mono _ _ _ _ Cn Cm Bn) as Vm.
    assert (Vc : volume (corner (min_of le) p ps) (corner (max_of le) p ps) <= 2 ^ 31 - 1) by lia.
    destruct (volume_bounds _ _ Bn Bm Vc) as (V1 & V2 & V3 & V4 & V5 & V6 & V7).
    destruct (run_ok _ _ (p :: ps) [] (corners p ps AF) Vc) as [m R].
    inversion AF as [|? ? Fp Fps]; subst. destruct (fin1 _ Fp) as (A1 & A2 & A3).
    assert (Fin : forall f x, finite x = true -> Forall (fun y => finite y = true) (map f ps) ->
      finite (min_of le x (map f ps)) = true /\ finite (max_of le x (map f ps)) = true).
    { intros f x Hx L. destruct (min_of_spec _ _ Hx L) as ([E|I] & _), (max_of_spec _ _ Hx L) as ([E'|I'] & _);
        rewrite Forall_forall in L; rewrite ?E, ?E'; split; auto. }
    pose proof (finite_parts (fst3 (F := F)) ps (fun p H => proj1 (fin1 _ H)) Fps) as L1.
    pose proof (finite_parts (snd3 (F := F)) ps (fun p H => proj1 (proj2 (fin1 _ H))) Fps) as L2.
    pose proof (finite_parts (thd3 (F := F)) ps (fun p H => proj2 (proj2 (fin1 _ H))) Fps) as L3.
    destruct (Fin _ _ A1 L1) as [F1 F1']. destruct (Fin _ _ A2 L2) as [F2 F2']. destruct (Fin _ _ A3 L3) as [F3 F3'].
    pose proof (Sp _ _ F1' F1) as S1. pose proof (Sp _ _ F2' F2) as S2. pose proof (Sp _ _ F3' F3) as S3.
    unfold extent. cbv zeta. cbn [g_leaves g_min g_max g_mul g_centroids g_indices g_tree g_searchable].
    unfold volume, e_0, e_1, corner, in_box, inside in *. cbn [fst snd] in *.
    set (x0 := min_of le (fst3 p) (map (fst3 (F := F)) ps)) in *. set (x1 := max_of le (fst3 p) (map (fst3 (F := F)) ps)) in *.
    set (y0 := min_of le (snd3 p) (map (snd3 (F := F)) ps)) in *. set (y1 := max_of le (snd3 p) (map (snd3 (F := F)) ps)) in *.
    set (z0 := min_of le (thd3 p) (map (thd3 (F := F)) ps)) in *. set (z1 := max_of le (thd3 p) (map (thd3 (F := F)) ps)) in *.
    assert (Pr : 0 <= (span x1 x0 + 1) * (span y1 y0 + 1) <= (cell_mul x1 - cell_mul x0 + 1) * (cell_mul y1 - cell_mul y0 + 1)).
    { clear - S1 S2 V1 V2. nia. }
    assert (Pr3 : 0 <= (span x1 x0 + 1) * (span y1 y0 + 1) * (span z1 z0 + 1) <=
                  (cell_mul x1 - cell_mul x0 + 1) * (cell_mul y1 - cell_mul y0 + 1) * (cell_mul z1 - cell_mul z0 + 1)).
    { assert (0 <= span z1 z0 + 1 <= cell_mul z1 - cell_mul z0 + 1) by lia. revert Pr H.
      generalize ((span x1 x0 + 1) * (span y1 y0 + 1)) ((cell_mul x1 - cell_mul x0 + 1) * (cell_mul y1 - cell_mul y0 + 1))
                 (span z1 z0 + 1) (cell_mul z1 - cell_mul z0 + 1). clear. intros a b c d Pr H. nia. }
    rewrite (i64_in (span x1 x0)) by lia. cbn [bind]. rewrite (i64_in (span x1 x0 + 1)) by lia. cbn [bind].
    rewrite (i64_in (span y1 y0)) by lia. cbn [bind]. rewrite (i64_in (span y1 y0 + 1)) by lia. cbn [bind].
    rewrite (i64_in (span z1 z0)) by lia. cbn [bind]. rewrite (i64_in (span z1 z0 + 1)) by lia. cbn [bind].
    rewrite (i64_in ((span x1 x0 + 1) * (span y1 y0 + 1))) by lia. cbn [bind].
    rewrite (i64_in ((span x1 x0 + 1) * (span y1 y0 + 1) * (span z1 z0 + 1))) by lia. cbn [bind].
    replace (2 ^ 31 - 1 <? (span x1 x0 + 1) * (span y1 y0 + 1) * (span z1 z0 + 1)) with false
      by (symmetry; apply Z.ltb_ge; lia).
    rewrite !(i32_in (cell_mul _)) by lia. cbn [bind].
    rewrite (i32_in (cell_mul x1 - cell_mul x0)) by lia. cbn [bind]. rewrite (i32_in (cell_mul x1 - cell_mul x0 + 1)) by lia. cbn [bind].
    rewrite (i32_in (cell_mul y1 - cell_mul y0)) by lia. cbn [bind]. rewrite (i32_in (cell_mul y1 - cell_mul y0 + 1)) by lia. cbn [bind].
    rewrite (i32_in (cell_mul z1 - cell_mul z0)) by lia. cbn [bind]. rewrite (i32_in (cell_mul z1 - cell_mul z0 + 1)) by lia. cbn [bind].
    rewrite (i32_in ((cell_mul x1 - cell_mul x0 + 1) * (cell_mul y1 - cell_mul y0 + 1))) by lia. cbn [bind].
    rewrite R. cbn [bind]. eexists. split; [reflexivity|]. lia.
  Qed.
  Lemma neighbors_ok : forall g ps n mx m ijk rel, built g ps n mx m -> in_box n mx n -> in_box n mx mx -> inside (2 ^ 30) n mx ->
    volume n mx <= 2 ^ 31 - 1 -> inside (2 ^ 30) ijk ijk -> exists r, neighbors min_points g ijk rel = Ok r.
  Proof.
    intros g ps n mx m ijk rel (_ & _ & _ & Gn & Gx & Gm & _) Bn Bm Is V Q. induction rel as [|d rel [r IH]]; [eexists; reflexivity|].
    destruct ijk as [[i j] k]. destruct d as [[x y] z]. cbn [neighbors]. rewrite Gn, Gx, Gm, IH.
    pose proof (volume_bounds _ _ Bn Bm V) as VB.
    destruct n as [[n0 n1] n2]. destruct mx as [[m0 m1] m2]. unfold inside, in_box in *. cbn [fst snd] in *.
    rewrite (i32_in (n0 - i)) by lia. cbn [bind]. rewrite (i32_in (n1 - j)) by lia. cbn [bind].
    rewrite (i32_in (n2 - k)) by lia. cbn [bind]. rewrite (i32_in (m0 - i)) by lia. cbn [bind].
    rewrite (i32_in (m1 - j)) by lia. cbn [bind]. rewrite (i32_in (m2 - k)) by lia. cbn [bind].
    unfold in_grid. match goal with |- context [if ?b then _ else _] => destruct b eqn:G end; [|eexists; reflexivity].
    rewrite !andb_true_iff, !Z.leb_le in G.
    pose proof (index_in (e_0 (n0, n1, n2) (m0, m1, m2)) (e_1 (n0, n1, n2) (m0, m1, m2)) (m2 - n2 + 1) (i + x - n0) (j + y - n1) (k + z - n2)) as I.
    unfold volume in *. cbn [fst snd] in *.
    destruct I as (I1 & I2 & I3 & I4); try (unfold e_0, e_1; cbn [fst snd]; lia); try lia.
    rewrite i32_in by lia. cbn [bind]. destruct (find_leaf _ _); eexists; reflexivity.
  Qed.
End Grid.

(** The normal distributions. *)
Section Normal.
  Local Open Scope R_scope.
  Lemma along_add : forall a b u, along (madd a b) u = along a u + along b u.
  Proof. intros. unfold along, dot, mvec, madd; cbn. ring. Qed.
  Lemma along_scale : forall k a u, along (mscale k a) u = k * along a u.
  Proof. intros. unfold along, dot, mvec, mscale; cbn. ring. Qed.
  Lemma along_outer : forall a b u, along (outer a b) u = dot u a * dot u b.
  Proof. intros. unfold along, dot, mvec, outer; cbn. ring. Qed.
  Lemma along_ident : forall u, along ident u = dot u u.
  Proof. intros. unfold along, dot, mvec, ident; cbn. ring. Qed.
  Lemma dot_scale : forall u k v, dot u (vscale k v) = k * dot u v.
  Proof. intros. unfold dot, vscale; cbn. ring. Qed.
  Lemma dot_add : forall u a b, dot u (vadd a b) = dot u a + dot u b.
  Proof. intros. unfold dot, vadd; cbn. ring. Qed.
  Lemma dot_sub : forall u a b, dot u (vsub a b) = dot u a - dot u b.
  Proof. intros. unfold dot, vsub; cbn. ring. Qed.
  Lemma trans_add : forall a b, mtrans a = a -> mtrans b = b -> mtrans (madd a b) = madd a b.
  Proof.
    intros a b A B. unfold mtrans, madd in *. destruct a, b; cbn in *. injection A; injection B; intros; f_equal; congruence.
  Qed.
  Lemma trans_scale : forall k a, mtrans a = a -> mtrans (mscale k a) = mscale k a.
  Proof. intros k a A. unfold mtrans, mscale in *. destruct a; cbn in *. injection A; intros; f_equal; congruence. Qed.
  Lemma trans_outer : forall k a, mtrans (outer a (vscale k a)) = outer a (vscale k a).
  Proof. intros. unfold mtrans, outer, vscale; cbn. f_equal; ring. Qed.
  Lemma trans_outer_same : forall a, mtrans (outer a a) = outer a a.
  Proof. intros. unfold mtrans, outer; cbn. f_equal; ring. Qed.

  (** The sums. *)
  Fixpoint outers (l : list vec) : mat := match l with [] => zero_mat | p :: l => madd (outer p p) (outers l) end.
  Lemma vadd_assoc : forall a b c, vadd (vadd a b) c = vadd a (vadd b c).
  Proof. intros. unfold vadd; cbn. f_equal; ring. Qed.
  Lemma madd_assoc : forall a b c, madd (madd a b) c = madd a (madd b c).
  Proof. intros. unfold madd; cbn. f_equal; ring. Qed.
  Lemma fold_points : forall l s, fold_left add_point l s =
    mkN (vadd (n_mean s) (psum l)) (madd (n_cov s) (outers l)) (n_icov s) (n_evecs s) (n_evals s).
  Proof.
    intros l. induction l as [|p l IH]; intros s; cbn [fold_left outers psum fold_right].
    - destruct s as [[a b c] [] ic ev va]; cbn. unfold vadd, madd, zero_vec, zero_mat; cbn. f_equal; f_equal; ring.
    - rewrite IH. unfold add_point. cbn [n_mean n_cov n_icov n_evecs n_evals]. rewrite vadd_assoc, madd_assoc. reflexivity.
  Qed.
  Lemma along_outers : forall l u, along (outers l) u = square_sum (dot u) l.
  Proof.
    intros l u. induction l as [|p l IH]; cbn [outers square_sum].
    - unfold along, dot, mvec, zero_mat; cbn. ring.
    - rewrite along_add, along_outer, IH. reflexivity.
  Qed.
  Lemma trans_outers : forall l, mtrans (outers l) = outers l.
  Proof.
    intros l. induction l as [|p l IH]; cbn [outers]; [reflexivity|]. apply trans_add; [apply trans_outer_same|assumption].
  Qed.
  Lemma square_sum_sub : forall u a l,
    square_sum (fun p => dot u (vsub p a)) l =
    square_sum (dot u) l - 2 * dot u a * dot u (psum l) + INR (length l) * (dot u a * dot u a).
  Proof.
    intros u a l. induction l as [|p l IH].
    - cbn. unfold dot, zero_vec; cbn. ring.
    - cbn [square_sum psum fold_right]. fold (psum l). change (length (p :: l)) with (S (length l)).
      rewrite S_INR, IH, dot_sub, dot_add. ring.
  Qed.
  Definition raw_cov (l : list vec) : mat :=
    mscale ((INR (length l) - 1) / INR (length l))
      (madd (mscale (/ INR (length l)) (madd (madd ident (outers l)) (mscale (-2) (outer (psum l) (average l)))))
            (outer (average l) (average l))).
  Lemma raw_along : forall l u, l <> [] -> along (raw_cov l) u = raw_variance l u.
  Proof.
    intros l u N. unfold raw_cov, raw_variance. rewrite !along_scale, !along_add, !along_scale, !along_add, along_scale, !along_outer, along_ident, along_outers.
    f_equal. unfold variance. rewrite square_sum_sub.
    assert (P : INR (length l) <> 0) by (apply not_0_INR; destruct l; [congruence|discriminate]).
    assert (A : dot u (psum l) = INR (length l) * dot u (average l)).
    { unfold average. rewrite dot_scale. field. assumption. }
    rewrite A. field. assumption.
  Qed.
  Lemma raw_sym : forall l, mtrans (raw_cov l) = raw_cov l.
  Proof.
    intros l. unfold raw_cov. apply trans_scale, trans_add; [|apply trans_outer_same].
    apply trans_scale, trans_add; [apply trans_add; [reflexivity|apply trans_outers]|].
    apply trans_scale. unfold average. apply trans_outer.
  Qed.
  Lemma variance_pos : forall l u, 0 <= variance l u.
  Proof.
    intros l u. unfold variance.
    assert (A : 0 <= square_sum (fun p => dot u (vsub p (average l))) l).
    { generalize (average l). intros a. induction l as [|p l IH]; cbn [square_sum]; [lra|].
      pose proof (Rle_0_sqr (dot u (vsub p a))) as S. unfold Rsqr in S. lra. }
    destruct l as [|p l]; [cbn; unfold Rdiv; rewrite Rmult_0_l; lra|].
    apply Rmult_le_pos; [assumption|]. apply Rlt_le, Rinv_0_lt_compat, lt_0_INR. cbn. lia.
  Qed.
  Lemma raw_above : forall l u, (2 <= length l)%nat ->
    (INR (length l) - 1) / (INR (length l) * INR (length l)) * dot u u <= raw_variance l u.
  Proof.
    intros l u L. unfold raw_variance. pose proof (variance_pos l u) as V. apply le_INR in L. cbn [INR] in L.
    assert (C : 0 <= (INR (length l) - 1) / INR (length l)).
    { apply Rmult_le_pos; [lra|]. apply Rlt_le, Rinv_0_lt_compat. lra. }
    replace ((INR (length l) - 1) / (INR (length l) * INR (length l)) * dot u u)
      with ((INR (length l) - 1) / INR (length l) * (dot u u / INR (length l))) by (field; lra).
    apply Rmult_le_compat_l; lra.
  Qed.

  (** Inverses and bases. *)
  Lemma minv_left : forall m, det m <> 0 -> mmul (minv m) m = ident.
  Proof.
    intros m D. unfold minv, mscale, mmul, ident. cbn. unfold det in *. f_equal; field; assumption.
  Qed.
  Lemma det_trans : forall m, det (mtrans m) = det m.
  Proof. intros. unfold det, mtrans; cbn. ring. Qed.
  Lemma det_ident : det ident = 1.
  Proof. unfold det, ident; cbn. ring. Qed.
  Lemma orth_det : forall v, mmul v (mtrans v) = ident -> det v * det v = 1.
  Proof. intros v H. rewrite <- (det_trans v) at 2. rewrite <- det_mmul, H. apply det_ident. Qed.
  Lemma orth_inv : forall v, mmul v (mtrans v) = ident -> minv v = mtrans v.
  Proof.
    intros v H. assert (D : det v <> 0) by (pose proof (orth_det v H); intros E; rewrite E in *; lra).
    rewrite <- (mmul_ident_r (minv v)), <- H, mmul_assoc, minv_left by assumption. apply mmul_ident_l.
  Qed.
  Lemma orth_left : forall v, mmul v (mtrans v) = ident -> mmul (mtrans v) v = ident.
  Proof.
    intros v H. rewrite <- (orth_inv v H). apply minv_left. pose proof (orth_det v H); intros E; rewrite E in *; lra.
  Qed.
  Lemma mtrans_mtrans : forall m, mtrans (mtrans m) = m.
  Proof. intros []; reflexivity. Qed.
  Lemma mvec_mmul : forall a b u, mvec (mmul a b) u = mvec a (mvec b u).
  Proof. intros. unfold mvec, mmul; cbn. f_equal; ring. Qed.
  Lemma mvec_ident : forall u, mvec ident u = u.
  Proof. intros []. unfold mvec, ident; cbn. f_equal; ring. Qed.
  Definition weighted (d w : vec) : R := vx d * (vx w * vx w) + vy d * (vy w * vy w) + vz d * (vz w * vz w).
  Lemma along_basis : forall v d u, along (mmul (mmul v (diag d)) (mtrans v)) u = weighted d (mvec (mtrans v) u).
  Proof. intros. unfold along, weighted, dot, mvec, mmul, mtrans, diag; cbn. ring. Qed.
  Lemma basis_norm : forall v u, mmul v (mtrans v) = ident -> dot (mvec (mtrans v) u) (mvec (mtrans v) u) = dot u u.
  Proof.
    intros v u H. transitivity (along (mmul v (mtrans v)) u); [|rewrite H; apply along_ident].
    unfold along, dot, mvec, mmul, mtrans; cbn. ring.
  Qed.
  Lemma basis_back : forall v w, mmul v (mtrans v) = ident -> mvec (mtrans v) (mvec v w) = w.
  Proof. intros v w H. rewrite <- mvec_mmul, orth_left by assumption. apply mvec_ident. Qed.
  Lemma basis_sym : forall v d, mtrans (mmul (mmul v (diag d)) (mtrans v)) = mmul (mmul v (diag d)) (mtrans v).
  Proof. intros. rewrite !mtrans_mmul, mtrans_mtrans, mmul_assoc. f_equal. Qed.
  Lemma basis_det : forall v d, mmul v (mtrans v) = ident -> det (mmul (mmul v (diag d)) (mtrans v)) = vx d * vy d * vz d.
  Proof.
    intros v d H. rewrite !det_mmul, det_trans. pose proof (orth_det v H) as D.
    replace (det v * det (diag d) * det v) with (det v * det v * det (diag d)) by ring. rewrite D. unfold det, diag; cbn. ring.
  Qed.
  Lemma minv_sym : forall m, mtrans m = m -> mtrans (minv m) = minv m.
  Proof.
    intros m H. unfold minv. assert (E : m01 m = m10 m /\ m02 m = m20 m /\ m12 m = m21 m).
    { unfold mtrans in H. destruct m; cbn in *. injection H; auto. }
    destruct E as (E1 & E2 & E3). unfold mtrans, mscale. cbn. rewrite <- E1, <- E2, <- E3. f_equal; ring.
  Qed.
  Lemma weighted_mono : forall d d' w, vx d <= vx d' -> vy d <= vy d' -> vz d <= vz d' -> weighted d w <= weighted d' w.
  Proof.
    intros d d' w A B C. unfold weighted. pose proof (Rle_0_sqr (vx w)) as X. pose proof (Rle_0_sqr (vy w)) as Y.
    pose proof (Rle_0_sqr (vz w)) as Z. unfold Rsqr in *.
    pose proof (Rmult_le_compat_r _ _ _ X A). pose proof (Rmult_le_compat_r _ _ _ Y B). pose proof (Rmult_le_compat_r _ _ _ Z C). lra.
  Qed.
  Lemma weighted_const : forall c w, weighted (mkV c c c) w = c * dot w w.
  Proof. intros. unfold weighted, dot; cbn. ring. Qed.
  Definition e1 := mkV 1 0 0. Definition e2 := mkV 0 1 0. Definition e3 := mkV 0 0 1.
  Lemma weighted_axes : forall d, weighted d e1 = vx d /\ weighted d e2 = vy d /\ weighted d e3 = vz d.
  Proof. intros. unfold weighted, e1, e2, e3; cbn. repeat split; ring. Qed.

  Lemma enough_spec : forall eigen mult l n, n = Z.of_nat (length l) -> (2 <= length l)%nat ->
    decomposes (eigen (raw_cov l)) (raw_cov l) -> mult <= 1 ->
    exists cov v d,
      enough_points eigen mult n (fold_left add_point l normal0) = (n, mkN (average l) cov (minv cov) v d) /\
      mmul v (mtrans v) = ident /\ cov = mmul (mmul v (diag d)) (mtrans v) /\
      (forall u, weighted (fst (eigen (raw_cov l))) (mvec (mtrans v) u) = raw_variance l u) /\
      vx (fst (eigen (raw_cov l))) <= vx d <= vz d /\ vy (fst (eigen (raw_cov l))) <= vy d <= vz d /\
      vz (fst (eigen (raw_cov l))) = vz d /\ 0 < vx d /\ 0 < vy d /\ 0 < vz d /\ mult * vz d <= vx d /\ mult * vz d <= vy d /\
      (mult * vz (fst (eigen (raw_cov l))) <= vx (fst (eigen (raw_cov l))) -> d = fst (eigen (raw_cov l))).
  Proof.
    intros eigen mult l n En L Dec Mu. rewrite fold_points. unfold enough_points. cbn [n_mean n_cov n_icov n_evecs n_evals normal0].
    assert (Zn : IZR n = INR (length l)) by (rewrite En, <- INR_IZR_INZ; reflexivity). rewrite Zn.
    assert (P0 : vadd zero_vec (psum l) = psum l) by (destruct (psum l); unfold vadd, zero_vec; cbn; f_equal; ring).
    rewrite P0. change (vscale (/ INR (length l)) (psum l)) with (average l).
    cbv zeta. fold (raw_cov l).
    destruct Dec as (Asc & Orth & Eq). destruct (eigen (raw_cov l)) as [val v]. cbn [fst snd] in *.
    assert (W : forall u, weighted val (mvec (mtrans v) u) = raw_variance l u).
    { intros u. rewrite <- along_basis, Eq. apply raw_along. destruct l; [cbn in L; lia|discriminate]. }
    assert (Pos : forall w, dot w w = 1 -> 0 < weighted val w).
    { intros w Hw. rewrite <- (basis_back v w Orth), W. eapply Rlt_le_trans; [|apply raw_above; assumption].
      replace (dot (mvec v w) (mvec v w)) with 1.
      - rewrite Rmult_1_r. apply le_INR in L. cbn [INR] in L. apply Rmult_lt_0_compat; [lra|]. apply Rinv_0_lt_compat.
        apply Rmult_lt_0_compat; lra.
      - rewrite <- (basis_norm v (mvec v w) Orth), basis_back by assumption. symmetry. assumption. }
    destruct (weighted_axes val) as (X1 & X2 & X3).
    assert (D : dot e1 e1 = 1 /\ dot e2 e2 = 1 /\ dot e3 e3 = 1) by (unfold dot, e1, e2, e3; cbn; repeat split; ring).
    destruct D as (D1 & D2 & D3). pose proof (Pos _ D1) as P1. pose proof (Pos _ D2) as P2. pose proof (Pos _ D3) as P3.
    rewrite X1 in P1. rewrite X2 in P2. rewrite X3 in P3. clear Pos.
    assert (Le : mult * vz val <= vz val) by (rewrite <- (Rmult_1_l (vz val)) at 2; apply Rmult_le_compat_r; lra).
    destruct (Rlt_dec (vx val) 0); [lra|]. destruct (Rlt_dec (vy val) 0); [lra|]. destruct (Rle_dec (vz val) 0); [lra|].
    destruct (Rlt_dec (vx val) (mult * vz val)) as [Sm|Lg].
    - eexists _, v, _. rewrite (orth_inv v Orth). split; [reflexivity|]. split; [assumption|]. split; [reflexivity|]. split; [assumption|].
      cbn [vx vy vz]. destruct (Rlt_dec (vy val) (mult * vz val)); (split; [lra|]); repeat (split; [lra|]); intros; lra.
    - exists (raw_cov l), v, val. split; [reflexivity|]. split; [assumption|]. split; [auto|]. split; [assumption|].
      repeat (split; [lra|]). reflexivity.
  Qed.
End Normal.
