From Coq Require Import List Bool ZArith QArith Qround Qabs Lia Lqa.
From Verif Require Import Outcome RayModel MrvmModel MrvmSpec.
Import ListNotations.
Local Open Scope Z_scope.
Local Open Scope outcome_scope.

(** ** Probabilities *)
Lemma clamp_bounds : forall v lo hi, (lo <= hi)%Q ->
  (lo <= clampQ v lo hi <= hi)%Q.
Proof.
  intros v lo hi H. unfold clampQ.
  destruct (Qle_bool v hi) eqn:E1; cbn; [|split; [exact H|apply Qle_refl]].
  destruct (Qle_bool lo v) eqn:E2; cbn; [|split; [apply Qle_refl|exact H]].
  apply Qle_bool_iff in E1, E2. auto.
Qed.
Lemma clamp_cases : forall v lo hi,
  ((hi < v)%Q /\ clampQ v lo hi = hi) \/ ((v < lo)%Q /\ clampQ v lo hi = lo) \/
  ((lo <= v <= hi)%Q /\ clampQ v lo hi = v).
Proof.
  intros v lo hi. unfold clampQ.
  destruct (Qle_bool v hi) eqn:E1; cbn.
  - destruct (Qle_bool lo v) eqn:E2; cbn.
    + apply Qle_bool_iff in E1, E2. auto.
    + right; left. split; [|reflexivity]. apply Qnot_le_lt. intros K. apply Qle_bool_iff in K. congruence.
  - left. split; [|reflexivity]. apply Qnot_le_lt. intros K. apply Qle_bool_iff in K. congruence.
Qed.
Lemma qtrunc_pos : forall q, (0 <= q)%Q -> qtrunc q = Qfloor q.
Proof. intros q H. unfold qtrunc. apply Qle_bool_iff in H. rewrite H. reflexivity. Qed.
Lemma floor_ge : forall q n, (inject_Z n <= q)%Q -> n <= Qfloor q.
Proof. intros q n H. apply Qfloor_resp_le in H. rewrite Qfloor_Z in H. exact H. Qed.
Lemma floor_lt : forall q n, (q < inject_Z n)%Q -> Qfloor q < n.
Proof.
  intros q n H. pose proof (Qfloor_le q) as K.
  assert ((inject_Z (Qfloor q) < inject_Z n)%Q) as K2 by (eapply Qle_lt_trans; eassumption).
  rewrite <- Zlt_Qlt in K2. exact K2.
Qed.
Lemma update_value : forall raw n b,
  let c := clampQ (raw n b) kMinProb kMaxProb in
  update_prob raw n b = Ok (Qfloor (c * 256)) /\ 25 <= Qfloor (c * 256) <= 230.
Proof.
  intros raw n b c. assert (kMinProb <= c <= kMaxProb)%Q as [H1 H2] by (apply clamp_bounds; discriminate).
  unfold update_prob, to_u8. fold c.
  assert (25 <= Qfloor (c * 256) <= 230) as Hb.
  { split; [apply floor_ge|enough (Qfloor (c * 256) < 231) by lia; apply floor_lt];
      unfold kMinProb, kMaxProb, inject_Z in *; lra. }
  rewrite qtrunc_pos by (unfold kMinProb in *; lra).
  split; [|exact Hb]. destruct (Z.leb_spec 0 (Qfloor (c * 256))); [|lia].
  destruct (Z.ltb_spec (Qfloor (c * 256)) 256); [reflexivity|lia].
Qed.

Lemma run_app : forall S I (f : S -> I -> outcome S) l1 l2 s,
  run f s (l1 ++ l2) = bind (run f s l1) (fun s' => run f s' l2).
Proof.
  intros S I f l1 l2. induction l1 as [|i l1 IH]; intros s; cbn; [reflexivity|].
  destruct (f s i); cbn; auto.
Qed.
Lemma run_update : forall raw evs n, 25 <= n <= 230 ->
  exists n', run (update_prob raw) n evs = Ok n' /\ 25 <= n' <= 230.
Proof.
  intros raw evs. induction evs as [|b evs IH]; intros n Hn; [exists n; auto|].
  cbn. destruct (update_value raw n b) as [E B]. rewrite E. cbn. apply IH. exact B.
Qed.

(** bayes p h - p *)
Lemma bayes_up : forall p h, (25 # 256 <= p <= 230 # 256)%Q -> (kMinHitProb <= h <= kMaxProb)%Q ->
  (p + (1 # 10000) <= bayes p h)%Q.
Proof.
  intros p h [P1 P2] [H1 H2]. unfold bayes, kMinHitProb, kMaxProb in *.
  assert (0 < p * h + (1 - p) * (1 - h))%Q as D by nra.
  apply Qle_shift_div_l; [exact D|].
  assert ((8 # 100) <= p * (1 - p))%Q by nra.
  assert ((19 # 10000) <= 2 * h - 1)%Q by lra.
  assert ((8 # 100) * (19 # 10000) <= (2 * h - 1) * (p * (1 - p)))%Q by nra.
  assert (p * h <= p * (9 # 10))%Q by nra.
  assert ((1 - p) * (1 - h) <= (1 - p) * (9 # 10))%Q by nra.
  nra.
Qed.
Lemma bayes_down : forall p h, (25 # 256 <= p <= 230 # 256)%Q -> (kMinProb <= h <= kMaxMissProb)%Q ->
  (bayes p h <= p - (1 # 10000))%Q.
Proof.
  intros p h [P1 P2] [H1 H2]. unfold bayes, kMinProb, kMaxMissProb in *.
  assert (0 < p * h + (1 - p) * (1 - h))%Q as D by nra.
  apply Qle_shift_div_r; [exact D|].
  assert ((8 # 100) <= p * (1 - p))%Q by nra.
  assert ((19 # 10000) <= 1 - 2 * h)%Q by lra.
  assert ((8 # 100) * (19 # 10000) <= (1 - 2 * h) * (p * (1 - p)))%Q by nra.
  assert (p * h <= p * (9 # 10))%Q by nra.
  assert ((1 - p) * (1 - h) <= (1 - p) * (9 # 10))%Q by nra.
  nra.
Qed.
(** With the smallest allowed hit probability a level rises by less than .3. *)
Lemma bayes_min_hit : forall p, (25 # 256 <= p <= 230 # 256)%Q ->
  (bayes p kMinHitProb <= p + (3 # 2560))%Q.
Proof.
  intros p [P1 P2]. unfold bayes, kMinHitProb.
  assert (0 < p * (8405385 # 16777216) + (1 - p) * (1 - (8405385 # 16777216)))%Q as D by nra.
  apply Qle_shift_div_r; [exact D|].
  assert (p * (1 - p) <= 1 # 4)%Q.
  { destruct (Qlt_le_dec p (1 # 2)) as [K|K].
    - assert (0 <= ((1 # 2) - p) * ((1 # 2) - p))%Q by (apply Qmult_le_0_compat; lra). lra.
    - assert (0 <= (p - (1 # 2)) * (p - (1 # 2)))%Q by (apply Qmult_le_0_compat; lra). lra. }
  nra.
Qed.

Lemma level : forall n, 25 <= n <= 230 -> (25 # 256 <= n # 256 <= 230 # 256)%Q.
Proof. intros n H. unfold Qle. cbn. lia. Qed.
Lemma lev256 : forall n, ((n # 256) * 256 == inject_Z n)%Q.
Proof. intros n. unfold Qeq, inject_Z. cbn. lia. Qed.

Lemma hit_up : forall hit miss raw n, accurate hit miss raw -> (kMinHitProb <= hit <= kMaxProb)%Q ->
  25 <= n <= 230 -> forall n', update_prob raw n true = Ok n' -> n <= n'.
Proof.
  intros hit miss raw n Ha Hh Hn n' E. destruct (update_value raw n true) as [E' _]. assert (n' = Qfloor (clampQ (raw n true) kMinProb kMaxProb * 256)) as -> by congruence. clear E. specialize (Ha n true Hn). cbv iota in Ha.
  apply Qabs_Qle_condition in Ha. destruct Ha as [A1 A2].
  pose proof (bayes_up _ _ (level n Hn) Hh) as B. apply floor_ge. rewrite <- lev256.
  assert ((n # 256) <= 230 # 256)%Q by (apply level; exact Hn).
  destruct (clamp_cases (raw n true) kMinProb kMaxProb) as [[C1 C2]|[[C1 C2]|[C1 C2]]]; rewrite C2;
    unfold kMinProb, kMaxProb in *; lra.
Qed.
Lemma miss_down : forall hit miss raw n, accurate hit miss raw -> (kMinProb <= miss <= kMaxMissProb)%Q ->
  25 <= n <= 230 -> forall n', update_prob raw n false = Ok n' -> n' < n \/ (n = 25 /\ n' = 25).
Proof.
  intros hit miss raw n Ha Hh Hn n' E. destruct (update_value raw n false) as [E' B']. assert (n' = Qfloor (clampQ (raw n false) kMinProb kMaxProb * 256)) as -> by congruence. clear E. specialize (Ha n false Hn). cbv iota in Ha.
  apply Qabs_Qle_condition in Ha. destruct Ha as [A1 A2].
  pose proof (bayes_down _ _ (level n Hn) Hh) as B.
  assert ((n # 256) <= 230 # 256)%Q by (apply level; exact Hn).
  destruct (clamp_cases (raw n false) kMinProb kMaxProb) as [[C1 C2]|[[C1 C2]|[C1 C2]]]; rewrite C2 in *.
  - exfalso. unfold kMaxProb in *. lra.
  - change (Qfloor (kMinProb * 256)) with 25. lia.
  - left. apply floor_lt. rewrite <- lev256. unfold kMinProb, kMaxProb in *; lra.
Qed.
Lemma min_hit_same : forall miss raw n, accurate kMinHitProb miss raw -> 25 <= n <= 230 ->
  update_prob raw n true = Ok n.
Proof.
  intros miss raw n Ha Hn. destruct (update_value raw n true) as [E' B']. rewrite E'. f_equal.
  assert (n <= Qfloor (clampQ (raw n true) kMinProb kMaxProb * 256)).
  { eapply hit_up; [exact Ha| |exact Hn|exact E']. split; discriminate. }
  enough (Qfloor (clampQ (raw n true) kMinProb kMaxProb * 256) < n + 1) by lia.
  specialize (Ha n true Hn). cbv iota in Ha. apply Qabs_Qle_condition in Ha. destruct Ha as [A1 A2].
  pose proof (bayes_min_hit _ (level n Hn)) as B.
  apply floor_lt. rewrite inject_Z_plus, <- lev256.
  assert ((25 # 256) <= (n # 256))%Q by (apply level; exact Hn).
  destruct (clamp_cases (raw n true) kMinProb kMaxProb) as [[C1 C2]|[[C1 C2]|[C1 C2]]]; rewrite C2 in *;
    unfold kMinProb, kMaxProb, inject_Z in *; lra.
Qed.

(** ** The map *)
Lemma voxel_eqb_spec : forall a b, reflect (a = b) (voxel_eqb a b).
Proof.
  intros [a1 a2 a3] [b1 b2 b3]. unfold voxel_eqb. cbn.
  destruct (Z.eqb_spec a1 b1); cbn; [|constructor; congruence].
  destruct (Z.eqb_spec a2 b2); cbn; [|constructor; congruence].
  destruct (Z.eqb_spec a3 b3); constructor; congruence.
Qed.
Lemma bind_Ok : forall A B (m : outcome A) (f : A -> outcome B) b,
  bind m f = Ok b -> exists a, m = Ok a /\ f a = Ok b.
Proof. intros A B [a| | |] f b H; try discriminate. eauto. Qed.
Ltac ib H := let a := fresh "a" in let E := fresh "E" in
  apply bind_Ok in H; destruct H as (a & E & H).

(** The path ends where it should. *)
Lemma bres_loop_last : forall i dx dy dz sx sy sz dm b acc b' vs,
  bres_loop i dx dy dz sx sy sz dm b acc = Ok (b', vs) -> exists l, vs = l ++ [bres_voxel b'].
Proof.
  induction i as [|i IH]; intros dx dy dz sx sy sz dm b acc b' vs H; cbn [bres_loop] in H.
  - injection H as <- <-. eauto.
  - ib H. ib H. ib H. eapply IH. exact H.
Qed.
Lemma bresenham_last : forall o e path, bresenham o e = Ok path -> exists l, path = l ++ [e].
Proof.
  intros o e path H. unfold bresenham in H. do 7 ib H. destruct a5 as [b vs].
  do 3 ib H. assert (vs = path) as <- by congruence. clear H.
  apply bres_loop_last in E5. destruct E5 as [l ->]. exists l. f_equal. f_equal.
  unfold check in *. destruct (Z.eqb_spec (snd (bx b)) (px e)) as [K1|]; [|discriminate].
  destruct (Z.eqb_spec (snd (by_ b)) (py e)) as [K2|]; [|discriminate].
  destruct (Z.eqb_spec (snd (bz b)) (pz e)) as [K3|]; [|discriminate].
  unfold bres_voxel. rewrite K1, K2, K3. destruct e; reflexivity.
Qed.

Section Map.
Variable P : Type.
Variable vox : P -> voxel.
Variable inten : P -> Z.
Variable fine : P -> bool.
Variable raw : Z -> bool -> Q.
Variable maxn : Z.
Notation vmap := (vmap P). Notation cell := (cell P).
Notation insert_point := (insert_point P vox inten fine raw maxn).
Notation insert_cloud := (insert_cloud P vox inten fine raw maxn).
Notation line_update := (line_update P raw).
Notation end_update := (end_update P inten fine raw maxn).

Lemma lookup_put : forall k k' c (m : vmap),
  lookup k (put k' c m) = if voxel_eqb k k' then Some c else lookup k m.
Proof using.
  intros k k' c m. induction m as [|[k1 c1] m IH]; cbn.
  - reflexivity.
  - destruct (voxel_eqb_spec k' k1) as [->|N].
    + cbn. destruct (voxel_eqb_spec k k1); reflexivity.
    + cbn. rewrite IH. destruct (voxel_eqb_spec k k1) as [->|N1]; [|reflexivity].
      destruct (voxel_eqb_spec k1 k'); [congruence|reflexivity].
Qed.
Lemma lookup_put_same : forall k c (m : vmap), lookup k (put k c m) = Some c.
Proof using. intros. rewrite lookup_put. destruct (voxel_eqb_spec k k); congruence. Qed.
Lemma lookup_put_other : forall k k' c (m : vmap), k <> k' -> lookup k (put k' c m) = lookup k m.
Proof using. intros. rewrite lookup_put. destruct (voxel_eqb_spec k k'); congruence. Qed.

(** What the voxels on a line do to voxel [k]. *)
Definition line_spec (k : voxel) (n : nat) (o : option cell) (o' : option cell) : Prop :=
  match o with
  | None => o' = None
  | Some c => if need_update c then
        exists pr, run (update_prob raw) (cprob c) (repeat false n) = Ok pr /\
          o' = Some (mkCell pr true (max_intensity c) (points c))
      else o' = Some c
  end.
Lemma line_update_spec : forall ks m m', line_update m ks = Ok m' ->
  forall k, line_spec k (count_occ vdec ks k) (lookup k m) (lookup k m').
Proof.
  induction ks as [|k0 ks IH]; intros m m' H k; cbn [MrvmModel.line_update] in H.
  - injection H as <-. cbn. unfold line_spec. destruct (lookup k m) as [[pr nu mi ps]|]; [|reflexivity].
    cbn. destruct nu; [|reflexivity]. exists pr. split; reflexivity.
  - cbn [count_occ].
    destruct (lookup k0 m) as [c0|] eqn:E0.
    + destruct (need_update c0) eqn:En.
      * ib H. specialize (IH _ _ H k).
        destruct (vdec k0 k) as [->|N].
        -- rewrite lookup_put_same in IH. rewrite E0. unfold line_spec in *. cbn in IH. rewrite En in *.
           destruct IH as (pr & R & L). exists pr. cbn. rewrite E. cbn. auto.
        -- rewrite lookup_put_other in IH by congruence. exact IH.
      * specialize (IH _ _ H k). destruct (vdec k0 k) as [->|N]; [|exact IH].
        rewrite E0 in *. unfold line_spec in *. rewrite En in *. exact IH.
    + specialize (IH _ _ H k). destruct (vdec k0 k) as [->|N]; [|exact IH].
      rewrite E0 in *. exact IH.
Qed.

(** What a point that ends in [k] does to it. *)
Definition add_point (c : cell) (p : P) : list P :=
  if Z.of_nat (length (points c)) <? maxn then points c ++ [p] else points c.
Definition hit_spec (c : cell) (p : P) (o' : option cell) : Prop :=
  exists pr, update_prob raw (cprob c) true = Ok pr /\
    o' = Some (mkCell pr false (Z.max (max_intensity c) (inten p)) (add_point c p)).
Lemma end_update_spec : forall m e p m', end_update m e p = Ok m' ->
  hit_spec (get e m) p (lookup e m') /\ forall k, k <> e -> lookup k m' = lookup k m.
Proof.
  intros m e p m' H. unfold MrvmModel.end_update in H. ib H.
  assert ((if max_intensity (get e m) <? inten p then inten p else max_intensity (get e m)) =
          Z.max (max_intensity (get e m)) (inten p)) as Hm.
  { destruct (Z.ltb_spec (max_intensity (get e m)) (inten p)); lia. }
  rewrite Hm in H. unfold hit_spec, add_point.
  destruct (Z.of_nat (length (points (get e m))) <? maxn).
  - ib H. injection H as <-. split.
    + exists a. split; [exact E|apply lookup_put_same].
    + intros k N. apply lookup_put_other. exact N.
  - injection H as <-. split.
    + exists a. split; [exact E|apply lookup_put_same].
    + intros k N. apply lookup_put_other. exact N.
Qed.

Lemma point_spec : forall o m p m', insert_point o m p = Ok m' ->
  hit_spec (get (vox p) m) p (lookup (vox p) m') /\
  forall k, k <> vox p -> line_spec k (passes vox o k p) (lookup k m) (lookup k m').
Proof.
  intros o m p m' H. unfold MrvmModel.insert_point in H. ib H.
  unfold passes. rewrite E.
  destruct (bresenham_last _ _ _ E) as [l ->].
  destruct (l ++ [vox p]) as [|k0 r] eqn:El; [destruct l; discriminate|]. rewrite <- El in *.
  ib H. rewrite last_last in E0. rewrite removelast_last in *.
  apply end_update_spec in E0. destruct E0 as [H1 H2].
  pose proof (line_update_spec _ _ _ H) as HL. split.
  - specialize (HL (vox p)). destruct H1 as (pr & R & L). rewrite L in HL. cbn in HL.
    exists pr. auto.
  - intros k N. specialize (HL k). rewrite H2 in HL by exact N. exact HL.
Qed.

(** A group of points [l] ending in [k], in order. *)
Definition add_points (ps l : list P) : list P := ps ++ firstn (Z.to_nat maxn - length ps) l.
Lemma add_one : forall c p l, add_points (add_point c p) l = add_points (points c) (p :: l).
Proof.
  intros c p l. unfold add_point, add_points.
  destruct (Z.ltb_spec (Z.of_nat (length (points c))) maxn).
  - rewrite app_length. cbn [length]. destruct (Z.to_nat maxn - length (points c))%nat as [|j] eqn:Ej; [lia|].
    replace (Z.to_nat maxn - (length (points c) + 1))%nat with j by lia. cbn. rewrite <- app_assoc. reflexivity.
  - replace (Z.to_nat maxn - length (points c))%nat with O by lia. reflexivity.
Qed.
Definition maxes (z : Z) (l : list P) : Z := fold_left Z.max (map inten l) z.

(** The effect of the loop over the points on voxel [k]. *)
Definition loop_spec (o k : voxel) (pts : list P) (before_ after : option cell) : Prop :=
  let E := ends vox k pts in
  match before_ with
  | None => match E with
      | [] => after = None
      | _ => exists pr, run (update_prob raw) kUnknown (repeat true (length E)) = Ok pr /\
               after = Some (mkCell pr false (maxes 0 E) (add_points [] E))
      end
  | Some c =>
      let n := if need_update c then all_passes vox o k (before vox k pts) else O in
      exists pr, run (update_prob raw) (cprob c) (repeat false n ++ repeat true (length E)) = Ok pr /\
        after = Some (mkCell pr (match E with [] => need_update c | _ => false end)
                     (maxes (max_intensity c) E) (add_points (points c) E))
  end.
Lemma loop_spec_hit : forall o k p pts c m m1,
  hit_spec c p (lookup k m1) -> get k m = c ->
  (forall m', loop_spec o k pts (lookup k m1) (lookup k m') ->
   vox p = k -> loop_spec o k (p :: pts) (lookup k m) (lookup k m')).
Proof.
  intros o k p pts c m m1 (pr & R & L) Hg m' H Hv. rewrite L in H. unfold loop_spec in *. cbn in H.
  destruct H as (pr' & R' & L').
  unfold ends in *. cbn [filter before]. destruct (vdec (vox p) k) as [_|N]; [|congruence].
  set (E := filter _ pts) in *. cbn [length repeat]. rewrite L'.
  unfold get in Hg. destruct (lookup k m) as [c1|].
  - subst c1. exists pr'. split.
    + cbn. destruct (need_update c); cbn; rewrite R; cbn; exact R'.
    + f_equal. f_equal; [destruct E; reflexivity|]. rewrite <- add_one. reflexivity.
  - subst c. cbn in R. exists pr'. split; [cbn; rewrite R; cbn; exact R'|].
    f_equal. f_equal; [destruct E; reflexivity|]. exact (add_one (new_cell P) p E).
Qed.
Lemma loop_spec_miss : forall o k p pts m m1 m', vox p <> k ->
  line_spec k (passes vox o k p) (lookup k m) (lookup k m1) ->
  loop_spec o k pts (lookup k m1) (lookup k m') ->
  loop_spec o k (p :: pts) (lookup k m) (lookup k m').
Proof.
  intros o k p pts m m1 m' N HL H. unfold loop_spec, line_spec in *.
  unfold ends in *. cbn [filter before]. destruct (vdec (vox p) k) as [K|_]; [congruence|].
  destruct (lookup k m) as [c|].
  - destruct (need_update c) eqn:En.
    + destruct HL as (pr & R & L). rewrite L in H. cbn in H. destruct H as (pr' & R' & L').
      exists pr'. split; [|exact L'].
      unfold all_passes. cbn [map fold_right]. rewrite repeat_app, <- app_assoc, run_app, R. cbn [bind].
      exact R'.
    + rewrite HL in H. rewrite En in H. exact H.
  - rewrite HL in H. exact H.
Qed.
Lemma loop_effect : forall o pts m m', run (insert_point o) m pts = Ok m' ->
  forall k, loop_spec o k pts (lookup k m) (lookup k m').
Proof.
  induction pts as [|p pts IH]; intros m m' H k; cbn [run] in H.
  - injection H as <-. unfold loop_spec, ends. cbn.
    destruct (lookup k m) as [[pr nu mi ps]|]; [|reflexivity].
    exists pr. cbn. split; [destruct nu; reflexivity|]. unfold add_points. rewrite firstn_nil, app_nil_r. reflexivity.
  - ib H. specialize (IH _ _ H k). apply point_spec in E. destruct E as [E1 E2].
    destruct (vdec (vox p) k) as [<-|N].
    + eapply loop_spec_hit; [exact E1|reflexivity|exact IH|reflexivity].
    + eapply loop_spec_miss; [exact N|apply E2; congruence|exact IH].
Qed.

(** Releasing the end voxels. *)
Lemma release_lookup : forall k k' (m : vmap), lookup k m <> None ->
  lookup k (release m k') = match lookup k m with
    | Some c => Some (if vdec k k' then mkCell (cprob c) true (max_intensity c) (points c) else c)
    | None => None end.
Proof using.
  intros k k' m H. unfold release, get. rewrite lookup_put.
  destruct (voxel_eqb_spec k k') as [->|N].
  - destruct (lookup k' m); [|congruence]. destruct (vdec k' k'); [reflexivity|congruence].
  - destruct (vdec k k'); [congruence|]. destruct (lookup k m); reflexivity.
Qed.
Lemma releases : forall ks (m : vmap), (forall k, In k ks -> lookup k m <> None) ->
  forall k, lookup k (fold_left release ks m) = match lookup k m with
    | Some c => Some (if in_dec vdec k ks then mkCell (cprob c) true (max_intensity c) (points c) else c)
    | None => None end.
Proof.
  induction ks as [|k0 ks IH]; intros m H k; [cbn; destruct (lookup k m); reflexivity|].
  cbn [fold_left].
  assert (lookup k0 m <> None) as H0 by (apply H; left; reflexivity).
  assert (forall q, lookup q m = None -> lookup q (release m k0) = None) as Hn.
  { intros q Hq. unfold release. rewrite lookup_put. destruct (voxel_eqb_spec q k0); congruence. }
  rewrite IH.
  - destruct (lookup k m) as [c|] eqn:E.
    + rewrite release_lookup by congruence. rewrite E. f_equal.
      destruct (in_dec vdec k ks) as [I|I], (in_dec vdec k (k0 :: ks)) as [J|J], (vdec k k0) as [K|K];
        try reflexivity; exfalso; cbn in J; intuition congruence.
    + rewrite Hn by exact E. reflexivity.
  - intros q Hq. rewrite release_lookup by (apply H; right; exact Hq).
    specialize (H q (or_intror Hq)). destruct (lookup q m); [discriminate|congruence].
Qed.

Lemma ends_in : forall k pts, ends vox k pts <> [] <-> In k (map vox pts).
Proof.
  intros k pts. unfold ends. induction pts as [|p pts IH]; cbn; [tauto|].
  destruct (vdec (vox p) k); split; intros; auto; try discriminate.
  - right. apply IH. exact H.
  - destruct H; [congruence|]. apply IH. exact H.
Qed.

(** The effect of a whole scan on voxel [k]. *)
Definition scan_spec (o k : voxel) (pts : list P) (before_ after : option cell) : Prop :=
  let E := ends vox k pts in
  match before_ with
  | None => match E with
      | [] => after = None
      | _ => exists pr, run (update_prob raw) kUnknown (repeat true (length E)) = Ok pr /\
               after = Some (mkCell pr true (maxes 0 E) (add_points [] E))
      end
  | Some c =>
      exists pr, run (update_prob raw) (cprob c)
          (repeat false (all_passes vox o k (before vox k pts)) ++ repeat true (length E)) = Ok pr /\
        after = Some (mkCell pr true (maxes (max_intensity c) E) (add_points (points c) E))
  end.
Definition all_true (m : vmap) : Prop := forall k c, lookup k m = Some c -> need_update c = true.
Lemma scan_effect : forall o pts m m', insert_cloud m (o, pts) = Ok m' -> all_true m ->
  (forall k, scan_spec o k pts (lookup k m) (lookup k m')) /\ all_true m'.
Proof.
  intros o pts m m' H Ht. unfold MrvmModel.insert_cloud in H. ib H.
  assert (m' = fold_left release (map vox pts) a) as -> by congruence. clear H.
  pose proof (loop_effect _ _ _ _ E) as L.
  assert (forall k, In k (map vox pts) -> lookup k a <> None) as Hin.
  { intros k Hk. apply ends_in in Hk. specialize (L k). unfold loop_spec in L.
    destruct (lookup k m); [destruct L as (pr & _ & ->); discriminate|].
    destruct (ends vox k pts); [congruence|]. destruct L as (pr & _ & ->). discriminate. }
  assert (forall k, scan_spec o k pts (lookup k m) (lookup k (fold_left release (map vox pts) a))) as Hs.
  { intros k. specialize (L k). rewrite releases by exact Hin. unfold loop_spec, scan_spec in *.
    destruct (lookup k m) as [c|] eqn:Em.
    - destruct L as (pr & R & ->). rewrite (Ht _ _ Em) in R. exists pr. split; [exact R|].
      destruct (in_dec vdec k (map vox pts)) as [I|I]; [reflexivity|].
      destruct (ends vox k pts) eqn:Ee; [rewrite (Ht _ _ Em); reflexivity|].
      exfalso. apply I. apply ends_in. congruence.
    - destruct (ends vox k pts) eqn:Ee; [rewrite L; reflexivity|].
      destruct L as (pr & R & ->). exists pr. split; [exact R|].
      destruct (in_dec vdec k (map vox pts)) as [I|I]; [reflexivity|].
      exfalso. apply I. apply ends_in. congruence. }
  split; [exact Hs|]. intros k c Hc. specialize (Hs k). rewrite Hc in Hs. unfold scan_spec in Hs.
  destruct (lookup k m).
  - destruct Hs as (pr & _ & K). injection K as ->. reflexivity.
  - destruct (ends vox k pts); [discriminate|]. destruct Hs as (pr & _ & K). injection K as ->. reflexivity.
Qed.

(** The content of the map after any number of scans. *)
Definition content (all : list P) (m : vmap) : Prop := forall k,
  match lookup k m with
  | None => ends vox k all = []
  | Some c => ends vox k all <> [] /\ points c = firstn (Z.to_nat maxn) (ends vox k all) /\
      max_intensity c = fold_right Z.max 0 (map inten (ends vox k all)) /\
      need_update c = true /\ 25 <= cprob c <= 230
  end.
Lemma fold_max : forall l z, fold_left Z.max l z = Z.max z (fold_right Z.max 0 l) \/ (0 > z).
Proof.
  induction l as [|a l IH]; intros z; cbn; [lia|]. destruct (IH (Z.max z a)); lia.
Qed.
Lemma maxes_app : forall (l1 l2 : list P), maxes (fold_right Z.max 0 (map inten l1)) l2 =
  fold_right Z.max 0 (map inten (l1 ++ l2)).
Proof.
  intros l1 l2. unfold maxes. rewrite map_app, fold_right_app.
  assert (forall l z, 0 <= fold_right Z.max 0 l /\ fold_right Z.max (Z.max 0 z) l = Z.max z (fold_right Z.max 0 l)) as H.
  { induction l as [|a l IH]; intros z; cbn; [lia|]. destruct (IH z). lia. }
  destruct (fold_max (map inten l2) (fold_right Z.max 0 (map inten l1))) as [->|K].
  - destruct (H (map inten l2) 0) as [H1 _].
    destruct (H (map inten l1) (fold_right Z.max 0 (map inten l2))) as [_ H2].
    rewrite Z.max_r in H2 by exact H1. lia.
  - destruct (H (map inten l1) 0). lia.
Qed.
Lemma add_points_app : forall l1 l2 : list P,
  add_points (firstn (Z.to_nat maxn) l1) l2 = firstn (Z.to_nat maxn) (l1 ++ l2).
Proof.
  intros l1 l2. unfold add_points. rewrite firstn_app, firstn_length. f_equal.
  destruct (Nat.le_ge_cases (Z.to_nat maxn) (length l1)).
  - replace (Z.to_nat maxn - Nat.min (Z.to_nat maxn) (length l1))%nat with O by lia.
    replace (Z.to_nat maxn - length l1)%nat with O by lia. reflexivity.
  - rewrite Nat.min_r by lia. reflexivity.
Qed.
Lemma ends_app : forall k (l1 l2 : list P), ends vox k (l1 ++ l2) = ends vox k l1 ++ ends vox k l2.
Proof. intros. apply filter_app. Qed.
Lemma content_step : forall all m o pts m', content all m -> insert_cloud m (o, pts) = Ok m' ->
  content (all ++ pts) m'.
Proof.
  intros all m o pts m' Hc H.
  assert (all_true m) as Ht.
  { intros k c E. specialize (Hc k). rewrite E in Hc. tauto. }
  destruct (scan_effect _ _ _ _ H Ht) as [Hs _]. intros k. specialize (Hs k). specialize (Hc k).
  rewrite ends_app. unfold scan_spec in Hs. destruct (lookup k m) as [c|].
  - destruct Hs as (pr & R & ->). destruct Hc as (C1 & C2 & C3 & C4 & C5). cbn.
    destruct (run_update raw (repeat false (all_passes vox o k (before vox k pts)) ++
                 repeat true (length (ends vox k pts))) (cprob c) C5) as (n' & R' & B).
    split; [intros K; apply app_eq_nil in K; tauto|].
    split; [rewrite C2; apply add_points_app|].
    split; [rewrite C3; apply maxes_app|]. split; [reflexivity|]. congruence.
  - rewrite Hc. destruct (ends vox k pts) as [|p l] eqn:Ee; [rewrite Hs; reflexivity|].
    destruct Hs as (pr & R & ->). cbn [app cprob points max_intensity need_update].
    destruct (run_update raw (repeat true (length (p :: l))) kUnknown ltac:(unfold kUnknown; lia)) as (n' & R' & B).
    split; [discriminate|]. split; [|split; [exact (maxes_app [] (p :: l))|split; [reflexivity|congruence]]].
    unfold add_points. cbn [length app]. rewrite Nat.sub_0_r. reflexivity.
Qed.
Lemma content_run : forall scans all m m', content all m -> run insert_cloud m scans = Ok m' ->
  content (all ++ concat (map snd scans)) m'.
Proof.
  induction scans as [|[o pts] scans IH]; intros all m m' Hc H; cbn [run] in H.
  - injection H as <-. cbn. rewrite app_nil_r. exact Hc.
  - ib H. cbn [map concat snd]. rewrite app_assoc. eapply IH; [|exact H]. eapply content_step; eassumption.
Qed.
Lemma content_nil : content [] [].
Proof. intros k. reflexivity. Qed.

(** Every key occurs once. *)
Lemma put_keys : forall k c (m : vmap), NoDup (map fst m) -> NoDup (map fst (put k c m)) /\
  (forall q, In q (map fst (put k c m)) -> q = k \/ In q (map fst m)).
Proof using.
  intros k c m. induction m as [|[k1 c1] m IH]; intros H; cbn.
  - split; [repeat constructor; auto|]. intros q [->|[]]; auto.
  - inversion H; subst. destruct (IH H3) as [I1 I2].
    destruct (voxel_eqb_spec k k1) as [->|N]; cbn; [split; [exact H|intros q K; right; exact K]|].
    split.
    + constructor; [|exact I1]. intros K. apply I2 in K. destruct K; [congruence|contradiction].
    + intros q [->|K]; [right; left; reflexivity|]. apply I2 in K. destruct K as [K|K]; [left|right; right]; exact K.
Qed.
Definition keys_ok (m : vmap) : Prop := NoDup (map fst m).
Lemma line_keys : forall ks m m', keys_ok m -> line_update m ks = Ok m' -> keys_ok m'.
Proof.
  induction ks as [|k ks IH]; intros m m' Hk H; cbn in H; [congruence|].
  destruct (lookup k m) as [c|]; [|eauto]. destruct (need_update c); [|eauto]. ib H.
  eapply IH; [|exact H]. apply put_keys. exact Hk.
Qed.
Lemma point_keys : forall o m p m', keys_ok m -> insert_point o m p = Ok m' -> keys_ok m'.
Proof.
  intros o m p m' Hk H. unfold MrvmModel.insert_point in H. ib H. destruct a as [|k0 r]; [congruence|]. ib H.
  eapply line_keys; [|exact H]. unfold MrvmModel.end_update in E0. ib E0.
  destruct (_ <? _); [ib E0|]; injection E0 as <-; apply put_keys; exact Hk.
Qed.
Lemma points_keys : forall o pts m m', keys_ok m -> run (insert_point o) m pts = Ok m' -> keys_ok m'.
Proof.
  induction pts as [|p pts IH]; intros m m' Hk H; cbn [run] in H; [congruence|]. ib H.
  eapply IH; [|exact H]. eapply point_keys; eassumption.
Qed.
Lemma cloud_keys : forall scans m m', keys_ok m -> run insert_cloud m scans = Ok m' -> keys_ok m'.
Proof.
  induction scans as [|[o pts] scans IH]; intros m m' Hk H; cbn [run] in H; [congruence|]. ib H.
  eapply IH; [|exact H]. unfold MrvmModel.insert_cloud in E. ib E.
  assert (a = fold_left release (map vox pts) a0) as -> by congruence.
  apply points_keys in E0; [|exact Hk]. clear - E0 raw maxn vox inten fine. revert E0. generalize (map vox pts). intros ks. revert a0.
  induction ks as [|k ks IH]; intros m H; cbn; [exact H|]. apply IH. apply put_keys. exact H.
Qed.
Lemma lookup_in : forall k c (m : vmap), keys_ok m -> (lookup k m = Some c <-> In (k, c) m).
Proof using.
  intros k c m. induction m as [|[k1 c1] m IH]; intros H; cbn; [split; [discriminate|intros []]|].
  inversion H; subst. destruct (voxel_eqb_spec k k1) as [->|N].
  - split; [intros K; injection K as ->; auto|]. intros [K|K]; [congruence|].
    exfalso. apply H2. apply in_map_iff. exists (k1, c). auto.
  - rewrite (IH H3). split; [auto|]. intros [K|K]; [congruence|exact K].
Qed.

Lemma output_loop_ok : forall um t (m : vmap), (forall k c, In (k, c) m -> points c <> []) ->
  output_loop P inten um t m =
    Ok (flat_map (fun kc => written P inten um (snd kc)) (filter (fun kc => t <=? cprob (snd kc)) m)).
Proof.
  intros um t m. induction m as [|[k c] m IH]; intros H; cbn; [reflexivity|].
  specialize (IH (fun k' c' I => H k' c' (or_intror I))).
  destruct (t <=? cprob c); [|exact IH].
  assert (points c <> []) as Hc by (apply (H k); left; reflexivity).
  destruct (points c) eqn:E; [congruence|]. cbn. rewrite IH. reflexivity.
Qed.
End Map.

(** ** The parallel loop *)
Definition pushing (t : thread) : Z := match ph t with MayPush => 1 | _ => 0 end.
Definition pend (ts : list thread) : Z := fold_right Z.add 0 (map pushing ts).
Lemma pend_app : forall a b, pend (a ++ b) = pend a + pend b.
Proof.
  induction a as [|t a IH]; intros b; [reflexivity|]. cbn [app]. unfold pend in *. cbn [map fold_right].
  rewrite IH. lia.
Qed.
Lemma pend_bound : forall ts, 0 <= pend ts <= Z.of_nat (length ts).
Proof.
  induction ts as [|t ts IH]; [cbn; lia|]. unfold pend in *. cbn [map fold_right length].
  assert (0 <= pushing t <= 1) by (unfold pushing; destruct (ph t); lia). lia.
Qed.
Lemma par_inv : forall raw maxn x y, psteps raw maxn x y ->
  sh_size (fst x) + pend (snd x) <= maxn - 1 + Z.of_nat (length (snd x)) ->
  sh_size (fst y) + pend (snd y) <= maxn - 1 + Z.of_nat (length (snd y)) /\ length (snd y) = length (snd x).
Proof.
  intros raw maxn x y H. induction H as [x|x y z S H IH]; intros Hx; [auto|].
  assert (length (snd y) = length (snd x) /\
    sh_size (fst y) + pend (snd y) <= maxn - 1 + Z.of_nat (length (snd y))) as [L Hy].
  { destruct S as [s t s' t' a b T]. cbn [fst snd] in *. rewrite !app_length in *. cbn [length] in *.
    split; [reflexivity|].
    rewrite !pend_app in *.
    assert (forall u, pend (u :: b) = pushing u + pend b) as Hu by reflexivity. rewrite !Hu in *.
    pose proof (pend_bound a). pose proof (pend_bound b).
    inversion T; subst; unfold pushing in *; cbn [ph sh_size] in *; try lia. }
  destruct (IH Hy) as [I1 I2]. split; [exact I1|congruence].
Qed.
