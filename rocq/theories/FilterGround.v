(** Proofs about the ground filter, the voxel grid filter and filter chains. *)
From Coq Require Import ZArith List Bool Lia Sorted Permutation SpecFloat.
From Verif Require Import Outcome TimeModel LoopSpec LoopProofs FloatOrder FilterModel FilterSpec FilterProofs FilterVoxels.
Import ListNotations.
Local Open Scope outcome_scope.

(** ** Heights in a voxel *)
Lemma fkey_inj : forall x y a, fkey x = Some a -> fkey y = Some a ->
  x = y \/ exists s t, x = S754_zero s /\ y = S754_zero t.
Proof.
  intros [s|[]| |[] m e] [t|[]| |[] m' e'] a Hx Hy; cbn in *; try discriminate; try (injection Hx as <-; injection Hy; congruence);
    try (left; reflexivity); try (right; eauto; fail); left; rewrite <- Hx in Hy; injection Hy as E1 E2.
  - rewrite E2. f_equal. lia.
  - congruence.
Qed.
(** Equal values differ at most in the sign of zero, which no comparison of differences sees. *)
Definition same (x y : fl) : Prop := x = y \/ exists s t, x = S754_zero s /\ y = S754_zero t.
Lemma le_le_same : forall x y, SFleb x y = true -> SFleb y x = true -> same x y.
Proof.
  intros x y H K. apply SFleb_key in H, K. destruct H as (a & b & Ea & Eb & H), K as (b' & a' & Eb' & Ea' & K).
  rewrite Eb in Eb'. rewrite Ea in Ea'. injection Eb' as <-. injection Ea' as <-.
  destruct (klt_total a b) as [L|[<-|L]]; try contradiction. exact (fkey_inj _ _ _ Ea Eb).
Qed.
Lemma leb_same : forall x y, same x y -> forall c, SFleb c x = SFleb c y /\ SFleb x c = SFleb y c.
Proof.
  intros x y [->|(s & t & -> & ->)] c; [auto|]. destruct c as [|[]| |[]]; auto.
Qed.
Lemma fsub_same : forall x y u v, same x u -> same y v -> same (fsub x y) (fsub u v).
Proof.
  intros x y u v [->|(s & t & -> & ->)] [->|(s' & t' & -> & ->)].
  - left. reflexivity.
  - destruct u as [s0|[]| |[]]; try (left; reflexivity). destruct s0, s', t'; right; cbn; eauto.
  - destruct v as [s0|[]| |[]]; try (left; reflexivity). destruct s0, s, t; right; cbn; eauto.
  - destruct s, t, s', t'; right; cbn; eauto.
Qed.

Definition highest (l : list point) (s : fl) : fl := fold_left (fun m p => if SFltb m (pz p) then pz p else m) l s.
Definition lowest (l : list point) (s : fl) : fl := fold_left (fun m p => if SFltb (pz p) m then pz p else m) l s.
Lemma highest_spec : forall l s, num s -> (forall p, In p l -> num (pz p)) ->
  SFleb s (highest l s) = true /\ (forall p, In p l -> SFleb (pz p) (highest l s) = true) /\
  (highest l s = s \/ exists p, In p l /\ highest l s = pz p).
Proof.
  induction l as [|p l IH]; intros s Ns Nl; [|change (highest (p :: l) s) with (highest l (if SFltb s (pz p) then pz p else s))].
  - cbn. split; [apply SFleb_refl; assumption|]. split; [contradiction|]. auto.
  - assert (Np : num (pz p)) by (apply Nl; left; reflexivity).
    destruct (SFltb s (pz p)) eqn:L.
    + destruct (IH (pz p)) as (A & B & C); [assumption|intros; apply Nl; right; assumption|].
      split; [eapply SFleb_trans; [apply SFltb_leb; exact L|exact A]|].
      split; [intros q [<-|Hq]; auto|]. right. destruct C as [->|(q & Hq & ->)]; [exists p|exists q]; cbn; auto.
    + destruct (IH s) as (A & B & C); [assumption|intros; apply Nl; right; assumption|].
      split; [assumption|]. split.
      * intros q [<-|Hq]; [|auto]. eapply SFleb_trans; [apply SFltb_false; [exact Ns|exact Np|exact L]|exact A].
      * destruct C as [->|(q & Hq & ->)]; [auto|right; exists q; cbn; auto].
Qed.
Lemma lowest_spec : forall l s, num s -> (forall p, In p l -> num (pz p)) ->
  SFleb (lowest l s) s = true /\ (forall p, In p l -> SFleb (lowest l s) (pz p) = true) /\
  (lowest l s = s \/ exists p, In p l /\ lowest l s = pz p).
Proof.
  induction l as [|p l IH]; intros s Ns Nl; [|change (lowest (p :: l) s) with (lowest l (if SFltb (pz p) s then pz p else s))].
  - cbn. split; [apply SFleb_refl; assumption|]. split; [contradiction|]. auto.
  - assert (Np : num (pz p)) by (apply Nl; left; reflexivity).
    destruct (SFltb (pz p) s) eqn:L.
    + destruct (IH (pz p)) as (A & B & C); [assumption|intros; apply Nl; right; assumption|].
      split; [eapply SFleb_trans; [exact A|apply SFltb_leb; exact L]|].
      split; [intros q [<-|Hq]; auto|]. right. destruct C as [->|(q & Hq & ->)]; [exists p|exists q]; cbn; auto.
    + destruct (IH s) as (A & B & C); [assumption|intros; apply Nl; right; assumption|].
      split; [assumption|]. split.
      * intros q [<-|Hq]; [|auto]. eapply SFleb_trans; [exact A|apply SFltb_false; [exact Np|exact Ns|exact L]].
      * destruct C as [->|(q & Hq & ->)]; [auto|right; exists q; cbn; auto].
Qed.

Lemma ground_flat : forall x y z l height, l <> [] ->
  (forall p, In p l -> fgt (pz p) minus_billion /\ fgt billion (pz p)) ->
  (is_ground (x, y, z) l height = true <-> (z <= 0)%Z /\ flat l height).
Proof.
  intros x y z l height Hn Hl.
  assert (Lo : forall p, In p l -> SFltb minus_billion (pz p) = true) by (intros p Hp; apply SFltb_fgt, Hl, Hp).
  assert (Hi : forall p, In p l -> SFltb (pz p) billion = true) by (intros p Hp; apply SFltb_fgt, Hl, Hp).
  assert (N : forall p, In p l -> num (pz p)) by (intros p Hp; apply (SFltb_num _ _ (Hi p Hp))).
  assert (Nb : num billion) by (apply num_nan; discriminate).
  assert (Nm : num minus_billion) by (apply num_nan; discriminate).
  destruct (highest_spec l minus_billion Nm N) as (_ & HB & HC).
  destruct (lowest_spec l billion Nb N) as (_ & LB & LC).
  assert (HP : exists p, In p l /\ highest l minus_billion = pz p).
  { destruct HC as [E|H]; [|exact H]. exfalso. destruct l as [|p l]; [congruence|].
    specialize (HB p (or_introl eq_refl)). specialize (Lo p (or_introl eq_refl)). rewrite E in HB.
    pose proof (SFltb_leb_trans _ _ _ Lo HB) as F. apply SFltb_key in F. destruct F as (a & b & Ea & Eb & F).
    rewrite Ea in Eb. injection Eb as <-. exact (klt_irrefl _ F). }
  assert (LP : exists q, In q l /\ lowest l billion = pz q).
  { destruct LC as [E|H]; [|exact H]. exfalso. destruct l as [|p l]; [congruence|].
    specialize (LB p (or_introl eq_refl)). specialize (Hi p (or_introl eq_refl)). rewrite E in LB.
    pose proof (SFltb_leb_trans _ _ _ Hi LB) as F. apply SFltb_key in F. destruct F as (a & b & Ea & Eb & F).
    rewrite Ea in Eb. injection Eb as <-. exact (klt_irrefl _ F). }
  destruct HP as (p & Hp & Ep), LP as (q & Hq & Eq).
  unfold is_ground. change (spread l) with (fsub (highest l minus_billion) (lowest l billion)).
  rewrite Ep, Eq in *. rewrite !andb_true_iff, Z.leb_le. split.
  - intros (Z & A & B). split; [assumption|]. exists p, q. rewrite <- !SFleb_fle. repeat split; auto;
      rewrite <- SFleb_fle; auto.
  - intros (Z & p' & q' & Hp' & Hq' & M & A & B). split; [assumption|].
    assert (S1 : same (pz p') (pz p)) by (apply le_le_same; [auto|apply SFleb_fle, M, Hp]).
    assert (S2 : same (pz q') (pz q)) by (apply le_le_same; [apply SFleb_fle, M, Hq|auto]).
    rewrite <- SFleb_fle in A, B. pose proof (leb_same _ _ (fsub_same _ _ _ _ S1 S2)) as L.
    rewrite <- (proj1 (L _)), <- (proj2 (L _)). auto.
Qed.

(** ** The ground filter *)
Lemma members_bound : forall cs c i, In i (members cs c) -> i < length cs.
Proof. intros cs c i H. apply members_in in H. apply nth_error_Some. congruence. Qed.

Lemma ground_apply : forall leaf height least h a d prev cs, a <> d -> points (h a) <> [] ->
  Forall2 (fun p c => ground_cell leaf p = Ok c) (points (h a)) cs ->
  (forall p, In p (points (h a)) -> fgt (pz p) minus_billion /\ fgt billion (pz p)) ->
  exists h' o, apply (Ground leaf height least) h a d prev = Ok (h', o) /\
    (forall b, b <> d -> h' b = h b) /\
    stamp (h' d) = stamp (h a) /\
    StronglySorted lt (inliers o) /\ StronglySorted lt (outliers o) /\
    (forall i, In i (outliers o) <->
       exists x y z ps, nth_error cs i = Some (x, y, z) /\ (least <= Z.of_nat (length (members cs (x, y, z))))%Z /\
         picked (points (h a)) (members cs (x, y, z)) ps /\ (z <= 0)%Z /\ flat ps height) /\
    (forall i, In i (inliers o) <->
       exists x y z ps, nth_error cs i = Some (x, y, z) /\ (least <= Z.of_nat (length (members cs (x, y, z))))%Z /\
         picked (points (h a)) (members cs (x, y, z)) ps /\ ~ ((z <= 0)%Z /\ flat ps height)) /\
    exists q, picked (points (h a)) (inliers o) q /\ Permutation q (points (h' d)).
Proof.
  intros leaf height least h a d prev cs Hd Hn F B. unfold apply, set_input.
  destruct (points (h a)) as [|p0 pts0] eqn:Ep; [congruence|]. rewrite <- Ep in *. clear Hn.
  destruct (ground_voxels_spec leaf (points (h a)) cs [] [] F) as (m & E & S & O & G); [constructor|intros ? ? []|reflexivity|].
  cbn [length app] in E, G. rewrite E. cbn [bind].
  unfold filter. cbn [inner passes]. rewrite upd_same, upd_other by assumption. cbn [stamp body voxels].
  assert (Len : length cs = length (points (h a))) by (symmetry; clear - F; induction F; cbn; congruence).
  assert (M : forall c l, In (c, l) m -> l = members cs c).
  { intros c l H. apply (in_get m c l S O) in H. destruct H as (_ & <-). apply G. }
  assert (M' : forall i c, nth_error cs i = Some c -> In (c, members cs c) m).
  { intros i c H. apply (in_get m c _ S O). split; [|apply G]. apply members_in in H. intros E0. rewrite E0 in H. contradiction. }
  destruct (ground_loop_spec (points (h a)) height least m) as (x & y & q & El & Q & Ix & Iy).
  { intros c l i H Hi. rewrite (M c l H) in Hi. apply members_bound in Hi. lia. }
  rewrite El. cbn [bind].
  destruct (ground_loop_nodup _ _ _ _ _ _ _ (groups_nodup cs m S M) El) as (Nx & Ny & _ & _).
  eexists _, _. split; [reflexivity|]. cbn [inliers outliers]. rewrite upd_same. cbn [stamp points].
  split; [intros b Hb; rewrite !upd_other by assumption; reflexivity|]. split; [reflexivity|].
  split; [apply isort_sorted; assumption|]. split; [apply isort_sorted; assumption|].
  assert (Key : forall i P,
    (exists c l ps, In (c, l) m /\ In i l /\ (least <= Z.of_nat (length l))%Z /\ picked (points (h a)) l ps /\ P (is_ground c ps height)) <->
    (exists u v w ps, nth_error cs i = Some (u, v, w) /\ (least <= Z.of_nat (length (members cs (u, v, w))))%Z /\
       picked (points (h a)) (members cs (u, v, w)) ps /\ P (is_ground (u, v, w) ps height))).
  { intros i P. split.
    - intros ([[u v] w] & l & ps & Hc & Hi & R). rewrite (M _ _ Hc) in *. apply members_in in Hi. exists u, v, w, ps. auto.
    - intros (u & v & w & ps & Hi & R). exists (u, v, w), (members cs (u, v, w)), ps. split; [eapply M'; eassumption|].
      split; [apply members_in; assumption|assumption]. }
  assert (GF : forall i u v w ps, nth_error cs i = Some (u, v, w) -> picked (points (h a)) (members cs (u, v, w)) ps ->
             (is_ground (u, v, w) ps height = true <-> (w <= 0)%Z /\ flat ps height)).
  { intros i u v w ps Hi P. apply ground_flat.
    - apply members_in in Hi. intros ->. inversion P as [E0|]. rewrite <- E0 in Hi. contradiction.
    - intros p Hp. apply B. clear - P Hp. induction P as [|j r l ps Hj P IH]; [contradiction|].
      destruct Hp as [->|Hp]; [eapply nth_error_In; eassumption|auto]. }
  split; [|split].
  - intros i. transitivity (In i y); [split; apply Permutation_in; [symmetry|]; apply isort_perm|].
    rewrite Iy, (Key i (fun b => b = true)). split; intros (u & v & w & ps & A1 & A2 & A3 & A4); exists u, v, w, ps;
      (split; [assumption|]); (split; [assumption|]); (split; [assumption|]); eapply GF; eassumption.
  - intros i. transitivity (In i x); [split; apply Permutation_in; [symmetry|]; apply isort_perm|].
    rewrite Ix, (Key i (fun b => b = false)). split; intros (u & v & w & ps & A1 & A2 & A3 & A4); exists u, v, w, ps;
      (split; [assumption|]); (split; [assumption|]); (split; [assumption|]).
    + rewrite <- (GF i u v w ps A1 A3). rewrite A4. discriminate.
    + rewrite <- (GF i u v w ps A1 A3) in A4. apply not_true_iff_false. assumption.
  - destruct (picked_perm _ _ _ _ (isort_perm x) Q) as (r & R1 & R2). exists r. split; [assumption|]. symmetry. assumption.
Qed.

Lemma ground_ub : forall leaf height least h a d prev,
  (exists p, In p (points (h a)) /\ ground_cell leaf p = UB) -> apply (Ground leaf height least) h a d prev = UB.
Proof.
  intros leaf height least h a d prev H. unfold apply, set_input.
  destruct (points (h a)) as [|p0 pts0] eqn:Ep; [destruct H as (p & [] & _)|]. rewrite ground_voxels_ub by assumption. reflexivity.
Qed.

(** ** The voxel grid filter *)
Definition in_voxel (size : fl) (odd : fl -> Z) (l : list point) (c : cell) : list point :=
  List.filter (fun p => cell_eq (voxel_of size odd p) c) l.

Lemma voxel_map_spec : forall size odd l,
  sorted (voxel_map size odd l) /\ occupied (voxel_map size odd l) /\
  forall c, get (voxel_map size odd l) c = in_voxel size odd l c.
Proof.
  intros size odd l.
  assert (G : forall l pre m, sorted m -> occupied m -> (forall c, get m c = in_voxel size odd pre c) ->
    let m' := fold_left (fun m p => put m (voxel_of size odd p) p) l m in
    sorted m' /\ occupied m' /\ forall c, get m' c = in_voxel size odd (pre ++ l) c).
  { clear l. induction l as [|p l IH]; intros pre m S O G; cbn.
    - rewrite app_nil_r. auto.
    - replace (pre ++ p :: l) with ((pre ++ [p]) ++ l) by (rewrite <- app_assoc; reflexivity).
      apply IH; [apply put_sorted; assumption|apply put_occupied; assumption|].
      intros c. rewrite get_put, G by assumption. unfold in_voxel. rewrite filter_app. cbn [List.filter].
      destruct (cell_eq (voxel_of size odd p) c); [reflexivity|symmetry; apply app_nil_r]. }
  exact (G l [] [] ltac:(constructor) ltac:(intros ? ? []) ltac:(reflexivity)).
Qed.

Lemma voxel_apply : forall size odd order h a d prev, a <> d -> points (h a) <> [] ->
  (forall m, Permutation (order m) m) ->
  exists h' o vs, apply (Voxel size odd order) h a d prev = Ok (h', o) /\
    (forall b, b <> d -> h' b = h b) /\
    stamp (h' d) = stamp (h a) /\ inliers o = [] /\ outliers o = [] /\
    NoDup vs /\ (forall c, In c vs <-> exists p, In p (points (h a)) /\ voxel_of size odd p = c) /\
    points (h' d) = map (fun c => average (in_voxel size odd (points (h a)) c)) vs.
Proof.
  intros size odd order h a d prev Hd Hn P. unfold apply, set_input.
  destruct (points (h a)) as [|p0 pts0] eqn:Ep; [congruence|]. rewrite <- Ep in *. clear Hn. cbn [bind].
  unfold filter. cbn [inner passes body bind]. rewrite upd_same, upd_other by assumption. cbn [stamp].
  destruct (voxel_map_spec size odd (points (h a))) as (S & O & G).
  set (m := voxel_map size odd (points (h a))) in *.
  eexists _, _, (map fst (order m)). split; [reflexivity|]. cbn [inliers outliers]. rewrite upd_same. cbn [stamp points].
  split; [intros b Hb; rewrite !upd_other by assumption; reflexivity|]. split; [reflexivity|]. split; [reflexivity|]. split; [reflexivity|].
  assert (In_m : forall c l, In (c, l) (order m) <-> l <> [] /\ in_voxel size odd (points (h a)) c = l).
  { intros c l. rewrite <- G, <- (in_get m c l S O). split; apply Permutation_in; [|symmetry]; apply P. }
  split; [|split].
  - apply (Permutation_NoDup (Permutation_map fst (Permutation_sym (P m)))). apply sorted_nodup. assumption.
  - intros c. split.
    + intros H. apply in_map_iff in H. destruct H as ([c' l] & E & H). cbn in E. subst c'. apply In_m in H. destruct H as (N & E).
      destruct l as [|p l]; [congruence|]. exists p.
      assert (I : In p (in_voxel size odd (points (h a)) c)) by (rewrite E; left; reflexivity).
      apply filter_In in I. rewrite cell_eq_true in I. exact I.
    + intros (p & Hp & E). apply in_map_iff. exists (c, in_voxel size odd (points (h a)) c). split; [reflexivity|].
      apply In_m. split; [|reflexivity]. intros E0.
      assert (I : In p (in_voxel size odd (points (h a)) c)) by (apply filter_In; rewrite cell_eq_true; auto).
      rewrite E0 in I. contradiction.
  - rewrite map_map. apply map_ext_in. intros [c l] H. cbn. apply In_m in H. destruct H as (_ & ->). reflexivity.
Qed.

(** ** Chains *)
Lemma set_input_some : forall k h a prev o, set_input k h (Some a) prev = Ok o -> points (h a) <> [] ->
  inner o = Some a /\ inliers o = [] /\ outliers o = [].
Proof.
  intros k h a prev o H N. unfold set_input in H. destruct (points (h a)) as [|p l]; [congruence|].
  destruct k; try (injection H as <-; auto). destruct (ground_voxels leaf (p :: l) 0 []); try discriminate.
  injection H as <-. auto.
Qed.
Lemma step_empty : forall k prev m1 m2, points m1 = [] -> chain_step k prev m1 m2 = Ok m2.
Proof. intros k prev m1 m2 H. unfold chain_step, set_input. cbn. rewrite H. reflexivity. Qed.
Lemma step_statistic : forall prev m1 m2, chain_step Statistic prev m1 m2 = Ok m2.
Proof. intros prev m1 m2. unfold chain_step, set_input. cbn. destruct (points m1); reflexivity. Qed.

(** On a non-empty input every filter but StatisticRemoval ignores the old output cloud and its own
    earlier state. *)
Lemma step_fresh : forall k prev m1 m2, k <> Statistic -> points m1 <> [] ->
  chain_step k prev m1 m2 = chain_step k new_obj m1 no_cloud.
Proof.
  intros k prev m1 m2 Hk N. unfold chain_step, set_input. cbn [Nat.eqb].
  destruct (points m1) as [|p l] eqn:E; [congruence|].
  destruct k; try congruence; cbn [bind]; unfold filter; cbn [inner voxels passes inliers outliers];
    try (destruct (_ && _)); try (destruct all); cbn [bind fst];
    rewrite ?(upd_other _ 1 0), ?upd_same by discriminate; cbn [Nat.eqb stamp points]; try reflexivity;
    try (rewrite E; destruct (body _ _ _) as [[[? ?] ?]| | |]; reflexivity).
  destruct (ground_voxels leaf (p :: l) 0 []); try reflexivity. cbn [bind inner].
    rewrite ?(upd_other _ 1 0), ?upd_same by discriminate. cbn [Nat.eqb]. rewrite E. cbn [body voxels].
    destruct (ground_loop _ _ _ _) as [[[? ?] ?]| | |]; reflexivity.
Qed.

Lemma step_stamp : forall k prev m1 m2 m, k <> Statistic -> points m1 <> [] ->
  chain_step k prev m1 m2 = Ok m -> stamp m = stamp m1.
Proof.
  intros k prev m1 m2 m Hk N H. unfold chain_step in H.
  set (h := fun a => if Nat.eqb a 0 then m1 else m2) in H.
  destruct (set_input k h (Some 0) prev) as [o| | |] eqn:S; try discriminate. cbn [bind] in H.
  destruct (set_input_some _ _ _ _ _ S) as (I & _); [exact N|].
  unfold filter in H. rewrite I in H.
  destruct k; try congruence; (destruct (passes _);
    [cbn [bind fst] in H; rewrite upd_same in H; injection H as <-; reflexivity|]);
    rewrite ?(upd_other _ 1 0), ?upd_same in H by discriminate;
    (destruct (body _ o _) as [[[? ?] ?]| | |]; try discriminate; cbn [bind fst] in H; rewrite upd_same in H;
     injection H as <-; reflexivity).
Qed.

Lemma once_step : forall k c, once k c = chain_step k new_obj c no_cloud.
Proof.
  intros k c. unfold once, apply, chain_step. destruct (set_input _ _ _ _); reflexivity.
Qed.
Lemma in_order_empty : forall ks c, points c = [] -> in_order ks c = Ok c.
Proof. intros [|k ks] c H; cbn; [reflexivity|]. rewrite H. reflexivity. Qed.
Definition plain (fs : list (kind * obj)) : list kind := List.filter (fun k => negb (statistic k)) (map fst fs).
Lemma chain_in_order : forall fs m, chain fs m m = in_order (plain fs) m.
Proof.
  induction fs as [|[k prev] fs IH]; intros m; [reflexivity|]. cbn [chain].
  destruct (points m) as [|p l] eqn:E.
  - rewrite step_empty by assumption. cbn [bind]. rewrite IH, !in_order_empty by assumption. reflexivity.
  - destruct (statistic k) eqn:S.
    + destruct k; try discriminate. rewrite step_statistic. cbn [bind]. apply IH.
    + assert (N : k <> Statistic) by (intros ->; discriminate).
      rewrite step_fresh by (assumption || congruence). unfold plain. cbn [map fst List.filter]. rewrite S. cbn [negb in_order].
      rewrite E, <- once_step. destruct (once k m); try reflexivity. cbn [bind]. apply IH.
Qed.
Lemma factory_in_order : forall k prev fs c old, k <> Statistic -> points c <> [] ->
  factory ((k, prev) :: fs) c old = in_order (plain ((k, prev) :: fs)) c.
Proof.
  intros k prev fs c old Hk N. unfold factory. destruct (points c) as [|p l] eqn:E; [congruence|]. cbn [chain].
  rewrite step_fresh by (assumption || congruence).
  assert (S : statistic k = false) by (destruct k; reflexivity || congruence).
  unfold plain. cbn [map fst List.filter]. rewrite S. cbn [negb in_order].
  rewrite E, <- once_step. destruct (once k c); try reflexivity. cbn [bind]. apply chain_in_order.
Qed.
Lemma factory_statistic : forall prev fs c old, points c <> [] -> factory ((Statistic, prev) :: fs) c old = Ok no_cloud.
Proof.
  intros prev fs c old N. unfold factory. destruct (points c) as [|p l] eqn:E; [congruence|]. cbn [chain].
  rewrite step_statistic. cbn [bind]. rewrite chain_in_order. apply in_order_empty. reflexivity.
Qed.
Lemma in_order_stamp : forall ks c c', (forall k, In k ks -> k <> Statistic) -> in_order ks c = Ok c' -> stamp c' = stamp c.
Proof.
  induction ks as [|k ks IH]; intros c c' N H; cbn in H; [injection H as <-; reflexivity|].
  destruct (points c) as [|p l] eqn:E; [injection H as <-; reflexivity|].
  destruct (once k c) as [m| | |] eqn:O; try discriminate. cbn [bind] in H.
  rewrite once_step in O. apply step_stamp in O; [|apply N; left; reflexivity|congruence].
  rewrite <- O. apply IH; [intros; apply N; right; assumption|assumption].
Qed.
Lemma plain_plain : forall fs k, In k (plain fs) -> k <> Statistic.
Proof. intros fs k H. apply filter_In in H. destruct H as (_ & H). intros ->. discriminate. Qed.

(** ** Rounding and averages *)
From Coq Require Import QArith Lqa Qabs Qpower.
Local Open Scope Q_scope.
Lemma round_half : forall m k : Z, (0 < k)%Z ->
  (2 * m - k <= 2 * k * ((2 * m + k) / (2 * k)) <= 2 * m + k)%Z /\ (2 * m - k < 2 * k * ((2 * m + k) / (2 * k)))%Z.
Proof.
  intros m k Hk. pose proof (Z.div_mod (2 * m + k) (2 * k) ltac:(lia)) as D.
  pose proof (Z.mod_pos_bound (2 * m + k) (2 * k) ltac:(lia)). lia.
Qed.
Lemma round_near : forall x z v, value x = Some v -> round_fl x = Some z -> Qabs (v - inject_Z z) <= 1 # 2.
Proof.
  intros [s|s| |s m e] z v Hv Hz; cbv beta iota zeta delta [value round_fl] in Hv, Hz; try discriminate.
  - injection Hv as <-. injection Hz as <-. cbn. discriminate.
  - apply (f_equal (fun o => match o with Some u => u | None => 0 end)) in Hv.
    apply (f_equal (fun o => match o with Some u => u | None => 0%Z end)) in Hz.
    cbv beta iota in Hv, Hz. subst v z.
    destruct (Z.leb_spec 0 e) as [E|E].
    + assert (P : 2 ^ e == inject_Z (2 ^ e)) by (symmetry; apply (Zpower_Qpower 2 e E)).
      rewrite P, <- inject_Z_mult. destruct s; cbn [cond_Zopp].
      * replace (- Z.pos m * 2 ^ e)%Z with (- (Z.pos m * 2 ^ e))%Z by lia. rewrite inject_Z_opp.
        setoid_replace (- inject_Z (Z.pos m * 2 ^ e) - - inject_Z (Z.pos m * 2 ^ e)) with 0 by ring. discriminate.
      * setoid_replace (inject_Z (Z.pos m * 2 ^ e) - inject_Z (Z.pos m * 2 ^ e)) with 0 by ring. discriminate.
    + set (k := (2 ^ (- e))%Z). assert (K : (0 < k)%Z) by (apply Z.pow_pos_nonneg; lia).
      assert (P : 2 ^ e * inject_Z k == 1).
      { unfold k. rewrite (Zpower_Qpower 2 (- e)) by lia. change (inject_Z 2) with 2.
        rewrite <- Qpower_plus by discriminate. replace (e + - e)%Z with 0%Z by lia. reflexivity. }
      destruct (round_half (Z.pos m) k K) as ((A & B) & _).
      set (r := ((2 * Z.pos m + k) / (2 * k))%Z) in *.
      rewrite Zle_Qle in A, B. unfold Z.sub in A. rewrite inject_Z_plus, inject_Z_opp, !inject_Z_mult in A. rewrite inject_Z_plus, !inject_Z_mult in B.
      change (inject_Z 2) with 2 in *.
      assert (KQ : 0 < inject_Z k) by (change 0 with (inject_Z 0); rewrite <- Zlt_Qlt; assumption).
      set (mq := inject_Z (Z.pos m)) in *. set (rq := inject_Z r) in *. set (kq := inject_Z k) in *.
      assert (V : Qabs (mq * 2 ^ e - rq) <= 1 # 2).
      { apply Qabs_Qle_condition.
        assert (M : mq == mq * 2 ^ e * kq) by (rewrite <- Qmult_assoc, P; ring).
        set (w := mq * 2 ^ e) in *. clearbody w. split; apply (Qmult_lt_0_le_reg_r _ _ kq KQ); nra. }
      destruct s; unfold cond_Zopp.
      * rewrite (inject_Z_opp r). change (- Z.pos m)%Z with (Z.opp (Z.pos m)). rewrite inject_Z_opp.
        setoid_replace (- inject_Z (Z.pos m) * 2 ^ e - - inject_Z r) with (- (inject_Z (Z.pos m) * 2 ^ e - inject_Z r)) by ring.
        rewrite Qabs_opp. exact V.
      * exact V.
Qed.

Lemma mean_exact : forall f l, l <> nil ->
  mean_with f (fun x => x) 0 Qplus Qdiv (fun n => inject_Z (Z.of_nat n)) (fun x => x) l * inject_Z (Z.of_nat (length l)) == total f l.
Proof.
  intros f l Hl. unfold mean_with.
  assert (G : forall l s, fold_left (fun s p => s + f p) l s == s + total f l).
  { clear. induction l as [|p l IH]; intros s; cbn [fold_left total fold_right]; [ring|]. rewrite IH. unfold total. ring. }
  rewrite G. field. destruct l as [|p l]; [congruence|]. cbn [length]. intros E.
  assert (inject_Z (Z.of_nat (S (length l))) == inject_Z 0) as F by exact E. apply (proj1 (inject_Z_injective _ _)) in F. lia.
Qed.
Lemma total_bounds : forall (f : point -> Q) l lo hi, (forall p, In p l -> lo <= f p <= hi) ->
  lo * inject_Z (Z.of_nat (length l)) <= total f l <= hi * inject_Z (Z.of_nat (length l)).
Proof.
  intros f l lo hi. induction l as [|p l IH]; intros H.
  - cbn [length total fold_right]. change (inject_Z (Z.of_nat 0)) with 0. split; lra.
  - cbn [total length fold_right]. rewrite Nat2Z.inj_succ. unfold Z.succ. rewrite inject_Z_plus. change (inject_Z 1) with 1.
    destruct IH as [A B]; [intros; apply H; right; assumption|]. destruct (H p (or_introl eq_refl)) as [C D]. unfold total in *. split; lra.
Qed.
