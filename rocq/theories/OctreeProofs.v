From Coq Require Import List Bool ZArith QArith Qabs Lia Lqa Permutation ZifyBool.
From Verif Require Import Outcome OctreeModel OctreeSpec.
Import ListNotations.
Local Open Scope Q_scope.
Local Arguments Qabs : simpl never.
Local Arguments Qplus : simpl never.
Local Arguments Qminus : simpl never.
Local Arguments Qmult : simpl never.

Lemma Qleb_le : forall a b, Qleb a b = true <-> a <= b.
Proof. intros. apply Qle_bool_iff. Qed.
Lemma Qleb_gt : forall a b, Qleb a b = false <-> b < a.
Proof.
  intros a b. unfold Qleb. rewrite <- not_true_iff_false, Qle_bool_iff.
  split; [apply Qnot_le_lt|apply Qlt_not_le].
Qed.
Lemma Qltb_lt : forall a b, Qltb_ a b = true <-> a < b.
Proof. intros a b. unfold Qltb_. rewrite negb_true_iff. apply Qleb_gt. Qed.
Lemma Qltb_ge : forall a b, Qltb_ a b = false <-> b <= a.
Proof. intros a b. unfold Qltb_. rewrite negb_false_iff. apply Qleb_le. Qed.

Lemma double_eq_exact : forall a b, a == b -> double_eq QA a b = true.
Proof.
  intros a b H. cbn. rewrite andb_true_iff, !Qleb_le. unfold glog_margin. split; lra.
Qed.

Lemma is_cube_center : forall c s, is_cube (cube_of_center (A := QA) c s).
Proof. intros c s. unfold is_cube, cube_of_center; cbn. repeat split; lra. Qed.

Lemma Qabs_le : forall x h, Qabs x <= h <-> - h <= x <= h.
Proof. intros. apply Qabs_Qle_condition. Qed.

Lemma contains_inside : forall b p, is_cube b -> (contains_point b p = true <-> inside b p).
Proof.
  intros b p (H0 & H1 & H2 & H3 & H4 & H5 & H6).
  unfold contains_point, inside; cbn.
  rewrite !andb_true_iff, !Qleb_le, !Qabs_le.
  split; intros; repeat split; lra.
Qed.

Definition off_cube (b : qcube) (off : point) : qcube :=
  mkCube (vhalf (vadd (vsub (c_center b) off) (vsub (c_max b) off)))
         (vsub (c_center b) off) (vsub (c_max b) off)
         (vx (vsub (c_max b) off) - vx (vsub (c_center b) off))
         ((1 # 2) * (vx (vsub (c_max b) off) - vx (vsub (c_center b) off))).

Lemma corners_ok : forall b off, is_cube b ->
  cube_of_corners (A := QA) (vsub (c_center b) off) (vsub (c_max b) off) = Ok (off_cube b off).
Proof.
  intros b off (H0 & H1 & H2 & H3 & H4 & H5 & H6).
  unfold cube_of_corners.
  rewrite double_eq_exact; cbn [check bind].
  2:{ cbn. lra. }
  rewrite double_eq_exact; cbn [check bind].
  2:{ cbn. lra. }
  reflexivity.
Qed.

Lemma sub_boxes_ok : forall b, is_cube b ->
  generate_sub_boxes b = Ok (map (off_cube b) (sub_offsets (A := QA) (c_half b))).
Proof.
  intros b H. unfold generate_sub_boxes, sub_offsets.
  cbn [mapM map]. rewrite !corners_ok by assumption. reflexivity.
Qed.

Definition sub_list (b : qcube) : list qcube := map (off_cube b) (sub_offsets (A := QA) (c_half b)).

(** Which side of the centre sub-box number i is on. *)
Definition off (i : Z) (h : Q) : point :=
  @V QA (if ((i =? 1) || (i =? 2) || (i =? 5) || (i =? 6))%Z then h else 0)
        (if ((i =? 2) || (i =? 3) || (i =? 6) || (i =? 7))%Z then h else 0)
        (if (4 <=? i)%Z then h else 0).

Lemma sub_list_nth : forall b i, (0 <= i < 8)%Z ->
  nth_error (sub_list b) (Z.to_nat i) = Some (off_cube b (off i (c_half b))).
Proof.
  intros b i Hi.
  assert (i = 0 \/ i = 1 \/ i = 2 \/ i = 3 \/ i = 4 \/ i = 5 \/ i = 6 \/ i = 7)%Z by lia.
  repeat match goal with H : _ \/ _ |- _ => destruct H end; subst; reflexivity.
Qed.

Lemma off_cases : forall i h,
  (vx (off i h) == 0 \/ vx (off i h) == h) /\
  (vy (off i h) == 0 \/ vy (off i h) == h) /\
  (vz (off i h) == 0 \/ vz (off i h) == h).
Proof.
  intros i h. unfold off; cbn [vx vy vz].
  repeat split; match goal with |- context [if ?c then _ else _] => destruct c end;
    (left; lra) || (right; lra).
Qed.

Lemma off_cube_is_cube : forall b i, is_cube b -> is_cube (off_cube b (off i (c_half b))).
Proof.
  intros b i (H0 & H1 & H2 & H3 & H4 & H5 & H6).
  unfold off_cube, is_cube; cbn.
  repeat split; lra.
Qed.

Lemma off_cube_size : forall b i, is_cube b ->
  c_size (off_cube b (off i (c_half b))) == (1 # 2) * c_size b.
Proof.
  intros b i (H0 & H1 & H2 & H3 & H4 & H5 & H6). unfold off_cube; cbn. lra.
Qed.

Lemma off_cube_in : forall b i p, is_cube b -> 0 <= c_size b ->
  inside (off_cube b (off i (c_half b))) p -> inside b p.
Proof.
  intros b i p (H0 & H1 & H2 & H3 & H4 & H5 & H6) Hs.
  destruct (off_cases i (c_half b)) as (Cx & Cy & Cz).
  unfold off_cube, inside; cbn in *.
  intros (Ix & Iy & Iz).
  destruct Cx, Cy, Cz; repeat split; lra.
Qed.

Lemma index_range : forall b p, inside b p -> is_cube b -> (0 <= sub_box_index b p < 8)%Z.
Proof.
  intros b p H Hb. unfold sub_box_index.
  rewrite (proj2 (contains_inside b p Hb) H). cbn [negb].
  repeat match goal with |- context [if ?c then _ else _] => destruct c end; lia.
Qed.

Lemma index_outside : forall b p, is_cube b -> ~ inside b p -> sub_box_index b p = (-1)%Z.
Proof.
  intros b p Hb H. unfold sub_box_index.
  destruct (contains_point b p) eqn:E; [|reflexivity].
  exfalso. apply H. apply contains_inside; assumption.
Qed.

Lemma index_inside : forall b p, is_cube b -> inside b p ->
  inside (off_cube b (off (sub_box_index b p) (c_half b))) p.
Proof.
  intros b p Hb H. unfold sub_box_index.
  rewrite (proj2 (contains_inside b p Hb) H). cbn [negb].
  destruct Hb as (H0 & H1 & H2 & H3 & H4 & H5 & H6).
  destruct H as (Ix & Iy & Iz).
  cbn [leb ltb QA zero vsub vx vy vz sub].
  destruct (Qleb 0 (vx p - vx (c_center b))) eqn:Ex;
  destruct (Qleb 0 (vy p - vy (c_center b))) eqn:Ey;
  destruct (Qltb_ (vz p - vz (c_center b)) 0) eqn:Ez;
  rewrite ?Qleb_le, ?Qleb_gt in Ex; rewrite ?Qleb_le, ?Qleb_gt in Ey;
  rewrite ?Qltb_lt, ?Qltb_ge in Ez;
  unfold inside, off_cube, off; cbn; repeat split; lra.
Qed.

Lemma sub_disjoint : forall b i j p, is_cube b -> (0 <= i < 8)%Z -> (0 <= j < 8)%Z ->
  strictly_inside (off_cube b (off i (c_half b))) p ->
  strictly_inside (off_cube b (off j (c_half b))) p -> i = j.
Proof.
  intros b i j p (H0 & H1 & H2 & H3 & H4 & H5 & H6) Hi Hj.
  assert (forall k, (0 <= k < 8)%Z ->
    (k = 0 \/ k = 1 \/ k = 2 \/ k = 3 \/ k = 4 \/ k = 5 \/ k = 6 \/ k = 7)%Z) as D by lia.
  intros (Ax & Ay & Az) (Bx & By & Bz).
  apply D in Hi. apply D in Hj.
  repeat match goal with H : _ \/ _ |- _ => destruct H end; subst; try reflexivity; exfalso;
  cbn in *; lra.
Qed.

(** ** Distribution over the sub-boxes *)
Definition zidx := [0; 1; 2; 3; 4; 5; 6; 7]%Z.

Lemma Permutation_middle_app : forall {X} (a : X) l1 l2 l1' l2',
  Permutation (l1 ++ l2) (l1' ++ l2') -> Permutation (l1 ++ a :: l2) (l1' ++ a :: l2').
Proof. intros. rewrite <- !Permutation_middle. constructor. assumption. Qed.

Lemma distribute : forall {X} (f : X -> Z) pts (is : list Z), NoDup is ->
  Permutation (flat_map (fun i => filter (fun p => (f p =? i)%Z) pts) is)
              (filter (fun p => if in_dec Z.eq_dec (f p) is then true else false) pts).
Proof.
  intros X f pts is Hn. induction is as [|i is IH]; cbn [flat_map].
  - induction pts; cbn; auto.
  - inversion Hn as [|? ? Hi Hn']; subst. specialize (IH Hn'). rewrite IH. clear IH Hn.
    induction pts as [|p pts IHp]; [constructor|].
    cbn [filter].
    destruct (Z.eqb_spec (f p) i) as [E|E].
    + subst i. destruct (in_dec Z.eq_dec (f p) is) as [G|G]; [contradiction|].
      destruct (in_dec Z.eq_dec (f p) (f p :: is)) as [_|G']; [|exfalso; apply G'; left; reflexivity].
      cbn. constructor. exact IHp.
    + destruct (in_dec Z.eq_dec (f p) is) as [G|G];
      destruct (in_dec Z.eq_dec (f p) (i :: is)) as [G'|G'].
      * rewrite <- Permutation_middle. constructor. exact IHp.
      * exfalso. apply G'. right. assumption.
      * exfalso. destruct G'; [congruence|contradiction].
      * exact IHp.
Qed.

Lemma zidx_nodup : NoDup zidx.
Proof. unfold zidx. repeat constructor; cbn; intuition discriminate. Qed.

Lemma zidx_in : forall i, In i zidx <-> (0 <= i < 8)%Z.
Proof. intros i. unfold zidx; cbn. lia. Qed.

Lemma distribute_boxes : forall b pts, is_cube b ->
  Permutation (flat_map (points_of_box b pts) zidx) (filter (contains_point b) pts).
Proof.
  intros b pts Hb.
  etransitivity. { apply (distribute (sub_box_index b) pts zidx zidx_nodup). }
  erewrite filter_ext; [reflexivity|].
  intros p. cbv beta. destruct (in_dec Z.eq_dec (sub_box_index b p) zidx) as [G|G].
  - apply zidx_in in G. destruct (contains_point b p) eqn:E; [reflexivity|].
    rewrite index_outside in G; try assumption; [lia|].
    rewrite <- contains_inside by assumption. congruence.
  - rewrite zidx_in in G. destruct (contains_point b p) eqn:E; [|reflexivity].
    exfalso. apply G. apply index_range; [apply contains_inside|]; assumption.
Qed.

Lemma points_of_box_inside : forall b pts i, is_cube b -> (0 <= i < 8)%Z ->
  Forall (inside (off_cube b (off i (c_half b)))) (points_of_box b pts i).
Proof.
  intros b pts i Hb Hi. apply Forall_forall. intros p Hp.
  unfold points_of_box in Hp. apply filter_In in Hp. destruct Hp as [_ E].
  apply Z.eqb_eq in E.
  assert (inside b p) as I.
  { destruct (contains_point b p) eqn:C; [apply contains_inside; assumption|].
    rewrite index_outside in E; try assumption; [lia|].
    rewrite <- contains_inside by assumption. congruence. }
  rewrite <- E. apply index_inside; assumption.
Qed.

(** ** The tree *)
Definition max_leaf_depth (md : Z) (t : qtree) : Z :=
  fold_left (fun m l => Z.max m (leaf_depth l)) (leaves t) md.

Definition leaf_good (cfg : config QA) (depth : Z) (l : Z * cube QA * list point) : Prop :=
  is_cube (leaf_box l) /\ (depth <= leaf_depth l <= cf_max_depth cfg)%Z /\
  (leaf_depth l = cf_max_depth cfg \/ Z.of_nat (length (leaf_points l)) <= cf_max_points cfg)%Z.

Record good (cfg : config QA) (depth : Z) (b : qcube) (pts : list point)
  (t : qtree) (md md' : Z) : Prop := {
  g_perm : Permutation (all_points t)
     (if (depth =? cf_max_depth cfg)%Z || few_points cfg pts then pts
      else filter (contains_point b) pts);
  g_inside : Forall (inside b) pts ->
     Forall (fun l => Forall (inside (leaf_box l)) (leaf_points l)) (leaves t);
  g_inside' : (depth =? cf_max_depth cfg)%Z || few_points cfg pts = false ->
     Forall (fun l => Forall (inside (leaf_box l)) (leaf_points l)) (leaves t);
  g_leaves : Forall (leaf_good cfg depth) (leaves t);
  g_ne : leaves t <> [];
  g_max : md' = max_leaf_depth md t }.

Lemma few_points_spec : forall (cfg : config QA) pts, (0 <= cf_max_points cfg < 2 ^ 31)%Z ->
  (few_points cfg pts = true <-> (Z.of_nat (length pts) <= cf_max_points cfg)%Z).
Proof.
  intros cfg pts H. unfold few_points. rewrite Z.mod_small by lia. rewrite Z.leb_le. reflexivity.
Qed.

Lemma build_list_good : forall cfg depth b pts rec,
  is_cube b ->
  (forall b' pts' md, is_cube b' -> exists t md',
     rec b' pts' md = Some (Ok (t, md')) /\ good cfg (depth + 1) b' pts' t md md') ->
  forall is i0, (forall k i, nth_error is k = Some i -> i = i0 + Z.of_nat k)%Z ->
  (forall i, In i is -> 0 <= i < 8)%Z ->
  forall md, exists ts md',
    build_list rec b pts (map (fun i => off_cube b (off i (c_half b))) is) i0 md
      = Some (Ok (ts, md')) /\
    Permutation (flat_map all_points ts) (flat_map (points_of_box b pts) is) /\
    Forall (fun l => Forall (inside (leaf_box l)) (leaf_points l)) (flat_map leaves ts) /\
    Forall (leaf_good cfg (depth + 1)) (flat_map leaves ts) /\
    length ts = length is /\
    md' = fold_left (fun m l => Z.max m (leaf_depth l)) (flat_map leaves ts) md /\
    Forall (fun t => leaves t <> []) ts.
Proof.
  intros cfg depth b pts rec Hb Hrec is.
  induction is as [|i is IH]; intros i0 Hk Hr md; cbn [map build_list].
  - exists [], md. cbn. repeat split; constructor.
  - assert (i = i0) by (specialize (Hk 0%nat i eq_refl); cbn in Hk; lia). subst i0.
    assert (0 <= i < 8)%Z as Hi by (apply Hr; left; reflexivity).
    destruct (Hrec (off_cube b (off i (c_half b))) (points_of_box b pts i) md)
      as (t & md1 & E1 & G1); [apply off_cube_is_cube; assumption|].
    rewrite E1.
    destruct (IH (i + 1)%Z) with (md := md1) as (ts & md2 & E2 & P2 & F2 & L2 & N2 & M2 & X2).
    { intros k j Hj. specialize (Hk (S k) j Hj). lia. }
    { intros j Hj. apply Hr. right. assumption. }
    rewrite E2. exists (t :: ts), md2.
    destruct G1 as [g_perm1 g_inside1 _ g_leaves1 g_ne1 g_max1].
    pose proof (points_of_box_inside b pts i Hb Hi) as Hin.
    split; [reflexivity|]. cbn [flat_map].
    split; [|split; [|split; [|split; [|split]]]].
    + apply Permutation_app; [|assumption].
      rewrite g_perm1. destruct (_ || _); [reflexivity|].
      clear - Hin Hb.
      replace (filter (contains_point (off_cube b (off i (c_half b)))) (points_of_box b pts i))
        with (points_of_box b pts i); [reflexivity|].
      induction Hin as [|p l Hp Hl IHl]; [reflexivity|].
      cbn [filter]. rewrite (proj2 (contains_inside _ p (off_cube_is_cube b i Hb)) Hp).
      f_equal. assumption.
    + apply Forall_app. split; [apply g_inside1; assumption|assumption].
    + apply Forall_app. split; assumption.
    + cbn. congruence.
    + rewrite fold_left_app. rewrite M2, g_max1. reflexivity.
    + constructor; assumption.
Qed.

Lemma sub_list_zidx : forall b, sub_list b = map (fun i => off_cube b (off i (c_half b))) zidx.
Proof. reflexivity. Qed.

Lemma Forall_flat_map_ : forall {X Y} (P : Y -> Prop) (f : X -> list Y) l,
  Forall P (flat_map f l) <-> Forall (fun x => Forall P (f x)) l.
Proof.
  intros X Y P f l. induction l as [|x l IH]; cbn; [split; constructor|].
  rewrite Forall_app, IH. split; [intros []; constructor; assumption|].
  intros H; inversion H; auto.
Qed.

Lemma all_points_node : forall (d : Z) (b : qcube) ts,
  all_points (Node d b ts) = flat_map all_points ts.
Proof.
  intros. unfold all_points. cbn [leaves]. induction ts as [|t ts IH]; [reflexivity|].
  cbn [flat_map]. rewrite flat_map_app, IH. reflexivity.
Qed.

Lemma build_good : forall cfg fuel depth b pts md,
  (0 <= cf_max_points cfg < 2 ^ 31)%Z ->
  is_cube b -> (depth <= cf_max_depth cfg)%Z ->
  (cf_max_depth cfg - depth < Z.of_nat fuel)%Z ->
  exists t md', build_tree fuel cfg depth b pts md = Some (Ok (t, md')) /\
    good cfg depth b pts t md md'.
Proof.
  intros cfg fuel. induction fuel as [|fuel IH]; intros depth b pts md Hmp Hb Hd Hf; [lia|].
  cbn [build_tree].
  destruct ((depth =? cf_max_depth cfg)%Z || few_points cfg pts) eqn:E.
  - exists (Leaf depth b pts), (Z.max md depth). split; [reflexivity|].
    split; cbn; rewrite ?E; try congruence.
    + rewrite app_nil_r. reflexivity.
    + intros H. repeat constructor. assumption.
    + constructor; [|constructor]. split; [exact Hb|]. cbn. split; [lia|].
      apply orb_true_iff in E. destruct E as [E|E]; [left; lia|right].
      apply few_points_spec in E; assumption.
  - rewrite sub_boxes_ok by assumption. fold (sub_list b). rewrite sub_list_zidx.
    apply orb_false_iff in E as E'. destruct E' as [E1 E2].
    destruct (build_list_good cfg depth b pts (build_tree fuel cfg (depth + 1)) Hb)
      with (is := zidx) (i0 := 0%Z) (md := md)
      as (ts & md' & Eb & P & F & L & N & M & X).
    { intros b' pts' md0 Hb'. apply IH; try assumption; lia. }
    { intros k i Hk. unfold zidx in Hk.
      do 8 (destruct k as [|k]; [cbn in Hk; inversion Hk; reflexivity|]).
      destruct k; discriminate. }
    { intros i. apply zidx_in. }
    rewrite Eb. exists (Node depth b ts), md'. split; [reflexivity|].
    split; rewrite ?E; cbn [leaves].
    + rewrite all_points_node, P. apply distribute_boxes. assumption.
    + intros _. assumption.
    + intros _. assumption.
    + eapply Forall_impl; [|exact L]. intros l (A1 & A2 & A3). split; [assumption|]. split; [lia|assumption].
    + destruct ts as [|t ts]; [cbn in N; lia|]. inversion X; subst. cbn.
      destruct (leaves t); [congruence|discriminate].
    + exact M.
Qed.

(** ** Statements used by the property file *)
Lemma sub_boxes_spec : forall b, is_cube b -> (0 <= c_size b)%Q ->
  exists boxes, generate_sub_boxes b = Ok boxes /\ length boxes = 8%nat /\
    (forall i s, nth_error boxes i = Some s ->
       is_cube s /\ (c_size s == (1 # 2) * c_size b)%Q /\ (forall p, inside s p -> inside b p)) /\
    (forall i j s s' p, nth_error boxes i = Some s -> nth_error boxes j = Some s' ->
       strictly_inside s p -> strictly_inside s' p -> i = j).
Proof.
  intros b Hb Hs. exists (sub_list b). split; [apply sub_boxes_ok; assumption|].
  split; [reflexivity|].
  assert (forall i s, nth_error (sub_list b) i = Some s -> (i < 8)%nat /\
            s = off_cube b (off (Z.of_nat i) (c_half b))) as Hn.
  { intros i s Hi. assert (i < 8)%nat as Hl.
    { change 8%nat with (length (sub_list b)). apply nth_error_Some. congruence. }
    split; [assumption|].
    pose proof (sub_list_nth b (Z.of_nat i) ltac:(lia)) as K. rewrite Nat2Z.id in K. congruence. }
  split.
  - intros i s Hi. apply Hn in Hi. destruct Hi as [Hi ->].
    split; [apply off_cube_is_cube; assumption|].
    split; [apply off_cube_size; assumption|].
    intros p. apply off_cube_in; assumption.
  - intros i j s s' p Hi Hj. apply Hn in Hi. apply Hn in Hj.
    destruct Hi as [Hi ->]. destruct Hj as [Hj ->]. intros S1 S2.
    assert (Z.of_nat i = Z.of_nat j) by (eapply sub_disjoint; try eassumption; lia). lia.
Qed.

Lemma sub_index_spec : forall b p, is_cube b ->
  (inside b p -> exists boxes s, generate_sub_boxes b = Ok boxes /\
     (0 <= sub_box_index b p < 8)%Z /\
     nth_error boxes (Z.to_nat (sub_box_index b p)) = Some s /\ inside s p) /\
  (~ inside b p -> sub_box_index b p = (-1)%Z).
Proof.
  intros b p Hb. split.
  - intros H. exists (sub_list b). eexists. split; [apply sub_boxes_ok; assumption|].
    pose proof (index_range b p H Hb) as R. split; [assumption|].
    split; [apply sub_list_nth; assumption|]. apply index_inside; assumption.
  - apply index_outside. assumption.
Qed.

Lemma octree_partition : forall cfg o points,
  (0 <= cf_max_depth cfg)%Z -> (0 <= cf_max_points cfg < 2 ^ 31)%Z ->
  exists t md, 
    (forall fuel, (cf_max_depth cfg < Z.of_nat fuel)%Z ->
       init_with_cloud fuel cfg o points = Some (Ok (mkOctree (Some t) md))) /\
    (Forall (inside (cube_of_center (cf_center cfg) (cf_max_size cfg))) points ->
       Permutation (all_points t) points /\
       Forall (fun l => Forall (inside (leaf_box l)) (leaf_points l)) (leaves t)) /\
    Forall (fun l => 0 <= leaf_depth l <= cf_max_depth cfg /\
              (cf_max_points cfg < Z.of_nat (length (leaf_points l)) ->
                 leaf_depth l = cf_max_depth cfg))%Z (leaves t).
Proof.
  intros cfg o points Hd Hp.
  pose (b := cube_of_center (cf_center cfg) (cf_max_size cfg) : qcube).
  assert (is_cube b) as Hb by apply is_cube_center.
  destruct (build_good cfg (S (Z.to_nat (cf_max_depth cfg))) 0 b points (max_depth_seen o))
    as (t & md & E & G); try assumption; try lia.
  exists t, md. split; [|split].
  - intros fuel Hf. unfold init_with_cloud. fold b.
    assert (forall f, (cf_max_depth cfg < Z.of_nat f)%Z -> exists t' md',
      build_tree f cfg 0 b points (max_depth_seen o) = Some (Ok (t', md'))) as Ex.
    { intros f Hf'. destruct (build_good cfg f 0 b points (max_depth_seen o))
        as (t' & md' & E' & _); try assumption; try lia. eauto. }
    destruct (Ex fuel Hf) as (t' & md' & E').
    enough (forall f f' depth b pts md r, (f <= f')%nat ->
      build_tree (A := QA) f cfg depth b pts md = Some (Ok r) ->
      build_tree f' cfg depth b pts md = Some (Ok r)) as Mono.
    { destruct (Nat.le_ge_cases (S (Z.to_nat (cf_max_depth cfg))) fuel) as [L|L].
      - rewrite (Mono _ _ _ _ _ _ _ L E). reflexivity.
      - pose proof (Mono _ _ _ _ _ _ _ L E') as K. rewrite E in K. inversion K; subst.
        rewrite E'. reflexivity. }
    clear. intros f. induction f as [|f IH]; intros f' depth b pts md r L H; [discriminate|].
    destruct f' as [|f']; [lia|]. cbn [build_tree] in *.
    destruct (_ || _); [assumption|].
    destruct (generate_sub_boxes b) as [boxes| | |]; try discriminate.
    assert (forall boxes i md r, build_list (build_tree f cfg (depth + 1)) b pts boxes i md = Some (Ok r) ->
       build_list (build_tree f' cfg (depth + 1)) b pts boxes i md = Some (Ok r)) as BL.
    { clear H md boxes r. intros boxes. induction boxes as [|bx boxes IHb]; intros i md r H; [assumption|].
      cbn [build_list] in *.
      destruct (build_tree f cfg (depth + 1) bx (points_of_box b pts i) md) as [[[t md1]| | |]|] eqn:Et;
        try discriminate.
      rewrite (IH f' _ _ _ _ _ ltac:(lia) Et).
      destruct (build_list (build_tree f cfg (depth + 1)) b pts boxes (i + 1) md1) as [[[ts md2]| | |]|] eqn:El;
        try discriminate.
      rewrite (IHb _ _ _ El). assumption. }
    destruct (build_list (build_tree f cfg (depth + 1)) b pts boxes 0 md) as [[[ts md2]| | |]|] eqn:El;
      try discriminate.
    rewrite (BL _ _ _ _ El). assumption.
  - intros Hin. split; [|apply (g_inside _ _ _ _ _ _ _ G); assumption].
    rewrite (g_perm _ _ _ _ _ _ _ G). destruct (_ || _); [reflexivity|].
    replace (filter (contains_point b) points) with points; [reflexivity|].
    clear - Hin Hb. induction Hin as [|p l H Hl IHl]; [reflexivity|].
    cbn [filter]. rewrite (proj2 (contains_inside b p Hb) H). f_equal. assumption.
  - eapply Forall_impl; [|apply (g_leaves _ _ _ _ _ _ _ G)].
    intros l (A1 & A2 & A3). split; [assumption|]. intros K. destruct A3; [assumption|lia].
Qed.

(** Points outside the root cube. *)
Lemma octree_outside : forall cfg o points fuel o',
  (0 < cf_max_depth cfg)%Z -> (0 <= cf_max_points cfg < 2 ^ 31)%Z ->
  (cf_max_depth cfg < Z.of_nat fuel)%Z ->
  init_with_cloud fuel cfg o points = Some (Ok o') ->
  exists t, root o' = Some t /\
  ((Z.of_nat (length points) <= cf_max_points cfg)%Z -> Permutation (all_points t) points) /\
  ((cf_max_points cfg < Z.of_nat (length points))%Z -> exists dropped,
     Permutation points (all_points t ++ dropped) /\
     Forall (inside (cube_of_center (cf_center cfg) (cf_max_size cfg))) (all_points t) /\
     Forall (fun p => ~ inside (cube_of_center (cf_center cfg) (cf_max_size cfg)) p) dropped) /\
  max_depth_seen o' = max_leaf_depth (max_depth_seen o) t.
Proof.
  intros cfg o points fuel o' Hd Hp Hf H.
  pose (b := cube_of_center (cf_center cfg) (cf_max_size cfg) : qcube).
  assert (is_cube b) as Hb by apply is_cube_center.
  destruct (build_good cfg fuel 0 b points (max_depth_seen o))
    as (t & md & E & G); try assumption; try lia.
  unfold init_with_cloud in H. fold b in H. rewrite E in H. inversion H; subst; clear H. cbn.
  exists t. split; [reflexivity|].
  pose proof (few_points_spec cfg points Hp) as FS.
  pose proof (g_perm _ _ _ _ _ _ _ G) as P.
  replace (0 =? cf_max_depth cfg)%Z with false in P by lia. cbn [orb] in P.
  split; [|split].
  - intros L. rewrite (proj2 FS L) in P. assumption.
  - intros L. replace (few_points cfg points) with false in P.
    2:{ symmetry. apply not_true_iff_false. rewrite FS. lia. }
    exists (filter (fun p => negb (contains_point b p)) points). split; [|split].
    + rewrite P. clear - points. induction points as [|p l IH]; [constructor|].
      cbn [filter]. destruct (contains_point b p); cbn [negb].
      * cbn. constructor. assumption.
      * rewrite <- Permutation_middle. constructor. assumption.
    + eapply Permutation_Forall; [symmetry; exact P|].
      apply Forall_forall. intros p Hp'. apply filter_In in Hp'. apply contains_inside; tauto.
    + apply Forall_forall. intros p Hp'. apply filter_In in Hp'. destruct Hp' as [_ K].
      fold b. rewrite <- contains_inside by assumption. destruct (contains_point b p); easy.
  - apply (g_max _ _ _ _ _ _ _ G).
Qed.

(** A negative depth limit and too many equal points: no depth is enough. *)
Lemma build_never : forall cfg p n fuel depth b md,
  (cf_max_depth cfg < 0)%Z -> (0 <= cf_max_points cfg < 2 ^ 31)%Z -> (0 <= depth)%Z ->
  (cf_max_points cfg < Z.of_nat n)%Z ->
  is_cube b -> inside b p ->
  build_tree fuel cfg depth b (repeat p n) md = None.
Proof.
  intros cfg p n fuel. induction fuel as [|fuel IH]; intros depth b md Hd Hp H0 Hn Hb Hi; [reflexivity|].
  cbn [build_tree].
  assert (few_points cfg (repeat p n) = false) as Ef.
  { apply not_true_iff_false. rewrite few_points_spec by assumption. rewrite repeat_length. lia. }
  replace (depth =? cf_max_depth cfg)%Z with false by lia. rewrite Ef. cbn [orb].
  rewrite sub_boxes_ok by assumption. fold (sub_list b). rewrite sub_list_zidx.
  pose proof (index_range b p Hi Hb) as R.
  pose proof (index_inside b p Hb Hi) as I.
  assert (forall i, points_of_box b (repeat p n) i = if (sub_box_index b p =? i)%Z then repeat p n else []) as PB.
  { intros i. unfold points_of_box. clear. induction n as [|n IHn]; cbn; [destruct (_ =? _)%Z; reflexivity|].
    rewrite IHn. destruct (_ =? _)%Z; reflexivity. }
  assert (forall is i0 md, (forall k i, nth_error is k = Some i -> i = i0 + Z.of_nat k)%Z ->
     In (sub_box_index b p) is ->
     build_list (build_tree fuel cfg (depth + 1)) b (repeat p n)
       (map (fun i => off_cube b (off i (c_half b))) is) i0 md = None) as BL.
  { intros is. induction is as [|i is IHis]; intros i0 md0 Hk Hin; [destruct Hin|].
    assert (i = i0) by (specialize (Hk 0%nat i eq_refl); cbn in Hk; lia). subst i0.
    cbn [map build_list]. rewrite PB.
    destruct (Z.eqb_spec (sub_box_index b p) i) as [E|E].
    - subst i. rewrite IH; try assumption; try lia; [reflexivity|].
      apply off_cube_is_cube. assumption.
    - destruct Hin as [Hin|Hin]; [congruence|].
      destruct fuel as [|fuel']; [reflexivity|].
      cbn [build_tree]. assert (few_points cfg [] = true) as Ee.
      { apply few_points_spec; [assumption|]. cbn. lia. }
      rewrite Ee, orb_true_r.
      cbn [build_tree] in IHis. rewrite IHis; [reflexivity| |assumption].
      intros k j Hj. specialize (Hk (S k) j Hj). lia. }
  rewrite BL; [reflexivity| |apply zidx_in; assumption].
  intros k i Hk. unfold zidx in Hk.
  do 8 (destruct k as [|k]; [cbn in Hk; inversion Hk; reflexivity|]).
  destruct k; discriminate.
Qed.
Lemma octree_never : forall cfg o p n fuel,
  (cf_max_depth cfg < 0)%Z -> (0 <= cf_max_points cfg < 2 ^ 31)%Z ->
  (cf_max_points cfg < Z.of_nat n)%Z ->
  inside (cube_of_center (cf_center cfg) (cf_max_size cfg)) p ->
  init_with_cloud fuel cfg o (repeat p n) = None.
Proof.
  intros. unfold init_with_cloud. rewrite build_never; try assumption; try lia; [reflexivity|].
  apply is_cube_center.
Qed.

(** ** Breadth-first output *)
Fixpoint nodes {A} (t : tree A) : nat :=
  match t with Leaf _ _ _ => 1 | Node _ _ ch => S (list_sum (map nodes ch)) end.

Lemma list_sum_app_ : forall a b, list_sum (a ++ b) = (list_sum a + list_sum b)%nat.
Proof. intros. apply list_sum_app. Qed.

Lemma list_sum_cons_ : forall a l, list_sum (a :: l) = (a + list_sum l)%nat.
Proof. reflexivity. Qed.

Lemma output_spec : forall fuel (q : list qtree), (list_sum (map nodes q) < fuel)%nat ->
  exists l, output_queue fuel q = Some l /\
    Permutation l (flat_map (fun t => flat_map (fun lf => map (fun p => (p, leaf_depth lf)) (leaf_points lf)) (leaves t)) q).
Proof.
  intros fuel. induction fuel as [|fuel IH]; intros q Hf; [lia|].
  cbn [output_queue]. destruct q as [|t q].
  - exists []. auto.
  - destruct t as [d b pts|d b ch].
    + cbn [map] in Hf; rewrite list_sum_cons_ in Hf; cbn [nodes] in Hf.
      destruct (IH q) as (l & E & P); [lia|]. rewrite E. cbn.
      eexists. split; [reflexivity|]. cbn. rewrite app_nil_r. apply Permutation_app_head. assumption.
    + cbn [map] in Hf; rewrite list_sum_cons_ in Hf; cbn [nodes] in Hf.
      destruct (IH (q ++ ch)) as (l & E & P).
      { rewrite map_app, list_sum_app_. unfold qtree in *. lia. }
      exists l. split; [assumption|]. rewrite P. rewrite flat_map_app. cbn [flat_map leaves].
      rewrite Permutation_app_comm. apply Permutation_app_tail.
      clear. induction ch as [|c ch IHc]; [constructor|]. cbn [flat_map].
      rewrite flat_map_app. apply Permutation_app_head. assumption.
Qed.

Lemma output_points : forall t : qtree, exists bound, forall fuel, (bound < fuel)%nat ->
  exists l, output_queue fuel [t] = Some l /\
  Permutation l (flat_map (fun lf => map (fun p => (p, leaf_depth lf)) (leaf_points lf)) (leaves t)).
Proof.
  intros t. exists (nodes t). intros fuel Hf. destruct (output_spec fuel [t]) as (l & E & P).
  - cbn. lia.
  - exists l. split; [assumption|]. rewrite P. cbn. rewrite app_nil_r. reflexivity.
Qed.
