(** Property theorems C16, C17, C66, C67, C68: cubes and octrees. *)
From Coq Require Import List Bool ZArith QArith Lqa Lia Permutation Floats.SpecFloat ZifyBool.
From Verif Require Import Outcome OctreeModel OctreeSpec OctreeProofs.
Import ListNotations.

(** C16. *)
Theorem C16_sub_boxes : forall b, is_cube b -> (0 <= c_size b)%Q ->
  exists boxes, generate_sub_boxes b = Ok boxes /\ length boxes = 8%nat /\
    (forall i s, nth_error boxes i = Some s ->
       is_cube s /\ (c_size s == (1 # 2) * c_size b)%Q /\
       (forall p, inside s p -> inside b p)) /\
    (forall i j s s' p, nth_error boxes i = Some s -> nth_error boxes j = Some s' ->
       strictly_inside s p -> strictly_inside s' p -> i = j).
Proof. exact sub_boxes_spec. Qed.
Print Assumptions C16_sub_boxes.

Theorem C16_index : forall b p, is_cube b ->
  (inside b p -> exists boxes s, generate_sub_boxes b = Ok boxes /\
     (0 <= sub_box_index b p < 8)%Z /\
     nth_error boxes (Z.to_nat (sub_box_index b p)) = Some s /\ inside s p) /\
  (~ inside b p -> sub_box_index b p = (-1)%Z).
Proof. exact sub_index_spec. Qed.
Print Assumptions C16_index.

Theorem C16_root_is_cube : forall c s, is_cube (cube_of_center (A := QA) c s).
Proof. exact is_cube_center. Qed.
Print Assumptions C16_root_is_cube.

(** C17. *)
Theorem C17_octree_partition : forall cfg o points,
  (0 <= cf_max_depth cfg)%Z -> (0 <= cf_max_points cfg < 2 ^ 31)%Z ->
  exists t md,
    (forall fuel, (cf_max_depth cfg < Z.of_nat fuel)%Z ->
       init_with_cloud fuel cfg o points = Some (Ok (mkOctree (Some t) md))) /\
    (Forall (inside (cube_of_center (cf_center cfg) (cf_max_size cfg))) points ->
       Permutation (all_points t) points /\
       Forall (fun l => Forall (inside (leaf_box l)) (leaf_points l)) (leaves t)) /\
    Forall (fun l => 0 <= leaf_depth l <= cf_max_depth cfg /\
              (cf_max_points cfg < Z.of_nat (length (leaf_points l)) ->
                 leaf_depth l = cf_max_depth cfg))%Z (leaves t).
Proof. exact octree_partition. Qed.
Print Assumptions C17_octree_partition.

(** The printed listing consists of exactly the leaves' points with their depths. *)
Theorem C17_output : forall t : qtree, exists bound, forall fuel, (bound < fuel)%nat ->
  exists l, output_queue fuel [t] = Some l /\
  Permutation l (flat_map (fun lf => map (fun p => (p, leaf_depth lf)) (leaf_points lf))
                          (leaves t)).
Proof. exact output_points. Qed.
Print Assumptions C17_output.

(** C66.  Points outside the root cube are silently dropped, but only if there are more
    points than fit into one leaf; GetMaxDepth is the greatest leaf depth, taken over this
    tree and whatever was reported before. *)
Theorem C66_outside_points : forall cfg o points fuel o',
  (0 < cf_max_depth cfg)%Z -> (0 <= cf_max_points cfg < 2 ^ 31)%Z ->
  (cf_max_depth cfg < Z.of_nat fuel)%Z ->
  init_with_cloud fuel cfg o points = Some (Ok o') ->
  exists t, root o' = Some t /\
  ((Z.of_nat (length points) <= cf_max_points cfg)%Z -> Permutation (all_points t) points) /\
  ((cf_max_points cfg < Z.of_nat (length points))%Z -> exists dropped,
     Permutation points (all_points t ++ dropped) /\
     Forall (inside (cube_of_center (cf_center cfg) (cf_max_size cfg))) (all_points t) /\
     Forall (fun p => ~ inside (cube_of_center (cf_center cfg) (cf_max_size cfg)) p) dropped) /\
  max_depth_seen o' =
    fold_left (fun m l => Z.max m (leaf_depth l)) (leaves t) (max_depth_seen o).
Proof. exact octree_outside. Qed.
Print Assumptions C66_outside_points.

(** Re-initialising the same object with fewer points leaves the old maximum in place. *)
Theorem C66_max_depth_current_refuted : exists (cfg : config QA) points1 points2 o1 o2 t,
  init_with_cloud 20 cfg octree_new points1 = Some (Ok o1) /\
  init_with_cloud 20 cfg o1 points2 = Some (Ok o2) /\
  root o2 = Some t /\ Forall (fun l => leaf_depth l = 0%Z) (leaves t) /\
  max_depth_seen o2 = 2%Z.
Proof.
  pose (cfg := mkConfig (A := QA) (@V QA 0 0 0) 8 2 4).
  pose (p1 := repeat (@V QA 1 1 1) 5). pose (p2 := [@V QA 1 1 1]).
  assert (match init_with_cloud 20 cfg octree_new p1 with
          | Some (Ok o1) =>
              match init_with_cloud 20 cfg o1 p2 with
              | Some (Ok o2) =>
                  match root o2 with
                  | Some t => forallb (fun l => leaf_depth l =? 0)%Z (leaves t)
                                && (max_depth_seen o2 =? 2)%Z
                  | None => false
                  end
              | _ => false
              end
          | _ => false
          end = true) as H by (vm_compute; reflexivity).
  exists cfg, p1, p2.
  destruct (init_with_cloud 20 cfg octree_new p1) as [[o1| | |]|]; try discriminate.
  exists o1. destruct (init_with_cloud 20 cfg o1 p2) as [[o2| | |]|] eqn:E2; try discriminate.
  exists o2. destruct (root o2) as [t|] eqn:Er; [|discriminate]. exists t.
  apply andb_true_iff in H. destruct H as [H1 H2].
  rewrite forallb_forall in H1. apply Z.eqb_eq in H2.
  split; [reflexivity|]. split; [reflexivity || exact E2|]. split; [reflexivity || exact Er|]. split; [|exact H2].
  apply Forall_forall. intros l Hl. apply Z.eqb_eq. apply H1. assumption.
Qed.
Print Assumptions C66_max_depth_current_refuted.

(** C67.  With a negative depth limit the construction does not terminate as soon as more
    than the allowed number of points coincide: no recursion depth suffices. *)
Theorem C67_negative_depth_limit_diverges : forall cfg o p n,
  (cf_max_depth cfg < 0)%Z -> (0 <= cf_max_points cfg < 2 ^ 31)%Z ->
  (cf_max_points cfg < Z.of_nat n)%Z ->
  inside (cube_of_center (cf_center cfg) (cf_max_size cfg)) p ->
  forall fuel, init_with_cloud fuel cfg o (repeat p n) = None.
Proof. intros; apply octree_never; assumption. Qed.
Print Assumptions C67_negative_depth_limit_diverges.

(** A negative point limit is converted to a huge unsigned number: the tree is one leaf
    holding everything (for fewer than 2^63 points). *)
Theorem C67_negative_point_limit_single_leaf : forall A (cfg : config A) o points fuel,
  (- 2 ^ 31 <= cf_max_points cfg < 0)%Z -> (Z.of_nat (length points) < 2 ^ 63)%Z ->
  init_with_cloud (S fuel) cfg o points =
    Some (Ok (mkOctree (Some (Leaf 0 (cube_of_center (cf_center cfg) (cf_max_size cfg)) points))
                       (Z.max (max_depth_seen o) 0))).
Proof.
  intros A cfg o points fuel H1 H2. unfold init_with_cloud. cbn [build_tree].
  replace (few_points cfg points) with true; [rewrite orb_true_r; reflexivity|].
  symmetry. unfold few_points. apply Z.leb_le.
  replace (cf_max_points cfg mod 2 ^ 64)%Z with (cf_max_points cfg + 2 ^ 64)%Z; [lia|].
  rewrite <- (Z.mod_small (cf_max_points cfg + 2 ^ 64) (2 ^ 64)) by lia.
  replace (cf_max_points cfg + 2 ^ 64)%Z with (cf_max_points cfg + 1 * 2 ^ 64)%Z by lia.
  apply Z_mod_plus_full.
Qed.
Print Assumptions C67_negative_point_limit_single_leaf.

(** C68.  In double arithmetic splitting a cube can kill the process: for a cube of the
    default size 100 centred at (1000.1, 0, 0) the equality check on the edge lengths of
    the sub-boxes fails, so every cloud of five or more points aborts. *)
Definition far_config : config FA :=
  mkConfig (@V FA (S754_finite false 8796972631510221 (-43)) (S754_zero false)
                  (S754_zero false)) (f64 100 0) 15 4.
Theorem C68_rounding_never_aborts_refuted : forall points o fuel, (4 < length points)%nat ->
  init_with_cloud (S fuel) far_config o points = Some Abort.
Proof.
  intros points o fuel H. unfold init_with_cloud. cbn [build_tree].
  replace (few_points far_config points) with false.
  2:{ symmetry. unfold few_points. change (cf_max_points far_config mod 2 ^ 64)%Z with 4%Z. lia. }
  replace (0 =? cf_max_depth far_config)%Z with false by reflexivity. cbn [orb].
  replace (generate_sub_boxes (cube_of_center (cf_center far_config) (cf_max_size far_config)))
    with (@Abort (list (cube FA))) by (vm_compute; reflexivity).
  reflexivity.
Qed.
Print Assumptions C68_rounding_never_aborts_refuted.
(** The centre is the double nearest to 1000.1, and an ordinary configuration works. *)
Example far_center : SFdiv 53 1024 (f64 10001 0) (f64 10 0) =
  vx (cf_center far_config).
Proof. vm_compute. reflexivity. Qed.
Example near_config_ok :
  match init_with_cloud 20 (mkConfig (@V FA (f64 0 0) (f64 0 0) (f64 0 0)) (f64 100 0) 15 4)
    octree_new (repeat (@V FA (f64 7 0) (f64 (-3) 0) (f64 1 0)) 5) with
  | Some (Ok o) => max_depth_seen o
  | _ => (-1)%Z
  end = 15%Z.
Proof. vm_compute. reflexivity. Qed.

(** Six points, limit one per leaf: the hypotheses of C16 and C17 hold. *)
Example octree_ex :
  let cfg := mkConfig (A := QA) (@V QA 0 0 0) 8 3 1 in
  let pts := [@V QA 0 0 0; @V QA 4 4 4; @V QA (-1) 2 3; @V QA (-4) (-4) (-4);
              @V QA (1#3) 1 (-1); @V QA (1#3) 1 (-1)] in
  match init_with_cloud 4 cfg octree_new pts with
  | Some (Ok o) => option_map (fun t => length (all_points t)) (root o)
  | _ => None
  end = Some 6%nat /\
  (0 <= cf_max_depth cfg)%Z /\ (0 <= cf_max_points cfg < 2 ^ 31)%Z /\
  Forall (inside (cube_of_center (cf_center cfg) (cf_max_size cfg))) pts.
Proof.
  cbv zeta. split; [vm_compute; reflexivity|].
  cbn. split; [lia|]. split; [lia|].
  repeat constructor; cbn; discriminate.
Qed.
Example diverge_ex : inside (cube_of_center (A := QA) (@V QA 0 0 0) 100) (@V QA 1 2 3) /\
  (4 < Z.of_nat 5)%Z.
Proof. split; [repeat split; cbn; discriminate|lia]. Qed.
