(** C134: the planes found in a cloud and the sampler that keeps them. *)
From Coq Require Import ZArith QArith Qround Qabs Lqa List Bool Lia Sorting.Sorted Permutation.
From Verif Require Import Outcome PlaneModel PlaneSpec PlaneProofs.
Import ListNotations.

Section Props.
  Variable P : Type.
  Variable height : P -> Q.
  Variable cell : Q -> P -> outcome idx3.
  Variable segment : list P -> list nat.
  Variable dense : nat -> nat -> bool.
  Variable below : Q -> nat -> nat -> bool.
  Notation detect := (detect P height segment dense).
  Notation plane d l thr := (plane P height cell segment dense (d_leaf d) (d_min d) l thr).
  Definition usable (leaf : Q) (l : list P) : Prop :=
    l <> [] /\ (forall p, In p l -> exists k, cell leaf p = Ok k) /\ (forall p, In p l -> (- (1000000000 # 1) <= height p <= (1000000000 # 1))%Q).

  (** A detector given its first cloud finds exactly the points of the planes, each once. *)
  Theorem C134_planes : forall d l thr, d_voxels d = [] -> usable (d_leaf d) l -> sound_segments P segment -> (thr < d_leaf d)%Q ->
    exists d' g, set_input P cell d (Some l) = Ok d' /\ detect d' [] thr = Ok g /\ NoDup g /\ forall i, In i g <-> plane d l thr i.
  Proof.
    intros d l thr V (N & C & B) S T.
    assert (Es : set_input P cell d (Some l) = (let* m := put_all P cell (d_leaf d) 0 l (d_voxels d) in Ok (mkDet (Some l) m (d_min d) (d_leaf d)))%outcome) by (destruct l; [congruence|reflexivity]).
    rewrite Es, V. destruct (put_all_holds P cell (d_leaf d) l l [] []) as (m & E & H); auto; [apply holds_nil|].
    cbn [length] in E. rewrite E. cbn [bind].
    destruct (detect_spec P height cell segment dense (d_leaf d) (d_min d) l thr B S m H) as (g & Eg & Ng & Ig).
    exists (mkDet (Some l) m (d_min d) (d_leaf d)), g. split; [reflexivity|]. split; [|split; assumption].
    unfold PlaneModel.detect. cbn [d_input d_voxels d_leaf d_min]. destruct m as [|v m].
    - cbn in Eg. exact Eg.
    - destruct (Qle_bool (d_leaf d) thr) eqn:Q0; [apply Qle_bool_iff in Q0; lra|exact Eg].
  Qed.

  (** The first Filter of a sampler into another cloud.  It is undefined unless the last point is in a plane.  Otherwise
      points of the input are kept in their order, all points of planes among them; and of the first n points the share of the
      others that is kept is the rate, rounded up.  The comparison of float quotients is between those with rates [lo] and [hi]. *)
  Theorem C134_sampler : forall s l lo hi, d_voxels (s_det s) = [] -> usable (d_leaf (s_det s)) l -> sound_segments P segment ->
    (s_thr s < d_leaf (s_det s))%Q -> s_input s = Some l -> (s_rate s <= (999999 # 1000000))%Q ->
    (0 <= lo)%Q -> (lo <= hi)%Q -> (hi <= 1)%Q ->
    (forall t n, (0 < n)%nat -> (inject_Z (Z.of_nat t) < lo * inject_Z (Z.of_nat n))%Q -> below (s_rate s) t n = true) ->
    (forall t n, (0 < n)%nat -> below (s_rate s) t n = true -> (inject_Z (Z.of_nat t) < hi * inject_Z (Z.of_nat n))%Q) ->
    let run := filter_cloud P height cell segment dense below s false in
    (~ plane (s_det s) l (s_thr s) (length l - 1) -> run = UB) /\
    (plane (s_det s) l (s_thr s) (length l - 1) ->
      exists s' out kept g, run = Ok (s', Some out) /\ (forall i, In i g <-> plane (s_det s) l (s_thr s) i) /\
        StronglySorted lt kept /\ map Some out = map (nth_error l) kept /\ incl g kept /\
        forall n, (n <= length l)%nat ->
          (at_rate lo (others g 0 n) <= Z.of_nat (taken g kept 0 n) <= at_rate hi (others g 0 n))%Z).
  Proof.
    intros s l lo hi V U Sd T I R L1 L2 L3 Lw Hg run. pose proof U as (N & _ & _).
    destruct (C134_planes (s_det s) l (s_thr s) V U Sd T) as (d' & g & E1 & E2 & Ng & Ig).
    assert (Sg : StronglySorted lt (sort g)) by (apply sort_sorted; assumption).
    assert (In_s : forall i, In i (sort g) <-> plane (s_det s) l (s_thr s) i).
    { intros i. rewrite <- Ig. split; apply Permutation_in; [apply sort_perm|apply Permutation_sym, sort_perm]. }
    assert (Rg : forall f, In f (sort g) -> (0 <= f < 0 + length l)%nat).
    { intros f Hf. apply In_s in Hf. apply plane_lt in Hf. lia. }
    assert (Er : run = (let* out := sample P below (s_rate s) 0 l (sort g) 0 0 in Ok (mkSampler (s_rate s) (s_thr s) d' (Some l), Some out))%outcome).
    { unfold run, filter_cloud. rewrite I. destruct l as [|p l0]; [congruence|]. rewrite (proj2 (Qle_bool_iff _ _) R). rewrite E1. cbn [bind]. rewrite E2. reflexivity. }
    rewrite Er. clear Er. split.
    - intros Np. rewrite sample_ub; auto. intros H. apply Np, In_s. exact H.
    - intros Pl. destruct (sample_kept P below (s_rate s) lo hi L1 L2 L3 Lw Hg l 0 (sort g) 0 0) as (out & kept & Eo & Sk & _ & Mk & Ik & Bk); auto.
      + right. apply In_s. exact Pl.
      + unfold balanced, at_rate. cbn [Z.of_nat]. change (inject_Z 0) with 0%Q. rewrite !Qmult_0_r. cbn. lia.
      + rewrite Eo. cbn [bind]. exists (mkSampler (s_rate s) (s_thr s) d' (Some l)), out, kept, (sort g). split; [reflexivity|]. split; [exact In_s|]. split; [assumption|].
        split; [rewrite Mk; apply map_ext; intros j; rewrite Nat.sub_0_r; reflexivity|]. split; assumption.
  Qed.

  (** The rate is kept between a millionth and one; with a rate of one the output is a copy. *)
  Theorem C134_rate : forall s r s0, s0 = set_rate P s r ->
    ((1 # 1000000) <= s_rate s0 <= 1)%Q /\ ((1 # 1000000) <= r <= 1 -> s_rate s0 = r)%Q /\
    forall l, l <> [] -> s_input s0 = Some l -> (1 <= r)%Q -> forall same, filter_cloud P height cell segment dense below s0 same = Ok (s0, Some l).
  Proof.
    intros s r s0 ->. unfold set_rate. destruct (Qle_bool r 1) eqn:A.
    - apply Qle_bool_iff in A. destruct (Qle_bool (1 # 1000000) r) eqn:B; cbn [s_rate].
      + apply Qle_bool_iff in B. split; [lra|]. split; [reflexivity|]. intros l N I R same. unfold filter_cloud. rewrite I. destruct l; [congruence|]. cbn [s_rate].
        destruct (Qle_bool r (999999 # 1000000)) eqn:C; [apply Qle_bool_iff in C; lra|reflexivity].
      + assert (r < 1 # 1000000)%Q by (apply Qnot_le_lt; intros H; apply Qle_bool_iff in H; congruence). split; [split; vm_compute; discriminate|]. split; [lra|]. intros; lra.
    - assert (1 < r)%Q by (apply Qnot_le_lt; intros H; apply Qle_bool_iff in H; congruence). cbn [s_rate]. split; [lra|]. split; [lra|].
      intros l N I R same. unfold filter_cloud. rewrite I. destruct l; [congruence|]. reflexivity.
  Qed.

  (** Filtering a cloud in place empties it, whatever it holds, if the rate is below one. *)
  Theorem C134_in_place_refuted : forall s l, l <> [] -> s_input s = Some l -> (s_rate s <= (999999 # 1000000))%Q ->
    exists s', filter_cloud P height cell segment dense below s true = Ok (s', Some []) /\ s_input s' = Some [].
  Proof.
    intros s l N I R. unfold filter_cloud. rewrite I. destruct l as [|p l]; [congruence|]. rewrite (proj2 (Qle_bool_iff _ _) R).
    cbn [set_input bind]. unfold PlaneModel.detect. cbn [d_input bind]. change (sort []) with (@nil nat). cbn [sample bind]. eexists. split; reflexivity.
  Qed.
End Props.
Print Assumptions C134_planes.
Print Assumptions C134_sampler.
Print Assumptions C134_rate.
Print Assumptions C134_in_place_refuted.

(** Voxels by exact quotients cut to int. *)
Definition cut (q : Q) : outcome Z :=
  let z := Z.quot (Qnum q) (Zpos (Qden q)) in if (-2147483648 <=? z)%Z && (z <=? 2147483647)%Z then Ok z else UB.
Definition point := (Q * Q * Q)%type.
Definition zof (p : point) : Q := snd p.
Definition cut_cell (leaf : Q) (p : point) : outcome idx3 :=
  (let* a := cut (fst (fst p) / leaf) in let* b := cut (snd (fst p) / leaf) in let* c := cut (snd p / leaf) in Ok (a, b, c))%outcome.

Lemma cut_bounds : forall q z, cut q = Ok z -> (inject_Z z - 1 < q < inject_Z z + 1)%Q /\ ((0 < z)%Z -> inject_Z z <= q)%Q /\ ((z < 0)%Z -> q <= inject_Z z)%Q.
Proof.
  intros [n d] z. unfold cut. cbn [Qnum Qden]. destruct (_ && _)%bool; [|discriminate]. intros H. injection H as <-.
  pose proof (Z.quot_rem' n (Zpos d)) as E. set (k := Z.quot n (Zpos d)) in *.
  destruct (Z_le_gt_dec 0 n) as [Hn|Hn].
  - pose proof (Z.rem_bound_pos n (Zpos d) Hn ltac:(lia)) as B. set (r := Z.rem n (Zpos d)) in *. clearbody k r.
    unfold Qlt, Qle, inject_Z, Qminus, Qplus, Qopp. cbn [Qnum Qden]. rewrite !Pos2Z.inj_mul. nia.
  - assert (B : (- Zpos d < Z.rem n (Zpos d) <= 0)%Z).
    { pose proof (Z.rem_bound_pos (- n) (Zpos d) ltac:(lia) ltac:(lia)) as B. rewrite Z.rem_opp_l in B by lia. lia. } set (r := Z.rem n (Zpos d)) in *. clearbody k r.
    unfold Qlt, Qle, inject_Z, Qminus, Qplus, Qopp. cbn [Qnum Qden]. rewrite !Pos2Z.inj_mul. nia.
Qed.
Lemma div_lt : forall x y leaf c, (0 < leaf)%Q -> (x / leaf - y / leaf < c)%Q -> (x - y < c * leaf)%Q.
Proof.
  intros x y leaf c L H. setoid_replace (x - y)%Q with ((x / leaf - y / leaf) * leaf)%Q by (field; lra). apply Qmult_lt_r; assumption.
Qed.

(** Points of one voxel differ in height by less than two leaves, and by less than one if the voxel is not at height zero. *)
Theorem C134_voxel_height : forall leaf p q k, (0 < leaf)%Q -> cut_cell leaf p = Ok k -> cut_cell leaf q = Ok k ->
  (zof p - zof q < 2 * leaf)%Q /\ (zi k <> 0%Z -> zof p - zof q < leaf)%Q.
Proof.
  intros leaf [[px py] pz] [[qx qy] qz] k L Hp Hq. unfold cut_cell in *. cbn [fst snd zof] in *.
  destruct (cut (px / leaf)) as [a| | |]; try discriminate. destruct (cut (py / leaf)) as [b| | |]; try discriminate.
  destruct (cut (pz / leaf)) as [c| | |] eqn:Ep; try discriminate.
  destruct (cut (qx / leaf)) as [a'| | |]; try discriminate. destruct (cut (qy / leaf)) as [b'| | |]; try discriminate.
  destruct (cut (qz / leaf)) as [c'| | |] eqn:Eq; try discriminate. cbn [bind] in *. injection Hp as <-. injection Hq as <- <- <-. unfold zi. cbn [snd].
  destruct (cut_bounds _ _ Ep) as (P1 & P2 & P3), (cut_bounds _ _ Eq) as (Q1 & Q2 & Q3). split.
  - apply div_lt; [assumption|]. lra.
  - intros N. setoid_replace leaf with (1 * leaf)%Q at 1 by ring. apply div_lt; [assumption|].
    destruct (Z_lt_le_dec 0 c') as [G|G]; [specialize (Q2 G); lra|]. specialize (P3 ltac:(lia)). lra.
Qed.
Print Assumptions C134_voxel_height.
(** The size of a voxel is not the leaf size: for any leaf size two points, one above and one below the sensor, share a voxel though their heights differ by almost
    two leaves. *)
Theorem C134_voxel_size_refuted : forall leaf, (0 < leaf)%Q -> exists p q k,
  cut_cell leaf p = Ok k /\ cut_cell leaf q = Ok k /\ (zof p - zof q == (198 # 100) * leaf)%Q.
Proof.
  intros leaf L. exists (0, 0, (99 # 100) * leaf)%Q, (0, 0, - (99 # 100) * leaf)%Q, (0, 0, 0)%Z.
  assert (C : forall q, (-1 < q < 1)%Q -> cut q = Ok 0%Z).
  { intros [n d] [A B]. unfold cut. cbn [Qnum Qden]. unfold Qlt in A, B. cbn [Qnum Qden] in A, B.
    replace (Z.quot n (Zpos d)) with 0%Z; [reflexivity|]. symmetry. apply Z.quot_small_iff; lia. }
  assert (Z0 : (0 / leaf == 0)%Q) by (field; lra).
  unfold cut_cell. cbn [fst snd zof]. rewrite !(C (0 / leaf)%Q) by (rewrite Z0; lra). cbn [bind].
  rewrite (C ((99 # 100) * leaf / leaf)%Q) by (setoid_replace ((99 # 100) * leaf / leaf)%Q with (99 # 100)%Q by (field; lra); lra).
  rewrite (C (- (99 # 100) * leaf / leaf)%Q) by (setoid_replace (- (99 # 100) * leaf / leaf)%Q with (- (99 # 100))%Q by (field; lra); lra).
  split; [reflexivity|]. split; [reflexivity|]. ring.
Qed.
Print Assumptions C134_voxel_size_refuted.

(** A cloud: points of a wall, of the road and some others; segmentation that takes all points; exact comparisons. *)
Definition all_points (ps : list point) : list nat := seq 0 (length ps).
Definition most (a b : nat) : bool := (85 * b <? 100 * a)%nat.
Definition share (r : Q) (t n : nat) : bool := negb (Qle_bool (r * inject_Z (Z.of_nat n)) (inject_Z (Z.of_nat t))).
Definition road (i : nat) : point := ((1 # 10) + (Z.of_nat i # 100), (1 # 10), - (17 # 10) + (Z.of_nat i # 1000))%Q.
Definition bush (i : nat) : point := ((30 # 10) + (Z.of_nat i # 100), (1 # 10), - (15 # 10) + (Z.of_nat i # 40))%Q.
Definition scene : list point := map bush (seq 0 7) ++ map road (seq 0 6) ++ map bush (seq 7 5) ++ map road (seq 6 6).
Definition half : sampler point := set_source point (set_rate point (new_sampler point) (1 # 2)) (Some scene).
Definition go (s : sampler point) (same : bool) := filter_cloud point zof cut_cell all_points most share s same.

Lemma all_sound : sound_segments point all_points.
Proof. intros ps. split; [apply seq_NoDup|]. intros n H. apply in_seq in H. lia. Qed.
Lemma scene_usable : usable point zof cut_cell (8 # 10) scene.
Proof.
  split; [discriminate|]. assert (H : forallb (fun p => match cut_cell (8 # 10) p with Ok _ => true | _ => false end && Qle_bool (- (1000000000 # 1)) (zof p) && Qle_bool (zof p) (1000000000 # 1)) scene = true) by (vm_compute; reflexivity).
  rewrite forallb_forall in H. split; intros p Hp; specialize (H p Hp); apply andb_true_iff in H; destruct H as [H H3]; apply andb_true_iff in H; destruct H as [H1 H2].
  - destruct (cut_cell (8 # 10) p) as [k| | |]; try discriminate. exists k. reflexivity.
  - rewrite Qle_bool_iff in H2, H3. auto.
Qed.
Lemma share_exact : forall r t n, share r t n = true <-> (inject_Z (Z.of_nat t) < r * inject_Z (Z.of_nat n))%Q.
Proof.
  intros. unfold share. rewrite negb_true_iff. split.
  - intros H. apply Qnot_le_lt. intros H'. apply Qle_bool_iff in H'. congruence.
  - intros H. apply not_true_is_false. rewrite Qle_bool_iff. lra.
Qed.
Example C134_ex_planes : d_voxels (s_det half) = [] /\ (s_thr half < d_leaf (s_det half))%Q /\ usable point zof cut_cell (d_leaf (s_det half)) scene /\
  (let* d := set_input point cut_cell (s_det half) (Some scene) in detect point zof all_points most d [] (2 # 10))%outcome = Ok [7; 8; 9; 10; 11; 12; 18; 19; 20; 21; 22; 23]%nat.
Proof. split; [reflexivity|]. split; [reflexivity|]. split; [apply scene_usable|]. vm_compute. reflexivity. Qed.
(** Every other point of the bush and all of the road. *)
Example C134_ex_sampler : exists s', go half false = Ok (s', Some (map bush [0; 2; 4; 6]%nat ++ map road (seq 0 6) ++ map bush [8; 10]%nat ++ map road (seq 6 6))) /\
  plane point zof cut_cell all_points most (8 # 10) 10 scene (2 # 10) (length scene - 1).
Proof.
  split with (mkSampler (1 # 2) (2 # 10) (mkDet (Some scene) (match set_input point cut_cell (s_det half) (Some scene) with Ok d => d_voxels d | _ => [] end) 10 (8 # 10)) (Some scene)).
  split; [vm_compute; reflexivity|].
  destruct (C134_planes point zof cut_cell all_points most (s_det half) scene (2 # 10) eq_refl scene_usable all_sound eq_refl) as (d' & g & E1 & E2 & _ & I).
  apply I. assert (E : Ok g = Ok [7; 8; 9; 10; 11; 12; 18; 19; 20; 21; 22; 23]%nat).
  { rewrite <- E2. transitivity ((let* d := set_input point cut_cell (s_det half) (Some scene) in detect point zof all_points most d [] (2 # 10))%outcome); [rewrite E1; reflexivity|vm_compute; reflexivity]. }
  injection E as ->. vm_compute. tauto.
Qed.
(** With the bush at the end the program reads the front of an empty vector. *)
Example C134_ex_undefined : go (set_source point half (Some (scene ++ [bush 0]))) false = UB.
Proof. vm_compute. reflexivity. Qed.
(** A wall in front of the sensor. *)
Definition wall (i : nat) : point := (5, (Z.of_nat i # 100), 1 + (Z.of_nat i # 50))%Q.
Example C134_ex_wall :
  (let* d := set_input point cut_cell (s_det half) (Some (map wall (seq 0 20))) in detect point zof all_points most d [] (2 # 10))%outcome = Ok (seq 0 20) /\
  (let* d := set_input point cut_cell (s_det half) (Some (map wall (seq 0 19))) in detect point zof all_points most d [] (2 # 10))%outcome = Ok [].
Proof. split; vm_compute; reflexivity. Qed.

(** A second cloud is joined with the voxels of the first: a shorter one makes the detector read outside of the cloud; the same one
    again has the planes twice in the list of indices, after which no plane point but the first is found and the others are thinned. *)
Definition after (o : outcome (sampler point * option (list point))) : sampler point := match o with Ok (s, _) => s | _ => half end.
Definition written (o : outcome (sampler point * option (list point))) : list point := match o with Ok (_, Some l) => l | _ => [] end.
Definition filtered (o : outcome (sampler point * option (list point))) : bool := match o with Ok (_, Some _) => true | _ => false end.
Lemma filtered_eq : forall o, filtered o = true -> o = Ok (after o, Some (written o)).
Proof. intros [[s [l|]]| | |] H; try discriminate. reflexivity. Qed.
Definition differs (p q : point) : bool := negb (Qeq_bool (zof p) (zof q)).
Lemma differs_all : forall p l, forallb (differs p) l = true -> ~ In p l.
Proof. intros p l H I. rewrite forallb_forall in H. specialize (H _ I). unfold differs in H. rewrite negb_true_iff in H. rewrite (proj2 (Qeq_bool_iff (zof p) (zof p)) (Qeq_refl _)) in H. discriminate. Qed.
Theorem C134_second_refuted :
  (exists s1 out, go half false = Ok (s1, Some out) /\ go (set_source point s1 (Some (map road (seq 0 12)))) false = UB /\
    exists s3 out3, go (set_source point half (Some (map road (seq 0 12)))) false = Ok (s3, Some out3)) /\
  (exists s1 out s2 out2, go half false = Ok (s1, Some out) /\ go s1 false = Ok (s2, Some out2) /\ (length out2 < length out)%nat /\ In (road 5) out /\ ~ In (road 5) out2).
Proof.
  split.
  - exists (after (go half false)), (written (go half false)). split; [apply filtered_eq; vm_compute; reflexivity|]. split; [vm_compute; reflexivity|].
    eexists. eexists. apply filtered_eq. vm_compute. reflexivity.
  - exists (after (go half false)), (written (go half false)), (after (go (after (go half false)) false)), (written (go (after (go half false)) false)).
    split; [apply filtered_eq; vm_compute; reflexivity|]. split; [apply filtered_eq; vm_compute; reflexivity|]. split; [apply Nat.ltb_lt; vm_compute; reflexivity|].
    split; [apply nth_error_In with 9%nat; vm_compute; reflexivity|].
    apply differs_all. vm_compute. reflexivity.
Qed.
Print Assumptions C134_second_refuted.
