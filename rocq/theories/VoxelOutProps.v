(** Properties C140 and C141: the export of the voxel map, and the largest intensity of a voxel
    when several threads insert points. *)
From Coq Require Import List Bool ZArith QArith Qround Lia Lqa.
From Verif Require Import Outcome RayModel MrvmModel MrvmSpec MrvmProofs VoxelOutModel VoxelOutProofs.
Import ListNotations.
Local Open Scope Z_scope.

(** The voxel of a position with side [res]. *)
Definition cell_at (res x y z : Q) : voxel := Vox (Qfloor (x / res)) (Qfloor (y / res)) (Qfloor (z / res)).

(** The colour grows with the intensity, is 255 from 183 on, and is 7/5 of the intensity, cut,
    except for seven intensities where rounding makes it one less. *)
Theorem C140_colour : forall n, 0 <= n < 2 ^ 31 -> exists g, rgb_of n = Ok g /\ 0 <= g <= 255 /\
  (183 <= n -> g = 255) /\
  (n < 183 -> ~ In n [45; 85; 90; 165; 170; 175; 180] -> g = 7 * n / 5) /\
  (In n [45; 85; 90; 165; 170; 175; 180] -> g = 7 * n / 5 - 1).
Proof.
  intros n Hn. destruct (Z.lt_ge_cases n 183) as [L|G].
  - eexists. split; [apply rgb_small; lia|].
    assert (Sh : is_short n = true <-> In n short) by (unfold is_short; rewrite existsb_exists; split; [intros (x & Hx & E); apply Z.eqb_eq in E; subst; exact Hx|intros Hx; exists n; split; [exact Hx|apply Z.eqb_refl]]).
    assert (B : 0 <= 7 * n / 5 <= 255) by (split; [apply Z.div_pos; lia|apply Z.lt_succ_r, Z.div_lt_upper_bound; lia]).
    assert (B1 : is_short n = true -> 1 <= 7 * n / 5).
    { intros E. apply Sh in E. assert (45 <= n) by (cbn in E; lia). apply Z.div_le_lower_bound; lia. }
    fold short. destruct (is_short n) eqn:E.
    + specialize (B1 eq_refl). assert (In n short) by (apply Sh; reflexivity). repeat split; try lia. intros _ N. contradiction.
    + repeat split; try lia. intros K. apply Sh in K. discriminate.
  - exists 255. split; [apply rgb_large; lia|]. repeat split; try lia. intros K. exfalso. cbn in K. lia.
Qed.
Print Assumptions C140_colour.
Theorem C140_colour_order : forall n n' g g', 0 <= n <= n' -> n' < 2 ^ 31 -> rgb_of n = Ok g -> rgb_of n' = Ok g' -> g <= g'.
Proof.
  intros n n' g g' Hn Hn' G G'.
  destruct (C140_colour n ltac:(lia)) as (a & A & A1 & A2 & A3 & A4). destruct (C140_colour n' ltac:(lia)) as (b & B & B1 & B2 & B3 & B4).
  assert (a = g) by congruence. assert (b = g') by congruence. subst a b.
  destruct (Z.lt_ge_cases n' 183) as [L|L]; [|specialize (B2 L); lia].
  destruct (Z.eq_dec n n') as [->|N]; [assert (g = g') by congruence; lia|].
  assert (D : 7 * n / 5 + 1 <= 7 * n' / 5) by (replace (7 * n / 5 + 1) with ((7 * n + 1 * 5) / 5) by (apply Z.div_add; lia); apply Z.div_le_mono; lia).
  destruct (in_dec Z.eq_dec n [45; 85; 90; 165; 170; 175; 180]) as [I|I]; destruct (in_dec Z.eq_dec n' [45; 85; 90; 165; 170; 175; 180]) as [I'|I'].
  - specialize (A4 I). specialize (B4 I'). lia.
  - specialize (A4 I). specialize (B3 ltac:(lia) I'). lia.
  - specialize (A3 ltac:(lia) I). specialize (B4 I'). lia.
  - specialize (A3 ltac:(lia) I). specialize (B3 ltac:(lia) I'). lia.
Qed.
Print Assumptions C140_colour_order.
(** So the colour is not 1.4 times the intensity where that is a whole number. *)
Theorem C140_colour_refuted : 7 * 45 = 63 * 5 /\ rgb_of 45 = Ok 62.
Proof. split; [reflexivity|]. vm_compute. reflexivity. Qed.
Print Assumptions C140_colour_refuted.
Example C140_ex_colour : rgb_of 0 = Ok 0 /\ rgb_of 5 = Ok 7 /\ rgb_of 100 = Ok 140 /\ rgb_of 182 = Ok 254 /\ rgb_of 183 = Ok 255 /\ rgb_of 2147483647 = Ok 255.
Proof. repeat split; vm_compute; reflexivity. Qed.

Section Export.
Variable P : Type.
Variables qx qy qz qi : P -> Q.
Variable vox : P -> voxel.
Variable inten : P -> Z.
Variable fine : P -> bool.
Variable raw : Z -> bool -> Q.
Variable maxn : Z.
Notation insert_cloud := (insert_cloud P vox inten fine raw maxn).
Notation export_i a um := (export (add_i P qx qy qz qi a um)).
Notation export_c a := (export (add_c P qx qy qz a)).
(** The voxels whose level reaches the threshold. *)
Definition chosen (t : Q) (m : vmap P) : vmap P := filter (fun kc => Qfloor (t * 256) <=? cprob (snd kc)) m.

Lemma map_facts : forall scans m, 0 < maxn -> run insert_cloud [] scans = Ok m ->
  NoDup (map fst m) /\
  forall k c, In (k, c) m -> points c <> [] /\ (forall p, In p (points c) -> vox p = k) /\ 0 <= max_intensity c /\
    (max_intensity c = 0 \/ exists p, max_intensity c = inten p).
Proof.
  intros scans m Hm H.
  assert (NoDup (map fst m)) as Hk by (eapply (cloud_keys P vox inten fine raw maxn scans []); [apply NoDup_nil|exact H]). split; [exact Hk|].
  pose proof (content_run P vox inten fine raw maxn scans [] [] m (content_nil P vox inten maxn) H) as C.
  intros k c K. apply lookup_in in K; [|exact Hk]. specialize (C k). rewrite K in C. destruct C as (C1 & C2 & C3 & _).
  assert (Sub : forall p, In p (points c) -> vox p = k).
  { intros p Hp. rewrite C2 in Hp. assert (In p (ends vox k ([] ++ concat (map snd scans)))) as Q.
    { rewrite <- (firstn_skipn (Z.to_nat maxn)). apply in_app_iff. left. exact Hp. }
    unfold ends in Q. apply filter_In in Q. destruct Q as [_ Q]. destruct (vdec (vox p) k); [assumption|discriminate]. }
  split; [|split; [exact Sub|]].
  - intros E. rewrite C2 in E. destruct (ends vox k _) as [|p r]; [apply C1; reflexivity|]. destruct (Z.to_nat maxn) eqn:Em; [lia|]. cbn in E. discriminate.
  - rewrite C3. clear - inten. induction (ends vox k ([] ++ concat (map snd scans))) as [|p r [IH1 IH2]]; cbn [map fold_right]; [split; [lia|left; reflexivity]|].
    split; [lia|]. destruct (Z.max_spec (inten p) (fold_right Z.max 0 (map inten r))) as [[_ ->]|[_ ->]]; [exact IH2|right; exists p; reflexivity].
Qed.

Lemma export_run_i : forall scans m t a um o, 0 < maxn -> run insert_cloud [] scans = Ok m -> (0 <= t < 1)%Q ->
  export_i a um t m (Some o) = Ok (fold_left (fun o c =>
    if a then push_back o (mkI (mean qx (points c)) (mean qy (points c)) (mean qz (points c)) (if um then inject_Z (max_intensity c) else 0%Q))
    else fold_left (fun o p => points_push_back o (mkI (qx p) (qy p) (qz p) (if um then inject_Z (max_intensity c) else qi p))) (points c) o)
    (map snd (chosen t m)) cleared).
Proof.
  intros scans m t a um o Hm H Ht. destruct (map_facts scans m Hm H) as [_ Fm]. unfold export. rewrite threshold_ok by exact Ht. cbn [bind].
  apply voxels_fold; [|intros k c K; apply (Fm k c K)]. intros o' c _. unfold add_i. destruct a; reflexivity.
Qed.
Definition grey_of (n : Z) : Z := match rgb_of n with Ok g => g | _ => 0 end.
Lemma export_run_c : forall scans m t a o, 0 < maxn -> (forall p, inten p < 2 ^ 31) -> run insert_cloud [] scans = Ok m -> (0 <= t < 1)%Q ->
  export_c a t m (Some o) = Ok (fold_left (fun o c =>
    if a then push_back o (mkC (mean qx (points c)) (mean qy (points c)) (mean qz (points c)) (grey_of (max_intensity c)))
    else fold_left (fun o p => points_push_back o (mkC (qx p) (qy p) (qz p) (grey_of (max_intensity c)))) (points c) o)
    (map snd (chosen t m)) cleared).
Proof.
  intros scans m t a o Hm Hi H Ht. destruct (map_facts scans m Hm H) as [_ Fm]. unfold export. rewrite threshold_ok by exact Ht. cbn [bind].
  apply voxels_fold; [|intros k c K; apply (Fm k c K)]. intros o' c [k K]. destruct (Fm k c K) as (_ & _ & I0 & I1). unfold add_c, grey_of.
  assert (max_intensity c < 2 ^ 31) by (destruct I1 as [->|[p ->]]; [reflexivity|apply Hi]).
  destruct (C140_colour (max_intensity c) ltac:(lia)) as (g & -> & _). cbn [bind]. destruct a; reflexivity.
Qed.

(** With averages there is exactly one point per voxel that reaches the threshold: the mean of the
    points of the voxel, with the largest intensity, or 0 if that is not asked for. *)
Theorem C140_average : forall scans m t um o, 0 < maxn -> run insert_cloud [] scans = Ok m -> (0 <= t < 1)%Q ->
  exists out, export_i true um t m (Some o) = Ok out /\
  Forall2 (fun kc q => let l := points (snd kc) in let n := inject_Z (Z.of_nat (length l)) in
     (0 < n)%Q /\ (ix q * n == sum qx l)%Q /\ (iy q * n == sum qy l)%Q /\ (iz q * n == sum qz l)%Q /\
     intensity q = if um then inject_Z (max_intensity (snd kc)) else 0%Q)
    (chosen t m) (pts out).
Proof.
  intros scans m t um o Hm H Ht. eexists. split; [apply (export_run_i scans); assumption|]. cbv iota. rewrite push_fold. cbn [pts cleared app].
  destruct (map_facts scans m Hm H) as [_ Fm].
  assert (Sub : forall k c, In (k, c) (chosen t m) -> points c <> []) by (intros k c K; apply filter_In in K; apply (Fm k c (proj1 K))).
  induction (chosen t m) as [|[k c] r IH]; cbn [map]; constructor.
  - cbn [snd ix iy iz intensity]. specialize (Sub k c ltac:(left; reflexivity)). rewrite !mean_sum by exact Sub. repeat split; try reflexivity.
    change 0%Q with (inject_Z 0). rewrite <- Zlt_Qlt. destruct (points c); [congruence|cbn [length]; lia].
  - apply IH. intros k' c' K. apply (Sub k'). right. exact K.
Qed.

(** If the voxels are the cells of a grid, every mean lies in its voxel; so no two exported points
    share a voxel. *)
Theorem C140_in_voxel : forall res scans m t um o out, (0 < res)%Q -> (forall p, vox p = cell_at res (qx p) (qy p) (qz p)) ->
  0 < maxn -> run insert_cloud [] scans = Ok m -> (0 <= t < 1)%Q -> export_i true um t m (Some o) = Ok out ->
  map (fun q => cell_at res (ix q) (iy q) (iz q)) (pts out) = map fst (chosen t m) /\
  NoDup (map (fun q => cell_at res (ix q) (iy q) (iz q)) (pts out)).
Proof.
  intros res scans m t um o out Hr Hv Hm H Ht Ho. rewrite (export_run_i scans) in Ho by assumption. cbv iota in Ho. rewrite push_fold in Ho.
  cbn [pts cleared app] in Ho. injection Ho as <-. cbn [pts].
  destruct (map_facts scans m Hm H) as [Hk Fm].
  assert (Nd : NoDup (map fst (chosen t m))).
  { clear - Hk. unfold chosen. induction m as [|[k c] m IH]; [constructor|]. cbn [map filter snd fst] in *. inversion Hk; subst.
    destruct (Qfloor (t * 256) <=? cprob c); [|apply IH; assumption]. cbn [map fst]. constructor; [|apply IH; assumption].
    intros K. apply H1. apply in_map_iff in K. destruct K as (x & E & K). apply filter_In in K. apply in_map_iff. exists x. tauto. }
  assert (Eq : map (fun q => cell_at res (ix q) (iy q) (iz q))
     (map (fun c => mkI (mean qx (points c)) (mean qy (points c)) (mean qz (points c)) (if um then inject_Z (max_intensity c) else 0%Q)) (map snd (chosen t m))) = map fst (chosen t m)).
  { assert (Sub : forall k c, In (k, c) (chosen t m) -> points c <> [] /\ (forall p, In p (points c) -> vox p = k)) by (intros k c K; apply filter_In in K; destruct (Fm k c (proj1 K)); tauto).
    rewrite !map_map. apply map_ext_in. intros [k c] K. cbn [snd fst ix iy iz]. destruct (Sub k c K) as [N Vx].
    assert (One : forall (f : P -> Q) z, (forall p, In p (points c) -> Qfloor (f p / res) = z) -> Qfloor (mean f (points c) / res) = z).
    { intros f z Hz. assert (B : (inject_Z z * res <= mean f (points c) /\ mean f (points c) < inject_Z (z + 1) * res)%Q).
      { apply mean_bounds; [|exact N]. apply Forall_forall. intros p Hp. pose proof (Hz p Hp) as E.
        pose proof (Qfloor_le (f p / res)) as F1. pose proof (Qlt_floor (f p / res)) as F2. rewrite E in F1, F2.
        assert (Ep : (f p == f p / res * res)%Q) by (field; intros Z0; lra). split.
        - rewrite Ep. apply Qmult_le_compat_r; [exact F1|lra].
        - rewrite Ep at 1. apply Qmult_lt_r; assumption. }
      destruct B as [B1 B2]. set (mu := mean f (points c)) in *.
      assert (Em : (mu == mu / res * res)%Q) by (field; intros Z0; lra).
      rewrite Em in B1, B2. apply Qmult_le_r in B1; [|exact Hr]. apply Qmult_lt_r in B2; [|exact Hr].
      pose proof (floor_ge _ _ B1). pose proof (floor_lt _ _ B2). lia. }
    assert (Vp : forall p, In p (points c) -> cell_at res (qx p) (qy p) (qz p) = k) by (intros p Hp; rewrite <- Hv; apply Vx; exact Hp).
    destruct k as [a b d]. unfold cell_at in *. f_equal; apply One; intros p Hp; specialize (Vp p Hp); congruence. }
  rewrite Eq. split; [reflexivity|exact Nd].
Qed.

(** Without averages every point of such a voxel is exported, with its own intensity or the
    largest of the voxel. *)
Theorem C140_points : forall scans m t um o, 0 < maxn -> run insert_cloud [] scans = Ok m -> (0 <= t < 1)%Q ->
  exists out, export_i false um t m (Some o) = Ok out /\
  pts out = flat_map (fun kc => map (fun p => mkI (qx p) (qy p) (qz p) (if um then inject_Z (max_intensity (snd kc)) else qi p)) (points (snd kc))) (chosen t m).
Proof.
  intros scans m t um o Hm H Ht. eexists. split; [apply (export_run_i scans); assumption|]. cbv iota.
  rewrite (plain_fold P pointI (fun c p => mkI (qx p) (qy p) (qz p) (if um then inject_Z (max_intensity c) else qi p))). cbn [pts cleared app].
  induction (chosen t m) as [|kc r IH]; [reflexivity|]. cbn [map flat_map]. rewrite IH. reflexivity.
Qed.

(** The shape of the cloud: with averages it is one row of all the points ... *)
Theorem C140_shape : forall scans m t um o out, 0 < maxn -> run insert_cloud [] scans = Ok m -> (0 <= t < 1)%Q ->
  export_i true um t m (Some o) = Ok out -> width out * height out = Z.of_nat (length (pts out)) /\ (pts out <> [] -> height out = 1).
Proof.
  intros scans m t um o out Hm H Ht Ho. rewrite (export_run_i scans) in Ho by assumption. cbv iota in Ho. rewrite push_fold in Ho. injection Ho as <-.
  cbn [pts width height cleared app length]. rewrite !map_length. destruct (chosen t m); cbn [map length]; split; try lia. congruence.
Qed.
(** ... without averages it claims to be empty, whatever it holds. *)
Theorem C140_shape_refuted : forall scans m t um o out, 0 < maxn -> run insert_cloud [] scans = Ok m -> (0 <= t < 1)%Q ->
  export_i false um t m (Some o) = Ok out -> width out = 0 /\ height out = 0 /\ (pts out = [] <-> chosen t m = []).
Proof.
  intros scans m t um o out Hm H Ht Ho. rewrite (export_run_i scans) in Ho by assumption. cbv iota in Ho.
  rewrite (plain_fold P pointI (fun c p => mkI (qx p) (qy p) (qz p) (if um then inject_Z (max_intensity c) else qi p))) in Ho. injection Ho as <-.
  cbn [pts width height cleared app]. split; [reflexivity|]. split; [reflexivity|].
  destruct (map_facts scans m Hm H) as [_ Fm].
  assert (Sub : forall k c, In (k, c) (chosen t m) -> points c <> []) by (intros k c K; apply filter_In in K; apply (Fm k c (proj1 K))).
  destruct (chosen t m) as [|[k c] r]; [split; reflexivity|]. specialize (Sub k c ltac:(left; reflexivity)). cbn [map flat_map snd].
  destruct (points c); [congruence|]. split; discriminate.
Qed.

(** The coloured export has the same positions and the same shape, and the colour of the largest
    intensity of the voxel. *)
Theorem C140_coloured : forall scans m t a um o o', 0 < maxn -> (forall p, inten p < 2 ^ 31) -> run insert_cloud [] scans = Ok m -> (0 <= t < 1)%Q ->
  exists out out', export_i a um t m (Some o) = Ok out /\ export_c a t m (Some o') = Ok out' /\
  map (fun q => (rx q, ry q, rz q)) (pts out') = map (fun q => (ix q, iy q, iz q)) (pts out) /\
  width out' = width out /\ height out' = height out /\
  (um = true -> Forall2 (fun q q' => exists n, intensity q = inject_Z n /\ rgb_of n = Ok (grey q')) (pts out) (pts out')).
Proof.
  intros scans m t a um o o' Hm Hi H Ht. destruct (map_facts scans m Hm H) as [_ Fm].
  assert (Gr : forall kc, In kc (chosen t m) -> rgb_of (max_intensity (snd kc)) = Ok (grey_of (max_intensity (snd kc)))).
  { intros [k c] K. apply filter_In in K. destruct (Fm k c (proj1 K)) as (_ & _ & I0 & I1). cbn [snd].
    assert (max_intensity c < 2 ^ 31) by (destruct I1 as [->|[p ->]]; [reflexivity|apply Hi]).
    unfold grey_of. destruct (C140_colour (max_intensity c) ltac:(lia)) as (g & -> & _). reflexivity. }
  eexists. eexists. split; [apply (export_run_i scans); assumption|]. split; [apply (export_run_c scans); assumption|].
  destruct a; cbv iota.
  - rewrite !push_fold. cbn [pts width height cleared app length]. split; [rewrite !map_map; reflexivity|]. split; [reflexivity|]. split; [reflexivity|].
    intros ->. induction (chosen t m) as [|kc r IH]; cbn [map]; constructor; [|apply IH; intros x Hx; apply Gr; right; exact Hx].
    eexists. split; [reflexivity|]. apply Gr. left. reflexivity.
  - rewrite (plain_fold P pointI (fun c p => mkI (qx p) (qy p) (qz p) (if um then inject_Z (max_intensity c) else qi p))).
    rewrite (plain_fold P pointC (fun c p => mkC (qx p) (qy p) (qz p) (grey_of (max_intensity c)))).
    cbn [pts width height cleared app]. split; [|split; [reflexivity|split; [reflexivity|]]].
    + induction (chosen t m) as [|kc r IH]; [reflexivity|]. cbn [map flat_map]. rewrite !map_app, IH by (intros x Hx; apply Gr; right; exact Hx). rewrite !map_map. reflexivity.
    + intros ->. induction (chosen t m) as [|kc r IH]; [constructor|]. cbn [map flat_map]. apply Forall2_app; [|apply IH; intros x Hx; apply Gr; right; exact Hx].
      specialize (Gr kc ltac:(left; reflexivity)). induction (points (snd kc)) as [|p l IHl]; cbn [map]; constructor; [|exact IHl].
      eexists. split; [reflexivity|]. exact Gr.
Qed.

(** A file is written exactly if some voxel reaches the threshold, in the asked format. *)
Theorem C140_file : forall scans m t rgb a um compress, 0 < maxn -> (forall p, inten p < 2 ^ 31) -> run insert_cloud [] scans = Ok m -> (0 <= t < 1)%Q ->
  exists f, to_file P qx qy qz qi rgb a um compress t m = Ok f /\
  match f with
  | None => chosen t m = []
  | Some (FileI z c) => chosen t m <> [] /\ rgb = false /\ z = compress /\ export_i a um t m (Some cleared) = Ok c
  | Some (FileC z c) => chosen t m <> [] /\ rgb = true /\ z = compress /\ export_c a t m (Some cleared) = Ok c
  end.
Proof.
  intros scans m t rgb a um compress Hm Hi H Ht. destruct (map_facts scans m Hm H) as [_ Fm].
  assert (Sub : forall k c, In (k, c) (chosen t m) -> points c <> []) by (intros k c K; apply filter_In in K; apply (Fm k c (proj1 K))).
  destruct (C140_coloured scans m t a um cleared cleared Hm Hi H Ht) as (c & c' & E & E' & Mp & _).
  assert (Nil : pts c = [] <-> chosen t m = []).
  { destruct a.
    - rewrite (export_run_i scans) in E by assumption. cbv iota in E. rewrite push_fold in E. injection E as <-. cbn [pts cleared app].
      destruct (chosen t m); [split; reflexivity|split; discriminate].
    - apply (C140_shape_refuted scans m t um cleared c Hm H Ht E). }
  assert (Nil' : pts c' = [] <-> chosen t m = []).
  { rewrite <- Nil. destruct (pts c), (pts c'); try discriminate; split; (reflexivity || discriminate). }
  unfold to_file. destruct rgb.
  - rewrite E'. cbn [bind]. eexists. split; [reflexivity|]. unfold save. destruct (pts c') eqn:X; [apply Nil'; reflexivity|].
    split; [intros K; apply Nil' in K; discriminate|auto].
  - rewrite E. cbn [bind]. eexists. split; [reflexivity|]. unfold save. destruct (pts c) eqn:X; [apply Nil; reflexivity|].
    split; [intros K; apply Nil in K; discriminate|auto].
Qed.
(** The calls that are undefined: a null pointer, and a threshold of 1 or more. *)
Theorem C140_undefined : forall a um t m, export_i a um t m None = UB /\ export_c a t m None = UB /\
  forall o o' rgb z, (1 <= t)%Q -> export_i a um t m (Some o) = UB /\ export_c a t m (Some o') = UB /\ to_file P qx qy qz qi rgb a um z t m = UB.
Proof.
  intros a um t m. split; [reflexivity|]. split; [reflexivity|]. intros o o' rgb z Ht.
  assert (U : to_u8 (t * 256)%Q = UB).
  { unfold to_u8. rewrite qtrunc_pos by lra. assert (256 <= Qfloor (t * 256)) by (apply floor_ge; unfold inject_Z; lra).
    destruct (Z.ltb_spec (Qfloor (t * 256)) 256); [lia|]. rewrite andb_false_r. reflexivity. }
  unfold to_file, export. rewrite U. destruct rgb; repeat split; reflexivity.
Qed.
End Export.
Print Assumptions C140_average.
Print Assumptions C140_in_voxel.
Print Assumptions C140_points.
Print Assumptions C140_shape.
Print Assumptions C140_shape_refuted.
Print Assumptions C140_coloured.
Print Assumptions C140_file.
Print Assumptions C140_undefined.

(** Two points in one voxel and one in another, intensities 40 and 45, 10; every voxel reaches the
    threshold 0.5. *)
Record spot := mkSpot { sx : Q; sy : Q; sz : Q; si : Q }.
Definition s_vox (p : spot) : voxel := cell_at 1 (sx p) (sy p) (sz p).
Definition s_int (p : spot) : Z := Qfloor (si p).
Definition s_raw (_ : Z) (b : bool) : Q := if b then 6 # 10 else 4 # 10.
Definition s_scans : list (voxel * list spot) :=
  [(Vox 0 0 0, [mkSpot (1 # 4) (1 # 2) 0 (401 # 10); mkSpot (3 # 4) 0 (1 # 2) (459 # 10); mkSpot (-5 # 2) 0 0 10])].
Definition s_map := run (insert_cloud spot s_vox s_int (fun _ => true) s_raw 2) [] s_scans.
Definition s_plain (a um : bool) := bind s_map (fun m => export (add_i spot sx sy sz si a um) (1 # 2) m (Some cleared)).
Definition s_grey (a : bool) := bind s_map (fun m => export (add_c spot sx sy sz a) (1 # 2) m (Some cleared)).
Definition reduced (c : cloud pointI) := (map (fun q => (Qred (ix q), Qred (iy q), Qred (iz q), Qred (intensity q))) (pts c), width c, height c).
Example C140_ex_export :
  bind (s_plain true true) (fun c => Ok (reduced c)) = Ok ([(1 # 2, 1 # 4, 1 # 4, 45); (-5 # 2, 0, 0, 10)]%Q, 2, 1) /\
  bind (s_plain true false) (fun c => Ok (map (fun q => Qred (intensity q)) (pts c))) = Ok [0; 0]%Q /\
  bind (s_plain false true) (fun c => Ok (reduced c)) = Ok ([(1 # 4, 1 # 2, 0, 45); (3 # 4, 0, 1 # 2, 45); (-5 # 2, 0, 0, 10)]%Q, 0, 0) /\
  bind (s_grey true) (fun c => Ok (map grey (pts c))) = Ok [62; 14].
Proof. repeat split; vm_compute; reflexivity. Qed.

(** ** C141 *)
(** As long as one thread has points in the voxel, the stored intensity is the largest. *)
Theorem C141_alone : forall a b l v0 v ws, Forall (fun x => x = []) (a ++ b) ->
  wsteps (v0, starting (a ++ l :: b)) (v, ws) -> finished ws -> v = fold_right Z.max v0 l.
Proof. exact race_single. Qed.
Print Assumptions C141_alone.
(** With several threads it is the intensity of some point, or the one before, and not less
    than the one before; it is never more than the largest ... *)
Theorem C141_some : forall works v0 v ws, wsteps (v0, starting works) (v, ws) ->
  v0 <= v <= fold_right Z.max v0 (concat works) /\ (v = v0 \/ In v (concat works)).
Proof.
  intros works v0 v ws H. destruct (race_values works v0 v ws H) as [A B]. split; [|exact B]. split; [exact A|].
  assert (G : forall l, v0 <= fold_right Z.max v0 l /\ forall x, In x l -> x <= fold_right Z.max v0 l).
  { induction l as [|y l [I1 I2]]; cbn [fold_right]; [split; [lia|intros x []]|]. split; [lia|]. intros x [->|K]; [lia|]. specialize (I2 x K). lia. }
  destruct (G (concat works)) as [G1 G2]. destruct B as [->|B]; [exact G1|apply G2; exact B].
Qed.
Print Assumptions C141_some.
(** ... and at least the last intensity of some thread. *)
Theorem C141_last : forall works v0 v ws, works <> [] -> ~ In [] works ->
  wsteps (v0, starting works) (v, ws) -> finished ws -> exists init x, In (init ++ [x]) works /\ x <= v.
Proof.
  intros works v0 v ws Hn He H F. destruct (race_last works v0 v ws Hn He H F) as (l & d & Hl & Hv & Nl).
  exists (removelast l), (last l d). rewrite <- app_removelast_last by exact Nl. auto.
Qed.
Print Assumptions C141_last.
(** No more is guaranteed: with the point of intensity 100 in both threads the voxel can end
    with 2. *)
Theorem C141_largest_refuted : exists ws, wsteps (0, starting [[100; 2]; [1; 100]]) (2, ws) /\ finished ws.
Proof.
  exists [mkW [] None; mkW [] None]. split; [|repeat constructor]. unfold starting. cbn [map].
  eapply (WCons _ _ _ _ [_] []); [apply WLess; lia|]. cbn [app].
  eapply (WCons _ _ _ _ [] [_]); [apply WLess; lia|]. cbn [app].
  eapply (WCons _ _ _ _ [] [_]); [apply WStore|]. cbn [app].
  eapply (WCons _ _ _ _ [_] []); [apply WStore|]. cbn [app].
  eapply (WCons _ _ _ _ [] [_]); [apply WLess; lia|]. cbn [app].
  eapply (WCons _ _ _ _ [_] []); [apply WLess; lia|]. cbn [app].
  eapply (WCons _ _ _ _ [_] []); [apply WStore|]. cbn [app].
  eapply (WCons _ _ _ _ [] [_]); [apply WStore|]. cbn [app]. apply WNil.
Qed.
Print Assumptions C141_largest_refuted.
(** The threads never block each other. *)
Theorem C141_ends : forall works v0 v ws, wsteps (v0, starting works) (v, ws) -> exists v' ws', wsteps (v, ws) (v', ws') /\ finished ws'.
Proof. intros. apply race_ends. Qed.
Print Assumptions C141_ends.
Example C141_ex_alone : exists ws, wsteps (0, starting [[]; [3; 9; 4]]) (9, ws) /\ finished ws.
Proof.
  exists [mkW [] None; mkW [] None]. split; [|repeat constructor]. unfold starting. cbn [map].
  eapply (WCons _ _ _ _ [_] []); [apply WLess; lia|]. eapply (WCons _ _ _ _ [_] []); [apply WStore|]. cbn [app].
  eapply (WCons _ _ _ _ [_] []); [apply WLess; lia|]. eapply (WCons _ _ _ _ [_] []); [apply WStore|]. cbn [app].
  eapply (WCons _ _ _ _ [_] []); [apply WKeep; lia|]. cbn [app]. apply WNil.
Qed.
