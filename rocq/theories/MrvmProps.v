(** Properties C33-C35, C73, C74: the multi-resolution voxel map. *)
From Coq Require Import List Bool ZArith QArith Qround Qabs Lia Lqa Permutation.
From Verif Require Import Outcome RayModel MrvmModel MrvmSpec MrvmProofs.
Import ListNotations.
Local Open Scope Z_scope.

(** Whatever the float computation returns, every history of hits (true) and misses (false)
    on a new voxel is free of overflow and keeps the level between 25 and 230. *)
Theorem C33_in_range : forall raw evs,
  exists n, run (update_prob raw) kUnknown evs = Ok n /\ 25 <= n <= 230.
Proof. intros. apply run_update. unfold kUnknown. lia. Qed.
Print Assumptions C33_in_range.

(** With an accurate computation and any settings accepted by Initialise: a further hit never
    lowers the level, a further miss lowers it, unless it is at its minimum 25. *)
Theorem C33_monotone : forall s0 s raw evs n, initialise s0 = Ok s ->
  accurate (hit_prob s) (miss_prob s) raw ->
  run (update_prob raw) kUnknown evs = Ok n ->
  exists up down, update_prob raw n true = Ok up /\ update_prob raw n false = Ok down /\
    n <= up /\ (down < n \/ (n = 25 /\ down = 25)).
Proof.
  intros s0 s raw evs n Hi Ha H. unfold initialise in Hi.
  destruct (check (0 <? max_points s0)); try discriminate. cbn [bind] in Hi.
  assert (s = mkSet (clampQ (hit_prob s0) kMinHitProb kMaxProb)
            (clampQ (miss_prob s0) kMinProb kMaxMissProb) (max_points s0)) as -> by congruence.
  cbn [hit_prob miss_prob] in Ha.
  assert (25 <= n <= 230) as Hn.
  { destruct (C33_in_range raw evs) as (n' & R & B). congruence. }
  destruct (update_value raw n true) as [U1 _]. destruct (update_value raw n false) as [U2 _].
  eexists; eexists. split; [exact U1|]. split; [exact U2|]. split.
  - eapply hit_up; [exact Ha| |exact Hn|exact U1]. apply clamp_bounds. discriminate.
  - eapply miss_down; [exact Ha| |exact Hn|exact U2]. apply clamp_bounds. discriminate.
Qed.
Print Assumptions C33_monotone.

(** With a configured hit probability of at most .501 hits have no effect at all: any number
    of hits leaves every level where it was, while misses keep lowering it. *)
Theorem C73_small_hit_prob_useless : forall s0 s raw evs n k, initialise s0 = Ok s ->
  (hit_prob s0 <= kMinHitProb)%Q -> accurate (hit_prob s) (miss_prob s) raw ->
  run (update_prob raw) kUnknown evs = Ok n ->
  run (update_prob raw) n (repeat true k) = Ok n.
Proof.
  intros s0 s raw evs n k Hi Hh Ha H. unfold initialise in Hi.
  destruct (check (0 <? max_points s0)); try discriminate. cbn [bind] in Hi.
  assert (s = mkSet (clampQ (hit_prob s0) kMinHitProb kMaxProb)
            (clampQ (miss_prob s0) kMinProb kMaxMissProb) (max_points s0)) as -> by congruence.
  cbn [hit_prob miss_prob] in Ha.
  assert (25 <= n <= 230) as Hn.
  { destruct (C33_in_range raw evs) as (n' & R & B). congruence. }
  assert (accurate kMinHitProb (clampQ (miss_prob s0) kMinProb kMaxMissProb) raw) as Ha'.
  { intros i b Hi'. specialize (Ha i b Hi'). destruct b; [|exact Ha].
    destruct (clamp_cases (hit_prob s0) kMinHitProb kMaxProb) as [[C1 C2]|[[C1 C2]|[C1 C2]]]; rewrite C2 in Ha.
    - exfalso. unfold kMinHitProb, kMaxProb in *. lra.
    - exact Ha.
    - assert (hit_prob s0 == kMinHitProb)%Q as Hq by (apply Qle_antisym; tauto).
      unfold bayes in *. rewrite Hq in Ha. exact Ha. }
  clear H evs. induction k as [|k IH]; [reflexivity|]. cbn [repeat run].
  rewrite (min_hit_same _ _ _ Ha' Hn). exact IH.
Qed.
Print Assumptions C73_small_hit_prob_useless.

Section Map.
Variable P : Type.
Variable vox : P -> voxel.
Variable inten : P -> Z.
Variable fine : P -> bool.
Variable raw : Z -> bool -> Q.
Variable maxn : Z.
Notation insert_cloud := (insert_cloud P vox inten fine raw maxn).

(** After any number of scans a voxel exists exactly if a point ended in it; it holds the
    first max_point_num_in_cell such points in order, and the largest of their intensities
    (at least 0). *)
Theorem C34_content : forall scans m k, run insert_cloud [] scans = Ok m ->
  let mine := filter (fun p => if vdec (vox p) k then true else false) (concat (map snd scans)) in
  match lookup k m with
  | None => mine = []
  | Some c => mine <> [] /\ points c = firstn (Z.to_nat maxn) mine /\
      max_intensity c = fold_right Z.max 0 (map inten mine)
  end.
Proof.
  intros scans m k H mine.
  pose proof (content_run P vox inten fine raw maxn scans [] [] m (content_nil P vox inten maxn) H k) as C.
  cbn [app] in C. unfold ends in C. fold mine in C. destruct (lookup k m); tauto.
Qed.
Theorem C34_point_counts : forall scans m k c, 0 < maxn -> run insert_cloud [] scans = Ok m ->
  lookup k m = Some c -> 1 <= Z.of_nat (length (points c)) <= maxn.
Proof.
  intros scans m k c Hm H Hc. pose proof (C34_content scans m k H) as C. cbv zeta in C. rewrite Hc in C.
  destruct C as (C1 & C2 & _). rewrite C2, firstn_length.
  destruct (filter _ _) as [|p l]; [congruence|]. cbn [length]. lia.
Qed.
(** Exporting with a threshold in [0,1) never aborts and writes, for each voxel whose level
    reaches the threshold, exactly its points; a threshold of 231/256 or more writes nothing;
    with a threshold of 1 or more the conversion to uint8_t is undefined. *)
Theorem C34_export : forall scans m um t, 0 < maxn -> run insert_cloud [] scans = Ok m ->
  (0 <= t < 1)%Q ->
  NoDup (map fst m) /\
  exists l, output P inten um t m = Ok l /\
   (forall p i, In (p, i) l <-> exists k c, lookup k m = Some c /\ Qfloor (t * 256) <= cprob c /\
      In p (points c) /\ i = if um then max_intensity c else inten p) /\
   length l = fold_right Nat.add 0%nat (map (fun kc => length (points (snd kc)))
                (filter (fun kc => Qfloor (t * 256) <=? cprob (snd kc)) m)) /\
   ((231 # 256 <= t)%Q -> l = []).
Proof.
  intros scans m um t Hm H Ht.
  assert (NoDup (map fst m)) as Hk by (eapply (cloud_keys P vox inten fine raw maxn scans []); [apply NoDup_nil|exact H]). split; [exact Hk|].
  pose proof (content_run P vox inten fine raw maxn scans [] [] m (content_nil P vox inten maxn) H) as C.
  unfold output, to_u8. rewrite qtrunc_pos by lra.
  assert (0 <= Qfloor (t * 256) < 256) as Hf.
  { split; [apply floor_ge|apply floor_lt]; unfold inject_Z; lra. }
  destruct (Z.leb_spec 0 (Qfloor (t * 256))); [|lia].
  destruct (Z.ltb_spec (Qfloor (t * 256)) 256); [|lia]. cbn [andb bind].
  set (n := Qfloor (t * 256)) in *.
  rewrite output_loop_ok.
  - eexists. split; [reflexivity|]. split; [|split].
    + intros p i. rewrite in_flat_map. split.
      * intros ([k c] & J1 & J2). apply filter_In in J1. destruct J1 as [J1 J3]. cbn [snd] in *.
        apply in_map_iff in J2. destruct J2 as (q & E & Hq). injection E as -> <-.
        exists k, c. split; [apply lookup_in; assumption|]. split; [apply Z.leb_le; exact J3|]. auto.
      * intros (k & c & J1 & J2 & J3 & ->). apply lookup_in in J1; [|exact Hk].
        exists (k, c). split; [apply filter_In; split; [exact J1|apply Z.leb_le; exact J2]|].
        apply in_map_iff. exists p. auto.
    + clear. induction (filter (fun kc => n <=? cprob (snd kc)) m) as [|kc r IH]; [reflexivity|].
      cbn [flat_map map fold_right]. rewrite app_length, IH. f_equal. apply map_length.
    + intros Hb. assert (231 <= n) by (apply floor_ge; unfold inject_Z; lra).
      assert (filter (fun kc => n <=? cprob (snd kc)) m = []) as ->; [|reflexivity].
      assert (forall kc, In kc m -> (n <=? cprob (snd kc)) = false) as F.
      { intros [k c] K. apply lookup_in in K; [|exact Hk]. specialize (C k). rewrite K in C. cbn [snd].
        apply Z.leb_gt. lia. }
      clear - F. induction m as [|x m IH]; [reflexivity|]. cbn. rewrite F by (left; reflexivity).
      apply IH. intros y Hy. apply F. right. exact Hy.
  - intros k c K. apply lookup_in in K; [|exact Hk]. specialize (C k). rewrite K in C.
    destruct C as (C1 & C2 & _). intros E. rewrite C2 in E.
    destruct (ends vox k _) as [|p r]; [apply C1; reflexivity|].
    destruct (Z.to_nat maxn) eqn:Em; [lia|]. cbn in E. discriminate.
Qed.
Theorem C34_export_threshold_one : forall um t (m : vmap P), (1 <= t)%Q -> output P inten um t m = UB.
Proof.
  intros um t m Ht. unfold output, to_u8. rewrite qtrunc_pos by lra.
  assert (256 <= Qfloor (t * 256)) by (apply floor_ge; unfold inject_Z; lra).
  destruct (Z.ltb_spec (Qfloor (t * 256)) 256); [lia|]. rewrite andb_false_r. reflexivity.
Qed.

(** What one scan does to the level of one voxel that exists before the scan: first one miss
    for every time a ray passes through it among the points before the first point that ends
    in it, then one hit for every point that ends in it.  A voxel created by the scan gets
    its hits only. *)
Theorem C35_scan_effect : forall scans o pts m m' k, run insert_cloud [] scans = Ok m ->
  insert_cloud m (o, pts) = Ok m' ->
  match lookup k m, lookup k m' with
  | Some c, Some c' => run (update_prob raw) (cprob c)
      (repeat false (all_passes vox o k (before vox k pts)) ++ repeat true (length (ends vox k pts)))
      = Ok (cprob c')
  | None, Some c' => ends vox k pts <> [] /\
      run (update_prob raw) kUnknown (repeat true (length (ends vox k pts))) = Ok (cprob c')
  | None, None => ends vox k pts = []
  | Some _, None => False
  end.
Proof.
  intros scans o pts m m' k H H'.
  pose proof (content_run P vox inten fine raw maxn scans [] [] m (content_nil P vox inten maxn) H) as C.
  assert (all_true P m) as Ht.
  { intros q c E. specialize (C q). rewrite E in C. tauto. }
  destruct (scan_effect _ _ _ _ _ _ _ _ _ _ H' Ht) as [S _]. specialize (S k). unfold scan_spec in S.
  destruct (lookup k m) as [c|].
  - destruct S as (pr & R & ->). exact R.
  - destruct (ends vox k pts); [rewrite S; reflexivity|]. destruct S as (pr & R & ->). split; [discriminate|exact R].
Qed.
End Map.
Print Assumptions C34_content.
Print Assumptions C34_point_counts.
Print Assumptions C34_export.
Print Assumptions C34_export_threshold_one.
Print Assumptions C35_scan_effect.

(** A concrete map: a point is its voxel, with the default settings and exact arithmetic. *)
Definition exact_raw (hit miss : Q) (n : Z) (b : bool) : Q := bayes (n # 256) (if b then hit else miss).
Definition ex_raw := exact_raw (55 # 100) (48 # 100).
Example ex_raw_accurate : accurate (55 # 100) (48 # 100) ex_raw.
Proof.
  intros n b _. unfold ex_raw, exact_raw. apply Qabs_Qle_condition. split; lra.
Qed.
Example initialise_ex : initialise (mkSet (55 # 100) (48 # 100) 10) = Ok (mkSet (55 # 100) (48 # 100) 10).
Proof. reflexivity. Qed.
Definition ex_ins := insert_cloud voxel (fun p => p) (fun _ => 7) (fun _ => true) ex_raw 2.
Definition levels (m : outcome (vmap voxel)) : outcome (list (voxel * Z)) :=
  bind m (fun m => Ok (map (fun kc => (fst kc, cprob (snd kc))) m)).
Definition ex_o := Vox 0 0 0.
(** Three hits in the voxel (2,0,0); then a scan whose ray passes through it. *)
Example mrvm_ex :
  levels (run ex_ins [] [(ex_o, [Vox 2 0 0; Vox 2 0 0; Vox 2 0 0]); (ex_o, [Vox 4 0 0])]) =
    Ok [(Vox 2 0 0, 159); (Vox 4 0 0, 140)] /\
  match run ex_ins [] [(ex_o, [Vox 2 0 0; Vox 2 0 0; Vox 2 0 0])] with
  | Ok m => output voxel (fun _ => 7) true (6 # 10) m = Ok [(Vox 2 0 0, 7); (Vox 2 0 0, 7)]
  | _ => False
  end.
Proof. split; vm_compute; reflexivity. Qed.

(** The same scan with its points in another order gives another map. *)
Theorem C35_order_independent_refuted : exists scans o pts pts' m m1 m2 k c1 c2,
  run ex_ins [] scans = Ok m /\ Permutation.Permutation pts pts' /\
  ex_ins m (o, pts) = Ok m1 /\ ex_ins m (o, pts') = Ok m2 /\
  lookup k m1 = Some c1 /\ lookup k m2 = Some c2 /\ cprob c1 < cprob c2.
Proof.
  exists [(ex_o, [Vox 2 0 0])], ex_o, [Vox 4 0 0; Vox 2 0 0], [Vox 2 0 0; Vox 4 0 0].
  do 3 eexists. exists (Vox 2 0 0). do 2 eexists.
  split; [vm_compute; reflexivity|]. split; [apply Permutation.perm_swap|].
  split; [vm_compute; reflexivity|]. split; [vm_compute; reflexivity|].
  split; [vm_compute; reflexivity|]. split; [vm_compute; reflexivity|]. vm_compute. reflexivity.
Qed.
Print Assumptions C35_order_independent_refuted.

(** The parallel loop: with T threads a voxel gets at most max + T - 1 points, whatever the
    interleaving... *)
Theorem C74_parallel_bound : forall raw maxn p0 works s ts, 0 < maxn ->
  psteps raw maxn (mkShared p0 0, map (fun n => mkThread n Idle) works) (s, ts) ->
  works <> [] -> sh_size s <= maxn + Z.of_nat (length works) - 1.
Proof.
  intros raw maxn p0 works s ts Hm H Hw. apply par_inv in H.
  - cbn [fst snd] in H. rewrite map_length in H. pose proof (pend_bound ts). lia.
  - cbn [fst snd sh_size]. assert (pend (map (fun n => mkThread n Idle) works) = 0) as ->.
    { clear. induction works as [|n w IH]; [reflexivity|]. unfold pend in *. cbn [map fold_right]. rewrite IH. reflexivity. }
    rewrite map_length. destruct works; [congruence|]. cbn [length]. lia.
Qed.
Print Assumptions C74_parallel_bound.
(** ... and this bound is reached: the limit is exceeded; and two hits can count as one. *)
Theorem C74_parallel_cap_refuted : exists works s ts,
  psteps ex_raw 1 (mkShared kUnknown 0, map (fun n => mkThread n Idle) works) (s, ts) /\
  Forall (fun t => left_ t = O /\ ph t = Idle) ts /\
  sh_size s > 1 /\
  run (update_prob ex_raw) kUnknown [true] = Ok (sh_prob s) /\
  run (update_prob ex_raw) kUnknown [true; true] <> Ok (sh_prob s).
Proof.
  exists [1%nat; 1%nat], (mkShared 140 2), [mkThread 0 Idle; mkThread 0 Idle].
  assert (update_prob ex_raw kUnknown true = Ok 140) as U by (vm_compute; reflexivity).
  split; [|split; [repeat constructor|split; [reflexivity|split; [vm_compute; reflexivity|vm_compute; discriminate]]]].
  cbn [map].
  eapply PCons; [exact (PStep _ _ _ _ _ _ [] [_] (TRead _ _ _ _))|].
  eapply PCons; [exact (PStep _ _ _ _ _ _ [_] [] (TRead _ _ _ _))|].
  eapply PCons; [exact (PStep _ _ _ _ _ _ [] [_] (TWrite _ _ _ _ _ _ U))|].
  eapply PCons; [exact (PStep _ _ _ _ _ _ [_] [] (TWrite _ _ _ _ _ _ U))|].
  eapply PCons; [refine (PStep _ _ _ _ _ _ [] [_] (TBelow _ _ _ _ _)); reflexivity|].
  eapply PCons; [refine (PStep _ _ _ _ _ _ [_] [] (TBelow _ _ _ _ _)); reflexivity|].
  eapply PCons; [exact (PStep _ _ _ _ _ _ [] [_] (TPush _ _ _ _))|].
  eapply PCons; [exact (PStep _ _ _ _ _ _ [_] [] (TPush _ _ _ _))|].
  apply PNil.
Qed.
Print Assumptions C74_parallel_cap_refuted.
