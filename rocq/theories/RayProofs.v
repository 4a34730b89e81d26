From Coq Require Import List Bool ZArith Lia ZifyBool.
From Verif Require Import Outcome RayModel RaySpec.
Import ListNotations.
Local Open Scope Z_scope.

Lemma int32_ok : forall z, - 2 ^ 31 <= z < 2 ^ 31 -> int32 z = Ok z.
Proof.
  intros z H. unfold int32.
  replace ((- 2 ^ 31 <=? z) && (z <? 2 ^ 31)) with true by lia. reflexivity.
Qed.

(** ** One axis, abstractly.
    [ax f h d s dm c0 e c k]: after k steps the coordinate is c0 + s q with
    q dm = k d - h + e. *)
Definition ax_inv (lo hi h d s dm c0 k : Z) (ec : Z * Z) : Prop :=
  exists q, snd ec = c0 + s * q /\ q * dm = k * d - h + fst ec /\
    lo <= 2 * fst ec < hi /\ 0 <= q <= d.

Definition unit_ (s : Z) := s = 1 \/ s = -1.

Definition between (c0 s d : Z) : Prop :=
  - 2 ^ 31 <= c0 < 2 ^ 31 /\ - 2 ^ 31 <= c0 + s * d < 2 ^ 31.

Lemma between_mid : forall c0 s d q, unit_ s -> between c0 s d -> 0 <= q <= d ->
  - 2 ^ 31 <= c0 + s * q < 2 ^ 31.
Proof. intros c0 s d q [->| ->] [H1 H2] H; lia. Qed.

Lemma q_le_d : forall q dm k d h e, 0 < dm -> 0 <= d -> k <= dm -> q * dm = k * d - h + e ->
  e - h < dm -> q <= d.
Proof. intros. nia. Qed.

Lemma q_nonneg : forall q dm k d h e, 0 < dm -> 0 <= d -> 0 <= k -> q * dm = k * d - h + e ->
  - dm < e - h -> 0 <= q.
Proof. intros. nia. Qed.

Lemma bres_axis_step : forall d s dm h c0 k ec, unit_ s -> between c0 s d ->
  0 < dm < 2 ^ 31 -> 0 <= d <= dm -> 2 * h <= dm < 2 * h + 2 -> 0 <= k < dm ->
  ax_inv 0 (2 * dm) h d s dm c0 k ec ->
  exists ec', bres_axis d s dm ec = Ok ec' /\ ax_inv 0 (2 * dm) h d s dm c0 (k + 1) ec' /\
    exists j, 0 <= j <= 1 /\ snd ec' = snd ec + s * j /\ (d = dm -> j = 1).
Proof.
  intros d s dm h c0 k [e c] Hs Hb Hdm Hd Hh Hk (q & Hc & Hq & He & Hq0).
  cbn [fst snd] in *. unfold bres_axis.
  rewrite int32_ok by lia. cbn [bind].
  destruct (Z.ltb_spec (e - d) 0) as [L|L].
  - rewrite int32_ok by lia. cbn [bind].
    assert (q + 1 <= d).
    { apply (q_le_d (q + 1) dm (k + 1) d h (e - d + dm)); try lia. }
    rewrite int32_ok. 2:{ rewrite Hc. replace (c0 + s * q + s) with (c0 + s * (q + 1)) by lia.
      eapply between_mid; try eassumption. lia. }
    cbn [bind]. eexists. split; [reflexivity|]. split.
    + exists (q + 1). cbn [fst snd]. split; [lia|]. split; [lia|]. split; lia.
    + exists 1. cbn. lia.
  - eexists. split; [reflexivity|]. split.
    + exists q. cbn [fst snd]. split; [lia|]. split; [lia|]. split; lia.
    + exists 0. cbn. lia.
Qed.

Lemma ax_end : forall lo hi h d s dm c0 ec, 0 < dm -> - 2 * dm < lo - 2 * h -> hi - 2 * h <= 2 * dm ->
  ax_inv lo hi h d s dm c0 dm ec -> snd ec = c0 + s * d.
Proof.
  intros lo hi h d s dm c0 ec Hdm Hl Hh (q & Hc & Hq & He & Hq0). rewrite Hc.
  assert (q = d) by nia. subst. reflexivity.
Qed.

(** ** The whole ray, for any axis function *)
Section Loop.
Variable axis : Z -> Z -> Z -> Z * Z -> outcome (Z * Z).   (* d s dm *)
Variable Inv : Z -> Z -> Z -> Z -> Z * Z -> Prop.   (* d s c0 k *)

Fixpoint gen_loop (i : nat) (dx dy dz sx sy sz dm : Z) (b : bres) (acc : list voxel)
  : outcome (bres * list voxel) :=
  match i with
  | O => Ok (b, acc)
  | S i' =>
      bind (axis dx sx dm (bx b)) (fun x =>
      bind (axis dy sy dm (by_ b)) (fun y =>
      bind (axis dz sz dm (bz b)) (fun z =>
      gen_loop i' dx dy dz sx sy sz dm (Bres x y z) (acc ++ [bres_voxel b]))))
  end.

Variables dx dy dz sx sy sz dm : Z.
Variable s0 : voxel.
Hypothesis Hstep : forall d s c0 k ec, unit_ s -> between c0 s d -> 0 <= d <= dm -> 0 <= k < dm ->
  Inv d s c0 k ec ->
  exists ec', axis d s dm ec = Ok ec' /\ Inv d s c0 (k + 1) ec' /\
    exists j, 0 <= j <= 1 /\ snd ec' = snd ec + s * j /\ (d = dm -> j = 1).
Hypothesis Hdm : 0 <= dm.
Hypothesis Hd : 0 <= dx <= dm /\ 0 <= dy <= dm /\ 0 <= dz <= dm.
Hypothesis Hmax : dx = dm \/ dy = dm \/ dz = dm.
Hypothesis Hu : unit_ sx /\ unit_ sy /\ unit_ sz.
Hypothesis Hb : between (px s0) sx dx /\ between (py s0) sy dy /\ between (pz s0) sz dz.

Definition b_inv (k : Z) (b : bres) : Prop :=
  Inv dx sx (px s0) k (bx b) /\
  Inv dy sy (py s0) k (by_ b) /\
  Inv dz sz (pz s0) k (bz b).

(** The list of visited voxels: position k satisfies the invariant at k, consecutive ones
    are neighbours. *)
Definition acc_inv (k : Z) (b : bres) (acc : list voxel) : Prop :=
  Z.of_nat (length acc) = k /\
  (forall i v, nth_error (acc ++ [bres_voxel b]) i = Some v ->
     exists b', b_inv (Z.of_nat i) b' /\ v = bres_voxel b') /\
  (forall i u v, nth_error (acc ++ [bres_voxel b]) i = Some u ->
     nth_error (acc ++ [bres_voxel b]) (S i) = Some v -> neighbours u v).

Lemma gen_loop_spec : forall i k b acc, Z.of_nat i + k = dm -> 0 <= k ->
  b_inv k b -> acc_inv k b acc ->
  exists b' acc', gen_loop i dx dy dz sx sy sz dm b acc = Ok (b', acc') /\
    b_inv dm b' /\ acc_inv dm b' acc' /\ exists l, acc' ++ [bres_voxel b'] = (acc ++ [bres_voxel b]) ++ l.
Proof.
  intros i. induction i as [|i IH]; intros k b acc Hi Hk Hbi Ha; cbn [gen_loop].
  - exists b, acc. replace dm with k by lia. split; [reflexivity|]. split; [assumption|].
    split; [assumption|]. exists []. rewrite app_nil_r. reflexivity.
  - pose proof Hbi as (Ix & Iy & Iz). destruct Hd as (Dx & Dy & Dz).
    destruct Hu as (Ux & Uy & Uz). destruct Hb as (Bx & By & Bz).
    destruct (Hstep dx sx (px s0) k (bx b)) as (x & Ex & Ix' & jx & Jx & Cx & Mx); try assumption; try lia.
    destruct (Hstep dy sy (py s0) k (by_ b)) as (y & Ey & Iy' & jy & Jy & Cy & My); try assumption; try lia.
    destruct (Hstep dz sz (pz s0) k (bz b)) as (z & Ez & Iz' & jz & Jz & Cz & Mz); try assumption; try lia.
    rewrite Ex. cbn [bind]. rewrite Ey. cbn [bind]. rewrite Ez. cbn [bind].
    destruct Ha as (A1 & A2 & A3).
    assert (b_inv (k + 1) (Bres x y z)) as Hb' by (repeat split; assumption).
    destruct (IH (k + 1) (Bres x y z) (acc ++ [bres_voxel b])) as (b' & acc' & E & H1 & H2 & l & Hl).
    { lia. } { lia. } { assumption. }
    { split; [rewrite app_length; cbn; lia|]. split.
      - intros n v Hn.
        destruct (Nat.lt_ge_cases n (length (acc ++ [bres_voxel b]))) as [L|L].
        + rewrite nth_error_app1 in Hn by assumption. apply A2 in Hn. assumption.
        + rewrite nth_error_app2 in Hn by assumption.
          destruct (n - length (acc ++ [bres_voxel b]))%nat as [|m] eqn:En; [|destruct m; discriminate].
          inversion Hn; subst v. exists (Bres x y z). split; [|reflexivity].
          rewrite app_length in En, L. cbn [length] in En, L.
          replace (Z.of_nat n) with (k + 1) by lia. assumption.
      - intros n u v Hn Hn'.
        destruct (Nat.lt_ge_cases (S n) (length (acc ++ [bres_voxel b]))) as [L|L].
        + rewrite nth_error_app1 in Hn by lia. rewrite nth_error_app1 in Hn' by lia.
          eapply A3; eassumption.
        + rewrite nth_error_app2 in Hn' by assumption.
          destruct (S n - length (acc ++ [bres_voxel b]))%nat as [|m] eqn:En; [|destruct m; discriminate].
          inversion Hn'; subst v.
          rewrite app_length in En, L. cbn [length] in En, L.
          assert (n = length acc) by lia. subst n.
          rewrite nth_error_app1 in Hn by (rewrite app_length; cbn; lia).
          rewrite nth_error_app2 in Hn by lia. rewrite Nat.sub_diag in Hn. inversion Hn; subst u.
          unfold neighbours, bres_voxel; cbn [px py pz bx by_ bz].
          split.
          * intros C. inversion C.
            destruct Hmax as [M|[M|M]].
            -- rewrite (Mx M) in Cx. destruct Ux as [U|U]; rewrite U in Cx; lia.
            -- rewrite (My M) in Cy. destruct Uy as [U|U]; rewrite U in Cy; lia.
            -- rewrite (Mz M) in Cz. destruct Uz as [U|U]; rewrite U in Cz; lia.
          * rewrite Cx, Cy, Cz. clear - Ux Uy Uz Jx Jy Jz.
            assert (forall c s j, unit_ s -> 0 <= j <= 1 -> Z.abs (c - (c + s * j)) <= 1) as G.
            { intros c s j [->| ->] J; lia. }
            split; [apply G; assumption|]. split; apply G; assumption. }
    exists b', acc'. split; [assumption|]. split; [assumption|]. split; [assumption|].
    exists ([bres_voxel (Bres x y z)] ++ l). rewrite Hl. rewrite <- !app_assoc. reflexivity.
Qed.
End Loop.

Lemma bres_loop_gen : forall i dx dy dz sx sy sz dm b acc,
  bres_loop i dx dy dz sx sy sz dm b acc =
  bind (gen_loop bres_axis i dx dy dz sx sy sz dm b acc)
       (fun r => Ok (fst r, snd r ++ [bres_voxel (fst r)])).
Proof.
  intros i. induction i as [|i IH]; intros; cbn [bres_loop gen_loop]; [reflexivity|].
  destruct (bres_axis dx sx dm (bx b)); cbn [bind]; try reflexivity.
  destruct (bres_axis dy sy dm (by_ b)); cbn [bind]; try reflexivity.
  destruct (bres_axis dz sz dm (bz b)); cbn [bind]; try reflexivity.
  apply IH.
Qed.

Lemma dda_loop_gen : forall st i dx dy dz sx sy sz dm b acc,
  dda_loop st i dx dy dz sx sy sz dm b acc =
  gen_loop (dda_axis st) i dx dy dz sx sy sz dm b acc.
Proof.
  intros st i. induction i as [|i IH]; intros; cbn [dda_loop gen_loop]; [reflexivity|].
  destruct (dda_axis st dx sx dm (bx b)); cbn [bind]; try reflexivity.
  destruct (dda_axis st dy sy dm (by_ b)); cbn [bind]; try reflexivity.
  destruct (dda_axis st dz sz dm (bz b)); cbn [bind]; try reflexivity.
  apply IH.
Qed.

(** What both casts guarantee about a path. *)
Definition good_path (s e : voxel) (path : list voxel) : Prop :=
  Z.of_nat (length path) = max_delta s e + 1 /\
  nth_error path 0 = Some s /\
  nth_error path (Z.to_nat (max_delta s e)) = Some e /\
  (forall i u v, nth_error path i = Some u -> nth_error path (S i) = Some v -> neighbours u v) /\
  (forall i v, nth_error path i = Some v ->
     half_voxel (max_delta s e) (Z.of_nat i) (px s) (px e) (px v) /\
     half_voxel (max_delta s e) (Z.of_nat i) (py s) (py e) (py v) /\
     half_voxel (max_delta s e) (Z.of_nat i) (pz s) (pz e) (pz v)).

Lemma ax_half : forall lo hi h d s dm c0 k ec b, 0 <= dm -> - dm <= lo - 2 * h ->
  (forall e, lo <= 2 * e < hi -> 2 * e - 2 * h <= dm) ->
  ax_inv lo hi h d s dm c0 k ec -> unit_ s -> b - c0 = s * d ->
  half_voxel dm k c0 b (snd ec).
Proof.
  intros lo hi h d s dm c0 k ec b Hdm H1 H3 (q & Hc & Hq & He & Hq0) Hu Hb.
  unfold half_voxel. rewrite Hc, Hb. specialize (H3 _ He).
  destruct Hu as [-> | ->]; lia.
Qed.

Lemma sign_facts : forall a b, unit_ (if a <? b then 1 else -1) /\
  b - a = (if a <? b then 1 else -1) * Z.abs (b - a).
Proof. intros a b. unfold unit_. destruct (Z.ltb_spec a b); split; lia. Qed.

Lemma voxel_eq : forall a b : voxel, px a = px b -> py a = py b -> pz a = pz b -> a = b.
Proof. intros [] []; cbn; intros; subst; reflexivity. Qed.

Lemma single_path : forall e, good_path e e [e].
Proof.
  intros e. unfold good_path.
  assert (max_delta e e = 0) as -> by (unfold max_delta; lia). cbn.
  split; [reflexivity|]. split; [reflexivity|]. split; [reflexivity|]. split.
  - intros [|i] u v H H'; cbn in *; [discriminate|destruct i; discriminate].
  - intros [|i] v H; cbn in *; [|destruct i; discriminate]. inversion H; subst v.
    unfold half_voxel. cbn. lia.
Qed.

Lemma bresenham_good : forall s e, int_ray (2 ^ 31) s e ->
  exists path, bresenham s e = Ok path /\ good_path s e path.
Proof.
  intros s e ((S1 & S2 & S3) & (E1 & E2 & E3) & Hm). unfold bresenham.
  unfold max_delta in Hm.
  rewrite (int32_ok (px e - px s)) by lia. cbn [bind].
  rewrite (int32_ok (Z.abs (px e - px s))) by lia. cbn [bind].
  rewrite (int32_ok (py e - py s)) by lia. cbn [bind].
  rewrite (int32_ok (Z.abs (py e - py s))) by lia. cbn [bind].
  rewrite (int32_ok (pz e - pz s)) by lia. cbn [bind].
  rewrite (int32_ok (Z.abs (pz e - pz s))) by lia. cbn [bind].
  fold (max_delta s e).
  set (dm := max_delta s e).
  set (dx := Z.abs (px e - px s)). set (dy := Z.abs (py e - py s)). set (dz := Z.abs (pz e - pz s)).
  destruct (sign_facts (px s) (px e)) as [Ux Dx]. destruct (sign_facts (py s) (py e)) as [Uy Dy].
  destruct (sign_facts (pz s) (pz e)) as [Uz Dz].
  set (sx := if px s <? px e then 1 else -1) in *.
  set (sy := if py s <? py e then 1 else -1) in *.
  set (sz := if pz s <? pz e then 1 else -1) in *.
  set (h := Z.shiftr dm 1).
  assert (2 * h <= dm < 2 * h + 2) as Hh.
  { unfold h. rewrite Z.shiftr_div_pow2 by lia. change (2 ^ 1) with 2.
    pose proof (Z.div_mod dm 2). pose proof (Z.mod_pos_bound dm 2). lia. }
  assert (0 <= dm < 2 ^ 31) as Hdm by (unfold dm, max_delta; lia).
  assert (0 <= dx <= dm /\ 0 <= dy <= dm /\ 0 <= dz <= dm) as Hd
    by (unfold dx, dy, dz, dm, max_delta; lia).
  assert (dx = dm \/ dy = dm \/ dz = dm) as Hmax by (unfold dx, dy, dz, dm, max_delta; lia).
  rewrite bres_loop_gen.
  destruct (Z.eq_dec dm 0) as [Z0|NZ].
  - (* start = end *)
    assert (s = e) as ->.
    { apply voxel_eq; unfold dm, max_delta in Z0; lia. }
    rewrite Z0. cbn. rewrite !Z.eqb_refl. cbn. eexists. split; [reflexivity|].
    replace (bres_voxel _) with e by (destruct e; reflexivity). apply single_path.
  - assert (between (px s) sx dx /\ between (py s) sy dy /\ between (pz s) sz dz) as Hb.
    { unfold between. fold dx in Dx. fold dy in Dy. fold dz in Dz. lia. }
    set (b0 := Bres (h, px s) (h, py s) (h, pz s)).
    assert (b_inv (fun d s c0 k ec => ax_inv 0 (2 * dm) h d s dm c0 k ec) dx dy dz sx sy sz s 0 b0) as I0.
    { unfold b_inv, ax_inv, b0; cbn [bx by_ bz fst snd]. repeat split; exists 0; lia. }
    assert (bres_voxel b0 = s) as B0 by (destruct s; reflexivity).
    destruct (gen_loop_spec bres_axis (fun d s c0 k ec => ax_inv 0 (2 * dm) h d s dm c0 k ec) dx dy dz sx sy sz dm s) with
      (i := Z.to_nat dm) (k := 0) (b := b0) (acc := @nil voxel)
      as (b' & acc' & E & H1 & (A1 & A2 & A3) & l & Hl); try assumption; try lia.
    { intros. apply bres_axis_step; try assumption; lia. }
    { repeat split; assumption. }
    { split; [reflexivity|]. cbn [app]. rewrite B0. split.
      - intros i v Hi. destruct i as [|i]; [|destruct i; discriminate]. inversion Hi; subst v.
        exists b0. auto.
      - intros i u v Hi Hi'. destruct i; discriminate. }
    rewrite E. cbn [bind fst snd].
    destruct H1 as (I1 & I2 & I3).
    fold dx in Dx. fold dy in Dy. fold dz in Dz.
    apply ax_end in I1; try lia. apply ax_end in I2; try lia. apply ax_end in I3; try lia.
    replace (snd (bx b') =? px e) with true by lia.
    replace (snd (by_ b') =? py e) with true by lia.
    replace (snd (bz b') =? pz e) with true by lia.
    cbn. eexists. split; [reflexivity|].
    unfold good_path. fold dm. split; [rewrite app_length; cbn; lia|].
    split; [rewrite Hl; cbn; rewrite B0; reflexivity|].
    split.
    { rewrite nth_error_app2 by lia. replace (Z.to_nat dm - length acc')%nat with 0%nat by lia.
      cbn. f_equal. apply voxel_eq; cbn; lia. }
    split; [exact A3|].
    intros i v Hi. apply A2 in Hi. destruct Hi as (b'' & (J1 & J2 & J3) & ->).
    unfold bres_voxel; cbn [px py pz].
    split; [|split].
    + eapply ax_half; try exact J1; try assumption; try lia.
    + eapply ax_half; try exact J2; try assumption; try lia.
    + eapply ax_half; try exact J3; try assumption; try lia.
Qed.

Definition dda_inv (dm d s c0 k : Z) (ec : Z * Z) : Prop :=
  exists q, snd ec = c0 + s * q /\ q * dm = k * d - fst ec /\
    - dm <= 2 * fst ec < dm /\ 0 <= q <= d.

Lemma dda_axis_step : forall dm d s c0 k ec, unit_ s -> between c0 s d ->
  0 < dm < 2 ^ 29 -> 0 <= d <= dm -> 0 <= k < dm ->
  dda_inv dm d s c0 k ec ->
  exists ec', dda_axis false d s dm ec = Ok ec' /\ dda_inv dm d s c0 (k + 1) ec' /\
    exists j, 0 <= j <= 1 /\ snd ec' = snd ec + s * j /\ (d = dm -> j = 1).
Proof.
  intros dm d s c0 k [e c] Hs Hb Hdm Hd Hk (q & Hc & Hq & He & Hq0).
  cbn [fst snd] in *. unfold dda_axis.
  rewrite int32_ok by lia. cbn [bind].
  unfold shl1. cbn [andb]. rewrite int32_ok by lia. cbn [bind].
  destruct (Z.leb_spec dm (2 * (e + d))) as [L|L].
  - assert (q + 1 <= d) by nia.
    rewrite int32_ok. 2:{ rewrite Hc. replace (c0 + s * q + s) with (c0 + s * (q + 1)) by lia.
      eapply between_mid; try eassumption. lia. }
    cbn [bind]. rewrite int32_ok by lia. cbn [bind].
    eexists. split; [reflexivity|]. split.
    + exists (q + 1). cbn [fst snd]. lia.
    + exists 1. cbn. lia.
  - eexists. split; [reflexivity|]. split.
    + exists q. cbn [fst snd]. lia.
    + exists 0. cbn. split; [lia|]. split; [lia|]. intros ->. exfalso. nia.
Qed.

Lemma dda_end : forall dm d s c0 ec, 0 < dm -> dda_inv dm d s c0 dm ec -> snd ec = c0 + s * d.
Proof.
  intros dm d s c0 ec Hdm (q & Hc & Hq & He & Hq0). rewrite Hc.
  assert (q = d) by nia. subst. reflexivity.
Qed.

Lemma dda_half : forall dm d s c0 k ec b, dda_inv dm d s c0 k ec -> unit_ s ->
  b - c0 = s * d -> half_voxel dm k c0 b (snd ec).
Proof.
  intros dm d s c0 k ec b (q & Hc & Hq & He & Hq0) Hu Hb.
  unfold half_voxel. rewrite Hc, Hb. destruct Hu as [-> | ->]; lia.
Qed.

Lemma sign_facts' : forall d, unit_ (if 0 <=? d then 1 else -1) /\
  d = (if 0 <=? d then 1 else -1) * Z.abs d.
Proof. intros d. unfold unit_. destruct (Z.leb_spec 0 d); split; lia. Qed.

Lemma dda_good : forall s e, int_ray (2 ^ 29) s e ->
  exists path, dda false s e = Ok path /\ good_path s e path.
Proof.
  intros s e ((S1 & S2 & S3) & (E1 & E2 & E3) & Hm). unfold dda.
  unfold max_delta in Hm.
  rewrite (int32_ok (px e - px s)) by lia. cbn [bind].
  rewrite (int32_ok (py e - py s)) by lia. cbn [bind].
  rewrite (int32_ok (pz e - pz s)) by lia. cbn [bind].
  assert (forall d, Z.abs d < 2 ^ 29 -> (if d <? 0 then int32 (- d) else Ok d) = Ok (Z.abs d)) as Habs.
  { intros d Hd. destruct (Z.ltb_spec d 0); [rewrite int32_ok by lia|]; f_equal; lia. }
  rewrite !Habs by lia. cbn [bind].
  assert (forall a b, (if a >? b then a else b) = Z.max a b) as Hmx.
  { intros a b. rewrite Z.gtb_ltb. destruct (Z.ltb_spec b a); lia. }
  rewrite !Hmx.
  set (dx := Z.abs (px e - px s)). set (dy := Z.abs (py e - py s)). set (dz := Z.abs (pz e - pz s)).
  replace (Z.max (Z.max dx dy) dz) with (max_delta s e) by (unfold dx, dy, dz, max_delta; lia).
  set (dm := max_delta s e).
  destruct (sign_facts' (px e - px s)) as [Ux Dx]. destruct (sign_facts' (py e - py s)) as [Uy Dy].
  destruct (sign_facts' (pz e - pz s)) as [Uz Dz].
  set (sx := if 0 <=? px e - px s then 1 else -1) in *.
  set (sy := if 0 <=? py e - py s then 1 else -1) in *.
  set (sz := if 0 <=? pz e - pz s then 1 else -1) in *.
  fold dx in Dx. fold dy in Dy. fold dz in Dz.
  assert (0 <= dm < 2 ^ 29) as Hdm by (unfold dm, max_delta; lia).
  assert (0 <= dx <= dm /\ 0 <= dy <= dm /\ 0 <= dz <= dm) as Hd
    by (unfold dx, dy, dz, dm, max_delta; lia).
  assert (dx = dm \/ dy = dm \/ dz = dm) as Hmax by (unfold dx, dy, dz, dm, max_delta; lia).
  rewrite dda_loop_gen.
  destruct (Z.eq_dec dm 0) as [Z0|NZ].
  - assert (s = e) as ->.
    { apply voxel_eq; unfold dm, max_delta in Z0; lia. }
    rewrite Z0. cbn. rewrite !Z.eqb_refl. cbn. eexists. split; [reflexivity|].
    replace (bres_voxel _) with e by (destruct e; reflexivity). apply single_path.
  - assert (between (px s) sx dx /\ between (py s) sy dy /\ between (pz s) sz dz) as Hb.
    { unfold between. lia. }
    set (b0 := Bres (0, px s) (0, py s) (0, pz s)).
    assert (b_inv (dda_inv dm) dx dy dz sx sy sz s 0 b0) as I0.
    { unfold b_inv, dda_inv, b0; cbn [bx by_ bz fst snd]. repeat split; exists 0; lia. }
    assert (bres_voxel b0 = s) as B0 by (destruct s; reflexivity).
    destruct (gen_loop_spec (dda_axis false) (dda_inv dm) dx dy dz sx sy sz dm s) with
      (i := Z.to_nat dm) (k := 0) (b := b0) (acc := @nil voxel)
      as (b' & acc' & E & H1 & (A1 & A2 & A3) & l & Hl); try assumption; try lia.
    { intros. apply dda_axis_step; try assumption; lia. }
    { repeat split; assumption. }
    { split; [reflexivity|]. cbn [app]. rewrite B0. split.
      - intros i v Hi. destruct i as [|i]; [|destruct i; discriminate]. inversion Hi; subst v.
        exists b0. auto.
      - intros i u v Hi Hi'. destruct i; discriminate. }
    rewrite E. cbn [bind fst snd].
    destruct H1 as (I1 & I2 & I3).
    apply dda_end in I1; try lia. apply dda_end in I2; try lia. apply dda_end in I3; try lia.
    cbn [px py pz bres_voxel].
    replace (snd (bx b') =? px e) with true by lia.
    replace (snd (by_ b') =? py e) with true by lia.
    replace (snd (bz b') =? pz e) with true by lia.
    cbn. eexists. split; [reflexivity|].
    unfold good_path. fold dm. split; [rewrite app_length; cbn; lia|].
    split; [rewrite Hl; cbn; rewrite B0; reflexivity|].
    split.
    { rewrite nth_error_app2 by lia. replace (Z.to_nat dm - length acc')%nat with 0%nat by lia.
      cbn. f_equal. apply voxel_eq; cbn; lia. }
    split; [exact A3|].
    intros i v Hi. apply A2 in Hi. destruct Hi as (b'' & (J1 & J2 & J3) & ->).
    unfold bres_voxel; cbn [px py pz].
    split; [|split].
    + eapply dda_half; eassumption.
    + eapply dda_half; eassumption.
    + eapply dda_half; eassumption.
Qed.
