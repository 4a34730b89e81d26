From Coq Require Import ZArith QArith Qabs List Bool Lia Lqa.
From Coq Require Import ZifyBool.
From Verif Require Import Outcome TimeModel TimeSpec TimeProofs GpsModel GpsSpec GpsProofs Pose.
Import ListNotations.
Local Open Scope Z_scope.
Local Open Scope outcome_scope.

Section Odom.
Variable P : Type.
Variable interp : P -> P -> Q -> P.

Definition ogap (a b : odom P) : Z := elapsed (o_time b) - elapsed (o_time a).

Lemma odom_inside : forall (track : list (odom P)) t thr (trim : bool) i a b,
  (thr <= 1 # 2)%Q ->
  Forall (fun x => normal (o_time x)) track -> normal t ->
  increasing (map o_time track) ->
  bracket o_time track t i a b ->
  let track' := if trim then skipn i track else track in
  (ogap a b <= 1000 -> interpolate_odom interp track t thr trim = Some Abort) /\
  (1000000000 < ogap a b ->
     interpolate_odom interp track t thr trim = Some (Ok (None, track'))) /\
  (1000 < ogap a b <= 1000000000 ->
     exists f, (f * inject_Z (ogap a b) == inject_Z (elapsed t - elapsed (o_time a)))%Q /\
       (0 <= f <= 1)%Q /\
       interpolate_odom interp track t thr trim =
         Some (Ok (Some (interp (o_pose a) (o_pose b) f), track'))).
Proof.
  intros track t thr trim i a b Hthr Hn Ht Hinc Hbr track'.
  assert (Hr : Forall (fun x => rep (o_time x)) track).
  { eapply Forall_impl; [|exact Hn]. intros x; apply normal_rep. }
  pose proof (bracket_search _ o_time track t i a b Hr (normal_rep _ Ht) Hinc Hbr) as Hs.
  destruct Hbr as (Ha & Hb & Hat & Htb).
  pose proof (nth_error_Some_length Hb) as Hlen.
  pose proof (Forall_nth _ _ _ _ _ Hn Ha) as Na. pose proof (Forall_nth _ _ _ _ _ Hn Hb) as Nb.
  cbn beta in Na, Nb.
  assert (Hab : elapsed (o_time a) < elapsed (o_time b)).
  { apply (Hinc i); rewrite nth_error_map; [rewrite Ha|rewrite Hb]; reflexivity. }
  assert (Htb' : elapsed t <= elapsed (o_time b)) by lia.
  destruct track as [|g0 [|g1 tl]]; [cbn in Hlen; lia|cbn in Hlen; lia|].
  set (track := g0 :: g1 :: tl) in *.
  destruct (back_nonempty _ track) as [lst Hl]; [discriminate|].
  assert (Hm : forall k x, nth_error track k = Some x -> nth_error (map o_time track) k = Some (o_time x))
    by (intros k x Hx; rewrite nth_error_map, Hx; reflexivity).
  assert (H0 : elapsed (o_time g0) <= elapsed (o_time a)).
  { destruct i as [|i']; [cbn in Ha; injection Ha as <-; lia|].
    pose proof (increasing_lt _ Hinc (S i') 0 (o_time g0) (o_time a) ltac:(lia) eq_refl (Hm _ _ Ha)). lia. }
  assert (Hbl : elapsed (o_time b) <= elapsed (o_time lst)).
  { unfold back in Hl. destruct (Nat.eq_dec (S i) (length track - 1)) as [E|E].
    - rewrite <- E, Hb in Hl. injection Hl as <-. lia.
    - pose proof (increasing_lt _ Hinc (length track - 1) (S i) (o_time b) (o_time lst) ltac:(lia) (Hm _ _ Hb) (Hm _ _ Hl)). lia. }
  assert (Ng0 : rep (o_time g0)) by (inversion Hr; assumption).
  assert (Nl : rep (o_time lst)) by (apply (Forall_nth _ _ _ _ _ Hr Hl)).
  pose proof (normal_rep _ Ht) as Rt. pose proof (normal_rep _ Na) as Ra. pose proof (normal_rep _ Nb) as Rb.
  assert (Hout : t_lt t (o_time g0) || t_gt t (o_time lst) = false).
  { destruct (order_spec t (o_time g0) Rt Ng0) as (O1 & _).
    destruct (order_spec t (o_time lst) Rt Nl) as (_ & _ & O2 & _).
    apply orb_false_iff. split; apply not_true_iff_false; intros X; [apply O1 in X|apply O2 in X]; lia. }
  assert (Hck : t_ge t (o_time a) && t_le t (o_time b) = true).
  { destruct (order_spec t (o_time a) Rt Ra) as (_ & _ & _ & O1).
    destruct (order_spec t (o_time b) Rt Rb) as (_ & O2 & _).
    apply andb_true_iff. split; [apply O1|apply O2]; lia. }
  destruct (t_sub_spec (o_time b) (o_time a) Rb Ra) as (dt & Hdt & Ndt & Edt).
  destruct (t_sub_spec t (o_time a) Rt Ra) as (ft & Hft & Nft & Eft).
  pose proof (normal_elapsed _ Nb). pose proof (normal_elapsed _ Na). pose proof (normal_elapsed _ Ht).
  rewrite Z.mod_small in Edt by lia. rewrite Z.mod_small in Eft by lia.
  assert (Eq : interpolate_odom interp track t thr trim = Some (
        let* _ := check (Qltb (1 # 1000000) (to_sec dt)) in
        if Qltb 1 (to_sec dt) then Ok (None, track')
        else
          let factor := (to_sec ft / to_sec dt)%Q in
          let* _ := check (Qle_bool 0 factor && Qle_bool factor 1) in
          Ok (Some (interp (o_pose a) (o_pose b) factor), track'))).
  { unfold interpolate_odom at 1. unfold track at 1. fold track.
    replace (Qle_bool thr (1 # 2)) with true by (symmetry; apply Qle_bool_iff; assumption).
    cbn [negb]. rewrite Hl, Hout, Hs. cbn [bind fst snd].
    rewrite (at_nth _ _ _ _ Ha).
    replace (Z.of_nat i + 1) with (Z.of_nat (S i)) by lia.
    rewrite (at_nth _ _ _ _ Hb). cbn [bind].
    rewrite Hdt. cbn [bind]. rewrite Nat2Z.id. rewrite Hck. cbn [check bind].
    rewrite Hft. reflexivity. }
  rewrite Eq.
  assert (G1 : Qltb (1 # 1000000) (to_sec dt) = (1000 <? ogap a b)).
  { transitivity (Qltb (1000 # 1000000000) (to_sec dt)).
    - unfold Qltb. f_equal. apply Qle_bool_comp; [reflexivity|]. unfold Qeq; cbn; lia.
    - rewrite Qltb_gap. f_equal. unfold ogap. lia. }
  assert (G2 : Qltb 1 (to_sec dt) = (1000000000 <? ogap a b)).
  { transitivity (Qltb (1000000000 # 1000000000) (to_sec dt)).
    - unfold Qltb. f_equal. apply Qle_bool_comp; [reflexivity|]. unfold Qeq; cbn; lia.
    - rewrite Qltb_gap. f_equal. unfold ogap. lia. }
  rewrite G1, G2. clear Eq. split; [|split].
  - intros Hg. replace (1000 <? ogap a b) with false by lia. reflexivity.
  - intros Hg. replace (1000 <? ogap a b) with true by lia. cbn [check bind].
    replace (1000000000 <? ogap a b) with true by lia. reflexivity.
  - intros Hg. replace (1000 <? ogap a b) with true by lia. cbn [check bind].
    replace (1000000000 <? ogap a b) with false by lia.
    set (factor := (to_sec ft / to_sec dt)%Q).
    assert (Ef : (factor == (elapsed t - elapsed (o_time a) # 1000000000) /
                  (elapsed (o_time b) - elapsed (o_time a) # 1000000000))%Q).
    { unfold factor. rewrite !to_sec_elapsed.
      replace (elapsed ft) with (elapsed t - elapsed (o_time a)) by lia.
      replace (elapsed dt) with (elapsed (o_time b) - elapsed (o_time a)) by lia.
      reflexivity. }
    destruct (factor_bounds (elapsed t - elapsed (o_time a)) (elapsed (o_time b) - elapsed (o_time a))) as [B1 B2]; [lia|lia|].
    destruct (lerp_segment 0 1 factor _ _ (elapsed t) Hab ltac:(lia) Ef) as [Hlin _].
    exists factor. split.
    { unfold linear_between in Hlin. unfold ogap. rewrite <- (Qmult_1_l (inject_Z (elapsed t - elapsed (o_time a)))).
      transitivity ((0 + factor * (1 - 0) - 0) * inject_Z (elapsed (o_time b) - elapsed (o_time a)))%Q; [ring|].
      rewrite Hlin. ring. }
    rewrite (Qle_bool_comp 0 factor _ _ (Qeq_refl 0) Ef), B1.
    rewrite (Qle_bool_comp factor 1 _ _ Ef (Qeq_refl 1)), B2. cbn [andb check bind].
    apply Qle_bool_iff in B1, B2. rewrite <- Ef in B1, B2.
    split; [split; assumption|reflexivity].
Qed.

End Odom.

(** Odometry is stored relative to the first message. *)
Lemma odom_relative : forall (G : group) (ms : list (odom G)) (first : odom G) tl,
  ms = first :: tl ->
  fold_left (add_odom gmul ginv) ms odom_init =
  mkOS (Some (o_pose first))
       (map (fun m => mkOdom (o_time m) (gmul (ginv (o_pose first)) (o_pose m))) ms).
Proof.
  intros G ms first tl ->. cbn [fold_left].
  unfold add_odom at 2; cbn [os_offset odom_init os_track app].
  enough (H : forall l acc,
    fold_left (add_odom gmul ginv) l (mkOS (Some (o_pose first)) acc) =
    mkOS (Some (o_pose first))
      (acc ++ map (fun m => mkOdom (o_time m) (gmul (ginv (o_pose first)) (o_pose m))) l)).
  { rewrite H. reflexivity. }
  induction l as [|m l IH]; intros acc; cbn [fold_left map].
  - rewrite app_nil_r. reflexivity.
  - unfold add_odom at 2; cbn [os_offset os_track]. rewrite IH, <- app_assoc. reflexivity.
Qed.
