From Coq Require Import List Bool ZArith Lia ZifyBool.
From Verif Require Import Outcome CloudFileModel CloudFileSpec.
Import ListNotations.
Local Open Scope Z_scope.

Lemma le_length : forall n z, length (le n z) = n.
Proof. induction n; intros; cbn [le length]; [reflexivity|rewrite IHn; reflexivity]. Qed.

Lemma unle_le : forall n z, 0 <= z < 256 ^ (Z.of_nat n) -> unle (le n z) = z.
Proof.
  induction n as [|n IH]; intros z Hz.
  - cbn in *. lia.
  - cbn [le unle]. rewrite IH.
    + pose proof (Z.div_mod z 256). lia.
    + rewrite Nat2Z.inj_succ, Z.pow_succ_r in Hz by lia.
      split; [apply Z.div_pos; lia|apply Z.div_lt_upper_bound; lia].
Qed.

Lemma chunk_app0 : forall n (a b : list Z), length a = n -> chunk 0 n (a ++ b) = a.
Proof.
  intros n a b H. unfold chunk. cbn [skipn]. rewrite firstn_app, <- H, Nat.sub_diag.
  rewrite firstn_all. cbn. apply app_nil_r.
Qed.
Lemma chunk_app : forall k n (a b : list Z), (length a <= k)%nat ->
  chunk k n (a ++ b) = chunk (k - length a) n b.
Proof.
  intros k n a b H. unfold chunk. rewrite skipn_app.
  rewrite skipn_all2 by assumption. reflexivity.
Qed.

Lemma point_bytes_length : forall p, length (point_bytes p) = 20%nat.
Proof. intros p. unfold point_bytes. rewrite !app_length, !le_length. reflexivity. Qed.

Lemma stamp_bytes_length : forall p, length (stamp_bytes p) = 12%nat.
Proof. intros p. unfold stamp_bytes. rewrite !app_length, !le_length. reflexivity. Qed.

Lemma word_256 : forall z, word z -> 0 <= z < 256 ^ Z.of_nat 4.
Proof. intros z H. unfold word in H. change (256 ^ Z.of_nat 4) with (2 ^ 32). assumption. Qed.

Ltac chunks :=
  repeat (rewrite chunk_app by (rewrite le_length; lia); rewrite le_length; cbn [Nat.sub]);
  first [rewrite chunk_app0 by (apply le_length) |
         (rewrite <- (app_nil_r (le _ _)); rewrite chunk_app0 by (apply le_length))].

Lemma point_round : forall p, point_ok p -> point_of_bytes (point_bytes p) = p.
Proof.
  intros p (H1 & H2 & H3 & H4 & H5). unfold point_of_bytes, point_bytes.
  rewrite <- (app_nil_r (le 4 (w_factor p))).
  repeat match goal with |- context [chunk ?k 4 (le 4 _ ++ _)] =>
    first [rewrite (chunk_app0 4) by (apply le_length)
          |rewrite (chunk_app k 4) by (rewrite le_length; lia); rewrite le_length; cbn [Nat.sub]] end.
  rewrite !unle_le by (apply word_256; assumption). destruct p; reflexivity.
Qed.

Lemma stamp_round : forall p, stamp_ok p -> stamp_of_bytes (stamp_bytes p) = p.
Proof.
  intros p (H1 & H2 & H3). unfold stamp_of_bytes, stamp_bytes.
  rewrite <- (app_nil_r (le 4 (st_judge p))).
  repeat match goal with |- context [chunk ?k 4 (le 4 _ ++ _)] =>
    first [rewrite (chunk_app0 4) by (apply le_length)
          |rewrite (chunk_app k 4) by (rewrite le_length; lia); rewrite le_length; cbn [Nat.sub]] end.
  rewrite !unle_le by (apply word_256; assumption). destruct p; reflexivity.
Qed.

Lemma firstn_exact : forall {X} (a b : list X) n, length a = n -> firstn n (a ++ b) = a.
Proof. intros X a b n <-. rewrite firstn_app, Nat.sub_diag, firstn_all. cbn. apply app_nil_r. Qed.
Lemma skipn_exact : forall {X} (a b : list X) n, length a = n -> skipn n (a ++ b) = b.
Proof. intros X a b n <-. rewrite skipn_app, Nat.sub_diag, skipn_all. reflexivity. Qed.

Lemma read_full : forall n dest a b, length a = n ->
  read n dest (mkIs (a ++ b) false false) = (mkIs b false false, a).
Proof.
  intros n dest a b H. unfold read, good; cbn [eof fail rest negb andb].
  replace (Nat.leb n (length (a ++ b))) with true.
  2:{ symmetry. apply Nat.leb_le. rewrite app_length. lia. }
  rewrite firstn_exact, skipn_exact by assumption. reflexivity.
Qed.

Lemma default_bytes : point_bytes default_point = repeat 0 20.
Proof. reflexivity. Qed.

Lemma unle_zeros : forall n, unle (repeat 0 n) = 0.
Proof. induction n; cbn [repeat unle]; [reflexivity|rewrite IHn; reflexivity]. Qed.

(** Reading points when [k] bytes of the remaining data are there. *)
Lemma read_dead : forall n b e, (e = true) ->
  exists s, read_points n (mkIs b e true) = (s, repeat default_point n, true).
Proof.
  intros n. induction n as [|n IH]; intros b e ->; cbn [read_points]; [eauto|].
  unfold deserialize_point, read, good. cbn [eof fail rest negb andb orb].
  destruct (IH b true eq_refl) as [s E]. rewrite E. exists s. reflexivity.
Qed.

Lemma read_points_cut : forall ps k, Forall point_ok ps ->
  exists s, read_points (length ps) (mkIs (firstn k (flat_map point_bytes ps)) false false) =
    (s, map (fun ip => cut_point (Nat.min 20 (k - 20 * fst ip)) (snd ip))
            (combine (seq 0 (length ps)) ps), true).
Proof.
  intros ps. induction ps as [|p ps IH]; intros k Hp.
  - cbn. eauto.
  - inversion Hp as [|? ? Hp1 Hps]; subst. cbn [length read_points flat_map seq combine map fst snd].
    rewrite Nat.mul_0_r, Nat.sub_0_r.
    unfold deserialize_point.
    destruct (Nat.le_gt_cases 20 k) as [L|L].
    + rewrite firstn_app, point_bytes_length.
      rewrite (firstn_all2 (point_bytes p)) by (rewrite point_bytes_length; lia).
      rewrite read_full by apply point_bytes_length. cbn [good eof fail negb andb orb].
      destruct (IH (k - 20)%nat Hps) as [s E]. rewrite E. exists s. f_equal. f_equal.
      rewrite Nat.min_l by lia.
      assert (cut_point 20 p = p) as C.
      { unfold cut_point. rewrite firstn_all2 by (rewrite point_bytes_length; lia).
        cbn [Nat.sub repeat]. rewrite app_nil_r. apply point_round. assumption. }
      rewrite C. rewrite point_round by assumption. f_equal.
      rewrite <- seq_shift. clear.
      generalize (seq 0 (length ps)). intros l. revert ps.
      induction l as [|i l IHl]; intros ps; [reflexivity|].
      destruct ps as [|q ps]; [reflexivity|]. cbn [map combine fst snd].
      rewrite IHl. f_equal. f_equal. lia.
    + rewrite firstn_app, point_bytes_length. replace (k - 20)%nat with 0%nat by lia.
      cbn [firstn]. rewrite app_nil_r.
      assert (length (firstn k (point_bytes p)) = k) as Lk
        by (rewrite firstn_length, point_bytes_length; lia).
      unfold read, good. cbn [eof fail rest negb andb].
      replace (Nat.leb 20 (length (firstn k (point_bytes p)))) with false.
      2:{ symmetry. apply Nat.leb_gt. lia. }
      cbn [eof fail negb andb orb].
      destruct (read_dead (length ps) [] true eq_refl) as [s E]. rewrite E. exists s.
      f_equal. f_equal. f_equal.
      * unfold cut_point. f_equal. rewrite Lk, Nat.min_r by lia. f_equal.
        rewrite default_bytes. rewrite <- (repeat_length 0 20) at 2.
        replace (skipn k (repeat 0 20)) with (repeat 0 (20 - k)); [rewrite repeat_length; reflexivity|].
        clear - L. assert (20 = k + (20 - k))%nat as E20 by lia.
        rewrite E20 at 2. rewrite repeat_app. rewrite skipn_exact; [reflexivity|apply repeat_length].
      * assert (forall p', cut_point 0 p' = default_point) as C0 by reflexivity.
        assert (forall i, In i (seq 1 (length ps)) -> Nat.min 20 (k - 20 * i) = 0%nat) as Hz.
        { intros i Hi. apply in_seq in Hi. lia. }
        assert (forall ps m, (forall i, In i (seq m (length ps)) -> Nat.min 20 (k - 20 * i) = 0%nat) ->
          repeat default_point (length ps) =
          map (fun ip => cut_point (Nat.min 20 (k - 20 * fst ip)) (snd ip))
              (combine (seq m (length ps)) ps)) as G.
        { clear - C0. intros ps. induction ps as [|q ps IHp]; intros m Hz; [reflexivity|].
          cbn [length seq combine map repeat fst snd]. rewrite Hz by (left; reflexivity).
          rewrite C0. f_equal. apply IHp. intros i Hi. apply Hz. right. assumption. }
        apply G. exact Hz.
Qed.

Lemma serialize_length : forall c,
  length (serialize c) = (20 + 20 * length (c_points c))%nat.
Proof.
  intros c. unfold serialize. rewrite !app_length, stamp_bytes_length, le_length.
  enough (length (flat_map point_bytes (c_points c)) = (20 * length (c_points c))%nat) by lia.
  induction (c_points c) as [|p ps IH]; [reflexivity|].
  cbn [flat_map]. rewrite app_length, point_bytes_length, IH. cbn [length]. lia.
Qed.

Lemma deserialize_cut : forall limit c0 c k extra, cloud_ok limit c -> (20 <= k)%nat ->
  (extra = [] \/ (length (serialize c) <= k)%nat) ->
  deserialize limit c0 (firstn k (serialize c) ++ extra) =
  Ok (0, mkCloud (c_stamp c)
       (map (fun ip => cut_point (Nat.min 20 (k - 20 - 20 * fst ip)) (snd ip))
            (combine (seq 0 (length (c_points c))) (c_points c)))).
Proof.
  intros limit c0 c k extra (Hs & Hp & Hl & Hlim) Hk Hex.
  pose proof (serialize_length c) as SL.
  unfold deserialize, open_file.
  assert (firstn k (serialize c) ++ extra =
    stamp_bytes (c_stamp c) ++ le 8 (Z.of_nat (length (c_points c)) mod 2 ^ 64) ++
    (firstn (k - 20) (flat_map point_bytes (c_points c)) ++ extra)) as E.
  { unfold serialize. rewrite firstn_app, stamp_bytes_length.
    rewrite firstn_all2 by (rewrite stamp_bytes_length; lia).
    rewrite firstn_app, le_length.
    rewrite (firstn_all2 (le 8 _)) by (rewrite le_length; lia).
    rewrite <- !app_assoc. do 3 f_equal. replace (k - 12 - 8)%nat with (k - 20)%nat by lia. reflexivity. }
  rewrite E. rewrite read_full by apply stamp_bytes_length. cbn [good eof fail negb andb].
  rewrite read_full by apply le_length. cbn [good eof fail negb andb].
  rewrite Z.mod_small by lia.
  rewrite unle_le by (change (256 ^ Z.of_nat 8) with (2 ^ 64); lia).
  replace (limit <? Z.of_nat (length (c_points c))) with false by lia.
  rewrite Nat2Z.id. rewrite stamp_round by assumption.
  destruct Hex as [-> | Hfull].
  - rewrite app_nil_r.
    destruct (read_points_cut (c_points c) (k - 20) Hp) as [s R]. rewrite R. reflexivity.
  - (* whole file plus trailing bytes *)
    rewrite firstn_all2.
    2:{ rewrite SL in Hfull. clear - Hfull.
        enough (length (flat_map point_bytes (c_points c)) = (20 * length (c_points c))%nat) by lia.
        clear. induction (c_points c) as [|p ps IH]; [reflexivity|].
        cbn [flat_map]. rewrite app_length, point_bytes_length, IH. cbn [length]. lia. }
    assert (forall ps ex, Forall point_ok ps ->
      read_points (length ps) (mkIs (flat_map point_bytes ps ++ ex) false false) =
      (mkIs ex false false, ps, true)) as RP.
    { clear. intros ps. induction ps as [|p ps IH]; intros ex H; [reflexivity|].
      inversion H as [|? ? H1 H2]; subst. cbn [length flat_map read_points].
      unfold deserialize_point. rewrite <- app_assoc.
      rewrite read_full by apply point_bytes_length. cbn [good eof fail negb andb orb].
      rewrite IH by assumption. rewrite point_round by assumption. reflexivity. }
    rewrite RP by assumption. f_equal. f_equal. f_equal.
    rewrite SL in Hfull. clear - Hfull Hp.
    assert (forall ps m, Forall point_ok ps -> (20 * (m + length ps) <= k - 20)%nat ->
      ps = map (fun ip => cut_point (Nat.min 20 (k - 20 - 20 * fst ip)) (snd ip)) (combine (seq m (length ps)) ps)) as G.
    { intros ps. induction ps as [|p ps IH]; intros m H L; [reflexivity|].
      inversion H as [|? ? H1 H2]; subst. cbn [length seq combine map fst snd] in *.
      f_equal.
      - rewrite Nat.min_l by lia. unfold cut_point.
        rewrite firstn_all2 by (rewrite point_bytes_length; lia).
        cbn [Nat.sub repeat]. rewrite app_nil_r. symmetry. apply point_round. assumption.
      - apply IH; [assumption|lia]. }
    apply G; [assumption|lia].
Qed.

Lemma cut_full : forall k ps, Forall point_ok ps -> forall m, (20 * (m + length ps) <= k)%nat ->
  map (fun ip => cut_point (Nat.min 20 (k - 20 * fst ip)) (snd ip)) (combine (seq m (length ps)) ps) = ps.
Proof.
  intros k ps H. induction H as [|p ps H1 H2 IH]; intros m L; [reflexivity|].
  cbn [length seq combine map fst snd] in *. f_equal.
  - rewrite Nat.min_l by lia. unfold cut_point.
    rewrite firstn_all2 by (rewrite point_bytes_length; lia).
    cbn [Nat.sub repeat]. rewrite app_nil_r. apply point_round. assumption.
  - apply IH. lia.
Qed.

Lemma round_trip : forall limit c0 c extra, cloud_ok limit c ->
  deserialize limit c0 (serialize c ++ extra) = Ok (0, c).
Proof.
  intros limit c0 c extra H. pose proof (serialize_length c) as SL.
  rewrite <- (firstn_all2 (n := length (serialize c)) (serialize c)) by lia.
  rewrite deserialize_cut; try assumption; [|rewrite SL; lia|right; lia].
  rewrite SL. replace (20 + 20 * length (c_points c) - 20)%nat with (20 * length (c_points c))%nat by lia.
  rewrite cut_full; [destruct c; reflexivity|apply H|lia].
Qed.

Lemma header_cut : forall limit c0 c k, cloud_ok limit c -> (k < 20)%nat ->
  exists st, deserialize limit c0 (firstn k (serialize c)) = Ok (-1, mkCloud st (c_points c0)).
Proof.
  intros limit c0 c k H Hk. unfold deserialize, open_file.
  unfold serialize. rewrite firstn_app, stamp_bytes_length.
  destruct (Nat.lt_ge_cases k 12) as [L|L].
  - replace (k - 12)%nat with 0%nat by lia. cbn [firstn]. rewrite app_nil_r.
    unfold read, good. cbn [eof fail rest negb andb].
    replace (Nat.leb 12 (length (firstn k (stamp_bytes (c_stamp c))))) with false.
    2:{ symmetry. apply Nat.leb_gt. rewrite firstn_length, stamp_bytes_length. lia. }
    cbn. eauto.
  - rewrite firstn_all2 by (rewrite stamp_bytes_length; lia).
    rewrite read_full by apply stamp_bytes_length. cbn [good eof fail negb andb].
    rewrite firstn_app, le_length. replace (k - 12 - 8)%nat with 0%nat by lia.
    cbn [firstn]. rewrite app_nil_r.
    unfold read, good. cbn [eof fail rest negb andb].
    replace (Nat.leb 8 (length (firstn (k - 12) (le 8 (Z.of_nat (length (c_points c)) mod 2 ^ 64))))) with false.
    2:{ symmetry. apply Nat.leb_gt. rewrite firstn_length, le_length. lia. }
    cbn. eauto.
Qed.

Lemma nth_cut : forall k ps m i p, nth_error ps i = Some p ->
  nth_error (map (fun ip => cut_point (Nat.min 20 (k - 20 * fst ip)) (snd ip))
                 (combine (seq m (length ps)) ps)) i
  = Some (cut_point (Nat.min 20 (k - 20 * (m + i))) p).
Proof.
  intros k ps. induction ps as [|q ps IH]; intros m i p H; [destruct i; discriminate|].
  destruct i as [|i]; cbn [length seq combine map fst snd nth_error] in *.
  - inversion H; subst. rewrite Nat.add_0_r. reflexivity.
  - rewrite (IH (S m) i p H). do 4 f_equal. lia.
Qed.

Lemma truncated : forall limit c0 c k, cloud_ok limit c -> (20 <= k)%nat ->
  exists ps, deserialize limit c0 (firstn k (serialize c)) = Ok (0, mkCloud (c_stamp c) ps) /\
    length ps = length (c_points c) /\
    (forall i p, nth_error (c_points c) i = Some p ->
       nth_error ps i = Some (cut_point (Nat.min 20 (k - 20 - 20 * i)) p)).
Proof.
  intros limit c0 c k H Hk. eexists. split; [|split].
  - rewrite <- (app_nil_r (firstn k (serialize c))).
    apply deserialize_cut; [assumption|assumption|left; reflexivity].
  - rewrite map_length, combine_length, seq_length. lia.
  - intros i p Hi. rewrite (nth_cut (k - 20) _ 0 i p Hi). reflexivity.
Qed.

Lemma cut_whole : forall p, point_ok p -> cut_point 20 p = p.
Proof.
  intros p H. unfold cut_point. rewrite firstn_all2 by (rewrite point_bytes_length; lia).
  cbn [Nat.sub repeat]. rewrite app_nil_r. apply point_round. assumption.
Qed.
Lemma cut_none : forall p, cut_point 0 p = default_point.
Proof. reflexivity. Qed.

(** Any bytes. *)
Lemma read_any : forall n dest s, length dest = n -> (eof s = fail s) ->
  exists s' b, read n dest s = (s', b) /\ eof s' = fail s' /\ length b = n.
Proof.
  intros n dest [r e f] L E. cbn [eof fail] in E. subst f. unfold read, good; cbn [eof fail rest].
  destruct e; cbn [negb andb].
  - eexists _, _. split; [reflexivity|]. auto.
  - destruct (Nat.leb n (length r)) eqn:H.
    + apply Nat.leb_le in H. eexists _, _. split; [reflexivity|]. split; [reflexivity|].
      apply firstn_length_le; assumption.
    + apply Nat.leb_gt in H. eexists _, _. split; [reflexivity|]. split; [reflexivity|].
      rewrite app_length, skipn_length. lia.
Qed.

Lemma read_points_any : forall n s, eof s = fail s ->
  exists s' ps, read_points n s = (s', ps, true) /\ length ps = n.
Proof.
  induction n as [|n IH]; intros s E; cbn [read_points].
  - eexists _, _. split; reflexivity.
  - unfold deserialize_point.
    destruct (read_any 20 (point_bytes default_point) s (point_bytes_length _) E) as (s1 & b & R & E1 & L).
    rewrite R. unfold good. rewrite E1. replace (negb (fail s1) && negb (fail s1) || fail s1)%bool with true
      by (destruct (fail s1); reflexivity).
    destruct (IH s1 E1) as (s2 & ps & R2 & L2). rewrite R2. eexists _, _. split; [reflexivity|]. cbn [length]. lia.
Qed.

Lemma deserialize_any : forall limit c0 bytes,
  ((length bytes < 20)%nat ->
     exists st, deserialize limit c0 bytes = Ok (-1, mkCloud st (c_points c0))) /\
  ((20 <= length bytes)%nat -> limit < unle (firstn 8 (skipn 12 bytes)) ->
     deserialize limit c0 bytes = Throw) /\
  ((20 <= length bytes)%nat -> unle (firstn 8 (skipn 12 bytes)) <= limit ->
     exists c, deserialize limit c0 bytes = Ok (0, c) /\
       Z.of_nat (length (c_points c)) = Z.max 0 (unle (firstn 8 (skipn 12 bytes)))).
Proof.
  intros limit c0 bytes.
  assert (Full : (20 <= length bytes)%nat -> forall dest,
    read 12 dest (open_file bytes) = (mkIs (skipn 12 bytes) false false, firstn 12 bytes) /\
    forall d2, read 8 d2 (mkIs (skipn 12 bytes) false false) =
               (mkIs (skipn 8 (skipn 12 bytes)) false false, firstn 8 (skipn 12 bytes))).
  { intros H dest. split; [|intros d2]; unfold open_file, read, good; cbn [eof fail rest negb andb].
    - replace (Nat.leb 12 (length bytes)) with true by (symmetry; apply Nat.leb_le; lia). reflexivity.
    - replace (Nat.leb 8 (length (skipn 12 bytes))) with true; [reflexivity|].
      symmetry; apply Nat.leb_le. rewrite skipn_length. lia. }
  split; [|split].
  - intros H. unfold deserialize, open_file, read, good; cbn [eof fail rest negb andb].
    destruct (Nat.leb 12 (length bytes)) eqn:E; cbn [eof fail rest negb andb].
    + replace (Nat.leb 8 (length (skipn 12 bytes))) with false.
      2:{ symmetry. apply Nat.leb_gt. rewrite skipn_length. lia. }
      cbn [eof fail rest negb andb]. eauto.
    + eauto.
  - intros H Big. unfold deserialize.
    destruct (Full H (stamp_bytes (c_stamp c0))) as [R1 R2]. rewrite R1. unfold good; cbn [eof fail negb andb].
    rewrite R2. cbn [eof fail negb andb]. apply Z.ltb_lt in Big. rewrite Big. reflexivity.
  - intros H Small. unfold deserialize.
    destruct (Full H (stamp_bytes (c_stamp c0))) as [R1 R2]. rewrite R1. unfold good; cbn [eof fail negb andb].
    rewrite R2. cbn [eof fail negb andb]. apply Z.ltb_ge in Small. rewrite Small.
    destruct (read_points_any (Z.to_nat (unle (firstn 8 (skipn 12 bytes))))
      (mkIs (skipn 8 (skipn 12 bytes)) false false) eq_refl) as (s' & ps & R & L).
    rewrite R. eexists. split; [reflexivity|]. cbn [c_points]. rewrite L. lia.
Qed.
