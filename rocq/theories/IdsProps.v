(** Property C27: identifiers and the names derived from them. *)
From Coq Require Import ZArith Bool String Ascii Decimal DecimalString DecimalZ Lia ZifyBool.
From Verif Require Import IdsModel.
Local Open Scope string_scope.
Local Open Scope Z_scope.

(** == is equality; < is a strict total order consistent with it. *)
Theorem C27_submap_order :
  (forall a b, sid_eq a b = true <-> a = b) /\
  (forall a b, sid_ne a b = negb (sid_eq a b)) /\
  (forall a, sid_lt a a = false) /\
  (forall a b c, sid_lt a b = true -> sid_lt b c = true -> sid_lt a c = true) /\
  (forall a b, sid_lt a b = true \/ a = b \/ sid_lt b a = true).
Proof.
  unfold sid_ne, sid_eq, sid_lt. repeat split.
  - destruct a, b; cbn. intros H. f_equal; lia.
  - intros ->. lia.
  - intros a. lia.
  - intros a b c H1 H2. lia.
  - intros [a1 a2] [b1 b2]; cbn.
    assert ((a1, a2) = (b1, b2) \/ (a1, a2) <> (b1, b2)) as [E|E] by (destruct (Z.eq_dec a1 b1), (Z.eq_dec a2 b2); subst; auto; right; congruence).
    + right; left. congruence.
    + assert (a1 <> b1 \/ a2 <> b2) by (destruct (Z.eq_dec a1 b1), (Z.eq_dec a2 b2); subst; auto). lia.
Qed.
Print Assumptions C27_submap_order.

Theorem C27_frame_order :
  (forall a b, fid_eq a b = true <-> a = b) /\
  (forall a b, fid_ne a b = negb (fid_eq a b)) /\
  (forall a, fid_lt a a = false) /\
  (forall a b c, fid_lt a b = true -> fid_lt b c = true -> fid_lt a c = true) /\
  (forall a b, fid_lt a b = true \/ a = b \/ fid_lt b a = true).
Proof.
  unfold fid_ne, fid_eq, fid_lt. repeat split.
  - destruct a, b; cbn. intros H. f_equal; lia.
  - intros ->. lia.
  - intros a. lia.
  - intros a b c H1 H2. lia.
  - intros [a1 a2 a3] [b1 b2 b3]; cbn.
    destruct (Z.eq_dec a1 b1), (Z.eq_dec a2 b2), (Z.eq_dec a3 b3); subst; auto; lia.
Qed.
Print Assumptions C27_frame_order.

(** The numbers as printed are not empty and consist of digits and a sign. *)
Fixpoint clean (s : string) : Prop :=
  match s with
  | EmptyString => True
  | String c r => (c <> "_" /\ c <> "," /\ c <> ")" /\ c <> ".")%char /\ clean r
  end.
Lemma clean_uint : forall d, clean (NilEmpty.string_of_uint d).
Proof. induction d; cbn; auto; split; auto; repeat split; discriminate. Qed.
Lemma clean_to_string : forall z, clean (to_string z).
Proof.
  intros z. unfold to_string, NilZero.string_of_int, NilZero.string_of_uint.
  assert (forall d, clean (match d with Nil => "0" | _ => NilEmpty.string_of_uint d end)) as H.
  { intros d. pose proof (clean_uint d). destruct d; auto. cbn. repeat split; discriminate. }
  destruct (Z.to_int z); [apply H|]. cbn. split; [repeat split; discriminate|apply H].
Qed.
Lemma to_string_inj : forall a b, to_string a = to_string b -> a = b.
Proof.
  intros a b H. unfold to_string in H.
  rewrite <- (of_to a), <- (of_to b). f_equal.
  assert (forall z, NilZero.int_of_string (NilZero.string_of_int (Z.to_int z)) = Some (Z.to_int z)) as R.
  { intros z. apply NilZero.isi; intros E.
    - destruct z; cbn in E; try discriminate. injection E as E.
      pose proof (DecimalPos.Unsigned.to_uint_nonnil p). congruence.
    - destruct z; cbn in E; try discriminate. injection E as E.
      pose proof (DecimalPos.Unsigned.to_uint_nonnil p). congruence. }
  pose proof (R a) as Ra. rewrite H, R in Ra. congruence.
Qed.

(** A separator splits uniquely. *)
Lemma split_unique : forall c, (c = "_" \/ c = "," \/ c = ")" \/ c = ".")%char ->
  forall s1 s2 r1 r2, clean s1 -> clean s2 ->
  s1 ++ String c r1 = s2 ++ String c r2 -> s1 = s2 /\ r1 = r2.
Proof.
  intros c Hc. induction s1 as [|a s1 IH]; intros [|b s2] r1 r2 H1 H2 E; cbn in E.
  - injection E as ->. auto.
  - injection E as <- E. destruct H2 as [(K1 & K2 & K3 & K4) _]. destruct Hc as [|[|[|]]]; subst; congruence.
  - injection E as -> E. destruct H1 as [(K1 & K2 & K3 & K4) _]. destruct Hc as [|[|[|]]]; subst; congruence.
  - injection E as <- E. destruct H1 as [_ H1], H2 as [_ H2].
    destruct (IH s2 r1 r2 H1 H2 E) as [-> ->]. auto.
Qed.
Lemma app_cancel_l : forall p a b : string, p ++ a = p ++ b -> a = b.
Proof. induction p; cbn; intros a' b E; [exact E|]. injection E. auto. Qed.
Lemma app_assoc_s : forall a b c : string, (a ++ b) ++ c = a ++ (b ++ c).
Proof. induction a; cbn; intros; [reflexivity|]. f_equal. apply IHa. Qed.

Theorem C27_frame_names_unique : forall a b, fid_string a = fid_string b -> a = b.
Proof.
  intros [a1 a2 a3] [b1 b2 b3]. unfold fid_string. cbn [f_traj f_submap f_index]. intros E.
  apply app_cancel_l in E.
  apply (split_unique "_"%char) in E; auto using clean_to_string. destruct E as [E1 E].
  apply (split_unique "_"%char) in E; auto using clean_to_string. destruct E as [E2 E3].
  apply to_string_inj in E1, E2, E3. congruence.
Qed.
Print Assumptions C27_frame_names_unique.

Theorem C27_submap_names_unique : forall a b, sid_string a = sid_string b -> a = b.
Proof.
  intros [a1 a2] [b1 b2]. unfold sid_string. cbn [s_traj s_index]. intros E.
  apply app_cancel_l in E.
  apply (split_unique ","%char) in E; auto using clean_to_string. destruct E as [E1 E].
  apply (split_unique ")"%char) in E; auto 6 using clean_to_string. destruct E as [E2 _].
  apply to_string_inj in E1, E2. congruence.
Qed.
Print Assumptions C27_submap_names_unique.

(** Files of different submaps are different for every prefix, files of different frames
    are different, and with the default prefix no submap file is a frame file. *)
Theorem C27_files_unique :
  (forall p a b, submap_file p a = submap_file p b -> a = b) /\
  (forall a b, frame_file a = frame_file b -> a = b) /\
  (forall a b, submap_file default_prefix a <> frame_file b).
Proof.
  split; [|split].
  - intros p [a1 a2] [b1 b2] E. unfold submap_file in E. cbn [s_traj s_index] in E.
    apply app_cancel_l in E.
    apply (split_unique "_"%char) in E; auto using clean_to_string. destruct E as [E1 E].
    apply (split_unique "."%char) in E; auto 6 using clean_to_string. destruct E as [E2 _].
    apply to_string_inj in E1, E2. congruence.
  - intros [a1 a2 a3] [b1 b2 b3] E. unfold frame_file, fid_string in E. cbn [f_traj f_submap f_index] in E.
    rewrite !app_assoc_s in E. apply app_cancel_l in E.
    apply (split_unique "_"%char) in E; auto using clean_to_string. destruct E as [E1 E].
    apply (split_unique "_"%char) in E; auto using clean_to_string. destruct E as [E2 E].
    apply (split_unique "."%char) in E; auto 6 using clean_to_string. destruct E as [E3 _].
    apply to_string_inj in E1, E2, E3. congruence.
  - intros a b E. unfold submap_file, frame_file, fid_string, default_prefix in E. discriminate.
Qed.
Print Assumptions C27_files_unique.

(** The prefix is configurable; with an unlucky one a submap and a frame share a file. *)
Theorem C27_files_unique_any_prefix_refuted : exists p a b, submap_file p a = frame_file b.
Proof. exists "f_0_", (mkSid 3 4), (mkFid 0 3 4). reflexivity. Qed.
Print Assumptions C27_files_unique_any_prefix_refuted.

Example ids_ex : fid_string (mkFid 0 (-12) 305) = "f_0_-12_305" /\
  submap_file default_prefix (mkSid 0 17) = "submap_0_17.bin" /\
  sid_lt (mkSid 1 (-5)) (mkSid 1 2) = true /\ fid_lt (mkFid 1 9 9) (mkFid 2 0 0) = true.
Proof. repeat split; reflexivity. Qed.
