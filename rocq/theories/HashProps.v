(** C150: the hash of voxels and pixels. *)
From Coq Require Import List ZArith Lia.
From Verif Require Import HashModel.
Import ListNotations.
Local Open Scope Z_scope.

Definition int (x : Z) : Prop := - 2 ^ 31 <= x < 2 ^ 31.
Lemma size_range : forall x, 0 <= size x < 2 ^ 64.
Proof. intros x. apply Z.mod_pos_bound. reflexivity. Qed.
Lemma lxor_range : forall a b n, 0 <= n -> 0 <= a < 2 ^ n -> 0 <= b < 2 ^ n -> 0 <= Z.lxor a b < 2 ^ n.
Proof.
  intros a b n N A B. split; [apply Z.lxor_nonneg; lia|]. destruct (Z.eq_dec (Z.lxor a b) 0) as [->|D]; [apply Z.pow_pos_nonneg; lia|].
  assert (P : 0 < Z.lxor a b) by (pose proof (proj2 (Z.lxor_nonneg a b)); lia).
  apply Z.log2_lt_pow2; [exact P|]. eapply Z.le_lt_trans; [apply Z.log2_lxor; lia|].
  assert (L : forall x, 0 <= x < 2 ^ n -> Z.log2 x < n \/ x = 0).
  { intros x X. destruct (Z.eq_dec x 0); [auto|left; apply Z.log2_lt_pow2; lia]. }
  assert (0 < n) by (destruct (Z.eq_dec n 0) as [->|]; [change (2 ^ 0) with 1 in *; replace a with 0 in * by lia; replace b with 0 in * by lia; cbn in D; lia|lia]).
  destruct (L a A) as [La|Ea], (L b B) as [Lb|Eb]; rewrite ?Ea, ?Eb; cbn [Z.log2]; lia.
Qed.
Lemma mix_range : forall s x, 0 <= s < 2 ^ 64 -> 0 <= mix s x < 2 ^ 64.
Proof. intros s x S. apply lxor_range; [lia|exact S|apply size_range]. Qed.
(** Every hash is a size_t. *)
Theorem C150_range : forall k, 0 <= hash k < 2 ^ 64.
Proof.
  assert (G : forall k s, 0 <= s < 2 ^ 64 -> 0 <= fold_left mix k s < 2 ^ 64).
  { induction k as [|x k IH]; intros s H; [exact H|]. cbn [fold_left]. apply IH, mix_range, H. }
  intros k. apply G. lia.
Qed.
Print Assumptions C150_range.
Lemma mix_inj : forall s x y, int x -> int y -> mix s x = mix s y -> x = y.
Proof.
  intros s x y X Y E. unfold mix in E.
  assert (F : forall a b, Z.lxor s a = Z.lxor s b -> a = b).
  { intros a b H. rewrite <- (Z.lxor_0_l a), <- (Z.lxor_0_l b), <- (Z.lxor_nilpotent s), !Z.lxor_assoc, H. reflexivity. }
  apply F in E. unfold size, int in *.
  set (c := 2654435769 + (Z.shiftl s 6) mod 2 ^ 64 + Z.shiftr s 2) in *.
  replace (x mod 2 ^ 64 + 2654435769 + (Z.shiftl s 6) mod 2 ^ 64 + Z.shiftr s 2) with (x mod 2 ^ 64 + c) in E by (unfold c; lia).
  replace (y mod 2 ^ 64 + 2654435769 + (Z.shiftl s 6) mod 2 ^ 64 + Z.shiftr s 2) with (y mod 2 ^ 64 + c) in E by (unfold c; lia).
  rewrite !Zplus_mod_idemp_l in E. clearbody c. clear F.
  pose proof (Z.div_mod (x + c) (2 ^ 64) ltac:(lia)). pose proof (Z.div_mod (y + c) (2 ^ 64) ltac:(lia)).
  set (q := (x + c) / 2 ^ 64) in *. set (r := (y + c) / 2 ^ 64) in *. assert (x - y = 2 ^ 64 * (q - r)) by lia. assert (q - r = 0) by lia. lia.
Qed.
(** Keys that differ in their last element only, the voxels of a column or the pixels with the same first coordinate, have
    different hashes: of each of these at most one has a given hash. *)
Theorem C150_column : forall p x y, int x -> int y -> x <> y -> hash (p ++ [x]) <> hash (p ++ [y]).
Proof. intros p x y X Y D E. unfold hash in E. rewrite !fold_left_app in E. cbn [fold_left] in E. apply mix_inj in E; auto. Qed.
Print Assumptions C150_column.
(** "Different keys have different hashes": false for voxels near the origin and for pixels of an image. *)
Theorem C150_voxels_refuted : exists k l, Forall int k /\ Forall int l /\ length k = 3%nat /\ length l = 3%nat /\ k <> l /\ hash k = hash l.
Proof.
  exists [5; -10; -2], [5; -7; 0]. split; [repeat constructor; discriminate|]. split; [repeat constructor; discriminate|]. repeat split; try discriminate; vm_compute; reflexivity.
Qed.
Print Assumptions C150_voxels_refuted.
Example C150_ex_column : hash [5; -10; -2] <> hash [5; -10; -1].
Proof. apply (C150_column [5; -10]); unfold int; lia. Qed.

(** The pixels of a range image of up to 64 rows and 1800 columns, 115200 of them, have no more than 8192 hashes: on the
    average at least 14 share one. *)
Lemma pixel : forall r c, 0 <= r < 64 -> 0 <= c < 1800 ->
  hash [r; c] = Z.lxor (r + 2654435769) (c + 2654435769 + (r + 2654435769) * 64 + (r + 2654435769) / 4).
Proof.
  intros r c R C. unfold hash. cbn [fold_left].
  assert (mix 0 r = r + 2654435769) as ->.
  { unfold mix, size. rewrite Z.lxor_0_l, Z.shiftl_0_l, Z.shiftr_0_l. change (0 mod 2 ^ 64) with 0. rewrite !Z.add_0_r, (Z.mod_small r) by lia. apply Z.mod_small. lia. }
  unfold mix, size. rewrite Z.shiftl_mul_pow2, Z.shiftr_div_pow2 by lia. change (2 ^ 6) with 64. change (2 ^ 2) with 4. rewrite (Z.mod_small c), (Z.mod_small (_ * 64)) by lia.
  assert (0 <= (r + 2654435769) / 4 < 2 ^ 32) by (split; [apply Z.div_pos; lia|apply Z.div_lt_upper_bound; lia]). rewrite Z.mod_small by lia. reflexivity.
Qed.
Theorem C150_crowded : forall r c, 0 <= r < 64 -> 0 <= c < 1800 -> 175247761408 <= hash [r; c] < 175247761408 + 8192.
Proof.
  intros r c R C. rewrite (pixel r c R C). set (s := r + 2654435769). set (t := c + 2654435769 + s * 64 + s / 4).
  assert (S4 : 663608942 <= s / 4 <= 663608958).
  { unfold s. split; [apply Z.div_le_lower_bound; lia|]. apply Z.lt_succ_r, Z.div_lt_upper_bound; lia. }
  assert (E : Z.shiftr (Z.lxor s t) 13 = 21392549).
  { rewrite Z.shiftr_lxor. assert (Z.shiftr s 13 = 324027) as ->. { rewrite Z.shiftr_div_pow2 by lia. unfold s. symmetry. apply (Z.div_unique _ _ _ (r + 2654435769 - 2 ^ 13 * 324027)); lia. }
    assert (Z.shiftr t 13 = 21142814) as ->; [|reflexivity]. rewrite Z.shiftr_div_pow2 by lia. symmetry. apply (Z.div_unique _ _ _ (t - 2 ^ 13 * 21142814)); unfold t, s in *; lia. }
  rewrite Z.shiftr_div_pow2 in E by lia. pose proof (Z.div_mod (Z.lxor s t) (2 ^ 13) ltac:(lia)). pose proof (Z.mod_pos_bound (Z.lxor s t) (2 ^ 13) ltac:(lia)). lia.
Qed.
Print Assumptions C150_crowded.
(** "No two pixels of an image have the same hash": 30 have one. *)
Definition pixels : list (Z * Z) :=
  [(1, 1755); (2, 1692); (3, 1628); (4, 1565); (5, 1502); (6, 1439); (7, 1487); (8, 1424); (9, 1361); (10, 1298); (11, 1234); (12, 1171); (13, 1108);
   (14, 1045); (15, 965); (16, 902); (17, 839); (18, 776); (19, 712); (20, 649); (21, 586); (22, 523); (23, 443); (24, 380); (25, 317); (26, 254);
   (27, 190); (28, 127); (29, 64); (30, 1)].
Theorem C150_pixels_refuted : exists h, length pixels = 30%nat /\ NoDup pixels /\
  Forall (fun p => 0 <= fst p < 64 /\ 0 <= snd p < 1800 /\ hash [fst p; snd p] = h) pixels.
Proof.
  exists (hash [30; 1]). split; [reflexivity|]. split.
  - unfold pixels. repeat constructor; cbn; intuition discriminate.
  - repeat (constructor; [cbn [fst snd]; split; [lia|split; [lia|vm_compute; reflexivity]]|]). constructor.
Qed.
Print Assumptions C150_pixels_refuted.
