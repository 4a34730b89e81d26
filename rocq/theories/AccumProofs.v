From Coq Require Import ZArith QArith List Bool Lia.
From Coq Require Import ZifyBool.
From Verif Require Import Outcome TimeModel TimeProofs AccumModel AccumSpec.
Import ListNotations.
Local Open Scope Z_scope.

Section Accum.
Variable PclPoint Payload : Type.
Variable to_payload : PclPoint -> Payload.
Notation cloud := (pcl_cloud PclPoint).

Notation merged := (merged to_payload).

Lemma number_payload : forall l i s,
  map ip_payload (number_from i s l) = map (@ip_payload Payload) l.
Proof. induction l as [|p l IH]; intros; cbn; [reflexivity|]. rewrite IH. reflexivity. Qed.

Lemma number_length : forall (l : list (ipoint Payload)) i s, length (number_from i s l) = length l.
Proof. induction l as [|p l IH]; intros; cbn; [reflexivity|]. rewrite IH. reflexivity. Qed.

Lemma number_factor : forall (l : list (ipoint Payload)) i s k p, 0 < s ->
  nth_error (number_from i s l) k = Some p ->
  (ip_factor p == (i + Z.of_nat k) # Z.to_pos s)%Q.
Proof.
  induction l as [|x l IH]; intros i s k p Hs Hp; [destruct k; discriminate|].
  destruct k as [|k]; cbn in Hp.
  - injection Hp as <-. cbn [ip_factor].
    rewrite <- (Z2Pos.id s Hs) at 1. rewrite <- Qmake_Qdiv.
    unfold Qeq; cbn; lia.
  - rewrite (IH (i + 1) s k p Hs Hp). unfold Qeq; cbn; lia.
Qed.

Lemma merged_emit : forall g first tl pts,
  g = first :: tl -> map ip_payload pts = map to_payload (all_points g) ->
  merged g (mkIC (to_local_time (pc_stamp first)) (number pts)).
Proof.
  intros g first tl pts Hg Hp. unfold merged; cbn [ic_points ic_stamp]. split; [|split].
  - unfold number. rewrite number_payload. assumption.
  - exists first, tl. auto.
  - intros i p Hi. unfold number in *. rewrite number_length.
    assert (0 < Z.of_nat (length pts)).
    { pose proof (nth_error_Some_length Hi) as X. rewrite number_length in X. lia. }
    rewrite (number_factor _ _ _ _ _ H Hi).
    replace (Z.to_pos (Z.of_nat (length pts))) with (Pos.of_nat (length pts)) by lia.
    reflexivity.
Qed.

Lemma to_inner_points : forall c, map ip_payload (ic_points (to_inner to_payload c)) = map to_payload (pc_points c).
Proof. intros c. unfold to_inner; cbn. rewrite map_map. reflexivity. Qed.

(** Invariant after the inputs [l]. *)
Definition inv (n : nat) (l : list cloud) (s : acc_state Payload) : Prop :=
  let q := (length l / n)%nat in
  let r := (length l mod n)%nat in
  as_count s = Z.of_nat r /\
  length (as_queue s) = q /\
  (forall j out, nth_error (as_queue s) j = Some out -> merged (group_of n j l) out) /\
  ((0 < r)%nat ->
     map ip_payload (ic_points (as_cloud s)) = map to_payload (all_points (skipn (q * n) l)) /\
     exists first tl, skipn (q * n) l = first :: tl /\ as_first s = to_local_time (pc_stamp first)).

Lemma group_of_app : forall (n j : nat) (l l' : list cloud), (j * n + n <= length l)%nat ->
  group_of n j (l ++ l') = group_of n j l.
Proof.
  intros n j l l' H. unfold group_of. rewrite skipn_app, firstn_app, skipn_length.
  replace (n - (length l - j * n))%nat with 0%nat by lia. cbn [firstn]. apply app_nil_r.
Qed.

Lemma all_points_app : forall l l' : list cloud, all_points (l ++ l') = all_points l ++ all_points l'.
Proof. intros. apply flat_map_app. Qed.

Lemma skipn_snoc : forall A k (l : list A) x, (k <= length l)%nat ->
  skipn k (l ++ [x]) = skipn k l ++ [x].
Proof.
  intros. rewrite skipn_app. replace (k - length l)%nat with 0%nat by lia. reflexivity.
Qed.

Lemma inv_step : forall n l c s, (1 <= n)%nat -> Z.of_nat n < 2 ^ 31 ->
  inv n l s -> inv n (l ++ [c]) (add_cloud to_payload (Z.of_nat n) s c).
Proof.
  intros n l c s Hn Hmax (Hc & Hq & Hm & Hr).
  set (q := (length l / n)%nat) in *. set (r := (length l mod n)%nat) in *.
  assert (Hlen : (length l = q * n + r)%nat).
  { unfold q, r. rewrite (Nat.mul_comm _ n). apply Nat.div_mod. lia. }
  assert (Hrn : (r < n)%nat) by (apply Nat.mod_upper_bound; lia).
  assert (Hl' : length (l ++ [c]) = (q * n + (r + 1))%nat) by (rewrite app_length; cbn; lia).
  (* the group under construction *)
  assert (Hacc : forall acc first,
     map ip_payload (ic_points acc) = map to_payload (all_points (skipn (q * n) (l ++ [c]))) ->
     (exists f tl, skipn (q * n) (l ++ [c]) = f :: tl /\ first = to_local_time (pc_stamp f)) ->
     (r + 1 = n)%nat ->
     inv n (l ++ [c]) (mkAS acc 0 first (as_queue s ++ [mkIC first (number (ic_points acc))]))).
  { intros acc first Hpts (f & tl & Hf & Hfirst) Hfull. unfold inv.
    rewrite Hl', Hfull.
    replace (q * n + n)%nat with ((q + 1) * n)%nat by lia.
    rewrite Nat.div_mul, Nat.mod_mul by lia.
    cbn [as_count as_queue as_cloud as_first].
    split; [reflexivity|]. split; [rewrite app_length; cbn; lia|]. split; [|lia].
    intros j out Hj.
    destruct (Nat.lt_ge_cases j (length (as_queue s))) as [Hlt|Hge].
    - rewrite nth_error_app1 in Hj by assumption.
      rewrite group_of_app by nia. apply Hm, Hj.
    - assert (j = length (as_queue s)).
      { pose proof (nth_error_Some_length Hj) as X. rewrite app_length in X. cbn in X. lia. }
      subst j. rewrite nth_error_app2, Nat.sub_diag in Hj by lia. cbn in Hj. injection Hj as <-.
      rewrite Hq. unfold group_of.
      rewrite firstn_all2 by (rewrite skipn_length; lia).
      rewrite Hf, Hfirst. eapply merged_emit; [reflexivity|]. rewrite <- Hf. assumption. }
  unfold add_cloud. destruct (Z.of_nat n >? 1) eqn:En.
  - destruct (Z.eq_dec (as_count s) 0) as [E0|E0].
    + (* first cloud of a group *)
      replace (as_count s =? 0) with true by lia.
      assert (Er : r = 0%nat) by lia.
      assert (Hsk : skipn (q * n) (l ++ [c]) = [c]).
      { rewrite skipn_snoc by lia. rewrite skipn_all2 by lia. reflexivity. }
      assert (Hpts : map ip_payload (ic_points (append empty_cloud (to_inner to_payload c)))
                     = map to_payload (all_points (skipn (q * n) (l ++ [c])))).
      { rewrite Hsk. cbn [append ic_points empty_cloud app]. rewrite to_inner_points.
        unfold all_points. cbn. rewrite app_nil_r. reflexivity. }
      assert (Hu : u32 (as_count s + 1) <? u32 (Z.of_nat n) = true).
      { unfold u32. rewrite !Z.mod_small by lia. lia. }
      rewrite Hu. unfold inv. rewrite Hl'. rewrite Er.
      replace ((q * n + (0 + 1)) / n)%nat with q
        by (symmetry; rewrite Nat.div_add_l by lia; rewrite Nat.div_small; lia).
      replace ((q * n + (0 + 1)) mod n)%nat with 1%nat
        by (rewrite (Nat.add_comm (q * n)), Nat.mod_add by lia; symmetry; apply Nat.mod_small; lia).
      cbn [as_count as_queue as_cloud as_first].
      split; [unfold u32; rewrite Z.mod_small; lia|]. split; [assumption|].
      split.
      { intros j out Hj. rewrite group_of_app; [apply Hm, Hj|].
        pose proof (nth_error_Some_length Hj). nia. }
      intros _. split; [assumption|]. exists c, []. auto.
    + replace (as_count s =? 0) with false by lia.
      assert (Hr0 : (0 < r)%nat) by lia.
      destruct (Hr Hr0) as (Hp & f & tl & Hf & Hfirst).
      assert (Hsk : skipn (q * n) (l ++ [c]) = skipn (q * n) l ++ [c]) by (apply skipn_snoc; lia).
      assert (Hpts : map ip_payload (ic_points (append (as_cloud s) (to_inner to_payload c)))
                     = map to_payload (all_points (skipn (q * n) (l ++ [c])))).
      { rewrite Hsk, all_points_app. cbn [append ic_points]. rewrite !map_app, Hp, to_inner_points.
        unfold all_points at 3. cbn. rewrite app_nil_r. reflexivity. }
      assert (Hfst : exists f' tl', skipn (q * n) (l ++ [c]) = f' :: tl' /\ as_first s = to_local_time (pc_stamp f')).
      { exists f, (tl ++ [c]). rewrite Hsk, Hf. auto. }
      unfold u32 at 1 2. rewrite !Z.mod_small by lia.
      destruct (as_count s + 1 <? Z.of_nat n) eqn:Elt.
      * unfold inv. rewrite Hl'.
        replace ((q * n + (r + 1)) / n)%nat with q
          by (symmetry; rewrite Nat.div_add_l by lia; rewrite Nat.div_small; lia).
        replace ((q * n + (r + 1)) mod n)%nat with (r + 1)%nat
          by (rewrite (Nat.add_comm (q * n)), Nat.mod_add by lia; symmetry; apply Nat.mod_small; lia).
        cbn [as_count as_queue as_cloud as_first].
        split; [unfold u32; rewrite Z.mod_small; lia|]. split; [assumption|].
        split.
        { intros j out Hj. rewrite group_of_app; [apply Hm, Hj|].
          pose proof (nth_error_Some_length Hj). nia. }
        intros _. split; assumption.
      * apply Hacc; [assumption|assumption|lia].
  - assert (n = 1%nat) by lia. subst n.
    assert (Er : r = 0%nat) by lia.
    apply Hacc; [| |lia].
    + rewrite skipn_snoc, skipn_all2 by lia. rewrite to_inner_points.
      unfold all_points. cbn. rewrite app_nil_r. reflexivity.
    + exists c, []. rewrite skipn_snoc, skipn_all2 by lia. auto.
Qed.

Lemma accumulate : forall n l, (1 <= n)%nat -> Z.of_nat n < 2 ^ 31 ->
  inv n l (insert_clouds to_payload (Z.of_nat n) l).
Proof.
  intros n l Hn Hmax. induction l as [|c l IH] using rev_ind.
  - unfold inv, insert_clouds; cbn [length fold_left acc_init as_count as_queue].
    rewrite Nat.div_0_l, Nat.mod_0_l by lia.
    split; [reflexivity|]. split; [reflexivity|]. split; [|lia].
    intros j out Hj. destruct j; discriminate.
  - unfold insert_clouds. rewrite fold_left_app. cbn [fold_left]. apply inv_step; assumption.
Qed.

Lemma accumulate_nonpositive : forall n l, n <= 1 ->
  insert_clouds to_payload n l = insert_clouds to_payload 1 l.
Proof.
  intros n l Hn. unfold insert_clouds.
  assert (forall s c, add_cloud to_payload n s c = add_cloud to_payload 1 s c) as H.
  { intros s c. unfold add_cloud. replace (n >? 1) with false by lia. reflexivity. }
  generalize (@acc_init Payload). induction l as [|c l IH]; intros s; cbn; [reflexivity|].
  rewrite H. apply IH.
Qed.

End Accum.
