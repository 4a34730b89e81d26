(** Property C42: the map output. *)
From Coq Require Import List Bool ZArith Lia Arith.
From Verif Require Import Outcome ExportModel ExportSpec.
Import ListNotations.
Local Open Scope outcome_scope.

Lemma parts_le : forall k n, 0 < k -> 0 < n <= k -> parts k n = 1.
Proof. intros k n Hk Hn. unfold parts. symmetry. apply (Nat.div_unique _ _ 1 (n - 1)); lia. Qed.
Lemma parts_more : forall k n, 0 < k -> parts k (k + n) = S (parts k n).
Proof.
  intros k n Hk. unfold parts. replace (k + n + k - 1) with (n + k - 1 + 1 * k) by lia. rewrite Nat.div_add by lia. lia.
Qed.
Lemma parts_0 : forall k, 0 < k -> parts k 0 = 0.
Proof. intros k Hk. unfold parts. apply Nat.div_small. lia. Qed.
Lemma part_S : forall {A} k t (p r : list A), length p = k -> part k (S t) (p ++ r) = part k t r.
Proof.
  intros A k t p r H. unfold part. f_equal. cbn [Nat.mul]. rewrite skipn_app, skipn_all2 by lia.
  cbn. f_equal. lia.
Qed.
Lemma part_0 : forall {A} k (p r : list A), length p = k -> part k 0 (p ++ r) = p.
Proof. intros A k p r H. unfold part. cbn. rewrite firstn_app, H, Nat.sub_diag, firstn_all2 by lia. apply app_nil_r. Qed.
Lemma part_all : forall {A} k (p : list A), length p <= k -> part k 0 p = p.
Proof. intros A k p H. unfold part. cbn. apply firstn_all2. exact H. Qed.
Lemma flat_map_seq_S : forall {A} (f : nat -> list A) a n, flat_map f (seq (S a) n) = flat_map (fun t => f (S t)) (seq a n).
Proof. intros A f a n. revert a. induction n as [|n IH]; intros a; cbn; [reflexivity|]. f_equal. apply IH. Qed.
Lemma flat_map_ext_in' : forall {A B} (f g : A -> list B) l, (forall a, f a = g a) -> flat_map f l = flat_map g l.
Proof. intros A B f g l H. induction l; cbn; [reflexivity|]. rewrite H, IHl. reflexivity. Qed.

Section Props.
Variable point : Type.
Notation submap_loop := (submap_loop point).
Notation save_maps := (save_maps point).

Section Loop.
Variable o : wopts.
Hypothesis sep : separate o = true.
Hypothesis nz : step o <> 0%Z.
Notation K := (Z.abs_nat (step o)).
Let name (j : nat) : Z := (Z.of_nat j * Z.sgn (step o))%Z.

Lemma quot_name : forall j r, r < K -> Z.quot (Z.of_nat (j * K + r)) (step o) = name j.
Proof.
  intros j r Hr. unfold name.
  assert (Z.quot (Z.of_nat (j * K + r)) (Z.abs (step o)) = Z.of_nat j) as H.
  { rewrite Z.quot_div_nonneg by lia. symmetry. apply Z.div_unique with (r := Z.of_nat r); [lia|].
    rewrite <- Zabs2Nat.id_abs. lia. }
  destruct (Z.lt_ge_cases (step o) 0) as [L|L].
  - rewrite Z.abs_neq, Z.quot_opp_r in H by lia. rewrite Z.sgn_neg by lia. lia.
  - rewrite Z.abs_eq in H by lia. rewrite Z.sgn_pos by lia. lia.
Qed.
Lemma rem_zero : forall j r, r < K -> Z.rem (Z.of_nat (j * K + r) + 1) (step o) = 0%Z <-> S r = K.
Proof.
  intros j r Hr.
  assert (Z.rem (Z.of_nat (j * K + r) + 1) (step o) = Z.rem (Z.of_nat (S r)) (Z.abs (step o))) as ->.
  { rewrite <- Z.rem_abs_r by exact nz.
    replace (Z.of_nat (j * K + r) + 1)%Z with (Z.of_nat (S r) + Z.of_nat j * Z.abs (step o))%Z
      by (rewrite <- Zabs2Nat.id_abs; lia).
    rewrite !Z.rem_mod_nonneg by lia. apply Z_mod_plus_full. }
  rewrite Z.rem_mod_nonneg by lia. rewrite <- Zabs2Nat.id_abs. split; intros H.
  - destruct (Nat.eq_dec (S r) K) as [E|E]; [exact E|]. rewrite Z.mod_small in H by lia. lia.
  - rewrite H. apply Z_mod_same_full.
Qed.

Definition wacc (p : list (list (list point))) := if direct o then concat (concat p) else [].
Definition vacc (p : list (list (list point))) := if mrvm o then concat p else [].
Lemma wacc_snoc : forall p s, (if direct o then wacc p ++ concat s else wacc p) = wacc (p ++ [s]).
Proof. intros. unfold wacc. destruct (direct o); [|reflexivity]. rewrite !concat_app. cbn. rewrite app_nil_r. reflexivity. Qed.
Lemma vacc_snoc : forall p s, (if mrvm o then vacc p ++ s else vacc p) = vacc (p ++ [s]).
Proof. intros. unfold vacc. destruct (mrvm o); [|reflexivity]. rewrite concat_app. cbn. rewrite app_nil_r. reflexivity. Qed.

Lemma flush_no : forall n i w v, (i <> n - 1)%Z -> Z.rem (i + 1) (step o) <> 0%Z -> flush point o n i w v = Ok ([], (w, v)).
Proof.
  intros n i w v H1 H2. unfold flush, imod. apply Z.eqb_neq in H1, H2, nz. rewrite H1, nz. cbn [bind]. rewrite H2. reflexivity.
Qed.
Lemma flush_yes : forall n i q, (i = n - 1 \/ Z.rem (i + 1) (step o) = 0)%Z ->
  flush point o n i (wacc q) (vacc q) = Ok (part_files point (direct o) (mrvm o) (Z.quot i (step o)) q, ([], [])).
Proof.
  intros n i q H. unfold flush, imod, idiv. pose proof nz as nz'. apply Z.eqb_neq in nz'. rewrite nz'.
  assert ((if (i =? n - 1)%Z then Ok true else let* m := Ok (Z.rem (i + 1) (step o)) in Ok (m =? 0)%Z) = Ok true) as ->.
  { destruct (i =? n - 1)%Z eqn:E; [reflexivity|]. apply Z.eqb_neq in E. destruct H as [H|H]; [contradiction|].
    cbn. rewrite H. reflexivity. }
  cbn [bind]. unfold part_files, wacc, vacc. destruct (direct o), (mrvm o); rewrite ?app_nil_r; destruct (concat (concat q)); reflexivity.
Qed.

Lemma loop_parts : forall l p j n, length p < K -> (l <> [] \/ p = []) ->
  n = (Z.of_nat (j * K + length p) + Z.of_nat (length l))%Z ->
  submap_loop o n (Z.of_nat (j * K + length p)) (wacc p) (vacc p) l =
  Ok (flat_map (fun t => part_files point (direct o) (mrvm o) (name (j + t)) (part K t (p ++ l)))
        (seq 0 (parts K (length (p ++ l)))), ([], [])).
Proof.
  assert (0 < K) as HK by lia.
  induction l as [|x l IH]; intros p j n Hp He Hn.
  - destruct He as [He| ->]; [congruence|]. cbn. rewrite parts_0 by exact HK. cbn.
    unfold wacc, vacc. destruct (direct o), (mrvm o); reflexivity.
  - cbn [ExportModel.submap_loop]. rewrite sep, wacc_snoc, vacc_snoc.
    assert (p ++ x :: l = (p ++ [x]) ++ l) as -> by (rewrite <- app_assoc; reflexivity).
    assert (length (p ++ [x]) = S (length p)) as Hl by (rewrite app_length; cbn; lia).
    destruct (Nat.eq_dec (S (length p)) K) as [E|E].
    + rewrite flush_yes by (right; apply rem_zero; assumption). cbn [bind fst snd].
      replace (Z.of_nat (j * K + length p) + 1)%Z with (Z.of_nat (S j * K + length (@nil (list (list point))))) by (cbn; lia).
      replace (submap_loop o n (Z.of_nat (S j * K + length (@nil (list (list point))))) [] [] l)
        with (submap_loop o n (Z.of_nat (S j * K + length (@nil (list (list point))))) (wacc []) (vacc []) l)
        by (unfold wacc, vacc; destruct (direct o), (mrvm o); reflexivity).
      rewrite IH by (cbn [length] in *; auto; lia). cbn [bind fst snd app].
      rewrite (app_length (p ++ [x])), Hl, E, parts_more by exact HK. cbn [seq flat_map].
      rewrite part_0 by (rewrite Hl; exact E). rewrite quot_name by exact Hp. rewrite Nat.add_0_r.
      rewrite flat_map_seq_S. do 3 f_equal. apply flat_map_ext_in'. intros t.
      rewrite part_S by (rewrite Hl; exact E). do 2 f_equal. lia.
    + destruct l as [|y l].
      * rewrite flush_yes by (left; cbn in Hn; lia). cbn. rewrite !app_nil_r, Hl, parts_le by lia. cbn.
        rewrite part_all by lia. rewrite quot_name by exact Hp. rewrite Nat.add_0_r, !app_nil_r. reflexivity.
      * rewrite flush_no; [|cbn in Hn; lia|rewrite rem_zero by exact Hp; exact E]. cbn [bind fst snd].
        replace (Z.of_nat (j * K + length p) + 1)%Z with (Z.of_nat (j * K + length (p ++ [x]))) by lia.
        rewrite IH; [reflexivity|lia|left; discriminate|cbn in *; lia].
Qed.
End Loop.

(** With separate_output the files are: for each part of |separate_step| consecutive submaps
    (the last one may be shorter) the direct map of its frames (unless it has no point) and
    the multi-resolution map fed with exactly its frames. *)
Theorem C42_parts : forall o l, separate o = true -> step o <> 0%Z ->
  save_maps o l = Ok (flat_map (fun j =>
     part_files point (direct o) (mrvm o) (Z.of_nat j * Z.sgn (step o)) (part (Z.abs_nat (step o)) j l))
     (seq 0 (parts (Z.abs_nat (step o)) (length l)))).
Proof.
  intros o l S1 S2. unfold ExportModel.save_maps. destruct (negb (direct o) && negb (mrvm o)) eqn:E.
  - apply andb_true_iff in E. destruct E as [E1 E2]. apply negb_true_iff in E1, E2. rewrite E1, E2. unfold part_files.
    cbn. f_equal. induction (seq 0 (parts (Z.abs_nat (step o)) (length l))); cbn; auto.
  - rewrite S1. pose proof (loop_parts o S1 S2 l [] 0 (Z.of_nat (length l))) as H. cbn [length app Nat.mul Nat.add Z.of_nat] in H.
    unfold wacc, vacc in H. assert (forall A (b : bool), (if b then @nil A else []) = []) as En by (intros ? []; reflexivity).
    cbn [concat] in H. rewrite !En in H. rewrite H; [reflexivity|lia|auto|lia].
Qed.

(** Every submap is in exactly one part, in order, and no part is empty or too long. *)
Theorem C42_parts_partition : forall {A} k (l : list A), 0 < k ->
  concat (map (fun j => part k j l) (seq 0 (parts k (length l)))) = l /\
  forall j, j < parts k (length l) -> 0 < length (part k j l) <= k.
Proof.
  intros A k l Hk. split.
  - remember (length l) as n eqn:En. assert (length l <= n) as Hn by lia. rewrite En. clear En. revert l Hn.
    induction n as [|n IH]; intros l Hn.
    + destruct l; [|cbn in Hn; lia]. cbn. rewrite parts_0 by exact Hk. reflexivity.
    + destruct l as [|x l]; [cbn; rewrite parts_0 by exact Hk; reflexivity|].
      destruct (Nat.le_gt_cases (length (x :: l)) k) as [H|H].
      * rewrite parts_le by (cbn [length] in *; lia). cbn [seq map concat]. rewrite part_all by exact H. apply app_nil_r.
      * assert (length (firstn k (x :: l)) = k) as Hf by (apply firstn_length_le; lia).
        pose proof (firstn_skipn k (x :: l)) as Ea.
        remember (firstn k (x :: l)) as a eqn:Qa. remember (skipn k (x :: l)) as b eqn:Qb. clear Qa Qb. rewrite <- Ea in *. clear Ea.
        rewrite !app_length, Hf in *.
        rewrite parts_more by exact Hk. cbn [seq map concat]. rewrite part_0 by exact Hf. f_equal.
        rewrite <- seq_shift, map_map. rewrite (map_ext _ (fun j => part k j b)) by (intros; apply part_S; exact Hf).
        apply IH. lia.
  - intros j Hj. unfold part. rewrite firstn_length, skipn_length. unfold parts in Hj.
    assert (j * k < length l); [|lia].
    pose proof (Nat.mul_div_le (length l + k - 1) k). nia.
Qed.

(** separate_step 0 with at least one submap divides by zero. *)
Theorem C42_zero_step : forall o l, separate o = true -> step o = 0%Z -> direct o || mrvm o = true -> l <> [] -> save_maps o l = UB.
Proof.
  intros o l S1 S2 D L. unfold ExportModel.save_maps.
  assert (negb (direct o) && negb (mrvm o) = false) as -> by (destruct (direct o), (mrvm o); try discriminate D; reflexivity).
  destruct l as [|x l]; [congruence|]. cbn [ExportModel.submap_loop]. rewrite S1. unfold flush, imod, idiv. rewrite S2.
  rewrite (Z.eqb_refl 0). destruct (0 =? Z.of_nat (length (x :: l)) - 1)%Z; reflexivity.
Qed.

(** Without separate_output: at most one file of each kind, holding everything. *)
Theorem C42_whole : forall o l, separate o = false ->
  save_maps o l = Ok ((if mrvm o then [StaticMap (concat l)] else []) ++
                      (if direct o then match concat (concat l) with [] => [] | c => [WholeMap c] end else [])).
Proof.
  intros o l S1.
  assert (forall l n i w v, submap_loop o n i w v l =
    Ok ([], (if direct o then w ++ concat (concat l) else w, if mrvm o then v ++ concat l else v))) as G.
  { induction l0 as [|x r IH]; intros n i w v; cbn [ExportModel.submap_loop].
    - cbn. rewrite !app_nil_r. destruct (direct o), (mrvm o); reflexivity.
    - rewrite S1. cbn [bind fst snd]. rewrite IH. cbn [bind fst snd app]. do 3 f_equal.
      + destruct (direct o); [|reflexivity]. cbn. rewrite concat_app, app_assoc. reflexivity.
      + destruct (mrvm o); [|reflexivity]. cbn. rewrite app_assoc. reflexivity. }
  unfold ExportModel.save_maps. destruct (direct o) eqn:D, (mrvm o) eqn:M; cbn [negb andb]; try reflexivity;
    rewrite G, S1; cbn; rewrite ?app_nil_r; destruct (concat (concat l)); reflexivity.
Qed.
End Props.

Definition ex_subs : list (list (list nat)) := [[[1]; [2]]; [[3]; []]; [[4]]; [[]]; [[]; []]; [[5; 6]]; [[7]]].
Example C42_example : save_maps nat (mkW true true true 3) ex_subs =
  Ok [PartMap 0 [1; 2; 3; 4]; StaticPart 0 [[1]; [2]; [3]; []; [4]];
      PartMap 1 [5; 6]; StaticPart 1 [[]; []; []; [5; 6]];
      PartMap 2 [7]; StaticPart 2 [[7]]].
Proof. vm_compute. reflexivity. Qed.
Example C42_negative_step : save_maps nat (mkW true false true (-4)) ex_subs = Ok [PartMap 0 [1; 2; 3; 4]; PartMap (-1) [5; 6; 7]].
Proof. vm_compute. reflexivity. Qed.

Print Assumptions C42_parts.
Print Assumptions C42_parts_partition.
Print Assumptions C42_zero_step.
Print Assumptions C42_whole.
