(** C122, C123: the registrators and the judgement of their results. *)
From Coq Require Import Reals List Bool Lra Lia.
From Verif Require Import Outcome MatcherModel MatcherSpec MatcherProofs.
Import ListNotations.
Local Open Scope outcome_scope.
Local Open Scope R_scope.

Section Claims.
  Context {P T : Type}.
  Variable broken : P -> bool.
  Variables (pm : option (cloud P) -> option (cloud P) -> T -> outcome (T * list R)) (plain ndt gicp : cloud P -> cloud P -> T -> T * num)
            (fast : cloud P -> cloud P -> T -> outcome (T * num)) (voxel : cloud P -> cloud P) (use_ndt use_voxel : bool)
            (normalize flatten : T -> T) (one : T).
  Notation align := (align pm plain ndt gicp fast voxel use_ndt use_voxel).
  Notation step := (step broken pm plain ndt gicp fast voxel use_ndt use_voxel).
  Notation pair_match := (pair_match broken pm plain ndt gicp fast voxel use_ndt use_voxel normalize one).
  Notation loop_match := (loop_match broken pm plain ndt gicp fast voxel use_ndt use_voxel flatten).
  Notation front_match := (front_match broken pm plain ndt gicp fast voxel use_ndt use_voxel one).

  (** The clouds a matcher uses: the last ones given that it did not ignore. *)
  Theorem C122_inputs : forall k l m, run step (create k) l = Ok m ->
    type m = k /\ left_by k None (sources l) (source m) /\ left_by k None (targets l) (target m).
  Proof. intros k l m H. exact (run_inputs broken pm plain ndt gicp fast voxel use_ndt use_voxel l _ _ H). Qed.

  (** Which clouds it accepts. *)
  Theorem C122_source_fails : forall m c,
    (set_source broken m c = Abort /\ ((type m = FastIcp /\ c = None) \/ (type m = IcpPm /\ exists x p, c = Some x /\ In p (pts x) /\ broken p = true)))
    \/ (exists m', set_source broken m c = Ok m' /\ ~ (type m = FastIcp /\ c = None) /\
          ~ (type m = IcpPm /\ exists x p, c = Some x /\ In p (pts x) /\ broken p = true)).
  Proof.
    intros m c. unfold set_source. destruct (type m) eqn:K, c as [x|];
      try (right; eexists; split; [reflexivity|split; [intros [? ?]; discriminate|intros [? (y & p & A & _)]; discriminate]]).
    - destruct (empty x) eqn:E.
      + right. eexists. split; [reflexivity|]. split; [intros [? ?]; discriminate|]. intros [_ (y & p & [= <-] & I & _)].
        apply empty_iff in E. rewrite E in I. exact I.
      + destruct (existsb broken (pts x)) eqn:B; cbn.
        * left. split; [reflexivity|]. right. split; auto. apply existsb_exists in B. destruct B as (p & I & B). eauto.
        * right. eexists. split; [reflexivity|]. split; [intros [? ?]; discriminate|]. intros [_ (y & p & [= <-] & I & N)].
          assert (X : existsb broken (pts x) = true) by (apply existsb_exists; eauto). congruence.
    - left. auto.
  Qed.
  Theorem C122_target_fails : forall m c,
    (set_target broken m c = Abort /\ ((type m = FastIcp /\ forall x, c = Some x -> normals x = false) \/
                                       (type m = IcpPm /\ exists x p, c = Some x /\ In p (pts x) /\ broken p = true)))
    \/ (exists m', set_target broken m c = Ok m' /\ ~ (type m = FastIcp /\ forall x, c = Some x -> normals x = false) /\
          ~ (type m = IcpPm /\ exists x p, c = Some x /\ In p (pts x) /\ broken p = true)).
  Proof.
    intros m c. unfold set_target. destruct (type m) eqn:K, c as [x|];
      try (right; eexists; split; [reflexivity|split; [intros [? ?]; discriminate|intros [? (y & p & A & _)]; discriminate]]).
    - destruct (empty x) eqn:E.
      + right. eexists. split; [reflexivity|]. split; [intros [? ?]; discriminate|]. intros [_ (y & p & [= <-] & I & _)].
        apply empty_iff in E. rewrite E in I. exact I.
      + destruct (existsb broken (pts x)) eqn:B; cbn.
        * left. split; [reflexivity|]. right. split; auto. apply existsb_exists in B. destruct B as (p & I & B). eauto.
        * right. eexists. split; [reflexivity|]. split; [intros [? ?]; discriminate|]. intros [_ (y & p & [= <-] & I & N)].
          assert (X : existsb broken (pts x) = true) by (apply existsb_exists; eauto). congruence.
    - destruct (normals x) eqn:N; cbn.
      + right. eexists. split; [reflexivity|]. split; [|intros [? _]; discriminate]. intros [_ A]. rewrite (A x eq_refl) in N. discriminate.
      + left. split; [reflexivity|]. left. split; auto. intros y [= <-]. exact N.
    - left. split; [reflexivity|]. left. split; auto. intros y [=].
  Qed.

  (** Align without a cloud: NDT reports failure and leaves the result and the score alone, the others but libpointmatcher
      use a null pointer. *)
  Theorem C122_missing : forall m g o, source m = None \/ target m = None ->
    (type m = Ndt -> align m g o = Ok (false, o, m)) /\ (type m = NdtGicp \/ type m = FastIcp -> align m g o = UB).
  Proof.
    intros m g o H. unfold MatcherModel.align. split.
    - intros ->. destruct (source m), (target m); try reflexivity. destruct H; discriminate.
    - intros [-> | ->]; destruct (source m), (target m); try reflexivity; destruct H; discriminate.
  Qed.
  (** So a pair of submaps one of which has no points has no defined result, and the front end falls back on the
      identity instead of the guess. *)
  Theorem C122_pair_without_points : forall k limit a b g, k = Ndt \/ k = NdtGicp -> pts a = [] \/ pts b = [] -> pair_match k limit (Some a) (Some b) g = UB.
  Proof.
    intros k limit a b g K H. unfold MatcherModel.pair_match.
    assert (E : empty a = true \/ empty b = true) by (destruct H; [left|right]; apply empty_iff; assumption).
    destruct K as [-> | ->]; unfold create; cbn; destruct (empty a); cbn; destruct (empty b); cbn; try (destruct E; discriminate); reflexivity.
  Qed.
  Theorem C122_front_without_points : forall a b g, pts a = [] \/ pts b = [] ->
    exists m, front_match (create Ndt) (Some a) (Some b) g = Ok (one, m) /\ fitness m = UB.
  Proof.
    intros a b g H. unfold MatcherModel.front_match.
    assert (E : empty a = true \/ empty b = true) by (destruct H; [left|right]; apply empty_iff; assumption).
    unfold create. cbn. destruct (empty b); cbn; destruct (empty a); cbn; try (destruct E; discriminate); eexists; split; reflexivity.
  Qed.
  Theorem C122_fast_submaps : forall limit a b g, normals b = false -> pair_match FastIcp limit (Some a) (Some b) g = Abort.
  Proof. intros limit a b g H. unfold MatcherModel.pair_match. cbn. rewrite H. reflexivity. Qed.

  (** Scores other than that of NDT are in (0, 1]. *)
  Theorem C123_scores : forall m g o b r m', align m g o = Ok (b, r, m') -> type m <> Ndt ->
    (forall a c g t l, pm a c g = Ok (t, l) -> l <> [] /\ Forall (fun d => 0 <= d) l) ->
    (forall a c g, exists e, snd (gicp a c g) = Some e /\ 0 <= e) ->
    (forall a c g t x, fast a c g = Ok (t, x) -> exists e, x = Some e /\ 0 <= e) ->
    exists s, score m' = Some (Some s) /\ 0 < s <= 1.
  Proof.
    intros m g o b r m' H K Hp Hg Hf. unfold MatcherModel.align in H. destruct (type m).
    - destruct (pm (source m) (target m) g) as [[t l]| | |] eqn:E; cbn in H; try discriminate. inversion H; subst.
      destruct (Hp _ _ _ _ _ E) as [N F]. destruct (mean_nonneg l N F) as (e & M & Pe). cbn. rewrite M. cbn. eexists. split; [reflexivity|apply exp_unit; exact Pe].
    - destruct (source m) as [x|], (target m) as [y|]; try discriminate. destruct (le _ 1); inversion H; subst; cbn.
      + match goal with |- context [gicp ?a ?b ?c] => destruct (Hg a b c) as (e & E & Pe) end. rewrite E. cbn. eexists. split; [reflexivity|apply exp_unit; exact Pe].
      + eexists. split; [reflexivity|apply exp_unit; lra].
    - contradiction.
    - destruct (source m) as [x|], (target m) as [y|]; try discriminate. destruct (fast x y g) as [[t e]| | |] eqn:E; cbn in H; try discriminate.
      inversion H; subst. destruct (Hf _ _ _ _ _ E) as (v & -> & Pv). cbn. eexists. split; [reflexivity|apply exp_unit; exact Pv].
  Qed.

  (** The score is that of the last alignment: a cloud does not change it. *)
  Theorem C123_score_stays : forall m c m', set_source broken m c = Ok m' \/ set_target broken m c = Ok m' -> score m' = score m /\ type m' = type m.
  Proof.
    intros m c m' H. unfold MatcherModel.set_source, MatcherModel.set_target in H.
    destruct H as [H|H]; destruct (type m) eqn:Ty; destruct c as [x|]; try discriminate; try (destruct (empty x)); cbn in H;
      repeat match type of H with context [existsb ?a ?b] => destruct (existsb a b); cbn in H | context [normals ?a] => destruct (normals a); cbn in H end;
      try discriminate; injection H as <-; cbn; auto.
  Qed.
  (** NDT with GICP: it fails iff the NDT part has no score of at most 1; then it returns the guess. *)
  Theorem C123_ndt_gicp : forall m g o a c, type m = NdtGicp -> source m = Some a -> target m = Some c ->
    let f x := if use_voxel then voxel x else x in
    (use_ndt = true /\ (forall s, snd (ndt (f a) (f c) g) = Some s -> 1 < s) ->
       exists m', align m g o = Ok (false, g, m') /\ fitness m' = Ok (Some (exp (-10)))) /\
    (forall t s, use_ndt = true -> ndt (f a) (f c) g = (t, Some s) -> s <= 1 ->
       exists m', align m g o = Ok (true, fst (gicp (f a) (f c) t), m')) /\
    (use_ndt = false -> exists m', align m g o = Ok (true, fst (gicp (f a) (f c) g), m')).
  Proof.
    intros m g o a c K A C f. unfold MatcherModel.align. rewrite K, A, C. fold (f a) (f c). repeat split.
    - intros [-> H]. destruct (le (snd (ndt (f a) (f c) g)) 1) eqn:L.
      + apply le_iff in L. destruct L as (s & E & L). specialize (H s E). lra.
      + eexists. split; [reflexivity|]. cbn. reflexivity.
    - intros t s -> E L. rewrite E. cbn [fst snd]. rewrite (proj2 (le_iff (Some s) 1)) by eauto. eexists. reflexivity.
    - intros ->. cbn [fst snd]. rewrite (proj2 (le_iff (Some (9 / 10)) 1)) by (eexists; split; [reflexivity|lra]). eexists. reflexivity.
  Qed.
  (** A failed NDT never moves a submap: the guess is kept, at most normalised. *)
  Theorem C123_failed_ndt : forall limit a c g r s, pts a <> [] -> pts c <> [] -> use_ndt = true ->
    (let f x := if use_voxel then voxel x else x in forall s, snd (ndt (f a) (f c) g) = Some s -> 1 < s) ->
    pair_match NdtGicp limit (Some a) (Some c) g = Ok (r, s) -> r = g \/ r = normalize g.
  Proof.
    intros limit a c g r s A C U F H. unfold MatcherModel.pair_match in H. cbn in H.
    assert (Ea : empty a = false) by (unfold empty; destruct (pts a); congruence).
    assert (Ec : empty c = false) by (unfold empty; destruct (pts c); congruence). rewrite Ea in H. unfold create, with_source in H. cbn in H. rewrite Ec in H.
    unfold with_target in H. cbn [type source target score] in H.
    destruct (proj1 (C123_ndt_gicp (mkMatcher NdtGicp (Some a) (Some c) None) g one a c eq_refl eq_refl eq_refl) (conj U F)) as (m' & E & S).
    rewrite E in H. cbn [bind fst snd] in H. rewrite S in H. cbn [bind] in H. injection H as H _. subst r. destruct (Rle_dec _ _); auto.
  Qed.

  (** Submap matching with libpointmatcher: the match is used iff the mean distance of the matches is at most -ln of the
      limit; Align's own verdict plays no role. *)
  Theorem C123_pair : forall limit a c g t l d, 0 < limit -> pts a <> [] -> pts c <> [] -> existsb broken (pts a) = false -> existsb broken (pts c) = false ->
    pm (Some a) (Some c) g = Ok (t, l) -> mean l = Some d ->
    exists r, pair_match IcpPm limit (Some a) (Some c) g = Ok (r, Some (exp (- d))) /\ (d <= - ln limit -> r = normalize t) /\ (- ln limit < d -> r = g).
  Proof.
    intros limit a c g t l d L A C Ba Bc E M. unfold MatcherModel.pair_match. cbn.
    assert (Ea : empty a = false) by (unfold empty; destruct (pts a); congruence).
    assert (Ec : empty c = false) by (unfold empty; destruct (pts c); congruence). rewrite Ea, Ba. cbn. rewrite Ec, Bc. cbn. rewrite E. cbn. rewrite M. cbn.
    eexists. split; [reflexivity|]. split; intros H.
    - destruct (Rle_dec _ _) as [|N]; [reflexivity|]. contradict N. apply exp_ge; assumption.
    - destruct (Rle_dec _ _) as [N|]; [|reflexivity]. apply exp_ge in N; [lra|assumption].
  Qed.
  (** Without any match the score is NaN: Align reports success, the pair keeps the guess. *)
  Theorem C123_no_matches : forall limit a c g t, pts a <> [] -> pts c <> [] -> existsb broken (pts a) = false -> existsb broken (pts c) = false ->
    pm (Some a) (Some c) g = Ok (t, []) ->
    pair_match IcpPm limit (Some a) (Some c) g = Ok (g, None) /\
    forall m o, type m = IcpPm -> source m = Some a -> target m = Some c -> exists m', align m g o = Ok (true, t, m').
  Proof.
    intros limit a c g t A C Ba Bc E. split.
    - unfold MatcherModel.pair_match. cbn.
      assert (Ea : empty a = false) by (unfold empty; destruct (pts a); congruence).
      assert (Ec : empty c = false) by (unfold empty; destruct (pts c); congruence). rewrite Ea, Ba. cbn. rewrite Ec, Bc. cbn. rewrite E. reflexivity.
    - intros m o K S G. unfold MatcherModel.align. rewrite K, S, G, E. cbn. eexists. reflexivity.
  Qed.

  (** NDT's score is a squared distance: its matches are used iff they are bad enough. *)
  Theorem C123_ndt_backwards : forall limit a c g t s, pts a <> [] -> pts c <> [] -> plain a c g = (t, Some s) ->
    exists r, pair_match Ndt limit (Some a) (Some c) g = Ok (r, Some s) /\ (limit <= s -> r = normalize t) /\ (s < limit -> r = g).
  Proof.
    intros limit a c g t s A C E. unfold MatcherModel.pair_match. cbn.
    assert (Ea : empty a = false) by (unfold empty; destruct (pts a); congruence).
    assert (Ec : empty c = false) by (unfold empty; destruct (pts c); congruence). rewrite Ea. cbn. rewrite Ec. cbn. rewrite E. cbn.
    eexists. split; [reflexivity|]. split; intros H; destruct (Rle_dec _ _); auto; lra.
  Qed.

  (** A loop is closed iff the mean distance of its matches is below -ln of the limit; the score of the edge is that
      distance.  The guess is the relative pose at height 0. *)
  Theorem C123_loop : forall limit a c rel o t l d, 0 < limit -> pts a <> [] -> pts c <> [] -> existsb broken (pts a) = false -> existsb broken (pts c) = false ->
    pm (Some a) (Some c) (flatten rel) = Ok (t, l) -> mean l = Some d ->
    (d < - ln limit -> loop_match limit (Some a) (Some c) rel o = Ok (Some (t, Some d))) /\
    (- ln limit <= d -> loop_match limit (Some a) (Some c) rel o = Ok None).
  Proof.
    intros limit a c rel o t l d L A C Ba Bc E M. unfold MatcherModel.loop_match. cbn.
    assert (Ea : empty a = false) by (unfold empty; destruct (pts a); congruence).
    assert (Ec : empty c = false) by (unfold empty; destruct (pts c); congruence). rewrite Ea, Ba. cbn. rewrite Ec, Bc. cbn. rewrite E. cbn. rewrite M. cbn.
    split; intros H.
    - destruct (Rlt_dec _ _) as [|N]; [|contradict N; apply exp_gt; assumption]. rewrite ln_exp, Ropp_involutive. reflexivity.
    - destruct (Rlt_dec _ _) as [N|]; [apply exp_gt in N; [lra|assumption]|reflexivity].
  Qed.
End Claims.
Print Assumptions C122_inputs.
Print Assumptions C122_source_fails.
Print Assumptions C122_target_fails.
Print Assumptions C122_missing.
Print Assumptions C122_pair_without_points.
Print Assumptions C122_front_without_points.
Print Assumptions C122_fast_submaps.
Print Assumptions C123_scores.
Print Assumptions C123_score_stays.
Print Assumptions C123_ndt_gicp.
Print Assumptions C123_failed_ndt.
Print Assumptions C123_pair.
Print Assumptions C123_no_matches.
Print Assumptions C123_ndt_backwards.
Print Assumptions C123_loop.

(** Concrete matchers over clouds of numbers: the transform of a match is the number of source points. *)
Definition demo_pm (d : R) (a c : option (cloud nat)) (g : nat) : outcome (nat * list R) :=
  match a, c with Some x, Some _ => Ok (length (pts x), [d; d]) | _, _ => Throw end.
Definition demo_lib (s : num) (a c : cloud nat) (g : nat) : nat * num := (length (pts a), s).
Definition demo_fast (a c : cloud nat) (g : nat) : outcome (nat * num) := Ok (length (pts a), Some 1).
Definition demo_pair (k : kind) (d limit : R) : outcome (nat * num) :=
  pair_match (fun _ => false) (demo_pm d) (demo_lib (Some d)) (demo_lib (Some d)) (demo_lib (Some d)) demo_fast (fun c => c) true false (fun t => t) 0%nat
    k limit (Some (mkCloud [1; 2; 3]%nat true)) (Some (mkCloud [4; 5]%nat true)) 77%nat.
Definition demo_step := step (fun _ => false) (demo_pm 1) (demo_lib (Some 0)) (demo_lib (Some 0)) (demo_lib (Some 0)) demo_fast (fun c => c) true false.
(** Three sources, the last one empty. *)
Example C122_ex : run demo_step (create Ndt) [Source (Some (mkCloud [1]%nat false)); Target (Some (mkCloud [2]%nat false)); Source (Some (mkCloud [3; 4]%nat false));
    Source (Some (mkCloud [] false)); Align 5%nat 6%nat] =
  Ok (mkMatcher Ndt (Some (mkCloud [3; 4]%nat false)) (Some (mkCloud [2]%nat false)) (Some (Some 0))).
Proof. reflexivity. Qed.
Example C123_ex : demo_pair IcpPm 0 (7 / 10) = Ok (3%nat, Some (exp (- 0))).
Proof.
  unfold demo_pair. destruct (C123_pair (fun _ => false) (demo_pm 0) (demo_lib (Some 0)) (demo_lib (Some 0)) (demo_lib (Some 0)) demo_fast (fun c => c) true false (fun t => t) 0%nat
    (7 / 10) (mkCloud [1; 2; 3]%nat true) (mkCloud [4; 5]%nat true) 77%nat 3%nat [0; 0] 0) as (r & E & A & _); try reflexivity; try discriminate; try lra.
  - cbn. f_equal. lra.
  - rewrite E, A; [reflexivity|]. assert (X := ln_increasing (7 / 10) 1 ltac:(lra) ltac:(lra)). rewrite ln_1 in X. lra.
Qed.

(** "Align matches the source given last": no, an empty one is ignored. *)
Theorem C122_last_source_refuted :
  ~ (forall m c m' t g o r m'', type m = Ndt -> set_source (fun _ : nat => false) m (Some c) = Ok m' -> target m' = Some t ->
       align (demo_pm 1) (demo_lib (Some 0)) (demo_lib (Some 0)) (demo_lib (Some 0)) demo_fast (fun c => c) true false m' g o = Ok (true, r, m'') ->
       r = fst (demo_lib (Some 0) c t g)).
Proof.
  intros H. specialize (H (mkMatcher Ndt (Some (mkCloud [1]%nat false)) (Some (mkCloud [2]%nat false)) None) (mkCloud [] false) _ _ 0%nat 0%nat _ _ eq_refl eq_refl eq_refl eq_refl).
  discriminate.
Qed.
Print Assumptions C122_last_source_refuted.
(** "A better match is used when a worse one is": no, not with NDT. *)
Theorem C123_better_refuted :
  ~ (forall k d e limit s, 0 <= d < e -> 0 < limit -> demo_pair k e limit = Ok (3%nat, s) -> exists s', demo_pair k d limit = Ok (3%nat, s')).
Proof.
  intros H. assert (X : demo_pair Ndt 1 (7 / 10) = Ok (3%nat, Some 1)).
  { unfold demo_pair. cbn. destruct (Rle_dec (7 / 10) 1); [reflexivity|lra]. }
  destruct (H Ndt 0 1 (7 / 10) _ ltac:(lra) ltac:(lra) X) as (s' & E). unfold demo_pair in E. cbn in E.
  destruct (Rle_dec (7 / 10) 0); [lra|discriminate].
Qed.
Print Assumptions C123_better_refuted.
(** "The result of a match that Align reports as failed is not used": no. *)
Theorem C123_failed_refuted :
  ~ (forall d limit m g o r m' s, align (demo_pm d) (demo_lib (Some d)) (demo_lib (Some d)) (demo_lib (Some d)) demo_fast (fun c => c) true false m g o = Ok (false, r, m') ->
       m = mkMatcher IcpPm (Some (mkCloud [1; 2; 3]%nat true)) (Some (mkCloud [4; 5]%nat true)) None -> demo_pair IcpPm d limit <> Ok (3%nat, s)).
Proof.
  intros H. set (d := - ln (55 / 100)).
  assert (M : (d + (d + 0)) / (1 + 1) = d) by field.
  assert (D : exp (- d) = 55 / 100) by (unfold d; rewrite Ropp_involutive; apply exp_ln; lra).
  apply (H d (1 / 2) (mkMatcher IcpPm (Some (mkCloud [1; 2; 3]%nat true)) (Some (mkCloud [4; 5]%nat true)) None) 0%nat 0%nat 3%nat
           (mkMatcher IcpPm (Some (mkCloud [1; 2; 3]%nat true)) (Some (mkCloud [4; 5]%nat true)) (Some (Some (55 / 100)))) (Some (55 / 100))).
  - cbn. rewrite M, D. destruct (Rlt_dec (55 / 100) (6 / 10)); [reflexivity|lra].
  - reflexivity.
  - unfold demo_pair. cbn. rewrite M, D. destruct (Rle_dec (1 / 2) (55 / 100)); [reflexivity|lra].
Qed.
Print Assumptions C123_failed_refuted.
