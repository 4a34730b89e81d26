From Coq Require Import Reals ZArith List Bool QArith Qreals Lra Lia.
From Verif Require Import NdtStepModel NdtStepSpec.
Import ListNotations.

(** * Any numbers. *)
Section Any.
  Variables (num mat6 : Type).
  Variables (add sub mul div : num -> num -> num) (opp absolute root : num -> num) (lt le eq : num -> num -> bool).
  Variable const : Q -> num.
  Variables (dot : (nat -> num) -> (nat -> num) -> num) (norm : (nat -> num) -> num) (unit_of : (nat -> num) -> nat -> num)
            (solve : mat6 -> (nat -> num) -> nat -> num).
  Variables (score_at : (nat -> num) -> num) (gradient_at : (nat -> num) -> nat -> num) (hessian_at hessian_again : (nat -> num) -> mat6).
  Variable zero_matrix : mat6.
  Variables (step_size epsilon : num) (max_iterations : Z).

  Let z := zero num const.
  Let search' := search num mat6 add sub mul div opp absolute root lt le const dot score_at gradient_at hessian_again zero_matrix.
  Let step_length' := step_length num mat6 add sub mul div opp absolute root lt le eq const dot score_at gradient_at hessian_at hessian_again zero_matrix.
  Let turn' := turn num mat6 add sub mul div opp absolute root lt le eq const dot norm unit_of solve score_at gradient_at hessian_at
    hessian_again zero_matrix step_size epsilon max_iterations.
  Let loop' := loop num mat6 add sub mul div opp absolute root lt le eq const dot norm unit_of solve score_at gradient_at hessian_at
    hessian_again zero_matrix step_size epsilon max_iterations.

  (** The loop does not run when it starts converged. *)
  Lemma search_converged : forall n x dir smx smn f0 g0 open ran l u a ft gt pt dpt xt h seen,
    search' n x dir smx smn f0 g0 true open ran l u a ft gt pt dpt xt h seen
    = mkStep num mat6 a dir (Some xt) (score_at xt) (gradient_at xt) (if ran then hessian_again xt else h) seen.
  Proof. intros. destruct n; reflexivity. Qed.

  (** Whatever the loop does, it ends at some length a, having called last at the final place, in the same direction. *)
  Lemma search_shape : forall n x dir smx smn f0 g0 conv open ran l u a ft gt pt dpt xt h seen,
    (exists before, seen = before ++ [xt]) -> xt = ahead num add mul x dir a ->
    let r := search' n x dir smx smn f0 g0 conv open ran l u a ft gt pt dpt xt h seen in
    direction _ _ r = dir /\ final _ _ r = Some (ahead num add mul x dir (length_ _ _ r)) /\
    s_score _ _ r = score_at (ahead num add mul x dir (length_ _ _ r)) /\
    s_gradient _ _ r = gradient_at (ahead num add mul x dir (length_ _ _ r)) /\
    (exists before, calls _ _ r = before ++ [ahead num add mul x dir (length_ _ _ r)]) /\
    (List.length (calls _ _ r) <= List.length seen + n)%nat /\
    (length_ _ _ r = a \/ exists b, length_ _ _ r = clamp num lt b smx smn).
  Proof.
    induction n as [|n IH]; intros x dir smx smn f0 g0 conv open ran l u a ft gt pt dpt xt h seen [before E] Ex r.
    - subst r xt. cbn. repeat split; [exists before; exact E|lia|now left].
    - subst r. cbn [search search']. unfold search'. cbn [search].
      destruct (negb conv && negb (good_enough num mul opp le const pt gt g0))%bool.
      2:{ subst xt. cbn. repeat split; [exists before; exact E|lia|now left]. }
      match goal with |- context [if ?o then update_interval _ _ _ _ _ _ _ _ else _] => set (op := o) end.
      match goal with |- context [let '(_, _) := ?t in _] => destruct t as [[l' u'] c'] end.
      match goal with |- context [search _ _ _ _ _ _ _ _ _ _ _ _ _ _ _ _ _ n x dir smx smn f0 g0 c' op true l' u' ?a' ?ft' ?gt' ?pt' ?dpt' ?xt' ?h' ?seen'] =>
        specialize (IH x dir smx smn f0 g0 c' op true l' u' a' ft' gt' pt' dpt' xt' h' seen'
                       (ex_intro _ seen eq_refl) eq_refl) end.
      cbn zeta in IH. fold search'. destruct IH as (A & B & C & D & F & G & H).
      repeat split; try assumption.
      + rewrite app_length in G. cbn in G. lia.
      + destruct H as [H|H]; [|now right]. right. eexists. exact H.
  Qed.

  Definition slope_down (gradient dir : nat -> num) : num := opp (dot gradient dir).
  Definition flat (gradient dir : nat -> num) : bool := (le z (slope_down gradient dir) && eq (slope_down gradient dir) z)%bool.
  Definition facing (gradient dir : nat -> num) : nat -> num :=
    if le z (slope_down gradient dir) then (fun i => mul (dir i) (const (-1))) else dir.

  Lemma step_flat : forall x dir n smx smn score gradient hess, flat gradient dir = true ->
    step_length' x dir n smx smn score gradient hess = mkStep num mat6 z dir None score gradient hess [].
  Proof. intros x dir n smx smn score gradient hess H. unfold step_length', step_length. unfold flat, slope_down in H. unfold ge. fold z. now rewrite H. Qed.

  Lemma step_search : forall x dir n smx smn score gradient hess, flat gradient dir = false ->
    let g0 := if le z (slope_down gradient dir) then mul (slope_down gradient dir) (const (-1)) else slope_down gradient dir in
    let l := (z, psi num sub mul const z (opp score) (opp score) g0, dpsi num sub mul const g0 g0) in
    let d := facing gradient dir in
    let a := clamp num lt n smx smn in
    let q := ahead num add mul x d a in
    step_length' x dir n smx smn score gradient hess
    = search' 10 x d smx smn (opp score) g0 (lt z (sub smx smn)) true false l l a (opp (score_at q)) (opp (dot (gradient_at q) d))
        (psi num sub mul const a (opp (score_at q)) (opp score) g0) (dpsi num sub mul const (opp (dot (gradient_at q) d)) g0) q (hessian_at q) [q].
  Proof.
    intros x dir n smx smn score gradient hess H. cbn zeta. unfold step_length', step_length. unfold flat, slope_down in H.
    unfold ge. fold z. rewrite H. reflexivity.
  Qed.

  Lemma step_no_search : forall x dir n smx smn score gradient hess, flat gradient dir = false -> lt z (sub smx smn) = true ->
    let a := clamp num lt n smx smn in
    let d := facing gradient dir in
    let q := ahead num add mul x d a in
    step_length' x dir n smx smn score gradient hess
    = mkStep num mat6 a d (Some q) (score_at q) (gradient_at q) (hessian_at q) [q].
  Proof.
    intros x dir n smx smn score gradient hess H L a d q. rewrite step_search by exact H. rewrite L. now rewrite search_converged.
  Qed.

  Lemma step_shape : forall x dir n smx smn score gradient hess, flat gradient dir = false ->
    let r := step_length' x dir n smx smn score gradient hess in
    let q := ahead num add mul x (facing gradient dir) (length_ _ _ r) in
    direction _ _ r = facing gradient dir /\ final _ _ r = Some q /\ s_score _ _ r = score_at q /\
    s_gradient _ _ r = gradient_at q /\ (exists before, calls _ _ r = before ++ [q]) /\
    (List.length (calls _ _ r) <= 11)%nat /\ exists b, length_ _ _ r = clamp num lt b smx smn.
  Proof.
    intros x dir n smx smn score gradient hess H r q. subst q r. rewrite step_search by exact H.
    match goal with |- context [search' 10 ?x ?d smx smn ?f0 ?g0 ?c ?o ?ra ?l ?u ?a ?ft ?gt ?pt ?dpt ?xt ?h ?seen] =>
      pose proof (search_shape 10 x d smx smn f0 g0 c o ra l u a ft gt pt dpt xt h seen (ex_intro _ [] eq_refl) eq_refl) as S end.
    cbn zeta in S. destruct S as (A & B & C & D & E & F & G).
    split; [exact A|]. split; [exact B|]. split; [exact C|]. split; [exact D|]. split; [exact E|]. split; [exact F|].
    destruct G as [G|G]; [|exact G]. eexists. exact G.
  Qed.

  Lemma turn_cases : forall s,
    let delta := solve (cur_hessian _ _ s) (fun i => opp (cur_gradient _ _ s i)) in
    let n := norm delta in
    (eq n z = true \/ eq n n = false) /\ turn' s = inr (eq n n, s) \/
    eq n z = false /\ eq n n = true /\
    exists r s', r = step_length' (p _ _ s) (unit_of delta) n step_size (least_step num div const epsilon)
                                  (cur_score _ _ s) (cur_gradient _ _ s) (cur_hessian _ _ s) /\
      s' = mkSt num mat6 (ahead num add mul (p _ _ s) (direction _ _ r) (length_ _ _ r))
             (match final _ _ r with Some q => Some q | None => placed _ _ s end)
             (s_score _ _ r) (s_gradient _ _ r) (s_hessian _ _ r) (iterations _ _ s + 1)
             (lengths _ _ s ++ [length_ _ _ r]) (evaluations _ _ s ++ calls _ _ r) /\
      turn' s = if ((max_iterations <? iterations _ _ s)%Z
          || (negb (iterations _ _ s =? 0)%Z && lt (absolute (length_ _ _ r)) epsilon))%bool
      then inr (true, s') else inl s'.
  Proof.
    intros s delta n. unfold turn', turn. fold delta. fold n. fold z.
    destruct (eq n z) eqn:E; cbn [orb]; [left; split; [now left|reflexivity]|].
    destruct (eq n n) eqn:F; cbn [negb]; [right|left; split; [now right|reflexivity]].
    split; [reflexivity|]. split; [reflexivity|]. eexists. eexists. split; [reflexivity|]. split; [reflexivity|]. reflexivity.
  Qed.

  (** The loop ends after at most max_iterations + 2 turns. *)
  Definition counted (s : state num mat6) : Prop :=
    (0 <= iterations _ _ s)%Z /\ List.length (lengths _ _ s) = Z.to_nat (iterations _ _ s).

  Lemma turn_counted : forall s, counted s ->
    match turn' s with inl s' => counted s' /\ iterations _ _ s' = (iterations _ _ s + 1)%Z /\ (iterations _ _ s <= max_iterations)%Z
                  | inr (_, s') => counted s' /\ (iterations _ _ s' <= iterations _ _ s + 1)%Z end.
  Proof.
    intros s [C D]. destruct (turn_cases s) as [[_ E]|(_ & _ & r & s' & _ & Es & E)]; cbn zeta in *; rewrite E.
    - split; [split; assumption|lia].
    - assert (K : counted s').
      { subst s'. split; cbn [iterations lengths]; [lia|]. rewrite app_length, D. cbn. lia. }
      assert (I : iterations _ _ s' = (iterations _ _ s + 1)%Z) by now subst s'.
      destruct (Z.ltb_spec max_iterations (iterations _ _ s)) as [L|L]; cbn [orb].
      + split; [exact K|lia].
      + destruct (_ && _)%bool; [split; [exact K|lia]|]. split; [exact K|]. lia.
  Qed.

  Lemma loop_ends : forall fuel s, counted s -> (max_iterations + 2 - iterations _ _ s <= Z.of_nat fuel)%Z ->
    (iterations _ _ s <= max_iterations + 1)%Z ->
    exists c s', loop' fuel s = Some (c, s') /\ counted s' /\ (iterations _ _ s' <= max_iterations + 2)%Z.
  Proof.
    induction fuel as [|fuel IH]; intros s C F I; [lia|]. unfold loop'. cbn [loop]. fold turn'. fold loop'.
    pose proof (turn_counted s C) as T. destruct (turn' s) as [s'|[c s']].
    - destruct T as (K & E & M). apply IH; [exact K|lia|lia].
    - destruct T as [K E]. exists c, s'. split; [reflexivity|]. split; [exact K|lia].
  Qed.

  (** Invariants of the loop. *)
  Lemma loop_inv : forall (I : state num mat6 -> Prop),
    (forall s, I s -> match turn' s with inl s' => I s' | inr (_, s') => I s' end) ->
    forall fuel s e, I s -> loop' fuel s = Some e -> I (snd e).
  Proof.
    intros I H fuel. induction fuel as [|fuel IH]; intros s e Hs E; [discriminate|].
    unfold loop' in E. cbn [loop] in E. fold turn' in E. fold loop' in E. specialize (H s Hs).
    destruct (turn' s) as [s'|[c s']]; [now apply (IH s')|]. injection E as <-. exact H.
  Qed.
End Any.

(** * Real numbers. *)
Local Open Scope R_scope.

Lemma rlt_true : forall a b, rlt a b = true <-> a < b.
Proof. intros. unfold rlt. destruct (Rlt_dec a b); split; intros; [assumption|reflexivity|discriminate|lra]. Qed.
Lemma rlt_false : forall a b, rlt a b = false <-> b <= a.
Proof. intros. unfold rlt. destruct (Rlt_dec a b); split; intros; [discriminate|lra|lra|reflexivity]. Qed.
Lemma rle_true : forall a b, rle a b = true <-> a <= b.
Proof. intros. unfold rle. destruct (Rle_dec a b); split; intros; [assumption|reflexivity|discriminate|lra]. Qed.
Lemma rle_false : forall a b, rle a b = false <-> b < a.
Proof. intros. unfold rle. destruct (Rle_dec a b); split; intros; [discriminate|lra|lra|reflexivity]. Qed.
Lemma req_true : forall a b, req a b = true <-> a = b.
Proof. intros. unfold req. destruct (Req_EM_T a b); split; intros; [assumption|reflexivity|discriminate|contradiction]. Qed.
Lemma req_false : forall a b, req a b = false <-> a <> b.
Proof. intros. unfold req. destruct (Req_EM_T a b); split; intros; [discriminate|contradiction|assumption|reflexivity]. Qed.

Lemma Q2R_0 : Q2R 0 = 0.
Proof. unfold Q2R. cbn. lra. Qed.
Lemma Q2R_m1 : Q2R (-1) = -1.
Proof. unfold Q2R. cbn. lra. Qed.
Lemma Q2R_2 : Q2R 2 = 2.
Proof. unfold Q2R. cbn. lra. Qed.

Lemma clamp_max : forall a smx smn, clamp R rlt a smx smn = Rmax (Rmin a smx) smn.
Proof.
  intros. unfold clamp, smax, smin, rlt.
  destruct (Rlt_dec smx a) as [L|L].
  - rewrite (Rmin_right a smx) by lra. destruct (Rlt_dec smx smn); [rewrite Rmax_right|rewrite Rmax_left]; lra.
  - rewrite (Rmin_left a smx) by lra. destruct (Rlt_dec a smn); [rewrite Rmax_right|rewrite Rmax_left]; lra.
Qed.
Lemma clamp_const : forall a smx smn, smx <= smn -> clamp R rlt a smx smn = smn.
Proof. intros. rewrite clamp_max. apply Rmax_right. pose proof (Rmin_r a smx). lra. Qed.

(** ** Scalar products. *)
Lemma dot6_sum : forall a b, dot6 a b = a 0%nat * b 0%nat + a 1%nat * b 1%nat + a 2%nat * b 2%nat + a 3%nat * b 3%nat + a 4%nat * b 4%nat + a 5%nat * b 5%nat.
Proof. intros. unfold dot6, six. cbn [fold_right]. ring. Qed.
Lemma dot6_nonneg : forall a, 0 <= dot6 a a.
Proof.
  intro a. rewrite dot6_sum.
  pose proof (Rle_0_sqr (a 0%nat)). pose proof (Rle_0_sqr (a 1%nat)). pose proof (Rle_0_sqr (a 2%nat)).
  pose proof (Rle_0_sqr (a 3%nat)). pose proof (Rle_0_sqr (a 4%nat)). pose proof (Rle_0_sqr (a 5%nat)). unfold Rsqr in *. lra.
Qed.
Lemma norm6_nonneg : forall a, 0 <= norm6 a.
Proof. intro. apply sqrt_pos. Qed.
Lemma norm6_sq : forall a, norm6 a * norm6 a = dot6 a a.
Proof. intro. apply sqrt_sqrt, dot6_nonneg. Qed.
Lemma norm6_ext : forall a b, (forall i, a i = b i) -> norm6 a = norm6 b.
Proof. intros a b H. unfold norm6. f_equal. rewrite !dot6_sum, !H. reflexivity. Qed.
Lemma norm6_scale : forall k a, norm6 (fun i => a i * k) = Rabs k * norm6 a.
Proof.
  intros k a. unfold norm6. replace (dot6 (fun i => a i * k) (fun i => a i * k)) with (Rsqr k * dot6 a a).
  - rewrite sqrt_mult_alt by apply Rle_0_sqr. now rewrite sqrt_Rsqr_abs.
  - rewrite !dot6_sum. unfold Rsqr. ring.
Qed.
Lemma norm6_unit : forall a, norm6 a <> 0 -> norm6 (unit6 a) = 1.
Proof.
  intros a H. unfold unit6, Rdiv. rewrite norm6_scale. pose proof (norm6_nonneg a).
  rewrite Rabs_pos_eq by (left; apply Rinv_0_lt_compat; lra). now apply Rinv_l.
Qed.
Lemma cauchy6 : forall a b, dot6 a b <= norm6 a * norm6 b.
Proof.
  intros a b. destruct (Rle_dec (dot6 a b) 0) as [N|P].
  - pose proof (Rmult_le_pos _ _ (norm6_nonneg a) (norm6_nonneg b)). lra.
  - assert (B : 0 < dot6 b b).
    { destruct (dot6_nonneg b) as [L|E]; [exact L|]. exfalso. apply P. rewrite dot6_sum in E |- *.
      pose proof (Rle_0_sqr (b 0%nat)). pose proof (Rle_0_sqr (b 1%nat)). pose proof (Rle_0_sqr (b 2%nat)).
      pose proof (Rle_0_sqr (b 3%nat)). pose proof (Rle_0_sqr (b 4%nat)). pose proof (Rle_0_sqr (b 5%nat)). unfold Rsqr in *.
      assert (Z : forall i, b i * b i = 0 -> b i = 0) by (intros i Hi; now apply Rsqr_0_uniq).
      rewrite (Z 0%nat), (Z 1%nat), (Z 2%nat), (Z 3%nat), (Z 4%nat), (Z 5%nat) by lra. lra. }
    assert (Q : dot6 a b * dot6 a b <= dot6 a a * dot6 b b).
    { pose proof (dot6_nonneg (fun i => a i * dot6 b b - b i * dot6 a b)) as D.
      replace (dot6 (fun i => a i * dot6 b b - b i * dot6 a b) (fun i => a i * dot6 b b - b i * dot6 a b))
        with (dot6 b b * (dot6 a a * dot6 b b - dot6 a b * dot6 a b)) in D.
      - apply Rmult_le_reg_l with (dot6 b b); [exact B|]. lra.
      - set (x := dot6 b b) at 1 3 4. set (y := dot6 a b) at 2 3 4.
        assert (Y : y = dot6 a b) by reflexivity. assert (X : x = dot6 b b) by reflexivity. clearbody x y.
        rewrite (dot6_sum (fun i => a i * x - b i * y)).
        replace (x * (dot6 a a * dot6 b b - dot6 a b * y)) with (x * x * dot6 a a - 2 * x * y * dot6 a b + y * y * dot6 b b).
        + rewrite !dot6_sum. ring.
        + rewrite <- X, <- Y. ring. }
    rewrite <- (norm6_sq a), <- (norm6_sq b) in Q.
    apply Rnot_lt_le. intro L. pose proof (Rmult_le_pos _ _ (norm6_nonneg a) (norm6_nonneg b)) as M.
    pose proof (Rmult_le_0_lt_compat _ _ _ _ M M L L). lra.
Qed.
Lemma triangle6 : forall a b, norm6 (fun i => a i + b i) <= norm6 a + norm6 b.
Proof.
  intros a b. apply Rnot_lt_le. intro L. pose proof (norm6_nonneg a). pose proof (norm6_nonneg b).
  assert (P : 0 <= norm6 a + norm6 b) by lra.
  pose proof (Rmult_le_0_lt_compat _ _ _ _ P P L L) as M. rewrite norm6_sq in M.
  replace (dot6 (fun i => a i + b i) (fun i => a i + b i)) with (dot6 a a + 2 * dot6 a b + dot6 b b) in M
    by (rewrite !dot6_sum; ring).
  rewrite <- !norm6_sq in M. pose proof (cauchy6 a b). lra.
Qed.
Lemma apart_step : forall a b dir k, norm6 dir = 1 -> 0 <= k -> apart (fun i => a i + dir i * k) b <= apart a b + k.
Proof.
  intros a b dir k U K. unfold apart.
  rewrite (norm6_ext (fun i => a i + dir i * k - b i) (fun i => (fun i => a i - b i) i + (fun i => dir i * k) i)) by (intro; cbn; ring).
  eapply Rle_trans; [apply triangle6|]. rewrite norm6_scale, U, Rabs_pos_eq by exact K. lra.
Qed.
Lemma apart_same : forall a b, (forall i, a i = b i) -> apart a b = 0.
Proof.
  intros a b H. unfold apart. rewrite (norm6_ext _ (fun i => (fun _ => 0) i * 0)) by (intro; rewrite H; ring).
  rewrite norm6_scale, Rabs_R0. ring.
Qed.
Lemma apart_ext : forall a a' b, (forall i, a i = a' i) -> apart a b = apart a' b.
Proof. intros a a' b H. unfold apart. apply norm6_ext. intro. now rewrite H. Qed.
Lemma total_app : forall l a, total (l ++ [a]) = total l + a.
Proof. induction l as [|x l IH]; intro a; cbn; [ring|]. unfold total in *. rewrite IH. ring. Qed.

Section Real.
  Variables (mat6 : Type) (solve : mat6 -> (nat -> R) -> nat -> R).
  Variables (score_at : (nat -> R) -> R) (gradient_at : (nat -> R) -> nat -> R) (hessian_at hessian_again : (nat -> R) -> mat6).
  Variable zero_matrix : mat6.
  Let flatR := flat R Ropp rle req Q2R dot6.
  Let facingR := facing R Rmult Ropp rle Q2R dot6.
  Let rstep := rstep_length mat6 score_at gradient_at hessian_at hessian_again zero_matrix.

  Lemma flatR_true : forall g d, flatR g d = true <-> dot6 g d = 0.
  Proof.
    intros g d. unfold flatR, flat, slope_down, zero. rewrite Q2R_0, andb_true_iff, rle_true, req_true. lra.
  Qed.
  Lemma facingR_value : forall g d i, facingR g d i = if Rle_dec (dot6 g d) 0 then - d i else d i.
  Proof.
    intros g d i. unfold facingR, facing, slope_down, zero. rewrite Q2R_0, Q2R_m1.
    destruct (Rle_dec (dot6 g d) 0) as [L|L].
    - replace (rle 0 (- dot6 g d)) with true by (symmetry; apply rle_true; lra). ring.
    - replace (rle 0 (- dot6 g d)) with false by (symmetry; apply rle_false; lra). reflexivity.
  Qed.
  Lemma facingR_up : forall g d, dot6 g (facingR g d) = Rabs (dot6 g d).
  Proof.
    intros g d. rewrite (dot6_sum g (facingR g d)), !facingR_value. destruct (Rle_dec (dot6 g d) 0) as [L|L].
    - rewrite Rabs_left1 by exact L. rewrite dot6_sum. ring.
    - rewrite Rabs_pos_eq by lra. rewrite dot6_sum. ring.
  Qed.
  Lemma facingR_unit : forall g d, norm6 (facingR g d) = norm6 d.
  Proof.
    intros g d. unfold norm6. f_equal. rewrite !dot6_sum, !facingR_value. destruct (Rle_dec (dot6 g d) 0); ring.
  Qed.

  (** The length of a step in real arithmetic: the search never changes it. *)
  Lemma rstep_value : forall x dir n smx smn score gradient hess,
    let r := rstep x dir n smx smn score gradient hess in
    if req (dot6 gradient dir) 0
    then r = mkStep R mat6 0 dir None score gradient hess []
    else let a := Rmax (Rmin n smx) smn in
         let q := fun i => x i + facingR gradient dir i * a in
         length_ _ _ r = a /\ direction _ _ r = facingR gradient dir /\ final _ _ r = Some q /\
         s_score _ _ r = score_at q /\ s_gradient _ _ r = gradient_at q /\
         (exists before, calls _ _ r = before ++ [q]) /\
         (smn < smx -> s_hessian _ _ r = hessian_at q /\ calls _ _ r = [q]).
  Proof.
    intros x dir n smx smn score gradient hess r. destruct (req (dot6 gradient dir) 0) eqn:E.
    - apply req_true in E. apply flatR_true in E. unfold r, rstep, rstep_length. rewrite step_flat by exact E.
      unfold zero. now rewrite Q2R_0.
    - assert (F : flatR gradient dir = false).
      { apply req_false in E. destruct (flatR gradient dir) eqn:F; [|reflexivity]. apply flatR_true in F. contradiction. }
      intros a q. destruct (Rlt_dec smn smx) as [L|L].
      + assert (G : rlt (zero R Q2R) (smx - smn) = true) by (unfold zero; rewrite Q2R_0; apply rlt_true; lra).
        pose proof (step_no_search R mat6 Rplus Rminus Rmult Rdiv Ropp Rabs sqrt rlt rle req Q2R dot6 score_at gradient_at hessian_at hessian_again
          zero_matrix x dir n smx smn score gradient hess F G) as S. cbn zeta in S.
        unfold r, rstep, rstep_length. rewrite S. cbn [length_ direction final s_score s_gradient s_hessian calls].
        rewrite clamp_max. fold a. fold facingR.
        repeat split; try reflexivity. exists []. reflexivity.
      + pose proof (step_shape R mat6 Rplus Rminus Rmult Rdiv Ropp Rabs sqrt rlt rle req Q2R dot6 score_at gradient_at hessian_at hessian_again
          zero_matrix x dir n smx smn score gradient hess F) as S. cbn zeta in S.
        destruct S as (A & B & C & D & G & _ & b & H).
        assert (K : length_ _ _ r = a).
        { unfold r, rstep, rstep_length. rewrite H. rewrite clamp_const by lra. unfold a. rewrite Rmax_right; [reflexivity|].
          pose proof (Rmin_r n smx). lra. }
        unfold r, rstep, rstep_length in *. rewrite K in B, C, D, G.
        split; [exact K|]. split; [exact A|]. split; [exact B|]. split; [exact C|]. split; [exact D|]. split; [exact G|].
        intro. lra.
  Qed.

  Variables (step_size epsilon : R) (max_iterations : Z).
  Let rt := rturn mat6 solve score_at gradient_at hessian_at hessian_again zero_matrix step_size epsilon max_iterations.
  Let least := epsilon / 2.
  Hypothesis Least : 0 < least <= step_size.

  Definition moved (p0 : nat -> R) (s : state R mat6) : Prop :=
    apart (p _ _ s) p0 <= total (lengths _ _ s) /\
    Forall (fun a => a = 0 \/ least <= a <= step_size) (lengths _ _ s) /\
    match placed _ _ s with
    | Some q => forall i, q i = p _ _ s i
    | None => (forall i, p _ _ s i = p0 i) /\ Forall (fun a => a = 0) (lengths _ _ s)
    end.

  Lemma turn_moved : forall p0 s, moved p0 s -> match rt s with inl s' => moved p0 s' | inr (_, s') => moved p0 s' end.
  Proof.
    intros p0 s M. unfold rt, rturn.
    destruct (turn_cases R mat6 Rplus Rminus Rmult Rdiv Ropp Rabs sqrt rlt rle req Q2R dot6 norm6 unit6 solve score_at gradient_at
      hessian_at hessian_again zero_matrix step_size epsilon max_iterations s) as [[_ E]|(N & _ & r & s' & Er & Es & E)].
    - cbn zeta in E. rewrite E. exact M.
    - assert (K : moved p0 s').
      { clear E. set (delta := solve _ _) in *. unfold zero in N. rewrite Q2R_0 in N. apply req_false in N.
        pose proof (rstep_value (p _ _ s) (unit6 delta) (norm6 delta) step_size least (cur_score _ _ s) (cur_gradient _ _ s) (cur_hessian _ _ s)) as V.
        assert (L : least_step R Rdiv Q2R epsilon = least) by (unfold least_step, least; now rewrite Q2R_2). rewrite L in Er.
        cbn zeta in V. unfold rstep, rstep_length in V. rewrite <- Er in V. destruct M as (M1 & M2 & M3).
        destruct (req (dot6 (cur_gradient _ _ s) (unit6 delta)) 0).
        - rewrite V in Es. cbn [length_ direction final s_score s_gradient s_hessian calls] in Es. subst s'.
          unfold moved. cbn [p placed lengths]. unfold ahead. split; [|split].
          + rewrite total_app, Rplus_0_r. rewrite (apart_ext _ (p _ _ s)) by (intro; ring). exact M1.
          + apply Forall_app. split; [exact M2|]. constructor; [now left|constructor].
          + destruct (placed _ _ s) as [q|].
            * intro i. rewrite M3. ring.
            * split; [intro i; rewrite <- (proj1 M3); ring|]. apply Forall_app. split; [apply M3|]. now constructor.
        - destruct V as (A & B & C & _ & _ & _ & _). subst s'. unfold moved. cbn [p placed lengths]. rewrite A, B, C. unfold ahead.
          set (a := Rmax (Rmin (norm6 delta) step_size) least).
          assert (Ha : least <= a <= step_size).
          { unfold a. split; [apply Rmax_r|]. apply Rmax_lub; [apply Rmin_r|apply Least]. }
          split; [|split].
          + rewrite total_app. eapply Rle_trans; [apply apart_step|apply Rplus_le_compat_r; exact M1].
            * rewrite facingR_unit. now apply norm6_unit.
            * lra.
          + apply Forall_app. split; [exact M2|]. constructor; [now right|constructor].
          + reflexivity. }
      cbn zeta in E. rewrite E. destruct (_ || _)%bool; exact K.
  Qed.

  Lemma align_moved : forall p0 score gradient hess e,
    ralign mat6 solve score_at gradient_at hessian_at hessian_again zero_matrix step_size epsilon max_iterations p0 score gradient hess = Some e ->
    moved p0 (snd e).
  Proof.
    intros p0 score gradient hess e H. unfold ralign, align in H. eapply loop_inv; [|  |exact H].
    - intros s Hs. apply (turn_moved p0 s Hs).
    - unfold moved, start. cbn [p placed lengths]. rewrite apart_same by reflexivity. cbn. repeat split; try lra; constructor.
  Qed.
End Real.

Lemma total_bound : forall l b, Forall (fun a => a <= b) l -> total l <= INR (List.length l) * b.
Proof.
  induction l as [|a l IH]; intros b H; cbn [List.length total fold_right].
  - cbn. lra.
  - inversion H; subst. rewrite S_INR. specialize (IH b H3). unfold total in IH. lra.
Qed.
