(** C139: the parts of the line search of More and Thuente in the normal distributions transform, over the reals. *)
From Coq Require Import Reals List Bool Lra Lia Qreals.
From Verif Require Import NdtStepModel NdtStepSpec NdtStepProofs NdtLineSpec NdtLineProofs.
Local Open Scope R_scope.

(** What [is_min] says. *)
Theorem C139_minimum : forall p m, is_min p m -> exists e, 0 < e /\ forall x, 0 < Rabs (x - m) < e -> pval p m < pval p x.
Proof.
  intros p m [S C]. exists (pcurve p m / 2 / (Rabs (k3 p) + 1)). pose proof (Rabs_pos (k3 p)) as A. split; [apply Rdiv_lt_0_compat; lra|].
  intros x [X0 X1]. rewrite (pval_about p m x), S. set (y := x - m) in *.
  assert (Y : 0 < y * y) by (destruct (Req_dec y 0) as [->|N]; [rewrite Rabs_R0 in X0; lra|pose proof (Rsqr_pos_lt y N); assumption]).
  assert (L : Rabs (k3 p * y) < pcurve p m / 2).
  { rewrite Rabs_mult. apply (Rmult_lt_compat_r (Rabs (k3 p) + 1)) in X1; [|lra].
    replace (pcurve p m / 2 / (Rabs (k3 p) + 1) * (Rabs (k3 p) + 1)) with (pcurve p m / 2) in X1 by (field; lra). lra. }
  assert (B : 0 < pcurve p m / 2 + k3 p * y) by (apply Rabs_def2 in L; lra).
  pose proof (Rmult_lt_0_compat _ _ B Y) as K. lra.
Qed.
Print Assumptions C139_minimum.

(** The cubic interpolation, from a lower place to a higher one, is the minimum of the cubic that has the values and slopes at both
    ends (there is one such cubic for all ends). *)
Theorem C139_cubic : forall l t, at_ l < at_ t -> (exists p, fits p l /\ fits p t) /\
  forall p m, fits p l -> fits p t -> is_min p m -> ~ is_max p (middle l t) -> rcubic l t = m.
Proof. intros l t H. split; [apply fits_exists; lra|]. intros p m. apply cubic_min. exact H. Qed.
Print Assumptions C139_cubic.
(** From a higher place to a lower one it is the maximum: the sign of the root is missing. *)
Theorem C139_cubic_refuted : forall p l t m, at_ t < at_ l -> fits p l -> fits p t -> is_max p m -> ~ is_min p (middle l t) -> rcubic l t = m.
Proof. exact cubic_max. Qed.
Print Assumptions C139_cubic_refuted.
(** x^3/3 - x between -2 and 2. *)
Definition wave : poly := mkP 0 (-1) 0 (1 / 3).
Definition on (p : poly) (x : R) : place := (x, pval p x, pslope p x).
Lemma fits_on : forall p x, fits p (on p x).
Proof. intros. split; reflexivity. Qed.
Example C139_ex_cubic : is_min wave 1 /\ is_max wave (-1) /\ rcubic (on wave 0) (on wave 3) = 1 /\ rcubic (on wave 3) (on wave 0) = -1.
Proof.
  assert (Mi : is_min wave 1) by (unfold is_min, pslope, pcurve, wave; cbn; lra). assert (Ma : is_max wave (-1)) by (unfold is_max, pslope, pcurve, wave; cbn; lra).
  split; [exact Mi|]. split; [exact Ma|]. split.
  - apply (cubic_min wave); try apply fits_on; [cbn; lra|exact Mi|]. unfold is_max, middle, pslope, pcurve, wave; cbn; lra.
  - apply (cubic_max wave); try apply fits_on; [cbn; lra|exact Ma|]. unfold is_min, middle, pslope, pcurve, wave; cbn; lra.
Qed.

(** The slopes of a parabola give its vertex. *)
Theorem C139_secant : forall l t s, at_ l <> at_ t -> zero_slope l t s -> rsecant l t = s.
Proof. exact secant_finds. Qed.
Print Assumptions C139_secant.

(** ** The next place to try *)

(** Case 1: the new value is higher.  There is a minimum of the cubic between the ends; it is taken if it is nearer to the lower
    end than the vertex of the parabola, else the middle of both.  The result is between the ends. *)
Theorem C139_case1 : forall p l u t, at_ l < at_ t -> fits p l -> fits p t -> slope l < 0 -> val l < val t ->
  exists m v, is_min p m /\ at_ l < m < at_ t /\ vertex l t v /\ at_ l < v < middle l t /\
    (m < v -> rtrial l u t = m) /\ (v <= m -> rtrial l u t = (m + v) / 2) /\ at_ l < rtrial l u t < at_ t.
Proof.
  intros p l u t H Fl Ft G V. destruct (inner_min p l t H Fl Ft G (or_introl V)) as (m & M & Bm & N).
  pose proof (cubic_min p l t m H Fl Ft M N) as C.
  destruct l as [[al fl] gl], t as [[at' ft] gt'], u as [[au fu] gu]. cbn [at_ val slope fst snd middle] in *. unfold middle. cbn [at_ fst snd].
  set (h := at' - al). assert (Ph : 0 < h) by (unfold h; lra). assert (Phh : 0 < h * h) by (apply Rmult_lt_0_compat; assumption).
  set (k := (ft - fl - gl * h) / (h * h)).
  assert (Pn : - gl * h < ft - fl - gl * h) by lra. assert (Pg : 0 < - gl * h) by (apply Rmult_lt_0_compat; lra).
  assert (Pk : 0 < k) by (apply Rdiv_lt_0_compat; lra).
  assert (Ek : k * (h * h) = ft - fl - gl * h) by (unfold k; field; lra).
  set (v := al + - gl / (2 * k)). exists m, v.
  assert (Bv : al < v < (al + at') / 2).
  { unfold v. assert (0 < - gl / (2 * k)) by (apply Rdiv_lt_0_compat; lra). split; [lra|].
    assert (- gl / (2 * k) < h / 2); [|unfold h in *; lra]. apply (Rmult_lt_reg_r (2 * k)); [lra|]. replace (- gl / (2 * k) * (2 * k)) with (- gl) by (field; lra).
    apply (Rmult_lt_reg_r h); [assumption|]. replace (h / 2 * (2 * k) * h) with (k * (h * h)) by field. lra. }
  assert (Q : al - Q2R (1 # 2) * (al - at') * gl / (gl - (fl - ft) / (al - at')) = v).
  { rewrite Q2R_half. replace (al - at') with (- h) by (unfold h; ring). replace ft with (fl + gl * h + k * (h * h)) by lra. unfold v. field. lra. }
  assert (T : rtrial (al, fl, gl) (au, fu, gu) (at', ft, gt') = if rlt (m - al) (v - al) then m else (m + v) / 2).
  { unfold trial_value. unfold gt. replace (rlt fl ft) with true by (symmetry; apply rlt_true; assumption). cbv zeta. rewrite C, Q, Q2R_half.
    rewrite !Rabs_pos_eq by lra. destruct (rlt (m - al) (v - al)); [reflexivity|]. field. }
  split; [exact M|]. split; [exact Bm|]. split.
  { exists k. split; [exact Pk|]. cbn [at_ val slope fst snd]. fold h. split; [lra|]. unfold v. field. lra. }
  split; [exact Bv|]. rewrite T. split; [intros L; replace (rlt (m - al) (v - al)) with true by (symmetry; apply rlt_true; lra); reflexivity|].
  split; [intros L; replace (rlt (m - al) (v - al)) with false by (symmetry; apply rlt_false; lra); reflexivity|].
  destruct (rlt (m - al) (v - al)); lra.
Qed.
Print Assumptions C139_case1.

(** Case 2: the new value is not higher and the slope has changed its sign.  Of the minimum of the cubic and the zero of the slopes, both
    between the ends, the one further from the new place is taken. *)
Theorem C139_case2 : forall p l u t, at_ l < at_ t -> fits p l -> fits p t -> slope l < 0 -> 0 < slope t -> val t <= val l ->
  exists m s, is_min p m /\ at_ l < m < at_ t /\ zero_slope l t s /\ at_ l < s < at_ t /\ rtrial l u t = Rmin m s.
Proof.
  intros p l u t H Fl Ft G G' V. destruct (inner_min p l t H Fl Ft G (or_intror G')) as (m & M & Bm & N).
  pose proof (cubic_min p l t m H Fl Ft M N) as C.
  set (k := (slope t - slope l) / (at_ t - at_ l)). assert (Pk : 0 < k) by (apply Rdiv_lt_0_compat; lra).
  set (s := at_ l - slope l / k). assert (Z : zero_slope l t s).
  { exists k. split; [lra|]. unfold s. split; [field; lra|]. unfold k. field. split; lra. }
  pose proof (secant_finds l t s ltac:(lra) Z) as S. exists m, s.
  assert (Bs : at_ l < s < at_ t).
  { destruct Z as (k' & K' & A & B). assert (Ek : k' = k) by (unfold k; rewrite A, B; field; lra). rewrite Ek in *.
    assert (0 < s - at_ l) by (unfold s; replace (at_ l - slope l / k - at_ l) with (- slope l / k) by (field; lra); apply Rdiv_lt_0_compat; lra).
    split; [lra|]. destruct (Rlt_le_dec s (at_ t)); [assumption|]. exfalso. assert (0 <= k * (s - at_ t)) by (apply Rmult_le_pos; lra). lra. }
  split; [exact M|]. split; [exact Bm|]. split; [exact Z|]. split; [exact Bs|].
  clearbody s. clear Z k Pk. destruct l as [[al fl] gl], t as [[at' ft] gt'], u as [[au fu] gu]. cbn [at_ val slope fst snd] in *.
  unfold trial_value, gt, ge, zero. rewrite Q2R_0. replace (rlt fl ft) with false by (symmetry; apply rlt_false; assumption).
  assert (P : gt' * gl < 0) by (assert (0 < gt' * - gl) by (apply Rmult_lt_0_compat; lra); lra).
  replace (rlt (gt' * gl) 0) with true by (symmetry; apply rlt_true; assumption). cbv zeta. rewrite C, S, !Rabs_left by lra.
  destruct (rle (- (s - at')) (- (m - at'))) eqn:E; [apply rle_true in E; rewrite Rmin_left by lra|apply rle_false in E; rewrite Rmin_right by lra]; reflexivity.
Qed.
Print Assumptions C139_case2.

(** Case 3: the slope has the same sign and is not steeper.  Of the minimum of the cubic and the zero of the slopes the one nearer to the
    new place, but not further than 66 % of the way to the other end. *)
Theorem C139_case3 : forall p l u t m s, at_ l < at_ t -> fits p l -> fits p t -> is_min p m -> ~ is_max p (middle l t) -> zero_slope l t s ->
  val t <= val l -> 0 <= slope t * slope l -> Rabs (slope t) <= Rabs (slope l) ->
  let next := if Rlt_dec (Rabs (m - at_ t)) (Rabs (s - at_ t)) then m else s in
  rtrial l u t = Rmin (at_ t + 66 / 100 * (at_ u - at_ t)) next.
Proof.
  intros p l u t m s H Fl Ft M N Z V G A next. pose proof (cubic_min p l t m H Fl Ft M N) as C. pose proof (secant_finds l t s ltac:(lra) Z) as S.
  unfold next. clear next. destruct l as [[al fl] gl], t as [[at' ft] gt'], u as [[au fu] gu]. cbn [at_ val slope fst snd] in *.
  unfold trial_value, gt, zero. rewrite Q2R_0. replace (rlt fl ft) with false by (symmetry; apply rlt_false; assumption).
  replace (rlt (gt' * gl) 0) with false by (symmetry; apply rlt_false; assumption). replace (rle (Rabs gt') (Rabs gl)) with true by (symmetry; apply rle_true; assumption).
  cbv zeta. rewrite C, S, Q2R_66. replace (rlt al at') with true by (symmetry; apply rlt_true; assumption).
  unfold rlt at 2. unfold smin. destruct (Rlt_dec (Rabs (m - at')) (Rabs (s - at'))).
  - destruct (rlt m (at' + 66 / 100 * (au - at'))) eqn:E; [apply rlt_true in E; rewrite Rmin_right by lra|apply rlt_false in E; rewrite Rmin_left by lra]; reflexivity.
  - destruct (rlt s (at' + 66 / 100 * (au - at'))) eqn:E; [apply rlt_true in E; rewrite Rmin_right by lra|apply rlt_false in E; rewrite Rmin_left by lra]; reflexivity.
Qed.
Print Assumptions C139_case3.

(** Case 4: the slope has the same sign and is steeper.  The cubic between the other end and the new place: with the other end ahead,
    as it is when the search goes on, the next place is the maximum of that cubic. *)
Theorem C139_case4_refuted : forall p l u t m, at_ l < at_ t -> at_ t < at_ u -> fits p u -> fits p t -> is_max p m -> ~ is_min p (middle u t) ->
  val t <= val l -> 0 <= slope t * slope l -> Rabs (slope l) < Rabs (slope t) -> rtrial l u t = m.
Proof.
  intros p l u t m _ H Fu Ft M N V G A. pose proof (cubic_max p u t m H Fu Ft M N) as C.
  destruct l as [[al fl] gl], t as [[at' ft] gt'], u as [[au fu] gu]. cbn [at_ val slope fst snd] in *.
  unfold trial_value, gt, zero. rewrite Q2R_0. replace (rlt fl ft) with false by (symmetry; apply rlt_false; assumption).
  replace (rlt (gt' * gl) 0) with false by (symmetry; apply rlt_false; assumption). replace (rle (Rabs gt') (Rabs gl)) with false by (symmetry; apply rle_false; assumption).
  exact C.
Qed.
Print Assumptions C139_case4_refuted.
(** With the other end behind it would be the minimum. *)
Theorem C139_case4 : forall p l u t m, at_ u < at_ t -> fits p u -> fits p t -> is_min p m -> ~ is_max p (middle u t) ->
  val t <= val l -> 0 <= slope t * slope l -> Rabs (slope l) < Rabs (slope t) -> rtrial l u t = m.
Proof.
  intros p l u t m H Fu Ft M N V G A. pose proof (cubic_min p u t m H Fu Ft M N) as C.
  destruct l as [[al fl] gl], t as [[at' ft] gt'], u as [[au fu] gu]. cbn [at_ val slope fst snd] in *.
  unfold trial_value, gt, zero. rewrite Q2R_0. replace (rlt fl ft) with false by (symmetry; apply rlt_false; assumption).
  replace (rlt (gt' * gl) 0) with false by (symmetry; apply rlt_false; assumption). replace (rle (Rabs gt') (Rabs gl)) with false by (symmetry; apply rle_false; assumption).
  exact C.
Qed.
Print Assumptions C139_case4.
(** Ends as in the cases: x^3/3 - x from -1/2 to 5/2 (1), from 1/2 to 5/4 (2), from 1/4 to 3/4 (3); and from -1/2 to 0 with 3 ahead (4). *)
Example C139_ex_cases :
  (let l := on wave (-1 / 2) in let t := on wave (5 / 2) in slope l < 0 /\ val l < val t) /\
  (let l := on wave (1 / 2) in let t := on wave (5 / 4) in slope l < 0 /\ 0 < slope t /\ val t <= val l) /\
  (let l := on wave (1 / 4) in let t := on wave (3 / 4) in zero_slope l t (19 / 16) /\ ~ is_max wave (middle l t) /\ val t <= val l /\ 0 <= slope t * slope l /\ Rabs (slope t) <= Rabs (slope l)) /\
  (let l := on wave (-1 / 2) in let t := on wave 0 in let u := on wave 3 in ~ is_min wave (middle u t) /\ val t <= val l /\ 0 <= slope t * slope l /\ Rabs (slope l) < Rabs (slope t)) /\
  rtrial (on wave (-1 / 2)) (on wave 3) (on wave 0) = -1.
Proof.
  assert (A4 : let l := on wave (-1 / 2) in let t := on wave 0 in let u := on wave 3 in ~ is_min wave (middle u t) /\ val t <= val l /\ 0 <= slope t * slope l /\ Rabs (slope l) < Rabs (slope t)).
  { unfold is_min, middle, on, pval, pslope, pcurve, wave; cbn. rewrite !Rabs_left by lra. lra. }
  split; [|split; [|split; [|split; [exact A4|]]]].
  - unfold on, pval, pslope, wave; cbn. lra.
  - unfold on, pval, pslope, wave; cbn. lra.
  - unfold zero_slope, is_max, middle, on, pval, pslope, pcurve, wave; cbn. split; [exists 1; lra|]. rewrite !Rabs_left by lra. lra.
  - cbn zeta in A4. destruct A4 as (N & V & G & A). apply (C139_case4_refuted wave); try apply fits_on; try assumption; try (cbn; lra).
    unfold is_max, pslope, pcurve, wave; cbn; lra.
Qed.

(** ** The interval *)
(** From the lower end (the best value so far) the function falls into the interval. *)
Definition bracket (l u : place) : Prop := val l <= val u /\ slope l * (at_ u - at_ l) < 0.
Definition between (x a b : R) : Prop := a < x < b \/ b < x < a.
(** A place inside an interval makes a smaller one with the same properties; the lower end becomes the better of the old one and the new
    place; if the interval is said to have converged, the slope at the new place is zero. *)
Theorem C139_interval : forall l u t, bracket l u -> between (at_ t) (at_ l) (at_ u) ->
  let '(l', u', converged) := rupdate l u t in
  if converged then slope t = 0 /\ val t <= val l /\ l' = l /\ u' = u
  else bracket l' u' /\ l' = (if Rlt_dec (val l) (val t) then l else t) /\ (l' = t \/ u' = t) /\
       Rabs (at_ u' - at_ l') < Rabs (at_ u - at_ l) /\ Rmin (at_ l) (at_ u) <= Rmin (at_ l') (at_ u') /\ Rmax (at_ l') (at_ u') <= Rmax (at_ l) (at_ u).
Proof.
  intros [[al fl] gl] [[au fu] gu] [[at' ft] gt'] [V G] B. unfold bracket, between in *. cbn [at_ val slope fst snd] in *.
  unfold update_interval, gt, zero. rewrite Q2R_0.
  assert (X : forall x y, Rmin x y = (if Rle_dec x y then x else y)) by reflexivity.
  assert (Y : forall x y, Rmax x y = (if Rle_dec x y then y else x)) by reflexivity.
  assert (SG : (0 < au - al -> gl < 0) /\ (au - al < 0 -> 0 < gl)).
  { split; intros S.
    - destruct (Rlt_le_dec gl 0) as [L|L]; [assumption|]. exfalso. assert (0 <= gl * (au - al)) by (apply Rmult_le_pos; lra). lra.
    - destruct (Rlt_le_dec 0 gl) as [L|L]; [assumption|]. exfalso. assert (0 <= - gl * - (au - al)) by (apply Rmult_le_pos; lra). lra. }
  destruct SG as [SG1 SG2].
  destruct (rlt fl ft) eqn:E1; [apply rlt_true in E1|apply rlt_false in E1].
  - cbn [at_ val slope fst snd]. destruct (Rlt_dec fl ft); [|lra]. split.
    + split; [lra|]. destruct B as [B|B].
      * assert (0 < - gl * (at' - al)) by (apply Rmult_lt_0_compat; lra). lra.
      * assert (0 < gl * - (at' - al)) by (apply Rmult_lt_0_compat; lra). lra.
    + split; [reflexivity|]. split; [auto|]. rewrite !X, !Y. destruct B as [B|B].
      * rewrite !Rabs_pos_eq by lra. repeat destruct (Rle_dec _ _); lra.
      * rewrite !Rabs_left by lra. repeat destruct (Rle_dec _ _); lra.
  - destruct (rlt 0 (gt' * (al - at'))) eqn:E2; [apply rlt_true in E2|apply rlt_false in E2].
    + cbn [at_ val slope fst snd]. destruct (Rlt_dec fl ft); [lra|]. split.
      * split; [lra|]. destruct B as [B|B].
        -- assert (gt' < 0) by (destruct (Rlt_le_dec gt' 0); [assumption|]; assert (0 <= gt' * - (al - at')) by (apply Rmult_le_pos; lra); lra).
           assert (0 < - gt' * (au - at')) by (apply Rmult_lt_0_compat; lra). lra.
        -- assert (0 < gt') by (destruct (Rlt_le_dec 0 gt'); [assumption|]; assert (0 <= - gt' * (al - at')) by (apply Rmult_le_pos; lra); lra).
           assert (0 < gt' * - (au - at')) by (apply Rmult_lt_0_compat; lra). lra.
      * split; [reflexivity|]. split; [auto|]. rewrite !X, !Y. destruct B as [B|B].
        -- rewrite !Rabs_pos_eq by lra. repeat destruct (Rle_dec _ _); lra.
        -- rewrite !Rabs_left by lra. repeat destruct (Rle_dec _ _); lra.
    + destruct (rlt (gt' * (al - at')) 0) eqn:E3; [apply rlt_true in E3|apply rlt_false in E3].
      * cbn [at_ val slope fst snd]. destruct (Rlt_dec fl ft); [lra|]. split; [split; lra|].
        split; [reflexivity|]. split; [auto|]. rewrite !X, !Y. destruct B as [B|B].
        -- rewrite (Rabs_left (al - at')), Rabs_pos_eq by lra. repeat destruct (Rle_dec _ _); lra.
        -- rewrite (Rabs_left (au - al)), Rabs_pos_eq by lra. repeat destruct (Rle_dec _ _); lra.
      * assert (Z : gt' * (al - at') = 0) by lra. apply Rmult_integral in Z. cbn. repeat split; try lra.
Qed.
Print Assumptions C139_interval.
Example C139_ex_interval : bracket (on wave 0) (on wave 3) /\ between (at_ (on wave 2)) (at_ (on wave 0)) (at_ (on wave 3)) /\
  rupdate (on wave 0) (on wave 3) (on wave (1 / 2)) = (on wave (1 / 2), on wave 3, false).
Proof.
  split; [unfold bracket, on, pval, pslope, wave; cbn; lra|]. split; [unfold between; cbn; lra|].
  unfold update_interval, gt, zero, on, pval, pslope, wave. cbn [k0 k1 k2 k3]. rewrite Q2R_0.
  match goal with |- context [rlt ?a ?b] => replace (rlt a b) with false by (symmetry; apply rlt_false; lra) end.
  match goal with |- context [rlt ?a ?b] => replace (rlt a b) with true by (symmetry; apply rlt_true; lra) end. reflexivity.
Qed.

(** Such an interval holds a point with slope zero and a value below that of the lower end. *)
Lemma bracket_right : forall (f f' : R -> R) a b, (forall x, derivable_pt_lim f x (f' x)) -> a < b -> f a <= f b -> f' a < 0 ->
  exists x, a < x < b /\ f' x = 0 /\ f x < f a.
Proof.
  intros f f' a b D L V S.
  assert (Df : derivable f) by (intros x; exists (f' x); apply D). pose proof (derivable_continuous f Df) as Cf.
  destruct (continuity_ab_min f a b (Rlt_le _ _ L) (fun c _ => Cf c)) as (c & M & Bc).
  assert (Lower : exists x, a < x < b /\ f x < f a).
  { destruct (D a (- f' a / 2) ltac:(lra)) as ((d & Pd) & Hd). cbn in Hd. set (e := Rmin (d / 2) ((b - a) / 2)).
    assert (Pe : 0 < e) by (apply Rmin_pos; lra). assert (Le : e <= d / 2) by apply Rmin_l. assert (Lb : e <= (b - a) / 2) by apply Rmin_r.
    specialize (Hd e ltac:(lra) ltac:(rewrite Rabs_pos_eq; lra)). exists (a + e). split; [lra|].
    apply Rabs_def2 in Hd. destruct Hd as [Hd _]. assert (Q : (f (a + e) - f a) / e < 0) by lra.
    apply (Rmult_lt_compat_r e) in Q; [|assumption]. replace ((f (a + e) - f a) / e * e) with (f (a + e) - f a) in Q by (field; lra). lra. }
  destruct Lower as (y & By & Ly). pose proof (M y ltac:(lra)) as My.
  assert (Ic : a < c < b).
  { destruct Bc as [[Ba| ->] [Bb| ->]]; try lra. }
  exists c. split; [exact Ic|]. split; [|lra].
  pose proof (deriv_minimum f a b c (Df c) (proj1 Ic) (proj2 Ic)) as Z.
  assert (E : derive_pt f c (Df c) = f' c) by (apply derive_pt_eq_0; apply D).
  rewrite <- E. apply Z. intros x X1 X2. apply M. lra.
Qed.
Theorem C139_bracket : forall (f f' : R -> R) a b, (forall x, derivable_pt_lim f x (f' x)) ->
  bracket (a, f a, f' a) (b, f b, f' b) -> exists x, between x a b /\ f' x = 0 /\ f x < f a.
Proof.
  intros f f' a b D [V S]. cbn [at_ val slope fst snd] in *. destruct (Rtotal_order a b) as [L|[->|L]].
  - destruct (bracket_right f f' a b D L V) as (x & B & Z & F).
    + destruct (Rlt_le_dec (f' a) 0); [assumption|]. exfalso. assert (0 <= f' a * (b - a)) by (apply Rmult_le_pos; lra). lra.
    + exists x. split; [left; exact B|auto].
  - exfalso. replace (b - b) with 0 in S by ring. lra.
  - destruct (bracket_right (fun x => f (- x)) (fun x => - f' (- x)) (- a) (- b)) as (x & B & Z & F).
    + intros x. replace (- f' (- x)) with (f' (- x) * - (1)) by ring.
      apply (derivable_pt_lim_comp (fun x => - x) f); [|apply D]. apply (derivable_pt_lim_opp (fun y => y)). apply derivable_pt_lim_id.
    + lra.
    + rewrite !Ropp_involutive. exact V.
    + rewrite Ropp_involutive. destruct (Rlt_le_dec 0 (f' a)); [lra|]. exfalso. assert (0 <= - f' a * - (b - a)) by (apply Rmult_le_pos; lra). lra.
    + exists (- x). rewrite Ropp_involutive in F. split; [right; lra|]. split; [lra|exact F].
Qed.
Print Assumptions C139_bracket.
Example C139_ex_bracket : (forall x, derivable_pt_lim (pval wave) x (pslope wave x)) /\ bracket (0, pval wave 0, pslope wave 0) (3, pval wave 3, pslope wave 3).
Proof.
  split; [|unfold bracket, pval, pslope, wave; cbn; lra]. intros x. unfold pval, pslope, wave. cbn [k0 k1 k2 k3].
  replace (-1 + 2 * 0 * x + 3 * (1 / 3) * (x * x)) with (0 + -1 * 1 + 0 * (1 * x + x * 1) + 1 / 3 * ((1 * x + x * 1) * x + x * x * 1)) by field.
  repeat first [apply derivable_pt_lim_plus | apply derivable_pt_lim_const | apply derivable_pt_lim_scal].
  - apply derivable_pt_lim_id.
  - apply (derivable_pt_lim_mult (fun y => y) (fun y => y)); apply derivable_pt_lim_id.
  - apply (derivable_pt_lim_mult (fun y => y * y) (fun y => y)); [apply (derivable_pt_lim_mult (fun y => y) (fun y => y))|]; apply derivable_pt_lim_id.
Qed.

(** ** When the search stops *)
(** The value lies on or below the line with a ten-thousandth of the first slope, and the slope is at most 9/10 of the negative first slope. *)
Theorem C139_stop : forall a f f0 g g0,
  rgood (rpsi a f f0 g0) g g0 = true <-> f <= f0 + g0 * a / 10000 /\ g <= - (9 / 10 * g0).
Proof.
  intros a f f0 g g0. unfold good_enough, psi, mu, nu, zero. rewrite Q2R_0, Q2R_mu, Q2R_nu, andb_true_iff, !rle_true. lra.
Qed.
Print Assumptions C139_stop.
(** Not the condition of Wolfe on the absolute value of the slope: a place from which the function falls far more steeply is taken. *)
Theorem C139_curvature_refuted : forall a f f0 g g0, g0 < 0 -> f <= f0 + g0 * a / 10000 -> g < 9 / 10 * g0 ->
  rgood (rpsi a f f0 g0) g g0 = true /\ 9 / 10 * Rabs g0 < Rabs g.
Proof. intros a f f0 g g0 G V S. split; [apply C139_stop; lra|]. rewrite !Rabs_left by lra. lra. Qed.
Print Assumptions C139_curvature_refuted.
Example C139_ex_curvature : let a := 1 in let f := -5 in let g := -10 in let g0 := -1 in g0 < 0 /\ f <= 0 + g0 * a / 10000 /\ g < 9 / 10 * g0.
Proof. cbn zeta. lra. Qed.
(** The auxiliary function and its slope; the slope of an end is converted back, the value is not: it is off by 2 mu g0 a. *)
Theorem C139_aux : forall a f g f0 g0, rpsi a f f0 g0 = f - (f0 + g0 * a / 10000) /\ rdpsi g g0 = g - g0 / 10000.
Proof. intros. unfold psi, dpsi, mu. rewrite Q2R_mu. lra. Qed.
Print Assumptions C139_aux.
Theorem C139_convert_refuted : forall a f g f0 g0, rto_phi f0 g0 (a, rpsi a f f0 g0, rdpsi g g0) = (a, f - 2 * (g0 * a / 10000), g).
Proof. intros. unfold to_phi. destruct (C139_aux a f g f0 g0) as [-> ->]. unfold mu. rewrite Q2R_mu. f_equal; [f_equal|]; field. Qed.
Print Assumptions C139_convert_refuted.
