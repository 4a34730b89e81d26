(** C153: GPS positions matched with a path in the plane. *)
From Coq Require Import List Reals Lra Lia Psatz.
From Verif Require Import Outcome RigidModel RigidProofs CostModel CostProps NdtDerivProofs GpsMatchModel.
Import ListNotations.
Local Open Scope outcome_scope.
Local Open Scope R_scope.

(** ** Differences of directions *)
Lemma difference_range : forall m e, 0 <= difference m e < PI * 2.
Proof.
  intros m e. unfold difference. pose proof (atan2_range (snd m) (fst m)). pose proof (atan2_range (snd e) (fst e)). cbv zeta.
  destruct (Rlt_dec _ 0); lra.
Qed.
Lemma difference_angle : forall m e, cos (difference m e) = cos (atan2 (snd m) (fst m) - atan2 (snd e) (fst e)) /\
  sin (difference m e) = sin (atan2 (snd m) (fst m) - atan2 (snd e) (fst e)).
Proof.
  intros m e. unfold difference. cbv zeta. set (d := _ - _). destruct (Rlt_dec d 0); [|auto]. replace (d + PI * 2) with (d + 2 * PI) by ring.
  rewrite cos_plus, sin_plus, cos_2PI, sin_2PI. split; ring.
Qed.
Lemma turn_angle : forall th e, e <> (0, 0) -> let m := times (turn2 th) e in cos (difference m e) = cos th /\ sin (difference m e) = sin th.
Proof.
  intros th [x y] N m. destruct (difference_angle m (x, y)) as [-> ->]. unfold m, times, turn2. cbn [fst snd].
  assert (N' : x <> 0 \/ y <> 0). { destruct (Req_dec x 0) as [->|]; [right|auto]. intros ->. apply N. reflexivity. }
  pose proof (sq_sum_pos x y N') as S. pose proof (sin2_cos2 th) as E. unfold Rsqr in E.
  set (c := cos th) in *. set (s := sin th) in *. set (mx := c * x + - s * y). set (my := s * x + c * y).
  assert (L : mx * mx + my * my = x * x + y * y). { unfold mx, my. transitivity ((s * s + c * c) * (x * x + y * y)); [ring|]. rewrite E. ring. }
  assert (Nm : mx <> 0 \/ my <> 0). { destruct (Req_dec mx 0) as [Z|]; [|auto]. right. intros Z'. rewrite Z, Z' in L. lra. }
  destruct (cos_sin_atan2 y x N') as [A1 A2]. destruct (cos_sin_atan2 my mx Nm) as [B1 B2]. rewrite L in B1, B2.
  set (l := sqrt (x * x + y * y)) in *. assert (Ll : l * l = x * x + y * y) by (apply sqrt_sqrt; lra). assert (0 < l) by (apply sqrt_lt_R0; exact S).
  rewrite cos_minus, sin_minus. set (a := atan2 my mx) in *. set (b := atan2 y x) in *.
  split; apply (Rmult_eq_reg_r (l * l)); try nra.
  - transitivity (cos a * l * (cos b * l) + sin a * l * (sin b * l)); [ring|]. rewrite A1, A2, B1, B2, Ll. unfold mx, my. ring.
  - transitivity (sin a * l * (cos b * l) - cos a * l * (sin b * l)); [ring|]. rewrite A1, A2, B1, B2, Ll. unfold mx, my. ring.
Qed.
Lemma angle_from_zero : forall a b, 0 <= a < PI * 2 -> 0 <= b < PI * 2 -> cos a = cos b -> sin a = sin b -> a = b.
Proof.
  intros a b A B C S. assert (PI - a = PI - b); [|lra]. apply angle_unique; try lra.
  - rewrite !cos_minus, C, S. reflexivity.
  - rewrite !sin_minus, C, S. reflexivity.
Qed.

(** ** Exact data *)
Definition exact (theta : R) (t : vec2) (e : entry) : Prop := e_map e = in_map (e_enu e) t theta.
Definition far (p : entry * entry) : Prop := 5 <= norm2 (minus2 (e_map (snd p)) (e_map (fst p))).
Lemma in_map_times : forall e t th, in_map e t th = plus2 (times (turn2 th) e) t.
Proof. reflexivity. Qed.
Lemma halves_in : forall l p, In p (halves l) -> In (fst p) l /\ In (snd p) l.
Proof.
  intros l [a b] H. unfold halves in H. split; [apply in_combine_l in H|apply in_combine_r in H]; cbn [fst snd].
  - rewrite <- (firstn_skipn (Nat.div2 (length l)) l). apply in_or_app. auto.
  - rewrite <- (firstn_skipn (Nat.div2 (length l)) l). apply in_or_app. auto.
Qed.
Lemma pair_turned : forall th t p, exact th t (fst p) -> exact th t (snd p) ->
  minus2 (e_map (snd p)) (e_map (fst p)) = times (turn2 th) (minus2 (e_enu (snd p)) (e_enu (fst p))).
Proof. intros th t [a b] A B. unfold exact in *. cbn [fst snd] in *. rewrite A, B. unfold minus2, times, turn2, in_map. cbn [fst snd]. f_equal; ring. Qed.
Lemma yaw_exact : forall th t ps, (forall p, In p ps -> exact th t (fst p) /\ exact th t (snd p)) ->
  exists d, 0 <= d < PI * 2 /\ cos d = cos th /\ sin d = sin th /\
  forall k, exists n, run yaw_step (k, INR k * d) ps = Ok (n, INR n * d) /\ (k <= n)%nat /\ ((exists p, In p ps /\ far p) -> (0 < n)%nat).
Proof.
  intros th t ps H.
  set (d := difference (times (turn2 th) (1, 0)) (1, 0)). exists d.
  assert (N1 : (1, 0) <> (0, 0)) by (intros [= X]; lra). destruct (turn_angle th (1, 0) N1) as [Dc Ds]. fold d in Dc, Ds.
  pose proof (difference_range (times (turn2 th) (1, 0)) (1, 0)) as Rd. fold d in Rd.
  split; [exact Rd|]. split; [exact Dc|]. split; [exact Ds|]. clearbody d.
  induction ps as [|p ps IH]; intros k; [exists k; split; [reflexivity|]; split; [lia|intros (p & [] & _)]|].
  destruct (H p (or_introl eq_refl)) as [H1 H2]. pose proof (pair_turned th t p H1 H2) as E.
  cbn [run]. unfold yaw_step. cbv zeta. unfold far in *. destruct (Rlt_dec _ 5) as [L|L].
  - cbn [bind]. destruct (IH (fun q I => H q (or_intror I)) k) as (n & A & B & C). exists n. split; [exact A|]. split; [exact B|].
    intros (q & [<-|I] & F); [lra|]. apply C. eauto.
  - assert (Ne : minus2 (e_enu (snd p)) (e_enu (fst p)) <> (0, 0)).
    { intros Z. rewrite E, Z in L. apply L. unfold norm2, times, turn2. cbn [fst snd]. match goal with |- sqrt ?x < 5 => replace x with 0 by ring end. rewrite sqrt_0. lra. }
    assert (D : difference (minus2 (e_map (snd p)) (e_map (fst p))) (minus2 (e_enu (snd p)) (e_enu (fst p))) = d).
    { rewrite E. destruct (turn_angle th _ Ne) as [A B]. apply angle_from_zero; [apply difference_range|exact Rd|congruence|congruence]. }
    rewrite D. destruct (Rle_dec 0 d); [|lra]. destruct (Rle_dec d (PI * 2)); [|lra]. cbn [bind fst snd].
    replace (INR k * d + d) with (INR (S k) * d) by (rewrite S_INR; ring).
    destruct (IH (fun q I => H q (or_intror I)) (S k)) as (n & A & B & C). exists n. split; [exact A|]. split; [lia|]. lia.
Qed.
Lemma shift_exact : forall th t r ps, r = turn2 th -> (forall p, In p ps -> exact th t (fst p) /\ exact th t (snd p)) -> ps <> [] -> average_shift r ps = t.
Proof.
  intros th t r ps -> H N. unfold average_shift.
  assert (G : forall k, fold_left (fun t p => plus2 t (shift_of (turn2 th) p)) ps (INR k * fst t, INR k * snd t) = (INR (k + length ps) * fst t, INR (k + length ps) * snd t)).
  { clear N. induction ps as [|p ps IH]; intros k; cbn [fold_left length]; [rewrite Nat.add_0_r; reflexivity|].
    destruct (H p (or_introl eq_refl)) as [H1 H2]. unfold exact in H1, H2.
    replace (plus2 (INR k * fst t, INR k * snd t) (shift_of (turn2 th) p)) with (INR (S k) * fst t, INR (S k) * snd t).
    - rewrite IH by (intros q I; apply H; right; exact I). f_equal; f_equal; f_equal; lia.
    - unfold shift_of. rewrite H1, H2. unfold plus2, minus2, div2, times, turn2, in_map. cbn [fst snd]. rewrite S_INR. f_equal; field. }
  specialize (G 0%nat). cbn [INR Nat.add] in G. rewrite !Rmult_0_l in G. rewrite G. unfold div2. cbn [fst snd].
  assert (INR (length ps) <> 0) by (apply not_0_INR; destruct ps; [contradiction|discriminate]). destruct t as [tx ty]. cbn [fst snd]. f_equal; field; assumption.
Qed.

(** When every position is the map's, turned and moved, and one pair is far apart, the first estimate is that turn and
    that move, for all angles, moves and paths. *)
Theorem C153_estimate : forall l th t, Forall (exact th t) l -> (exists p, In p (halves l) /\ far p) ->
  estimate l = Ok (Some (((cos th, - sin th), (sin th, cos th)), t)).
Proof.
  intros l th t F X. rewrite Forall_forall in F.
  assert (H : forall p, In p (halves l) -> exact th t (fst p) /\ exact th t (snd p)) by (intros p I; apply halves_in in I as [A B]; auto).
  destruct (yaw_exact th t (halves l) H) as (d & Rd & Dc & Ds & G). destruct (G 0%nat) as (n & R1 & _ & P). specialize (P X). cbn [INR] in R1. rewrite Rmult_0_l in R1.
  unfold estimate. rewrite R1. cbn [bind fst snd]. destruct n as [|n]; [lia|].
  replace (INR (S n) * d / INR (S n)) with d by (field; apply not_0_INR; discriminate).
  assert (T : turn2 d = turn2 th) by (unfold turn2; rewrite Dc, Ds; reflexivity). rewrite T.
  rewrite (shift_exact th t _ (halves l) eq_refl H); [reflexivity|]. destruct X as (p & I & _). intros Z. rewrite Z in I. destruct I.
Qed.

Section Match.
Variable lsq : list (R * R * R) -> list R -> R * R * R.
(** A solver that finds zero where nothing is left to do. *)
Definition settles : Prop := forall a b, Forall (fun x => x = 0) b -> lsq a b = (0, 0, 0).
Lemma refine_exact : settles -> forall n l th t, Forall (exact th t) l -> refine lsq n l (turn2 th) t = (turn2 th, t).
Proof.
  intros K [|n] l th t F; [reflexivity|]. cbn [refine]. rewrite K.
  - unfold turn2 at 1. rewrite cos_0, sin_0. cbn [norm2 fst snd]. unfold norm2. cbn [fst snd].
    assert (Z : forall x, x = 0 -> sqrt x < 1 / 10000000000) by (intros x ->; rewrite sqrt_0; lra).
    destruct (Rlt_dec _ _) as [_|N]; [|exfalso; apply N, Z; ring]. destruct (Rlt_dec _ _) as [_|N]; [|exfalso; apply N, Z; ring].
    unfold turn2. rewrite cos_0, sin_0. unfold mult, times, plus2. cbn [fst snd]. destruct t as [tx ty]. cbn [fst snd]. repeat f_equal; ring.
  - rewrite map_map. apply Forall_map. eapply Forall_impl; [|exact F]. intros e E. unfold exact in E. unfold row. cbv zeta. cbn [snd].
    rewrite <- in_map_times, <- E. ring.
Qed.
(** The result then is the inverse: it takes every position of the map to its GPS position, and OutputError places every
    GPS position where the map has it. *)
Theorem C153_match : settles -> forall l th t, Forall (exact th t) l -> (exists p, In p (halves l) /\ far p) ->
  exists m s, run_match lsq l = Ok (m, s) /\ m = ((cos th, sin th), (- sin th, cos th)) /\
    Forall (fun e => plus2 (times m (e_map e)) s = e_enu e /\ placed (m, s) e = e_map e) l.
Proof.
  intros K l th t F X. pose proof (C153_estimate l th t F X) as E. unfold run_match. destruct l as [|e0 l0]; [destruct X as (p & [] & _)|].
  rewrite E. cbn [bind]. change ((cos th, - sin th), (sin th, cos th)) with (turn2 th). rewrite (refine_exact K 100 _ th t F).
  pose proof (sin2_cos2 th) as Q. unfold Rsqr in Q.
  assert (I : inverse2 (turn2 th) = ((cos th, sin th), (- sin th, cos th))).
  { unfold inverse2, turn2. replace (cos th * cos th - sin th * - sin th) with 1 by (rewrite <- Q; ring). rewrite Rinv_1. repeat f_equal; ring. }
  rewrite I. eexists. eexists. split; [reflexivity|]. split; [reflexivity|]. eapply Forall_impl; [|exact F]. intros e Ee. unfold exact in Ee. split.
  - rewrite Ee. unfold plus2, minus2, times, in_map. cbn [fst snd]. destruct (e_enu e) as [x y]. cbn [fst snd]. f_equal.
    + transitivity ((sin th * sin th + cos th * cos th) * x); [ring|]. rewrite Q. ring.
    + transitivity ((sin th * sin th + cos th * cos th) * y); [ring|]. rewrite Q. ring.
  - unfold placed. cbn [fst snd]. assert (I' : inverse2 ((cos th, sin th), (- sin th, cos th)) = turn2 th).
    { unfold inverse2, turn2. replace (cos th * cos th - - sin th * sin th) with 1 by (rewrite <- Q; ring). rewrite Rinv_1. repeat f_equal; ring. }
    rewrite I', Ee. unfold minus2, times, turn2, in_map. cbn [fst snd]. destruct (e_enu e) as [x y], t as [tx ty]. cbn [fst snd]. f_equal.
    + transitivity (cos th * x + - sin th * y + (sin th * sin th + cos th * cos th) * tx); [ring|]. rewrite Q. ring.
    + transitivity (sin th * x + cos th * y + (sin th * sin th + cos th * cos th) * ty); [ring|]. rewrite Q. ring.
Qed.
(** It never fails, whatever the data and the solver; the identity without a pair that is far apart. *)
Theorem C153_total : forall l, (exists r, run_match lsq l = Ok r) /\
  ((forall p, In p (halves l) -> norm2 (minus2 (e_map (snd p)) (e_map (fst p))) < 5) -> run_match lsq l = Ok (((1, 0), (0, 1)), (0, 0))).
Proof.
  intros l. assert (A : forall ps a, exists b, run yaw_step a ps = Ok b).
  { induction ps as [|p ps IH]; intros a; [eexists; reflexivity|]. cbn [run]. unfold yaw_step at 1. cbv zeta. destruct (Rlt_dec _ 5); [apply IH|].
    match goal with |- context[difference ?m ?e] => pose proof (difference_range m e) as D end.
    destruct (Rle_dec _ _); [|lra]. destruct (Rle_dec _ _); [|lra]. apply IH. }
  split.
  - unfold run_match. destruct l as [|e l]; [eexists; reflexivity|]. unfold estimate. destruct (A (halves (e :: l)) (O, 0)) as [[n s] ->]. cbn [bind fst snd].
    destruct n; cbn [bind]; [eexists; reflexivity|]. destruct (refine _ _ _ _ _) as [r t]. eexists; reflexivity.
  - intros H. unfold run_match. destruct l as [|e l]; [reflexivity|]. unfold estimate.
    assert (B : forall ps a, (forall p, In p ps -> norm2 (minus2 (e_map (snd p)) (e_map (fst p))) < 5) -> run yaw_step a ps = Ok a).
    { induction ps as [|p ps IH]; intros a Hp; [reflexivity|]. cbn [run]. unfold yaw_step at 1. cbv zeta. destruct (Rlt_dec _ 5) as [_|N]; [cbn [bind]; apply IH; intros q I; apply Hp; right; exact I|].
      exfalso. apply N, Hp. left. reflexivity. }
    rewrite (B _ _ H). reflexivity.
Qed.
(** A row is the linear part of the distance along the normal of the direction: for a turn by the angle, and for a move. *)
Theorem C153_row : forall r t e, let n := unit2 (- snd (e_dir e), fst (e_dir e)) in
  let off := fun (move : vec2) (a : R) => let p := in_map (plus2 (times r (e_enu e)) t) move a in
    fst n * (fst p - fst (e_map e)) + snd n * (snd p - snd (e_map e)) in
  exists k kx ky b, row r t e = ((k, kx, ky), b) /\ derivable_pt_lim (off (0, 0)) 0 k /\ forall x y, off (x, y) 0 = kx * x + ky * y - b.
Proof.
  intros r t e n off. unfold row. cbv zeta. fold n. do 4 eexists. split; [reflexivity|]. unfold off, in_map. cbn [fst snd]. clearbody n. clear off.
  set (o := plus2 (times r (e_enu e)) t). destruct n as [n0 n1], o as [o0 o1], (e_map e) as [m0 m1]. cbn [fst snd]. split.
  - eapply dlim_ext; [| |apply (dlim_trig (n0 * o0 + n1 * o1) (n1 * o0 - n0 * o1) 0 (- n0 * m0 - n1 * m1))].
    + intros u. cbv beta. ring.
    + rewrite sin_0, cos_0. ring.
  - intros x y. rewrite sin_0, cos_0. ring.
Qed.
(** An iteration turns and moves all positions by what the solver finds, and ends or goes on. *)
Theorem C153_step : forall n l r t a x y, lsq (map (fun e => fst (row r t e)) l) (map (fun e => snd (row r t e)) l) = (a, x, y) ->
  exists r' t', (forall v, plus2 (times r' v) t' = in_map (plus2 (times r v) t) (x, y) a) /\
    (refine lsq (S n) l r t = (r', t') \/ refine lsq (S n) l r t = refine lsq n l r' t').
Proof.
  intros n l r t a x y E. exists (mult (turn2 a) r), (plus2 (times (turn2 a) t) (x, y)). split.
  - intros v. destruct r as [[p q] [u w]]. unfold mult, turn2, times, plus2, in_map. cbn [fst snd]. f_equal; ring.
  - cbn [refine]. rewrite !map_map, E. unfold turn2 at 1 4 7 10. destruct (Rlt_dec _ _); [destruct (Rlt_dec _ _)|]; auto.
Qed.
Lemma mat2_eq : forall a b c d a' b' c' d' : R, a = a' -> b = b' -> c = c' -> d = d' -> ((a, b), (c, d)) = ((a', b'), (c', d')).
Proof. intros; subst; reflexivity. Qed.
Lemma mult_turn : forall a b, mult (turn2 a) (turn2 b) = turn2 (a + b).
Proof. intros. unfold mult, turn2. rewrite cos_plus, sin_plus. apply mat2_eq; ring. Qed.
Lemma refine_turn : forall n l th t, exists th', fst (refine lsq n l (turn2 th) t) = turn2 th'.
Proof.
  induction n as [|n IH]; intros l th t; [exists th; reflexivity|]. cbn [refine]. destruct (lsq _ _) as [[a x] y]. rewrite mult_turn.
  cbv zeta. unfold turn2 at 1. destruct (Rlt_dec _ _); [destruct (Rlt_dec _ _); [eexists; reflexivity|]|]; apply IH.
Qed.
(** Whatever the data and the solver, the result is a turn and a move. *)
Theorem C153_turn : forall l m s, run_match lsq l = Ok (m, s) -> exists th, m = ((cos th, - sin th), (sin th, cos th)).
Proof.
  intros l m s. assert (I : Ok (id2, (0, 0)) = Ok (m, s) -> exists th, m = ((cos th, - sin th), (sin th, cos th))).
  { intros H. injection H as <- <-. exists 0. rewrite cos_0, sin_0. unfold id2. apply mat2_eq; ring. }
  unfold run_match. destruct l as [|e l]; [exact I|]. unfold estimate. destruct (run _ _ _) as [[k d]| | |]; cbn [bind]; try discriminate.
  cbn [fst snd]. destruct k as [|k]; cbn [bind]; [exact I|].
  match goal with |- context[refine lsq ?n ?l (turn2 ?th) ?t] => destruct (refine_turn n l th t) as [th' E]; destruct (refine lsq n l (turn2 th) t) as [r t'] end.
  cbn [fst] in E. subst r. intros H. injection H as <- <-. exists (- th'). pose proof (sin2_cos2 th') as Q. unfold Rsqr in Q.
  unfold inverse2, turn2. replace (cos th' * cos th' - sin th' * - sin th') with 1 by (rewrite <- Q; ring). rewrite Rinv_1, cos_neg, sin_neg. apply mat2_eq; ring.
Qed.
End Match.
Print Assumptions C153_row.
Print Assumptions C153_step.
Print Assumptions C153_turn.
Print Assumptions C153_estimate.
Print Assumptions C153_match.
Print Assumptions C153_total.

(** ** The average of angles *)
(** "The first estimate is as good as the data": false.  Two pairs turn by less than 6 degrees to either side; one is counted
    as almost a full turn, and the average is half a turn. *)
Definition slight : list entry :=
  [mkE (0, 0) (0, 0) (1, 0); mkE (0, 0) (0, 0) (1, 0); mkE (10, 0) (10, 1) (1, 0); mkE (10, 0) (10, -1) (1, 0)].
Theorem C153_average_refuted : exists t, estimate slight = Ok (Some (((-1, 0), (0, -1)), t)) /\
  Forall (fun e => norm2 (minus2 (e_map e) (e_enu e)) <= 1) slight.
Proof.
  assert (S1 : forall y, y * y = 1 -> ~ norm2 (minus2 (10, y) (0, 0)) < 5).
  { intros y Y L. unfold norm2, minus2 in L. cbn [fst snd] in L. replace ((10 - 0) * (10 - 0) + (y - 0) * (y - 0)) with 101 in L by (replace ((y - 0) * (y - 0)) with (y * y) by ring; rewrite Y; ring).
    assert (sqrt (5 * 5) <= sqrt 101) by (apply sqrt_le_1_alt; lra). rewrite sqrt_square in H by lra. lra. }
  assert (A0 : atan2 (0 - 0) (10 - 0) = 0).
  { unfold atan2. destruct (Rlt_dec 0 (10 - 0)); [|lra]. replace ((0 - 0) / (10 - 0)) with 0 by field. apply atan_0. }
  set (a := atan (1 / 10)). assert (Ha : 0 < a) by (unfold a; rewrite <- atan_0; apply atan_increasing; lra).
  assert (A1 : atan2 (1 - 0) (10 - 0) = a).
  { unfold atan2. destruct (Rlt_dec 0 (10 - 0)); [|lra]. unfold a. f_equal. field. }
  assert (A2 : atan2 (-1 - 0) (10 - 0) = - a).
  { unfold atan2. destruct (Rlt_dec 0 (10 - 0)); [|lra]. unfold a. rewrite <- atan_opp. f_equal. field. }
  assert (D1 : difference (minus2 (10, 1) (0, 0)) (minus2 (10, 0) (0, 0)) = a).
  { unfold difference, minus2. cbn [fst snd]. rewrite A0, A1. cbv zeta. destruct (Rlt_dec (a - 0) 0); lra. }
  assert (D2 : difference (minus2 (10, -1) (0, 0)) (minus2 (10, 0) (0, 0)) = PI * 2 - a).
  { unfold difference, minus2. cbn [fst snd]. rewrite A0, A2. cbv zeta. destruct (Rlt_dec (- a - 0) 0); lra. }
  assert (B : a < PI * 2) by (pose proof (atan_bound (1 / 10)) as [_ B]; pose proof PI_RGT_0; unfold a; lra). pose proof PI_RGT_0.
  eexists. split.
  - unfold estimate. change (halves slight) with [(mkE (0, 0) (0, 0) (1, 0), mkE (10, 0) (10, 1) (1, 0)); (mkE (0, 0) (0, 0) (1, 0), mkE (10, 0) (10, -1) (1, 0))].
    cbn [run]. unfold yaw_step. cbn [fst snd e_map e_enu]. rewrite D1, D2.
    destruct (Rlt_dec _ 5) as [L|_]; [exfalso; apply (S1 1); [ring|exact L]|]. destruct (Rle_dec 0 a) as [_|N]; [|exfalso; apply N; lra]. destruct (Rle_dec a (PI * 2)) as [_|N]; [|exfalso; apply N; lra]. cbn [bind fst snd].
    destruct (Rlt_dec _ 5) as [L|_]; [exfalso; apply (S1 (-1)); [ring|exact L]|]. destruct (Rle_dec 0 (PI * 2 - a)) as [_|N]; [|exfalso; apply N; lra]. destruct (Rle_dec (PI * 2 - a) (PI * 2)) as [_|N]; [|exfalso; apply N; lra]. cbn [bind fst snd].
    replace ((0 + a + (PI * 2 - a)) / INR 2) with PI by (cbn [INR]; field). unfold turn2 at 1. rewrite cos_PI, sin_PI, Ropp_0. reflexivity.
  - assert (U : forall x y u v, (x - u) * (x - u) + (y - v) * (y - v) <= 1 -> norm2 (minus2 (x, y) (u, v)) <= 1).
    { intros x y u v L. unfold norm2, minus2. cbn [fst snd]. rewrite <- sqrt_1. apply sqrt_le_1_alt, L. }
    unfold slight. apply Forall_cons; [apply U; lra|]. apply Forall_cons; [apply U; lra|]. apply Forall_cons; [apply U; lra|]. apply Forall_cons; [apply U; lra|]. apply Forall_nil.
Qed.
Print Assumptions C153_average_refuted.

(** ** A concrete path: a quarter turn and a move. *)
Example C153_ex_quarter : let l := [mkE (0, 0) (3, 4) (1, 0); mkE (7, 0) (3, 11) (1, 0)] in
  Forall (exact (PI / 2) (3, 4)) l /\ exists p, In p (halves l) /\ far p.
Proof.
  cbv zeta. split.
  - repeat constructor; unfold exact, in_map; cbn [e_map e_enu fst snd]; rewrite cos_PI2, sin_PI2; f_equal; ring.
  - eexists. split; [left; reflexivity|]. unfold far, norm2, minus2. cbn [e_map fst snd].
    apply Rle_trans with (sqrt (7 * 7)); [rewrite sqrt_square; lra|apply sqrt_le_1_alt; lra].
Qed.
Example C153_ex_settles : settles (fun a b => if Req_EM_T (fold_right Rmax 0 (map Rabs b)) 0 then (0, 0, 0) else (1, 2, 3)).
Proof.
  intros a b H. assert (E : fold_right Rmax 0 (map Rabs b) = 0).
  { induction H as [|x b -> H IH]; [reflexivity|]. cbn. rewrite IH, Rabs_R0. apply Rmax_left. lra. }
  rewrite E. destruct (Req_EM_T 0 0); [reflexivity|contradiction].
Qed.
(** A solver that asks for a quarter turn and a move: one iteration takes (1, 0) to (1, 1). *)
Example C153_ex_step : let solver := fun (_ : list (R * R * R)) (_ : list R) => (PI / 2, 1, 0) in
  let rt := refine solver 1 [mkE (1, 0) (1, 1) (1, 0)] id2 (0, 0) in plus2 (times (fst rt) (1, 0)) (snd rt) = (1, 1).
Proof.
  intros solver rt. destruct (C153_step solver 0 [mkE (1, 0) (1, 1) (1, 0)] id2 (0, 0) (PI / 2) 1 0 eq_refl) as (r & t & P & [E|E]);
    unfold rt; rewrite E; cbn [refine fst snd]; rewrite P; unfold in_map, plus2, times, id2; cbn [fst snd]; rewrite cos_PI2, sin_PI2; f_equal; ring.
Qed.
