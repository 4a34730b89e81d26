(** Proofs about the parts of the line search (NdtStepModel.v) over the reals. *)
From Coq Require Import Reals List Bool Lra Lia Qreals.
From Verif Require Import NdtStepModel NdtStepSpec NdtStepProofs NdtLineSpec.
Local Open Scope R_scope.

Notation rcubic := (cubic R Rplus Rminus Rmult Rdiv sqrt Q2R).
Notation rsecant := (secant R Rminus Rmult Rdiv).
Notation rtrial := (trial_value R Rplus Rminus Rmult Rdiv Rabs sqrt rlt rle Q2R).
Notation rupdate := (update_interval R Rminus Rmult rlt Q2R).
Notation rpsi := (psi R Rminus Rmult Q2R).
Notation rdpsi := (dpsi R Rminus Rmult Q2R).
Notation rgood := (good_enough R Rmult Ropp rle Q2R).
Notation rto_phi := (to_phi R Rplus Rminus Rmult Q2R).

Lemma Q2R_3 : Q2R 3 = 3.
Proof. unfold Q2R. cbn. lra. Qed.
Lemma Q2R_half : Q2R (1 # 2) = 1 / 2.
Proof. unfold Q2R. cbn. lra. Qed.
Lemma Q2R_66 : Q2R (66 # 100) = 66 / 100.
Proof. unfold Q2R. cbn. lra. Qed.
Lemma Q2R_mu : Q2R (1 # 10000) = 1 / 10000.
Proof. unfold Q2R. cbn. lra. Qed.
Lemma Q2R_nu : Q2R (9 # 10) = 9 / 10.
Proof. unfold Q2R. cbn. lra. Qed.

Lemma pval_about : forall p m x, pval p x = pval p m + pslope p m * (x - m) + pcurve p m / 2 * ((x - m) * (x - m)) + k3 p * ((x - m) * (x - m) * (x - m)).
Proof. intros. unfold pval, pslope, pcurve. field. Qed.
Lemma pslope_about : forall p m x, pslope p x = pslope p m + pcurve p m * (x - m) + 3 * k3 p * ((x - m) * (x - m)).
Proof. intros. unfold pslope, pcurve. field. Qed.
Lemma pcurve_about : forall p m x, pcurve p x = pcurve p m + 6 * k3 p * (x - m).
Proof. intros. unfold pcurve. field. Qed.

(** The formula finds the stationary point whose curvature has the sign of the step from [l] to [t]. *)
Lemma cubic_finds : forall p l t m, fits p l -> fits p t -> pslope p m = 0 -> 0 < pcurve p m * (at_ t - at_ l) ->
  pcurve p m + pcurve p (middle l t) <> 0 -> rcubic l t = m.
Proof.
  intros p [[al fl] gl] [[at' ft] gt'] m [Vl Sl] [Vt St] M K N. cbn [at_ val slope fst snd] in *. unfold middle in N. cbn [at_ fst snd] in N.
  unfold cubic. rewrite Q2R_3, Q2R_2.
  rewrite (pval_about p m) in Vl, Vt. rewrite (pslope_about p m) in Sl, St. rewrite (pcurve_about p m ((al + at') / 2)) in N.
  rewrite M in *. set (k := pcurve p m) in *. set (c := k3 p) in *. clearbody k c. set (f := pval p m) in *. clearbody f.
  set (u := al - m) in *. set (v := at' - m) in *. assert (Eu : al = m + u) by (unfold u; ring). assert (Ev : at' = m + v) by (unfold v; ring).
  clearbody u v. subst al at'. clear M.
  assert (Hn : v - u <> 0) by (intros E; replace (m + v - (m + u)) with (v - u) in K by ring; rewrite E, Rmult_0_r in K; lra).
  replace (m + v - (m + u)) with (v - u) in * by ring.
  replace (k + (k + 6 * c * ((m + u + (m + v)) / 2 - m))) with (2 * k + 3 * c * (u + v)) in N by field.
  subst fl ft gl gt'.
  match goal with |- context [sqrt (?z * ?z - _)] => assert (Z : z = k / 2 * (u + v) + 3 * c * (u * v)) by (field; assumption); rewrite Z; clear Z end.
  match goal with |- context [sqrt ?e] => assert (W : e = Rsqr (k / 2 * (v - u))) by (unfold Rsqr; field); rewrite W; clear W end.
  rewrite sqrt_Rsqr by (replace (k / 2 * (v - u)) with (k * (v - u) / 2) by field; lra).
  field. replace (k * v + 3 * c * (v * v) - (k * u + 3 * c * (u * u)) + k * (v - u)) with ((v - u) * (2 * k + 3 * c * (u + v))) by field.
  apply Rmult_integral_contrapositive. split; assumption.
Qed.
Lemma cubic_min : forall p l t m, at_ l < at_ t -> fits p l -> fits p t -> is_min p m -> ~ is_max p (middle l t) -> rcubic l t = m.
Proof.
  intros p l t m H Fl Ft [S C] N. apply (cubic_finds p); auto; [apply Rmult_lt_0_compat; lra|]. intros E. apply N. split; [|lra].
  rewrite (pslope_about p m), S. rewrite (pcurve_about p m (middle l t)) in E. set (y := middle l t - m) in *.
  replace (0 + pcurve p m * y + 3 * k3 p * (y * y)) with ((2 * pcurve p m + 6 * k3 p * y) * y / 2) by field. replace (2 * pcurve p m + 6 * k3 p * y) with 0 by lra. lra.
Qed.
Lemma cubic_max : forall p l t m, at_ t < at_ l -> fits p l -> fits p t -> is_max p m -> ~ is_min p (middle l t) -> rcubic l t = m.
Proof.
  intros p l t m H Fl Ft [S C] N. apply (cubic_finds p); auto.
  - replace (pcurve p m * (at_ t - at_ l)) with (- pcurve p m * (at_ l - at_ t)) by ring. apply Rmult_lt_0_compat; lra.
  - intros E. apply N. split; [|lra].
    rewrite (pslope_about p m), S. rewrite (pcurve_about p m (middle l t)) in E. set (y := middle l t - m) in *.
    replace (0 + pcurve p m * y + 3 * k3 p * (y * y)) with ((2 * pcurve p m + 6 * k3 p * y) * y / 2) by field. replace (2 * pcurve p m + 6 * k3 p * y) with 0 by lra. lra.
Qed.
(** Every pair of ends has one polynomial. *)
Lemma fits_exists : forall l t, at_ l <> at_ t -> exists p, fits p l /\ fits p t.
Proof.
  intros [[a f] g] [[b e] q] N. cbn [at_ fst snd] in N. unfold fits. cbn [at_ val slope fst snd].
  set (h := b - a). assert (H : h <> 0) by (unfold h; lra).
  set (dd := (e - f) / h). set (c := (q + g - 2 * dd) / (h * h)). set (d := (3 * dd - q - 2 * g) / h).
  exists (mkP (f - g * a + d * (a * a) - c * (a * a * a)) (g - 2 * d * a + 3 * c * (a * a)) (d - 3 * c * a) c).
  unfold pval, pslope. cbn [k0 k1 k2 k3]. replace b with (a + h) by (unfold h; ring). unfold d, c, dd. repeat split; field; assumption.
Qed.
Lemma secant_finds : forall l t s, at_ l <> at_ t -> zero_slope l t s -> rsecant l t = s.
Proof.
  intros [[al fl] gl] [[at' ft] gt'] s N (k & K & Sl & St). cbn [at_ slope fst snd] in *. unfold secant. subst gl gt'.
  replace (k * (al - s) - k * (at' - s)) with (k * (al - at')) by ring. field. split; lra.
Qed.

(** A minimum between the ends. *)
Lemma inner_min : forall p l t, at_ l < at_ t -> fits p l -> fits p t -> slope l < 0 -> (val l < val t \/ 0 < slope t) ->
  exists m, is_min p m /\ at_ l < m < at_ t /\ ~ is_max p (middle l t).
Proof.
  intros p [[al fl] gl] [[at' ft] gt'] H [Vl Sl] [Vt St] G C. unfold middle. cbn [at_ val slope fst snd] in *.
  rewrite (pval_about p al) in Vt. rewrite (pslope_about p al) in St. rewrite Vl, Sl in *.
  set (h := at' - al) in *. assert (Et : at' = al + h) by (unfold h; ring). clearbody h. subst at'. assert (Hh : 0 < h) by lra. clear H.
  set (b := pcurve p al / 2) in *. assert (Eb : pcurve p al = 2 * b) by (unfold b; field). set (c := k3 p) in *.
  set (g := - gl) in *. assert (Eg : gl = - g) by (unfold g; ring). assert (Pg : 0 < g) by lra.
  assert (D : 0 < - g + b * h + c * (h * h) \/ 0 < - g + 2 * b * h + 3 * c * (h * h)).
  { destruct C as [C|C].
    - left. subst ft. rewrite Eg in C. assert (0 < h * (- g + b * h + c * (h * h))) by nra. apply (Rmult_lt_reg_l h); [assumption|]. lra.
    - right. subst gt'. rewrite Eg, Eb in C. lra. }
  clear C.
  assert (Hc : 0 < h * h) by (apply Rmult_lt_0_compat; assumption).
  assert (Bc : 0 < c \/ 0 < b).
  { destruct (Rlt_le_dec 0 c) as [|Lc]; [left; assumption|right]. destruct (Rlt_le_dec 0 b) as [|Lb]; [assumption|].
    exfalso. assert (c * (h * h) <= 0) by (assert (0 <= - c * (h * h)) by (apply Rmult_le_pos; lra); lra). assert (b * h <= 0) by (assert (0 <= - b * h) by (apply Rmult_le_pos; lra); lra). lra. }
  assert (Disc : 0 < b * b + 3 * c * g).
  { destruct (Rlt_le_dec 0 c) as [Lc|Lc]; [assert (0 < c * g) by (apply Rmult_lt_0_compat; assumption); pose proof (Rle_0_sqr b); unfold Rsqr in *; lra|].
    assert (Lb : 0 < b) by (destruct Bc; lra).
    apply (Rmult_lt_reg_l (h * h)); [assumption|]. rewrite Rmult_0_r.
    set (q := - c * (h * h)). assert (Pq : 0 <= q) by (apply Rmult_le_pos; lra). replace (h * h * (b * b + 3 * c * g)) with ((b * h) * (b * h) - 3 * (q * g)) by (unfold q; ring).
    assert (Pb : 0 < b * h) by (apply Rmult_lt_0_compat; assumption). set (y := b * h) in *. assert (Ey : y = b * h) by reflexivity.
    assert (Qg : 0 <= q * g) by (apply Rmult_le_pos; lra).
    destruct D as [D|D].
    - assert (Y : g + q < y) by (unfold q; lra). assert (S : (g + q) * (g + q) < y * y) by (apply Rmult_le_0_lt_compat; lra).
      pose proof (Rle_0_sqr (g - q)) as T. unfold Rsqr in T. lra.
    - assert (Y : g + 3 * q < 2 * y) by (unfold q; lra). assert (S : (g + 3 * q) * (g + 3 * q) < 2 * y * (2 * y)) by (apply Rmult_le_0_lt_compat; lra).
      pose proof (Rle_0_sqr (g - 3 * q)) as T. unfold Rsqr in T. lra. }
  set (w := sqrt (b * b + 3 * c * g)). assert (W0 : 0 < w) by (apply sqrt_lt_R0; assumption). assert (W2 : w * w = b * b + 3 * c * g) by (apply sqrt_sqrt; lra). clearbody w.
  assert (Pbw : 0 < b + w).
  { destruct (Rlt_le_dec 0 b) as [|Lb]; [lra|]. assert (Lc : 0 < c) by (destruct Bc; lra). assert (0 < c * g) by (apply Rmult_lt_0_compat; assumption).
    destruct (Rlt_le_dec (- b) w); [lra|]. exfalso. assert (w * w <= - b * - b) by (apply Rmult_le_compat; lra). lra. }
  set (x := g / (b + w)). assert (X0 : 0 < x) by (apply Rdiv_lt_0_compat; assumption). assert (Xe : x * (b + w) = g) by (unfold x; field; lra).
  assert (Xr : 3 * c * x = w - b).
  { apply (Rmult_eq_reg_r (b + w)); [|lra]. replace (3 * c * x * (b + w)) with (3 * c * (x * (b + w))) by ring. rewrite Xe. replace ((w - b) * (b + w)) with (w * w - b * b) by ring. lra. }
  assert (Xh : x < h).
  { apply (Rmult_lt_reg_r (b + w)); [assumption|]. rewrite Xe.
    destruct (Rlt_le_dec g (b * h)) as [L|L]; [assert (0 < h * w) by (apply Rmult_lt_0_compat; assumption); lra|].
    destruct (Rlt_le_dec (g - b * h) (h * w)) as [|K]; [lra|]. exfalso.
    assert (S : h * w * (h * w) <= (g - b * h) * (g - b * h)) by (apply Rmult_le_compat; try lra; apply Rmult_le_pos; lra).
    replace (h * w * (h * w)) with (h * h * (w * w)) in S by ring. rewrite W2 in S.
    assert (T : g * (3 * c * (h * h)) <= g * (g - 2 * (b * h))) by lra. apply Rmult_le_reg_l in T; [|assumption].
    destruct D as [D|D]; lra. }
  exists (al + x). split; [split|split].
  - rewrite (pslope_about p al), Sl, Eg, Eb. replace (al + x - al) with x by ring. fold c.
    replace (3 * c * (x * x)) with (3 * c * x * x) by ring. rewrite Xr. replace (- g + 2 * b * x + (w - b) * x) with (x * (b + w) - g) by ring. rewrite Xe. ring.
  - rewrite (pcurve_about p al), Eb. replace (al + x - al) with x by ring. fold c. replace (6 * c * x) with (2 * (3 * c * x)) by ring. rewrite Xr. lra.
  - lra.
  - intros [M1 M2]. rewrite (pslope_about p al), Sl, Eg, Eb in M1. rewrite (pcurve_about p al), Eb in M2. fold c in M1, M2.
    replace ((al + (al + h)) / 2 - al) with (h / 2) in * by field.
    assert (M3 : h * (2 * b + 6 * c * (h / 2)) < 0) by (assert (0 < h * - (2 * b + 6 * c * (h / 2))) by (apply Rmult_lt_0_compat; lra); lra).
    destruct D as [D|D]; lra.
Qed.
