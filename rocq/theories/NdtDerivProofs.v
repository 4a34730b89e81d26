From Coq Require Import Reals List Lra Lia Psatz.
From Verif Require Import RigidModel RigidSpec NdtDerivModel NdtDerivSpec.
Import ListNotations.
Local Open Scope R_scope.

(** * Tools for derivatives. *)
Lemma dlim_ext : forall f g a l m, (forall u, f u = g u) -> l = m -> derivable_pt_lim g a m -> derivable_pt_lim f a l.
Proof.
  intros f g a l m E El H. subst l. intros e He. destruct (H e He) as [d Hd]. exists d. intros h Hh Hl.
  rewrite !E. now apply Hd.
Qed.

Lemma dlim_trig : forall A B C D a,
  derivable_pt_lim (fun u => A * cos u + B * sin u + C * u + D) a (- A * sin a + B * cos a + C).
Proof.
  intros.
  eapply dlim_ext with (g := fun u => plus_fct (plus_fct (plus_fct (mult_real_fct A cos) (mult_real_fct B sin)) (mult_real_fct C id)) (fct_cte D) u).
  - intro u. unfold plus_fct, mult_real_fct, fct_cte, id. reflexivity.
  - instantiate (1 := ((A * - sin a + B * cos a) + C * 1) + 0). ring.
  - repeat apply derivable_pt_lim_plus.
    + apply derivable_pt_lim_scal, derivable_pt_lim_cos.
    + apply derivable_pt_lim_scal, derivable_pt_lim_sin.
    + apply derivable_pt_lim_scal, derivable_pt_lim_id.
    + apply derivable_pt_lim_const.
Qed.

(** A function of the cosine and sine of the variable, affine in them. *)
Lemma dlim_pair : forall (G : R -> R -> R) f a l,
  (forall u, f u = G (cos u) (sin u)) ->
  (forall c s, G c s = (G 1 0 - G 0 0) * c + (G 0 1 - G 0 0) * s + 0 * c + G 0 0) ->
  l = - (G 1 0 - G 0 0) * sin a + (G 0 1 - G 0 0) * cos a ->
  derivable_pt_lim f a l.
Proof.
  intros G f a l E H El.
  eapply dlim_ext; [|  |apply (dlim_trig (G 1 0 - G 0 0) (G 0 1 - G 0 0) 0 (G 0 0))].
  - intro u. rewrite E, H. ring.
  - rewrite El. ring.
Qed.

Lemma dlim_line : forall C D f a l, (forall u, f u = C * u + D) -> l = C -> derivable_pt_lim f a l.
Proof.
  intros C D f a l E El. eapply dlim_ext; [| |apply (dlim_trig 0 0 C D)].
  - intro u. rewrite E. ring.
  - rewrite El. ring.
Qed.

(** * The rigid motion. *)
(** With exact cosines and sines. *)
Definition exact (p : params) : angles :=
  mkA (cos (p 3%nat)) (sin (p 3%nat)) (cos (p 4%nat)) (sin (p 4%nat)) (cos (p 5%nat)) (sin (p 5%nat)).

Lemma exact_snapped : forall p, angles_of p = exact (snapped p).
Proof.
  intro p. unfold angles_of, exact, snapped, cos_of, sin_of. cbn [Nat.leb].
  destruct (Rlt_dec (Rabs (p 3%nat)) (10 / 100000)), (Rlt_dec (Rabs (p 4%nat)) (10 / 100000)),
    (Rlt_dec (Rabs (p 5%nat)) (10 / 100000)); rewrite ?cos_0, ?sin_0; reflexivity.
Qed.

(** The second derivatives: as in the code but for the sign in d1. *)
Definition true_hessian (g : angles) (x : vec) (i j : nat) : vec :=
  if (Nat.eqb i 4 && Nat.eqb j 4)%bool
  then vsub (point_hessian g x i j) (mkV (2 * sy g * vz x) 0 0)
  else point_hessian g x i j.

(** The motion as a polynomial in the cosines and sines. *)
Definition poly (t : vec) (g : angles) (x : vec) : vec :=
  vadd (mvec (mkM 1 0 0 0 (cx g) (- sx g) 0 (sx g) (cx g))
         (mvec (mkM (cy g) 0 (sy g) 0 1 0 (- sy g) 0 (cy g))
           (mvec (mkM (cz g) (- sz g) 0 (sz g) (cz g) 0 0 0 1) x))) t.

(** [g] with the cosine and sine of angle [k] replaced. *)
Definition set_angle (g : angles) (k : nat) (c s : R) : angles :=
  match k with
  | 3 => mkA c s (cy g) (sy g) (cz g) (sz g)
  | 4 => mkA (cx g) (sx g) c s (cz g) (sz g)
  | _ => mkA (cx g) (sx g) (cy g) (sy g) c s
  end%nat.

Ltac angle3 k Hk := destruct k as [|[|[|[|[|[|k]]]]]]; try lia; clear Hk.

Lemma exact_put : forall p k u, (3 <= k < 6)%nat -> exact (put p k u) = set_angle (exact p) k (cos u) (sin u).
Proof. intros p k u Hk. angle3 k Hk; reflexivity. Qed.
Lemma exact_put_shift : forall p k u, (k < 3)%nat -> exact (put p k u) = exact p.
Proof. intros p k u Hk. angle3 k Hk; reflexivity. Qed.
Lemma exact_same : forall p k, (3 <= k < 6)%nat -> set_angle (exact p) k (cos (p k)) (sin (p k)) = exact p.
Proof. intros p k Hk. angle3 k Hk; reflexivity. Qed.

Lemma position_poly : forall p x, position p x = poly (mkV (p 0%nat) (p 1%nat) (p 2%nat)) (exact p) x.
Proof. reflexivity. Qed.

(** A function of the angles that is affine in the cosine and sine of angle [k]. *)
Lemma angle_partial : forall (F : angles -> R) k p l, (3 <= k < 6)%nat ->
  (forall g c s, F (set_angle g k c s) =
     (F (set_angle g k 1 0) - F (set_angle g k 0 0)) * c + (F (set_angle g k 0 1) - F (set_angle g k 0 0)) * s
     + F (set_angle g k 0 0)) ->
  l = - (F (set_angle (exact p) k 1 0) - F (set_angle (exact p) k 0 0)) * sin (p k)
      + (F (set_angle (exact p) k 0 1) - F (set_angle (exact p) k 0 0)) * cos (p k) ->
  partial (fun q => F (exact q)) k p l.
Proof.
  intros F k p l Hk H El. unfold partial.
  apply (dlim_pair (fun c s => F (set_angle (exact p) k c s))).
  - intro u. now rewrite exact_put.
  - intros c s. rewrite H at 1. ring.
  - exact El.
Qed.

Inductive coordinate : (vec -> R) -> Prop := co_x : coordinate vx | co_y : coordinate vy | co_z : coordinate vz.

Ltac unfold_rows :=
  unfold true_hessian, point_gradient, point_hessian, poly, dot, exact, j_a, j_b, j_c, j_d, j_e, j_f, j_g, j_h, h_a2, h_a3,
    h_b2, h_b3, h_c2, h_c3, h_d1, h_d2, h_d3, h_e1, h_e2, h_e3, h_f1, h_f2, h_f3;
  cbn [point_gradient point_hessian true_hessian poly vadd vsub mvec dot vx vy vz m00 m01 m02 m10 m11 m12 m20 m21 m22
       j_a j_b j_c j_d j_e j_f j_g j_h h_a2 h_a3 h_b2 h_b3 h_c2 h_c3 h_d1 h_d2 h_d3 h_e1 h_e2 h_e3 h_f1 h_f2 h_f3
       set_angle cx sx cy sy cz sz zero_vec Nat.eqb andb exact].

Lemma position_partial : forall p x k co, (k < 6)%nat -> coordinate co ->
  partial (fun q => co (position q x)) k p (co (point_gradient (exact p) x k)).
Proof.
  intros p x k co Hk Hc.
  assert (C : (k < 3)%nat \/ (3 <= k < 6)%nat) by lia. destruct C as [C|C].
  - unfold partial. clear Hk. destruct k as [|[|[|k]]]; try lia; clear C; destruct Hc.
    1: apply (dlim_line 1 (vx (position p x) - p 0%nat)); [intro; cbn; ring|reflexivity].
    1: apply (dlim_line 0 (vy (position p x))); [intro; cbn; ring|reflexivity].
    1: apply (dlim_line 0 (vz (position p x))); [intro; cbn; ring|reflexivity].
    1: apply (dlim_line 0 (vx (position p x))); [intro; cbn; ring|reflexivity].
    1: apply (dlim_line 1 (vy (position p x) - p 1%nat)); [intro; cbn; ring|reflexivity].
    1: apply (dlim_line 0 (vz (position p x))); [intro; cbn; ring|reflexivity].
    1: apply (dlim_line 0 (vx (position p x))); [intro; cbn; ring|reflexivity].
    1: apply (dlim_line 0 (vy (position p x))); [intro; cbn; ring|reflexivity].
    1: apply (dlim_line 1 (vz (position p x) - p 2%nat)); [intro; cbn; ring|reflexivity].
  - assert (P : partial (fun q => co (poly (mkV (p 0%nat) (p 1%nat) (p 2%nat)) (exact q) x)) k p
                        (co (point_gradient (exact p) x k))).
    { apply (angle_partial (fun g => co (poly (mkV (p 0%nat) (p 1%nat) (p 2%nat)) g x))); [exact C| |].
      - intros g c s. clear Hk. angle3 k C; destruct Hc; unfold_rows; ring.
      - clear Hk. angle3 k C; destruct Hc; unfold_rows; ring. }
    unfold partial in *. eapply dlim_ext; [|reflexivity|exact P].
    intro u. cbn beta. rewrite position_poly. clear Hk P. angle3 k C; reflexivity.
Qed.

Lemma gradient_partial : forall p x i j co, (i < 6)%nat -> (j < 6)%nat -> coordinate co ->
  partial (fun q => co (point_gradient (exact q) x i)) j p (co (true_hessian (exact p) x i j)).
Proof.
  intros p x i j co Hi Hj Hc.
  assert (C : (j < 3)%nat \/ (3 <= j < 6)%nat) by lia. destruct C as [C|C].
  - unfold partial. apply (dlim_line 0 (co (point_gradient (exact p) x i))).
    + intro u. rewrite exact_put_shift by exact C. ring.
    + clear Hj. destruct j as [|[|[|j]]]; try lia; clear C;
        (destruct i as [|[|[|[|[|[|i]]]]]]; try lia); destruct Hc; reflexivity.
  - apply (angle_partial (fun g => co (point_gradient g x i))); [exact C| |].
    + intros g c s. clear Hj. angle3 j C; (destruct i as [|[|[|[|[|[|i]]]]]]; try lia); destruct Hc; unfold_rows; ring.
    + clear Hj. angle3 j C; (destruct i as [|[|[|[|[|[|i]]]]]]; try lia); destruct Hc; unfold_rows; ring.
Qed.

(** * Sums. *)
Lemma rsum_app : forall a b, rsum (a ++ b) = rsum a + rsum b.
Proof. induction a as [|x a IH]; intro b; cbn; [ring|rewrite IH; ring]. Qed.

Lemma rsum_map_plus : forall A (f g : A -> R) l, rsum (map (fun x => f x + g x) l) = rsum (map f l) + rsum (map g l).
Proof. intros A f g l. induction l as [|x l IH]; cbn; [ring|rewrite IH; ring]. Qed.

Lemma rsum_zero : forall A (f : A -> R) l, (forall x, In x l -> f x = 0) -> rsum (map f l) = 0.
Proof.
  intros A f l H. induction l as [|x l IH]; cbn; [reflexivity|]. rewrite H by now left. rewrite IH; [ring|].
  intros y Hy. apply H. now right.
Qed.

Lemma rsum_ext : forall A (f g : A -> R) l, (forall x, In x l -> f x = g x) -> rsum (map f l) = rsum (map g l).
Proof.
  intros A f g l H. induction l as [|x l IH]; cbn; [reflexivity|]. rewrite H by now left. rewrite IH; [reflexivity|].
  intros y Hy. apply H. now right.
Qed.

Lemma rsum_single : forall (v : R) m start n, (start <= m < start + n)%nat ->
  rsum (map (fun i => if Nat.eqb m i then v else 0) (seq start n)) = v.
Proof.
  intros v m start n. revert start. induction n as [|n IH]; intros start H; [lia|]. cbn [seq map rsum].
  destruct (Nat.eqb_spec m start) as [->|N].
  - rewrite rsum_zero; [ring|]. intros i Hi. apply in_seq in Hi. destruct (Nat.eqb_spec start i); [lia|reflexivity].
  - rewrite IH by lia. ring.
Qed.

Lemma by_threads_sum : forall threads thread value points, (forall k, (k < points)%nat -> (thread k < threads)%nat) ->
  by_threads threads thread value points = rsum (map value (seq 0 points)).
Proof.
  intros threads thread value points H. unfold by_threads.
  assert (G : forall l, (forall k, In k l -> (thread k < threads)%nat) ->
    rsum (map (fun i => rsum (map value (filter (fun k => Nat.eqb (thread k) i) l))) (seq 0 threads)) = rsum (map value l)).
  { induction l as [|k l IH]; intro Hl.
    - cbn. apply rsum_zero. reflexivity.
    - cbn [map rsum].
      rewrite <- IH by (intros; apply Hl; now right).
      transitivity (rsum (map (fun i => (if Nat.eqb (thread k) i then value k else 0)
        + rsum (map value (filter (fun k => Nat.eqb (thread k) i) l))) (seq 0 threads))).
      + apply rsum_ext. intros i _. cbn [filter]. destruct (Nat.eqb (thread k) i); cbn; ring.
      + rewrite rsum_map_plus. rewrite rsum_single; [reflexivity|]. specialize (Hl k (or_introl eq_refl)). lia. }
  apply G. intros k Hk. apply in_seq in Hk. apply H. lia.
Qed.

Lemma rsum_nth : forall A (f : A -> R) d l, rsum (map (fun k => f (nth k l d)) (seq 0 (length l))) = rsum (map f l).
Proof.
  intros A f d l. replace (map (fun k => f (nth k l d)) (seq 0 (length l))) with (map f l); [reflexivity|].
  induction l as [|x l IH]; [reflexivity|]. cbn [length seq map nth]. f_equal. rewrite <- seq_shift, map_map. exact IH.
Qed.

Lemma partial_sum : forall A (F : A -> params -> R) (L : A -> R) k p l,
  (forall x, In x l -> partial (F x) k p (L x)) ->
  partial (fun q => rsum (map (fun x => F x q) l)) k p (rsum (map L l)).
Proof.
  intros A F L k p l H. unfold partial. induction l as [|x l IH].
  - apply (dlim_line 0 0); [intro u; cbn; ring|reflexivity].
  - cbn [map rsum]. apply (derivable_pt_lim_plus (fun u => F x (put p k u)) (fun u => rsum (map (fun x => F x (put p k u)) l))).
    + apply H. now left.
    + apply IH. intros y Hy. apply H. now right.
Qed.

Lemma second_partial_sum : forall A (F : A -> params -> R) (L : A -> R) i j p l,
  (forall x, In x l -> second_partial (F x) i j p (L x)) ->
  second_partial (fun q => rsum (map (fun x => F x q) l)) i j p (rsum (map L l)).
Proof.
  intros A F L i j p l H. induction l as [|x l IH].
  - exists (fun _ => 0). split; intros; unfold partial; apply (dlim_line 0 0); intros; cbn; try ring; reflexivity.
  - destruct (H x (or_introl eq_refl)) as (f' & F1 & F2).
    destruct IH as (g' & G1 & G2); [intros y Hy; apply H; now right|].
    exists (fun q => f' q + g' q). split.
    + intro q. unfold partial in *. cbn [map rsum].
      apply (derivable_pt_lim_plus (fun u => F x (put q i u)) (fun u => rsum (map (fun x => F x (put q i u)) l)));
        [apply F1|apply G1].
    + unfold partial in *. cbn [map rsum].
      apply (derivable_pt_lim_plus (fun u => f' (put p j u)) (fun u => g' (put p j u))); assumption.
Qed.

(** * Bells. *)
Definition vlim (v : R -> vec) (a : R) (w : vec) : Prop :=
  forall co, coordinate co -> derivable_pt_lim (fun u => co (v u)) a (co w).

Lemma dlim_mult : forall f g a l m, derivable_pt_lim f a l -> derivable_pt_lim g a m ->
  derivable_pt_lim (fun u => f u * g u) a (l * g a + f a * m).
Proof. intros. now apply (derivable_pt_lim_mult f g). Qed.
Lemma dlim_plus : forall f g a l m, derivable_pt_lim f a l -> derivable_pt_lim g a m ->
  derivable_pt_lim (fun u => f u + g u) a (l + m).
Proof. intros. now apply (derivable_pt_lim_plus f g). Qed.
Lemma dlim_scal : forall k f a l, derivable_pt_lim f a l -> derivable_pt_lim (fun u => k * f u) a (k * l).
Proof. intros. now apply (derivable_pt_lim_scal f k). Qed.
Lemma dlim_exp : forall f a l, derivable_pt_lim f a l -> derivable_pt_lim (fun u => exp (f u)) a (exp (f a) * l).
Proof. intros f a l H. apply (derivable_pt_lim_comp f exp); [exact H|apply derivable_pt_lim_exp]. Qed.

Lemma vlim_mvec : forall C v a w, vlim v a w -> vlim (fun u => mvec C (v u)) a (mvec C w).
Proof.
  intros C v a w H co Hc.
  pose proof (H vx co_x) as X. pose proof (H vy co_y) as Y. pose proof (H vz co_z) as Z.
  destruct Hc; cbn [mvec vx vy vz]; repeat (apply dlim_plus || apply dlim_scal || assumption).
Qed.

Lemma vlim_dot : forall v a w v' w', vlim v a w -> vlim v' a w' ->
  derivable_pt_lim (fun u => dot (v u) (v' u)) a (dot w (v' a) + dot (v a) w').
Proof.
  intros v a w v' w' H H'.
  pose proof (dlim_mult _ _ _ _ _ (H vx co_x) (H' vx co_x)) as X. pose proof (dlim_mult _ _ _ _ _ (H vy co_y) (H' vy co_y)) as Y.
  pose proof (dlim_mult _ _ _ _ _ (H vz co_z) (H' vz co_z)) as Z.
  unfold dot. eapply dlim_ext; [reflexivity| |apply dlim_plus; [apply dlim_plus; [exact X|exact Y]|exact Z]].
  cbn beta. ring.
Qed.

Lemma sym_dot : forall C a b, symmetric C -> dot a (mvec C b) = dot b (mvec C a).
Proof.
  intros [a00 a01 a02 a10 a11 a12 a20 a21 a22] a b H. unfold symmetric, mtrans in H. cbn in H. injection H as E1 E2 E3 E4 E5 E6.
  subst. unfold dot, mvec. cbn. ring.
Qed.

Lemma sym_trans : forall C v, symmetric C -> mvec (mtrans C) v = mvec C v.
Proof. intros C v H. now rewrite H. Qed.

Section Bell.
  Variables (d1 d2 : R) (C : mat).
  Hypothesis Sym : symmetric C.
  Definition hill (v : vec) : R := exp (- d2 * (dot v (mvec C v) / 2)).

  Lemma hill_lim : forall v a w, vlim v a w ->
    derivable_pt_lim (fun u => hill (v u)) a (- d2 * hill (v a) * dot (v a) (mvec C w)).
  Proof.
    intros v a w H. unfold hill.
    eapply dlim_ext; [reflexivity| |apply dlim_exp with (f := fun u => - d2 * (dot (v u) (mvec C (v u)) / 2))].
    2:{ apply dlim_scal.
        eapply dlim_ext with (g := fun u => / 2 * dot (v u) (mvec C (v u))); [intro; unfold Rdiv; ring|reflexivity|].
        apply dlim_scal, vlim_dot; [exact H|exact (vlim_mvec C _ _ _ H)]. }
    cbn beta. rewrite (sym_dot C w (v a)) by exact Sym. field.
  Qed.

  (** The first derivative of the score of one cell, and the derivative of that along another curve. *)
  Lemma score_lim : forall v a w, vlim v a w ->
    derivable_pt_lim (fun u => - d1 * hill (v u)) a (d1 * d2 * hill (v a) * dot (v a) (mvec C w)).
  Proof.
    intros v a w H. eapply dlim_ext; [reflexivity| |apply dlim_scal, hill_lim; exact H]. ring.
  Qed.

  Lemma slope_lim : forall v a w g h, vlim v a w -> vlim g a h ->
    derivable_pt_lim (fun u => d1 * d2 * hill (v u) * dot (v u) (mvec C (g u))) a
      (d1 * d2 * hill (v a) * (- d2 * dot (v a) (mvec C (g a)) * dot (v a) (mvec C w) + dot (v a) (mvec C h)
                               + dot w (mvec C (g a)))).
  Proof.
    intros v a w g h H G.
    eapply dlim_ext; [reflexivity| |apply dlim_mult with (f := fun u => d1 * d2 * hill (v u)) (g := fun u => dot (v u) (mvec C (g u)))].
    2:{ apply dlim_scal, hill_lim, H. }
    2:{ apply vlim_dot; [exact H|exact (vlim_mvec C _ _ _ G)]. }
    cbn beta. ring.
  Qed.
End Bell.

Lemma vlim_position : forall p x k m, (k < 6)%nat -> vlim (fun u => vsub (position (put p k u) x) m) (p k) (point_gradient (exact p) x k).
Proof.
  intros p x k m Hk co Hc.
  pose proof (position_partial p x k co Hk Hc) as P. unfold partial in P.
  eapply dlim_ext with (g := fun u => co (position (put p k u) x) + - co m).
  - intro u. destruct Hc; reflexivity.
  - instantiate (1 := co (point_gradient (exact p) x k) + 0). ring.
  - apply dlim_plus; [exact P|]. apply derivable_pt_lim_const.
Qed.

Lemma vlim_gradient : forall p x i j, (i < 6)%nat -> (j < 6)%nat ->
  vlim (fun u => point_gradient (exact (put p j u)) x i) (p j) (true_hessian (exact p) x i j).
Proof. intros p x i j Hi Hj co Hc. now apply gradient_partial. Qed.

Lemma put_same : forall p k x, (k < 6)%nat -> position (put p k (p k)) x = position p x.
Proof. intros p k x Hk. destruct k as [|[|[|[|[|[|k]]]]]]; try lia; reflexivity. Qed.
Lemma exact_put_same : forall p k, (k < 6)%nat -> exact (put p k (p k)) = exact p.
Proof. intros p k Hk. destruct k as [|[|[|[|[|[|k]]]]]]; try lia; reflexivity. Qed.

(** The gradient and the true Hessian of the score of one cell. *)
Definition cell_slope (d1 d2 : R) (c : cell) (x : vec) (p : params) (k : nat) : R :=
  let v := vsub (position p x) (mean c) in
  d1 * d2 * bell d2 c (position p x) * dot v (mvec (c_inv c) (point_gradient (exact p) x k)).
Definition cell_bend (d1 d2 : R) (c : cell) (x : vec) (p : params) (i j : nat) : R :=
  let v := vsub (position p x) (mean c) in
  d1 * d2 * bell d2 c (position p x) *
    (- d2 * dot v (mvec (c_inv c) (point_gradient (exact p) x i)) * dot v (mvec (c_inv c) (point_gradient (exact p) x j))
     + dot v (mvec (c_inv c) (true_hessian (exact p) x i j))
     + dot (point_gradient (exact p) x j) (mvec (c_inv c) (point_gradient (exact p) x i))).

Lemma cell_partial : forall d1 d2 c x k p, symmetric (c_inv c) -> (k < 6)%nat ->
  partial (fun q => - d1 * bell d2 c (position q x)) k p (cell_slope d1 d2 c x p k).
Proof.
  intros d1 d2 c x k p S Hk. unfold partial.
  eapply dlim_ext; [| |apply (score_lim d1 d2 (c_inv c) S _ _ _ (vlim_position p x k (mean c) Hk))].
  - reflexivity.
  - unfold cell_slope. cbn beta. rewrite put_same by exact Hk. reflexivity.
Qed.

Lemma cell_second : forall d1 d2 c x i j p, symmetric (c_inv c) -> (i < 6)%nat -> (j < 6)%nat ->
  second_partial (fun q => - d1 * bell d2 c (position q x)) i j p (cell_bend d1 d2 c x p i j).
Proof.
  intros d1 d2 c x i j p S Hi Hj. exists (fun q => cell_slope d1 d2 c x q i). split.
  - intro q. now apply cell_partial.
  - unfold partial.
    eapply dlim_ext; [| |apply (slope_lim d1 d2 (c_inv c) S _ _ _ _ _ (vlim_position p x j (mean c) Hj) (vlim_gradient p x i j Hi Hj))].
    + reflexivity.
    + unfold cell_bend. cbn beta. rewrite put_same, exact_put_same by assumption. reflexivity.
Qed.

(** * What updateDerivatives adds. *)
Definition kept (d2 : R) (c : cell) (y : vec) : Prop := 0 <= d2 * bell d2 c y <= 1.

Lemma update_kept : forall d1 d2 gr he y c, symmetric (c_inv c) -> kept d2 c y ->
  let v := vsub y (mean c) in
  let u := update_derivatives d1 d2 gr he v (c_inv c) in
  c_score u = - d1 * bell d2 c y /\
  (forall k, c_gradient u k = d1 * d2 * bell d2 c y * dot v (mvec (c_inv c) (gr k))) /\
  (forall i j, c_hessian u i j = d1 * d2 * bell d2 c y *
     (- d2 * dot v (mvec (c_inv c) (gr i)) * dot v (mvec (c_inv c) (gr j)) + dot v (mvec (c_inv c) (he i j))
      + dot (gr j) (mvec (c_inv c) (gr i)))).
Proof.
  intros d1 d2 gr he y c S K v u. subst u.
  unfold update_derivatives. rewrite (sym_trans _ v S).
  replace (exp (- d2 * dot v (mvec (c_inv c) v) * (1 / 2))) with (bell d2 c y)
    by (unfold bell; fold v; f_equal; field).
  unfold kept in K.
  destruct (Rlt_dec 1 (d2 * bell d2 c y)) as [L|_]; [lra|].
  destruct (Rlt_dec (d2 * bell d2 c y) 0) as [L|_]; [lra|].
  cbn [c_score c_gradient c_hessian]. split; [reflexivity|]. split.
  - intro k. ring.
  - intros i j.
    replace (dot v (mvec (c_inv c) (he i j))) with (dot (mvec (c_inv c) v) (he i j))
      by (rewrite (sym_dot (c_inv c) v (he i j) S); unfold dot; ring).
    ring.
Qed.

Lemma update_dropped : forall d1 d2 gr he y c, symmetric (c_inv c) -> ~ kept d2 c y ->
  update_derivatives d1 d2 gr he (vsub y (mean c)) (c_inv c) = nothing.
Proof.
  intros d1 d2 gr he y c S K. unfold update_derivatives. rewrite (sym_trans _ _ S).
  replace (exp (- d2 * dot (vsub y (mean c)) (mvec (c_inv c) (vsub y (mean c))) * (1 / 2))) with (bell d2 c y)
    by (unfold bell; f_equal; field).
  destruct (Rlt_dec 1 (d2 * bell d2 c y)); [reflexivity|]. destruct (Rlt_dec (d2 * bell d2 c y) 0); [reflexivity|].
  elim K. unfold kept. lra.
Qed.

Lemma update_hessian_same : forall d1 d2 gr he v ci i j, symmetric ci ->
  update_hessian d1 d2 gr he v ci i j = c_hessian (update_derivatives d1 d2 gr he v ci) i j.
Proof.
  intros d1 d2 gr he v ci i j S. unfold update_hessian, update_derivatives. rewrite (sym_trans _ _ S).
  replace (- d2 * dot v (mvec ci v) * (1 / 2)) with (- d2 * dot v (mvec ci v) / 2) by field.
  set (e := d2 * exp (- d2 * dot v (mvec ci v) / 2)).
  destruct (Rlt_dec 1 e); [reflexivity|]. destruct (Rlt_dec e 0); [reflexivity|]. cbn [c_hessian].
  f_equal. f_equal. f_equal. rewrite (sym_dot ci v (he i j) S). unfold dot. ring.
Qed.

(** * The constants. *)
Lemma exp_convex : forall t y, 0 <= t <= 1 -> exp (t * y) <= 1 - t + t * exp y.
Proof.
  intros t y Ht.
  assert (E : forall z, 1 + z <= exp z).
  { intro z. destruct (Req_dec z 0) as [->|N]; [rewrite exp_0; lra|]. left. now apply exp_ineq1. }
  pose proof (exp_pos (t * y)) as P.
  assert (A : exp (t * y) * (1 + (y - t * y)) <= exp y).
  { replace (exp y) with (exp (t * y) * exp (y - t * y)) by (rewrite <- exp_plus; f_equal; ring).
    apply Rmult_le_compat_l; [lra|apply E]. }
  assert (B : exp (t * y) * (1 + - (t * y)) <= 1).
  { replace 1 with (exp (t * y) * exp (- (t * y))) at 2 by (rewrite <- exp_plus; replace (t * y + - (t * y)) with 0 by ring; apply exp_0).
    apply Rmult_le_compat_l; [lra|apply E]. }
  assert (A' : t * (exp (t * y) * (1 + (y - t * y))) <= t * exp y) by (apply Rmult_le_compat_l; [lra|exact A]).
  assert (B' : (1 - t) * (exp (t * y) * (1 + - (t * y))) <= (1 - t) * 1) by (apply Rmult_le_compat_l; [lra|exact B]).
  replace (exp (t * y)) with (t * (exp (t * y) * (1 + (y - t * y))) + (1 - t) * (exp (t * y) * (1 + - (t * y)))) by ring.
  lra.
Qed.

Lemma constants : forall o r, 0 < o < 1 -> 0 < r -> gauss_d1 o r < 0 /\ 0 < gauss_d2 o r <= 1.
Proof.
  intros o r Ho Hr.
  assert (C1 : 0 < gauss_c1 o) by (unfold gauss_c1; lra).
  assert (C2 : 0 < gauss_c2 o r) by (unfold gauss_c2; apply Rdiv_lt_0_compat; [lra|now apply pow_lt]).
  unfold gauss_d2, gauss_d1, gauss_d3.
  set (a := gauss_c1 o) in *. set (b := gauss_c2 o r) in *. clearbody a b. clear Ho Hr o r.
  assert (T : 0 < exp (-1 / 2) < 1).
  { split; [apply exp_pos|]. rewrite <- exp_0. apply exp_increasing. lra. }
  set (t := exp (-1 / 2)) in *.
  assert (L1 : ln b < ln (a * t + b)).
  { apply ln_increasing; [exact C2|]. pose proof (Rmult_lt_0_compat a t C1 (proj1 T)). lra. }
  assert (L2 : ln (a * t + b) < ln (a + b)).
  { apply ln_increasing.
    - pose proof (Rmult_lt_0_compat a t C1 (proj1 T)). lra.
    - pose proof (Rmult_lt_compat_l a t 1 C1 (proj2 T)). lra. }
  split; [lra|].
  set (N := ln (a * t + b) - ln b). set (D := ln (a + b) - ln b).
  assert (HN : 0 < N) by (unfold N; lra). assert (HD : N < D) by (unfold N, D; lra).
  replace ((- ln (a * t + b) - - ln b) / (- ln (a + b) - - ln b)) with (N / D) by (unfold N, D in *; field; lra).
  assert (Q : 0 < N / D) by (apply Rdiv_lt_0_compat; lra).
  assert (Q1 : N / D < 1).
  { apply Rmult_lt_reg_r with D; [lra|]. unfold Rdiv. rewrite Rmult_assoc, Rinv_l; lra. }
  split.
  - assert (ln (N / D) < ln 1) by now apply ln_increasing. rewrite ln_1 in H. lra.
  - assert (Conc : t * D <= N).
    { unfold N. apply Rplus_le_reg_r with (ln b). replace (ln (a * t + b) - ln b + ln b) with (ln (a * t + b)) by ring.
      rewrite <- (ln_exp (t * D + ln b)).
      assert (Ex : exp (t * D + ln b) <= a * t + b).
      { rewrite exp_plus, exp_ln by exact C2.
        pose proof (exp_convex t D ltac:(lra)) as V.
        assert (ED : exp D * b = a + b).
        { unfold D, Rminus. rewrite exp_plus, exp_Ropp, !exp_ln by lra. field. lra. }
        apply Rle_trans with ((1 - t + t * exp D) * b).
        - apply Rmult_le_compat_r; [lra|exact V].
        - replace ((1 - t + t * exp D) * b) with ((1 - t) * b + t * (exp D * b)) by ring. rewrite ED. lra. }
      destruct Ex as [Ex| ->]; [|lra]. left. apply ln_increasing; [apply exp_pos|exact Ex]. }
    assert (t <= N / D).
    { apply Rmult_le_reg_r with D; [lra|]. unfold Rdiv. rewrite Rmult_assoc, Rinv_l; lra. }
    assert (ln t <= ln (N / D)).
    { destruct H as [H| <-]; [|lra]. left. apply ln_increasing; [apply T|exact H]. }
    unfold t in H0. rewrite ln_exp in H0. lra.
Qed.

Lemma always_kept : forall o r c y, 0 < o < 1 -> 0 < r -> semidefinite (c_inv c) -> kept (gauss_d2 o r) c y.
Proof.
  intros o r c y Ho Hr S. destruct (constants o r Ho Hr) as [_ [P Q]]. unfold kept, bell.
  set (d2 := gauss_d2 o r) in *. specialize (S (vsub y (mean c))).
  set (q := dot _ _) in *.
  assert (0 <= d2 * (q / 2)) by (apply Rmult_le_pos; lra).
  pose proof (exp_pos (- d2 * (q / 2))) as E.
  assert (E1 : exp (- d2 * (q / 2)) <= 1).
  { rewrite <- exp_0. destruct (Req_dec (d2 * (q / 2)) 0) as [Z|Z].
    - replace (- d2 * (q / 2)) with 0 by lra. lra.
    - left. apply exp_increasing. lra. }
  split; [apply Rmult_le_pos; lra|].
  replace 1 with (1 * 1) by ring. apply Rmult_le_compat; lra.
Qed.

(** * The whole cloud. *)
Definition plain (p : params) : Prop := forall k, (3 <= k < 6)%nat -> p k = 0 \/ 10 / 100000 <= Rabs (p k).

Lemma plain_exact : forall p, plain p -> angles_of p = exact p.
Proof.
  intros p H. unfold angles_of, exact.
  assert (E : forall k, (3 <= k < 6)%nat -> cos_of (p k) = cos (p k) /\ sin_of (p k) = sin (p k)).
  { intros k Hk. unfold cos_of, sin_of. destruct (Rlt_dec _ _) as [L|_]; [|tauto].
    destruct (H k Hk) as [-> |G]; [rewrite cos_0, sin_0; tauto|lra]. }
  destruct (E 3%nat) as [-> ->]; [lia|]. destruct (E 4%nat) as [-> ->]; [lia|]. destruct (E 5%nat) as [-> ->]; [lia|].
  reflexivity.
Qed.

(** What the wrong sign in d1 adds to the Hessian for one point and cell. *)
Definition excess (d1 d2 : R) (c : cell) (x : vec) (p : params) : R :=
  d1 * d2 * bell d2 c (position p x) *
    dot (vsub (position p x) (mean c)) (mvec (c_inv c) (mkV (2 * sin (p 4%nat) * vz x) 0 0)).

Lemma hessian_excess : forall d1 d2 c x p i j,
  d1 * d2 * bell d2 c (position p x) *
    (- d2 * dot (vsub (position p x) (mean c)) (mvec (c_inv c) (point_gradient (exact p) x i))
          * dot (vsub (position p x) (mean c)) (mvec (c_inv c) (point_gradient (exact p) x j))
     + dot (vsub (position p x) (mean c)) (mvec (c_inv c) (point_hessian (exact p) x i j))
     + dot (point_gradient (exact p) x j) (mvec (c_inv c) (point_gradient (exact p) x i)))
  = cell_bend d1 d2 c x p i j + (if (Nat.eqb i 4 && Nat.eqb j 4)%bool then excess d1 d2 c x p else 0).
Proof.
  intros. unfold cell_bend, excess, true_hessian.
  destruct (Nat.eqb i 4 && Nat.eqb j 4)%bool; [|ring].
  assert (L : forall v C a b, dot v (mvec C (vsub a b)) = dot v (mvec C a) - dot v (mvec C b)).
  { intros. unfold dot, mvec, vsub. cbn. ring. }
  rewrite L. change (sy (exact p)) with (sin (p 4%nat)). ring.
Qed.

Section Whole.
  Variables (cells : vec -> list cell) (d1 d2 : R) (threads : nat) (thread : nat -> nat) (input : list vec) (p : params).
  Hypothesis Sym : forall y c, In c (cells y) -> symmetric (c_inv c).
  Hypothesis Threads : forall k, (k < length input)%nat -> (thread k < threads)%nat.
  Hypothesis Kept : forall x c, In x input -> In c (cells (position p x)) -> kept d2 c (position p x).
  Hypothesis Plain : plain p.
  Let result := compute_derivatives cells d1 d2 threads thread input (map (position p) input) p.

  Lemma total_by : forall value (f : vec -> cell -> R),
    (forall x c, In x input -> In c (cells (position p x)) -> value (per_cell d1 d2 p x (position p x) c) = f x c) ->
    by_threads threads thread (fun k => point_sum cells d1 d2 p value (nth k input zero_vec, nth k (map (position p) input) zero_vec)) (length input)
    = rsum (map (fun xc => rsum (map (fun c => f (fst xc) c) (snd xc))) (nearby cells p input)).
  Proof.
    intros value f H. rewrite by_threads_sum by exact Threads. unfold nearby. rewrite map_map. cbn [fst snd].
    rewrite <- (rsum_nth _ (fun x => rsum (map (fun c => f x c) (cells (position p x)))) zero_vec).
    apply rsum_ext. intros k Hk. apply in_seq in Hk. unfold point_sum. cbn [fst snd].
    rewrite (nth_indep (map (position p) input) zero_vec (position p zero_vec)) by (rewrite map_length; lia).
    rewrite map_nth. apply rsum_ext. intros c Hc. apply H; [apply nth_In; lia|exact Hc].
  Qed.

  Lemma per_cell_value : forall x c, In x input -> In c (cells (position p x)) ->
    let u := per_cell d1 d2 p x (position p x) c in
    c_score u = - d1 * bell d2 c (position p x) /\
    (forall k, c_gradient u k = cell_slope d1 d2 c x p k) /\
    (forall i j, c_hessian u i j = cell_bend d1 d2 c x p i j + (if (Nat.eqb i 4 && Nat.eqb j 4)%bool then excess d1 d2 c x p else 0)).
  Proof.
    intros x c Hx Hc u. subst u. unfold per_cell. rewrite (plain_exact p Plain).
    destruct (update_kept d1 d2 (point_gradient (exact p) x) (point_hessian (exact p) x) (position p x) c (Sym _ _ Hc) (Kept _ _ Hx Hc))
      as (A & B & D).
    repeat split; [exact A|exact B|]. intros i j. rewrite D. apply hessian_excess.
  Qed.

  Lemma whole_score : score result = total_score d1 d2 (nearby cells p input) p.
  Proof.
    unfold result, compute_derivatives. cbn [score]. unfold total_score.
    apply (total_by c_score (fun x c => - d1 * bell d2 c (position p x))). intros x c Hx Hc. now destruct (per_cell_value x c Hx Hc).
  Qed.

  Lemma whole_gradient : forall k, (k < 6)%nat -> partial (total_score d1 d2 (nearby cells p input)) k p (gradient result k).
  Proof.
    intros k Hk. unfold result, compute_derivatives. cbn [gradient].
    rewrite (total_by (fun c => c_gradient c k) (fun x c => cell_slope d1 d2 c x p k)).
    2:{ intros x c Hx Hc. now destruct (per_cell_value x c Hx Hc) as (_ & G & _). }
    unfold total_score. apply partial_sum. intros [x l] Hx. cbn [fst snd]. apply partial_sum. intros c Hc.
    apply cell_partial; [|exact Hk]. unfold nearby in Hx. apply in_map_iff in Hx. destruct Hx as (x' & E & _).
    injection E as <- <-. now apply Sym with (position p x').
  Qed.

  Lemma whole_hessian : forall i j, (i < 6)%nat -> (j < 6)%nat ->
    second_partial (total_score d1 d2 (nearby cells p input)) i j p
      (hessian result i j - (if (Nat.eqb i 4 && Nat.eqb j 4)%bool
         then rsum (map (fun xc => rsum (map (fun c => excess d1 d2 c (fst xc) p) (snd xc))) (nearby cells p input)) else 0)).
  Proof.
    intros i j Hi Hj. unfold result, compute_derivatives. cbn [hessian].
    rewrite (total_by (fun c => c_hessian c i j)
      (fun x c => cell_bend d1 d2 c x p i j + (if (Nat.eqb i 4 && Nat.eqb j 4)%bool then excess d1 d2 c x p else 0))).
    2:{ intros x c Hx Hc. now destruct (per_cell_value x c Hx Hc) as (_ & _ & G). }
    set (nb := nearby cells p input).
    assert (E : rsum (map (fun xc : vec * list cell => rsum (map (fun c => cell_bend d1 d2 c (fst xc) p i j
        + (if (Nat.eqb i 4 && Nat.eqb j 4)%bool then excess d1 d2 c (fst xc) p else 0)) (snd xc))) nb)
      = rsum (map (fun xc => rsum (map (fun c => cell_bend d1 d2 c (fst xc) p i j) (snd xc))) nb)
        + (if (Nat.eqb i 4 && Nat.eqb j 4)%bool
           then rsum (map (fun xc => rsum (map (fun c => excess d1 d2 c (fst xc) p) (snd xc))) nb) else 0)).
    { destruct (Nat.eqb i 4 && Nat.eqb j 4)%bool.
      - rewrite <- rsum_map_plus. apply rsum_ext. intros xc _. now rewrite rsum_map_plus.
      - rewrite Rplus_0_r. apply rsum_ext. intros xc _. apply rsum_ext. intros c _. ring. }
    rewrite E. match goal with |- second_partial _ _ _ _ (?a + ?b - ?b) => replace (a + b - b) with a by ring end.
    unfold total_score. apply second_partial_sum. intros [x l] Hx. cbn [fst snd]. apply second_partial_sum. intros c Hc.
    apply cell_second; try assumption. unfold nb, nearby in Hx. apply in_map_iff in Hx. destruct Hx as (x' & Ex & _).
    injection Ex as <- <-. now apply Sym with (position p x').
  Qed.
End Whole.

(** * Derivatives are unique. *)
Lemma partial_unique : forall f k p l m, partial f k p l -> partial f k p m -> l = m.
Proof. intros f k p l m A B. exact (uniqueness_limite _ _ _ _ A B). Qed.
Lemma second_unique : forall f i j p l m, second_partial f i j p l -> second_partial f i j p m -> l = m.
Proof.
  intros f i j p l m (f' & A & A') (g' & B & B').
  apply (partial_unique f' j p); [exact A'|].
  unfold partial in *. eapply dlim_ext; [|reflexivity|exact B'].
  intro u. apply (partial_unique f i (put p j u)); [apply A|apply B].
Qed.

(** * Angles near zero. *)
Lemma sin_small : forall a, Rabs (sin a) <= Rabs a.
Proof.
  intro a. destruct (Rle_dec 0 a) as [P|N].
  - destruct (Req_dec a 0) as [->|Z]; [rewrite sin_0; lra|].
    rewrite (Rabs_pos_eq a P). destruct (Rlt_dec 1 a) as [L|L].
    + pose proof (SIN_bound a). apply Rabs_le. lra.
    + assert (0 < a) by lra. pose proof (sin_lt_x a H). pose proof PI2_1.
      assert (0 <= sin a) by (apply sin_ge_0; lra). rewrite Rabs_pos_eq; lra.
  - rewrite <- (Rabs_Ropp (sin a)), <- sin_neg. rewrite (Rabs_left a) by lra. set (b := - a).
    assert (0 < b) by (unfold b; lra). destruct (Rlt_dec 1 b) as [L|L].
    + pose proof (SIN_bound b). apply Rabs_le. lra.
    + pose proof (sin_lt_x b H). pose proof PI2_1.
      assert (0 <= sin b) by (apply sin_ge_0; lra). rewrite Rabs_pos_eq; lra.
Qed.

Lemma cos_small : forall a, Rabs (1 - cos a) <= Rabs a.
Proof.
  intro a. replace (1 - cos a) with (2 * (sin (a / 2) * sin (a / 2))).
  2:{ replace a with (2 * (a / 2)) at 3 by field. rewrite cos_2a_sin. ring. }
  rewrite !Rabs_mult. rewrite (Rabs_pos_eq 2) by lra.
  pose proof (sin_small (a / 2)) as S. replace (Rabs (a / 2)) with (Rabs a / 2) in S
    by (unfold Rdiv; rewrite Rabs_mult, (Rabs_pos_eq (/ 2)); lra).
  assert (B : Rabs (sin (a / 2)) <= 1) by (apply Rabs_le; apply SIN_bound).
  pose proof (Rabs_pos (sin (a / 2))) as P.
  assert (Rabs (sin (a / 2)) * Rabs (sin (a / 2)) <= Rabs (sin (a / 2)) * 1) by (apply Rmult_le_compat_l; lra). lra.
Qed.

Definition eps := 10 / 100000.
Definition within (a b : R) : Prop := Rabs (a - b) <= eps /\ Rabs a <= 1 /\ Rabs b <= 1.

Lemma cos_within : forall a, within (cos_of a) (cos a).
Proof.
  intro a. unfold within, cos_of, eps. pose proof (COS_bound a). destruct (Rlt_dec _ _) as [L|L].
  - pose proof (cos_small a). repeat split; [lra|rewrite Rabs_R1; lra|apply Rabs_le; lra].
  - repeat split; [unfold Rminus; rewrite Rplus_opp_r, Rabs_R0; lra|apply Rabs_le; lra|apply Rabs_le; lra].
Qed.
Lemma sin_within : forall a, within (sin_of a) (sin a).
Proof.
  intro a. unfold within, sin_of, eps. pose proof (SIN_bound a). destruct (Rlt_dec _ _) as [L|L].
  - pose proof (sin_small a). repeat split; [|rewrite Rabs_R0; lra|apply Rabs_le; lra].
    unfold Rminus. rewrite Rplus_0_l, Rabs_Ropp. lra.
  - repeat split; [unfold Rminus; rewrite Rplus_opp_r, Rabs_R0; lra|apply Rabs_le; lra|apply Rabs_le; lra].
Qed.

(** Products and sums of values that are close and at most 1. *)
Definition near (n : R) (a b : R) : Prop := Rabs (a - b) <= n * eps /\ Rabs a <= 1 /\ Rabs b <= 1.
Lemma near_mult : forall m n a a' b b', near m a a' -> near n b b' -> near (m + n) (a * b) (a' * b').
Proof.
  intros m n a a' b b' (D & A & A') (E & B & B').
  assert (M : forall u v, Rabs u <= 1 -> Rabs v <= 1 -> Rabs (u * v) <= 1).
  { intros u v U V. rewrite Rabs_mult. replace 1 with (1 * 1) by ring.
    apply Rmult_le_compat; try assumption; apply Rabs_pos. }
  split; [|split; apply M; assumption].
  replace (a * b - a' * b') with ((a - a') * b + a' * (b - b')) by ring.
  eapply Rle_trans; [apply Rabs_triang|]. rewrite !Rabs_mult.
  assert (Rabs (a - a') * Rabs b <= m * eps * 1) by (apply Rmult_le_compat; try assumption; apply Rabs_pos).
  assert (Rabs a' * Rabs (b - b') <= 1 * (n * eps)) by (apply Rmult_le_compat; try assumption; apply Rabs_pos). lra.
Qed.
Lemma near_opp : forall n a b, near n a b -> near n (- a) (- b).
Proof.
  intros n a b (D & A & B). unfold near. rewrite !Rabs_Ropp.
  replace (- a - - b) with (- (a - b)) by ring. rewrite Rabs_Ropp. tauto.
Qed.
Lemma near_diff : forall n a b, near n a b -> Rabs (a - b) <= n * eps.
Proof. now intros n a b (D & _). Qed.
Lemma sum_diff : forall m n a a' b b', Rabs (a - a') <= m * eps -> Rabs (b - b') <= n * eps ->
  Rabs ((a + b) - (a' + b')) <= (m + n) * eps.
Proof.
  intros. replace (a + b - (a' + b')) with ((a - a') + (b - b')) by ring.
  eapply Rle_trans; [apply Rabs_triang|]. lra.
Qed.
Lemma minus_diff : forall m n a a' b b', Rabs (a - a') <= m * eps -> Rabs (b - b') <= n * eps ->
  Rabs ((a - b) - (a' - b')) <= (m + n) * eps.
Proof.
  intros. replace (a - b - (a' - b')) with ((a - a') + - (b - b')) by ring.
  eapply Rle_trans; [apply Rabs_triang|]. rewrite Rabs_Ropp. lra.
Qed.
Lemma near_1 : forall a b, within a b -> near 1 a b.
Proof. intros a b (D & A & B). unfold near. rewrite Rmult_1_l. tauto. Qed.

Lemma dot_diff : forall n a b x, 0 <= n ->
  Rabs (vx a - vx b) <= n * eps -> Rabs (vy a - vy b) <= n * eps -> Rabs (vz a - vz b) <= n * eps ->
  Rabs (dot a x - dot b x) <= n * eps * (Rabs (vx x) + Rabs (vy x) + Rabs (vz x)).
Proof.
  intros n a b x Hn A B C. unfold dot.
  replace (vx a * vx x + vy a * vy x + vz a * vz x - (vx b * vx x + vy b * vy x + vz b * vz x))
    with ((vx a - vx b) * vx x + (vy a - vy b) * vy x + (vz a - vz b) * vz x) by ring.
  eapply Rle_trans; [apply Rabs_triang|]. eapply Rle_trans; [apply Rplus_le_compat_r, Rabs_triang|].
  rewrite !Rabs_mult.
  pose proof (Rmult_le_compat_r (Rabs (vx x)) _ _ (Rabs_pos _) A).
  pose proof (Rmult_le_compat_r (Rabs (vy x)) _ _ (Rabs_pos _) B).
  pose proof (Rmult_le_compat_r (Rabs (vz x)) _ _ (Rabs_pos _) C). lra.
Qed.

Ltac leaf := first [apply near_1; assumption | apply near_opp; leaf].
Ltac prod := first [leaf | eapply near_mult; [prod|prod]].
Ltac entry :=
  first [eapply sum_diff; [apply near_diff; prod|apply near_diff; prod]
        |eapply minus_diff; [apply near_diff; prod|apply near_diff; prod]
        |apply near_diff; prod].

Lemma gradient_close : forall p x k co, (k < 6)%nat -> coordinate co ->
  Rabs (co (point_gradient (angles_of p) x k) - co (point_gradient (exact p) x k))
    <= 5 * eps * (Rabs (vx x) + Rabs (vy x) + Rabs (vz x)).
Proof.
  intros p x k co Hk Hc.
  assert (E : 0 < eps) by (unfold eps; lra).
  assert (Z : 0 <= 5 * eps * (Rabs (vx x) + Rabs (vy x) + Rabs (vz x))).
  { pose proof (Rabs_pos (vx x)). pose proof (Rabs_pos (vy x)). pose proof (Rabs_pos (vz x)).
    apply Rmult_le_pos; lra. }
  assert (Same : forall a, Rabs (a - a) <= 5 * eps * (Rabs (vx x) + Rabs (vy x) + Rabs (vz x))).
  { intro a. unfold Rminus. now rewrite Rplus_opp_r, Rabs_R0. }
  pose proof (cos_within (p 3%nat)) as W1. pose proof (sin_within (p 3%nat)) as W2.
  pose proof (cos_within (p 4%nat)) as W3. pose proof (sin_within (p 4%nat)) as W4.
  pose proof (cos_within (p 5%nat)) as W5. pose proof (sin_within (p 5%nat)) as W6.
  assert (Zero : Rabs (0 - 0) <= 5 * eps) by (unfold Rminus; rewrite Rplus_opp_r, Rabs_R0; lra).
  destruct k as [|[|[|[|[|[|k]]]]]]; try lia; destruct Hc; cbn [point_gradient vx vy vz]; try apply Same;
    (apply dot_diff; [lra| | |]);
    unfold j_a, j_b, j_c, j_d, j_e, j_f, j_g, j_h, angles_of, exact; cbn [vx vy vz cx sx cy sy cz sz];
    try exact Zero;
    (eapply Rle_trans; [entry|apply Rmult_le_compat_r; lra]).
Qed.
