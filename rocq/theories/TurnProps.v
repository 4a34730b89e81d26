(** Property C127: when the GPS frame is first estimated. *)
From Coq Require Import List Bool ZArith Reals Lra Lia SpecFloat Permutation.
From Verif Require Import Outcome FilterModel FloatOrder RigidModel RigidSpec RigidProofs TurnModel.
Import ListNotations.

Section Order.
Variables N M : Type.
Variable heading_dot : M -> M -> N.
Variables acos_ fabs_ : N -> N.
Variable lt : N -> N -> Prop.
Variable zero : N.
Notation rotations := (rotations N M heading_dot acos_ fabs_).
Notation analyse := (analyse N M heading_dot acos_ fabs_ lt zero).

(** Insertion sort for an order that can be decided, to show that there is a result. *)
Variable dec : forall a b, {lt a b} + {~ lt a b}.
Fixpoint put (a : N) (l : list N) : list N :=
  match l with [] => [a] | b :: r => if dec b a then b :: put a r else a :: l end.
Lemma put_perm : forall a l, Permutation (a :: l) (put a l).
Proof.
  intros a l. induction l as [|b r IH]; cbn; [reflexivity|]. destruct (dec b a); [|reflexivity].
  rewrite perm_swap. apply perm_skip. exact IH.
Qed.
Lemma sorted_cons : forall a l, (forall b, In b l -> ~ lt b a) -> sorted N lt l -> sorted N lt (a :: l).
Proof.
  intros a l H S i j x y L Hi Hj. destruct i as [|i], j as [|j]; try lia; cbn in *.
  - injection Hi as <-. apply H. eapply nth_error_In. exact Hj.
  - eapply S; [|exact Hi|exact Hj]. lia.
Qed.
Lemma sorted_tail : forall a l, sorted N lt (a :: l) -> sorted N lt l /\ forall b, In b l -> ~ lt b a.
Proof.
  intros a l S. split.
  - intros i j x y L Hi Hj. apply (S (Datatypes.S i) (Datatypes.S j) x y); [lia|exact Hi|exact Hj].
  - intros b Hb. apply In_nth_error in Hb. destruct Hb as [j Hj]. apply (S 0 (Datatypes.S j) a b); [lia|reflexivity|exact Hj].
Qed.
(** With elements that are all comparable or equivalent. *)
Lemma put_sorted : forall all a l, strict_weak N lt all -> In a all -> incl l all -> sorted N lt l -> sorted N lt (put a l).
Proof.
  intros all a l W Ha Hl S. induction l as [|b r IH]; cbn.
  - apply sorted_cons; [intros b []|]. intros i j x y L Hi. destruct i; discriminate.
  - apply sorted_tail in S. destruct S as [S1 S2]. destruct (dec b a) as [D|D].
    + apply sorted_cons; [|apply IH; [intros x Hx; apply Hl; right; exact Hx|exact S1]].
      intros x Hx. apply (Permutation_in _ (Permutation_sym (put_perm a r))) in Hx. destruct Hx as [<-|Hx].
      * intros K. destruct W as (W1 & W2 & _). apply (W1 b); [apply Hl; left; reflexivity|].
        eapply W2; [| | |exact D|exact K]; auto. 1,2: apply Hl; left; reflexivity.
      * apply S2. exact Hx.
    + apply sorted_cons; [|apply sorted_cons; assumption]. intros x [<-|Hx]; [exact D|]. intros K.
      (* x < a and not b < a: then x < b, a contradiction *)
      assert (Ib : In b all) by (apply Hl; left; reflexivity). assert (Ix : In x all) by (apply Hl; right; exact Hx).
      destruct W as (W1 & W2 & W3). specialize (S2 x Hx).
      destruct (dec a b) as [E|E]; [apply S2; exact (W2 x a b Ix Ha Ib K E)|].
      destruct (dec b x) as [E2|E2]; [apply D; exact (W2 b x a Ib Ix Ha E2 K)|].
      exact (W3 x b a Ix Ib Ha S2 E2 D E K).
Qed.
Lemma result_exists : forall fs, 1 < length fs -> strict_weak N lt (rotations fs) -> exists a, analyse fs (Ok a).
Proof.
  intros fs L W. set (l := fold_right put [] (rotations fs)).
  assert (P : forall r, Permutation r (fold_right put [] r)).
  { induction r as [|a r IH]; cbn; [constructor|]. rewrite <- put_perm. constructor. exact IH. }
  assert (S : forall r, incl r (rotations fs) -> sorted N lt (fold_right put [] r)).
  { induction r as [|a r IH]; intros Hi; cbn; [intros i j x y _ H; destruct i; discriminate|].
    apply (put_sorted (rotations fs)); [exact W|apply Hi; left; reflexivity| |apply IH; intros x Hx; apply Hi; right; exact Hx].
    intros x Hx. apply Hi. right. exact (Permutation_in _ (Permutation_sym (P r)) Hx). }
  assert (length (rotations fs) = length fs) as Ln by (destruct fs; [reflexivity|apply map_length]).
  destruct (exists_last (l := fold_right put [] (rotations fs))) as (l' & a & E).
  { intros E. pose proof (Permutation_length (P (rotations fs))) as K. rewrite E in K. cbn in K. lia. }
  exists a. apply (last_one _ _ _ _ _ _ _ _ l' a L W); rewrite <- E; [apply P|apply S; apply incl_refl].
Qed.
(** The last element of a sorted permutation has no greater one. *)
Lemma result_max : forall fs a, 1 < length fs -> analyse fs (Ok a) -> In a (rotations fs) /\ forall b, In b (rotations fs) -> b = a \/ ~ lt a b.
Proof.
  intros fs a L H. inversion H as [L'|l a' _ W P S|]; subst; [lia|]. split.
  - apply (Permutation_in _ (Permutation_sym P)). apply in_app_iff. right. left. reflexivity.
  - intros b Hb. apply (Permutation_in _ P) in Hb. apply in_app_iff in Hb. destruct Hb as [Hb|[->|[]]]; [|auto]. right.
    apply In_nth_error in Hb. destruct Hb as [i Hi]. apply (S i (length l) b a).
    + apply nth_error_Some. congruence.
    + rewrite nth_error_app1; [exact Hi|]. apply nth_error_Some. congruence.
    + rewrite nth_error_app2, Nat.sub_diag by lia. reflexivity.
Qed.
End Order.

(** ** Exact arithmetic *)
Local Open Scope R_scope.
Lemma heading_unit : forall m, rotation m -> dot (mvec m x_axis) (mvec m x_axis) = 1.
Proof.
  intros m H. apply rot_trans in H. apply (f_equal m00) in H. cbn in H. unfold dot, mvec, x_axis. cbn. rewrite !Rmult_1_r, !Rmult_0_r, !Rplus_0_r. exact H.
Qed.
Lemma heading_range : forall a b, rotation a -> rotation b -> -1 <= r_dot a b <= 1.
Proof.
  intros a b Ha Hb. apply heading_unit in Ha. apply heading_unit in Hb. unfold r_dot.
  destruct (mvec a x_axis) as [x y z], (mvec b x_axis) as [x' y' z']. unfold dot in *. cbn in *.
  pose proof (Rle_0_sqr (x - x')). pose proof (Rle_0_sqr (y - y')). pose proof (Rle_0_sqr (z - z')).
  pose proof (Rle_0_sqr (x + x')). pose proof (Rle_0_sqr (y + y')). pose proof (Rle_0_sqr (z + z')). unfold Rsqr in *. lra.
Qed.
Lemma R_weak : forall l, strict_weak R Rlt l.
Proof. intros l. split; [|split]; intros; lra. Qed.
(** The angle between the headings (directions of the x axis) of two poses. *)
Definition heading_angle (a b : mat) : R := acos (r_dot a b).

(** In exact arithmetic the function returns the largest angle between the heading of the first pose and
    that of another, and the GPS frame is estimated iff that is at least the limit. *)
Theorem C127_exact : forall f0 f1 fs, Forall rotation (f0 :: f1 :: fs) ->
  (exists r, r_analyse (f0 :: f1 :: fs) (Ok r)) /\
  (forall o, r_analyse (f0 :: f1 :: fs) o -> exists r, o = Ok r /\ 0 <= r <= PI /\
     (forall f, In f (f0 :: f1 :: fs) -> heading_angle f0 f <= r) /\
     (exists f, In f (f0 :: f1 :: fs) /\ r = heading_angle f0 f) /\
     (forall limit, ~ waits R Rlt r limit <-> exists f, In f (f0 :: f1 :: fs) /\ limit <= heading_angle f0 f)).
Proof.
  intros f0 f1 fs H. set (all := f0 :: f1 :: fs) in *.
  assert (L : (1 < length all)%nat) by (cbn; lia). split.
  { apply result_exists; [exact Rlt_dec|exact L|apply R_weak]. }
  assert (E : rotations R mat r_dot acos Rabs all = map (heading_angle f0) all).
  { unfold rotations, all, heading_angle. apply map_ext. intros f. apply Rabs_pos_eq. apply acos_bound. }
  intros o A. assert (exists r, o = Ok r) as [r ->].
  { inversion A as [| |_ K]; subst; eauto. exfalso. apply K. apply R_weak. }
  exists r. split; [reflexivity|]. destruct (result_max _ _ _ _ _ _ _ _ _ L A) as [I1 I2]. rewrite E in I1, I2.
  apply in_map_iff in I1. destruct I1 as (f & <- & If).
  assert (Max : forall f', In f' all -> heading_angle f0 f' <= heading_angle f0 f).
  { intros f' I. destruct (I2 (heading_angle f0 f')) as [K|K]; [apply in_map; exact I|lra|lra]. }
  split; [apply acos_bound|]. split; [exact Max|]. split; [eauto|]. intros limit. unfold waits. split.
  - intros K. exists f. split; [exact If|lra].
  - intros (f' & I & K). specialize (Max f' I). lra.
Qed.

(** For poses in the plane the angle is that of the turn. *)
Theorem C127_plane : forall a b, Rabs (b - a) <= PI -> heading_angle (about_z a) (about_z b) = Rabs (b - a).
Proof.
  intros a b H. unfold heading_angle, r_dot, dot, mvec, x_axis, about_z. cbn.
  replace (_ + _ + _) with (cos (b - a)) by (rewrite cos_minus; ring).
  unfold Rabs in *. destruct (Rcase_abs (b - a)).
  - rewrite <- cos_neg. apply acos_cos. lra.
  - apply acos_cos. lra.
Qed.
(** It is not the largest rotation: a pose that is only rolled counts as not turned at all. *)
Theorem C127_max_rotation_refuted : ~ (forall f0 f1 r, rotation f0 -> rotation f1 -> r_analyse [f0; f1] (Ok r) -> angle_between f0 f1 <= r).
Proof.
  intros H. assert (R1 : rotation (about_x PI)) by apply rotation_about.
  destruct (C127_exact ident (about_x PI) []) as [[r A] C].
  { constructor; [apply rotation_ident|]. constructor; [exact R1|constructor]. }
  specialize (H _ _ _ rotation_ident R1 A). destruct (C _ A) as (r' & E & _ & _ & (f & I & Hf) & _). injection E as <-.
  assert (r = 0) as ->.
  { rewrite Hf. unfold heading_angle, r_dot, dot, mvec, x_axis. cbn in I.
    destruct I as [<-|[<-|[]]]; cbn; replace (_ + _ + _) with 1 by (rewrite ?sin_PI; ring); apply acos_1. }
  unfold angle_between, trace, mmul, mtrans, ident, about_x in H. cbn in H. rewrite cos_PI, sin_PI in H.
  replace ((_ - 1) / 2) with (- (1)) in H by field. rewrite acos_opp, acos_1 in H. pose proof PI_RGT_0. lra.
Qed.

(** ** Doubles *)
Local Close Scope R_scope.
(** What is assumed of std::acos: NaN outside of [-1, 1], a number inside. *)
Definition in_range (x : d64) : Prop := SFleb (SFopp d_one) x = true /\ SFleb x d_one = true.
Definition acos_like (dacos : d64 -> d64) : Prop :=
  (forall x, in_range x -> num (dacos x)) /\ (forall x, ~ in_range x -> dacos x = S754_nan).
Definition d_angle (dacos : d64 -> d64) (f0 f : col) : d64 := SFabs (dacos (d_dot f0 f)).

Lemma abs_num : forall x, num x -> num (SFabs x).
Proof. intros [|[]| |[]]; unfold num; cbn; congruence. Qed.
Lemma lt_dec : forall a b, {d_lt a b} + {~ d_lt a b}.
Proof. intros a b. unfold d_lt. destruct (SFltb a b); [left; reflexivity|right; discriminate]. Qed.
Lemma d_lt_irrefl : forall a, ~ d_lt a a.
Proof. intros a H. apply SFltb_key in H. destruct H as (x & y & E & E' & H). rewrite E in E'. injection E' as <-. exact (klt_irrefl _ H). Qed.
Lemma d_lt_trans : forall a b c, d_lt a b -> d_lt b c -> d_lt a c.
Proof. intros a b c H K. eapply SFltb_leb_trans; [exact H|]. apply SFltb_leb. exact K. Qed.
Lemma not_lt : forall a b, num a -> num b -> ~ d_lt a b -> SFleb b a = true.
Proof. intros a b A B H. apply SFltb_false; [exact A|exact B|]. apply not_true_iff_false. exact H. Qed.
Lemma leb_not_lt : forall a b, SFleb a b = true -> ~ d_lt b a.
Proof. intros a b H K. apply (d_lt_irrefl a). exact (SFleb_ltb_trans _ _ _ H K). Qed.
Lemma num_weak : forall l, Forall num l -> strict_weak d64 d_lt l.
Proof.
  intros l H. rewrite Forall_forall in H. split; [|split].
  - intros a _. apply d_lt_irrefl.
  - intros a b c _ _ _. apply d_lt_trans.
  - intros a b c A B C K _ K' _. apply leb_not_lt. eapply SFleb_trans.
    + apply not_lt; [| |exact K']; auto.
    + apply not_lt; [| |exact K]; auto.
Qed.

(** In doubles this is so as long as no scalar product leaves [-1, 1]. *)
Theorem C127_doubles : forall dacos f0 f1 fs, acos_like dacos ->
  (forall f, In f (f0 :: f1 :: fs) -> in_range (d_dot f0 f)) ->
  (exists r, d_analyse dacos (f0 :: f1 :: fs) (Ok r)) /\
  (forall o, d_analyse dacos (f0 :: f1 :: fs) o -> exists r, o = Ok r /\
     (forall f, In f (f0 :: f1 :: fs) -> SFleb (d_angle dacos f0 f) r = true) /\
     (exists f, In f (f0 :: f1 :: fs) /\ r = d_angle dacos f0 f) /\
     (forall limit, num limit ->
        ~ waits d64 d_lt r limit <-> exists f, In f (f0 :: f1 :: fs) /\ SFleb limit (d_angle dacos f0 f) = true)).
Proof.
  intros dacos f0 f1 fs [A1 _] H. set (all := f0 :: f1 :: fs) in *.
  assert (L : (1 < length all)%nat) by (cbn; lia).
  assert (Nm : forall f, In f all -> num (d_angle dacos f0 f)) by (intros f I; apply abs_num, A1, H, I).
  assert (E : rotations d64 col d_dot dacos SFabs all = map (d_angle dacos f0) all) by reflexivity.
  assert (W : strict_weak d64 d_lt (rotations d64 col d_dot dacos SFabs all)).
  { apply num_weak. rewrite E. apply Forall_forall. intros x I. apply in_map_iff in I. destruct I as (f & <- & I). auto. }
  split; [apply result_exists; [exact lt_dec|exact L|exact W]|].
  intros o A. assert (exists r, o = Ok r) as [r ->].
  { inversion A as [| |_ K]; subst; eauto. contradiction. }
  exists r. split; [reflexivity|]. destruct (result_max _ _ _ _ _ _ _ _ _ L A) as [I1 I2]. rewrite E in I1, I2.
  apply in_map_iff in I1. destruct I1 as (f & <- & If).
  assert (Max : forall f', In f' all -> SFleb (d_angle dacos f0 f') (d_angle dacos f0 f) = true).
  { intros f' I. destruct (I2 (d_angle dacos f0 f')) as [K|K]; [apply in_map; exact I| |].
    - rewrite K. apply SFleb_refl. auto.
    - apply not_lt; auto. }
  split; [exact Max|]. split; [eauto|]. intros limit Hl. unfold waits. split.
  - intros K. exists f. split; [exact If|]. apply not_lt; auto.
  - intros (f' & I & K). apply leb_not_lt. eapply SFleb_trans; [exact K|]. auto.
Qed.

(** If one does, two poses of different angle suffice for std::sort to be undefined. *)
Theorem C127_nan : forall dacos f0 fs f a b, acos_like dacos ->
  In f (f0 :: fs) -> ~ in_range (d_dot f0 f) ->
  In a (f0 :: fs) -> In b (f0 :: fs) -> d_lt (d_angle dacos f0 a) (d_angle dacos f0 b) ->
  forall o, d_analyse dacos (f0 :: fs) o <-> o = UB.
Proof.
  intros dacos f0 fs f a b [_ A2] If Nf Ia Ib Lab.
  assert (E : rotations d64 col d_dot dacos SFabs (f0 :: fs) = map (d_angle dacos f0) (f0 :: fs)) by reflexivity.
  assert (Nn : d_angle dacos f0 f = S754_nan) by (unfold d_angle; rewrite A2 by exact Nf; reflexivity).
  assert (In S754_nan (map (d_angle dacos f0) (f0 :: fs))) as I by (rewrite <- Nn; apply in_map; exact If).
  assert (Hn : forall x, ~ d_lt x S754_nan /\ ~ d_lt S754_nan x).
  { intros x. unfold d_lt, SFltb. split; destruct x as [| | |]; discriminate. }
  assert (W : ~ strict_weak d64 d_lt (rotations d64 col d_dot dacos SFabs (f0 :: fs))).
  { rewrite E. intros (_ & _ & W). destruct (Hn (d_angle dacos f0 a)), (Hn (d_angle dacos f0 b)).
    apply (W (d_angle dacos f0 a) S754_nan (d_angle dacos f0 b)); auto using in_map. }
  assert (L : (1 < length (f0 :: fs))%nat).
  { destruct fs; [|cbn; lia]. destruct Ia as [<-|[]], Ib as [<-|[]]. destruct (d_lt_irrefl _ Lab). }
  intros o. split.
  - intros A. inversion A as [L'|l x _ W' _ _|]; subst; [lia|contradiction|reflexivity].
  - intros ->. apply not_ordered; assumption.
Qed.

(** It can happen with the very first pose: a rotation matrix made from a quaternion whose norm is exactly 1
    has a first column whose scalar product with itself exceeds 1.  Then a vehicle that stands still may be
    found to have turned, whatever the limit. *)
Definition q_w : d64 := S754_finite false 4996295194044566 (-53).
Definition q_z : d64 := S754_finite false 7494442791066849 (-53).
Definition d_norm2 (w x y z : d64) : d64 := dadd (dadd (dmul x x) (dmul z z)) (dadd (dmul y y) (dmul w w)).
Definition d0 : d64 := S754_zero false.
Theorem C127_standing_still_refuted : forall dacos, acos_like dacos ->
  ~ (forall w x y z, d_norm2 w x y z = d_one -> forall r limit, d_analyse dacos [d_column w x y z; d_column w x y z] (Ok r) ->
       d_lt d0 limit -> waits d64 d_lt r limit).
Proof.
  intros dacos A H. pose (h := d_column q_w d0 d0 q_z).
  assert (Nr : ~ in_range (d_dot h h)) by (intros [_ K]; vm_compute in K; discriminate).
  assert (E : rotations d64 col d_dot dacos SFabs [h; h] = [S754_nan; S754_nan]).
  { unfold rotations. cbn [map]. destruct A as [_ A]. rewrite (A _ Nr). reflexivity. }
  assert (D : forall x y : d64, In x [S754_nan; S754_nan] -> ~ d_lt x y).
  { intros x y [<-|[<-|[]]]; discriminate. }
  assert (Q : d_norm2 q_w d0 d0 q_z = d_one) by (vm_compute; reflexivity).
  specialize (H q_w d0 d0 q_z Q S754_nan d_one). change (d_column q_w d0 d0 q_z) with h in H. apply (D S754_nan d_one); [left; reflexivity|].
  apply H; [|vm_compute; reflexivity]. apply (last_one d64 col d_dot dacos SFabs d_lt d0 [h; h] [S754_nan]); [cbn; lia| | |].
  - rewrite E. split; [|split].
    + intros a I. apply D. exact I.
    + intros a b c I _ _ K. destruct (D a b I K).
    + intros a b c I _ _ _ _ _ _. apply D. exact I.
  - rewrite E. reflexivity.
  - intros i j a b _ Hi Hj. apply D. change ([S754_nan] ++ [S754_nan]) with [S754_nan; S754_nan] in Hj. eapply nth_error_In. exact Hj.
Qed.

(** Non-trivial cases.  A drive along a curve, exactly. *)
Example C127_ex_curve : exists r, r_analyse [about_z 0; about_z (PI / 4); about_z (PI / 2); about_z (PI / 3)] (Ok r) /\ r = (PI / 2)%R.
Proof.
  pose proof PI_RGT_0 as P.
  assert (F : Forall rotation [about_z 0; about_z (PI / 4); about_z (PI / 2); about_z (PI / 3)])
    by (repeat (apply Forall_cons; [apply rotation_about|]); constructor).
  destruct (C127_exact _ _ _ F) as [[r A] C]. exists r. split; [exact A|].
  destruct (C _ A) as (r' & E & _ & M & (f & I & Hf) & _). injection E as <-.
  assert (K : forall b, (0 <= b <= PI)%R -> heading_angle (about_z 0) (about_z b) = b).
  { intros b Hb. rewrite C127_plane; rewrite Rminus_0_r, Rabs_pos_eq; lra. }
  apply Rle_antisym.
  - rewrite Hf. cbn in I. destruct I as [<-|[<-|[<-|[<-|[]]]]]; rewrite K; lra.
  - rewrite <- (K (PI / 2)%R) by lra. apply M. right. right. left. reflexivity.
Qed.
(** The first pose as above and two more of different headings: the sort is undefined.  The acos here is
    a coarse one. *)
Definition ex_acos (x : d64) : d64 :=
  if SFleb (SFopp d_one) x && SFleb x d_one then if SFltb x d0 then d_two else d_one else S754_nan.
Lemma ex_acos_like : acos_like ex_acos.
Proof.
  split; intros x H; unfold ex_acos, in_range in *.
  - destruct H as [-> ->]. destruct (SFltb x d0); discriminate.
  - destruct (SFleb (SFopp d_one) x), (SFleb x d_one); try reflexivity. destruct H. auto.
Qed.
Example C127_ex_undefined : forall o, d_analyse ex_acos [d_column q_w d0 d0 q_z; d_column d_one d0 d0 d0; d_column d0 d0 d0 d_one] o <-> o = UB.
Proof.
  apply (C127_nan ex_acos _ _ (d_column q_w d0 d0 q_z) (d_column d0 d0 d0 d_one) (d_column d_one d0 d0 d0) ex_acos_like);
    [left; reflexivity| |right; right; left; reflexivity|right; left; reflexivity|vm_compute; reflexivity].
  intros [_ K]. vm_compute in K. discriminate.
Qed.
(** A first pose without rotation and a half turn: defined, and the second pose counts. *)
Example C127_ex_half_turn : forall o, d_analyse ex_acos [d_column d_one d0 d0 d0; d_column d0 d0 d0 d_one] o -> exists r, o = Ok r /\ SFleb d_two r = true.
Proof.
  intros o A. destruct (C127_doubles ex_acos (d_column d_one d0 d0 d0) (d_column d0 d0 d0 d_one) [] ex_acos_like) as [_ C].
  - intros f [<-|[<-|[]]]; split; vm_compute; reflexivity.
  - destruct (C _ A) as (r & -> & M & _). exists r. split; [reflexivity|].
    eapply SFleb_trans; [|apply M; right; left; reflexivity]. vm_compute. reflexivity.
Qed.

Print Assumptions C127_exact.
Print Assumptions C127_plane.
Print Assumptions C127_max_rotation_refuted.
Print Assumptions C127_doubles.
Print Assumptions C127_nan.
Print Assumptions C127_standing_still_refuted.
