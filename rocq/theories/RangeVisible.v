(** A point that reaches a pixel has a range that marks the pixel as occupied. *)
From Coq Require Import QArith Lqa ZArith List Bool Lia SpecFloat.
From Verif Require Import Outcome FilterModel FilterSpec FloatOrder FloatRound FloatOps RangeModel RangeSpec.
Import ListNotations.
Local Open Scope outcome_scope.

Lemma mul_nan : forall x, fmul S754_nan x = S754_nan.
Proof. intros []; reflexivity. Qed.
Lemma add_nan_l : forall x, fadd S754_nan x = S754_nan.
Proof. intros []; reflexivity. Qed.
Lemma add_nan_r : forall x, fadd x S754_nan = S754_nan.
Proof. intros []; reflexivity. Qed.
Lemma flat_nan : forall p, px p = S754_nan \/ py p = S754_nan -> flat_dist p = S754_nan.
Proof. intros p [H|H]; unfold flat_dist; rewrite H, mul_nan, ?add_nan_l, ?add_nan_r; reflexivity. Qed.

Lemma place_nan : forall C p, quiet C -> px (moved C p) = S754_nan \/ py (moved C p) = S754_nan \/
  (pz (moved C p) = S754_nan /\ SFltb (flat_dist (moved C p)) centi = false) -> place C p = UB.
Proof.
  intros C p Q H. unfold place. cbv zeta. set (m := moved C p) in *.
  assert (F : SFltb (flat_dist m) centi = false) by (destruct H as [H|[H|(_ & H)]]; [rewrite flat_nan by auto; reflexivity|rewrite flat_nan by auto; reflexivity|exact H]).
  rewrite F. assert (N : atan2 C (pz m) (flat_dist m) = S754_nan).
  { apply Q. destruct H as [H|[H|(H & _)]]; [right; apply flat_nan; auto|right; apply flat_nan; auto|auto]. }
  rewrite N. destruct (bottom C), (vres C); reflexivity.
Qed.

Lemma normalize_53 : forall m e, rounded 53 1024 (at_least (dyadic (Zpos m) e)) (at_most (dyadic (Zpos m) e)) (binary_round 53 1024 false m e).
Proof. intros. apply binary_round_spec; lia. Qed.

(** The float before 0.01f. *)
Definition centi' : fl := S754_finite false 10737417 (-30).
Lemma micro_small : (dyadic 4722366482869645 (-72) <= dyadic 10737417 (-30))%Q.
Proof. unfold dyadic, Qle. vm_compute. discriminate. Qed.
Lemma not_vacant : forall x, plus 24 128 x -> SFleb centi' x = true -> vacant x = false.
Proof.
  intros x P L. unfold vacant. destruct x as [[]|[]| |[] m e]; try contradiction; try discriminate; [reflexivity|].
  cbn [widen cond_Zopp binary_normalize]. destruct (normalize_53 m e) as (Pr & R).
  destruct (R micro (dyadic 4722366482869645 (-72)) eq_refl eq_refl) as (R1 & _).
  assert (V : (dyadic 10737417 (-30) <= dyadic (Zpos m) e)%Q) by (apply (finite_order 24 128); [lia|reflexivity|exact P|exact L]).
  assert (Le : SFleb micro (binary_round 53 1024 false m e) = true) by (apply R1; unfold at_least; eapply Qle_trans; [apply micro_small|exact V]).
  destruct (SFltb (binary_round 53 1024 false m e) micro) eqn:E; [|reflexivity]. exfalso.
  pose proof (SFltb_leb_trans _ _ _ E Le) as T. apply SFltb_key in T. destruct T as (a & b & A & B & K). rewrite A in B. injection B as <-.
  apply (klt_irrefl _ K).
Qed.

Lemma moved_valid : forall C p, floats C [p] -> valid_binary 24 128 (px (moved C p)) = true /\
  valid_binary 24 128 (py (moved C p)) = true /\ valid_binary 24 128 (pz (moved C p)) = true.
Proof.
  intros C p ((X & Y & Z) & F). destruct (F p (or_introl eq_refl)) as (A & B & D).
  unfold moved. cbn [px py pz]. repeat split; apply add_valid; first [assumption|lia].
Qed.

Lemma place_visible : forall C p q, quiet C -> floats C [p] -> place C p = Ok (Some q) ->
  vacant (range_of (moved C p)) = false /\ range_of (moved C p) <> S754_nan.
Proof.
  intros C p q Q F H.
  assert (N : px (moved C p) <> S754_nan /\ py (moved C p) <> S754_nan /\ pz (moved C p) <> S754_nan /\ SFltb (flat_dist (moved C p)) centi = false).
  { assert (Fl : SFltb (flat_dist (moved C p)) centi = false) by (unfold place in H; cbv zeta in H; destruct (SFltb (flat_dist (moved C p)) centi); [discriminate|reflexivity]).
    repeat split; try exact Fl; intros E; rewrite (place_nan C p Q) in H; try discriminate; auto. }
  destruct N as (Nx & Ny & Nz & Fl). destruct (moved_valid C p F) as (Vx & Vy & Vz).
  unfold range_of, flat_dist in *. set (m := moved C p) in *.
  assert (Px : plus 24 128 (fmul (px m) (px m))) by (apply square_plus; first [lia|assumption]).
  assert (Py : plus 24 128 (fmul (py m) (py m))) by (apply square_plus; first [lia|assumption]).
  assert (Pz : plus 24 128 (fmul (pz m) (pz m))) by (apply square_plus; first [lia|assumption]).
  destruct (add_plus 24 128 ltac:(lia) ltac:(lia) _ _ Px Py) as (Pxy & _). fold fadd in Pxy.
  destruct (add_plus 24 128 ltac:(lia) ltac:(lia) _ _ Pxy Pz) as (Pxyz & Le). fold fadd in Pxyz, Le.
  assert (Ps : plus 24 128 (fsqrt (fadd (fadd (fmul (px m) (px m)) (fmul (py m) (py m))) (fmul (pz m) (pz m))))) by (apply sqrt_plus; first [lia|exact Pxyz]).
  split.
  - apply not_vacant; [exact Ps|]. apply (sqrt_bound 24 128 ltac:(lia) ltac:(lia) _ _ centi centi' (dyadic 10737417 (-30)) Pxy Pxyz eq_refl eq_refl eq_refl); try assumption.
    + apply dyadic_nonneg. lia.
    + reflexivity.
  - intros E. rewrite E in Ps. exact Ps.
Qed.
