(** C114: the floats of the code satisfy what the theorems about GroundRemoval2 ask of the arithmetic. *)
From Coq Require Import ZArith List Bool Lia QArith Qabs Qround SpecFloat.
From Verif Require Import Outcome FilterModel FilterSpec FloatOrder FloatRound FloatOps FloatMono FloatDiv.
From Verif Require Ground2Model Ground2Spec Ground2Props.
Local Open Scope Z_scope.

(** float: binary32 with rounding; the results of the operations are valid again (else NaN, which never
    happens). *)
Definition f32 : Type := {x : spec_float | valid_binary 24 128 x = true}.
Definition raw (x : f32) : spec_float := proj1_sig x.
Definition make (x : spec_float) : f32 :=
  match Bool.bool_dec (valid_binary 24 128 x) true with
  | left H => exist _ x H
  | right _ => exist _ S754_nan eq_refl
  end.
Definition lift (op : spec_float -> spec_float -> spec_float) (x y : f32) : f32 := make (op (raw x) (raw y)).
(** z <= m + 0.5, a comparison of doubles (filter_ground_removal2.cc:204). *)
Definition half : spec_float := S754_finite false 4503599627370496 (-53).
Definition near64 (z m : f32) : bool := SFleb (widen (raw z)) (SFadd 53 1024 (widen (raw m)) half).
Definition binary32 : Ground2Model.arith :=
  Ground2Model.Arith f32 (fun x y => SFltb (raw x) (raw y)) (fun x y => SFleb (raw x) (raw y))
    (lift fadd) (lift fsub) (lift fmul) (lift fdiv) (fun x => make (SFabs (raw x)))
    (make (S754_zero false)) (make (S754_finite true 8388608 (-23))) (make (S754_finite false 13421773 (-27)))
    (make (S754_finite false 16777215 104)) near64.

Theorem C114_binary32 : Ground2Spec.ordered binary32.
Proof.
  assert (Nm : forall c : f32, Ground2Spec.comparable binary32 c -> num (raw c)).
  { intros c [[d H]|[d H]]; apply SFltb_num in H; apply H. }
  constructor; cbn [binary32 Ground2Model.ltb Ground2Model.leb Ground2Model.zero Ground2Model.minus_one Ground2Model.near Ground2Model.absv Ground2Model.num].
  - intros a b c H1 H2. apply SFltb_leb in H2. eapply SFltb_leb_trans; eassumption.
  - intros a. destruct (SFltb (raw a) (raw a)) eqn:E; [|reflexivity]. apply SFltb_key in E. destruct E as (u & v & U & V & L).
    rewrite U in V. injection V as <-. exfalso. exact (klt_irrefl _ L).
  - intros a b c Hc H1 H2. apply SFltb_false in H2; [|apply Nm; exact Hc|apply SFltb_num in H1; apply H1]. eapply SFltb_leb_trans; eassumption.
  - reflexivity.
  - intros z Hz. apply Nm in Hz. unfold near64. destruct (raw z) as [s|s| |s m e]; [reflexivity|destruct s; reflexivity|contradiction|].
    cbn [widen]. replace (binary_normalize 53 1024 (cond_Zopp s (Zpos m)) e s) with (binary_normalize 53 1024 (cond_Zopp s (Zpos m)) e false) by (destruct s; reflexivity). pose proof (normalize_rnd 53 1024 (cond_Zopp s (Zpos m)) e) as R.
    destruct (is_rnd_num 53 1024 eq_refl eq_refl _ _ R) as [Nn Vn].
    destruct (binary_normalize 53 1024 (cond_Zopp s (Zpos m)) e false) as [t|t| |t n f] eqn:B; [reflexivity|destruct t; reflexivity|congruence|].
    eapply (rnd_mono 53 1024 eq_refl eq_refl).
    + apply (self_rnd 53 1024); [exact Vn|reflexivity].
    + apply (add_rnd 53 1024); [exact Vn|reflexivity|reflexivity|reflexivity].
    + rewrite <- (Qplus_0_r (inject_Z (cond_Zopp t (Zpos n)) * 2 ^ f)) at 1. apply Qplus_le_r. discriminate.
  - intros x. unfold make. destruct (Bool.bool_dec _ true); [|reflexivity]. destruct (raw x); reflexivity.
Qed.
Print Assumptions C114_binary32.

(** The ring of a point (175): the difference to r_min_, divided by the width of a ring, both rounded, as int. *)
Definition ring32 (r_min delta : f32) (x : f32) : outcome Z := to_int (fdiv (fsub (raw x) (raw r_min)) (raw delta)).
Theorem C114_rings : forall r_min delta : f32, (exists v, value (raw r_min) = Some v) -> (exists w, value (raw delta) = Some w) ->
  SFltb (S754_zero false) (raw delta) = true ->
  forall x y a b, ring32 r_min delta x = Ok a -> ring32 r_min delta y = Ok b -> a < b -> SFltb (raw x) (raw y) = true.
Proof.
  intros [r Vr] [d Vd] [rv Er] Ed Pd [x Vx] [y Vy] a b Ha Hb L. unfold ring32 in *. cbn [raw proj1_sig] in *.
  destruct (SFltb x y) eqn:F; [reflexivity|]. exfalso.
  assert (Fin : forall z c, valid_binary 24 128 z = true -> to_int (fdiv (fsub z r) d) = Ok c ->
    exists u q t, value z = Some u /\ value (fsub z r) = Some q /\ value (fdiv (fsub z r) d) = Some t /\ trunc_fl (fdiv (fsub z r) d) = Some c).
  { intros z c Vz H. unfold to_int in H. destruct (trunc_fl (fdiv (fsub z r) d)) as [k|] eqn:T; [|discriminate].
    assert (k = c) by (destruct ((- 2 ^ 31 <=? k) && (k <? 2 ^ 31))%bool; congruence). subst k.
    assert (E3 : exists t, value (fdiv (fsub z r) d) = Some t) by (destruct (fdiv (fsub z r) d); try discriminate; eexists; reflexivity).
    assert (E2 : exists q, value (fsub z r) = Some q).
    { destruct Ed as [w Ed]. destruct (fsub z r) as [s|s| |s m e]; try (eexists; reflexivity); exfalso;
        destruct d as [[]|[]| |[] n f]; try discriminate; destruct s; discriminate. }
    assert (E1 : exists u, value z = Some u).
    { destruct z as [s|s| |s m e]; try (eexists; reflexivity); exfalso; destruct r as [ | | | ]; try discriminate; destruct E2; discriminate. }
    destruct E1 as [u ?], E2 as [q ?], E3 as [t ?]. exists u, q, t. auto. }
  destruct (Fin x a Vx Ha) as (ux & qx & tx & Ux & Qx & Tx & Cx). destruct (Fin y b Vy Hb) as (uy & qy & ty & Uy & Qy & Ty & Cy).
  assert (N : forall z u, value z = Some u -> num z) by (intros z u H; apply num_nan; intros ->; discriminate).
  apply SFltb_false in F; [|eapply N; eassumption|eapply N; eassumption].
  pose proof (proj1 (leb_value 24 128 eq_refl eq_refl y x uy ux Vy Vx Uy Ux) F) as L1.
  pose proof (sub_rnd 24 128 x r ux rv Vx Vr Ux Er) as Rx. pose proof (sub_rnd 24 128 y r uy rv Vy Vr Uy Er) as Ry.
  pose proof (rnd_mono 24 128 eq_refl eq_refl _ _ _ _ Ry Rx) as L2. specialize (L2 ltac:(apply Qplus_le_compat; [exact L1|apply Qle_refl])).
  pose proof (proj2 (is_rnd_num 24 128 eq_refl eq_refl _ _ Rx)) as Wx. pose proof (proj2 (is_rnd_num 24 128 eq_refl eq_refl _ _ Ry)) as Wy.
  apply (proj1 (leb_value 24 128 eq_refl eq_refl _ _ _ _ Wy Wx Qy Qx)) in L2.
  pose proof (div_mono 24 128 eq_refl eq_refl _ _ d qy qx Wy Wx Vd Qy Qx Pd Ed L2) as L3.
  pose proof (div_valid 24 128 eq_refl eq_refl _ d qx Wx Vd Qx Pd Ed) as Xx. pose proof (div_valid 24 128 eq_refl eq_refl _ d qy Wy Vd Qy Pd Ed) as Xy.
  apply (proj1 (leb_value 24 128 eq_refl eq_refl _ _ _ _ Xy Xx Ty Tx)) in L3.
  pose proof (trunc_mono _ _ _ _ _ _ Ty Tx Cy Cx L3). lia.
Qed.
Print Assumptions C114_rings.

(** A setup in binary32: points with a sector, a distance and a height; r_min_ = 1, rings of width 0.1 (rounded). *)
Definition one32 : f32 := make (S754_finite false 8388608 (-23)).
Definition tenth32 : f32 := make (S754_finite false 13421773 (-27)).
Definition demo32 : Ground2Model.setup binary32 (Z * f32 * f32) :=
  Ground2Model.Setup binary32 (Z * f32 * f32) (fun p => snd (fst p)) snd (fun p => Ok (fst (fst p))) (ring32 one32 tenth32)
    (fun _ => (make (S754_zero false), make (S754_zero false))) one32 (make (S754_finite false 11534336 (-20)))
    100 8 (make (S754_zero false)) one32 tenth32 tenth32 tenth32 tenth32 tenth32 2 4.
Example C114_ex_binary32 : Ground2Props.usable demo32 /\ Ground2Model.place demo32 (3, make (S754_finite false 12582912 (-22)), one32) = Ok (Some (3, 20)).
Proof.
  split; [|vm_compute; reflexivity]. constructor; [reflexivity|reflexivity|vm_compute; discriminate|].
  intros x y a b Ha Hb L. cbn [binary32 Ground2Model.ltb].
  apply (C114_rings one32 tenth32) with (a := a) (b := b); try assumption; try (vm_compute; reflexivity); eexists; vm_compute; reflexivity.
Qed.
