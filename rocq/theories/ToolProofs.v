(** Proofs about the conversion to LAS files and the sampler. *)
From Coq Require Import ZArith String List Bool SpecFloat Lia QArith Qround Qabs Lqa.
From Verif Require Import Outcome TimeModel FilterModel FilterSpec CloudFileModel ToolModel FloatOrder FloatRound FloatOps FloatTrunc FloatMono FloatDiv FloatErr.
Import ListNotations.
Local Open Scope outcome_scope.
Local Open Scope Z_scope.

(** The bit pattern of a number. *)
Definition encode (mw ew : Z) (x : spec_float) : Z :=
  let sign (s : bool) := if s then 2 ^ (mw + ew) else 0 in
  let emin := 3 - 2 ^ (ew - 1) - (mw + 1) in
  match x with
  | S754_zero s => sign s
  | S754_infinity s => sign s + (2 ^ ew - 1) * 2 ^ mw
  | S754_nan => (2 ^ ew - 1) * 2 ^ mw + 1
  | S754_finite s m e => sign s + if Zpos m <? 2 ^ mw then Zpos m else (e - emin + 1) * 2 ^ mw + (Zpos m - 2 ^ mw)
  end.

Section Bits.
  Variables mw ew : Z.
  Hypothesis Hm : 1 <= mw.
  Hypothesis He : 2 <= ew.
  Let prec := mw + 1.
  Let emax := 2 ^ (ew - 1).
  Let emin := 3 - emax - prec.
  Hypothesis Hmw : mw < 2 ^ (ew - 1) - 1.

  Lemma split_bits : forall (s : bool) e m, 0 <= e < 2 ^ ew -> 0 <= m < 2 ^ mw ->
    let b := (if s then 2 ^ (mw + ew) else 0) + (e * 2 ^ mw + m) in
    Z.testbit b (mw + ew) = s /\ (b / 2 ^ mw) mod 2 ^ ew = e /\ b mod 2 ^ mw = m.
  Proof.
    intros s e m B C b. assert (P : 2 ^ (mw + ew) = 2 ^ ew * 2 ^ mw) by (rewrite Z.pow_add_r by lia; ring).
    assert (Q : 0 < 2 ^ mw) by (apply Z.pow_pos_nonneg; lia). assert (Qe : 0 < 2 ^ ew) by (apply Z.pow_pos_nonneg; lia).
    assert (Eb : b = ((if s then 2 ^ ew else 0) + e) * 2 ^ mw + m) by (unfold b; destruct s; rewrite ?P; ring).
    assert (D : b / 2 ^ mw = (if s then 2 ^ ew else 0) + e).
    { rewrite Eb. rewrite Z.div_add_l by lia. rewrite Z.div_small by lia. lia. }
    repeat split.
    - rewrite Z.testbit_eqb by lia. rewrite P. rewrite Z.mul_comm, <- Z.div_div by lia. rewrite D.
      destruct s.
      + replace (2 ^ ew + e) with (1 * 2 ^ ew + e) by ring. rewrite Z.div_add_l by lia. rewrite Z.div_small by lia. reflexivity.
      + rewrite Z.div_small by lia. reflexivity.
    - rewrite D. destruct s.
      + replace (2 ^ ew + e) with (e + 1 * 2 ^ ew) by ring. rewrite Z.mod_add by lia. apply Z.mod_small; lia.
      + apply Z.mod_small; lia.
    - rewrite Eb. rewrite Z.add_comm, Z.mod_add by lia. apply Z.mod_small; lia.
  Qed.

  Lemma encode_range : forall x, valid_binary prec emax x = true -> 0 <= encode mw ew x < 2 ^ (mw + ew + 1).
  Proof.
    intros x V. assert (P : 2 ^ (mw + ew) = 2 ^ ew * 2 ^ mw) by (rewrite Z.pow_add_r by lia; ring).
    assert (P1 : 2 ^ (mw + ew + 1) = 2 * 2 ^ (mw + ew)) by (rewrite Z.pow_add_r by lia; lia).
    assert (Q : 2 ^ mw >= 2) by (replace mw with (mw - 1 + 1) by ring; rewrite Z.pow_add_r by lia; pose proof (Z.pow_pos_nonneg 2 (mw - 1)); lia).
    assert (Qe : 2 ^ ew = 2 * emax) by (unfold emax; replace ew with (1 + (ew - 1)) at 1 by ring; rewrite Z.pow_add_r by lia; reflexivity).
    destruct x as [s|s| |s m e]; unfold encode; cbv zeta.
    - destruct s; nia.
    - destruct s; nia.
    - nia.
    - cbn [valid_binary] in V. apply bounded_spec in V; [|unfold prec; lia]. destruct V as (A & B & C).
      fold emax. change (3 - emax - (mw + 1)) with emin. change (SpecFloat.emin prec emax) with emin in *.
      assert (Pp : 2 ^ prec = 2 * 2 ^ mw) by (unfold prec; rewrite Z.pow_add_r by lia; lia).
      assert (K : 0 <= (if Zpos m <? 2 ^ mw then Zpos m else (e - emin + 1) * 2 ^ mw + (Zpos m - 2 ^ mw)) < 2 ^ (mw + ew)).
      { destruct (Z.ltb_spec (Zpos m) (2 ^ mw)).
        - nia.
        - assert (F : 1 <= e - emin + 1 <= 2 ^ ew - 2) by (unfold emin, prec in *; lia). nia. }
      rewrite P1. destruct s; lia.
  Qed.

  Lemma decode_encode : forall x, valid_binary prec emax x = true -> decode mw ew (encode mw ew x) = x.
  Proof.
    intros x V. assert (Q : 2 ^ mw >= 2) by (replace mw with (mw - 1 + 1) by ring; rewrite Z.pow_add_r by lia; pose proof (Z.pow_pos_nonneg 2 (mw - 1)); lia).
    assert (Qe : 2 ^ ew = 2 * emax) by (unfold emax; replace ew with (1 + (ew - 1)) at 1 by ring; rewrite Z.pow_add_r by lia; reflexivity).
    assert (Em : 2 <= emax) by (unfold emax; fold emax; unfold emax in *; lia).
    destruct x as [s|s| |s m e].
    - destruct (split_bits s 0 0) as (A & B & C); try lia. unfold decode, encode in *. cbv zeta in *.
      replace (if s then 2 ^ (mw + ew) else 0) with ((if s then 2 ^ (mw + ew) else 0) + (0 * 2 ^ mw + 0)) by (destruct s; lia).
      rewrite A, B, C. reflexivity.
    - destruct (split_bits s (2 ^ ew - 1) 0) as (A & B & C); try lia. unfold decode, encode in *. cbv zeta in *.
      replace ((2 ^ ew - 1) * 2 ^ mw) with ((2 ^ ew - 1) * 2 ^ mw + 0) by lia.
      rewrite A, B, C. destruct (Z.eqb_spec (2 ^ ew - 1) 0); [lia|]. rewrite Z.eqb_refl. reflexivity.
    - destruct (split_bits false (2 ^ ew - 1) 1) as (A & B & C); try lia. unfold decode, encode in *. cbv zeta in *. rewrite Z.add_0_l in *.
      rewrite A, B, C. destruct (Z.eqb_spec (2 ^ ew - 1) 0); [lia|]. rewrite Z.eqb_refl. reflexivity.
    - cbn [valid_binary] in V. apply bounded_spec in V; [|unfold prec; lia]. destruct V as (K & F & G).
      change (SpecFloat.emin prec emax) with emin in *.
      assert (Pp : 2 ^ prec = 2 * 2 ^ mw) by (unfold prec; rewrite Z.pow_add_r by lia; lia).
      assert (Ph : 2 ^ (prec - 1) = 2 ^ mw) by (f_equal; unfold prec; lia).
      unfold encode. cbv zeta. fold emax. change (3 - emax - (mw + 1)) with emin.
      destruct (Z.ltb_spec (Zpos m) (2 ^ mw)).
      + destruct (split_bits s 0 (Zpos m)) as (A & B & C); try lia. unfold decode. cbv zeta in *. fold emax. change (3 - emax - (mw + 1)) with emin.
        rewrite Z.mul_0_l, Z.add_0_l in A, B, C. rewrite A, B, C. cbn [Z.eqb].
        f_equal. lia.
      + destruct (split_bits s (e - emin + 1) (Zpos m - 2 ^ mw)) as (A & B & C); try (unfold emin, prec in *; lia). unfold decode. cbv zeta in *. fold emax. change (3 - emax - (mw + 1)) with emin.
        rewrite A, B, C. destruct (Z.eqb_spec (e - emin + 1) 0); [lia|]. destruct (Z.eqb_spec (e - emin + 1) (2 ^ ew - 1)); [unfold emin, prec in *; lia|].
        replace (Zpos m - 2 ^ mw + 2 ^ mw) with (Zpos m) by ring. f_equal. lia.
  Qed.

  Lemma decode_valid : forall b, valid_binary prec emax (decode mw ew b) = true.
  Proof.
    intros b. assert (Q : 2 ^ mw >= 2) by (replace mw with (mw - 1 + 1) by ring; rewrite Z.pow_add_r by lia; pose proof (Z.pow_pos_nonneg 2 (mw - 1)); lia).
    assert (Qe : 2 ^ ew = 2 * emax) by (unfold emax; replace ew with (1 + (ew - 1)) at 1 by ring; rewrite Z.pow_add_r by lia; reflexivity).
    assert (Pp : 2 ^ prec = 2 * 2 ^ mw) by (unfold prec; rewrite Z.pow_add_r by lia; lia).
    assert (Ph : 2 ^ (prec - 1) = 2 ^ mw) by (f_equal; unfold prec; lia).
    pose proof (Z.mod_pos_bound (b / 2 ^ mw) (2 ^ ew) ltac:(lia)) as R1. pose proof (Z.mod_pos_bound b (2 ^ mw) ltac:(lia)) as R2.
    unfold decode. cbv zeta. fold emax. change (3 - emax - (mw + 1)) with emin.
    destruct (Z.eqb_spec ((b / 2 ^ mw) mod 2 ^ ew) 0).
    - destruct (b mod 2 ^ mw) as [|p|p] eqn:Eb; [reflexivity| |reflexivity]. cbn [valid_binary]. apply bounded_spec; [unfold prec; lia|].
      change (SpecFloat.emin prec emax) with emin. unfold emin, prec, emax in *. lia.
    - destruct (Z.eqb_spec ((b / 2 ^ mw) mod 2 ^ ew) (2 ^ ew - 1)); [destruct (_ =? 0); reflexivity|].
      destruct (b mod 2 ^ mw + 2 ^ mw) as [|p|p] eqn:Eb; [reflexivity| |reflexivity]. cbn [valid_binary]. apply bounded_spec; [unfold prec; lia|].
      change (SpecFloat.emin prec emax) with emin. unfold emin, prec, emax in *. lia.
  Qed.
End Bits.

(** The fields that are looked at, and the number of bytes they take. *)
Definition coordinate (f : field) : Prop := In (f_name f) ["x"; "y"; "z"]%string.
Definition size (f : field) : nat := if f_type f =? float32 then 4%nat else if f_type f =? float64 then 8%nat else 0%nat.
Definition fits (data : list Z) (at_ : nat) (f : field) : Prop := (size f = 0 \/ at_ + f_offset f + size f <= length data)%nat.
(** The number at a place. *)
Definition stored (data : list Z) (at_ : nat) (f : field) : spec_float :=
  if f_type f =? float32 then widen (decode 23 8 (unle (firstn 4 (skipn (at_ + f_offset f) data))))
  else if f_type f =? float64 then decode 52 11 (unle (firstn 8 (skipn (at_ + f_offset f) data)))
  else S754_zero false.
(** The last field of a name. *)
Definition named (name : string) (fs : list field) : option field := find (fun f => String.eqb (f_name f) name) (rev fs).
Definition coord (name : string) (data : list Z) (at_ : nat) (fs : list field) (d : spec_float) : spec_float :=
  match named name fs with Some f => stored data at_ f | None => d end.

Lemma value_ok : forall data at_ f, fits data at_ f -> field_value data at_ f = Ok (stored data at_ f).
Proof.
  intros data at_ f F. unfold field_value, stored, fits, size in *. destruct (f_type f =? float32).
  - unfold fetch. destruct (Nat.leb_spec (at_ + f_offset f + 4) (length data)); [reflexivity|lia].
  - destruct (f_type f =? float64); [|reflexivity]. unfold fetch. destruct (Nat.leb_spec (at_ + f_offset f + 8) (length data)); [reflexivity|lia].
Qed.
Lemma value_ub : forall data at_ f, ~ fits data at_ f -> field_value data at_ f = UB.
Proof.
  intros data at_ f F. unfold field_value, fits, size in *. destruct (f_type f =? float32).
  - unfold fetch. destruct (Nat.leb_spec (at_ + f_offset f + 4) (length data)); [lia|reflexivity].
  - destruct (f_type f =? float64); [|lia]. unfold fetch. destruct (Nat.leb_spec (at_ + f_offset f + 8) (length data)); [lia|reflexivity].
Qed.
Lemma fits_dec : forall data at_ f, fits data at_ f \/ ~ fits data at_ f.
Proof. intros. unfold fits. lia. Qed.
Lemma coordinate_dec : forall f, {coordinate f} + {~ coordinate f}.
Proof. intros f. apply in_dec, string_dec. Qed.

Definition upd1 (name : string) (data : list Z) (at_ : nat) (f : field) (d : spec_float) : spec_float :=
  if String.eqb (f_name f) name then stored data at_ f else d.
Lemma set_field_ok : forall data at_ p f, (coordinate f -> fits data at_ f) ->
  set_field data at_ p f = Ok (mkLas (upd1 "x" data at_ f (l_x p)) (upd1 "y" data at_ f (l_y p)) (upd1 "z" data at_ f (l_z p))).
Proof.
  intros data at_ [x y z] f F. unfold set_field, upd1. cbn [l_x l_y l_z].
  destruct (String.eqb_spec (f_name f) "x") as [E|N1].
  { rewrite E. cbn [String.eqb Ascii.eqb Bool.eqb]. rewrite value_ok by (apply F; unfold coordinate; rewrite E; cbn; auto). reflexivity. }
  destruct (String.eqb_spec (f_name f) "y") as [E|N2].
  { rewrite E. cbn [String.eqb Ascii.eqb Bool.eqb]. rewrite value_ok by (apply F; unfold coordinate; rewrite E; cbn; auto). reflexivity. }
  destruct (String.eqb_spec (f_name f) "z") as [E|N3]; [|reflexivity].
  cbn [bind]. rewrite value_ok by (apply F; unfold coordinate; rewrite E; cbn; auto). reflexivity.
Qed.
Lemma set_field_ub : forall data at_ p f, coordinate f -> ~ fits data at_ f -> set_field data at_ p f = UB.
Proof.
  intros data at_ p f C F. unfold set_field. destruct C as [E|[E|[E|[]]]]; rewrite <- E; cbn [String.eqb Ascii.eqb Bool.eqb bind]; rewrite value_ub by assumption; reflexivity.
Qed.
Lemma coord_cons : forall name data at_ f fs d, coord name data at_ (f :: fs) d = coord name data at_ fs (upd1 name data at_ f d).
Proof.
  intros. unfold coord, named, upd1. cbn [rev]. 
  assert (G : forall (g : field -> bool) l l', find g (l ++ l') = match find g l with Some a => Some a | None => find g l' end).
  { intros g l l'. induction l as [|a l IH]; [reflexivity|]. cbn. destruct (g a); [reflexivity|apply IH]. }
  rewrite G. destruct (find _ (rev fs)); [reflexivity|]. cbn. destruct (String.eqb (f_name f) name); reflexivity.
Qed.
Lemma set_fields_ok : forall data at_ fs p, (forall f, In f fs -> coordinate f -> fits data at_ f) ->
  set_fields data at_ p fs = Ok (mkLas (coord "x" data at_ fs (l_x p)) (coord "y" data at_ fs (l_y p)) (coord "z" data at_ fs (l_z p))).
Proof.
  intros data at_ fs. induction fs as [|f fs IH]; intros p F.
  - destruct p; reflexivity.
  - cbn [set_fields]. rewrite set_field_ok by (apply F; now left). cbn [bind]. rewrite IH by (intros g Hg; apply F; now right).
    cbn [l_x l_y l_z]. now rewrite !coord_cons.
Qed.
Lemma set_fields_ub : forall data at_ fs p, (exists f, In f fs /\ coordinate f /\ ~ fits data at_ f) -> set_fields data at_ p fs = UB.
Proof.
  intros data at_ fs. induction fs as [|f fs IH]; intros p (g & I & C & N); [destruct I|]. cbn [set_fields].
  destruct (coordinate_dec f) as [Cf|Cf]; [destruct (fits_dec data at_ f) as [Ff|Ff]|].
  - rewrite set_field_ok by auto. cbn [bind]. apply IH. destruct I as [<-|I]; [contradiction|]. exists g; auto.
  - now rewrite set_field_ub.
  - rewrite set_field_ok by (intros; contradiction). cbn [bind]. apply IH. destruct I as [<-|I]; [contradiction|]. exists g; auto.
Qed.

Definition row (c : pcl2) (at_ : nat) : las :=
  mkLas (coord "x" (bytes c) at_ (fields c) (S754_zero false)) (coord "y" (bytes c) at_ (fields c) (S754_zero false)) (coord "z" (bytes c) at_ (fields c) (S754_zero false)).
Lemma las_points_ok : forall n c at_, (forall i f, (i < n)%nat -> In f (fields c) -> coordinate f -> fits (bytes c) (at_ + i * step c) f) ->
  las_points n c at_ = Ok (map (fun i => row c (at_ + i * step c)) (seq 0 n)).
Proof.
  induction n as [|n IH]; intros c at_ F; [reflexivity|]. cbn [las_points seq map].
  rewrite set_fields_ok by (intros f I C; specialize (F 0%nat f ltac:(lia) I C); rewrite Nat.add_0_r in F; exact F). cbn [bind].
  rewrite IH. 2:{ intros i f Hi I C. specialize (F (S i) f ltac:(lia) I C). replace (at_ + step c + i * step c)%nat with (at_ + S i * step c)%nat by (cbn; lia). exact F. }
  cbn [bind]. f_equal. f_equal.
  - unfold row. rewrite Nat.add_0_r. reflexivity.
  - rewrite <- seq_shift, map_map. apply map_ext. intros i. f_equal. cbn. lia.
Qed.
Lemma las_points_ub : forall n c at_, (exists i f, (i < n)%nat /\ In f (fields c) /\ coordinate f /\ ~ fits (bytes c) (at_ + i * step c) f) ->
  las_points n c at_ = UB.
Proof.
  induction n as [|n IH]; intros c at_ (i & f & Hi & I & C & N); [lia|]. cbn [las_points].
  assert (D : (forall f, In f (fields c) -> coordinate f -> fits (bytes c) at_ f) \/ exists f, In f (fields c) /\ coordinate f /\ ~ fits (bytes c) at_ f).
  { generalize (fields c). clear. intros fs. induction fs as [|f fs IH]; [left; intros f []|].
    destruct IH as [IH|(g & I & C & N)]; [|right; exists g; split; [now right|auto]].
    destruct (coordinate_dec f) as [Cf|Cf]; [destruct (fits_dec (bytes c) at_ f) as [Ff|Ff]|].
    - left. intros g [<-|I]; [auto|apply IH; assumption].
    - right. exists f. split; [now left|auto].
    - left. intros g [<-|I]; [intros; contradiction|apply IH; assumption]. }
  destruct D as [D|D]; [|now rewrite set_fields_ub].
  rewrite set_fields_ok by assumption. cbn [bind]. rewrite IH; [reflexivity|].
  destruct i as [|i]; [rewrite Nat.add_0_r in N; elim N; auto|]. exists i, f. split; [lia|]. split; [assumption|]. split; [assumption|].
  replace (at_ + step c + i * step c)%nat with (at_ + S i * step c)%nat by (cbn; lia). exact N.
Qed.

(** A float as double has the same value. *)
Lemma widen_value : forall x, valid_binary 24 128 x = true -> match value x, value (widen x) with Some v, Some w => (v == w)%Q | None, None => widen x = x | _, _ => False end.
Proof.
  intros [s|s| |s m e] V; try reflexivity.
  cbn [valid_binary] in V. destruct (widen_spec m e V) as (n & f & E & B & D).
  assert (W : widen (S754_finite s m e) = S754_finite s n f).
  { destruct s; [|exact E]. unfold widen in *. cbn [cond_Zopp binary_normalize] in *. change (- Zpos m)%Z with (Zneg m). cbn [binary_normalize].
    rewrite binary_round_sign. rewrite E. reflexivity. }
  rewrite W. cbn [value]. unfold dyadic in D. destruct s; cbn [cond_Zopp].
  - change (Zneg m) with (- Zpos m)%Z. change (Zneg n) with (- Zpos n)%Z. rewrite !inject_Z_opp. rewrite <- (Qopp_opp (- inject_Z (Zpos m) * 2 ^ e)).
    assert (E1 : (- inject_Z (Zpos m) * 2 ^ e == - (inject_Z (Zpos m) * 2 ^ e))%Q) by ring.
    assert (E2 : (- inject_Z (Zpos n) * 2 ^ f == - (inject_Z (Zpos n) * 2 ^ f))%Q) by ring. rewrite E1, E2, D. ring.
  - symmetry. exact D.
Qed.

(** ** The size of a sample *)
Lemma size_rnd : forall n, is_rnd 24 128 (inject_Z n) (of_size n).
Proof.
  intros n. unfold of_size. apply (is_rnd_ext 24 128 (dyadic n 0)); [unfold dyadic; cbn; ring|]. apply normalize_rnd; lia.
Qed.

Lemma size_valid : forall n, valid_binary 24 128 (of_size n) = true.
Proof. intros n. apply (normalize_valid 24 128); lia. Qed.
Lemma size_exact : forall n, 0 <= n <= 2 ^ 24 -> exists s, value (of_size n) = Some s /\ (s == inject_Z n)%Q.
Proof.
  intros n H. destruct (Z.eq_dec n 0) as [->|N0]; [exists 0%Q; split; reflexivity|].
  destruct (Z.eq_dec n (2 ^ 24)) as [->|N1]; [eexists; split; [vm_compute; reflexivity|vm_compute; reflexivity]|].
  destruct (bounded_near 24 128 ltac:(lia) n 0 ltac:(lia) ltac:(cbn; lia)) as (m & e & B & V).
  assert (E : of_size n = S754_finite false m e).
  { unfold of_size. destruct n as [|p|p]; try lia. cbn [binary_normalize].
    apply (rounded_id 24 128 (dyadic (Zpos p) 0)); [assumption|symmetry; assumption|]. apply binary_round_spec; lia. }
  rewrite E. eexists. split; [reflexivity|]. cbn [cond_Zopp]. unfold dyadic in V. rewrite V. cbn. ring.
Qed.
Lemma size_finite : forall n, 0 <= n < 2 ^ 64 -> exists s, value (of_size n) = Some s /\ (inject_Z n * (8388607 # 8388608) <= s)%Q /\ (s <= inject_Z n * (8388609 # 8388608))%Q.
Proof.
  intros n H. destruct (Z.eq_dec n 0) as [->|N0]; [exists 0%Q; split; [reflexivity|split; vm_compute; discriminate]|].
  assert (N : (1 <= inject_Z n)%Q) by (change 1%Q with (inject_Z 1); rewrite <- Zle_Qle; lia).
  assert (U : (inject_Z n <= 18446744073709551616 # 1)%Q) by (change (18446744073709551616 # 1) with (inject_Z 18446744073709551616); rewrite <- Zle_Qle; lia).
  pose proof (size_rnd n) as R. assert (A : (Qabs (inject_Z n) == inject_Z n)%Q) by (apply Qabs_pos; lra).
  assert (T : (2 ^ (emin 24 128 - 1) <= 1 # 16777216)%Q) by (vm_compute; discriminate).
  assert (P : (2 ^ (- (24)) == 1 # 16777216)%Q) by (vm_compute; reflexivity).
  destruct (value (of_size n)) as [s|] eqn:E.
  - exists s. split; [reflexivity|]. pose proof (rnd_error 24 128 ltac:(lia) ltac:(lia) _ _ _ R E) as Er. rewrite A, P in Er. apply Qabs_Qle_condition in Er.
    set (t := (2 ^ (emin 24 128 - 1))%Q) in *. clearbody t. lra.
  - exfalso. pose proof (rnd_infinite 24 128 ltac:(lia) ltac:(lia) _ _ R E) as Er. rewrite A, P in Er.
    set (t := (2 ^ (emin 24 128 - 1))%Q) in *. clearbody t.
    assert (B : (100000000000000000000000 # 1 <= 2 ^ 128)%Q) by (vm_compute; discriminate). set (u := (2 ^ 128)%Q) in *. clearbody u. lra.
Qed.

Lemma trunc_value : forall x z, trunc_fl x = Some z -> exists v, value x = Some v.
Proof. intros [s|s| |s m e] z H; try discriminate; eexists; reflexivity. Qed.
Lemma value_trunc : forall x v, value x = Some v -> exists z, trunc_fl x = Some z.
Proof. intros [s|s| |s m e] v H; try discriminate; eexists; reflexivity. Qed.
Lemma to_int_ok : forall x z, to_int x = Ok z -> trunc_fl x = Some z /\ - 2 ^ 31 <= z < 2 ^ 31.
Proof.
  intros x z H. unfold to_int in H. destruct (trunc_fl x) as [a|]; [|discriminate].
  destruct (Z.leb_spec (- 2 ^ 31) a); [|discriminate]. destruct (Z.ltb_spec a (2 ^ 31)); [|discriminate]. cbn [andb] in H. injection H as <-. auto.
Qed.
Lemma floor_near : forall q, (inject_Z (Qfloor q) <= q)%Q /\ (q < inject_Z (Qfloor q) + 1)%Q.
Proof. intros q. split; [apply Qfloor_le|]. pose proof (Qlt_floor q) as H. rewrite inject_Z_plus in H. exact H. Qed.

Lemma count_parts : forall n r k v, valid_binary 24 128 r = true -> value r = Some v -> 0 <= n < 2 ^ 64 -> sample_count n r = Ok k ->
  exists s q, value (of_size n) = Some s /\ value (fmul (of_size n) r) = Some q /\ is_rnd 24 128 (s * v) (fmul (of_size n) r) /\
    k = if Qle_bool 0 q then Qfloor q else - Qfloor (- q).
Proof.
  intros n r k v V Ev Hn H. apply to_int_ok in H. destruct H as (T & _). destruct (trunc_value _ _ T) as (q & Eq).
  destruct (size_finite n Hn) as (s & Es & _). exists s, q. split; [assumption|]. split; [assumption|]. split.
  - apply mul_rnd; try lia; try assumption. apply size_valid.
  - exact (trunc_floor _ _ _ Eq T).
Qed.

Lemma rnd_nonneg : forall v x w, is_rnd 24 128 v x -> value x = Some w -> (0 <= v)%Q -> (0 <= w)%Q.
Proof.
  intros v x w R E H. assert (R0 : is_rnd 24 128 0 (S754_zero false)) by (left; split; [reflexivity|eexists; reflexivity]).
  pose proof (rnd_mono 24 128 ltac:(lia) ltac:(lia) _ _ _ _ R0 R H) as L. destruct (is_rnd_num 24 128 ltac:(lia) ltac:(lia) _ _ R) as (_ & Vx).
  apply (leb_value 24 128 ltac:(lia) ltac:(lia) (S754_zero false) x 0 w) in L; auto.
Qed.

Lemma count_near : forall n r k v, valid_binary 24 128 r = true -> value r = Some v -> (0 <= v)%Q -> 0 <= n < 2 ^ 64 -> sample_count n r = Ok k ->
  0 <= k /\ (inject_Z n * v * (4194303 # 4194304) - (1 # 1000000000000) - 1 < inject_Z k)%Q /\ (inject_Z k <= inject_Z n * v * (4194305 # 4194304) + (1 # 1000000000000))%Q.
Proof.
  intros n r k v V Ev Hv Hn H. destruct (count_parts n r k v V Ev Hn H) as (s & q & Es & Eq & R & Ek).
  destruct (size_finite n Hn) as (s' & Es' & L & U). assert (s' = s) by congruence. subst s'.
  assert (N : (0 <= inject_Z n)%Q) by (change 0%Q with (inject_Z 0); rewrite <- Zle_Qle; lia).
  assert (S0 : (0 <= s)%Q) by lra. assert (SV : (0 <= s * v)%Q) by (apply Qmult_le_0_compat; assumption).
  pose proof (rnd_nonneg _ _ _ R Eq SV) as Q0. assert (B : Qle_bool 0 q = true) by (apply Qle_bool_iff; exact Q0). rewrite B in Ek.
  pose proof (rnd_error 24 128 ltac:(lia) ltac:(lia) _ _ _ R Eq) as Er. rewrite (Qabs_pos _ SV) in Er.
  assert (T : (2 ^ (emin 24 128 - 1) <= 1 # 1000000000000)%Q) by (vm_compute; discriminate).
  assert (P : (2 ^ (- (24)) == 1 # 16777216)%Q) by (vm_compute; reflexivity). rewrite P in Er.
  set (t := (2 ^ (emin 24 128 - 1))%Q) in *. clearbody t. apply Qabs_Qle_condition in Er.
  pose proof (Qmult_le_compat_r _ _ v L Hv) as L'. pose proof (Qmult_le_compat_r _ _ v U Hv) as U'.
  assert (X0 : (0 <= inject_Z n * v)%Q) by (apply Qmult_le_0_compat; assumption).
  assert (L2 : (inject_Z n * v * (8388607 # 8388608) <= s * v)%Q) by (rewrite <- Qmult_assoc, (Qmult_comm v), Qmult_assoc; exact L').
  assert (U2 : (s * v <= inject_Z n * v * (8388609 # 8388608))%Q) by (rewrite <- (Qmult_assoc _ v), (Qmult_comm v), Qmult_assoc; exact U').
  set (x := (inject_Z n * v)%Q) in *. set (y := (s * v)%Q) in *. clearbody x y. clear L' U' L U.
  destruct (floor_near q) as (F1 & F2). rewrite <- Ek in F1, F2. split.
  - rewrite Ek. change 0 with (Qfloor 0). apply Qfloor_resp_le. exact Q0.
  - lra.
Qed.

Lemma leb_finite : forall x y w, SFleb (S754_zero false) x = true -> SFleb x y = true -> value y = Some w -> exists v, value x = Some v.
Proof. intros [s|s| |s m e] y w A B E; try (eexists; reflexivity); try discriminate. destruct s; [discriminate|]. destruct y as [t|t| |t n f]; discriminate. Qed.

Lemma count_total : forall n r v, valid_binary 24 128 r = true -> value r = Some v -> (0 <= v <= 1)%Q -> 0 <= n <= 2 ^ 31 - 128 -> exists k, sample_count n r = Ok k /\ 0 <= k.
Proof.
  intros n r v V Ev Hv Hn. destruct (size_finite n ltac:(lia)) as (s & Es & L & U).
  assert (N : (0 <= inject_Z n)%Q) by (change 0%Q with (inject_Z 0); rewrite <- Zle_Qle; lia).
  assert (S0 : (0 <= s)%Q) by lra. assert (SV : (0 <= s * v)%Q) by (apply Qmult_le_0_compat; lra).
  assert (SV1 : (s * v <= s)%Q) by (rewrite <- (Qmult_1_r s) at 2; rewrite !(Qmult_comm s); apply Qmult_le_compat_r; lra).
  assert (R : is_rnd 24 128 (s * v) (fmul (of_size n) r)) by (apply mul_rnd; try lia; try assumption; apply size_valid).
  assert (Rs : is_rnd 24 128 s (of_size n)) by (apply self_rnd; try lia; try assumption; apply size_valid).
  assert (R0 : is_rnd 24 128 0 (S754_zero false)) by (left; split; [reflexivity|eexists; reflexivity]).
  pose proof (rnd_mono 24 128 ltac:(lia) ltac:(lia) _ _ _ _ R0 R SV) as A. pose proof (rnd_mono 24 128 ltac:(lia) ltac:(lia) _ _ _ _ R Rs SV1) as B.
  destruct (leb_finite _ _ _ A B Es) as (q & Eq). destruct (value_trunc _ _ Eq) as (z & Ez). pose proof (trunc_floor _ _ _ Eq Ez) as Ek.
  pose proof (rnd_nonneg _ _ _ R Eq SV) as Q0. assert (Qb : Qle_bool 0 q = true) by (apply Qle_bool_iff; exact Q0). rewrite Qb in Ek.
  assert (Z0 : 0 <= z) by (rewrite Ek; change 0 with (Qfloor 0); apply Qfloor_resp_le; exact Q0).
  assert (Top : (s <= inject_Z (2 ^ 31 - 128))%Q).
  { pose proof (size_rnd (2 ^ 31 - 128)) as Rt. assert (Le : (inject_Z n <= inject_Z (2 ^ 31 - 128))%Q) by (rewrite <- Zle_Qle; lia).
    pose proof (rnd_mono 24 128 ltac:(lia) ltac:(lia) _ _ _ _ (size_rnd n) Rt Le) as M.
    assert (Et : exists w, value (of_size (2 ^ 31 - 128)) = Some w /\ (w == inject_Z (2 ^ 31 - 128))%Q) by (eexists; split; [vm_compute; reflexivity|vm_compute; reflexivity]).
    destruct Et as (w & Ew & Dw). apply (leb_value 24 128 ltac:(lia) ltac:(lia) _ _ s w (size_valid _) (size_valid _) Es Ew) in M. rewrite <- Dw. exact M. }
  destruct (is_rnd_num 24 128 ltac:(lia) ltac:(lia) _ _ R) as (_ & Vq).
  apply (leb_value 24 128 ltac:(lia) ltac:(lia) _ _ q s Vq (size_valid _) Eq Es) in B.
  exists z. split; [|assumption]. unfold sample_count, to_int. rewrite Ez.
  assert (Zt : z <= 2 ^ 31 - 128) by (rewrite Ek; rewrite <- (Qfloor_Z (2 ^ 31 - 128)); apply Qfloor_resp_le; lra).
  destruct (Z.leb_spec (- 2 ^ 31) z); [|lia]. destruct (Z.ltb_spec z (2 ^ 31)); [reflexivity|lia].
Qed.

Lemma count_whole : forall n r k v, valid_binary 24 128 r = true -> value r = Some v -> (1 <= v)%Q -> 0 <= n <= 2 ^ 24 -> sample_count n r = Ok k -> n <= k.
Proof.
  intros n r k v V Ev Hv Hn H. destruct (count_parts n r k v V Ev ltac:(lia) H) as (s & q & Es & Eq & R & Ek).
  destruct (size_exact n Hn) as (s' & Es' & D). assert (s' = s) by congruence. subst s'.
  assert (N : (0 <= inject_Z n)%Q) by (change 0%Q with (inject_Z 0); rewrite <- Zle_Qle; lia).
  assert (Rs : is_rnd 24 128 s (of_size n)) by (apply self_rnd; try lia; try assumption; apply size_valid).
  assert (SV : (s <= s * v)%Q) by (rewrite <- (Qmult_1_r s) at 1; rewrite !(Qmult_comm s); apply Qmult_le_compat_r; lra).
  pose proof (rnd_mono 24 128 ltac:(lia) ltac:(lia) _ _ _ _ Rs R SV) as B. destruct (is_rnd_num 24 128 ltac:(lia) ltac:(lia) _ _ R) as (_ & Vq).
  apply (leb_value 24 128 ltac:(lia) ltac:(lia) _ _ s q (size_valid _) Vq Es Eq) in B.
  assert (Qb : Qle_bool 0 q = true) by (apply Qle_bool_iff; lra). rewrite Qb in Ek. rewrite Ek. rewrite <- (Qfloor_Z n). apply Qfloor_resp_le. lra.
Qed.

Lemma count_negative : forall n r k v, valid_binary 24 128 r = true -> value r = Some v -> 0 <= n <= 2 ^ 24 -> (inject_Z n * v <= -1)%Q -> sample_count n r = Ok k -> k < 0.
Proof.
  intros n r k v V Ev Hn Hv H. destruct (count_parts n r k v V Ev ltac:(lia) H) as (s & q & Es & Eq & R & Ek).
  destruct (size_exact n Hn) as (s' & Es' & D). assert (s' = s) by congruence. subst s'.
  assert (R1 : is_rnd 24 128 (-1) (S754_finite true 8388608 (-23))).
  { apply (is_rnd_ext 24 128 (inject_Z (-8388608) * 2 ^ (-23))); [vm_compute; reflexivity|]. apply self_rnd; try lia; reflexivity. }
  assert (SV : (s * v <= -1)%Q) by (rewrite D; exact Hv).
  pose proof (rnd_mono 24 128 ltac:(lia) ltac:(lia) _ _ _ _ R R1 SV) as B. destruct (is_rnd_num 24 128 ltac:(lia) ltac:(lia) _ _ R) as (_ & Vq).
  apply (leb_value 24 128 ltac:(lia) ltac:(lia) (fmul (of_size n) r) (S754_finite true 8388608 (-23)) q (inject_Z (-8388608) * 2 ^ (-23))) in B; [|assumption|reflexivity|assumption|reflexivity].
  assert (E1 : (inject_Z (-8388608) * 2 ^ (-23) == -1)%Q) by (vm_compute; reflexivity). rewrite E1 in B.
  assert (Qb : Qle_bool 0 q = false) by (apply not_true_iff_false; intros C; apply Qle_bool_iff in C; lra). rewrite Qb in Ek.
  assert (1 <= Qfloor (- q)) by (change 1 with (Qfloor 1); apply Qfloor_resp_le; lra). lia.
Qed.

Lemma count_ub : forall n r, value r = None -> sample_count n r = UB.
Proof.
  intros n r H. unfold sample_count, to_int. destruct r as [s|s| |s m e]; try discriminate.
  - unfold fmul. destruct (of_size n); reflexivity.
  - unfold fmul. destruct (of_size n); reflexivity.
Qed.
