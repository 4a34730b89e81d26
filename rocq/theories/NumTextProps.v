(** Properties C142 and C143: the numbers in path.csv and kitti_pose.txt. *)
From Coq Require Import ZArith QArith Qpower Qabs List Bool String Ascii SpecFloat Lia Lqa.
From Verif Require Import IdsModel MapFileModel MapFileProofs FilterSpec ProcProofs FloatRound FloatMono NumTextModel NumTextSpec NumTextProofs.
Import ListNotations.
Local Open Scope string_scope.
Local Open Scope Z_scope.

(** ** C142: std::to_string *)
(** The text [s] is the number [x] to the nearest millionth, and no number if [x] is none. *)
Definition says (s : string) (x : spec_float) : Prop :=
  match value x with
  | Some q => exists r k, field s = Some r /\ (r == inject_Z k / 1000000)%Q /\ nearest (q * 1000000) k
  | None => field s = None
  end.
Lemma says_padded : forall x pre post, (pre = "" \/ pre = " ") -> (post = "" \/ post = " ") -> says (pre ++ print_f x ++ post) x.
Proof.
  intros x pre post P Q. unfold says. assert (Sk : forall t, field (pre ++ t) = field t).
  { intros t. destruct P as [-> | ->]; [reflexivity|]. reflexivity. }
  rewrite Sk. destruct (value x) as [q|] eqn:V.
  - assert (E : ends post) by (destruct Q as [-> | ->]; [exact I|repeat split; congruence]).
    destruct (print_f_read x q post V E) as (r & k & R & A & B). exists r, k. split; [|auto]. unfold field. rewrite R.
    destruct Q as [-> | ->]; reflexivity.
  - destruct x as [b|b| |b m e]; cbn [value] in V; try discriminate; destruct Q as [-> | ->]; try destruct b; reflexivity.
Qed.
Theorem C142_field : forall x, says (print_f x) x.
Proof. intros x. rewrite <- (app_nil_s (print_f x)). apply (says_padded x "" ""); auto. Qed.
Print Assumptions C142_field.
(** So the error is at most half a millionth ... *)
Theorem C142_error : forall x q, value x = Some q -> exists r, field (print_f x) = Some r /\ (Qabs (r - q) <= 1 # 2000000)%Q.
Proof.
  intros x q V. pose proof (C142_field x) as S. unfold says in S. rewrite V in S. destruct S as (r & k & F & R & N & _). exists r. split; [exact F|].
  apply Qabs_Qle_condition. rewrite R. generalize dependent (inject_Z k). intros u R N. unfold Qdiv. change (/ 1000000)%Q with (1 # 1000000)%Q. lra.
Qed.
Print Assumptions C142_error.
(** ... and there is none for whole numbers of millionths. *)
Theorem C142_exact : forall x q k, value x = Some q -> (q * 1000000 == inject_Z k)%Q -> exists r, field (print_f x) = Some r /\ (r == q)%Q.
Proof.
  intros x q k V H. pose proof (C142_field x) as S. unfold says in S. rewrite V in S. destruct S as (r & k' & F & R & N). exists r. split; [exact F|].
  assert (k' = k) as -> by (eapply nearest_unique; [exact N|apply nearest_whole; exact H]). rewrite R, <- H. field.
Qed.
Print Assumptions C142_exact.
(** The texts are in the order of the numbers. *)
Theorem C142_order : forall x y q p, value x = Some q -> value y = Some p -> (q <= p)%Q ->
  exists r t, field (print_f x) = Some r /\ field (print_f y) = Some t /\ (r <= t)%Q.
Proof.
  intros x y q p V W L. pose proof (C142_field x) as S. pose proof (C142_field y) as T. unfold says in S, T. rewrite V in S. rewrite W in T.
  destruct S as (r & k & F & R & N), T as (t & j & F' & R' & N'). exists r, t. split; [exact F|]. split; [exact F'|].
  assert (K : k <= j) by (eapply nearest_mono; [|exact N|exact N']; lra). rewrite R, R'. rewrite (Zle_Qle k j) in K.
  apply Qmult_le_compat_r; [exact K|discriminate].
Qed.
Print Assumptions C142_order.
(** Numbers that are more than a millionth apart have different texts ... *)
Theorem C142_distinct : forall x y q p, value x = Some q -> value y = Some p -> (1 # 1000000 < Qabs (q - p))%Q -> print_f x <> print_f y.
Proof.
  intros x y q p V W L E. pose proof (C142_field x) as S. pose proof (C142_field y) as T. unfold says in S, T. rewrite V in S. rewrite W, <- E in T.
  destruct S as (r & k & F & R & N & _), T as (t & j & F' & R' & N' & _). assert (r = t) as <- by congruence.
  assert (K : (inject_Z k == inject_Z j)%Q).
  { rewrite R in R'. unfold Qdiv in R'. change (/ 1000000)%Q with (1 # 1000000)%Q in R'. lra. }
  rewrite <- K in N'. apply (Qlt_not_le _ _ L). apply Qabs_Qle_condition. generalize dependent (inject_Z k). intros u R K N N'. lra.
Qed.
Print Assumptions C142_distinct.
(** ... and so have different floats from 16 on: the text says which float it was. *)
Theorem C142_far : forall x y q p, valid_binary 24 128 x = true -> valid_binary 24 128 y = true ->
  value x = Some q -> value y = Some p -> (16 <= Qabs q)%Q -> (16 <= Qabs p)%Q -> ~ (q == p)%Q -> print_f x <> print_f y.
Proof.
  assert (G : forall x q, valid_binary 24 128 x = true -> value x = Some q -> (16 <= Qabs q)%Q -> exists k, (q == inject_Z k * (1 # 524288))%Q).
  { intros x q B V L. destruct x as [b|b| |b m e]; cbn [value] in V; try discriminate; injection V as <-.
    - exfalso. vm_compute in L. congruence.
    - cbn [valid_binary] in B. apply bounded_spec in B; [|lia]. destruct B as (B1 & B2 & _).
      assert (Ab : (Qabs (inject_Z (cond_Zopp b (Z.pos m)) * 2 ^ e) == dyadic (Zpos m) e)%Q).
      { rewrite Qabs_Qmult. unfold dyadic. assert (P : (0 < 2 ^ e)%Q) by (apply Qpower_0_lt; reflexivity). rewrite (Qabs_pos (2 ^ e)) by lra. destruct b; reflexivity. }
      rewrite Ab in L. assert (E : -19 <= e).
      { apply Z.le_ngt. intros E. apply (Qle_not_lt _ _ L).
        assert (S : (dyadic (Zpos m) e <= dyadic 16777215 (-20))%Q).
        { replace (-20) with (e + (-20 - e)) by lia. rewrite dyadic_shift by lia. apply dyadic_le.
          assert (0 < 2 ^ (-20 - e)) by (apply Z.pow_pos_nonneg; lia). change (2 ^ 24) with 16777216 in B1. nia. }
        eapply Qle_lt_trans; [exact S|]. reflexivity. }
      exists (cond_Zopp b (Zpos m) * 2 ^ (e + 19)). rewrite inject_Z_mult, (Zpower_Qpower 2 (e + 19)) by lia. change (inject_Z 2) with 2%Q.
      rewrite Qpower_plus by lra. change (2 ^ 19)%Q with 524288%Q. field. }
  intros x y q p Bx By V W Lq Lp N. destruct (G x q Bx V Lq) as (a & A), (G y p By W Lp) as (b & B).
  apply (C142_distinct x y q p V W). rewrite A, B. assert (D : a <> b) by (intros ->; apply N; rewrite A, B; reflexivity).
  assert (E : (inject_Z a * (1 # 524288) - inject_Z b * (1 # 524288) == inject_Z (a - b) * (1 # 524288))%Q) by (unfold Zminus; rewrite inject_Z_plus, inject_Z_opp; ring).
  rewrite E, Qabs_Qmult. change (Qabs (1 # 524288)) with (1 # 524288)%Q.
  assert (O : (1 <= Qabs (inject_Z (a - b)))%Q) by (change (Qabs (inject_Z (a - b))) with (inject_Z (Z.abs (a - b))); change 1%Q with (inject_Z 1); rewrite <- Zle_Qle; lia).
  lra.
Qed.
Print Assumptions C142_far.
(** Below that it does not: two neighbours near 8, and all numbers of less than half a millionth. *)
Theorem C142_far_refuted : exists x y q p, valid_binary 24 128 x = true /\ valid_binary 24 128 y = true /\ value x = Some q /\ value y = Some p /\
  (8 < q)%Q /\ (8 < p)%Q /\ ~ (q == p)%Q /\ print_f x = print_f y.
Proof.
  exists (S754_finite false 8388618 (-20)), (S754_finite false 8388619 (-20)). do 2 eexists.
  split; [reflexivity|]. split; [reflexivity|]. split; [reflexivity|]. split; [reflexivity|].
  split; [reflexivity|]. split; [reflexivity|]. split; [vm_compute; discriminate|vm_compute; reflexivity].
Qed.
Print Assumptions C142_far_refuted.
Theorem C142_small : forall x q, value x = Some q -> (Qabs q < 1 # 2000000)%Q -> print_f x = "0.000000" \/ print_f x = "-0.000000".
Proof.
  intros x q V L. destruct x as [b|b| |b m e]; cbn [value] in V; try discriminate; injection V as <-.
  - destruct b; [right|left]; reflexivity.
  - assert (M : micro m e = 0).
    { destruct (micro_nearest m e) as [N _]. apply (nearest_unique _ _ _ N). change (10 ^ 6)%Q with 1000000%Q.
      assert (P : (0 < 2 ^ e)%Q) by (apply Qpower_0_lt; reflexivity).
      assert (Ab : (Qabs (inject_Z (cond_Zopp b (Z.pos m)) * 2 ^ e) == inject_Z (Zpos m) * 2 ^ e)%Q).
      { rewrite Qabs_Qmult, (Qabs_pos (2 ^ e)) by lra. destruct b; reflexivity. }
      rewrite Ab in L. clear Ab N. assert (0 < inject_Z (Zpos m) * 2 ^ e)%Q by (apply Qmult_lt_0_compat; [reflexivity|exact P]).
      generalize dependent (inject_Z (Zpos m) * 2 ^ e)%Q. intros v L G. unfold nearest. change (inject_Z 0) with 0%Q. split; [lra|]. intros [K|K]; exfalso; lra. }
    cbn [print_f]. rewrite M. destruct b; [right|left]; reflexivity.
Qed.
Print Assumptions C142_small.
Example C142_ex_small : print_f (S754_finite false 14073749 (-47)) = "0.000000" /\ valid_binary 24 128 (S754_finite false 14073749 (-47)) = true.
Proof. split; reflexivity. Qed.
Example C142_ex_field : print_f (S754_finite true 12648430 (-20)) = "-12.062483" /\ print_f (S754_finite false 1 (-1)) = "0.500000" /\
  print_f (S754_finite false 16777215 104) = "340282346638528859811704183484516925440.000000" /\
  print_f (S754_finite false 1 (-7)) = "0.007812" /\ print_f (S754_finite false 3 (-7)) = "0.023438" /\
  print_f (S754_zero true) = "-0.000000" /\ print_f (S754_infinity true) = "-inf".
Proof. repeat split; vm_compute; reflexivity. Qed.

(** path.csv of a trajectory: one line for each frame, with its number and the six numbers of its
    pose. *)
Theorem C142_path : forall rows, Forall (fun r => 0 <= fst r) rows ->
  Forall2 (fun line row => exists i a b c d e f, split_at "," line = [i; a; b; c; d; e; f] /\ (exists r, field i = Some r /\ (r == inject_Z (fst row))%Q) /\
      says a (p0 (snd row)) /\ says b (p1 (snd row)) /\ says c (p2 (snd row)) /\ says d (p3 (snd row)) /\ says e (p4 (snd row)) /\ says f (p5 (snd row)))
    (split_at (ascii_of_nat 10) (path_text rows)) rows.
Proof.
  intros rows H.
  pose (body := fun r : Z * pose6 => let (i, p) := r in
     to_string i ++ ", " ++ print_f (p0 p) ++ ", " ++ print_f (p1 p) ++ ", " ++ print_f (p2 p) ++ ", " ++ print_f (p3 p) ++ ", " ++ print_f (p4 p) ++ ", " ++ print_f (p5 p) ++ " ").
  assert (T : path_text rows = sum_text (fun r => body r ++ newline) rows).
  { unfold path_text, sum_text. clear H. induction rows as [|[i p] rows IH]; [reflexivity|]. cbn [fold_right]. rewrite IH. f_equal. unfold path_row, body. rewrite !app_s. reflexivity. }
  rewrite T, lines_spec.
  - induction rows as [|[i p] rows IH]; [constructor|]. inversion H as [|? ? H0 H1]; subst. cbn [map]. constructor.
    + cbn [fst snd] in *. exists (to_string i), (" " ++ print_f (p0 p)), (" " ++ print_f (p1 p)), (" " ++ print_f (p2 p)), (" " ++ print_f (p3 p)), (" " ++ print_f (p4 p)), (" " ++ print_f (p5 p) ++ " ").
      assert (Ab : forall x, absent "," (" " ++ print_f x)) by (intros x; cbn [append absent]; split; [congruence|apply absent_print_f, apart_comma]).
      split; [|split].
      * unfold body. cbn [append]. rewrite (split_at_absent "," (to_string i)) by (apply absent_string, apart_comma). f_equal.
        do 5 (match goal with |- split_at _ (String " " (print_f ?x ++ String "," ?r)) = _ => change (String " " (print_f x ++ String "," r)) with ((" " ++ print_f x) ++ String "," r); rewrite (split_at_absent "," (" " ++ print_f x)) by apply Ab; f_equal end).
        apply split_at_end; [|discriminate]. cbn [absent]. split; [congruence|]. apply absent_app. split; [apply absent_print_f, apart_comma|]. cbn. split; [congruence|exact I].
      * pose proof (fixed_unsigned 0 i "" H0 I) as F. destruct (fixed_head 0 i H0) as (c & r & E & D). unfold fixed in E, F.
        change (10 ^ Z.of_nat 0) with 1 in E, F. rewrite Z.div_1_r, !app_nil_s in *. rewrite E in *.
        pose proof (read_signed false c r D) as R. cbn [sign append] in R. unfold field. rewrite R, F. cbn [skip]. eexists. split; [reflexivity|].
        change (10 ^ (- Z.of_nat 0))%Q with 1%Q. ring.
      * repeat split; try (rewrite <- (app_nil_s (print_f _)); apply says_padded; auto). apply says_padded; auto.
    + apply IH; [exact H1|]. unfold path_text, sum_text in *. cbn [fold_right] in T. clear. induction rows as [|[j q] rows IH]; [reflexivity|]. cbn [fold_right]. rewrite IH. f_equal. unfold path_row, body. rewrite !app_s. reflexivity.
  - intros [i p]. unfold body. repeat (apply absent_app; split); try (apply absent_string, apart_newline); try (apply absent_print_f, apart_newline); cbn; repeat split; try congruence.
Qed.
Print Assumptions C142_path.
Example C142_ex_path : path_text [(0, mkPose (S754_zero false) (S754_finite true 3 (-1)) (S754_finite false 5 (-2)) (S754_zero false) (S754_zero true) (S754_finite false 1 0)); (1, mkPose S754_nan (S754_finite false 1 20) (S754_zero false) (S754_zero false) (S754_zero false) (S754_zero false))] =
  "0, 0.000000, -1.500000, 1.250000, 0.000000, -0.000000, 1.000000 " ++ newline ++ "1, nan, 1048576.000000, 0.000000, 0.000000, 0.000000, 0.000000 " ++ newline.
Proof. vm_compute. reflexivity. Qed.

(** path.csv of the tool: one line for each point of the cloud. *)
Theorem C142_csv : forall name l, name <> "" -> exists text, path_statistic name (Some l) true = mkExit 0 (Some text) /\
  Forall2 (fun line p => exists a b c d, split_at "," line = [a; b; c; d] /\ says a (ix p) /\ says b (iy p) /\ says c (iz p) /\ says d (intensity p))
    (split_at (ascii_of_nat 10) text) l.
Proof.
  intros name l N. unfold path_statistic. destruct (String.eqb_spec name ""); [contradiction|]. eexists. split; [reflexivity|].
  pose (body := fun p => print_f (ix p) ++ "," ++ print_f (iy p) ++ "," ++ print_f (iz p) ++ "," ++ print_f (intensity p)).
  assert (T : sum_text csv_row l = sum_text (fun p => body p ++ newline) l).
  { unfold sum_text. induction l as [|p l IH]; [reflexivity|]. cbn [fold_right]. rewrite IH. f_equal. unfold csv_row, body. rewrite !app_s. reflexivity. }
  rewrite T, lines_spec.
  - clear T. induction l as [|p l IH]; [constructor|]. cbn [map]. constructor; [|exact IH].
    exists (print_f (ix p)), (print_f (iy p)), (print_f (iz p)), (print_f (intensity p)). split; [|repeat split; apply C142_field].
    unfold body. cbn [append]. do 3 (rewrite split_at_absent by (apply absent_print_f, apart_comma); f_equal).
    apply split_at_end; [apply absent_print_f, apart_comma|]. intros E. pose proof (C142_field (intensity p)) as S. unfold says in S.
    destruct (intensity p) as [b|b| |b m e]; try (destruct b; discriminate E); [discriminate E|].
    cbn [value] in S. rewrite E in S. destruct S as (r & k & F & _). discriminate F.
  - intros p. unfold body. repeat (apply absent_app; split); try (apply absent_print_f, apart_newline); cbn; repeat split; congruence.
Qed.
Print Assumptions C142_csv.
(** The exit code is 0 just if the cloud could be read, and then the file is written if it can be. *)
Theorem C142_exit : forall name load opens, let x := path_statistic name load opens in
  (code x = 0 <-> name <> "" /\ load <> None) /\ (code x <> 0 -> code x = -1) /\ (written x <> None <-> code x = 0 /\ opens = true).
Proof.
  intros name load opens x. unfold x, path_statistic. destruct (String.eqb_spec name "") as [E|E]; [cbn; repeat split; try lia; try tauto; intros H; exfalso; tauto|].
  destruct load as [l|]; cbn; [|repeat split; try lia; try tauto; try congruence; intros H; exfalso; destruct H; congruence || lia].
  repeat split; try lia; try congruence; destruct opens; try congruence; intros [_ H]; congruence.
Qed.
Print Assumptions C142_exit.
(** So a file that cannot be written is a success. *)
Theorem C142_exit_refuted : exists name load, path_statistic name load false = mkExit 0 None /\ load <> None /\ load <> Some [].
Proof. exists "path.pcd", (Some [mkI (S754_zero false) (S754_zero false) (S754_zero false) (S754_zero false)]). repeat split; discriminate. Qed.
Print Assumptions C142_exit_refuted.

(** ** C143: eight digits *)
(** The text [s] is the number [x] to eight digits: [10^Y] is the place of its first digit. *)
Definition says8 (s : string) (x : spec_float) : Prop :=
  match value x with
  | Some q => exists r, field s = Some r /\
     ((q == 0 /\ r == 0)%Q \/ exists Y k, (10 ^ Y <= Qabs q < 10 ^ (Y + 1))%Q /\ nearest (q * 10 ^ (7 - Y)) k /\ (r == inject_Z k * 10 ^ (Y - 7))%Q)
  | None => field s = None
  end.
Theorem C143_field : forall x, says8 (print_g x) x.
Proof.
  intros x. unfold says8. destruct (value x) as [q|] eqn:V.
  - destruct (print_g_read x q "" V I) as (r & R & A). exists r. split; [|exact A]. rewrite app_nil_s in R. unfold field. rewrite R. reflexivity.
  - destruct x as [b|b| |b m e]; cbn [value] in V; try discriminate; try destruct b; reflexivity.
Qed.
Print Assumptions C143_field.
(** The error is at most 5e-8 of the number. *)
Theorem C143_error : forall x q, value x = Some q -> exists r, field (print_g x) = Some r /\ (Qabs (r - q) <= (1 # 20000000) * Qabs q)%Q.
Proof.
  intros x q V. pose proof (C143_field x) as S. unfold says8 in S. rewrite V in S. destruct S as (r & F & S). exists r. split; [exact F|].
  destruct S as [[Q R]|(Y & k & A & (N & _) & R)]; [rewrite Q, R; discriminate|].
  pose proof (pow_pos10 (Y - 7)) as P.
  assert (E7 : (10 ^ (7 - Y) * 10 ^ (Y - 7) == 1)%Q) by (rewrite <- pow10_plus; replace (7 - Y + (Y - 7)) with 0 by lia; reflexivity).
  assert (EY : (10 ^ Y == 10000000 * 10 ^ (Y - 7))%Q) by (replace Y with (7 + (Y - 7)) at 1 by lia; rewrite pow10_plus; reflexivity).
  assert (D : (r - q == (inject_Z k - q * 10 ^ (7 - Y)) * 10 ^ (Y - 7))%Q).
  { rewrite R. transitivity (inject_Z k * 10 ^ (Y - 7) - q * (10 ^ (7 - Y) * 10 ^ (Y - 7)))%Q; [rewrite E7; ring|ring]. }
  rewrite D, Qabs_Qmult, (Qabs_pos (10 ^ (Y - 7))) by lra.
  assert (H : (Qabs (inject_Z k - q * 10 ^ (7 - Y)) <= 1 # 2)%Q) by (apply Qabs_Qle_condition; generalize dependent (q * 10 ^ (7 - Y))%Q; intros; lra).
  eapply Qle_trans; [apply Qmult_le_compat_r; [exact H|lra]|]. destruct A as [A _]. rewrite EY in A.
  clear - A P. generalize dependent (10 ^ (Y - 7))%Q. generalize dependent (Qabs q). intros. lra.
Qed.
Print Assumptions C143_error.
(** Numbers of up to eight decimal digits are exact. *)
Theorem C143_exact : forall x q n j, value x = Some q -> (q == inject_Z n * 10 ^ j)%Q -> Z.abs n < 10 ^ 8 -> exists r, field (print_g x) = Some r /\ (r == q)%Q.
Proof.
  intros x q n j V H B. pose proof (C143_field x) as S. unfold says8 in S. rewrite V in S. destruct S as (r & F & S). exists r. split; [exact F|].
  destruct S as [[Q R]|(Y & k & A & N & R)]; [rewrite Q, R; reflexivity|].
  assert (Ab : (Qabs q == inject_Z (Z.abs n) * 10 ^ j)%Q) by (rewrite H, Qabs_Qmult, (Qabs_pos (10 ^ j)) by (apply Qlt_le_weak, pow_pos10); reflexivity).
  (* below 10^(j+8), so Y - 7 <= j *)
  assert (J : Y - 7 <= j).
  { apply Z.le_ngt. intros G. destruct A as [A _]. rewrite Ab in A. apply (Qle_not_lt _ _ A).
    apply Qlt_le_trans with (10 ^ (8 + j))%Q.
    - rewrite pow10_plus. apply Qmult_lt_compat_r; [apply pow_pos10|]. rewrite <- pow10_Z, <- Zlt_Qlt by lia. exact B.
    - apply Qpower_le_compat_l; [lia|discriminate]. }
  assert (I : (q * 10 ^ (7 - Y) == inject_Z (n * 10 ^ (j + 7 - Y)))%Q).
  { rewrite H, inject_Z_mult, pow10_Z by lia. replace (j + 7 - Y) with (j + (7 - Y)) by lia. rewrite pow10_plus. ring. }
  assert (k = n * 10 ^ (j + 7 - Y)) as -> by (eapply nearest_unique; [exact N|apply nearest_whole; exact I]).
  rewrite R, <- I, <- Qmult_assoc, <- pow10_plus. replace (7 - Y + (Y - 7)) with 0 by lia. change (10 ^ 0)%Q with 1%Q. ring.
Qed.
Print Assumptions C143_exact.
(** So from 100 kilometres on the millimetres are not exact: 102400.0048828125 is written as 102400. *)
Theorem C143_millimetres_refuted : exists x q r, valid_binary 53 1024 x = true /\ value x = Some q /\ (100000 < q < 200000)%Q /\
  field (print_g x) = Some r /\ (1 # 250 < Qabs (r - q))%Q.
Proof.
  exists (S754_finite false (104857605 * 67108864) (-36)).
  do 2 eexists. split; [vm_compute; reflexivity|]. split; [reflexivity|]. split; [split; reflexivity|].
  split; [vm_compute; reflexivity|]. vm_compute. reflexivity.
Qed.
Print Assumptions C143_millimetres_refuted.
Example C143_ex_field : print_g (S754_finite false 1 (-1)) = "0.5" /\ print_g (S754_finite true 8388619 (-20)) = "-8.0000105" /\
  print_g (S754_finite false 100 0) = "100" /\ print_g (S754_finite false 8388619 10) = "8.5899459e+09" /\
  print_g (S754_finite false 8388619 (-40)) = "7.6294045e-06" /\ print_g (S754_finite false 1 (-1074)) = "4.9406565e-324" /\
  print_g (S754_finite false 1999999999 (-1)) = "1e+09" /\ print_g (S754_zero true) = "-0" /\ print_g (S754_infinity false) = "inf".
Proof. repeat split; vm_compute; reflexivity. Qed.

(** kitti_pose.txt: one line for each submap, with the twelve numbers of the first three rows of
    its matrix. *)
Definition cells : list (nat * nat) := list_prod (seq 0 3) (seq 0 4).
Theorem C143_kitti : forall l,
  Forall2 (fun line (a : matrix) => Forall2 (fun s rc => says8 s (a (fst rc) (snd rc))) (split_at " " line) cells)
    (split_at (ascii_of_nat 10) (kitti_text l)) l.
Proof.
  intros l.
  assert (Ne : forall x, print_g x <> "").
  { intros x E. pose proof (C143_field x) as S. unfold says8 in S.
    destruct x as [b|b| |b m e]; try (destruct b; discriminate E); [discriminate E|].
    cbn [value] in S. rewrite E in S. destruct S as (r & F & _). discriminate F. }
  assert (Sp : forall x r, exists body, spaced (x :: r) = body ++ newline /\ absent (ascii_of_nat 10) body /\ split_at " " body = map print_g (x :: r)).
  { intros x r. revert x. induction r as [|y r IH]; intros x.
    - exists (print_g x). split; [reflexivity|]. split; [apply absent_print_g, apart_newline|]. apply split_at_end; [apply absent_print_g, apart_blank|apply Ne].
    - destruct (IH y) as (body & E & A & S). exists (print_g x ++ " " ++ body). split; [|split].
      + change (spaced (x :: y :: r)) with (print_g x ++ " " ++ spaced (y :: r)). rewrite E, !app_s. reflexivity.
      + apply absent_app. split; [apply absent_print_g, apart_newline|]. cbn [append absent]. split; [vm_compute; congruence|exact A].
      + cbn [append]. rewrite split_at_absent by (apply absent_print_g, apart_blank). rewrite S. reflexivity. }
  induction l as [|a l IH]; [constructor|]. unfold kitti_text, sum_text. cbn [fold_right]. fold (sum_text kitti_row l). fold (kitti_text l).
  unfold kitti_row at 1. destruct (Sp (a 0%nat 0%nat) [a 0%nat 1%nat; a 0%nat 2%nat; a 0%nat 3%nat; a 1%nat 0%nat; a 1%nat 1%nat; a 1%nat 2%nat; a 1%nat 3%nat;
    a 2%nat 0%nat; a 2%nat 1%nat; a 2%nat 2%nat; a 2%nat 3%nat]) as (body & E & A & S).
  rewrite E, app_s. unfold newline. cbn [append]. rewrite split_at_absent by exact A. constructor; [|exact IH].
  rewrite S. cbn [map cells list_prod seq app]. repeat (constructor; [apply C143_field|]). constructor.
Qed.
Print Assumptions C143_kitti.
Example C143_ex_kitti : kitti_text [fun i j => if Nat.eqb i j then S754_finite false 1 0 else if Nat.eqb j 3 then S754_finite true 25 (-1) else S754_zero false] =
  "1 0 0 -12.5 0 1 0 -12.5 0 0 1 -12.5" ++ newline.
Proof. vm_compute. reflexivity. Qed.
