(** Properties C58, C86: the map package. *)
From Coq Require Import ZArith QArith Qround List String Ascii Bool Lia Lqa.
From Verif Require Import Outcome MathModel IdsModel IdsProps PackModel.
Import ListNotations.
Local Open Scope Q_scope.

Lemma Qgt_spec : forall a b, Qgt a b = true <-> b < a.
Proof. intros a b. unfold Qgt. rewrite negb_true_iff, <- not_true_iff_false, Qle_bool_iff. split; [apply Qnot_le_lt|apply Qlt_not_le]. Qed.
Lemma Qlt'_spec : forall a b, Qlt' a b = true <-> a < b.
Proof. intros a b. apply (Qgt_spec b a). Qed.
Lemma qclamp_mono : forall a v lo hi, a <= v -> lo <= v -> qclamp a lo hi <= v.
Proof.
  intros a v lo hi H1 H2. unfold qclamp, clamp. destruct (Qgt a hi) eqn:E; [apply Qgt_spec in E; lra|]. destruct (Qlt' a lo); lra.
Qed.
Lemma qclamp_mono' : forall a v lo hi, v <= a -> v <= hi -> v <= qclamp a lo hi.
Proof.
  intros a v lo hi H1 H2. unfold qclamp, clamp. destruct (Qgt a hi); [lra|]. destruct (Qlt' a lo) eqn:E; [apply Qlt'_spec in E; lra|lra].
Qed.
Lemma qclamp_in : forall a lo hi, lo <= hi -> lo <= qclamp a lo hi <= hi.
Proof.
  intros a lo hi H. unfold qclamp, clamp. destruct (Qgt a hi) eqn:E; [lra|]. destruct (Qlt' a lo) eqn:F; [lra|].
  apply not_true_iff_false in E, F. rewrite Qgt_spec in E. rewrite Qlt'_spec in F. lra.
Qed.
Lemma upper_ge : forall l s, s <= upper l s /\ forall x, In x l -> x <= upper l s.
Proof.
  unfold upper. induction l as [|a l IH]; intros s; cbn [fold_left]; [split; [lra|intros x []]|].
  destruct (Qgt a s) eqn:E; destruct (IH (if Qgt a s then a else s)) as [I1 I2]; rewrite E in I1, I2.
  - apply Qgt_spec in E. split; [lra|]. intros x [<-|Hx]; [exact I1|apply I2, Hx].
  - apply not_true_iff_false in E. rewrite Qgt_spec in E. split; [exact I1|]. intros x [<-|Hx]; [lra|apply I2, Hx].
Qed.
Lemma lower_le : forall l s, lower l s <= s /\ forall x, In x l -> lower l s <= x.
Proof.
  unfold lower. induction l as [|a l IH]; intros s; cbn [fold_left]; [split; [lra|intros x []]|].
  destruct (Qlt' a s) eqn:E; destruct (IH (if Qlt' a s then a else s)) as [I1 I2]; rewrite E in I1, I2.
  - apply Qlt'_spec in E. split; [lra|]. intros x [<-|Hx]; [exact I1|apply I2, Hx].
  - apply not_true_iff_false in E. rewrite Qlt'_spec in E. split; [exact I1|]. intros x [<-|Hx]; [lra|apply I2, Hx].
Qed.
Lemma qtrunc_floor : forall q, 0 <= q -> (qtrunc q = Qfloor q)%Z.
Proof. intros [n d] H. unfold qtrunc, Qfloor. cbn. unfold Qle in H. cbn in H. apply Z.quot_div_nonneg; lia. Qed.

(** The tiling along one axis. *)
Definition pieces_along (lo hi h : Q) : Z := let s := qtrunc ((hi - lo) / h) in if (s =? 0)%Z then 1%Z else s.
Lemma cover : forall lo hi h v, 0 < h -> lo <= v <= hi ->
  exists k, (0 <= k < pieces_along lo hi h)%Z /\ bb_min lo hi h k <= v <= bb_max lo hi h k.
Proof.
  intros lo hi h v Hh [V1 V2]. unfold pieces_along. set (q := (hi - lo) / h). set (w := (v - lo) / h).
  assert (0 <= w) as Pw by (unfold w; apply Qle_shift_div_l; [exact Hh|lra]).
  assert (w <= q) as Wq. { unfold w, q. apply Qle_shift_div_l; [exact Hh|]. setoid_replace ((v - lo) / h * h) with (v - lo) by (field; lra). lra. }
  rewrite qtrunc_floor by lra.
  pose proof (Qfloor_le q) as Q1. pose proof (Qlt_floor q) as Q2. pose proof (Qfloor_le w) as W1. pose proof (Qlt_floor w) as W2.
  rewrite inject_Z_plus in Q2, W2. change (inject_Z 1) with 1 in Q2, W2.
  assert (0 <= Qfloor w)%Z as F0. { change 0%Z with (Qfloor 0). apply Qfloor_resp_le, Pw. }
  assert (Qfloor w <= Qfloor q)%Z as F1 by (apply Qfloor_resp_le, Wq).
  assert (v == lo + w * h) as Ev by (unfold w; field; lra).
  assert (hi == lo + q * h) as Eh by (unfold q; field; lra).
  set (s := if (Qfloor q =? 0)%Z then 1%Z else Qfloor q).
  assert (1 <= s)%Z as S1 by (unfold s; destruct (Z.eqb_spec (Qfloor q) 0); lia).
  assert (Qfloor q <= s)%Z as S2 by (unfold s; destruct (Z.eqb_spec (Qfloor q) 0); lia).
  set (k := Z.min (Qfloor w) (s - 1)). exists k.
  split; [unfold k; lia|]. unfold bb_min, bb_max, center.
  assert (inject_Z k <= inject_Z (Qfloor w)) as K1 by (rewrite <- Zle_Qle; unfold k; lia).
  assert (w <= inject_Z k + 2) as K2.
  { destruct (Z.min_spec (Qfloor w) (s - 1)) as [[_ E]|[_ E]]; fold k in E.
    - rewrite E. lra.
    - assert (inject_Z (Qfloor q) <= inject_Z s) as E2 by (rewrite <- Zle_Qle; exact S2).
      assert (inject_Z k == inject_Z s - 1) as E3. { rewrite E. unfold Z.sub. rewrite inject_Z_plus. change (inject_Z (- (1))) with (- (1)). lra. } lra. }
  rewrite inject_Z_plus. change (inject_Z 1) with 1. split.
  - apply qclamp_mono; [|exact V1]. rewrite Ev. assert (inject_Z k * h <= w * h) by (apply Qmult_le_compat_r; lra). lra.
  - apply qclamp_mono'; [|exact V2]. rewrite Ev. assert (w * h <= (inject_Z k + 2) * h) by (apply Qmult_le_compat_r; lra). lra.
Qed.
(** Every position at least one half width from the ends is in two consecutive pieces. *)
Lemma twice : forall lo hi h v, 0 < h -> lo + h <= v -> v + h <= hi ->
  exists k, (0 <= k)%Z /\ (k + 1 < pieces_along lo hi h)%Z /\ bb_min lo hi h k <= v <= bb_max lo hi h k /\ bb_min lo hi h (k + 1) <= v <= bb_max lo hi h (k + 1).
Proof.
  intros lo hi h v Hh V1 V2. unfold pieces_along. set (q := (hi - lo) / h). set (w := (v - lo) / h).
  assert (1 <= w) as Pw by (unfold w; apply Qle_shift_div_l; [exact Hh|lra]).
  assert (w + 1 <= q) as Wq. { unfold w, q. apply Qle_shift_div_l; [exact Hh|]. setoid_replace (((v - lo) / h + 1) * h) with (v - lo + h) by (field; lra). lra. }
  rewrite qtrunc_floor by lra.
  pose proof (Qfloor_le q) as Q1. pose proof (Qlt_floor q) as Q2. pose proof (Qfloor_le w) as W1. pose proof (Qlt_floor w) as W2.
  rewrite inject_Z_plus in Q2, W2. change (inject_Z 1) with 1 in Q2, W2.
  assert (1 <= Qfloor w)%Z as F0. { change 1%Z with (Qfloor 1). apply Qfloor_resp_le, Pw. }
  assert (Qfloor w + 1 <= Qfloor q)%Z as F1.
  { assert (inject_Z (Qfloor w + 1) < inject_Z (Qfloor q + 1)) as L by (rewrite !inject_Z_plus; change (inject_Z 1) with 1; lra). rewrite <- Zlt_Qlt in L. lia. }
  destruct (Z.eqb_spec (Qfloor q) 0); [lia|].
  assert (v == lo + w * h) as Ev by (unfold w; field; lra).
  exists (Qfloor w - 1)%Z. split; [lia|]. split; [lia|]. unfold bb_min, bb_max, center.
  replace (Qfloor w - 1 + 1)%Z with (Qfloor w) by lia. rewrite !inject_Z_plus. change (inject_Z 1) with 1.
  assert (inject_Z (Qfloor w) * h <= w * h) by (apply Qmult_le_compat_r; lra).
  assert (w * h <= (inject_Z (Qfloor w) + 1) * h) by (apply Qmult_le_compat_r; lra).
  split; (split; [apply qclamp_mono; rewrite ?Ev; lra|apply qclamp_mono'; rewrite ?Ev; lra]).
Qed.

Section Pack.
Variable P : Type.
Variable voxel : list (list (point P) * (Q * Q)) -> list (point P).
Variables offset width : Q.
Variable submaps : list (submap P).
Notation package := (package P voxel offset width submaps).
Notation box_of x y := (piece_box P offset width submaps x y).
Notation inserted x y := (insertions P offset width submaps x y).

Lemma in_zseq : forall n k, (0 <= k < n)%Z -> In k (zseq n).
Proof. intros n k H. unfold zseq. apply in_map_iff. exists (Z.to_nat k). split; [lia|]. apply in_seq. lia. Qed.
Lemma zseq_in : forall n k, In k (zseq n) -> (0 <= k < n)%Z.
Proof. intros n k H. unfold zseq in H. apply in_map_iff in H. destruct H as (j & <- & H). apply in_seq in H. lia. Qed.
Lemma inside_iff : forall p b, inside p b = true <-> b_xmin b <= fst p <= b_xmax b /\ b_ymin b <= snd p <= b_ymax b.
Proof. intros p b. unfold inside. rewrite !andb_true_iff, !Qle_bool_iff. tauto. Qed.

Lemma package_pieces : forall l, package = Ok (Some l) ->
  exists xs ys, l = flat_map (fun x => map (make_piece P voxel offset width submaps x) (zseq ys)) (zseq xs) /\
  xs = pieces_along (min_x P offset submaps) (max_x P offset submaps) (half width) /\ ys = pieces_along (min_y P offset submaps) (max_y P offset submaps) (half width).
Proof.
  intros l H. unfold PackModel.package, steps, to_int in H. destruct (Qeq_bool (half width) 0); [discriminate|].
  set (x := qtrunc ((max_x P offset submaps - min_x P offset submaps) / half width)) in *. set (y := qtrunc ((max_y P offset submaps - min_y P offset submaps) / half width)) in *.
  destruct ((- 2 ^ 31 <=? x) && (x <? 2 ^ 31))%Z; cbn [bind] in H; [|discriminate]. destruct ((- 2 ^ 31 <=? y) && (y <? 2 ^ 31))%Z; cbn [bind] in H; [|discriminate].
  destruct ((x <? 0) || (y <? 0))%Z; [discriminate|]. injection H as <-. eexists _, _. split; [reflexivity|]. split; reflexivity.
Qed.

(** ** C58 *)
(** Every point within the border of its submap's position (in x and y) is handed, with that
    submap, to the voxel map of a piece whose area contains it. *)
Theorem C58_cover : forall l s p, package = Ok (Some l) -> 0 < width -> 0 <= offset ->
  In s submaps -> In p (cloud P s) ->
  fst (position P s) - offset <= fst (xy P p) <= fst (position P s) + offset ->
  snd (position P s) - offset <= snd (xy P p) <= snd (position P s) + offset ->
  exists x y, In (make_piece P voxel offset width submaps x y) l /\ inside (xy P p) (box_of x y) = true /\
  exists c, In (c, position P s) (inserted x y) /\ In p c.
Proof.
  intros l s p Hl Hw Ho Hs Hp Hx Hy.
  assert (0 < half width) as Hh by (unfold half; lra).
  destruct (package_pieces l Hl) as (xs & ys & El & Exs & Eys).
  assert (min_x P offset submaps <= fst (position P s) - offset /\ fst (position P s) + offset <= max_x P offset submaps) as [X1 X2].
  { unfold min_x, max_x. destruct (lower_le (map (fun s => fst (position P s)) submaps) big) as [_ L]. destruct (upper_ge (map (fun s => fst (position P s)) submaps) (- big)) as [_ U].
    specialize (L _ (in_map (fun s => fst (position P s)) _ _ Hs)). specialize (U _ (in_map (fun s => fst (position P s)) _ _ Hs)). cbn beta in L, U. lra. }
  assert (min_y P offset submaps <= snd (position P s) - offset /\ snd (position P s) + offset <= max_y P offset submaps) as [Y1 Y2].
  { unfold min_y, max_y. destruct (lower_le (map (fun s => snd (position P s)) submaps) big) as [_ L]. destruct (upper_ge (map (fun s => snd (position P s)) submaps) (- big)) as [_ U].
    specialize (L _ (in_map (fun s => snd (position P s)) _ _ Hs)). specialize (U _ (in_map (fun s => snd (position P s)) _ _ Hs)). cbn beta in L, U. lra. }
  destruct (cover (min_x P offset submaps) (max_x P offset submaps) (half width) (fst (xy P p)) Hh) as (kx & Kx & Bx); [lra|].
  destruct (cover (min_y P offset submaps) (max_y P offset submaps) (half width) (snd (xy P p)) Hh) as (ky & Ky & By); [lra|].
  exists kx, ky. split.
  { rewrite El. apply in_flat_map. exists kx. split; [apply in_zseq; lia|]. apply in_map, in_zseq. lia. }
  assert (inside (xy P p) (box_of kx ky) = true) as Hin. { apply inside_iff. unfold piece_box. cbn [b_xmin b_xmax b_ymin b_ymax]. split; assumption. }
  split; [exact Hin|].
  assert (In s (inside_submaps P offset width submaps kx ky)) as Hsub.
  { unfold inside_submaps. apply filter_In. split; [exact Hs|]. apply inside_iff. unfold widen, piece_box. cbn [b_xmin b_xmax b_ymin b_ymax]. lra. }
  destruct (inside (position P s) (box_of kx ky)) eqn:E.
  - exists (cloud P s). split; [|exact Hp]. unfold insertions. apply in_flat_map. exists s. split; [exact Hsub|]. rewrite E. left. reflexivity.
  - set (c := filter (fun p => inside (xy P p) (box_of kx ky)) (cloud P s)).
    assert (In p c) as Hc by (apply filter_In; split; [exact Hp|exact Hin]).
    exists c. split; [|exact Hc]. unfold insertions. apply in_flat_map. exists s. split; [exact Hsub|]. rewrite E. fold c. destruct c as [|a c']; [destruct Hc|]. left. reflexivity.
Qed.
Definition same_point (a b : point P) : Prop := fst (xy P a) == fst (xy P b) /\ snd (xy P a) == snd (xy P b) /\ snd a = snd b.
(** Joining the pieces gives, with their original coordinates, exactly the points that the voxel
    map of some piece outputs within the area of the piece. *)
Theorem C58_join : forall l, package = Ok (Some l) ->
  (forall q, In q (join P l) -> exists x y p, In (make_piece P voxel offset width submaps x y) l /\ In p (voxel (inserted x y)) /\ inside (xy P p) (box_of x y) = true /\ same_point q p) /\
  (forall x y p, In (make_piece P voxel offset width submaps x y) l -> In p (voxel (inserted x y)) -> inside (xy P p) (box_of x y) = true -> exists q, In q (join P l) /\ same_point q p).
Proof.
  intros l Hl. destruct (package_pieces l Hl) as (xs & ys & El & _).
  assert (forall c p, same_point (uncentre P c (recentre P c p)) p) as Sp. { intros c [[u v] w]. unfold same_point, uncentre, recentre, xy. cbn. split; [ring|]. split; [ring|reflexivity]. }
  unfold join. split.
  - intros q Hq. apply in_flat_map in Hq. destruct Hq as (pc & Hpc & Hq). pose proof Hpc as Hpc'. rewrite El in Hpc'.
    apply in_flat_map in Hpc'. destruct Hpc' as (x & _ & Hpc'). apply in_map_iff in Hpc'. destruct Hpc' as (y & <- & _).
    apply in_map_iff in Hq. destruct Hq as (r & <- & Hr). cbn [make_piece p_cloud p_center] in Hr |- *. apply in_map_iff in Hr. destruct Hr as (p & <- & Hp).
    apply filter_In in Hp. destruct Hp as [H1 H2]. exists x, y, p. split; [exact Hpc|]. split; [exact H1|]. split; [exact H2|]. apply Sp.
  - intros x y p Hpc Hp Hin. eexists. split.
    + apply in_flat_map. eexists. split; [exact Hpc|]. cbn [make_piece p_cloud p_center]. apply in_map, in_map, filter_In. split; [exact Hp|exact Hin].
    + apply Sp.
Qed.
(** Adjacent pieces overlap by half: a position at least half a piece width away from the border
    of the package lies in four pieces. *)
Theorem C58_overlap : forall l v, package = Ok (Some l) -> 0 < width ->
  min_x P offset submaps + half width <= fst v -> fst v + half width <= max_x P offset submaps ->
  min_y P offset submaps + half width <= snd v -> snd v + half width <= max_y P offset submaps ->
  exists x y, forall dx dy, (0 <= dx <= 1)%Z -> (0 <= dy <= 1)%Z ->
    In (make_piece P voxel offset width submaps (x + dx) (y + dy)) l /\ inside v (box_of (x + dx) (y + dy)) = true.
Proof.
  intros l v Hl Hw X1 X2 Y1 Y2. assert (0 < half width) as Hh by (unfold half; lra).
  destruct (package_pieces l Hl) as (xs & ys & El & Exs & Eys).
  destruct (twice _ _ _ _ Hh X1 X2) as (x & A1 & A2 & A3 & A4). destruct (twice _ _ _ _ Hh Y1 Y2) as (y & B1 & B2 & B3 & B4).
  exists x, y. intros dx dy Dx Dy. split.
  - rewrite El. apply in_flat_map. exists (x + dx)%Z. split; [apply in_zseq; lia|]. apply in_map, in_zseq. lia.
  - apply inside_iff. unfold piece_box. cbn [b_xmin b_xmax b_ymin b_ymax].
    assert (dx = 0 \/ dx = 1)%Z as [-> | ->] by lia; assert (dy = 0 \/ dy = 1)%Z as [-> | ->] by lia; rewrite ?Z.add_0_r; split; assumption.
Qed.
(** Points of the map outside the package bounds are in no piece. *)
Theorem C58_outside_lost : forall l q, package = Ok (Some l) -> min_x P offset submaps <= max_x P offset submaps -> min_y P offset submaps <= max_y P offset submaps ->
  In q (join P l) -> min_x P offset submaps <= fst (xy P q) <= max_x P offset submaps /\ min_y P offset submaps <= snd (xy P q) <= max_y P offset submaps.
Proof.
  intros l q Hl Bx By Hq. destruct (C58_join l Hl) as [J _]. destruct (J q Hq) as (x & y & p & _ & _ & Hin & E1 & E2 & _). apply inside_iff in Hin. unfold piece_box in Hin. cbn [b_xmin b_xmax b_ymin b_ymax] in Hin.
  unfold bb_min, bb_max in Hin. rewrite E1, E2.
  pose proof (qclamp_in (center (min_x P offset submaps) (half width) x - half width) _ _ Bx) as C1.
  pose proof (qclamp_in (center (min_x P offset submaps) (half width) x + half width) _ _ Bx) as C2.
  pose proof (qclamp_in (center (min_y P offset submaps) (half width) y - half width) _ _ By) as C3.
  pose proof (qclamp_in (center (min_y P offset submaps) (half width) y + half width) _ _ By) as C4. lra.
Qed.
(** The piece files have different names. *)
Theorem C58_files : forall prefix x y x' y', piece_file prefix x y = piece_file prefix x' y' -> x = x' /\ y = y'.
Proof.
  intros prefix x y x' y' H. unfold piece_file in H. apply app_cancel_l in H.
  change (to_string x ++ String "_"%char (to_string y ++ ".pcd") = to_string x' ++ String "_"%char (to_string y' ++ ".pcd"))%string in H.
  assert (("_" = "_" \/ "_" = "," \/ "_" = ")" \/ "_" = ".")%char) as Sep by auto.
  assert (("." = "_" \/ "." = "," \/ "." = ")" \/ "." = ".")%char) as Dot by auto.
  pose proof (split_unique "_"%char Sep _ _ _ _ (clean_to_string x) (clean_to_string x') H) as [E1 E2]. apply to_string_inj in E1.
  change (to_string y ++ String "."%char "pcd" = to_string y' ++ String "."%char "pcd")%string in E2.
  pose proof (split_unique "."%char Dot _ _ _ _ (clean_to_string y) (clean_to_string y') E2) as [E3 _]. apply to_string_inj in E3. auto.
Qed.

(** ** C86 *)
(** A piece width of zero is undefined behaviour; so is a package without any submap unless pieces
    are absurdly wide: the test for a bad bounding box comes after the conversion to int. *)
Theorem C86_zero_width : width == 0 -> package = UB.
Proof.
  intros H. unfold PackModel.package, steps. replace (Qeq_bool (half width) 0) with true; [reflexivity|]. symmetry. apply Qeq_bool_iff. unfold half. rewrite H. reflexivity.
Qed.
End Pack.
Theorem C86_no_submaps : forall P voxel offset width, 0 <= offset -> offset <= inject_Z (10 ^ 40) -> 0 < width -> width <= inject_Z (10 ^ 40) ->
  package P voxel offset width [] = UB.
Proof.
  intros P voxel offset width O0 O1 W0 W1. unfold package, steps.
  assert (0 < half width) as Hh by (unfold half; lra). assert (half width <= inject_Z (10 ^ 40)) as Hh' by (unfold half; lra).
  destruct (Qeq_bool (half width) 0) eqn:E; [apply Qeq_bool_iff in E; lra|].
  set (q := (max_x P offset [] - min_x P offset []) / half width).
  assert (q < inject_Z (- 2 ^ 31 - 1)) as Small.
  { unfold q. apply Qlt_shift_div_r; [exact Hh|]. unfold max_x, min_x. cbn [map upper lower fold_left].
    assert (inject_Z (2 ^ 31 + 1) * half width <= inject_Z (2 ^ 31 + 1) * inject_Z (10 ^ 40)) as M. { rewrite !(Qmult_comm (inject_Z (2 ^ 31 + 1))). apply Qmult_le_compat_r; [exact Hh'|discriminate]. }
    rewrite <- inject_Z_mult in M.
    assert (inject_Z (- 2 ^ 31 - 1) == - inject_Z (2 ^ 31 + 1)) as N by reflexivity. rewrite N.
    assert (inject_Z ((2 ^ 31 + 1) * 10 ^ 40) + 2 * inject_Z (10 ^ 40) < 2 * big) as B by reflexivity. change (-(1) * big) with (- big). lra. }
  unfold to_int. replace (- 2 ^ 31 <=? qtrunc q)%Z with false; [reflexivity|]. symmetry. apply Z.leb_gt.
  destruct q as [n d]. unfold qtrunc. cbn [Qnum Qden]. unfold Qlt in Small. cbn [Qnum Qden inject_Z] in Small.
  pose proof (Z.quot_rem' n (Zpos d)) as R. assert (n <= 0)%Z as Hn by nia. pose proof (Z.rem_opp_l (- n) (Zpos d) ltac:(lia)) as R3. rewrite Z.opp_involutive in R3. pose proof (Z.rem_bound_pos (- n) (Zpos d) ltac:(lia) ltac:(lia)) as R2. change (2 ^ 31)%Z with 2147483648%Z in *. nia.
Qed.

(** Two submaps, pieces of width 4, border 1: the package spans [-1, 9] x [-1, 1]. *)
Definition ex_submaps : list (submap unit) := [mkSubmap unit (0, 0) [(0, 1, tt); (7, 0, tt)]; mkSubmap unit (8, 0) [(8 # 1, 1 # 2, tt)]].
Definition ex_voxel (l : list (list (point unit) * (Q * Q))) : list (point unit) := flat_map fst l.
Example C58_example : exists l, package unit ex_voxel 1 4 ex_submaps = Ok (Some l) /\ List.length l = 5%nat /\ List.length (join unit l) = 3%nat.
Proof. eexists. split; [vm_compute; reflexivity|]. vm_compute. auto. Qed.
(** The point (7,0) lies 7 m from its submap: it is within the package but in no piece, because
    its submap is only considered for pieces within the border of its position. *)
Theorem C58_all_points_kept_refuted : exists l s p, package unit ex_voxel 1 4 ex_submaps = Ok (Some l) /\ In s ex_submaps /\ In p (cloud unit s) /\
  (min_x unit 1 ex_submaps <= fst (xy unit p) <= max_x unit 1 ex_submaps /\ min_y unit 1 ex_submaps <= snd (xy unit p) <= max_y unit 1 ex_submaps) /\
  forall q, In q (join unit l) -> ~ same_point unit q p.
Proof.
  exists (match package unit ex_voxel 1 4 ex_submaps with Ok (Some l) => l | _ => [] end), (mkSubmap unit (0, 0) [(0, 1, tt); (7, 0, tt)]), (7, 0, tt). split; [vm_compute; reflexivity|]. split; [left; reflexivity|]. split; [right; left; reflexivity|]. split.
  - vm_compute. repeat split; discriminate.
  - intros q Hq (E & _). vm_compute in Hq.
    repeat (destruct Hq as [Hq|Hq]; [subst q; vm_compute in E; discriminate|]). destruct Hq.
Qed.

Print Assumptions C58_cover.
Print Assumptions C58_join.
Print Assumptions C58_overlap.
Print Assumptions C58_outside_lost.
Print Assumptions C58_files.
Print Assumptions C58_all_points_kept_refuted.
Print Assumptions C86_zero_width.
Print Assumptions C86_no_submaps.
