(** Proofs about the map file model. *)
From Coq Require Import ZArith List Bool String Ascii SpecFloat Lia DecimalString DecimalZ Decimal.
From Verif Require Import Outcome IdsModel FilesModel ConfigModel MapFileModel.
Import ListNotations.
Local Open Scope string_scope.
Local Open Scope list_scope.

(** ** Numbers *)
Fixpoint uval (d : uint) (acc : Z) : Z :=
  match d with
  | Nil => acc
  | D0 l => uval l (10 * acc) | D1 l => uval l (10 * acc + 1) | D2 l => uval l (10 * acc + 2)
  | D3 l => uval l (10 * acc + 3) | D4 l => uval l (10 * acc + 4) | D5 l => uval l (10 * acc + 5)
  | D6 l => uval l (10 * acc + 6) | D7 l => uval l (10 * acc + 7) | D8 l => uval l (10 * acc + 8)
  | D9 l => uval l (10 * acc + 9)
  end%Z.
Lemma uval_acc : forall d p, Z.pos (Pos.of_uint_acc d p) = uval d (Z.pos p).
Proof. induction d; intros p; cbn [Pos.of_uint_acc uval]; auto; rewrite IHd; f_equal; lia. Qed.
Lemma uval_of : forall d, Z.of_uint d = uval d 0.
Proof.
  unfold Z.of_uint. induction d; cbn [Pos.of_uint uval]; auto;
    cbn [Z.of_N]; rewrite uval_acc; f_equal.
Qed.

(** Does not start with a digit. *)
Definition stops (s : string) : Prop := match s with EmptyString => True | String c _ => digit c = None end.
Lemma digits_stop : forall s acc, stops s -> digits acc s = acc.
Proof. destruct s; cbn; intros; auto. rewrite H. auto. Qed.
Lemma digits_uint : forall d acc s, stops s -> digits acc (NilEmpty.string_of_uint d ++ s) = uval d acc.
Proof.
  induction d; intros acc s H; cbn [NilEmpty.string_of_uint append uval];
    [apply digits_stop; auto|..]; cbn [digits];
    match goal with |- context [digit ?c] => let r := eval compute in (digit c) in change (digit c) with r end;
    cbv iota; rewrite IHd; auto; f_equal; lia.
Qed.
Lemma number_digit : forall c s, digit c <> None -> number (String c s) = digits 0 (String c s).
Proof.
  intros c s H. cbn [number]. unfold digit in H.
  assert (48 <= nat_of_ascii c <= 57) as R.
  { destruct (Nat.leb_spec 48 (nat_of_ascii c)), (Nat.leb_spec (nat_of_ascii c) 57); cbn in H; try congruence; lia. }
  assert (is_space c = false) as ->.
  { unfold is_space. destruct (Nat.eqb_spec (nat_of_ascii c) 32); [lia|].
    destruct (Nat.leb_spec 9 (nat_of_ascii c)), (Nat.leb_spec (nat_of_ascii c) 13); cbn; auto; lia. }
  destruct (Ascii.eqb_spec c "-") as [->|]; [cbn in R; lia|].
  destruct (Ascii.eqb_spec c "+") as [->|]; [cbn in R; lia|]. auto.
Qed.
Lemma number_uint : forall d s, stops s -> number (NilZero.string_of_uint d ++ s) = uval d 0.
Proof.
  intros d s H. unfold NilZero.string_of_uint.
  assert (forall e, e = d -> d <> Nil -> number (NilEmpty.string_of_uint d ++ s) = uval d 0) as K.
  { intros _ _ N. rewrite <- (digits_uint d 0 s H).
    destruct d; try congruence; cbn [NilEmpty.string_of_uint append]; apply number_digit; cbv; discriminate. }
  destruct d; try (apply (K _ eq_refl); discriminate).
  cbn [append uval]. rewrite number_digit by (cbv; discriminate). cbn [digits].
  change (digit "0") with (Some 0%Z). cbv iota. apply digits_stop; auto.
Qed.
Lemma number_to_string : forall z s, stops s -> number (to_string z ++ s) = z.
Proof.
  intros z s H. rewrite <- (DecimalZ.of_to z) at 2. unfold to_string, NilZero.string_of_int.
  destruct (Z.to_int z) as [d|d]; cbn [Z.of_int].
  - rewrite number_uint, uval_of; auto.
  - cbn [append number]. change (is_space "-") with false. change (Ascii.eqb "-" "-") with true. cbv iota.
    rewrite uval_of. f_equal. unfold NilZero.string_of_uint.
    pose proof (digits_uint d 0 s H) as K.
    destruct d; exact K.
Qed.

(** ** Strings of digits *)
Fixpoint plain (s : string) : Prop :=
  match s with
  | EmptyString => True
  | String c r => (c <> "]" /\ c <> "[" /\ c <> ",")%char /\ plain r
  end.
Lemma plain_uint : forall d, plain (NilEmpty.string_of_uint d).
Proof. induction d; cbn; auto; split; auto; repeat split; discriminate. Qed.
Lemma plain_to_string : forall z, plain (to_string z).
Proof.
  intros z. unfold to_string, NilZero.string_of_int, NilZero.string_of_uint.
  assert (forall d, plain (match d with Nil => "0" | _ => NilEmpty.string_of_uint d end)) as H.
  { intros d. pose proof (plain_uint d). destruct d; auto. cbn. repeat split; discriminate. }
  destruct (Z.to_int z); [apply H|]. cbn. split; [repeat split; discriminate|apply H].
Qed.
Lemma app_nil_s : forall a : string, (a ++ "")%string = a.
Proof. induction a; cbn; auto. rewrite IHa; auto. Qed.
Lemma app_assoc_str : forall a b c : string, ((a ++ b) ++ c = a ++ (b ++ c))%string.
Proof. induction a; cbn; intros; auto. rewrite IHa; auto. Qed.

(** No closing bracket. *)
Fixpoint open_ (s : string) : Prop :=
  match s with EmptyString => True | String c r => c <> "]"%char /\ open_ r end.
Lemma open_app : forall a b, open_ a -> open_ b -> open_ (a ++ b)%string.
Proof. induction a; cbn; intuition. Qed.
Lemma plain_open : forall s, plain s -> open_ s.
Proof. induction s; cbn; intuition. Qed.
Lemma split_from_spec : forall a cur r, open_ a ->
  split_from "]" cur (a ++ String "]" r) = (cur ++ a)%string :: split_from "]" "" r.
Proof.
  induction a; intros cur r H; cbn [append split_from].
  - rewrite Ascii.eqb_refl, app_nil_s. auto.
  - destruct H as [N H]. destruct (Ascii.eqb_spec a "]"); [contradiction|].
    rewrite IHa by auto. rewrite app_assoc_str. auto.
Qed.
Lemma find_plain_comma : forall a r, plain a ->
  find_char "," (a ++ String "," r) = Some (String.length a).
Proof.
  induction a; intros r H; cbn [append find_char String.length]; auto.
  destruct H as [[_ [_ N]] H]. destruct (Ascii.eqb_spec a ","); [contradiction|]. rewrite IHa; auto.
Qed.
Lemma take_app : forall a r, take (String.length a) (a ++ r) = a.
Proof. induction a; cbn; intros; auto. rewrite IHa; auto. Qed.
Lemma drop_app : forall a r, drop (String.length a) (a ++ r) = r.
Proof. induction a; cbn; intros; auto. Qed.
Lemma drop_app1 : forall a c r, drop (S (String.length a)) (a ++ String c r) = r.
Proof. induction a; intros; [reflexivity|]. cbn [String.length append]. cbn [drop]. apply IHa. Qed.

Lemma drop_S : forall i c r, drop (S (S i)) (String c r) = drop (S i) r.
Proof. reflexivity. Qed.
Lemma drop_1 : forall c r, drop 1 (String c r) = r.
Proof. intros. destruct r; reflexivity. Qed.

Definition int32 (z : Z) : Prop := (- 2 ^ 31 <= z < 2 ^ 31)%Z.
Definition id_ok (i : submap_id) : Prop := int32 (s_traj i) /\ int32 (s_index i).
Lemma atoi_to_string : forall z, int32 z -> atoi (to_string z) = Ok z.
Proof.
  intros z H. unfold atoi. rewrite <- (app_nil_s (to_string z)), number_to_string by exact I.
  unfold int32 in H. destruct (Z.leb_spec (- 2 ^ 31) z), (Z.ltb_spec z (2 ^ 31)); cbn; auto; lia.
Qed.
Lemma read_token_spec : forall i, id_ok i ->
  read_token ("[" ++ to_string (s_traj i) ++ "," ++ to_string (s_index i)) = Ok i.
Proof.
  intros [t u] [T U]. cbn [s_traj s_index] in *. unfold read_token.
  change ("[" ++ to_string t ++ "," ++ to_string u)%string with (String "[" (to_string t ++ String "," (to_string u))).
  cbn [find_char]. rewrite Ascii.eqb_refl. change (Ascii.eqb "[" ",") with false. cbv iota.
  rewrite find_plain_comma by apply plain_to_string. cbn [option_map].
  change (Nat.leb 1 (S (String.length (to_string t)))) with true. cbn [check bind].
  rewrite drop_S, drop_1. replace (S (String.length (to_string t)) - 1) with (String.length (to_string t)) by lia.
  rewrite take_app, atoi_to_string by auto. cbn [bind].
  rewrite (drop_app1 (to_string t) "," (to_string u)). rewrite atoi_to_string by auto. auto.
Qed.
Lemma connections_round_trip : forall l, Forall id_ok l -> read_connections (write_connections l) = Ok l.
Proof.
  unfold read_connections, split_at. induction 1 as [|i l H _ IH]; auto.
  cbn [write_connections].
  replace ("[" ++ to_string (s_traj i) ++ "," ++ to_string (s_index i) ++ "]" ++ write_connections l)%string
    with (("[" ++ to_string (s_traj i) ++ "," ++ to_string (s_index i)) ++ String "]" (write_connections l))%string
    by (rewrite !app_assoc_str; auto).
  rewrite split_from_spec.
  - cbn [read_tokens]. cbn [append]. 
    pose proof (read_token_spec i H) as K. cbn [append] in K. rewrite K. cbn [bind]. rewrite IH. auto.
  - repeat (apply open_app; [cbn; repeat split; try discriminate; auto using plain_open, plain_to_string|]).
    auto using plain_open, plain_to_string.
Qed.

(** ** The map file *)
Lemma add_zero : forall x, x <> S754_zero true -> add x zero = x.
Proof. intros [[|]| | |] H; try congruence; reflexivity. Qed.

Section Load.
Variable show : double -> string.
Variable read_double : string -> double.
Variable int_of : string -> Z.
Variable exists_ : string -> bool.

(** The numbers of a submap survive as text. *)
Definition pose_ok (p : pose6) : Prop :=
  tx p <> S754_zero true /\ ty p <> S754_zero true /\
  Forall (fun x => read_double (show x) = x) [tx p; ty p; tz p; rx p; ry p; rz p].
Definition sub_ok (s : sub) : Prop :=
  pose_ok (u_pose s) /\ int_of (to_string (s_index (u_id s))) = s_index (u_id s) /\ Forall id_ok (u_connected s).

Definition loaded (disk : bool) (index : Z) (s : sub) : sub :=
  mkSubmap (mkSid index (s_index (u_id s))) disk (saved_name s) (u_pose s) (u_connected s).
Lemma read_submap_spec : forall disk path index s, sub_ok s ->
  read_submap read_double int_of exists_ disk path index zero zero (submap_node show s) =
  if exists_ (path ++ saved_name s)%string && exists_ path then Ok (loaded disk index s) else Abort.
Proof.
  intros disk path index s [[X [Y F]] [I C]].
  unfold read_submap, attr_double, attr_string, attr_int, submap_node, attr. cbn [n_attrs find_name].
  repeat (cbn [String.eqb Ascii.eqb Bool.eqb find_name]).
  rewrite connections_round_trip by auto. cbn [bind].
  destruct (exists_ (path ++ saved_name s)%string); cbn [check bind andb]; auto.
  destruct (exists_ path); cbn [check bind]; auto.
  unfold loaded. rewrite I. inversion F as [|? ? F1 G1]; inversion G1 as [|? ? F2 G2]; inversion G2 as [|? ? F3 G3];
    inversion G3 as [|? ? F4 G4]; inversion G4 as [|? ? F5 G5]; inversion G5 as [|? ? F6 G6]; subst.
  rewrite F1, F2, F3, F4, F5, F6, !add_zero by auto. destruct (u_pose s). auto.
Qed.
Definition files_ok (path : string) (l : list sub) : bool :=
  forallb (fun s => exists_ (path ++ saved_name s)%string && exists_ path) l.
Lemma read_submaps_spec : forall disk path index l, Forall sub_ok l ->
  read_submaps read_double int_of exists_ disk path index zero zero (map (submap_node show) l) =
  if files_ok path l then Ok (map (loaded disk index) l) else Abort.
Proof.
  induction 1 as [|s l H _ IH]; [reflexivity|]. cbn [map read_submaps files_ok forallb].
  rewrite read_submap_spec by auto.
  destruct (exists_ (path ++ saved_name s)%string && exists_ path); cbn [bind andb]; auto.
  rewrite IH. unfold files_ok. destruct (forallb _ l); auto.
Qed.
Lemma children_map : forall A (f : A -> node) s l nm at_ tx_,
  (forall a, n_name (f a) = s) -> children (Node nm at_ tx_ (map f l)) s = map f l.
Proof.
  intros. unfold children. cbn [n_kids]. induction l; cbn [map List.filter]; auto.
  rewrite H, String.eqb_refl, IHl. auto.
Qed.
Fixpoint loaded_all (disk : bool) (k : nat) (ts : list traj) : list traj :=
  match ts with
  | [] => []
  | t :: r => mkTraj (Z.of_nat k) zero zero (map (loaded disk (Z.of_nat k)) (t_submaps t)) :: loaded_all disk (S k) r
  end.
Lemma read_trajs_spec : forall disk update path ts old, Forall (fun t => Forall sub_ok (t_submaps t)) ts ->
  read_trajs read_double int_of exists_ disk update path old (zero, zero) (map (traj_node show) ts) =
  if forallb (fun t => files_ok path (t_submaps t)) ts
  then Ok (old ++ loaded_all disk (List.length old) ts, (zero, zero)) else Abort.
Proof.
  intros disk update path ts. induction ts as [|t ts IH]; intros old H.
  - cbn. rewrite app_nil_r. auto.
  - inversion H as [|? ? A B]; subst. cbn [map read_trajs forallb].
    assert (forall s, s = "utm_x" \/ s = "utm_y" -> attr_double read_double (traj_node show t) s = zero) as Z.
    { intros s [->| ->]; reflexivity. }
    rewrite !Z by auto.
    replace (if (Z.of_nat (List.length old) =? 0)%Z && update then (zero, zero) else (zero, zero)) with (zero, zero)
      by (destruct ((Z.of_nat (List.length old) =? 0)%Z && update); auto).
    change (sub_ zero (fst (zero, zero))) with zero. change (sub_ zero (snd (zero, zero))) with zero.
    unfold traj_node at 1. rewrite children_map by reflexivity.
    rewrite read_submaps_spec by auto. destruct (files_ok path (t_submaps t)); cbn [bind andb]; auto.
    rewrite IH by auto. rewrite app_length, Nat.add_comm. cbn [List.length Nat.add].
    destruct (forallb _ ts); auto. rewrite <- app_assoc. auto.
Qed.
Lemma load_map_spec : forall disk update file ts old, Forall (fun t => Forall sub_ok (t_submaps t)) ts ->
  load_map read_double int_of exists_ disk update file old (zero, zero) (Some (write_map show ts)) =
  if forallb (fun t => files_ok (file_path file) (t_submaps t)) ts
  then Ok (Some (old ++ loaded_all disk (List.length old) ts, (zero, zero))) else Abort.
Proof.
  intros. unfold load_map, write_map. cbn [List.filter n_name]. rewrite String.eqb_refl. cbn [hd_error].
  rewrite children_map by reflexivity. rewrite read_trajs_spec by auto.
  destruct (forallb _ ts); auto.
Qed.
End Load.
(** ** Files with utm_x and utm_y *)
Section Utm.
Variable show : double -> string.
Variable read_double : string -> double.
Variable int_of : string -> Z.
Variable exists_ : string -> bool.
Definition utm_node (t : traj) : node :=
  Node "Trajectory" [("id", to_string (t_id t)); ("utm_x", show (t_x t)); ("utm_y", show (t_y t))] ""
       (map (submap_node show) (t_submaps t)).
Definition num_ok (x : double) : Prop := read_double (show x) = x.
Definition sub_num_ok (s : sub) : Prop :=
  Forall num_ok [tx (u_pose s); ty (u_pose s); tz (u_pose s); rx (u_pose s); ry (u_pose s); rz (u_pose s)] /\
  int_of (to_string (s_index (u_id s))) = s_index (u_id s) /\ Forall id_ok (u_connected s).
Definition shift (dx dy : double) (p : pose6) : pose6 :=
  mkPose (add (tx p) dx) (add (ty p) dy) (tz p) (rx p) (ry p) (rz p).
Definition loaded_at (disk : bool) (index : Z) (dx dy : double) (s : sub) : sub :=
  mkSubmap (mkSid index (s_index (u_id s))) disk (saved_name s) (shift dx dy (u_pose s)) (u_connected s).
Lemma read_submap_at : forall disk path index dx dy s, sub_num_ok s ->
  exists_ (path ++ saved_name s)%string = true -> exists_ path = true ->
  read_submap read_double int_of exists_ disk path index dx dy (submap_node show s) = Ok (loaded_at disk index dx dy s).
Proof.
  intros disk path index dx dy s [F [I C]] E1 E2.
  unfold read_submap, attr_double, attr_string, attr_int, submap_node, attr. cbn [n_attrs find_name].
  repeat (cbn [String.eqb Ascii.eqb Bool.eqb find_name]).
  rewrite connections_round_trip by auto. cbn [bind]. rewrite E1, E2. cbn [check bind].
  unfold loaded_at, shift. rewrite I. unfold num_ok in F.
  inversion F as [|? ? F1 G1]; inversion G1 as [|? ? F2 G2]; inversion G2 as [|? ? F3 G3];
    inversion G3 as [|? ? F4 G4]; inversion G4 as [|? ? F5 G5]; inversion G5 as [|? ? F6 G6]; subst.
  rewrite F1, F2, F3, F4, F5, F6. auto.
Qed.
Definition traj_ok (path : string) (t : traj) : Prop :=
  num_ok (t_x t) /\ num_ok (t_y t) /\
  Forall (fun s => sub_num_ok s /\ exists_ (path ++ saved_name s)%string = true /\ exists_ path = true) (t_submaps t).
Lemma read_submaps_at : forall disk path index dx dy l,
  Forall (fun s => sub_num_ok s /\ exists_ (path ++ saved_name s)%string = true /\ exists_ path = true) l ->
  read_submaps read_double int_of exists_ disk path index dx dy (map (submap_node show) l) =
  Ok (map (loaded_at disk index dx dy) l).
Proof.
  induction 1 as [|s l [A [B C]] _ IH]; auto. cbn [map read_submaps]. rewrite read_submap_at by auto.
  cbn [bind]. rewrite IH. auto.
Qed.
Fixpoint loaded_utm (disk : bool) (k : nat) (bx by_ : double) (ts : list traj) : list traj :=
  match ts with
  | [] => []
  | t :: r => mkTraj (Z.of_nat k) zero zero
                (map (loaded_at disk (Z.of_nat k) (sub_ (t_x t) bx) (sub_ (t_y t) by_)) (t_submaps t))
              :: loaded_utm disk (S k) bx by_ r
  end.
Lemma read_utm : forall disk update path ts old bx by_, old <> [] \/ update = false -> Forall (traj_ok path) ts ->
  read_trajs read_double int_of exists_ disk update path old (bx, by_) (map utm_node ts) =
  Ok (old ++ loaded_utm disk (List.length old) bx by_ ts, (bx, by_)).
Proof.
  intros disk update path ts. induction ts as [|t ts IH]; intros old bx by_ N H.
  - cbn. rewrite app_nil_r. auto.
  - inversion H as [|? ? A B]; subst. destruct A as [X [Y A]]. cbn [map read_trajs].
    replace (if (Z.of_nat (List.length old) =? 0)%Z && update then _ else _) with (bx, by_).
    2: { destruct N as [N| ->]; [|rewrite andb_false_r; auto]. destruct old; [congruence|].
         destruct (Z.eqb_spec (Z.of_nat (List.length (t0 :: old))) 0); [cbn in *; lia|]. auto. }
    cbn [fst snd]. change (attr_double read_double (utm_node t) "utm_x") with (read_double (show (t_x t))).
    change (attr_double read_double (utm_node t) "utm_y") with (read_double (show (t_y t))). rewrite X, Y.
    unfold utm_node at 1. rewrite children_map by reflexivity.
    rewrite read_submaps_at by auto. cbn [bind].
    rewrite IH; auto; [|left; destruct old; discriminate].
    rewrite app_length, Nat.add_comm. cbn [List.length Nat.add]. rewrite <- app_assoc. auto.
Qed.
Lemma read_utm_first : forall disk path t ts base, Forall (traj_ok path) (t :: ts) ->
  read_trajs read_double int_of exists_ disk true path [] base (map utm_node (t :: ts)) =
  Ok (loaded_utm disk 0 (t_x t) (t_y t) (t :: ts), (t_x t, t_y t)).
Proof.
  intros disk path t ts base H. inversion H as [|? ? A B]; subst. destruct A as [X [Y A]]. cbn [map read_trajs].
  cbn [List.length Z.of_nat Z.eqb andb fst snd].
  change (attr_double read_double (utm_node t) "utm_x") with (read_double (show (t_x t))).
  change (attr_double read_double (utm_node t) "utm_y") with (read_double (show (t_y t))). rewrite X, Y.
  unfold utm_node at 1. rewrite children_map by reflexivity.
  rewrite read_submaps_at by auto. cbn [bind]. rewrite read_utm; auto. left. discriminate.
Qed.
End Utm.
Lemma loaded_utm_nth : forall disk bx by_ ts k j t, nth_error ts j = Some t ->
  nth_error (loaded_utm disk k bx by_ ts) j =
  Some (mkTraj (Z.of_nat (k + j)) zero zero
          (map (loaded_at disk (Z.of_nat (k + j)) (sub_ (t_x t) bx) (sub_ (t_y t) by_)) (t_submaps t))).
Proof.
  induction ts; intros k j t H; [destruct j; discriminate|]. destruct j; cbn in *.
  - inversion H; subst. rewrite Nat.add_0_r. auto.
  - replace (k + S j) with (S k + j) by lia. apply IHts; auto.
Qed.
Lemma loaded_all_nth : forall disk ts k j t, nth_error ts j = Some t ->
  nth_error (loaded_all disk k ts) j =
  Some (mkTraj (Z.of_nat (k + j)) zero zero (map (loaded disk (Z.of_nat (k + j))) (t_submaps t))).
Proof.
  induction ts; intros k j t H; [destruct j; discriminate|]. destruct j; cbn in *.
  - inversion H; subst. rewrite Nat.add_0_r. auto.
  - replace (k + S j) with (S k + j) by lia. apply IHts; auto.
Qed.
Lemma loaded_all_length : forall disk ts k, List.length (loaded_all disk k ts) = List.length ts.
Proof. induction ts; cbn; intros; auto. Qed.

(** ** Malformed connections *)
Lemma find_none : forall c s, find_char c s = None <-> ~ (exists a r, s = a ++ String c r)%string.
Proof.
  induction s as [|d s IH]; cbn [find_char]; split; intros H.
  - intros [a [r K]]. destruct a; discriminate.
  - auto.
  - destruct (Ascii.eqb_spec d c); [discriminate|]. intros [[|e a] [r K]]; cbn in K; inversion K; subst; [congruence|].
    destruct (find_char c (a ++ String c r)) eqn:F; [discriminate|]. apply (proj1 IH eq_refl); eauto.
  - destruct (Ascii.eqb_spec d c) as [->|]; [exfalso; apply H; exists "", s; auto|].
    assert (find_char c s = None) as ->; auto. apply IH. intros [a [r ->]]. apply H. exists (String d a), r. auto.
Qed.
Fixpoint without (c : ascii) (s : string) : Prop :=
  match s with EmptyString => True | String d r => d <> c /\ without c r end.
Lemma find_some : forall c s i, find_char c s = Some i <->
  (exists a r, s = (a ++ String c r)%string /\ without c a /\ String.length a = i).
Proof.
  induction s as [|d s IH]; intros i; cbn [find_char]; split; intros H.
  - discriminate.
  - destruct H as [[|e a] [r [K _]]]; discriminate.
  - destruct (Ascii.eqb_spec d c) as [->|N].
    + inversion H; subst. exists "", s. cbn. auto.
    + destruct (find_char c s) as [j|] eqn:F; inversion H; subst.
      destruct (proj1 (IH j) eq_refl) as [a [r [-> [W L]]]]. exists (String d a), r. cbn. auto.
  - destruct H as [[|e a] [r [K [W L]]]]; cbn in *; inversion K; subst.
    + rewrite Ascii.eqb_refl. auto.
    + destruct W as [W1 W2]. destruct (Ascii.eqb_spec e c); [contradiction|].
      replace (find_char c (a ++ String c r)) with (Some (String.length a)); auto.
      symmetry. apply IH. eauto.
Qed.
Lemma atoi_no_abort : forall s, atoi s <> Abort.
Proof. intros s. unfold atoi. destruct (_ && _)%bool; discriminate. Qed.
Lemma read_token_abort : forall s, read_token s = Abort <->
  exists i c, find_char "[" s = Some i /\ find_char "," s = Some c /\ c <= i.
Proof.
  intros s. unfold read_token.
  assert (forall (x y : outcome Z), x <> Abort -> y <> Abort ->
    (let* t := x in let* u := y in Ok (mkSid t u))%outcome <> Abort) as K.
  { intros [] [] A B; cbn; congruence. }
  split.
  - destruct (find_char "," s) as [c|] eqn:C.
    + destruct (find_char "[" s) as [i|] eqn:F; cbn [bind check].
      * destruct (Nat.leb_spec (S i) c) as [L|L]; cbn [bind check]; [intros H; exfalso; revert H; apply K; apply atoi_no_abort|].
        intros _. exists i, c. repeat split; auto. lia.
      * intros H; exfalso; revert H; apply K; apply atoi_no_abort.
    + cbn [bind check]. intros H; exfalso; revert H; apply K; apply atoi_no_abort.
  - intros [i [c [F [C L]]]]. rewrite F, C. destruct (Nat.leb_spec (S i) c); [lia|]. auto.
Qed.
