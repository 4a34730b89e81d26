(** Lemmas about the joining of maps. *)
From Coq Require Import List Bool ZArith Lia FinFun.
From Verif Require Import Outcome JoinModel JoinSpec.
Import ListNotations.
Local Open Scope outcome_scope.
Local Open Scope Z_scope.

(** ** Keys *)
Definition ok_id (p : Z * Z) : Prop := 0 <= fst p < 2 ^ 24 /\ 0 <= snd p < 2 ^ 32.
Lemma key_ok : forall p, ok_id p -> key p = fst p * 2 ^ 32 + snd p /\ 0 <= key p < 2 ^ 56.
Proof.
  intros [t i] [T I]. unfold key. cbn [fst snd] in *.
  rewrite (Z.mod_small t), (Z.mod_small i) by lia. rewrite Z.mod_small by lia. lia.
Qed.
Lemma key_inj : forall p q, ok_id p -> ok_id q -> key p = key q -> p = q.
Proof.
  intros p q Hp Hq E. destruct (key_ok p Hp) as [Ep _], (key_ok q Hq) as [Eq _].
  destruct p as [t i], q as [u j], Hp, Hq. cbn [fst snd] in *. f_equal; lia.
Qed.
Lemma sym_ok : forall p, ok_id p -> sym (key p) = Ok (key p).
Proof. intros p H. destruct (key_ok p H). unfold sym. destruct (Z.ltb_spec (key p) (2 ^ 56)); [reflexivity|lia]. Qed.
Lemma key_first : forall p, ok_id p -> (key p mod 2 ^ 32 =? 0) = (snd p =? 0).
Proof.
  intros p H. destruct (key_ok p H) as [-> _]. destruct p as [t i], H. cbn [fst snd] in *.
  rewrite Z.add_comm, Z.mod_add, Z.mod_small by lia. reflexivity.
Qed.

(** ** Lists *)
Lemma update_nth : forall X (l : list X) a f b, nth_error (update l a f) b = if (b =? a)%nat then option_map f (nth_error l b) else nth_error l b.
Proof. induction l as [|x l IH]; intros [|a] f [|b]; cbn; try reflexivity. - destruct (b =? a)%nat; reflexivity. - apply IH. Qed.
Lemma update_length : forall X (l : list X) a f, length (update l a f) = length l.
Proof. induction l as [|x l IH]; intros [|a] f; cbn; auto. Qed.
Lemma update_map : forall X Y (g : X -> Y) (l : list X) a f, (forall x, g (f x) = g x) -> map g (update l a f) = map g l.
Proof. induction l as [|x l IH]; intros [|a] f H; cbn; auto; [rewrite H; auto|rewrite IH; auto]. Qed.
Lemma existsb_in : forall k l, In k l -> existsb (Z.eqb k) l = true.
Proof. intros k l H. apply existsb_exists. exists k. split; [exact H|apply Z.eqb_refl]. Qed.
Lemma existsb_out : forall k l, ~ In k l -> existsb (Z.eqb k) l = false.
Proof.
  intros k l H. destruct (existsb _ _) eqn:E; [|reflexivity]. apply existsb_exists in E as (x & I & E). apply Z.eqb_eq in E. subst. contradiction.
Qed.
Lemma firstn_S : forall X (l : list X) k x, nth_error l k = Some x -> firstn (S k) l = firstn k l ++ [x].
Proof.
  induction l as [|y l IH]; intros [|k] x H; cbn in *; try discriminate; [injection H as ->; reflexivity|]. f_equal. apply IH, H.
Qed.
Lemma seq_snoc : forall n a, seq a (S n) = seq a n ++ [(a + n)%nat].
Proof. intros. replace (S n) with (n + 1)%nat by lia. rewrite seq_app. reflexivity. Qed.
Lemma nth_len : forall X (l : list X) a x, nth_error l a = Some x -> (a < length l)%nat.
Proof. intros. apply nth_error_Some. congruence. Qed.
Lemma nth_ex : forall X (l : list X) a, (a < length l)%nat -> exists x, nth_error l a = Some x.
Proof. intros X l a H. destruct (nth_error l a) eqn:E; [eauto|]. apply nth_error_None in E. lia. Qed.
Lemma in_firstn : forall X (l : list X) k a x, (a < k)%nat -> nth_error l a = Some x -> In x (firstn k l).
Proof.
  intros X l k a x H E. apply nth_error_In with a. rewrite <- (firstn_skipn k l) in E. rewrite nth_error_app1 in E; [exact E|].
  rewrite firstn_length. apply nth_len in E. rewrite firstn_skipn in E. lia.
Qed.
Lemma at_of_nat : forall X (l : list X) n, at_ l (Z.of_nat n) = nth_error l n.
Proof. intros. unfold at_. destruct (Z.ltb_spec (Z.of_nat n) 0); [lia|]. rewrite Nat2Z.id. reflexivity. Qed.

Lemma F2_length : forall X Y (R : X -> Y -> Prop) a b, Forall2 R a b -> length a = length b.
Proof. intros X Y R a b H. induction H; cbn; auto. Qed.

(** ** The numbering *)
Definition count (t : Z) (l : list (Z * Z)) : nat := length (filter (fun p => fst p =? t) l).
Lemma count_app : forall t a b, count t (a ++ b) = (count t a + count t b)%nat.
Proof. intros. unfold count. rewrite filter_app, app_length. reflexivity. Qed.
Definition good (I : list (Z * Z)) : Prop := (forall p, In p I -> ok_id p) /\ NoDup I /\
  forall a t i, nth_error I a = Some (t, i) -> Z.of_nat (count t (firstn a I)) = i.

Section P.
Variable P : Type.
Variable rel : P -> P -> P.
Notation package := (JoinModel.package P).
Notation raw := (JoinModel.raw P).
Notation factor := (JoinModel.factor P).
Notation sub := (JoinModel.sub P).
Notation st := (JoinModel.st P).
Variable detect : list sub -> list nat -> option (Z * Z) -> nat -> list (nat * P).
Variable solve : list factor -> list (Z * P) -> Z -> P.
Notation mem := (JoinModel.mem P).
Notation base := (JoinModel.base P).
Notation inc := (JoinModel.inc P).
Notation opt := (JoinModel.opt P).
Notation frames := (JoinModel.frames P).
Notation win := (JoinModel.win P).
Notation given := (JoinModel.given P).
Notation pend := (JoinModel.pend P).
Notation vals := (JoinModel.vals P).
Notation s_id := (JoinModel.s_id P).
Notation s_pose := (JoinModel.s_pose P).
Notation s_conn := (JoinModel.s_conn P).
Notation flat := (JoinSpec.flat P).
Notation is_edge := (JoinSpec.is_edge P).

(** *** Flat files *)
Lemma flat_app : forall a b t, flat t (a ++ b) = flat t a ++ flat (t + Z.of_nat (length a)) b.
Proof.
  induction a as [|tr a IH]; intros b t; cbn [app JoinSpec.flat length]; [rewrite Z.add_0_r; reflexivity|].
  rewrite IH, app_assoc. do 2 f_equal. lia.
Qed.
Lemma flat_shift : forall pk t off, flat (t + off) pk = map (fun x => (fst x + off, snd x)) (flat t pk).
Proof.
  induction pk as [|tr pk IH]; intros t off; [reflexivity|]. cbn [JoinSpec.flat]. rewrite map_app, map_map, <- IH.
  cbn [fst snd]. do 2 f_equal. lia.
Qed.
Definition idt (x : Z * raw) : Z * Z := (fst x, fst (fst (snd x))).
Definition numbered (pk : package) : Prop := forall t tr, nth_error pk t = Some tr -> forall i r, nth_error tr i = Some r -> fst (fst r) = Z.of_nat i.
Lemma numbered_tail : forall tr pk, numbered (tr :: pk) -> (forall i r, nth_error tr i = Some r -> fst (fst r) = Z.of_nat i) /\ numbered pk.
Proof. intros tr pk H. split; [exact (H 0%nat tr eq_refl)|intros t tr' E; exact (H (S t) tr' E)]. Qed.
Lemma numbered_app : forall a b, numbered a -> numbered b -> numbered (a ++ b).
Proof.
  intros a b A B t tr E. destruct (Nat.ltb_spec t (length a)).
  - rewrite nth_error_app1 in E by auto. apply (A _ _ E).
  - rewrite nth_error_app2 in E by auto. apply (B _ _ E).
Qed.
Lemma flat_lower : forall pk t x, In x (flat t pk) -> t <= fst x < t + Z.of_nat (length pk).
Proof.
  induction pk as [|tr pk IH]; intros t x H; [destruct H|]. cbn [JoinSpec.flat length] in *. apply in_app_or in H as [H|H].
  - apply in_map_iff in H as (r & <- & _). cbn [fst]. lia.
  - apply IH in H. lia.
Qed.
Lemma map_seq_numbered : forall (tr : list raw) k, (forall i r, nth_error tr i = Some r -> fst (fst r) = Z.of_nat (k + i)) ->
  map (fun r => fst (fst r)) tr = map Z.of_nat (seq k (length tr)).
Proof.
  induction tr as [|r tr IH]; intros k H; [reflexivity|]. cbn [map length seq]. f_equal.
  - rewrite (H 0%nat r eq_refl). f_equal. lia.
  - apply IH. intros i r' E. rewrite (H (S i) r' E). f_equal. lia.
Qed.
Lemma count_none : forall t l, (forall p, In p l -> fst p <> t) -> count t l = 0%nat.
Proof.
  intros t l H. unfold count. induction l as [|p l IH]; [reflexivity|]. cbn [filter].
  destruct (Z.eqb_spec (fst p) t); [exfalso; apply (H p); cbn; auto|]. apply IH. intros q Q. apply H. cbn. auto.
Qed.
Lemma count_all : forall t l, (forall p, In p l -> fst p = t) -> count t l = length l.
Proof.
  intros t l H. unfold count. induction l as [|p l IH]; [reflexivity|]. cbn [filter].
  destruct (Z.eqb_spec (fst p) t) as [E|E]; [|exfalso; apply E, H; cbn; auto]. cbn [length]. f_equal. apply IH. intros q Q. apply H. cbn. auto.
Qed.
Lemma firstn_in : forall X (l : list X) k x, In x (firstn k l) -> In x l.
Proof. intros X l k x H. rewrite <- (firstn_skipn k l). apply in_or_app. auto. Qed.
Lemma idt_head : forall t (tr : list raw), map idt (map (pair t) tr) = map (pair t) (map (fun r => fst (fst r)) tr).
Proof. intros. rewrite !map_map. reflexivity. Qed.
Lemma flat_good : forall pk t, 0 <= t -> numbered pk -> t + Z.of_nat (length pk) <= 2 ^ 24 ->
  (forall tr, In tr pk -> Z.of_nat (length tr) <= 2 ^ 32) -> good (map idt (flat t pk)).
Proof.
  induction pk as [|tr pk IH]; intros t T N L F.
  - split; [intros p []|]. split; [constructor|]. intros [|a] u i E; discriminate E.
  - destruct (numbered_tail _ _ N) as [N1 N2]. cbn [length] in L. specialize (IH (t + 1) ltac:(lia) N2 ltac:(lia) (fun x H => F x (or_intror H))).
    destruct IH as (O & D & C). cbn [JoinSpec.flat]. rewrite map_app, idt_head, (map_seq_numbered tr 0 N1).
    assert (Lo : forall p, In p (map idt (flat (t + 1) pk)) -> t + 1 <= fst p).
    { intros p H. apply in_map_iff in H as (x & <- & H). apply flat_lower in H. cbn [idt fst]. lia. }
    assert (Hd : forall p, In p (map (pair t) (map Z.of_nat (seq 0 (length tr)))) -> fst p = t /\ 0 <= snd p < Z.of_nat (length tr)).
    { intros p H. apply in_map_iff in H as (z & <- & H). apply in_map_iff in H as (i & <- & H). apply in_seq in H. cbn [fst snd]. lia. }
    specialize (F tr (or_introl eq_refl)). split; [|split].
    + intros p H. apply in_app_or in H as [H|H]; [|apply O, H]. apply Hd in H. split; lia.
    + assert (NoDup (map (pair t) (map Z.of_nat (seq 0 (length tr))))).
      { rewrite map_map. apply Injective_map_NoDup; [|apply seq_NoDup]. intros x y E. injection E as E. lia. }
      clear - H D Lo Hd. induction (map (pair t) (map Z.of_nat (seq 0 (length tr)))) as [|p l IH]; [exact D|]. inversion_clear H.
      cbn [app]. constructor.
      * intros X. apply in_app_or in X as [X|X]; [contradiction|]. apply Lo in X. pose proof (Hd p (or_introl eq_refl)). lia.
      * apply IH; auto. intros q Q. apply Hd. cbn. auto.
    + intros a u i E. set (hd := map (pair t) (map Z.of_nat (seq 0 (length tr)))) in *. rewrite firstn_app, count_app.
      assert (Lh : length hd = length tr) by (unfold hd; rewrite !map_length, seq_length; reflexivity).
      destruct (Nat.ltb_spec a (length tr)) as [A|A].
      * rewrite nth_error_app1 in E by lia. unfold hd in E. rewrite map_map in E.
        rewrite nth_error_map, (nth_error_nth' _ 0%nat) in E by (rewrite seq_length; lia). rewrite seq_nth in E by lia.
        cbn [option_map] in E. injection E as <- <-. replace (a - length hd)%nat with 0%nat by lia.
        cbn [firstn]. rewrite count_all; [|intros p Q; apply firstn_in in Q; apply Hd in Q; tauto].
        rewrite firstn_length. cbn. lia.
      * rewrite nth_error_app2 in E by lia. rewrite (firstn_all2 hd) by lia.
        rewrite (count_none u hd).
        -- apply C in E. rewrite Lh in *. exact E.
        -- intros p Q X. apply Hd in Q. apply nth_error_In in E. apply Lo in E. cbn [fst] in E. lia.
Qed.

(** *** Loading *)
Definition rd (x : Z * raw) : sub := read_sub P (fst x) (snd x).
Lemma load_mem : forall pk t m, fst (load P t pk m) = m ++ map rd (flat t pk).
Proof.
  induction pk as [|tr pk IH]; intros t m; cbn [load JoinSpec.flat]; [rewrite app_nil_r; reflexivity|].
  specialize (IH (t + 1) (m ++ map (read_sub P t) tr)). destruct (load P (t + 1) pk _) as [m' ts]. cbn [fst] in *.
  rewrite IH, map_app, map_map, <- app_assoc. reflexivity.
Qed.
(** The layout depends on the length only. *)
Fixpoint layout (t : Z) (n : nat) (pk : package) : list (Z * list nat) :=
  match pk with [] => [] | tr :: r => (t, seq n (length tr)) :: layout (t + 1) (n + length tr) r end.
Lemma load_layout : forall pk t m, snd (load P t pk m) = layout t (length m) pk.
Proof.
  induction pk as [|tr pk IH]; intros t m; [reflexivity|]. cbn [load layout].
  specialize (IH (t + 1) (m ++ map (read_sub P t) tr)). destruct (load P (t + 1) pk _) as [m' ts]. cbn [snd] in *.
  rewrite IH, app_length, map_length. reflexivity.
Qed.
Lemma layout_concat : forall pk t n, concat (map snd (layout t n pk)) = seq n (length (flat t pk)).
Proof.
  induction pk as [|tr pk IH]; intros t n; [reflexivity|]. cbn [layout map concat snd JoinSpec.flat].
  rewrite IH, app_length, map_length, seq_app. reflexivity.
Qed.
Lemma flat_length : forall pk t u, length (flat t pk) = length (flat u pk).
Proof. induction pk as [|tr pk IH]; intros t u; [reflexivity|]. cbn [JoinSpec.flat]. rewrite !app_length, !map_length, (IH (t + 1) (u + 1)). reflexivity. Qed.
Lemma layout_length : forall pk t n, length (layout t n pk) = length pk.
Proof. induction pk as [|tr pk IH]; intros; cbn; auto. Qed.
Lemma layout_app : forall a b t n, layout t n (a ++ b) = layout t n a ++ layout (t + Z.of_nat (length a)) (n + length (flat t a)) b.
Proof.
  induction a as [|tr a IH]; intros b t n; cbn [app layout length JoinSpec.flat]; [rewrite Z.add_0_r, Nat.add_0_r; reflexivity|].
  rewrite IH, app_length, map_length, Nat.add_assoc. do 2 f_equal. f_equal. lia.
Qed.
Lemma layout_shift : forall pk t n off, map (fun x => (fst x + off, snd x)) (layout t n pk) = layout (t + off) n pk.
Proof. induction pk as [|tr pk IH]; intros t n off; [reflexivity|]. cbn [layout map fst snd]. rewrite IH. do 2 f_equal. lia. Qed.
Lemma layout_nth : forall pk t n k tr, nth_error pk k = Some tr -> exists b, nth_error (layout t n pk) k = Some (t + Z.of_nat k, seq b (length tr)) /\
  (n <= b)%nat /\ forall i r, nth_error tr i = Some r -> nth_error (flat t pk) (b + i - n) = Some (t + Z.of_nat k, r).
Proof.
  induction pk as [|tr0 pk IH]; intros t n [|k] tr E; try discriminate E.
  - injection E as ->. exists n. cbn [layout nth_error JoinSpec.flat]. split; [do 2 f_equal; lia|]. split; [lia|].
    intros i r R. replace (n + i - n)%nat with i by lia. rewrite nth_error_app1 by (rewrite map_length; apply (nth_len _ _ _ _ R)).
    rewrite nth_error_map, R. cbn. do 2 f_equal. lia.
  - cbn [nth_error] in E. destruct (IH (t + 1) (n + length tr0)%nat k tr E) as (b & B & L & F). exists b. cbn [layout nth_error JoinSpec.flat].
    split; [rewrite B; do 2 f_equal; lia|]. split; [lia|]. intros i r R. specialize (F i r R).
    rewrite nth_error_app2 by (rewrite map_length; lia). rewrite map_length.
    replace (b + i - n - length tr0)%nat with (b + i - (n + length tr0))%nat by lia. rewrite F. do 2 f_equal. lia.
Qed.
Lemma find_ok : forall pk t n c, exists_in P pk c -> exists b r, find (layout t n pk) c = Ok b /\ (n <= b)%nat /\
  raw_at P pk c = Some r /\ nth_error (flat t pk) (b - n) = Some (t + fst c, r).
Proof.
  intros pk t n c (k & i & tr & -> & E & L). destruct (layout_nth pk t n k tr E) as (b & B & N & F).
  destruct (nth_ex _ tr i L) as [r R]. exists (b + i)%nat, r. unfold find, raw_at. cbn [fst snd].
  rewrite !at_of_nat, B, E. cbn iota beta. rewrite !at_of_nat, R. rewrite (nth_error_nth' _ 0%nat) by (rewrite seq_length; lia). rewrite seq_nth by lia.
  split; [reflexivity|]. split; [lia|]. split; [reflexivity|]. apply F, R.
Qed.

(** ** Single calls *)
Record J (s : st) (I : list (Z * Z)) (k : nat) : Prop := mkJ {
  J_frames : frames s = seq 0 k;
  J_vals : map fst (vals s) = map key (firstn k I);
  J_opt : forall a t i, (a < k)%nat -> nth_error I a = Some (t, i) -> nth_error (opt s t) (Z.to_nat i) = Some a;
  J_len : forall t, length (opt s t) = count t (firstn k I) }.
Definition prior (q : Z * Z) (p : P) : list factor := if snd q =? 0 then [Prior P (key q) p] else [].
Lemma key_new : forall I k q, good I -> nth_error I k = Some q -> ~ In (key q) (map key (firstn k I)).
Proof.
  intros I k q (O & D & _) E H. apply in_map_iff in H as (p & K & H).
  assert (Hq : In q I) by (apply nth_error_In in E; exact E).
  assert (p = q) by (apply key_inj; auto; apply O; auto; apply firstn_in in H; exact H). subst p.
  assert (X : I = firstn k I ++ q :: skipn (S k) I).
  { clear - E. revert k E. induction I as [|y I IH]; intros [|k] E; try discriminate E; cbn in *; [congruence|]. f_equal. apply IH, E. }
  rewrite X in D. apply NoDup_remove_2 in D. apply D. apply in_or_app. auto.
Qed.
Lemma add_vertex_ok : forall s I k q p, good I -> nth_error I k = Some q -> map fst (vals s) = map key (firstn k I) ->
  add_vertex P (key q) p s = Ok (mkSt P (mem s) (base s) (inc s) (opt s) (frames s) (win s) (given s ++ pend s ++ prior q p) (pend s ++ prior q p) (vals s ++ [(key q, p)])).
Proof.
  intros s I k q p G E V. pose proof (key_new I k q G E) as N. destruct G as (O & _).
  assert (K : ok_id q) by (apply O; apply nth_error_In in E; exact E).
  unfold add_vertex. rewrite (sym_ok q K). cbn [bind]. rewrite V, (existsb_out _ _ N), (key_first q K). unfold prior.
  destruct (snd q =? 0); rewrite ?app_nil_r; reflexivity.
Qed.
(** The state after some more edges. *)
Definition absorb (s : st) (fs : list factor) : st :=
  match fs with [] => s | _ => mkSt P (mem s) (base s) (inc s) (opt s) (frames s) (win s) (given s ++ pend s ++ fs) [] (vals s) end.
Lemma absorb_app : forall s a b, absorb (absorb s a) b = absorb s (a ++ b).
Proof.
  intros s [|x a] [|y b]; try reflexivity; [rewrite app_nil_r; reflexivity|]. unfold absorb. cbn [app JoinModel.given JoinModel.pend JoinModel.mem
    JoinModel.base JoinModel.inc JoinModel.opt JoinModel.frames JoinModel.win JoinModel.vals]. f_equal. rewrite <- !app_assoc. reflexivity.
Qed.
Lemma absorb_fields : forall s fs, mem (absorb s fs) = mem s /\ base (absorb s fs) = base s /\ inc (absorb s fs) = inc s /\
  opt (absorb s fs) = opt s /\ frames (absorb s fs) = frames s /\ win (absorb s fs) = win s /\ vals (absorb s fs) = vals s.
Proof. intros s [|f fs]; cbn; auto 10. Qed.
Lemma J_absorb : forall s I k fs, J s I k -> J (absorb s fs) I k.
Proof. intros s I k fs [A B C D]. destruct (absorb_fields s fs) as (_ & _ & _ & O & F & _ & V). split; rewrite ?O, ?F, ?V; auto. Qed.
Lemma J_mem : forall s I k m, J s I k -> J (set_mem P s m) I k.
Proof. intros s I k m [A B C D]. split; auto. Qed.
Lemma known : forall (s : st) I k a q, map fst (vals s) = map key (firstn k I) -> (a < k)%nat -> nth_error I a = Some q ->
  existsb (Z.eqb (key q)) (map fst (vals s)) = true.
Proof. intros s I k a q V L E. apply existsb_in. rewrite V. apply in_map, (in_firstn _ _ _ _ _ L E). Qed.
Lemma conn_ok : forall s I k a b p q t, good I -> J s I k -> (a < k)%nat -> (b < k)%nat -> nth_error I a = Some p -> nth_error I b = Some q ->
  add_conn P p q t false s = Ok (absorb s [Between P (key p) (key q) t false]).
Proof.
  intros s I k a b p q t (O & _) Hj La Lb Ea Eb. unfold add_conn. cbn [bind].
  rewrite (sym_ok p), (sym_ok q) by (apply O; eapply nth_error_In; eauto). cbn [bind].
  rewrite (known s I k a p), (known s I k b q) by (auto; apply Hj). reflexivity.
Qed.
Lemma loop_conn_ok : forall s I k a b p q t y, good I -> J s I k -> (a < k)%nat -> (b < k)%nat -> nth_error I a = Some p -> nth_error I b = Some q ->
  nth_error (mem s) a = Some y -> s_id y = p ->
  add_conn P p q t true s = Ok (absorb (set_mem P s (update (mem s) a (fun x => set_conn P (s_conn x ++ [q]) x))) [Between P (key p) (key q) t true]).
Proof.
  intros s I k a b p q t y (O & _) Hj La Lb Ea Eb M Y. unfold add_conn.
  assert (0 <= snd p) by (destruct (O p) as [_ ?]; [eapply nth_error_In; eauto|lia]).
  assert (at_ (opt s (fst p)) (snd p) = Some a) as ->.
  { unfold at_. destruct (Z.ltb_spec (snd p) 0); [lia|]. apply (J_opt _ _ _ Hj); auto. rewrite Ea. destruct p; reflexivity. }
  unfold get. rewrite M. cbn [bind]. rewrite Y. unfold id_eqb. rewrite !Z.eqb_refl. cbn [andb check bind].
  rewrite (sym_ok p), (sym_ok q) by (apply O; eapply nth_error_In; eauto). cbn [bind].
  change (vals (set_mem P s _)) with (vals s).
  rewrite (known s I k a p), (known s I k b q) by (auto; apply Hj). reflexivity.
Qed.

(** ** Closed loops *)
Definition ext (N : Z * Z -> Prop) (y y' : sub) : Prop :=
  s_id y' = s_id y /\ s_pose y' = s_pose y /\ exists e, s_conn y' = s_conn y ++ e /\ Forall N e.
Lemma ext_refl : forall N l, Forall2 (ext N) l l.
Proof. intros N l. induction l; constructor; auto. repeat split. exists []. rewrite app_nil_r. auto. Qed.
Lemma ext_trans : forall N a b c, Forall2 (ext N) a b -> Forall2 (ext N) b c -> Forall2 (ext N) a c.
Proof.
  intros N a b c H. revert c. induction H as [|x y a b X H IH]; intros c K; inversion_clear K; constructor; auto.
  destruct X as (X1 & X2 & e & X3 & X4), H0 as (Y1 & Y2 & f & Y3 & Y4). repeat split; try congruence.
  exists (e ++ f). rewrite Y3, X3, app_assoc. split; [reflexivity|]. apply Forall_app. auto.
Qed.
Lemma ext_ids : forall N a b, Forall2 (ext N) a b -> map s_id b = map s_id a /\ map s_pose b = map s_pose a.
Proof. intros N a b H. induction H as [|x y a b (X1 & X2 & _) H [I1 I2]]; [auto|]. cbn [map]. rewrite X1, X2, I1, I2. auto. Qed.
Lemma ext_update : forall (N : Z * Z -> Prop) l a q, N q -> Forall2 (ext N) l (update l a (fun x => set_conn P (s_conn x ++ [q]) x)).
Proof.
  intros N l a q Q. revert a. induction l as [|x l IH]; intros [|a]; cbn [update]; constructor; auto using ext_refl.
  - repeat split. exists [q]. auto.
  - repeat split. exists []. rewrite app_nil_r. auto.
Qed.
Lemma update_app : forall X (l r : list X) a f, (a < length l)%nat -> update (l ++ r) a f = update l a f ++ r.
Proof. induction l as [|x l IH]; intros r [|a] f H; cbn in *; try lia; [reflexivity|]. rewrite IH by lia. reflexivity. Qed.
(** A factor of a closed loop leads from the base map without its last submap to a later map. *)
Definition loop_ok (I : list (Z * Z)) (nb : nat) (f : factor) : Prop :=
  is_loop P f = true -> exists p q t, f = Between P (key p) (key q) t true /\ In p (firstn (nb - 1) I) /\ In q (skipn nb I).
Definition same (s s' : st) : Prop := base s' = base s /\ inc s' = inc s /\ win s' = win s /\ vals s' = vals s.
Definition more (I : list (Z * Z)) (nb : nat) (s s' : st) : Prop :=
  filter is_edge (given s') = filter is_edge (given s) /\
  (Forall (loop_ok I nb) (given s) -> Forall (loop_ok I nb) (given s')).
Definition quiet (s : st) : Prop := Forall (fun f => is_edge f = false /\ is_loop P f = false) (pend s).
Lemma quiet_edges : forall l, Forall (fun f => is_edge f = false /\ is_loop P f = false) l -> filter is_edge l = [] /\ forall I nb, Forall (loop_ok I nb) l.
Proof.
  induction l as [|f l IH]; intros H; [split; [reflexivity|constructor]|]. inversion_clear H. destruct H0 as [A B], (IH H1) as [C D]. cbn [filter]. rewrite A.
  split; [exact C|]. intros I nb. constructor; [intros X; congruence|apply D].
Qed.
Lemma skipn_in : forall X (l : list X) n a x, (n <= a)%nat -> nth_error l a = Some x -> In x (skipn n l).
Proof.
  intros X l n a x L E. apply nth_error_In with (a - n)%nat. rewrite <- (firstn_skipn n l) in E.
  rewrite nth_error_app2 in E by (rewrite firstn_length; lia). rewrite firstn_length in E. apply nth_len in E as L'.
  assert (n <= length l)%nat. { rewrite skipn_length in L'. lia. }
  rewrite Nat.min_l in E by lia. exact E.
Qed.
Lemma closes_ok : forall es I a nb q x B A s, good I -> J s I (S a) -> quiet s -> nth_error I a = Some q -> s_id x = q -> (nb <= a)%nat ->
  mem s = A ++ B -> length A = nb -> map s_id A = firstn nb I ->
  (forall b p, (b < nb)%nat -> nth_error I b = Some p -> fst p <> fst q) -> (forall e, In e es -> (fst e < nb - 1)%nat) ->
  exists s' A', run (close P x) s es = Ok s' /\ J s' I (S a) /\ quiet s' /\ mem s' = A' ++ B /\
    Forall2 (ext (fun c => In c (skipn nb I))) A A' /\ same s s' /\ more I nb s s'.
Proof.
  induction es as [|e es IH]; intros I a nb q x B A s G Hj Hq Eq X L M LA IA D W.
  - exists s, A. split; [reflexivity|]. split; [exact Hj|]. split; [exact Hq|]. split; [exact M|]. split; [apply ext_refl|]. split; [repeat split|split; auto].
  - assert (We : (fst e < nb - 1)%nat) by (apply W; cbn; auto).
    destruct (nth_ex _ A (fst e) ltac:(lia)) as [y Y].
    assert (Ep : nth_error I (fst e) = Some (s_id y)).
    { assert (Z : nth_error (map s_id A) (fst e) = Some (s_id y)) by (rewrite nth_error_map, Y; reflexivity).
      rewrite IA in Z. rewrite <- (firstn_skipn nb I), nth_error_app1; [exact Z|apply (nth_len _ _ _ _ Z)]. }
    assert (My : nth_error (mem s) (fst e) = Some y) by (rewrite M, nth_error_app1 by lia; exact Y).
    assert (C : close P x s e = Ok (absorb (set_mem P s (update (mem s) (fst e) (fun z => set_conn P (s_conn z ++ [q]) z))) [Between P (key (s_id y)) (key q) (snd e) true])).
    { unfold close. rewrite (J_frames _ _ _ Hj). unfold get at 1. rewrite (nth_error_nth' _ 0%nat) by (rewrite seq_length; lia). rewrite seq_nth by lia. cbn [bind Nat.add].
      unfold get at 1. rewrite My. cbn [bind]. rewrite X. destruct (Z.eqb_spec (fst (s_id y)) (fst q)) as [Z|Z]; [exfalso; revert Z; apply (D (fst e)); auto; lia|].
      cbn [negb check bind]. apply (loop_conn_ok s I (S a) (fst e) a _ _ _ y); auto; lia. }
    cbn [run]. rewrite C. cbn [bind]. set (s1 := absorb _ _).
    assert (Nq : In q (skipn nb I)) by (apply (skipn_in _ _ _ a); auto).
    destruct (IH I a nb q x B (update A (fst e) (fun z => set_conn P (s_conn z ++ [q]) z)) s1) as (s' & A' & R & Hj' & Hq' & M' & E' & S' & [O1 O2]); auto.
    + apply J_absorb, J_mem, Hj.
    + constructor.
    + unfold s1. cbn [absorb JoinModel.mem set_mem]. rewrite M. apply update_app. lia.
    + rewrite update_length. exact LA.
    + rewrite update_map by reflexivity. exact IA.
    + intros e' H. apply W. cbn. auto.
    + exists s', A'. split; [exact R|]. split; [exact Hj'|]. split; [exact Hq'|]. split; [exact M'|]. split.
      { eapply ext_trans; [|exact E']. apply ext_update. exact Nq. }
      split; [exact S'|]. destruct (quiet_edges (pend s) Hq) as [Q1 Q2]. split.
      * rewrite O1. unfold s1. cbn [absorb JoinModel.given set_mem JoinModel.pend]. rewrite !filter_app, Q1. cbn. rewrite app_nil_r. reflexivity.
      * intros F. apply O2. unfold s1. cbn [absorb JoinModel.given set_mem JoinModel.pend]. apply Forall_app. split; [exact F|]. apply Forall_app. split; [apply Q2|].
        constructor; [|constructor]. intros _. exists (s_id y), q, (snd e). split; [reflexivity|]. split; [|exact Nq].
        apply (in_firstn _ _ _ (fst e)); auto.
Qed.

(** ** Adding submaps *)
Lemma J_push : forall s I a q (s' : st), good I -> J s I a -> nth_error I a = Some q ->
  frames s' = frames s ++ [a] -> map fst (vals s') = map fst (vals s) ++ [key q] ->
  (forall u, opt s' u = if u =? fst q then opt s (fst q) ++ [a] else opt s u) -> J s' I (S a).
Proof.
  intros s I a q s' (O & _ & C) [F V Op Ln] E F' V' O'. pose proof (firstn_S _ _ _ _ E) as Fs. split.
  - rewrite F', F, seq_snoc. reflexivity.
  - rewrite V', V, Fs, map_app. reflexivity.
  - intros b t i L Eb. rewrite O'. destruct (Nat.eq_dec b a) as [->|N].
    + rewrite E in Eb. injection Eb as Eb. subst q. cbn [fst]. rewrite Z.eqb_refl. pose proof (C _ _ _ E) as Ci.
      rewrite nth_error_app2; rewrite (Ln t); [|lia]. replace (Z.to_nat i - count t (firstn a I))%nat with 0%nat by lia. reflexivity.
    + assert (X : nth_error (opt s t) (Z.to_nat i) = Some b) by (apply Op; auto; lia).
      destruct (Z.eqb_spec t (fst q)) as [<-|]; [|exact X]. rewrite nth_error_app1; [exact X|apply (nth_len _ _ _ _ X)].
  - intros t. rewrite O', Fs, count_app. unfold count at 2. cbn [filter]. rewrite Z.eqb_sym.
    destruct (Z.eqb_spec (fst q) t) as [<-|]; [rewrite app_length, Ln; reflexivity|]. rewrite Ln. cbn. lia.
Qed.
Lemma prior_quiet : forall q p, Forall (fun f => is_edge f = false /\ is_loop P f = false) (prior q p).
Proof. intros q p. unfold prior. destruct (snd q =? 0); repeat constructor. Qed.
(** In the base map. *)
Lemma add_base : forall s I a x, good I -> J s I a -> nth_error (mem s) a = Some x -> nth_error I a = Some (s_id x) ->
  exists s', add_submap P detect false s a = Ok s' /\ J s' I (S a) /\ mem s' = mem s /\ base s' = base s /\ inc s' = inc s /\ win s' = win s /\
    given s' = given s ++ pend s ++ prior (s_id x) (s_pose x) /\ pend s' = pend s ++ prior (s_id x) (s_pose x) /\ vals s' = vals s ++ [(key (s_id x), s_pose x)].
Proof.
  intros s I a x G Hj M E. unfold add_submap, get. rewrite M. cbn [bind].
  rewrite (add_vertex_ok _ I a) by (auto; apply Hj). cbn [bind run]. eexists. split; [reflexivity|]. split.
  - apply (J_push s I a (s_id x)); auto; cbn [JoinModel.vals]; rewrite map_app; reflexivity.
  - repeat split.
Qed.
(** In an incremental map. *)
Lemma add_incremental : forall s I a nb x q A B, in_window P detect -> good I -> J s I a -> quiet s -> nth_error (mem s) a = Some x -> s_id x = q -> nth_error I a = Some q ->
  (nb <= a)%nat -> mem s = A ++ B -> length A = nb -> map s_id A = firstn nb I -> win s = Some (0, Z.of_nat nb - 1) ->
  (forall b p, (b < nb)%nat -> nth_error I b = Some p -> fst p <> fst q) ->
  exists s' A', add_submap P detect true s a = Ok s' /\ J s' I (S a) /\ quiet s' /\ mem s' = A' ++ B /\
    Forall2 (ext (fun c => In c (skipn nb I))) A A' /\ base s' = base s /\ inc s' = inc s /\ win s' = win s /\ vals s' = vals s ++ [(key q, s_pose x)] /\ more I nb s s'.
Proof.
  intros s I a nb x q A B Hw G Hj Hq M X E L MA LA IA Wn D. unfold add_submap, get. rewrite M. cbn [bind]. rewrite X.
  rewrite (add_vertex_ok _ I a) by (auto; apply Hj). cbn [bind JoinModel.mem JoinModel.base JoinModel.inc JoinModel.opt JoinModel.frames JoinModel.win JoinModel.given JoinModel.pend JoinModel.vals].
  set (s1 := mkSt P _ _ _ _ _ _ _ _ _).
  destruct (quiet_edges (pend s ++ prior q (s_pose x))) as [Q1 Q2]; [apply Forall_app; split; [exact Hq|apply prior_quiet]|].
  destruct (closes_ok (detect (mem s) (frames s) (win s) a) I a nb q x B A s1) as (s' & A' & R & Hj' & Hq' & M' & E' & (S1 & S2 & S3 & S4) & [O1 O2]); auto.
  - apply (J_push s I a q); auto; unfold s1; cbn [JoinModel.vals]; rewrite map_app; reflexivity.
  - unfold quiet, s1. cbn [JoinModel.pend]. apply Forall_app; split; [exact Hq|apply prior_quiet].
  - intros e H. rewrite Wn in H. apply Hw in H. lia.
  - exists s', A'. rewrite R. split; [reflexivity|]. split; [exact Hj'|]. split; [exact Hq'|]. split; [exact M'|]. split; [exact E'|].
    rewrite S1, S2, S3, S4. do 4 (split; [reflexivity|]). split.
    + rewrite O1. unfold s1. cbn [JoinModel.given]. rewrite filter_app, Q1, app_nil_r. reflexivity.
    + intros F. apply O2. unfold s1. cbn [JoinModel.given]. apply Forall_app. split; [exact F|apply Q2].
Qed.

(** ** Whole files *)
(** A submap as read, with the number of its trajectory moved. *)
Definition rdo (off : Z) (x : Z * raw) : sub := mkSub P (fst x + off, fst (fst (snd x))) (snd (fst (snd x))) (snd (snd x)).
Definition ido (off : Z) (x : Z * raw) : Z * Z := (fst x + off, fst (fst (snd x))).
Lemma run_app : forall S X (f : S -> X -> outcome S) a b s, run f s (a ++ b) = bind (run f s a) (fun s' => run f s' b).
Proof. induction a as [|x a IH]; intros b s; [reflexivity|]. cbn [app run]. destruct (f s x); cbn [bind]; auto. Qed.

Definition priors (L : list sub) : list factor := flat_map (fun x => prior (s_id x) (s_pose x)) L.
Definition entry (x : sub) : Z * P := (key (s_id x), s_pose x).
Lemma base_phase : forall n s I k, good I -> J s I k -> map s_id (mem s) = I -> (k + n = length I)%nat ->
  pend s = priors (firstn k (mem s)) -> given s = flat_map (fun m => priors (firstn m (mem s))) (seq 1 k) -> vals s = map entry (firstn k (mem s)) ->
  exists s', run (add_submap P detect false) s (seq k n) = Ok s' /\ J s' I (length I) /\ mem s' = mem s /\ base s' = base s /\ inc s' = inc s /\ win s' = win s /\
    pend s' = priors (mem s) /\ given s' = flat_map (fun m => priors (firstn m (mem s))) (seq 1 (length I)) /\ vals s' = map entry (mem s).
Proof.
  induction n as [|n IH]; intros s I k G Hj M L Hp Hg Hv.
  - exists s. assert (Lm : length (mem s) = k) by (rewrite <- (map_length s_id), M; lia).
    rewrite Nat.add_0_r in L. subst k. rewrite (firstn_all2 (mem s)) in Hp, Hv by lia. repeat (split; auto).
  - assert (Lm : length (mem s) = length I) by (rewrite <- (map_length s_id), M; reflexivity).
    destruct (nth_ex _ (mem s) k ltac:(lia)) as [x X].
    assert (E : nth_error I k = Some (s_id x)) by (rewrite <- M, nth_error_map, X; reflexivity).
    destruct (add_base s I k x G Hj X E) as (s1 & R & Hj1 & M1 & B1 & I1 & W1 & G1 & P1 & V1).
    pose proof (firstn_S _ _ _ _ X) as Fs.
    assert (Pr : priors (firstn (S k) (mem s)) = priors (firstn k (mem s)) ++ prior (s_id x) (s_pose x)).
    { rewrite Fs. unfold priors. rewrite flat_map_app. cbn [flat_map]. rewrite app_nil_r. reflexivity. }
    destruct (IH s1 I (S k) G Hj1) as (s' & R' & Hj' & M' & B' & I' & W' & P' & G' & V').
    + congruence.
    + lia.
    + rewrite P1, M1, Pr, Hp. reflexivity.
    + rewrite G1, M1, seq_snoc, flat_map_app. cbn [flat_map Nat.add]. rewrite app_nil_r, Pr, Hg, Hp. reflexivity.
    + rewrite V1, M1, Fs, map_app, Hv. reflexivity.
    + exists s'. cbn [seq run]. rewrite R. cbn [bind]. rewrite M1 in *. rewrite R'. split; [reflexivity|]. split; [exact Hj'|].
      repeat split; congruence.
Qed.

Lemma insert_phase : forall L2 s I off nb A L1, in_window P detect -> good I -> J s I (length A + length L1)%nat -> quiet s ->
  map s_id A = firstn (length A) I -> I = firstn (length A) I ++ map (ido off) (L1 ++ L2) -> (nb <= length A)%nat -> (0 < nb)%nat ->
  win s = Some (0, Z.of_nat nb - 1) -> mem s = A ++ map (rdo off) L1 ++ map (rdo 0) L2 ->
  (forall b p x, (b < nb)%nat -> nth_error I b = Some p -> In x L2 -> fst p <> fst x + off) ->
  exists s' A', run (insert_inc P detect off) s (seq (length A + length L1) (length L2)) = Ok s' /\ J s' I (length I) /\ quiet s' /\
    mem s' = A' ++ map (rdo off) (L1 ++ L2) /\ Forall2 (ext (fun c => In c (skipn nb I))) (firstn nb A) (firstn nb A') /\ skipn nb A' = skipn nb A /\
    base s' = base s /\ inc s' = inc s /\ win s' = win s /\ vals s' = vals s ++ map (fun x => (key (ido off x), snd (fst (snd x)))) L2 /\ more I nb s s'.
Proof.
  induction L2 as [|x L2 IH]; intros s I off nb A L1 Hw G Hj Hq IA EI Ln Pn Wn M D.
  - exists s, A. cbn [map length seq run] in *. rewrite ?app_nil_r in *.
    assert (LI : length I = (length A + length L1)%nat).
    { rewrite EI, app_length, map_length. rewrite <- IA, map_length. reflexivity. }
    rewrite LI. split; [reflexivity|]. split; [exact Hj|]. split; [exact Hq|]. split; [exact M|]. split; [apply ext_refl|].
    rewrite ?app_nil_r. do 5 (split; [reflexivity|]). split; auto.
  - cbn [length seq run]. set (a := (length A + length L1)%nat) in *.
    assert (LA' : length (firstn (length A) I) = length A) by (rewrite <- IA, map_length; reflexivity).
    set (s0 := set_mem P s (update (mem s) a (fun y => set_id P y (fst (s_id y) + off, snd (s_id y))))).
    assert (M0 : mem s0 = A ++ map (rdo off) (L1 ++ [x]) ++ map (rdo 0) L2).
    { unfold s0. cbn [set_mem JoinModel.mem]. rewrite M. cbn [map]. rewrite map_app. cbn [map].
      clear. unfold a. induction A as [|y A IHA]; cbn [length Nat.add app update]; [|f_equal; exact IHA].
      induction L1 as [|y L1 IHL]; cbn [length map app update]; [|f_equal; exact IHL].
      unfold set_id, rdo. cbn [JoinModel.s_id JoinModel.s_pose JoinModel.s_conn fst snd]. rewrite Z.add_0_r. reflexivity. }
    assert (Xa : nth_error (mem s0) a = Some (rdo off x)).
    { rewrite M0. unfold a. rewrite nth_error_app2 by lia. rewrite nth_error_app1 by (rewrite map_length, app_length; cbn; lia).
      rewrite map_app, nth_error_app2 by (rewrite map_length; lia). rewrite map_length. replace (_ + _ - _ - _)%nat with 0%nat by lia. reflexivity. }
    assert (Ea : nth_error I a = Some (ido off x)).
    { rewrite EI. unfold a. rewrite nth_error_app2 by lia. rewrite LA'. rewrite map_app, nth_error_app2 by (rewrite map_length; lia).
      rewrite map_length. replace (_ + _ - _ - _)%nat with 0%nat by lia. reflexivity. }
    destruct (add_incremental s0 I a nb (rdo off x) (ido off x) (firstn nb A) (skipn nb A ++ map (rdo off) (L1 ++ [x]) ++ map (rdo 0) L2)) as
      (s1 & A1 & R & Hj1 & Hq1 & M1 & E1 & B1 & I1 & W1 & V1 & [O1 O2]); auto.
    + apply J_mem, Hj.
    + unfold a. lia.
    + rewrite M0. rewrite <- (firstn_skipn nb A) at 1. rewrite <- app_assoc. reflexivity.
    + rewrite firstn_length. lia.
    + rewrite <- firstn_map, IA, firstn_firstn, Nat.min_l by lia. reflexivity.
    + intros b p Lb Eb. apply (D b p x); auto. cbn. auto.
    + pose proof (F2_length _ _ _ _ _ E1) as LE. rewrite firstn_length, Nat.min_l in LE by lia.
      assert (LAn : length (A1 ++ skipn nb A) = length A) by (rewrite app_length, skipn_length; lia).
      destruct (ext_ids _ _ _ E1) as [T1 _].
      destruct (IH s1 I off nb (A1 ++ skipn nb A) (L1 ++ [x])) as (s' & A' & R' & Hj' & Hq' & M' & E' & K' & B' & I' & W' & V' & [O1' O2']); auto.
      * rewrite LAn, app_length. cbn [length]. replace (length A + (length L1 + 1))%nat with (S a) by (unfold a; lia). exact Hj1.
      * rewrite map_app, T1, <- map_app, firstn_skipn, LAn. exact IA.
      * rewrite LAn, <- app_assoc. exact EI.
      * lia.
      * rewrite W1. exact Wn.
      * rewrite M1, !map_app, <- !app_assoc. reflexivity.
      * intros b p y Lb Eb Y. apply (D b p y); auto. cbn. auto.
      * exists s', A'. unfold insert_inc at 1. fold s0. rewrite R. cbn [bind]. rewrite LAn, app_length in R'. cbn [length] in R'.
        replace (length A + (length L1 + 1))%nat with (S a) in R' by (unfold a; lia). rewrite R'. split; [reflexivity|].
        split; [exact Hj'|]. split; [exact Hq'|]. rewrite <- app_assoc in M'. split; [exact M'|].
        rewrite firstn_app, (firstn_all2 A1), LE, Nat.sub_diag in E' by lia. cbn [firstn] in E'. rewrite app_nil_r, <- LE in E'.
        split; [eapply ext_trans; eauto|].
        rewrite skipn_app, (skipn_all2 A1), LE, Nat.sub_diag, <- LE in K' by lia. split; [exact K'|].
        split; [rewrite B', B1; reflexivity|]. split; [rewrite I', I1; reflexivity|]. split; [rewrite W', W1; reflexivity|]. split.
        { rewrite V', V1. change (vals s0) with (vals s). cbn [map rdo JoinModel.s_pose]. rewrite <- app_assoc. reflexivity. }
        split; [rewrite O1', O1; reflexivity|auto].
Qed.

(** *** Connections *)
Definition edges_of (off : Z) (pk : package) (x : Z * raw) : list factor :=
  flat_map (fun c => match raw_at P pk c with
    | Some y => [Between P (key (ido off x)) (key (shift off c)) (rel (snd (fst (snd x))) (snd (fst y))) false]
    | None => [] end) (snd (snd x)).
(** A connection is found: a number [b] with the right id and pose. *)
Definition findable (I : list (Z * Z)) (Q : list P) (off : Z) (pk : package) (ts : list (Z * list nat)) (c : Z * Z) : Prop :=
  exists b r, find ts c = Ok b /\ raw_at P pk c = Some r /\ nth_error I b = Some (shift off c) /\ nth_error Q b = Some (snd (fst r)).
Lemma get_both : forall m I Q b q p, map s_id m = I -> map s_pose m = Q -> nth_error I b = Some q -> nth_error Q b = Some p ->
  exists y, get m b = Ok y /\ s_id y = q /\ s_pose y = p.
Proof.
  intros m I Q b q p <- <- A B. rewrite nth_error_map in A, B. unfold get. destruct (nth_error m b) as [y|]; [|discriminate A].
  cbn in A, B. exists y. split; [reflexivity|]. split; congruence.
Qed.
Lemma connect_base_one : forall s I off pk a x, good I -> J s I (length I) -> map s_id (mem s) = I ->
  nth_error (mem s) a = Some (rdo off x) -> Forall (findable I (map s_pose (mem s)) off pk (base s)) (snd (snd x)) ->
  connect_base P rel s a = Ok (absorb s (edges_of off pk x)).
Proof.
  intros s I off pk a x G Hj Ms X F. unfold connect_base, get at 1. rewrite X. cbn [bind rdo JoinModel.s_conn JoinModel.s_id JoinModel.s_pose].
  unfold edges_of. fold (ido off x).
  assert (Ea : nth_error I a = Some (ido off x)) by (rewrite <- Ms, nth_error_map, X; reflexivity).
  revert s Hj Ms X F. induction (snd (snd x)) as [|c cs IH]; intros s Hj Ms X F; [reflexivity|].
  pose proof (Forall_inv_tail F) as F'. destruct (Forall_inv F) as (b & r & Fb & Rr & Ib & Qb). cbn [run flat_map]. rewrite Fb, Rr. cbn [bind].
  destruct (get_both (mem s) _ _ b _ _ Ms eq_refl Ib Qb) as (y & -> & Y1 & Y2). cbn [bind]. rewrite Y1, Y2.
  rewrite (conn_ok s I (length I) a b (ido off x) (shift off c)); auto; try (eapply nth_len; eauto; fail). cbn [bind].
  set (s1 := absorb s _). assert (mem s1 = mem s) as Em by reflexivity.
  change (fst x + off, fst (fst (snd x))) with (ido off x) in IH. rewrite IH.
  - unfold s1. rewrite absorb_app. reflexivity.
  - apply J_absorb, Hj.
  - exact Ms.
  - exact X.
  - exact F'.
Qed.
Lemma connect_base_phase : forall L2 s I off pk A, good I -> J s I (length I) -> map s_id (mem s) = I -> mem s = A ++ map (rdo off) L2 ->
  Forall (fun x => Forall (findable I (map s_pose (mem s)) off pk (base s)) (snd (snd x))) L2 ->
  run (connect_base P rel) s (seq (length A) (length L2)) = Ok (absorb s (flat_map (edges_of off pk) L2)).
Proof.
  induction L2 as [|x L2 IH]; intros s I off pk A G Hj Ms M F; [reflexivity|]. pose proof (Forall_inv_tail F) as F'. pose proof (Forall_inv F) as Fx. cbn beta in Fx.
  cbn [length seq run flat_map]. rewrite (connect_base_one s I off pk (length A) x); auto.
  2: { rewrite M, nth_error_app2, Nat.sub_diag by lia. reflexivity. }
  cbn [bind]. destruct (absorb_fields s (edges_of off pk x)) as (Em & Eb & _).
  specialize (IH (absorb s (edges_of off pk x)) I off pk (A ++ [rdo off x]) G (J_absorb _ _ _ _ Hj)).
  rewrite Em, Eb in IH. rewrite app_length, Nat.add_1_r in IH. rewrite IH; auto; [rewrite absorb_app; reflexivity|].
  rewrite <- app_assoc. exact M.
Qed.

Lemma update_id : forall X (l : list X) a f x, nth_error l a = Some x -> f x = x -> update l a f = l.
Proof. induction l as [|y l IH]; intros [|a] f x E H; cbn in *; try discriminate; [congruence|]. f_equal. eapply IH; eauto. Qed.
Lemma update_twice : forall X (l : list X) a f g, update (update l a f) a g = update l a (fun x => g (f x)).
Proof. induction l as [|y l IH]; intros [|a] f g; cbn; auto. f_equal. apply IH. Qed.
Lemma update_ext : forall X (l : list X) a f g x, nth_error l a = Some x -> f x = g x -> update l a f = update l a g.
Proof. induction l as [|y l IH]; intros [|a] f g x E H; cbn in *; try discriminate; [congruence|]. f_equal. eapply IH; eauto. Qed.
Lemma update_mid : forall X (A B : list X) x f, update (A ++ x :: B) (length A) f = A ++ f x :: B.
Proof. induction A as [|y A IH]; intros; cbn; [reflexivity|]. f_equal. apply IH. Qed.
Lemma absorb_set : forall s m m' fs, set_mem P (absorb (set_mem P s m) fs) m' = absorb (set_mem P s m') fs.
Proof. intros s m m' [|f fs]; reflexivity. Qed.
(** The connections of [a] after the first of them have been replaced. *)
Definition with_conns (s : st) (a : nat) (c : list (Z * Z)) : st := set_mem P s (update (mem s) a (set_conn P c)).
Lemma with_ids : forall s a c, map s_id (mem (with_conns s a c)) = map s_id (mem s) /\ map s_pose (mem (with_conns s a c)) = map s_pose (mem s).
Proof. intros s a c. unfold with_conns. cbn [set_mem JoinModel.mem]. split; apply update_map; reflexivity. Qed.
Lemma connect_inc_rest : forall c2 s I off pk a x c1, good I -> J s I (length I) -> map s_id (mem s) = I ->
  nth_error (mem s) a = Some (rdo off x) -> Forall (findable I (map s_pose (mem s)) off pk (inc s)) c2 ->
  run (connect_inc_one P rel a) (with_conns s a (map (shift off) c1 ++ c2)) (seq (length c1) (length c2)) =
  Ok (absorb (with_conns s a (map (shift off) (c1 ++ c2))) (flat_map (fun c => match raw_at P pk c with
    | Some y => [Between P (key (ido off x)) (key (shift off c)) (rel (snd (fst (snd x))) (snd (fst y))) false]
    | None => [] end) c2)).
Proof.
  induction c2 as [|c c2 IH]; intros s I off pk a x c1 G Hj Ms X F; [rewrite !app_nil_r; reflexivity|].
  pose proof (Forall_inv_tail F) as F'. destruct (Forall_inv F) as (b & r & Fb & Rr & Ib & Qb). cbn [length seq run flat_map].
  assert (Ea : nth_error I a = Some (ido off x)) by (rewrite <- Ms, nth_error_map, X; reflexivity).
  set (s0 := with_conns s a (map (shift off) c1 ++ c :: c2)). destruct (with_ids s a (map (shift off) c1 ++ c :: c2)) as [W1 W2]. fold s0 in W1, W2.
  assert (Xa : nth_error (mem s0) a = Some (set_conn P (map (shift off) c1 ++ c :: c2) (rdo off x))).
  { unfold s0, with_conns. cbn [set_mem JoinModel.mem]. rewrite update_nth, Nat.eqb_refl, X. reflexivity. }
  assert (C : connect_inc_one P rel a s0 (length c1) = Ok (absorb (with_conns s a (map (shift off) (c1 ++ [c]) ++ c2))
     [Between P (key (ido off x)) (key (shift off c)) (rel (snd (fst (snd x))) (snd (fst r))) false])).
  { unfold connect_inc_one. unfold get at 1. rewrite Xa. cbn [bind set_conn JoinModel.s_conn JoinModel.s_id JoinModel.s_pose rdo].
    unfold get at 1. rewrite nth_error_app2 by (rewrite map_length; lia). rewrite map_length, Nat.sub_diag. cbn [nth_error bind].
    change (inc s0) with (inc s). rewrite Fb. cbn [bind].
    destruct (get_both (mem s0) _ _ b (shift off c) (snd (fst r)) eq_refl eq_refl) as (y & -> & Y1 & Y2); [congruence|congruence|]. cbn [bind]. rewrite Y1, Y2.
    assert (Es : set_mem P s0 (update (mem s0) a (fun z => set_conn P (update (s_conn z) (length c1) (fun _ => shift off c)) z)) =
      with_conns s a (map (shift off) (c1 ++ [c]) ++ c2)).
    { unfold s0, with_conns. cbn [set_mem JoinModel.mem JoinModel.base JoinModel.inc JoinModel.opt JoinModel.frames JoinModel.win JoinModel.given JoinModel.pend JoinModel.vals].
      unfold set_mem. cbn [JoinModel.base JoinModel.inc JoinModel.opt JoinModel.frames JoinModel.win JoinModel.given JoinModel.pend JoinModel.vals]. f_equal.
      rewrite update_twice. eapply update_ext; [exact X|]. unfold set_conn. cbn [JoinModel.s_id JoinModel.s_pose JoinModel.s_conn]. f_equal.
      rewrite <- (map_length (shift off) c1). rewrite update_mid, map_app, <- app_assoc. reflexivity. }
    rewrite Es. change (fst x + off, fst (fst (snd x))) with (ido off x).
    apply (conn_ok _ I (length I) a b); auto; try (eapply nth_len; eauto; fail). apply J_mem, Hj. }
  rewrite C. cbn [bind]. rewrite Rr.
  set (f := Between P _ _ _ _). set (s1 := absorb s [f]).
  specialize (IH s1 I off pk a x (c1 ++ [c]) G (J_absorb _ _ _ _ Hj) Ms X F').
  rewrite app_length, Nat.add_1_r in IH. rewrite <- app_assoc in IH. cbn [app] in IH.
  assert (Ec : forall cs, with_conns s1 a cs = absorb (with_conns s a cs) [f]) by reflexivity.
  rewrite !Ec in IH. rewrite map_app in IH |- *. cbn [app map] in *. rewrite IH, absorb_app. reflexivity.
Qed.
Definition moved (off : Z) (x : Z * raw) : sub := mkSub P (ido off x) (snd (fst (snd x))) (map (shift off) (snd (snd x))).
Lemma connect_inc_phase : forall L2 s I off pk A, good I -> J s I (length I) -> map s_id (mem s) = I -> mem s = A ++ map (rdo off) L2 ->
  Forall (fun x => Forall (findable I (map s_pose (mem s)) off pk (inc s)) (snd (snd x))) L2 ->
  run (connect_inc P rel) s (seq (length A) (length L2)) = Ok (absorb (set_mem P s (A ++ map (moved off) L2)) (flat_map (edges_of off pk) L2)).
Proof.
  induction L2 as [|x L2 IH]; intros s I off pk A G Hj Ms M F.
  - cbn [map length seq run flat_map absorb] in *. f_equal. rewrite <- M. destruct s; reflexivity.
  - pose proof (Forall_inv_tail F) as F'. pose proof (Forall_inv F) as Fx. cbn beta in Fx. cbn [length seq run flat_map].
    assert (X : nth_error (mem s) (length A) = Some (rdo off x)) by (rewrite M, nth_error_app2, Nat.sub_diag by lia; reflexivity).
    assert (C : connect_inc P rel s (length A) = Ok (absorb (with_conns s (length A) (map (shift off) (snd (snd x)))) (edges_of off pk x))).
    { unfold connect_inc, get. rewrite X. cbn [bind rdo JoinModel.s_conn].
      pose proof (connect_inc_rest (snd (snd x)) s I off pk (length A) x [] G Hj Ms X Fx) as R. cbn [map app length] in R.
      assert (with_conns s (length A) (snd (snd x)) = s) as E.
      { unfold with_conns. rewrite (update_id _ _ _ _ _ X) by reflexivity. destruct s; reflexivity. }
      rewrite E in R. exact R. }
    rewrite C. cbn [bind]. set (s1 := absorb _ _).
    assert (M1 : mem s1 = (A ++ [moved off x]) ++ map (rdo off) L2).
    { unfold s1. destruct (absorb_fields (with_conns s (length A) (map (shift off) (snd (snd x)))) (edges_of off pk x)) as (-> & _).
      unfold with_conns. cbn [set_mem JoinModel.mem]. rewrite M. cbn [map]. rewrite update_mid, <- app_assoc. reflexivity. }
    destruct (with_ids s (length A) (map (shift off) (snd (snd x)))) as [W1 W2].
    assert (Em : mem s1 = mem (with_conns s (length A) (map (shift off) (snd (snd x))))) by (unfold s1; apply absorb_fields).
    specialize (IH s1 I off pk (A ++ [moved off x]) G). rewrite app_length, Nat.add_1_r in IH. rewrite IH; auto.
    + f_equal. unfold s1, with_conns. rewrite absorb_set, absorb_app. cbn [map]. rewrite <- app_assoc. reflexivity.
    + unfold s1. apply J_absorb, J_mem, Hj.
    + rewrite Em, W1. exact Ms.
    + rewrite Em, W2. unfold s1. destruct (absorb_fields (with_conns s (length A) (map (shift off) (snd (snd x)))) (edges_of off pk x)) as (_ & _ & -> & _). exact F'.
Qed.

(** *** The final poses *)
Lemma final_rest : forall B A s I g v, good I -> map s_id (mem s) = I -> map fst v = map key I -> mem s = A ++ B ->
  run (final_pose P solve g v) s (seq (length A) (length B)) = Ok (set_mem P s (A ++ map (fun x => set_pose P (solve g v (key (s_id x))) x) B)).
Proof.
  induction B as [|x B IH]; intros A s I g v G Ms V M.
  - cbn [length seq run map]. f_equal. rewrite <- M. destruct s; reflexivity.
  - cbn [length seq run map]. unfold final_pose at 1, get. rewrite M, nth_error_app2, Nat.sub_diag by lia. cbn [nth_error bind].
    assert (Ix : In (s_id x) I) by (rewrite <- Ms, M, map_app; apply in_or_app; cbn; auto).
    rewrite sym_ok by (apply G; exact Ix). cbn [bind]. rewrite V, existsb_in by (apply in_map; exact Ix). cbn [bind]. rewrite update_mid.
    set (y := set_pose P _ x). specialize (IH (A ++ [y]) (set_mem P s (A ++ y :: B)) I g v G). rewrite app_length, Nat.add_1_r in IH.
    rewrite IH; auto; cbn [set_mem JoinModel.mem].
    + rewrite <- app_assoc. reflexivity.
    + rewrite <- Ms, M, !map_app. reflexivity.
    + rewrite <- app_assoc. reflexivity.
Qed.

(** ** Sessions *)
Notation ids := (JoinSpec.ids P).
Notation poses := (JoinSpec.poses P).
Notation conns := (JoinSpec.conns P).
Notation edges := (JoinSpec.edges P rel).
Notation over := (JoinSpec.over P).
Notation proper := (JoinSpec.proper P).
Lemma over_app : forall X (f : Z -> package -> list X) a b off, over f off (a ++ b) = over f off a ++ over f (off + Z.of_nat (length (concat a))) b.
Proof.
  induction a as [|p a IH]; intros b off; cbn [app JoinSpec.over concat length]; [rewrite Z.add_0_r; reflexivity|].
  rewrite IH, <- app_assoc, app_length. do 3 f_equal. lia.
Qed.
Lemma over_one : forall X (f : Z -> package -> list X) off p, over f off [p] = f off p.
Proof. intros. cbn. apply app_nil_r. Qed.
Lemma ids_flat : forall off p, ids off p = map idt (flat off p).
Proof. intros off p. change (flat off p) with (flat (0 + off) p). rewrite flat_shift, map_map. reflexivity. Qed.
Lemma over_ids : forall pks off, over ids off pks = map idt (flat off (concat pks)).
Proof.
  induction pks as [|p pks IH]; intros off; [reflexivity|]. cbn [JoinSpec.over concat]. rewrite IH, flat_app, map_app, ids_flat. reflexivity.
Qed.
Lemma proper_numbered : forall p, proper p -> numbered p.
Proof. intros p H t tr E i r R. apply (H t tr E i r R). Qed.
Lemma over_good : forall pks, Forall proper pks -> fits P pks -> good (over ids 0 pks).
Proof.
  intros pks H [F1 F2]. rewrite over_ids. apply flat_good; auto; try lia.
  clear F1 F2. induction H as [|p pks Hp H IH]; [intros [|t] tr E; discriminate E|]. cbn [concat]. apply numbered_app; auto using proper_numbered.
Qed.
Lemma flat_in : forall pk t x, In x (flat t pk) -> exists k tr i, nth_error pk k = Some tr /\ nth_error tr i = Some (snd x).
Proof.
  induction pk as [|tr pk IH]; intros t x H; [destruct H|]. cbn [JoinSpec.flat] in H. apply in_app_or in H as [H|H].
  - apply in_map_iff in H as (r & <- & H). apply In_nth_error in H as [i H]. exists 0%nat, tr, i. auto.
  - destruct (IH _ _ H) as (k & tr' & i & A & B). exists (S k), tr', i. auto.
Qed.
Lemma proper_conns : forall pk t x c, proper pk -> In x (flat t pk) -> In c (snd (snd x)) -> exists_in P pk c.
Proof. intros pk t x c H X C. apply flat_in in X as (k & tr & i & A & B). apply (H k tr A i (snd x) B), C. Qed.
Lemma raw_at_idx : forall pk c r, proper pk -> exists_in P pk c -> raw_at P pk c = Some r -> fst (fst r) = snd c.
Proof.
  intros pk c r H (t & i & tr & -> & E & L) R. unfold raw_at in R. cbn [fst snd] in *. rewrite at_of_nat, E, at_of_nat in R. apply (H t tr E i r R).
Qed.
Lemma proper_findable : forall pk off I Q Io Qo, proper pk -> I = Io ++ map (ido off) (flat 0 pk) -> Q = Qo ++ poses off pk -> length Qo = length Io ->
  Forall (fun x => Forall (findable I Q off pk (layout 0 (length Io) pk)) (snd (snd x))) (flat 0 pk).
Proof.
  intros pk off I Q Io Qo H -> -> L. apply Forall_forall. intros x X. apply Forall_forall. intros c C.
  pose proof (proper_conns pk 0 x c H X C) as Ex. destruct (find_ok pk 0 (length Io) c Ex) as (b & r & F & N & R & E).
  exists b, r. split; [exact F|]. split; [exact R|]. rewrite !nth_error_app2 by lia. rewrite L. unfold JoinSpec.poses. rewrite !nth_error_map. split.
  2: { transitivity (option_map (fun x0 : Z * raw => snd (fst (snd x0))) (nth_error (flat 0 pk) (b - length Io))); [reflexivity|rewrite E; reflexivity]. }
  rewrite E. unfold ido, shift. cbn [option_map fst snd]. rewrite (raw_at_idx pk c r H Ex R). reflexivity.
Qed.
Lemma edges_flat : forall off pk, flat_map (edges_of off pk) (flat 0 pk) = edges off pk.
Proof. reflexivity. Qed.
Lemma edges_all : forall off pk, Forall (fun f => is_edge f = true /\ is_loop P f = false) (edges off pk).
Proof.
  intros off pk. apply Forall_forall. intros f H. unfold JoinSpec.edges in H. apply in_flat_map in H as (x & _ & H). apply in_flat_map in H as (c & _ & H).
  destruct (raw_at P pk c); [|destruct H]. destruct H as [<-|[]]. auto.
Qed.
Lemma all_edges : forall l, Forall (fun f => is_edge f = true /\ is_loop P f = false) l -> filter is_edge l = l /\ forall I nb, Forall (loop_ok I nb) l.
Proof.
  induction l as [|f l IH]; intros H; [split; [reflexivity|constructor]|]. destruct (Forall_inv H) as [A B], (IH (Forall_inv_tail H)) as [C D]. cbn [filter]. rewrite A, C.
  split; [reflexivity|]. intros I nb. constructor; [intros X; congruence|apply D].
Qed.
Lemma absorb_edges : forall s off pk I nb, quiet s -> quiet (absorb s (edges off pk)) /\
  filter is_edge (given (absorb s (edges off pk))) = filter is_edge (given s) ++ edges off pk /\
  (Forall (loop_ok I nb) (given s) -> Forall (loop_ok I nb) (given (absorb s (edges off pk)))).
Proof.
  intros s off pk I nb Q. destruct (all_edges _ (edges_all off pk)) as [E1 E2], (quiet_edges _ Q) as [Q1 Q2].
  destruct (edges off pk) as [|f l]; [rewrite app_nil_r; auto|]. unfold absorb, quiet. cbn [JoinModel.given JoinModel.pend]. split; [constructor|]. split.
  - rewrite !filter_app, Q1. cbn [app]. rewrite E1. reflexivity.
  - intros F. apply Forall_app. split; [exact F|]. apply Forall_app. auto.
Qed.
Lemma loop_ok_mono : forall I I' nb f, (nb <= length I)%nat -> loop_ok I nb f -> loop_ok (I ++ I') nb f.
Proof.
  intros I I' nb f L H X. destruct (H X) as (p & q & t & E & A & B). exists p, q, t. split; [exact E|]. split.
  - rewrite firstn_app. apply in_or_app. auto.
  - rewrite skipn_app. apply in_or_app. auto.
Qed.
Lemma J_grow : forall s I I', J s I (length I) -> J s (I ++ I') (length I).
Proof.
  intros s I I' [A B C D]. split; auto.
  - rewrite firstn_app, Nat.sub_diag, app_nil_r. exact B.
  - intros a t i L E. rewrite nth_error_app1 in E by exact L. auto.
  - intros t. rewrite firstn_app, Nat.sub_diag, app_nil_r. apply D.
Qed.

Record SI (s : st) (b : package) (is : list package) : Prop := mkSI {
  SI_J : J s (over ids 0 (b :: is)) (length (over ids 0 (b :: is)));
  SI_quiet : quiet s;
  SI_ids : map s_id (mem s) = over ids 0 (b :: is);
  SI_base : base s = layout 0 0 (concat (b :: is));
  SI_inc : inc s = [];
  SI_win : win s = Some (0, Z.of_nat (length (flat 0 b)) - 1);
  SI_vals : vals s = combine (map key (over ids 0 (b :: is))) (over poses 0 (b :: is));
  SI_edges : filter is_edge (given s) = over edges 0 (b :: is);
  SI_loops : Forall (loop_ok (over ids 0 (b :: is)) (length (flat 0 b))) (given s);
  SI_conns : map s_conn (skipn (length (flat 0 b)) (mem s)) = over conns (Z.of_nat (length b)) is;
  SI_grown : Forall2 (fun c y => exists e, s_conn y = c ++ e /\ Forall (fun q => In q (skipn (length (flat 0 b)) (over ids 0 (b :: is)))) e)
    (conns 0 b) (firstn (length (flat 0 b)) (mem s)) }.

Definition base_given (b : package) : list factor := flat_map (fun m => priors (firstn m (map (rdo 0) (flat 0 b)))) (seq 1 (length (flat 0 b))).
Lemma combine_map : forall X Y Z (f : X -> Y) (g : X -> Z) l, combine (map f l) (map g l) = map (fun x => (f x, g x)) l.
Proof. induction l as [|x l IH]; [reflexivity|]. cbn. rewrite IH. reflexivity. Qed.
Lemma load_base_ok : forall b, proper b -> good (ids 0 b) -> flat 0 b <> [] ->
  exists s, load_base P rel detect (Some b) (fresh P) = Ok s /\ SI s b [] /\
    given s = base_given b ++ (if match edges 0 b with [] => true | _ => false end then [] else priors (map (rdo 0) (flat 0 b))) ++ edges 0 b.
Proof.
  intros b H G N. unfold load_base. cbn [fresh JoinModel.base JoinModel.mem length].
  pose proof (load_mem b 0 []) as Lm. pose proof (load_layout b 0 []) as Ll. change (Z.of_nat 0) with 0. destruct (load P 0 b []) as [m ts]. cbn [fst snd app length] in Lm, Ll.
  assert (Mr : m = map (rdo 0) (flat 0 b)).
  { rewrite Lm. apply map_ext. intros x. unfold rd, read_sub, rdo. rewrite Z.add_0_r. reflexivity. }
  clear Lm. cbn [JoinModel.base JoinModel.inc JoinModel.opt JoinModel.frames JoinModel.win JoinModel.given JoinModel.pend JoinModel.vals app].
  set (s0 := mkSt P _ _ _ _ _ _ _ _ _). rewrite Ll, layout_concat.
  assert (Li : length (ids 0 b) = length (flat 0 b)) by (apply map_length).
  destruct (base_phase (length (flat 0 b)) s0 (ids 0 b) 0 G) as (s1 & R1 & J1 & M1 & B1 & I1 & W1 & P1 & G1 & V1); try reflexivity.
  - split; try reflexivity. intros a t i L. lia.
  - unfold s0. cbn [JoinModel.mem]. rewrite Mr, map_map. reflexivity.
  - rewrite Li. reflexivity.
  - rewrite R1. cbn [bind]. rewrite B1. change (base s0) with ts. rewrite Ll, layout_concat.
    change (mem s0) with m in *.
    pose proof (connect_base_phase (flat 0 b) s1 (ids 0 b) 0 b [] G J1) as C. cbn [length app] in C.
    rewrite C.
    2: { rewrite M1, Mr, map_map. reflexivity. }
    2: { rewrite M1. exact Mr. }
    2: { rewrite B1. change (base s0) with ts. rewrite Ll. apply (proper_findable b 0 _ _ [] []); auto. rewrite M1, Mr, map_map. reflexivity. }
    cbn [bind]. rewrite edges_flat. set (s2 := absorb s1 (edges 0 b)). exists (use_as_base P s2). split; [reflexivity|].
    destruct (absorb_fields s1 (edges 0 b)) as (F1 & F2 & F3 & F4 & F5 & F6 & F7). fold s2 in F1, F2, F3, F4, F5, F6, F7.
    assert (J2 : J s2 (ids 0 b) (length (ids 0 b))) by (apply J_absorb, J1).
    assert (Fr : frames s2 <> []) by (rewrite (J_frames _ _ _ J2), Li; destruct (flat 0 b); [congruence|discriminate]).
    assert (U : use_as_base P s2 = mkSt P (mem s2) (base s2) (inc s2) (opt s2) (frames s2) (Some (0, Z.of_nat (length (flat 0 b)) - 1)) (given s2) (pend s2) (vals s2)).
    { unfold use_as_base. destruct (frames s2) as [|f l] eqn:E; [congruence|]. rewrite <- E. do 3 f_equal. rewrite (J_frames _ _ _ J2), seq_length, Li. reflexivity. }
    rewrite U. clear U. rewrite M1 in F1.
    assert (Q1 : quiet s1).
    { unfold quiet. rewrite P1. unfold priors. apply Forall_forall. intros f X. apply in_flat_map in X as (x & _ & X). revert f X. apply Forall_forall, prior_quiet. }
    assert (GQ : Forall (fun f => is_edge f = false /\ is_loop P f = false) (given s1)).
    { rewrite G1. apply Forall_forall. intros f X. apply in_flat_map in X as (k & _ & X). unfold priors in X. apply in_flat_map in X as (x & _ & X). revert f X. apply Forall_forall, prior_quiet. }
    destruct (quiet_edges _ GQ) as [GQ1 GQ2].
    destruct (absorb_edges s1 0 b (ids 0 b) (length (flat 0 b)) Q1) as (A1 & A2 & A3).
    split.
    + split; cbn [JoinModel.mem JoinModel.base JoinModel.inc JoinModel.opt JoinModel.frames JoinModel.win JoinModel.given JoinModel.pend JoinModel.vals]; rewrite ?over_one.
      * destruct J2; split; assumption.
      * exact A1.
      * rewrite F1, Mr, map_map. reflexivity.
      * rewrite F2, B1. cbn [concat]. rewrite app_nil_r. exact Ll.
      * rewrite F3, I1. reflexivity.
      * reflexivity.
      * rewrite F7, V1, Mr, map_map. unfold JoinSpec.ids, JoinSpec.poses. rewrite map_map, combine_map. reflexivity.
      * unfold s2. rewrite A2, GQ1. reflexivity.
      * apply A3, GQ2.
      * rewrite F1, skipn_all2; [reflexivity|]. rewrite Mr, map_length. lia.
      * rewrite F1, firstn_all2 by (rewrite Mr, map_length; lia). rewrite Mr. unfold JoinSpec.conns. clear. generalize (skipn (length (flat 0 b)) (ids 0 b)). intros N.
        induction (flat 0 b) as [|x l IH]; cbn [map]; constructor; auto. exists []. split; [|constructor].
        rewrite app_nil_r. cbn [rdo JoinModel.s_conn]. cbn [snd]. rewrite (map_ext (shift 0) (fun c => c)), map_id; [reflexivity|]. intros [u v]. unfold shift. cbn [fst snd]. rewrite Z.add_0_r. reflexivity.
    + cbn [JoinModel.given]. unfold s2, absorb, base_given. rewrite Mr, Li in G1. rewrite Mr in P1. destruct (edges 0 b) eqn:E; [rewrite !app_nil_r; exact G1|].
      cbn [JoinModel.given]. rewrite P1, G1. reflexivity.
Qed.

Lemma load_inc_ok : forall s b is p, in_window P detect -> SI s b is -> proper p -> good (over ids 0 (b :: is ++ [p])) -> flat 0 b <> [] ->
  exists s', load_inc P rel detect solve (Some p) s = Ok s' /\ SI s' b (is ++ [p]).
Proof.
  intros s b is p Hw H Hp G N. set (I := over ids 0 (b :: is)) in *. set (off := Z.of_nat (length (concat (b :: is)))).
  assert (En : forall X (f : Z -> package -> list X), over f 0 (b :: is ++ [p]) = over f 0 (b :: is) ++ f off p).
  { intros X f. change (b :: is ++ [p]) with ((b :: is) ++ [p]). rewrite over_app, over_one. reflexivity. }
  rewrite (En _ ids) in G. fold I in G.
  unfold load_inc. rewrite (SI_inc _ _ _ H). cbn [length]. change (Z.of_nat 0) with 0.
  pose proof (load_mem p 0 (mem s)) as Lm. pose proof (load_layout p 0 (mem s)) as Ll. destruct (load P 0 p (mem s)) as [m ts]. cbn [fst snd] in Lm, Ll.
  assert (Lms : length (mem s) = length I) by (unfold I; rewrite <- (SI_ids _ _ _ H), map_length; reflexivity).
  cbn [app]. rewrite Ll, layout_concat, Lms.
  assert (Lb : Z.of_nat (length (base s)) = off) by (rewrite (SI_base _ _ _ H), layout_length; reflexivity). rewrite Lb.
  set (s0 := mkSt P _ _ _ _ _ _ _ _ _). set (nb := length (flat 0 b)) in *.
  assert (Nb : (0 < nb)%nat) by (unfold nb; destruct (flat 0 b); [congruence|cbn; lia]).
  assert (NbI : (nb <= length I)%nat) by (unfold I, nb; cbn [JoinSpec.over]; rewrite app_length; assert (length (ids 0 b) = length (flat 0 b)) by apply map_length; lia).
  destruct (insert_phase (flat 0 p) s0 (I ++ ids off p) off nb (mem s) []) as (s1 & A' & R1 & J1 & Q1 & M1 & E1 & K1 & B1 & I1 & W1 & V1 & [O1 O2]); auto.
  - cbn [length]. rewrite Nat.add_0_r, Lms. pose proof (J_grow _ _ (ids off p) (SI_J _ _ _ H)) as X. destruct X. split; assumption.
  - exact (SI_quiet _ _ _ H).
  - rewrite Lms, firstn_app, Nat.sub_diag, app_nil_r, firstn_all. apply (SI_ids _ _ _ H).
  - rewrite Lms, firstn_app, Nat.sub_diag, app_nil_r, firstn_all. reflexivity.
  - lia.
  - exact (SI_win _ _ _ H).
  - unfold s0. cbn [JoinModel.mem map app]. rewrite Lm. f_equal. apply map_ext. intros x. unfold rd, read_sub, rdo. rewrite Z.add_0_r. reflexivity.
  - intros k q x Lk Ek X Eq. rewrite nth_error_app1 in Ek by lia. apply nth_error_In in Ek. unfold I in Ek. rewrite over_ids in Ek.
    apply in_map_iff in Ek as (y & <- & Y). apply flat_lower in Y. apply flat_lower in X. cbn [idt fst] in Eq. unfold off in Eq. lia.
  - rewrite Nat.add_0_r, Lms in R1. rewrite R1. cbn [bind].
    assert (LA' : length A' = length I).
    { pose proof (F2_length _ _ _ _ _ E1) as X. rewrite !firstn_length, Lms in X. assert (Y : length (skipn nb A') = length (skipn nb (mem s))) by (rewrite K1; reflexivity).
      rewrite !skipn_length, Lms in Y. lia. }
    destruct (ext_ids _ _ _ E1) as [T1 T2].
    assert (IA : map s_id A' = I).
    { rewrite <- (firstn_skipn nb A'), map_app, T1, K1, <- map_app, firstn_skipn. apply (SI_ids _ _ _ H). }
    cbn [app map] in M1.
    assert (Mi1 : map s_id (mem s1) = I ++ ids off p) by (rewrite M1, map_app, IA, map_map; reflexivity).
    pose proof (connect_inc_phase (flat 0 p) s1 (I ++ ids off p) off p A' G J1 Mi1 M1) as C. rewrite LA' in C. rewrite C; clear C.
    2: { rewrite I1. unfold s0. cbn [JoinModel.inc]. rewrite <- Lms, <- (map_length s_pose (mem s)). rewrite map_length, Lms.
         apply (proper_findable p off _ _ I (map s_pose A')); auto; [|rewrite map_length; exact LA']. rewrite M1, map_app, map_map. reflexivity. }
    cbn [bind]. rewrite edges_flat. set (s2 := absorb _ _).
    destruct (absorb_fields (set_mem P s1 (A' ++ map (moved off) (flat 0 p))) (edges off p)) as (F1 & F2 & F3 & F4 & F5 & F6 & F7).
    fold s2 in F1, F2, F3, F4, F5, F6, F7. cbn [set_mem JoinModel.mem JoinModel.base JoinModel.inc JoinModel.opt JoinModel.frames JoinModel.win JoinModel.vals] in F1, F2, F3, F4, F5, F6, F7.
    assert (J2 : J s2 (I ++ ids off p) (length (I ++ ids off p))) by (apply J_absorb, J_mem, J1).
    assert (Mi2 : map s_id (mem s2) = I ++ ids off p) by (rewrite F1, map_app, IA, map_map; reflexivity).
    assert (L2 : length (mem s2) = length (I ++ ids off p)) by (rewrite <- Mi2, map_length; reflexivity).
    unfold final. rewrite (J_frames _ _ _ J2), <- L2.
    pose proof (final_rest (mem s2) [] s2 (I ++ ids off p) (given s2) (vals s2) G Mi2) as Fi. cbn [length app] in Fi. rewrite Fi; auto.
    2: { rewrite (J_vals _ _ _ J2), firstn_all. reflexivity. }
    clear Fi. cbn [bind set_mem JoinModel.mem JoinModel.base JoinModel.inc JoinModel.opt JoinModel.frames JoinModel.win JoinModel.given JoinModel.pend JoinModel.vals].
    set (fin := fun x : sub => set_pose P (solve (given s2) (vals s2) (key (s_id x))) x).
    eexists. split; [reflexivity|].
    destruct (absorb_edges (set_mem P s1 (A' ++ map (moved off) (flat 0 p))) off p (I ++ ids off p) nb Q1) as (A1 & A2 & A3). fold s2 in A1, A2, A3.
    split; cbn [JoinModel.mem JoinModel.base JoinModel.inc JoinModel.opt JoinModel.frames JoinModel.win JoinModel.given JoinModel.pend JoinModel.vals]; rewrite ?En; fold I nb.
    + destruct J2. split; assumption.
    + exact A1.
    + rewrite map_map. cbn [fin set_pose JoinModel.s_id]. exact Mi2.
    + rewrite F2, B1. unfold s0. cbn [JoinModel.base]. rewrite (SI_base _ _ _ H), layout_shift.
      change (b :: is ++ [p]) with ((b :: is) ++ [p]). rewrite concat_app. cbn [concat]. rewrite app_nil_r. rewrite (layout_app (b ++ concat is) p). f_equal. f_equal; [cbn [Nat.add]].
      change (b ++ concat is) with (concat (b :: is)). unfold I. rewrite over_ids, map_length. reflexivity.
    + reflexivity.
    + rewrite F6, W1. exact (SI_win _ _ _ H).
    + rewrite F7, V1. unfold s0. cbn [JoinModel.vals]. rewrite (SI_vals _ _ _ H). fold I.
      assert (Lc : length (map key I) = length (over poses 0 (b :: is))).
      { rewrite map_length. unfold I. clear. generalize 0. induction (b :: is) as [|q l IH]; intros z; [reflexivity|]. cbn [JoinSpec.over]. rewrite !app_length, IH. unfold JoinSpec.ids, JoinSpec.poses. rewrite !map_length. reflexivity. }
      rewrite map_app. clear - Lc. revert Lc. generalize (over poses 0 (b :: is)). induction (map key I) as [|k l IH]; intros [|q qs] L; try discriminate L; cbn [app combine].
      * unfold JoinSpec.ids, JoinSpec.poses. rewrite map_map, combine_map. reflexivity.
      * f_equal. apply IH. cbn [length] in L. lia.
    + rewrite A2. cbn [set_mem JoinModel.given]. rewrite O1. unfold s0. cbn [JoinModel.given]. rewrite (SI_edges _ _ _ H). reflexivity.
    + apply A3. cbn [set_mem JoinModel.given]. apply O2. unfold s0. cbn [JoinModel.given].
      eapply Forall_impl; [|apply (SI_loops _ _ _ H)]. intros f. apply loop_ok_mono, NbI.
    + rewrite skipn_map, map_map. cbn [fin set_pose JoinModel.s_conn]. rewrite F1, skipn_app, map_app. replace (nb - length A')%nat with 0%nat by lia. cbn [skipn].
      change (map (fun x : sub => s_conn x)) with (map s_conn). pose proof (SI_conns _ _ _ H) as Sc. fold nb in Sc. rewrite K1, Sc, over_app, over_one, map_map. f_equal.
      unfold JoinSpec.conns. cbn [moved JoinModel.s_conn]. unfold off. cbn [concat]. rewrite app_length. replace (Z.of_nat (length b + length (concat is))) with (Z.of_nat (length b) + Z.of_nat (length (concat is))) by lia. reflexivity.
    + rewrite firstn_map, F1, firstn_app. replace (nb - length A')%nat with 0%nat by lia. cbn [firstn]. rewrite app_nil_r.
      pose proof (SI_grown _ _ _ H) as Gr. fold I nb in Gr. clear - Gr E1 NbI. revert Gr E1. generalize (firstn nb (mem s)) (firstn nb A') (conns 0 b). intros l l' c Gr. revert l'.
      induction Gr as [|c y cs l (e & Y & Fe) Gr IH]; intros l' E1; inversion E1 as [|? y' ? l1 (X1 & X2 & e' & X3 & X4) E2]; subst; cbn [map]; constructor; auto.
      exists (e ++ e'). cbn [fin set_pose JoinModel.s_conn]. rewrite X3, Y, app_assoc. split; [reflexivity|]. apply Forall_app. split; [|exact X4].
      eapply Forall_impl; [|exact Fe]. intros q Q. rewrite skipn_app. apply in_or_app. auto.
Qed.
Lemma session_ok : forall is b, in_window P detect -> Forall proper (b :: is) -> fits P (b :: is) -> flat 0 b <> [] ->
  exists s, session P rel detect solve (Some b) (map Some is) = Ok s /\ SI s b is.
Proof.
  intros is b Hw Hp Hf N. unfold session.
  assert (Gb : good (ids 0 b)).
  { rewrite <- over_one. apply over_good; [constructor; [exact (Forall_inv Hp)|constructor]|]. destruct Hf as [F1 F2]. cbn [concat] in F1, F2. rewrite app_length in F1. split; cbn [concat]; rewrite app_nil_r; [lia|].
    intros tr X. apply F2, in_or_app. auto. }
  destruct (load_base_ok b (Forall_inv Hp) Gb N) as (s0 & -> & H0 & _). cbn [bind].
  assert (X : forall rest done s, b :: is = b :: done ++ rest -> SI s b done -> exists s', run (fun s f => load_inc P rel detect solve f s) s (map Some rest) = Ok s' /\ SI s' b (done ++ rest)).
  { induction rest as [|p rest IH]; intros done s E H; [exists s; rewrite app_nil_r; auto|]. cbn [map run].
    assert (E' : b :: is = (b :: done ++ [p]) ++ rest) by (rewrite E, <- app_comm_cons, <- app_assoc; reflexivity).
    destruct (load_inc_ok s b done p Hw H) as (s1 & -> & H1); auto.
    - rewrite E in Hp. rewrite Forall_forall in Hp. apply Hp. right. apply in_or_app. cbn. auto.
    - rewrite E' in Hp, Hf. apply over_good; [apply Forall_app in Hp; tauto|]. destruct Hf as [F1 F2]. rewrite concat_app in F1, F2. rewrite app_length in F1. split; [lia|].
      intros tr Y. apply F2, in_or_app. auto.
    - cbn [bind]. destruct (IH (done ++ [p]) s1 E' H1) as (s' & R & H'). exists s'. rewrite <- app_assoc in H'. auto. }
  apply (X is [] s0); auto.
Qed.
End P.
