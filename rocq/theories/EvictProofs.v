(** Proofs about the concurrent submap. *)
From Coq Require Import List Bool ZArith Lia Arith.
From Verif Require Import Outcome EvictModel EvictSpec.
Import ListNotations.

(** * A type system for lock use. *)

(** What the running thread knows about the cloud. *)
Inductive know := KNone | KMem | KDropped | KLoaded.
Record ts := mkTs { ts_a : mode; ts_b : mode; ts_k : know; ts_sv : bool }.
Definition ts0 := mkTs No No KNone false.

Definition ty_lock (x : mode) (o : lockop) : option mode :=
  match o, x with
  | LockShared, No => Some Shared
  | UnlockShared, Shared => Some No
  | LockUpgrade, No => Some Upgrade
  | UnlockUpgrade, Upgrade => Some No
  | BeginUpgrade, Upgrade => Some Waiting
  | EndUpgrade, Waiting => Some Exclusive
  | Downgrade, Exclusive => Some Upgrade
  | _, _ => None
  end.
Definition mode_eqb (a b : mode) : bool :=
  match a, b with
  | No, No | Shared, Shared | Upgrade, Upgrade | Waiting, Waiting | Exclusive, Exclusive => true
  | _, _ => false
  end.
Definition know_eqb (a b : know) : bool :=
  match a, b with
  | KNone, KNone | KMem, KMem | KDropped, KDropped | KLoaded, KLoaded => true
  | _, _ => false
  end.
Lemma mode_eqb_eq : forall a b, mode_eqb a b = true -> a = b.
Proof. intros [] []; simpl; congruence. Qed.
Lemma know_eqb_eq : forall a b, know_eqb a b = true -> a = b.
Proof. intros [] []; simpl; congruence. Qed.
Definition ts_eqb (x y : ts) : bool :=
  mode_eqb (ts_a x) (ts_a y) && mode_eqb (ts_b x) (ts_b y) && know_eqb (ts_k x) (ts_k y) &&
  Bool.eqb (ts_sv x) (ts_sv y).
Lemma ts_eqb_eq : forall x y, ts_eqb x y = true -> x = y.
Proof.
  intros [a b k v] [a' b' k' v']; unfold ts_eqb; simpl. intros H.
  apply andb_true_iff in H; destruct H as [H H4]; apply andb_true_iff in H; destruct H as [H H3];
  apply andb_true_iff in H; destruct H as [H1 H2].
  apply mode_eqb_eq in H1, H2. apply know_eqb_eq in H3. apply eqb_prop in H4. congruence.
Qed.

Fixpoint ty (s : ts) (x : instr) {struct x} : option ts :=
  match x with
  | ILock MSubmap o =>
      if mode_eqb (ts_b s) No then
        match ty_lock (ts_a s) o with Some a => Some (mkTs a (ts_b s) (ts_k s) (ts_sv s)) | None => None end
      else None
  | ILock MCloud o =>
      match ty_lock (ts_b s) o with
      | Some b =>
          match o with
          | BeginUpgrade | EndUpgrade =>
              if know_eqb (ts_k s) KNone then Some (mkTs (ts_a s) b KNone (ts_sv s)) else None
          | Downgrade => match ts_k s with KDropped | KLoaded => None
                         | _ => Some (mkTs (ts_a s) b (ts_k s) (ts_sv s)) end
          | _ => Some (mkTs (ts_a s) b KNone (ts_sv s))
          end
      | None => None
      end
  | IIf t body =>
      let r := (fix tys (s : ts) (l : list instr) {struct l} : option ts :=
                  match l with [] => Some s | y :: m => match ty s y with Some s' => tys s' m | None => None end end)
               s body in
      match r with
      | None => None
      | Some s' =>
          match t with
          | TNotInMemory =>
              if mode_eqb (ts_b s) Upgrade && know_eqb (ts_k s) KNone &&
                 ts_eqb s' (mkTs (ts_a s) (ts_b s) KMem (ts_sv s))
              then Some s' else None
          | TDisk => if ts_eqb s' (mkTs (ts_a s) (ts_b s) (ts_k s) (ts_sv s')) then Some s' else None
          | _ => if ts_eqb s' s then Some s else None
          end
      end
  | IDropCloud => if mode_eqb (ts_b s) Exclusive then Some (mkTs (ts_a s) (ts_b s) KDropped (ts_sv s)) else None
  | ILoadCloud => if mode_eqb (ts_b s) Exclusive then Some (mkTs (ts_a s) (ts_b s) KLoaded (ts_sv s)) else None
  | ISetInMemory b =>
      if mode_eqb (ts_b s) Exclusive then
        match b, ts_k s with
        | true, (KLoaded | KMem) => Some (mkTs (ts_a s) (ts_b s) KMem (ts_sv s))
        | false, KDropped => Some (mkTs (ts_a s) (ts_b s) KNone (ts_sv s))
        | _, _ => None
        end
      else None
  | ICheckInMemory => if mode_eqb (ts_b s) Upgrade && know_eqb (ts_k s) KMem then Some s else None
  | ICheckNotEmpty => if mode_eqb (ts_b s) Shared then Some s else None
  | ISave => if mode_eqb (ts_b s) Shared then Some (mkTs (ts_a s) (ts_b s) (ts_k s) true) else None
  | ISetMatched => if ts_sv s then Some (mkTs (ts_a s) (ts_b s) (ts_k s) false) else None
  | ITouchFrames => if mode_eqb (ts_a s) Shared || mode_eqb (ts_a s) Upgrade || mode_eqb (ts_a s) Exclusive
                    then Some s else None
  | IWritePoses => if mode_eqb (ts_a s) Exclusive then Some s else None
  | _ => Some s
  end.
Fixpoint tys (s : ts) (l : list instr) : option ts :=
  match l with [] => Some s | y :: m => match ty s y with Some s' => tys s' m | None => None end end.

Lemma ty_if : forall s t body, ty s (IIf t body) =
  match tys s body with
  | None => None
  | Some s' =>
      match t with
      | TNotInMemory =>
          if mode_eqb (ts_b s) Upgrade && know_eqb (ts_k s) KNone &&
             ts_eqb s' (mkTs (ts_a s) (ts_b s) KMem (ts_sv s))
          then Some s' else None
      | TDisk => if ts_eqb s' (mkTs (ts_a s) (ts_b s) (ts_k s) (ts_sv s')) then Some s' else None
      | _ => if ts_eqb s' s then Some s else None
      end
  end.
Proof. reflexivity. Qed.

Lemma tys_app : forall l m s, tys s (l ++ m) = match tys s l with Some s' => tys s' m | None => None end.
Proof. induction l as [|x l IH]; intros m s; simpl; auto. destruct (ty s x); auto. Qed.

Lemma code_typed : forall c, tys ts0 (code c) = Some ts0.
Proof. intros []; reflexivity. Qed.
Lemma codes_typed : forall cs, tys ts0 (flat_map code cs) = Some ts0.
Proof. induction cs as [|c cs IH]; simpl; auto. rewrite tys_app, code_typed. exact IH. Qed.

(** * Counting threads. *)
Fixpoint cnt (f : thread -> nat) (l : list thread) : nat :=
  match l with [] => 0 | t :: r => f t + cnt f r end.
Lemma cnt_update : forall f l i t t', nth_error l i = Some t ->
  cnt f (update l i t') + f t = cnt f l + f t'.
Proof.
  induction l as [|x l IH]; intros [|i] t t' H; simpl in *; try discriminate.
  - inversion H; subst. lia.
  - specialize (IH i t t' H). lia.
Qed.
Lemma cnt_ge : forall f l i t, nth_error l i = Some t -> f t <= cnt f l.
Proof.
  induction l as [|x l IH]; intros [|i] t H; simpl in *; try discriminate.
  - inversion H; subst. lia.
  - specialize (IH i t H). lia.
Qed.
Lemma cnt_two : forall f l i j t u, i <> j -> nth_error l i = Some t -> nth_error l j = Some u ->
  f t + f u <= cnt f l.
Proof.
  induction l as [|x l IH]; intros [|i] [|j] t u N H K; simpl in *; try discriminate; try lia.
  - inversion H; subst. pose proof (cnt_ge f _ _ _ K). lia.
  - inversion K; subst. pose proof (cnt_ge f _ _ _ H). lia.
  - assert (i <> j) by lia. specialize (IH i j t u H0 H K). lia.
Qed.
Lemma cnt_pos : forall f l, 0 < cnt f l -> exists i t, nth_error l i = Some t /\ 0 < f t.
Proof.
  induction l as [|x l IH]; simpl; intros H; [lia|].
  destruct (f x) eqn:E.
  - destruct IH as (i & t & A & B); [lia|]. exists (S i), t. auto.
  - exists 0, x. simpl. split; auto. lia.
Qed.
Lemma nth_update_same : forall l i t t', nth_error l i = Some t -> nth_error (update l i t') i = Some t'.
Proof. induction l; intros [|i] t t' H; simpl in *; try discriminate; eauto. Qed.
Lemma nth_update_other : forall l i j t', i <> j -> nth_error (update l i t') j = nth_error l j.
Proof.
  induction l; intros [|i] [|j] t' H; simpl in *; auto; lia.
Qed.
Lemma nth_update : forall l i t t' j u, nth_error l i = Some t -> nth_error (update l i t') j = Some u ->
  (j = i /\ u = t') \/ (j <> i /\ nth_error l j = Some u).
Proof.
  intros l i t t' j u H K. destruct (Nat.eq_dec j i) as [->|N].
  - rewrite (nth_update_same _ _ _ _ H) in K. left. split; congruence.
  - rewrite nth_update_other in K by lia. auto.
Qed.

Definition is_mode (x : mode) (m : mid) (t : thread) : nat := if mode_eqb (owns t m) x then 1 else 0.
Definition n_of (x : mode) (m : mid) (l : list thread) : nat := cnt (is_mode x m) l.
Definition b2n (b : bool) : nat := if b then 1 else 0.

(** The boost counters describe the owners. *)
Record lock_ok (r : rw) (m : mid) (l : list thread) : Prop := {
  lo_count : r_count r = n_of Shared m l + n_of Upgrade m l;
  lo_upgrade : b2n (r_upgrade r) = n_of Upgrade m l + n_of Waiting m l;
  lo_excl : b2n (r_exclusive r) = n_of Exclusive m l;
  lo_one : n_of Upgrade m l + n_of Waiting m l + n_of Exclusive m l <= 1;
  lo_alone : n_of Exclusive m l = 1 -> r_count r = 0 }.

Definition typed (t : thread) (k : know) (sv : bool) : Prop :=
  tys (mkTs (t_submap t) (t_cloud t) k sv) (t_todo t) = Some ts0.

Lemma owns_set_same : forall t m x k, owns (set_owns t m x k) m = x.
Proof. intros t [] x k; reflexivity. Qed.
Lemma owns_set_other : forall t m m' x k, m <> m' -> owns (set_owns t m x k) m' = owns t m'.
Proof. intros t [] [] x k H; try reflexivity; congruence. Qed.
Lemma todo_set : forall t m x k, t_todo (set_owns t m x k) = k.
Proof. intros t [] x k; reflexivity. Qed.

Lemma typed_lock : forall t m o k kn sv, t_todo t = ILock m o :: k -> typed t kn sv ->
  exists x kn', ty_lock (owns t m) o = Some x /\ mode_step o = x /\
    typed (set_owns t m x k) kn' sv /\ (m = MSubmap -> t_cloud t = No /\ kn' = kn) /\
    (m = MCloud -> match o with
                   | BeginUpgrade | EndUpgrade => kn = KNone /\ kn' = KNone
                   | Downgrade => kn' = kn /\ kn <> KDropped /\ kn <> KLoaded
                   | _ => kn' = KNone end).
Proof.
  intros t m o k kn sv Hk H. unfold typed in *. rewrite Hk in H. simpl in H.
  destruct m; simpl in H.
  - destruct (mode_eqb (t_cloud t) No) eqn:E; [|discriminate]. apply mode_eqb_eq in E.
    destruct (ty_lock (t_submap t) o) as [a|] eqn:T; [|discriminate].
    exists a, kn. simpl. split; [exact T|]. split; [destruct o, (t_submap t); simpl in *; congruence|].
    split; [exact H|]. split; [auto|]. intros; congruence.
  - destruct (ty_lock (t_cloud t) o) as [a|] eqn:T; [|discriminate].
    assert (S : mode_step o = a) by (destruct o, (t_cloud t); simpl in *; congruence).
    assert (N : MCloud = MSubmap -> False) by congruence.
    destruct o; simpl in H.
    + exists a, KNone; repeat split; auto; intros; exfalso; auto.
    + exists a, KNone; repeat split; auto; intros; exfalso; auto.
    + exists a, KNone; repeat split; auto; intros; exfalso; auto.
    + exists a, KNone; repeat split; auto; intros; exfalso; auto.
    + destruct (know_eqb kn KNone) eqn:E; [|discriminate]. apply know_eqb_eq in E.
      exists a, KNone; repeat split; auto; intros; exfalso; auto.
    + destruct (know_eqb kn KNone) eqn:E; [|discriminate]. apply know_eqb_eq in E.
      exists a, KNone; repeat split; auto; intros; exfalso; auto.
    + exists a, kn. destruct kn; try discriminate; (split; [exact T|]; split; [auto|];
        split; [exact H|]; split; [intros; exfalso; auto | intros; repeat split; congruence]).
Qed.

(** Counters after a lock operation on the same mutex. *)
Lemma lock_ok_step : forall r m l i t o r' x k, lock_ok r m l -> nth_error l i = Some t ->
  rw_step r o = Some r' -> ty_lock (owns t m) o = Some x ->
  lock_ok r' m (update l i (set_owns t m x k)).
Proof.
  intros r m l i t o r' x k [A B C D E] Hi Hr Ht.
  assert (U : forall y, n_of y m (update l i (set_owns t m x k)) + is_mode y m t =
                        n_of y m l + (if mode_eqb x y then 1 else 0)).
  { intros y. unfold n_of. pose proof (cnt_update (is_mode y m) l i t (set_owns t m x k) Hi) as H.
    unfold is_mode at 4 in H. rewrite owns_set_same in H. exact H. }
  assert (G : forall y, is_mode y m t <= n_of y m l).
  { intros y. apply (cnt_ge (is_mode y m) l i t Hi). }
  pose proof (U Shared) as U1. pose proof (U Upgrade) as U2. pose proof (U Waiting) as U3.
  pose proof (U Exclusive) as U4.
  pose proof (G Shared) as G1. pose proof (G Upgrade) as G2. pose proof (G Waiting) as G3.
  pose proof (G Exclusive) as G4. clear U G.
  unfold is_mode in U1, U2, U3, U4, G1, G2, G3, G4.
  destruct r as [rc ru re]; simpl in A, B, C, E.
  destruct (owns t m), o; simpl in Ht; inversion Ht; subst x; clear Ht; simpl in U1, U2, U3, U4, G1, G2, G3, G4;
    simpl in Hr; destruct ru, re; simpl in Hr; try discriminate;
    try (destruct (Nat.eqb_spec rc 0); [|discriminate]); inversion Hr; subst r'; clear Hr;
    constructor; simpl in *; lia.
Qed.
(** ... on the other mutex. *)
Lemma lock_ok_same : forall r m l i t t', lock_ok r m l -> nth_error l i = Some t -> owns t' m = owns t m ->
  lock_ok r m (update l i t').
Proof.
  intros r m l i t t' [A B C D E] Hi Ho.
  assert (U : forall y, n_of y m (update l i t') = n_of y m l).
  { intros y. unfold n_of. pose proof (cnt_update (is_mode y m) l i t t' Hi) as H.
    unfold is_mode at 2 4 in H. rewrite Ho in H. lia. }
  constructor; rewrite ?U in *; auto.
Qed.

(** * Static properties of the code. *)

(** Instructions that write the cloud appear only under the tests of the saving. *)
Fixpoint guarded (x : instr) : bool :=
  match x with
  | IIf TMatched _ | IIf TNotInMemory _ => true
  | IIf _ b => (fix go l := match l with [] => true | y :: r => guarded y && go r end) b
  | IDropCloud | ILoadCloud | ISetInMemory _ => false
  | _ => true
  end.
Definition all_guarded (l : list instr) : bool := forallb guarded l.
Lemma guarded_if : forall t b, guarded (IIf t b) =
  match t with TMatched | TNotInMemory => true | _ => all_guarded b end.
Proof. intros t b. destruct t; simpl; auto; induction b; simpl; auto; rewrite IHb; auto. Qed.

(** Number of ISetMatched. *)
Fixpoint nset (x : instr) : nat :=
  match x with
  | IIf _ b => (fix go l := match l with [] => 0 | y :: r => nset y + go r end) b
  | ISetMatched => 1
  | _ => 0
  end.
Fixpoint nsets (l : list instr) : nat := match l with [] => 0 | y :: r => nset y + nsets r end.
Lemma nset_if : forall t b, nset (IIf t b) = nsets b.
Proof. intros t b. induction b; simpl in *; auto. Qed.
Lemma nsets_app : forall l m, nsets (l ++ m) = nsets l + nsets m.
Proof. induction l; intros; simpl; auto. rewrite IHl. lia. Qed.

(** Instructions that must come before ISetMatched in the same call. *)
Fixpoint needs (x : instr) : bool :=
  match x with
  | IIf _ b => (fix go l := match l with [] => false | y :: r => needs y || go r end) b
  | ISave | ICheckNotEmpty | ICheckNotMatched => true
  | _ => false
  end.
Fixpoint need (l : list instr) : bool := match l with [] => false | y :: r => needs y || need r end.
Lemma needs_if : forall t b, needs (IIf t b) = need b.
Proof. intros t b. induction b; simpl in *; auto. Qed.
Fixpoint followed (l : list instr) : Prop :=
  match l with [] => True | x :: r => (needs x = true -> 0 < nsets r) /\ followed r end.
Lemma followed_app : forall l m, followed m -> (need l = true -> 0 < nsets m) -> followed (l ++ m).
Proof.
  induction l as [|x l IH]; intros m H N; simpl; auto. simpl in N. split.
  - intros E. rewrite E in N. rewrite nsets_app. specialize (N eq_refl). lia.
  - apply IH; auto. intros E. apply N. rewrite E. apply orb_true_r.
Qed.
Lemma followed_app2 : forall l m, followed l -> followed m -> followed (l ++ m).
Proof.
  induction l as [|x l IH]; intros m H K; simpl; auto. destruct H as [H1 H2]. split; auto.
  intros E. rewrite nsets_app. specialize (H1 E). lia.
Qed.

(** Drops that have already been decided, i.e. outside the test of the inactive time. *)
Fixpoint ndrop (x : instr) : nat :=
  match x with
  | IIf TOld _ => 0
  | IIf _ b => (fix go l := match l with [] => 0 | y :: r => ndrop y + go r end) b
  | IDropCloud => 1
  | _ => 0
  end.
Fixpoint ndrops (l : list instr) : nat := match l with [] => 0 | y :: r => ndrop y + ndrops r end.
Lemma ndrop_if : forall t b, ndrop (IIf t b) = match t with TOld => 0 | _ => ndrops b end.
Proof. intros t b. destruct t; simpl; auto; induction b; simpl in *; auto. Qed.
Lemma ndrops_app : forall l m, ndrops (l ++ m) = ndrops l + ndrops m.
Proof. induction l; intros; simpl; auto. rewrite IHl. lia. Qed.
(** One decision, one drop. *)
Fixpoint single (x : instr) : bool :=
  match x with
  | IIf t b => (fix go l := match l with [] => true | y :: r => single y && go r end) b &&
               match t with TOld => Nat.leb (ndrops b) 1 | _ => true end
  | _ => true
  end.
Definition singles (l : list instr) : bool := forallb single l.
Lemma single_if : forall t b, single (IIf t b) =
  singles b && match t with TOld => Nat.leb (ndrops b) 1 | _ => true end.
Proof. intros t b. simpl. f_equal. Qed.

(** Size, the number of steps left at most. *)
Fixpoint size (x : instr) : nat :=
  match x with
  | IIf _ b => S ((fix go l := match l with [] => 0 | y :: r => size y + go r end) b)
  | _ => 1
  end.
Fixpoint sizes (l : list instr) : nat := match l with [] => 0 | y :: r => size y + sizes r end.
Lemma size_if : forall t b, size (IIf t b) = S (sizes b).
Proof. intros t b. reflexivity. Qed.
Lemma sizes_app : forall l m, sizes (l ++ m) = sizes l + sizes m.
Proof. induction l; intros; simpl; auto. rewrite IHl. lia. Qed.

(** * Invariants. *)
Section Inv.
Variable P : Type.
Variable disk_saving : bool.
Variable delay : Z.
Notation state := (state P).
Notation data := (data P).
Notation step := (@step P disk_saving delay).
Notation reach := (@reach P disk_saving delay).

(** The possible steps. *)
Inductive stepped (s : state) (i : nat) (t : thread) : outcome state -> Prop :=
| st_lock : forall m o k r, t_todo t = ILock m o :: k -> rw_step (lock_of s m) o = Some r ->
    stepped s i t (Ok (put (set_lock s m r) i (set_owns t m (mode_step o) k)))
| st_if : forall c body k, t_todo t = IIf c body :: k ->
    stepped s i t (Ok (put (put_data s (log_test (s_data s) (run_test disk_saving delay (s_data s) c) c)) i
      (mkThread (t_submap t) (t_cloud t)
                (if run_test disk_saving delay (s_data s) c then body ++ k else k))))
| st_act : forall x k d, t_todo t = x :: k -> (forall m o, x <> ILock m o) -> (forall c b, x <> IIf c b) ->
    act i (s_data s) x = Ok d ->
    stepped s i t (Ok (put (put_data s d) i (mkThread (t_submap t) (t_cloud t) k)))
| st_abort : forall x k o, t_todo t = x :: k -> (forall m o, x <> ILock m o) -> (forall c b, x <> IIf c b) ->
    act i (s_data s) x = o -> (forall d, o <> Ok d) -> stepped s i t Abort.

Lemma act_abort : forall i d x, (exists d', act i d x = Ok d') \/ @act P i d x = Abort.
Proof.
  intros i d x. destruct x; simpl; eauto.
  - destruct (d_file d) as [[|]|]; eauto.
  - destruct (d_in_memory d); eauto.
  - destruct (d_inner d); eauto.
  - destruct (d_matched d); eauto.
Qed.

Lemma step_inv : forall s i o, step s i = Some o -> exists t, nth_error (s_threads s) i = Some t /\ stepped s i t o.
Proof.
  intros s i o H. unfold EvictModel.step in H. destruct (nth_error (s_threads s) i) as [t|] eqn:E; [|discriminate].
  exists t. split; auto.
  destruct (t_todo t) as [|x k] eqn:T; [discriminate|].
  assert (A : forall o, (forall m o, x <> ILock m o) -> (forall c b, x <> IIf c b) ->
     Some (match act i (s_data s) x with
                | Ok d => Ok (put (put_data s d) i (mkThread (t_submap t) (t_cloud t) k))
                | Abort => Abort | Throw => Throw | UB => UB
                end) = Some o -> stepped s i t o).
  { intros o' N1 N2 Q. destruct (act_abort i (s_data s) x) as [[d K]|K]; rewrite K in Q; inversion Q; subst.
    - eapply st_act; eauto.
    - eapply st_abort; eauto. congruence. }
  destruct x; try (apply A; auto; congruence).
  - destruct (rw_step (lock_of s m) o0) as [r|] eqn:R; [|discriminate]. inversion H; subst.
    eapply st_lock; eauto.
  - inversion H; subst. eapply st_if; eauto.
Qed.

Definition inv_lock (s : state) : Prop :=
  lock_ok (s_submap s) MSubmap (s_threads s) /\ lock_ok (s_cloud s) MCloud (s_threads s) /\
  forall i t, nth_error (s_threads s) i = Some t -> exists k sv, typed t k sv.

Lemma put_threads : forall (s : state) i t, s_threads (put s i t) = update (s_threads s) i t.
Proof. reflexivity. Qed.

(** Typing after a test. *)
Lemma typed_if : forall t c body k kn sv, t_todo t = IIf c body :: k -> typed t kn sv ->
  (typed (mkThread (t_submap t) (t_cloud t) (body ++ k)) kn sv) /\
   exists kn' sv', typed (mkThread (t_submap t) (t_cloud t) k) kn' sv' /\
   (c = TNotInMemory -> kn = KNone /\ kn' = KMem /\ t_cloud t = Upgrade /\ sv' = sv) /\
   (c <> TNotInMemory -> kn' = kn) /\ (c <> TDisk -> sv' = sv).
Proof.
  intros t c body k kn sv T H. unfold typed in *. rewrite T in H. cbn [tys] in H. rewrite ty_if in H. simpl t_todo.
  simpl t_submap. simpl t_cloud.
  set (s0 := mkTs (t_submap t) (t_cloud t) kn sv) in *.
  destruct (tys s0 body) as [s'|] eqn:B; [|discriminate].
  assert (X : forall u, (match (if ts_eqb s' u then Some u else None) with Some s'0 => tys s'0 k | None => None end) = Some ts0 ->
          s' = u /\ tys u k = Some ts0).
  { intros u Q. destruct (ts_eqb s' u) eqn:E; [|discriminate]. apply ts_eqb_eq in E. auto. }
  destruct c.
  - destruct (X s0 H) as [-> Y]. rewrite tys_app, B. split; auto.
    exists kn, sv. repeat split; auto; congruence.
  - destruct (ts_eqb s' _) eqn:E in H; [|discriminate]. apply ts_eqb_eq in E.
    rewrite tys_app, B. split; auto.
    exists kn, (ts_sv s'). rewrite E in H. simpl in H. repeat split; auto; congruence.
  - destruct (X s0 H) as [-> Y]. rewrite tys_app, B. split; auto.
    exists kn, sv. repeat split; auto; congruence.
  - destruct (X s0 H) as [-> Y]. rewrite tys_app, B. split; auto.
    exists kn, sv. repeat split; auto; congruence.
  - destruct (mode_eqb _ _ && know_eqb _ _ && ts_eqb _ _) eqn:E in H; [|discriminate].
    apply andb_true_iff in E; destruct E as [E E3]; apply andb_true_iff in E; destruct E as [E1 E2].
    apply mode_eqb_eq in E1. apply know_eqb_eq in E2. apply ts_eqb_eq in E3. simpl in *.
    rewrite tys_app, B. split; auto.
    exists KMem, sv. rewrite E3 in H. repeat split; auto; congruence.
Qed.

(** Typing after the other instructions. *)
Lemma typed_act : forall t x k kn sv, t_todo t = x :: k -> (forall m o, x <> ILock m o) -> (forall c b, x <> IIf c b) ->
  typed t kn sv -> exists kn' sv', typed (mkThread (t_submap t) (t_cloud t) k) kn' sv' /\
   match x with
    | IDropCloud => t_cloud t = Exclusive /\ kn' = KDropped /\ sv' = sv
    | ILoadCloud => t_cloud t = Exclusive /\ kn' = KLoaded /\ sv' = sv
    | ISetInMemory true => t_cloud t = Exclusive /\ (kn = KLoaded \/ kn = KMem) /\ kn' = KMem /\ sv' = sv
    | ISetInMemory false => t_cloud t = Exclusive /\ kn = KDropped /\ kn' = KNone /\ sv' = sv
    | ICheckInMemory => t_cloud t = Upgrade /\ kn = KMem /\ kn' = kn /\ sv' = sv
    | ICheckNotEmpty => t_cloud t = Shared /\ kn' = kn /\ sv' = sv
    | ISave => t_cloud t = Shared /\ kn' = kn /\ sv' = true
    | ISetMatched => sv = true /\ kn' = kn /\ sv' = false
    | ITouchFrames => (t_submap t = Shared \/ t_submap t = Upgrade \/ t_submap t = Exclusive) /\ kn' = kn /\ sv' = sv
    | IWritePoses => t_submap t = Exclusive /\ kn' = kn /\ sv' = sv
    | _ => kn' = kn /\ sv' = sv
    end.
Proof.
  intros t x k kn sv T N1 N2 H. unfold typed in *. rewrite T in H. simpl t_todo. simpl t_submap. simpl t_cloud.
  simpl in H.
  destruct x; try (exfalso; eapply N1; reflexivity); try (exfalso; eapply N2; reflexivity);
   simpl in H; try (exists kn, sv; auto; fail).
  - destruct (mode_eqb _ _) eqn:E in H; [|discriminate]. apply mode_eqb_eq in E. exists KDropped, sv. auto.
  - destruct (mode_eqb _ _) eqn:E in H; [|discriminate]. apply mode_eqb_eq in E. exists KLoaded, sv. auto.
  - destruct (mode_eqb _ _) eqn:E in H; [|discriminate]. apply mode_eqb_eq in E.
    destruct b, kn; try discriminate; eexists _, sv; eauto 7.
  - destruct (mode_eqb _ _ && know_eqb _ _) eqn:E in H; [|discriminate].
    apply andb_true_iff in E; destruct E as [E E3]. apply mode_eqb_eq in E. apply know_eqb_eq in E3.
    exists kn, sv. auto.
  - destruct (mode_eqb _ _) eqn:E in H; [|discriminate]. apply mode_eqb_eq in E. exists kn, sv. auto.
  - destruct (mode_eqb _ _) eqn:E in H; [|discriminate]. apply mode_eqb_eq in E. exists kn, true. auto.
  - destruct sv; [|discriminate]. exists kn, false. auto.
  - destruct (mode_eqb _ _ || mode_eqb _ _ || mode_eqb _ _) eqn:E in H; [|discriminate].
    apply orb_true_iff in E. rewrite orb_true_iff in E.
    exists kn, sv. destruct E as [[E|E]|E]; apply mode_eqb_eq in E; auto 6.
  - destruct (mode_eqb _ _) eqn:E in H; [|discriminate]. apply mode_eqb_eq in E. exists kn, sv. auto.
Qed.

Lemma inv_lock_step : forall s i t s', inv_lock s -> nth_error (s_threads s) i = Some t -> stepped s i t (Ok s') ->
  inv_lock s'.
Proof.
  intros s i t s' (L1 & L2 & L3) Hi St.
  inversion St as [m o k r Tk Hr Eq | c body k Tk Eq | x k d Tk N1 N2 Ha Eq | ]; subst; clear St.
  - destruct (L3 _ _ Hi) as (kn & sv & Ty).
    destruct (typed_lock _ _ _ _ _ _ Tk Ty) as (x & kn' & A & B & C & _). rewrite B in *.
    split; [|split].
    + destruct m.
      * exact (lock_ok_step (s_submap s) MSubmap (s_threads s) i t o r x k L1 Hi Hr A).
      * exact (lock_ok_same (s_submap s) MSubmap (s_threads s) i t (set_owns t MCloud x k) L1 Hi eq_refl).
    + destruct m.
      * exact (lock_ok_same (s_cloud s) MCloud (s_threads s) i t (set_owns t MSubmap x k) L2 Hi eq_refl).
      * exact (lock_ok_step (s_cloud s) MCloud (s_threads s) i t o r x k L2 Hi Hr A).
    + intros j u Hj. assert (Hj' : nth_error (update (s_threads s) i (set_owns t m x k)) j = Some u) by (destruct m; exact Hj).
      destruct (nth_update _ _ _ _ _ _ Hi Hj') as [[-> ->]|[_ K]]; eauto.
  - destruct (L3 _ _ Hi) as (kn & sv & Ty).
    destruct (typed_if _ _ _ _ _ _ Tk Ty) as (A & kn' & sv' & B & _).
    split; [|split]; simpl.
    + eapply lock_ok_same; eauto.
    + eapply lock_ok_same; eauto.
    + intros j u Hj. destruct (nth_update _ _ _ _ _ _ Hi Hj) as [[-> ->]|[_ K]]; eauto.
      destruct (run_test _ _ _ _); eauto.
  - destruct (L3 _ _ Hi) as (kn & sv & Ty).
    destruct (typed_act _ _ _ _ _ Tk N1 N2 Ty) as (kn' & sv' & B & _).
    split; [|split]; simpl.
    + eapply lock_ok_same; eauto.
    + eapply lock_ok_same; eauto.
    + intros j u Hj. destruct (nth_update _ _ _ _ _ _ Hi Hj) as [[-> ->]|[_ K]]; eauto.
Qed.

Lemma start_threads : forall (c : list P) calls i t, nth_error (s_threads (start c calls)) i = Some t ->
  exists cs, nth_error calls i = Some cs /\ t = mkThread No No (flat_map code cs).
Proof.
  intros c calls i t H. simpl in H. rewrite nth_error_map in H.
  destruct (nth_error calls i) as [cs|]; simpl in H; inversion H; eauto.
Qed.
Lemma start_n : forall (c : list P) calls x m, x <> No -> n_of x m (s_threads (start c calls)) = 0.
Proof.
  intros c calls x m N. unfold n_of. simpl. induction calls as [|cs calls IH]; simpl; auto.
  rewrite IH. destruct m, x; simpl; auto; congruence.
Qed.

Lemma inv_lock_start : forall (c : list P) calls, inv_lock (start c calls).
Proof.
  intros c calls.
  assert (L : forall m, lock_ok rw_free m (s_threads (start c calls))).
  { intros m. constructor; rewrite ?start_n by congruence; simpl; lia. }
  split; [apply L|]. split; [apply L|].
  intros i t H. destruct (start_threads _ _ _ _ H) as (cs & _ & ->). exists KNone, false. apply codes_typed.
Qed.

Lemma reach_lock : forall c calls o, reach c calls o -> forall s, o = Ok s -> inv_lock s.
Proof.
  intros c calls o R. induction R; intros s0 E.
  - inversion E. apply inv_lock_start.
  - subst. destruct (step_inv _ _ _ H) as (t & A & B). eapply inv_lock_step; eauto.
Qed.

(** Mutual exclusion. *)
Lemma exclusion : forall s m i j t u, inv_lock s -> i <> j ->
  nth_error (s_threads s) i = Some t -> nth_error (s_threads s) j = Some u ->
  compatible (owns t m) (owns u m) = true.
Proof.
  intros s m i j t u (L1 & L2 & _) N Hi Hj.
  assert (L : lock_ok (lock_of s m) m (s_threads s)) by (destruct m; auto). clear L1 L2.
  destruct L as [A B C D E].
  assert (G : forall x, is_mode x m t + is_mode x m u <= n_of x m (s_threads s)).
  { intros x. eapply cnt_two; eauto. }
  pose proof (G Shared) as G1. pose proof (G Upgrade) as G2. pose proof (G Waiting) as G3.
  pose proof (G Exclusive) as G4. unfold is_mode in *.
  destruct (owns t m), (owns u m); simpl in *; auto; exfalso; lia.
Qed.
Lemma alone : forall s i j t u, inv_lock s -> i <> j -> nth_error (s_threads s) i = Some t ->
  nth_error (s_threads s) j = Some u -> t_cloud t = Exclusive -> t_cloud u = No.
Proof.
  intros s i j t u L N Hi Hj E. pose proof (exclusion s MCloud i j t u L N Hi Hj) as H. simpl in H.
  rewrite E in H. destruct (t_cloud u); simpl in H; congruence.
Qed.

(** Deadlock freedom. *)
Definition can (s : state) (t : thread) : Prop :=
  match t_todo t with
  | [] => False
  | ILock m o :: _ => rw_step (lock_of s m) o <> None
  | _ => True
  end.
Lemma can_step : forall s i t, nth_error (s_threads s) i = Some t -> can s t -> exists o, step s i = Some o.
Proof.
  intros s i t H C. unfold EvictModel.step, can in *. rewrite H.
  destruct (t_todo t) as [|x k]; [contradiction|].
  destruct x; eauto. destruct (rw_step (lock_of s m) o); [eauto|congruence].
Qed.
(** An owner of the cloud mutex never waits for anything but the upgrade. *)
Lemma owner_steps : forall s i t m, inv_lock s -> nth_error (s_threads s) i = Some t ->
  (m = MSubmap -> t_cloud t = No /\ forall r o k, t_todo t = ILock MCloud o :: k -> rw_step (s_cloud s) o = r -> r <> None) ->
  owns t m = Shared \/ owns t m = Upgrade \/ owns t m = Exclusive -> can s t.
Proof.
  intros s i t m (L1 & L2 & L3) Hi Hm O. destruct (L3 _ _ Hi) as (kn & sv & Ty).
  unfold can. destruct (t_todo t) as [|x k] eqn:T.
  - unfold typed in Ty. rewrite T in Ty. simpl in Ty. inversion Ty. destruct m; simpl in O; destruct O as [O|[O|O]]; congruence.
  - destruct x as [m' o| | | | | | | | | | | | | |]; auto.
    destruct (typed_lock _ _ _ _ _ _ T Ty) as (x & kn' & A & B & C & D & _).
    destruct m, m'.
    + destruct o; simpl; try congruence; destruct O as [O|[O|O]]; rewrite O in A; simpl in A; discriminate.
    + destruct (Hm eq_refl) as [_ Hr]. simpl. eapply Hr; eauto.
    + destruct (D eq_refl) as [D1 _]. simpl in O. destruct O as [O|[O|O]]; congruence.
    + destruct o; simpl; try congruence; destruct O as [O|[O|O]]; rewrite O in A; simpl in A; discriminate.
Qed.
Lemma mode_of : forall x m t, 0 < is_mode x m t -> owns t m = x.
Proof.
  intros x m t H. unfold is_mode in H. destruct (mode_eqb (owns t m) x) eqn:E; [|lia]. apply mode_eqb_eq; auto.
Qed.

(** If somebody owns [m] in some mode, somebody can step, given that owners of [m] do not
    wait for the other mutex. *)
Lemma owned_progress : forall s m, inv_lock s ->
  (forall i t, nth_error (s_threads s) i = Some t -> m = MSubmap -> t_cloud t = No /\ forall r o k, t_todo t = ILock MCloud o :: k -> rw_step (s_cloud s) o = r -> r <> None) ->
  0 < n_of Shared m (s_threads s) + n_of Upgrade m (s_threads s) + n_of Waiting m (s_threads s) + n_of Exclusive m (s_threads s) ->
  exists i o, step s i = Some o.
Proof.
  intros s m L Hm N.
  assert (X : forall x, x = Shared \/ x = Upgrade \/ x = Exclusive -> 0 < n_of x m (s_threads s) -> exists i o, step s i = Some o).
  { intros x Hx Nx. destruct (cnt_pos _ _ Nx) as (i & t & Hi & Ho). apply mode_of in Ho.
    exists i. eapply can_step; eauto. eapply owner_steps; eauto. rewrite Ho. auto. }
  destruct (Nat.eq_dec (n_of Shared m (s_threads s)) 0) as [E1|E1]; [|apply (X Shared); auto; lia].
  destruct (Nat.eq_dec (n_of Upgrade m (s_threads s)) 0) as [E2|E2]; [|apply (X Upgrade); auto; lia].
  destruct (Nat.eq_dec (n_of Exclusive m (s_threads s)) 0) as [E3|E3]; [|apply (X Exclusive); auto; lia].
  assert (Nx : 0 < n_of Waiting m (s_threads s)) by lia.
  destruct (cnt_pos _ _ Nx) as (i & t & Hi & Ho). apply mode_of in Ho.
  exists i. eapply can_step; eauto.
  destruct L as (L1 & L2 & L3). destruct (L3 _ _ Hi) as (kn & sv & Ty).
  unfold can. destruct (t_todo t) as [|x k] eqn:T.
  - unfold typed in Ty. rewrite T in Ty. simpl in Ty. inversion Ty. destruct m; simpl in Ho; congruence.
  - destruct x as [m' o| | | | | | | | | | | | | |]; auto.
    destruct (typed_lock _ _ _ _ _ _ T Ty) as (x & kn' & A & B & C & D & _).
    destruct m, m'.
    + rewrite Ho in A. destruct o; simpl in A; try discriminate. simpl.
      destruct L1 as [Q1 _ _ _ _]. rewrite Q1, E1, E2. simpl. congruence.
    + destruct (Hm _ _ Hi eq_refl) as [_ Hr]. simpl. eapply Hr; eauto.
    + destruct (D eq_refl) as [D1 _]. simpl in Ho. congruence.
    + rewrite Ho in A. destruct o; simpl in A; try discriminate. simpl.
      destruct L2 as [Q1 _ _ _ _]. rewrite Q1, E1, E2. simpl. congruence.
Qed.

Lemma free_lock : forall r m l o x t, lock_ok r m l ->
  n_of Shared m l + n_of Upgrade m l + n_of Waiting m l + n_of Exclusive m l = 0 ->
  ty_lock (owns t m) o = Some x -> owns t m = No -> rw_step r o <> None.
Proof.
  intros r m l o x t [A B C D E] N T O. rewrite O in T.
  destruct r as [rc ru re]; simpl in *. destruct ru; simpl in B; [lia|]. destruct re; simpl in C; [lia|].
  destruct o; simpl in *; congruence.
Qed.

Lemma no_n : forall (s : state) i t m, nth_error (s_threads s) i = Some t ->
  n_of Shared m (s_threads s) + n_of Upgrade m (s_threads s) + n_of Waiting m (s_threads s) + n_of Exclusive m (s_threads s) = 0 ->
  owns t m = No.
Proof.
  intros s i t m Hi N.
  assert (G : forall x, is_mode x m t <= n_of x m (s_threads s)) by (intros; eapply cnt_ge; eauto).
  pose proof (G Shared) as G1. pose proof (G Upgrade) as G2. pose proof (G Waiting) as G3.
  pose proof (G Exclusive) as G4. unfold is_mode in *.
  destruct (owns t m); simpl in *; auto; lia.
Qed.

Lemma no_deadlock : forall s, inv_lock s -> (exists i t, nth_error (s_threads s) i = Some t /\ t_todo t <> []) ->
  exists i o, step s i = Some o.
Proof.
  intros s L (i & t & Hi & Ht).
  set (nc := n_of Shared MCloud (s_threads s) + n_of Upgrade MCloud (s_threads s) + n_of Waiting MCloud (s_threads s) + n_of Exclusive MCloud (s_threads s)).
  set (nm := n_of Shared MSubmap (s_threads s) + n_of Upgrade MSubmap (s_threads s) + n_of Waiting MSubmap (s_threads s) + n_of Exclusive MSubmap (s_threads s)).
  destruct (Nat.eq_dec nc 0) as [Ec|Ec].
  2:{ apply (owned_progress s MCloud); [auto | intros; discriminate | unfold nc in Ec; lia]. }
  assert (Fc : forall j u, nth_error (s_threads s) j = Some u -> t_cloud u = No).
  { intros j u Hj. exact (no_n s j u MCloud Hj Ec). }
  assert (Rc : forall j u, nth_error (s_threads s) j = Some u -> forall r o k, t_todo u = ILock MCloud o :: k -> rw_step (s_cloud s) o = r -> r <> None).
  { intros j u Hj r o k Hk Hr. destruct L as (L1 & L2 & L3). destruct (L3 _ _ Hj) as (kn & sv & Ty).
    destruct (typed_lock _ _ _ _ _ _ Hk Ty) as (x & kn' & A & _). subst r.
    eapply free_lock; eauto. }
  destruct (Nat.eq_dec nm 0) as [Em|Em].
  2:{ apply (owned_progress s MSubmap); [auto | intros j u Hj _; split; eauto | unfold nm in Em; lia]. }
  exists i. eapply can_step; eauto. unfold can. destruct (t_todo t) as [|x k] eqn:T; [congruence|].
  destruct x as [m o| | | | | | | | | | | | | |]; auto.
  destruct m.
  - destruct L as (L1 & L2 & L3). destruct (L3 _ _ Hi) as (kn & sv & Ty).
    destruct (typed_lock _ _ _ _ _ _ T Ty) as (x & kn' & A & _).
    eapply free_lock; eauto. exact (no_n s i t MSubmap Hi Em).
  - eapply Rc; eauto.
Qed.

(** Termination. *)
Definition todo_size (t : thread) : nat := sizes (t_todo t).
Lemma size_pos : forall x, 0 < size x.
Proof. destruct x; simpl; lia. Qed.
Lemma step_size : forall s i s', step s i = Some (Ok s') -> cnt todo_size (s_threads s') < cnt todo_size (s_threads s).
Proof.
  intros s i s' H. destruct (step_inv _ _ _ H) as (t & Hi & St).
  assert (X : forall t', todo_size t' < todo_size t -> cnt todo_size (update (s_threads s) i t') < cnt todo_size (s_threads s)).
  { intros t' Lt. pose proof (cnt_update todo_size _ _ _ t' Hi). lia. }
  inversion St as [m o k r Tk Hr Eq | c body k Tk Eq | x k d Tk N1 N2 Ha Eq | ]; subst; clear St.
  - assert (E : s_threads (put (set_lock s m r) i (set_owns t m (mode_step o) k)) = update (s_threads s) i (set_owns t m (mode_step o) k))
      by (destruct m; reflexivity).
    rewrite E. apply X. unfold todo_size. rewrite todo_set, Tk. simpl. lia.
  - simpl. apply X. unfold todo_size. rewrite Tk. simpl t_todo.
    change (sizes (IIf c body :: k)) with (size (IIf c body) + sizes k). rewrite size_if.
    destruct (run_test _ _ _ _); rewrite ?sizes_app; lia.
  - simpl. apply X. unfold todo_size. rewrite Tk. simpl. pose proof (size_pos x). lia.
Qed.
Lemma follow_bound : forall l (s s' : state), follow disk_saving delay s l = Some (Ok s') ->
  cnt todo_size (s_threads s') + length l <= cnt todo_size (s_threads s).
Proof.
  induction l as [|i l IH]; intros s s' H; simpl in H.
  - inversion H; subst. simpl. lia.
  - destruct (step s i) as [[s1| | |]|] eqn:E; try discriminate.
    specialize (IH _ _ H). apply step_size in E. simpl. lia.
Qed.

(** The locks are free at the end. *)
Lemma all_free : forall s, inv_lock s -> (forall i t, nth_error (s_threads s) i = Some t -> t_todo t = []) ->
  s_submap s = rw_free /\ s_cloud s = rw_free.
Proof.
  intros s (L1 & L2 & L3) F.
  assert (Z : forall m x, x <> No -> n_of x m (s_threads s) = 0).
  { intros m x Nx. destruct (Nat.eq_dec (n_of x m (s_threads s)) 0); auto.
    destruct (cnt_pos (is_mode x m) (s_threads s)) as (i & t & Hi & Ho); [unfold n_of in *; lia|].
    apply mode_of in Ho. destruct (L3 _ _ Hi) as (kn & sv & Ty). unfold typed in Ty. rewrite (F _ _ Hi) in Ty.
    simpl in Ty. inversion Ty. destruct m; simpl in Ho; congruence. }
  assert (Q : forall r m, lock_ok r m (s_threads s) -> r = rw_free).
  { intros [rc ru re] m [A B C D E]. rewrite !Z in * by congruence. simpl in *.
    destruct ru; simpl in B; [lia|]. destruct re; simpl in C; [lia|]. subst. reflexivity. }
  split; eapply Q; eauto.
Qed.
End Inv.

(** * Which accesses can race. *)
Section Race.
Variable P : Type.
Lemma access_owns : forall (s : state P) i t x k m w, inv_lock P s -> nth_error (s_threads s) i = Some t ->
  t_todo t = x :: k -> access x = Some (m, w) -> x <> IGetInner ->
  match m with
  | InnerCloud => if w then t_cloud t = Exclusive else t_cloud t = Shared
  | Frames => if w then t_submap t = Exclusive
              else t_submap t = Shared \/ t_submap t = Upgrade \/ t_submap t = Exclusive
  end.
Proof.
  intros s i t x k m w (_ & _ & L) Hi T A N. destruct (L _ _ Hi) as (kn & sv & Ty).
  assert (N1 : forall m o, x <> ILock m o) by (intros; destruct x; simpl in A; congruence).
  assert (N2 : forall c b, x <> IIf c b) by (intros; destruct x; simpl in A; congruence).
  destruct (typed_act _ _ _ _ _ T N1 N2 Ty) as (kn' & sv' & _ & C).
  destruct x; simpl in A; inversion A; subst; try tauto; congruence.
Qed.
Lemma race_get : forall (s : state P) i j t u, inv_lock P s -> i <> j ->
  nth_error (s_threads s) i = Some t -> nth_error (s_threads s) j = Some u -> races t u ->
  about_to_get t \/ about_to_get u.
Proof.
  intros s i j t u L Nij Hi Hj (x & k & y & l & m & a & b & T & U & A & B & W).
  assert (Dx : x = IGetInner \/ x <> IGetInner) by (destruct x; (left; reflexivity) || (right; congruence)).
  assert (Dy : y = IGetInner \/ y <> IGetInner) by (destruct y; (left; reflexivity) || (right; congruence)).
  destruct Dx as [->|Nx]; [left; eexists; eauto|]. destruct Dy as [->|Ny]; [right; eexists; eauto|].
  exfalso.
  pose proof (access_owns s i t x k m a L Hi T A Nx) as P1.
  pose proof (access_owns s j u y l m b L Hj U B Ny) as P2.
  destruct m.
  - pose proof (exclusion P s MCloud i j t u L Nij Hi Hj) as E. simpl in E.
    destruct a, b; try discriminate; rewrite P1, P2 in E; discriminate.
  - pose proof (exclusion P s MSubmap i j t u L Nij Hi Hj) as E. simpl in E.
    destruct a, b; try discriminate.
    + rewrite P1, P2 in E; discriminate.
    + destruct P2 as [P2|[P2|P2]]; rewrite P1, P2 in E; discriminate.
    + destruct P1 as [P1|[P1|P1]]; rewrite P1, P2 in E; discriminate.
Qed.
End Race.
