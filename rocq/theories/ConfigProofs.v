(** Proofs about ConfigModel. *)
From Coq Require Import ZArith List Bool String Ascii SpecFloat Lia.
From Verif Require Import Outcome FilterModel FilesModel ConfigModel ConfigSpec.
Import ListNotations.
Local Open Scope string_scope.
Local Open Scope list_scope.

Section Proofs.
Variable int_of : string -> Z.
Variable float_of : string -> fl.
Variable tan15 : fl.
Notation init_param := (init_param int_of float_of).
Notation reads := (reads int_of float_of).
Notation good := (good int_of float_of).
Notation unknown := (unknown int_of).
Notation overflows := (overflows int_of float_of).

(** Same type. *)
Definition same (v w : value) : Prop :=
  match v, w with VInt _, VInt _ | VFloat _, VFloat _ => True | _, _ => False end.
Lemma reads_same : forall d d' p v, same d d' -> reads d p v -> reads d' p v.
Proof. intros d d' p v S R. destruct R, d'; simpl in S; try contradiction; solve [eapply int_as_int; eauto | eapply int_as_float; eauto | eapply float_as_int; eauto | eapply float_as_float; eauto]. Qed.
Lemma reads_same_value : forall d p v, reads d p v -> same d v.
Proof. intros d p v R. destruct R; simpl; auto. Qed.
Lemma reads_fun : forall d p v w, reads d p v -> reads d p w -> v = w.
Proof. intros d p v w R S. inversion R; subst; inversion S; subst; try congruence. Qed.

(** Same names and types. *)
Definition shape (ps qs : params) : Prop := Forall2 (fun a b => fst a = fst b /\ same (snd a) (snd b)) ps qs.
Lemma same_refl : forall v, same v v.
Proof. destruct v; simpl; auto. Qed.
Lemma shape_refl : forall ps, shape ps ps.
Proof. induction ps; constructor; auto. split; auto. apply same_refl. Qed.
Lemma same_trans : forall u v w, same u v -> same v w -> same u w.
Proof. destruct u, v, w; simpl; tauto. Qed.
Lemma shape_trans : forall a b c, shape a b -> shape b c -> shape a c.
Proof.
  intros a b c H. revert c. induction H as [|x y a b [E S] H IH]; intros c K; inversion K as [|? z ? c' [E' S'] K']; subst; constructor.
  - split; [congruence|]. eapply same_trans; eauto.
  - apply IH; auto.
Qed.
Lemma shape_names : forall a b, shape a b -> map fst a = map fst b.
Proof. intros a b H. induction H as [|x y a b [E S] H IH]; simpl; congruence. Qed.
Lemma shape_find : forall a b s, shape a b ->
  match find_name a s, find_name b s with
  | Some v, Some w => same v w
  | None, None => True
  | _, _ => False
  end.
Proof.
  intros a b s H. induction H as [|[k v] [k' w] a b [E S] H IH]; simpl; auto. simpl in E, S. subst k'.
  destruct (String.eqb k s); auto.
Qed.

Lemma to_int_cases : forall x, (exists z, to_int x = Ok z) \/ to_int x = UB.
Proof. intros x. unfold to_int. destruct (trunc_fl x); auto. destruct (_ && _); eauto. Qed.

Lemma set_value_none : forall ps s v, find_name ps s = None -> set_value ps s v = Ok None.
Proof.
  induction ps as [|[k w] ps IH]; intros s v H; simpl in *; auto. destruct (String.eqb k s); [discriminate|].
  rewrite IH; auto.
Qed.
Lemma set_value_some : forall ps s v d, find_name ps s = Some d ->
  match cast d v with
  | Ok w => exists qs, set_value ps s v = Ok (Some qs) /\
      (same d w -> shape ps qs) /\ (forall t, find_name qs t = if String.eqb s t then Some w else find_name ps t)
  | o => set_value ps s v = match o with Ok _ => Abort | Abort => Abort | Throw => Throw | UB => UB end
  end.
Proof.
  induction ps as [|[k x] ps IH]; intros s v d H; simpl in *; [discriminate|].
  destruct (String.eqb k s) eqn:E.
  - inversion H; subst x. apply String.eqb_eq in E. subst k.
    destruct (cast d v); simpl; auto. eexists. split; [reflexivity|]. split.
    + intros S. constructor; auto. apply shape_refl.
    + intros t. simpl. destruct (String.eqb s t); auto.
  - specialize (IH s v d H). destruct (cast d v); simpl.
    + destruct IH as (qs & -> & A & B). simpl. eexists. split; [reflexivity|]. split.
      * intros S. specialize (A S). constructor; auto. split; [reflexivity|apply same_refl].
      * intros t. simpl. rewrite B. destruct (String.eqb k t) eqn:F; auto.
        destruct (String.eqb s t) eqn:G; auto. apply String.eqb_eq in F. apply String.eqb_eq in G.
        rewrite <- F in G. subst s. rewrite String.eqb_refl in E. discriminate.
    + rewrite IH. auto.
    + rewrite IH. auto.
    + rewrite IH. auto.
Qed.

(** One <param>. *)
Lemma init_param_cases : forall ps p,
  (exists d v qs, find_name ps (attr_string p "name") = Some d /\ reads d p v /\ init_param ps p = Ok qs /\
     shape ps qs /\ forall t, find_name qs t = if String.eqb (attr_string p "name") t then Some v else find_name ps t) \/
  (unknown ps p /\ init_param ps p = Abort) \/
  (overflows ps p /\ init_param ps p = UB).
Proof.
  intros ps p. unfold ConfigModel.init_param, ConfigSpec.unknown, ConfigSpec.overflows.
  destruct (attr p "type") as [t|] eqn:T; [|right; left; auto].
  destruct (int_of t =? 0)%Z eqn:E0.
  - apply Z.eqb_eq in E0. destruct (find_name ps (attr_string p "name")) as [d|] eqn:F.
    + left. pose proof (set_value_some ps _ (VInt (int_of (n_text p))) d F) as H.
      destruct d; simpl in H; destruct H as (qs & H & A & B); rewrite H; simpl; do 3 eexists;
        (split; [reflexivity|]); (split; [solve [eapply int_as_int; eauto | eapply int_as_float; eauto | eapply float_as_int; eauto | eapply float_as_float; eauto]|]); (split; [reflexivity|]); (split; [apply A; exact I|exact B]).
    + right. left. rewrite set_value_none; auto.
  - destruct (int_of t =? 1)%Z eqn:E1.
    + apply Z.eqb_eq in E1. apply Z.eqb_neq in E0.
      destruct (find_name ps (attr_string p "name")) as [d|] eqn:F.
      * pose proof (set_value_some ps _ (VFloat (float_of (n_text p))) d F) as H. destruct d.
        -- simpl in H. destruct (to_int_cases (float_of (n_text p))) as [[z' E]|E]; rewrite E in H; simpl in H.
           ++ left. destruct H as (qs & H & A & B). rewrite H. simpl. do 3 eexists.
              split; [reflexivity|]. split; [solve [eapply int_as_int; eauto | eapply int_as_float; eauto | eapply float_as_int; eauto | eapply float_as_float; eauto]|]. split; [reflexivity|]. split; [apply A; exact I|exact B].
           ++ right. right. rewrite H. split; auto. do 2 eexists. repeat split; eauto.
        -- simpl in H. left. destruct H as (qs & H & A & B). rewrite H. simpl. do 3 eexists.
           split; [reflexivity|]. split; [solve [eapply int_as_int; eauto | eapply int_as_float; eauto | eapply float_as_int; eauto | eapply float_as_float; eauto]|]. split; [reflexivity|]. split; [apply A; exact I|exact B].
      * right. left. rewrite set_value_none; auto.
    + right. left. apply Z.eqb_neq in E0. apply Z.eqb_neq in E1. auto.
Qed.

Lemma good_not : forall ps p, good ps p -> ~ unknown ps p /\ ~ overflows ps p.
Proof.
  intros ps p (d & v & F & R). unfold ConfigSpec.unknown, ConfigSpec.overflows. split.
  - intros [N|N]; [congruence|].
    destruct R; rewrite H in N; destruct N; congruence.
  - intros (d' & t' & F' & T' & O & U). destruct R; try congruence.

Qed.

(** good, unknown and overflows depend only on the shape. *)
Lemma good_shape : forall ps qs p, shape ps qs -> good ps p -> good qs p.
Proof.
  intros ps qs p S (d & v & F & R). pose proof (shape_find _ _ (attr_string p "name") S) as H. rewrite F in H.
  destruct (find_name qs (attr_string p "name")) as [w|] eqn:G; [|contradiction].
  exists w, v. split; auto. eapply reads_same; eauto.
Qed.
Lemma unknown_shape : forall ps qs p, shape ps qs -> unknown qs p -> unknown ps p.
Proof.
  intros ps qs p S [H|H]; [left|right; auto]. pose proof (shape_find _ _ (attr_string p "name") S) as K. rewrite H in K.
  destruct (find_name ps (attr_string p "name")); auto. contradiction.
Qed.
Lemma overflows_shape : forall ps qs p, shape ps qs -> overflows qs p -> overflows ps p.
Proof.
  intros ps qs p S (d & t & F & R). pose proof (shape_find _ _ (attr_string p "name") S) as K. rewrite F in K.
  destruct (find_name ps (attr_string p "name")) as [[z|x]|] eqn:G; simpl in K; try contradiction.
  exists z, t. auto.
Qed.

(** All the <param> elements. *)
Lemma find_app : forall A (f : A -> bool) l m, find f (l ++ m) = match find f l with Some x => Some x | None => find f m end.
Proof. induction l as [|x l IH]; intros m; simpl; auto. destruct (f x); auto. Qed.
Lemma run_params : forall l ps0 ps, shape ps0 ps ->
  match run init_param ps l with
  | Ok qs => (forall p, In p l -> good ps0 p) /\ shape ps0 qs /\
      (forall s d, find_name ps0 s = Some d ->
        match find (fun p => String.eqb (attr_string p "name") s) (rev l) with
        | None => find_name qs s = find_name ps s
        | Some p => exists v, reads d p v /\ find_name qs s = Some v
        end)
  | Abort => exists p, In p l /\ unknown ps0 p
  | Throw => False
  | UB => exists p, In p l /\ overflows ps0 p
  end.
Proof.
  induction l as [|p l IH]; intros ps0 ps S; simpl.
  - split; [contradiction|]. split; auto.
  - destruct (init_param_cases ps p) as [(d & v & qs & F & R & H & Sq & L)|[[U H]|[O H]]]; rewrite H; simpl.
    + specialize (IH ps0 qs (shape_trans _ _ _ S Sq)). destruct (run init_param qs l) as [rs| | |].
      * destruct IH as (G & Sh & V). split; [|split; auto].
        -- intros q [->|Hq]; auto.
           pose proof (shape_find _ _ (attr_string q "name") S) as K. rewrite F in K.
           destruct (find_name ps0 (attr_string q "name")) as [d0|] eqn:G0; [|contradiction].
           exists d0, v. split; auto. eapply reads_same; [|eauto]. destruct d, d0; simpl in *; auto.
        -- intros s d0 F0. specialize (V s d0 F0). rewrite find_app.
           destruct (find (fun p => String.eqb (attr_string p "name") s) (rev l)) as [q|]; auto.
           rewrite V, L. simpl. destruct (String.eqb (attr_string p "name") s) eqn:E; auto.
           exists v. split; auto. apply String.eqb_eq in E. rewrite E in F.
           pose proof (shape_find _ _ s S) as K. rewrite F0, F in K.
           eapply reads_same; [|eauto]. destruct d, d0; simpl in *; auto.
      * destruct IH as (q & Hq & U). eauto.
      * contradiction.
      * destruct IH as (q & Hq & U). eauto.
    + exists p. split; auto. eapply unknown_shape; eauto.
    + exists p. split; auto. eapply overflows_shape; eauto.
Qed.

(** The loop of the factory. *)
Notation init_loop := (init_loop int_of float_of tan15).
Notation configured := (configured int_of float_of tan15).
Notation class_of := (class_of tan15).
Definition wants (f : node) : bool := match class_of f with Some _ => true | None => false end.
Lemma supported_name : forall s ps, find_name (supported tan15) s = Some ps -> s <> "".
Proof. intros s ps H ->. discriminate. Qed.

Local Opaque supported.
Lemma init_loop_cases : forall l fs, (forall f, In f l -> n_name f = "filter") ->
  match init_loop fs l with
  | Ok os => exists new, os = fs ++ new /\ Forall2 configured (List.filter wants l) new /\
      (forall f p ps, In f l -> class_of f = Some ps -> In p (children f "param") -> good ps p)
  | Abort => exists f p ps, In f l /\ class_of f = Some ps /\ In p (children f "param") /\ unknown ps p
  | Throw => False
  | UB => exists f p ps, In f l /\ class_of f = Some ps /\ In p (children f "param") /\ overflows ps p
  end.
Proof.
  induction l as [|f l IH]; intros fs N; simpl.
  - exists []. rewrite app_nil_r. split; auto.
    split; [constructor | intros f p ps []].
  - unfold wants at 1. destruct (class_of f) as [ps|] eqn:C; unfold ConfigSpec.class_of in C; rewrite C.
    + unfold init_filter. rewrite (N f (or_introl eq_refl)), String.eqb_refl. simpl.
      pose proof (supported_name _ _ C) as Ne. apply String.eqb_neq in Ne. rewrite Ne, String.eqb_refl. simpl.
      pose proof (run_params (children f "param") ps ps (shape_refl ps)) as H.
      destruct (run init_param ps (children f "param")) as [qs| | |]; simpl.
      * destruct H as (G & S & V).
        assert (Cf : configured f (mkFlt (attr_string f "name") qs)).
        { split; auto. exists ps. split; auto. split; [symmetry; apply shape_names; auto|].
          intros s d F. specialize (V s d F). unfold last_param.
          destruct (find _ (rev (children f "param"))); auto. simpl. congruence. }
        specialize (IH (fs ++ [mkFlt (attr_string f "name") qs]) (fun x Hx => N x (or_intror Hx))).
        destruct (init_loop _ l) as [os| | |].
        -- destruct IH as (new & -> & A & B). exists (mkFlt (attr_string f "name") qs :: new).
           rewrite <- app_assoc. split; auto. split; [constructor; auto|].
           intros g p ps' [<-|Hg] Cg Hp; [|eauto]. unfold ConfigSpec.class_of in Cg. rewrite C in Cg. inversion Cg; subst. auto.
        -- destruct IH as (g & p & ps' & Hg & R). exists g, p, ps'. tauto.
        -- contradiction.
        -- destruct IH as (g & p & ps' & Hg & R). exists g, p, ps'. tauto.
      * destruct H as (p & Hp & U). exists f, p, ps. auto.
      * contradiction.
      * destruct H as (p & Hp & U). exists f, p, ps. auto.
    + specialize (IH fs (fun x Hx => N x (or_intror Hx))). destruct (init_loop fs l) as [os| | |].
      * destruct IH as (new & -> & A & B). exists new. split; auto. split; auto.
        intros g p ps' [<-|Hg] Cg Hp; [|eauto]. unfold ConfigSpec.class_of in Cg. congruence.
      * destruct IH as (g & p & ps' & Hg & R). exists g, p, ps'. tauto.
      * contradiction.
      * destruct IH as (g & p & ps' & Hg & R). exists g, p, ps'. tauto.
Qed.
Lemma children_name : forall n s f, In f (children n s) -> n_name f = s.
Proof. intros n s f H. unfold children in H. apply filter_In in H. apply String.eqb_eq. tauto. Qed.

Notation listed := (listed tan15).
Lemma factory_cases : forall n,
  match init_factory int_of float_of tan15 n with
  | Ok os => Forall2 configured (listed n) os /\
      (forall f p ps, In f (listed n) -> class_of f = Some ps -> In p (children f "param") -> good ps p)
  | Abort => exists f p ps, In f (listed n) /\ class_of f = Some ps /\ In p (children f "param") /\ unknown ps p
  | Throw => False
  | UB => exists f p ps, In f (listed n) /\ class_of f = Some ps /\ In p (children f "param") /\ overflows ps p
  end.
Proof.
  intros n. unfold init_factory.
  pose proof (init_loop_cases (children n "filter") [] (children_name n "filter")) as H.
  assert (L : forall f ps, In f (children n "filter") -> class_of f = Some ps -> In f (listed n)).
  { intros f ps A B. apply filter_In. split; auto. rewrite B. auto. }
  destruct (init_loop [] (children n "filter")) as [os| | |]; auto.
  - destruct H as (new & -> & A & B). split; auto. intros f p ps Hf C Hp. apply (B f p ps); auto.
    apply filter_In in Hf. tauto.
  - destruct H as (f & p & ps & A & B & C & D). exists f, p, ps. split; eauto.
  - destruct H as (f & p & ps & A & B & C & D). exists f, p, ps. split; eauto.
Qed.
Lemma good_all : forall n,
  (forall f p ps, In f (listed n) -> class_of f = Some ps -> In p (children f "param") -> good ps p) ->
  exists os, init_factory int_of float_of tan15 n = Ok os.
Proof.
  intros n G. pose proof (factory_cases n) as H. destruct (init_factory int_of float_of tan15 n); eauto.
  - destruct H as (f & p & ps & A & B & C & D). destruct (good_not ps p (G f p ps A B C)). contradiction.
  - contradiction.
  - destruct H as (f & p & ps & A & B & C & D). destruct (good_not ps p (G f p ps A B C)). contradiction.
Qed.
(** * Registration *)
Variable bool_of : string -> bool.
Notation set_option := (set_option int_of float_of bool_of).
Notation init_option := (init_option int_of float_of bool_of).
Notation read_as := (read_as int_of float_of bool_of).
Lemma set_option_cases : forall os s t,
  match set_option os s t with
  | None => ~ In s (map fst os)
  | Some qs => In s (map fst os) /\ map fst qs = map fst os /\
      forall u, find_name qs u = if String.eqb s u then option_map (fun d => read_as d t) (find_name os s) else find_name os u
  end.
Proof.
  induction os as [|[k d] os IH]; intros s t; simpl; auto.
  destruct (String.eqb k s) eqn:E.
  - apply String.eqb_eq in E. subst k. simpl. split; auto. split; auto.
    intros u. destruct (String.eqb s u) eqn:F; auto.
  - apply String.eqb_neq in E. specialize (IH s t). destruct (set_option os s t) as [qs|].
    + destruct IH as (A & B & C). simpl. split; auto. split; [congruence|].
      intros u. destruct (String.eqb k u) eqn:F; auto.
      destruct (String.eqb s u) eqn:G; auto. apply String.eqb_eq in F. apply String.eqb_eq in G. congruence.
    + intros [H|H]; auto.
Qed.
Lemma find_name_in : forall A (l : list (string * A)) s, In s (map fst l) -> exists d, find_name l s = Some d.
Proof.
  induction l as [|[k d] l IH]; intros s H; [contradiction|]. simpl in *. destruct (String.eqb k s) eqn:E; eauto.
  destruct H as [H|H]; auto. apply String.eqb_neq in E. contradiction.
Qed.
Lemma read_as_twice : forall d t u, read_as (read_as d t) u = read_as d u.
Proof. destruct d; auto. Qed.
Lemma run_options : forall l os,
  match run init_option os l with
  | Ok qs => (forall p, In p l -> In (attr_string p "name") (map fst os)) /\ map fst qs = map fst os /\
      forall s d, find_name os s = Some d ->
        find_name qs s = Some (match find (fun p => String.eqb (attr_string p "name") s) (rev l) with
                               | None => d
                               | Some p => read_as d (n_text p)
                               end)
  | Abort => exists p, In p l /\ ~ In (attr_string p "name") (map fst os)
  | Throw => False
  | UB => False
  end.
Proof.
  induction l as [|p l IH]; intros os; simpl.
  - split; [contradiction|]. auto.
  - unfold ConfigModel.init_option at 1. pose proof (set_option_cases os (attr_string p "name") (n_text p)) as H.
    destruct (set_option os (attr_string p "name") (n_text p)) as [qs|]; simpl; [|eauto].
    destruct H as (A & B & C). specialize (IH qs). destruct (run init_option qs l) as [rs| | |]; auto.
    + destruct IH as (D & E & F). split; [|split; [congruence|]].
      * intros q [<-|Hq]; auto. rewrite <- B. auto.
      * intros s d G. rewrite find_app. simpl.
        specialize (C s). destruct (String.eqb (attr_string p "name") s) eqn:Eq.
        -- apply String.eqb_eq in Eq. subst s. rewrite G in C. simpl in C. specialize (F _ _ C). rewrite F.
           destruct (find _ (rev l)); auto. rewrite read_as_twice. auto.
        -- rewrite G in C. specialize (F _ _ C). rewrite F. destruct (find _ (rev l)); auto.
    + destruct IH as (q & Hq & N). rewrite B in N. eauto.
Qed.

Notation create_matcher := (create_matcher int_of float_of bool_of).
Lemma implemented_bool : forall t, implemented t <-> ((t =? 1)%Z || (t =? 3)%Z || (t =? 5)%Z || (t =? 6)%Z) = true.
Proof. intros t. unfold implemented. rewrite !orb_true_iff, !Z.eqb_eq. tauto. Qed.
Lemma create_cases : forall o,
  let t := mo_type o in
  (implemented t /\ (forall p, In p (option_params o) -> In (attr_string p "name") (map fst (registered t))) /\
   exists m, create_matcher o = Ok (Some m) /\ m_type m = t /\ map fst (m_options m) = map fst (registered t) /\
     forall s d, find_name (registered t) s = Some d ->
       find_name (m_options m) s = Some (match find (fun p => String.eqb (attr_string p "name") s) (rev (option_params o)) with
                                         | None => d
                                         | Some p => read_as d (n_text p)
                                         end)) \/
  (implemented t /\ (exists p, In p (option_params o) /\ ~ In (attr_string p "name") (map fst (registered t))) /\
   create_matcher o = Abort) \/
  ((t = 2%Z \/ t = 4%Z) /\ create_matcher o = Abort) \/
  (~ implemented t /\ t <> 2%Z /\ t <> 4%Z /\ create_matcher o = Ok None).
Proof.
  intros o t. unfold ConfigModel.create_matcher. fold t.
  destruct ((t =? 1)%Z || (t =? 3)%Z || (t =? 5)%Z || (t =? 6)%Z) eqn:E.
  - apply implemented_bool in E. unfold option_params.
    destruct (mo_node o) as [n|] eqn:N.
    + pose proof (run_options (children n "param") (registered t)) as H.
      destruct (run init_option (registered t) (children n "param")) as [qs| | |]; simpl.
      * left. destruct H as (A & B & C). split; auto. split; auto. eexists. split; [reflexivity|]. simpl. auto.
      * right. left. auto.
      * contradiction.
      * contradiction.
    + left. split; auto. split; [contradiction|]. simpl. eexists. split; [reflexivity|]. simpl. auto.
  - right. right. assert (I : ~ implemented t) by (rewrite implemented_bool; congruence).
    destruct (t =? 2)%Z eqn:E2; simpl; [left; apply Z.eqb_eq in E2; auto|].
    destruct (t =? 4)%Z eqn:E4; [left; apply Z.eqb_eq in E4; auto|].
    right. apply Z.eqb_neq in E2. apply Z.eqb_neq in E4. auto.
Qed.

(** * Reading the document *)
Lemma hd_filter : forall A (f : A -> bool) l, hd_error (List.filter f l) = find f l.
Proof. induction l as [|x l IH]; simpl; auto. destruct (f x); auto. Qed.
Lemma child_some : forall n s, child (Some n) s = element n [s].
Proof. intros n s. simpl. unfold children. rewrite hd_filter. destruct (find _ _); auto. Qed.
Lemma read_one : forall A n c a (f : string -> A) d, read (Some n) c a f d = setting n [c] a f d.
Proof.
  intros. unfold read, single, setting. rewrite child_some. destruct (element n [c]) as [k|]; auto.
Qed.
Lemma read_two : forall A n b c a (f : string -> A) d, read (child (Some n) b) c a f d = setting n [b; c] a f d.
Proof.
  intros. rewrite child_some. unfold setting. simpl. destruct (find _ (n_kids n)) as [k|]; auto. apply read_one.
Qed.
Lemma find_filter : forall A (f g : A -> bool) l, find g (List.filter f l) = find (fun x => f x && g x) l.
Proof. induction l as [|x l IH]; simpl; auto. destruct (f x); simpl; auto. destruct (g x); auto. Qed.
Lemma read_matcher_spec : forall n b c, read_matcher int_of float_of (child (Some n) b) c mopts_default =
  mkMopts (matcher_type int_of n [b; c]) (setting n [b; c] "accepted_min_score" float_of (dec 7 10)) (type_node int_of n [b; c]).
Proof.
  intros. unfold read_matcher, mopts_default. cbn [mo_type mo_score mo_node]. rewrite !read_two.
  fold (matcher_type int_of n [b; c]). f_equal. unfold type_node. rewrite child_some.
  change (element n [b; c]) with (match find (fun k => String.eqb (n_name k) b) (n_kids n) with Some k => element k [c] | None => None end).
  change (element n [b]) with (match find (fun k => String.eqb (n_name k) b) (n_kids n) with Some k => Some k | None => None end).
  destruct (find _ (n_kids n)) as [k|]; auto. rewrite child_some. destruct (element k [c]) as [m|]; auto.
  unfold children. rewrite find_filter. unfold attr_int.
  destruct (find _ (n_kids m)); auto.
Qed.

Variable creates : string -> bool.
Notation usable := (usable creates).
Notation load := (load int_of float_of bool_of tan15 creates).
Notation acceptable := (acceptable int_of float_of tan15 bool_of creates).

Lemma directory_cases : forall s,
  (usable s /\ directory creates s = Ok (if ends_in_slash s then s else (s ++ "/")%string)) \/
  (~ usable s /\ directory creates s = Abort) \/ (s = "" /\ ~ usable s /\ directory creates s = UB).
Proof.
  intros s. unfold directory, ConfigSpec.usable, check.
  destruct (String.eqb (strip s) "" || creates (strip s)) eqn:E; simpl.
  - destruct (String.eqb s "") eqn:F.
    + apply String.eqb_eq in F. right. right. repeat split; auto. intros [N _]. contradiction.
    + left. apply String.eqb_neq in F. apply orb_true_iff in E. rewrite String.eqb_eq in E. auto.
  - right. left. apply orb_false_iff in E. destruct E as [E1 E2]. apply String.eqb_neq in E1.
    split; auto. intros [_ [N|N]]; congruence.
Qed.
Lemma check_cases : forall b, (b = true /\ check b = Ok tt) \/ (b = false /\ check b = Abort).
Proof. destruct b; auto. Qed.

Notation loaded := (loaded int_of float_of tan15 bool_of).
Lemma load_cases : forall root,
  match load root with
  | Ok b => acceptable root /\ loaded root b
  | Abort => ~ acceptable root
  | Throw => False
  | UB => ~ acceptable root /\
      (setting root ["whole_options"] "export_file_path" id_string "./" = "" \/
       setting root ["whole_options"] "map_package_path" id_string "./" = "" \/
       exists fs f p ps, element root ["filters"] = Some fs /\ In f (listed fs) /\ class_of f = Some ps /\
         In p (children f "param") /\ overflows ps p)
  end.
Proof.
  intros root. unfold ConfigModel.load.
  change (o_scan opts_default) with mopts_default. change (o_submap opts_default) with mopts_default.
  rewrite !read_matcher_spec, !read_two, !read_one.
  change (fun s : string => s) with id_string.
  unfold opts_default. cbn [o_export o_package o_hit o_miss o_cell o_accumulate o_imu o_frequency o_gps o_descriptor].
  unfold ConfigSpec.acceptable.
  destruct (directory_cases (setting root ["whole_options"] "export_file_path" id_string "./")) as [[U1 E1]|[[U1 E1]|[Z1 [U1 E1]]]];
    rewrite E1; cbn [bind]; [|tauto|tauto].
  destruct (directory_cases (setting root ["whole_options"] "map_package_path" id_string "./")) as [[U2 E2]|[[U2 E2]|[Z2 [U2 E2]]]];
    rewrite E2; cbn [bind]; [|tauto|tauto].
  rewrite child_some.
  set (go := match element root ["filters"] with Some n => init_factory int_of float_of tan15 n | None => Ok [] end).
  assert (F : match go with
    | Ok os => match element root ["filters"] with Some fs => Forall2 configured (listed fs) os | None => os = [] end /\
       (forall fs f p ps, element root ["filters"] = Some fs -> In f (listed fs) -> class_of f = Some ps ->
         In p (children f "param") -> good ps p)
    | Abort => ~ (forall fs f p ps, element root ["filters"] = Some fs -> In f (listed fs) -> class_of f = Some ps ->
         In p (children f "param") -> good ps p)
    | Throw => False
    | UB => exists fs f p ps, element root ["filters"] = Some fs /\ In f (listed fs) /\ class_of f = Some ps /\
         In p (children f "param") /\ overflows ps p
    end).
  { unfold go. destruct (element root ["filters"]) as [n|] eqn:En.
    - pose proof (factory_cases n) as H. destruct (init_factory int_of float_of tan15 n) as [os| | |].
      + destruct H as [A B]. split; auto. intros fs f p ps [= <-]. eauto.
      + destruct H as (f & p & ps & A & B & C & D). intros G. destruct (good_not ps p (G n f p ps eq_refl A B C)). contradiction.
      + auto.
      + destruct H as (f & p & ps & A & B & C & D). exists n, f, p, ps. auto.
    - split; auto. congruence. }
  clearbody go. destruct go as [os| | |]; cbn [bind]; [|tauto|contradiction|].
  2: { split; [|auto]. intros G. destruct F as (fs & f & p & ps & A & B & C & D & O).
       destruct G as (_ & _ & G & _). destruct (good_not ps p (G fs f p ps A B C D)). contradiction. }
  destruct F as [F1 F2]. unfold check_options. cbn [o_gps o_descriptor o_accumulate o_hit o_miss o_cell].
  match goal with |- context [check (?a || ?b)] => set (gps := a); set (desc := b) end.
  destruct (check_cases (gps || desc)) as [[G1 G2]|[G1 G2]]; rewrite G2; cbn [bind].
  2: { apply orb_false_iff in G1. destruct G1. intros (_ & _ & _ & [A|A] & _); congruence. }
  apply orb_true_iff in G1. clear G2.
  match goal with |- context [check (1 <=? ?a)%Z] => set (acc := a) end.
  destruct (check_cases (1 <=? acc)%Z) as [[A1 A2]|[A1 A2]]; rewrite A2; cbn [bind].
  2: { apply Z.leb_gt in A1. intros (_ & _ & _ & _ & A & _). lia. }
  apply Z.leb_le in A1. clear A2.
  match goal with |- context [check (SFltb (literal 1 2) ?a)] => set (hit := a) end.
  destruct (check_cases (SFltb (literal 1 2) hit)) as [[H1 H2]|[H1 H2]]; rewrite H2; cbn [bind].
  2: { intros (_ & _ & _ & _ & _ & A & _). congruence. }
  clear H2.
  match goal with |- context [check (SFltb ?a (literal 1 2))] => set (miss := a) end.
  destruct (check_cases (SFltb miss (literal 1 2))) as [[M1 M2]|[M1 M2]]; rewrite M2; cbn [bind].
  2: { intros (_ & _ & _ & _ & _ & _ & A & _). congruence. }
  clear M2.
  match goal with |- context [check (1 <=? ?a)%Z] => set (cell := a) end.
  destruct (check_cases (1 <=? cell)%Z) as [[C1 C2]|[C1 C2]]; rewrite C2; cbn [bind].
  2: { apply Z.leb_gt in C1. intros (_ & _ & _ & _ & _ & _ & _ & A & _). lia. }
  apply Z.leb_le in C1. clear C2.
  unfold inside. cbn [o_scan o_imu o_frequency].
  match goal with |- context [create_matcher ?a] => set (mo := a); pose proof (create_cases mo) as K end.
  cbn zeta in K. unfold option_params in K. cbn [mo mo_type mo_node] in K.
  unfold matcher_params. change ["front_end_options"; "scan_matcher_options"] with scan_path in *.
  destruct K as [(I & P & m & E & T & N & V)|[(I & (p & P & Q) & E)|[(I & E)|(I & I2 & I4 & E)]]]; rewrite E; cbn [bind].
  - match goal with |- context [if ?a then check ?b else _] => set (imu := a); set (freq := b) end.
    destruct imu eqn:Ei.
    + destruct (check_cases freq) as [[Q1 Q2]|[Q1 Q2]]; rewrite Q2; cbn [bind].
      * split; [repeat split; auto; apply U1 || apply U2|]. unfold loaded. cbn [b_filters b_matcher b_opts mo_node mo_score mo_type o_accumulate o_cell o_descriptor o_export o_frequency o_gps o_hit o_imu o_miss o_package o_scan o_submap]. repeat split; auto.
      * intros (_ & _ & _ & _ & _ & _ & _ & _ & _ & _ & A). specialize (A eq_refl). congruence.
    + cbn [bind]. split; [repeat split; auto; try (apply U1 || apply U2); discriminate|]. unfold loaded. cbn [b_filters b_matcher b_opts mo_node mo_score mo_type o_accumulate o_cell o_descriptor o_export o_frequency o_gps o_hit o_imu o_miss o_package o_scan o_submap]. repeat split; auto.
  - intros (_ & _ & _ & _ & _ & _ & _ & _ & _ & A & _). apply Q. apply A. auto.
  - intros (_ & _ & _ & _ & _ & _ & _ & _ & A & _). unfold implemented in A. lia.
  - intros (_ & _ & _ & _ & _ & _ & _ & _ & A & _). contradiction.
Qed.
Lemma default_aborts : forall fs, inside int_of float_of bool_of opts_default fs = Abort.
Proof. intros. reflexivity. Qed.
Lemma initialise_root : forall disk s, initialise int_of float_of bool_of tan15 creates disk (Some s) =
  match root_of disk s with Some root => load root | None => Abort end.
Proof.
  intros disk s. unfold initialise, root_of. destruct (String.eqb s ""); [reflexivity|].
  destruct (disk s) as [l|]; [|reflexivity]. rewrite hd_filter.
  change (element (Node "" [] "" l) ["edward_liu"; "static_mapping"]) with
    (match find (fun k => String.eqb (n_name k) "edward_liu") l with Some k => element k ["static_mapping"] | None => None end).
  destruct (find _ l) as [k|]; [|reflexivity]. rewrite child_some. destruct (element k ["static_mapping"]); reflexivity.
Qed.
End Proofs.
