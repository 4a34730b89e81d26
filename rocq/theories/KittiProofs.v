(** Proofs about the KITTI reader. *)
From Coq Require Import ZArith String List Bool Lia Permutation Sorted.
From Verif Require Import Outcome KittiModel.
Import ListNotations.
Local Open Scope outcome_scope.
Local Open Scope nat_scope.

Lemma leb_total : forall a b, String.leb a b = false -> String.leb b a = true.
Proof.
  intros a b H. unfold String.leb in *. rewrite String.compare_antisym. destruct (String.compare a b); try discriminate. reflexivity.
Qed.
Lemma insert_perm : forall x l, Permutation (x :: l) (insert x l).
Proof.
  intros x l. induction l as [|y l IH]; [apply Permutation_refl|]. cbn [insert]. destruct (String.leb x y); [apply Permutation_refl|].
  eapply perm_trans; [apply perm_swap|]. apply perm_skip. exact IH.
Qed.
Lemma sort_perm : forall l, Permutation l (sort l).
Proof. induction l as [|x l IH]; [apply perm_nil|]. cbn [sort]. eapply perm_trans; [apply perm_skip, IH|apply insert_perm]. Qed.
Lemma insert_sorted : forall x l, Sorted (fun a b => String.leb a b = true) l -> Sorted (fun a b => String.leb a b = true) (insert x l).
Proof.
  intros x l H. induction H as [|y l H IH Hd]; cbn [insert]; [repeat constructor|].
  destruct (String.leb x y) eqn:E; [constructor; [constructor; assumption|constructor; exact E]|].
  constructor; [exact IH|]. apply leb_total in E. destruct l as [|z l]; cbn [insert]; [constructor; exact E|].
  inversion Hd; subst. destruct (String.leb x z); constructor; assumption.
Qed.
Lemma sort_sorted : forall l, Sorted (fun a b => String.leb a b = true) (sort l).
Proof. induction l as [|x l IH]; [constructor|]. cbn [sort]. apply insert_sorted. exact IH. Qed.

Lemma skipn_tl : forall A k (l : list A), skipn (S k) l = tl (skipn k l).
Proof. induction k as [|k IH]; intros [|x l]; try reflexivity. exact (IH l). Qed.

Section Reader.
  Context {F M : Type}.
  Variables (scale : F -> F) (put : M -> list (point F) -> outcome M) (ok : nat -> bool).
  Lemma points_length : forall n data, n <= length data / 4 -> length (points scale n data) = n.
  Proof.
    induction n as [|n IH]; intros data H; [reflexivity|].
    destruct data as [|x [|y [|z [|r rest]]]]; try (cbn in H; lia).
    cbn [points length]. f_equal. apply IH. change (length (x :: y :: z :: r :: rest)) with (4 + length rest) in H.
    assert (E : (4 + length rest) / 4 = S (length rest / 4)) by (change (4 + length rest) with (1 * 4 + length rest); rewrite Nat.div_add_l by lia; reflexivity).
    lia.
  Qed.
  Lemma points_nth : forall n data k p, nth_error (points scale n data) k = Some p ->
    k < n /\ exists x y z r, nth_error data (4 * k) = Some x /\ nth_error data (4 * k + 1) = Some y /\ nth_error data (4 * k + 2) = Some z /\
      nth_error data (4 * k + 3) = Some r /\ p = mkPoint x y z (scale r).
  Proof.
    induction n as [|n IH]; intros data k p H; [destruct k; discriminate|].
    destruct data as [|x [|y [|z [|r rest]]]]; try (destruct k; discriminate).
    destruct k as [|k]; cbn [points nth_error] in H.
    - injection H as <-. split; [lia|]. exists x, y, z, r. repeat split; reflexivity.
    - destruct (IH rest k p H) as (L & X). split; [lia|].
      replace (4 * S k) with (4 + 4 * k) by lia. exact X.
  Qed.
  (** The files that are delivered: up to the first without a complete point. *)
  Definition cloud_of (w : world F) (f : string) : list (point F) :=
    match content w f with Some data => points scale (length (firstn (Z.to_nat limit) data) / 4) (firstn (Z.to_nat limit) data) | None => [] end.
  Fixpoint usable (cs : list (list (point F))) : list (list (point F)) :=
    match cs with (p :: c) :: r => (p :: c) :: usable r | _ => [] end.
  Lemma read_cloud : forall w f, content w f <> None -> read_from_file scale w f = Ok (cloud_of w f).
  Proof. intros w f H. unfold read_from_file, cloud_of. destruct (content w f); [reflexivity|contradiction]. Qed.
  Lemma play_spec : forall (g : M -> list (point F) -> M), (forall m c, put m c = Ok (g m c)) -> (forall k, ok k = true) ->
    forall w names s m i fuel,
    (forall f, In f names -> content w f <> None) -> skipn (current_index s) (files s) = names -> current_index s <= length (files s) -> length names < fuel ->
    exists s', play scale put ok fuel w s m i = Some (Ok (fold_left g (usable (map (cloud_of w) names)) m, s')) /\ files s' = files s /\
      current_index s <= current_index s' <= length (files s) /\
      (heap s' = heap s + 4 * limit * (Z.of_nat (current_index s') - Z.of_nat (current_index s)))%Z /\
      current_index s' = Nat.min (length (files s)) (current_index s + S (length (usable (map (cloud_of w) names)))).
  Proof.
    intros g Hp Hok w. induction names as [|f names IH]; intros s m i fuel Hc Hs Hl Hf; (destruct fuel as [|fuel]; [cbn in Hf; lia|]).
    - cbn [play]. rewrite Hok. unfold read_next.
      assert (L : length (files s) <= current_index s).
      { assert (E := f_equal (@length _) Hs). rewrite skipn_length in E. cbn in E. lia. }
      rewrite (proj2 (nth_error_None _ _) L). exists s. cbn. split; [reflexivity|]. split; [reflexivity|]. split; [lia|]. split; [rewrite Z.sub_diag; lia|lia].
    - assert (N : nth_error (files s) (current_index s) = Some f).
      { rewrite <- (firstn_skipn (current_index s) (files s)) at 1. rewrite nth_error_app2; rewrite firstn_length; [|lia].
        replace (current_index s - Nat.min (current_index s) (length (files s))) with 0 by lia. rewrite Hs. reflexivity. }
      assert (Lt : current_index s < length (files s)) by (apply nth_error_Some; rewrite N; discriminate).
      cbn [play]. rewrite Hok. unfold read_next. rewrite N, read_cloud by (apply Hc; left; reflexivity). cbn [bind].
      cbn [map usable]. destruct (cloud_of w f) as [|p c] eqn:E.
      + eexists. split; [reflexivity|]. cbn [files current_index heap length]. split; [reflexivity|]. split; [lia|]. split; [unfold limit; lia|lia].
      + rewrite Hp. destruct (IH (mkReader (files s) (S (current_index s)) (heap s + 4 * limit)) (g m (p :: c)) (S i) fuel) as (s' & P & F' & B & H & C).
        * intros x I. apply Hc. right. exact I.
        * cbn [files current_index]. rewrite skipn_tl, Hs. reflexivity.
        * cbn [files current_index]. lia.
        * cbn in Hf. lia.
        * exists s'. cbn [files current_index heap] in *. split; [exact P|]. split; [exact F'|]. split; [lia|]. split; [unfold limit in *; lia|].
          cbn [length] in *. lia.
  Qed.
End Reader.
