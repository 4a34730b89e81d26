(** Vocabulary for the range image properties. *)
From Coq Require Import ZArith List Bool Sorted Relations SpecFloat.
From Verif Require Import Outcome LoopSpec FilterModel RangeModel.
Import ListNotations.

(** Where the points of a cloud fall. *)
Definition spots (C : config) (l : list point) (ws : list (option pix)) : Prop :=
  Forall2 (fun p w => place C p = Ok w) l ws.
(** Point [i] is the first that falls into [q]. *)
Definition first_in (ws : list (option pix)) (i : nat) (q : pix) : Prop :=
  nth_error ws i = Some (Some q) /\ forall j, j < i -> nth_error ws j <> Some (Some q).

Definition inside (C : config) (q : pix) : Prop := (0 <= fst q < rows C /\ 0 <= snd q < cols C)%Z.
(** Pixels with a range. *)
Definition occupied (C : config) (m : pix -> fl) (q : pix) : Prop := inside C q /\ vacant (m q) = false.
(** Neighbours: one or two columns apart on the circle, or one row apart. *)
Definition adjacent (C : config) (horizontal : bool) (p q : pix) : Prop :=
  if horizontal then
    fst p = fst q /\ exists d, (d = 1 \/ d = 2)%Z /\
      (((snd q - snd p - d) mod cols C = 0)%Z \/ ((snd p - snd q - d) mod cols C = 0)%Z)
  else snd p = snd q /\ (Z.abs (fst p - fst q) = 1)%Z.
(** Two neighbours whose ranges pass the angle test, larger range first. *)
Definition linked (C : config) (m : pix -> fl) (p q : pix) : Prop :=
  occupied C m p /\ occupied C m q /\
  exists h hi lo, adjacent C h p q /\ ((hi = m p /\ lo = m q) \/ (hi = m q /\ lo = m p)) /\
    fle lo hi /\ wide C h hi lo = true.
Definition connected (C : config) (m : pix -> fl) : pix -> pix -> Prop := clos_refl_trans pix (linked C m).

Definition label_of (s : image) (q : pix) : nat := match pixels s q with Some (_, l) => l | None => 0 end.
Definition index_of (s : image) (q : pix) : nat := match pixels s q with Some (i, _) => i | None => 0 end.
(** [ids] lists the points of the pixels with label [l], each pixel once. *)
Definition enumerates (C : config) (s : image) (l : nat) (ids : list nat) : Prop :=
  exists ps, NoDup ps /\ (forall p, In p ps <-> occupied C (matrix s) p /\ label_of s p = l) /\ ids = map (index_of s) ps.

(** An image as Filter leaves it: no label yet, a point for every occupied pixel, no NaN. *)
Definition filled (C : config) (s : image) : Prop :=
  (forall q, occupied C (matrix s) q -> exists i, pixels s q = Some (i, 0)) /\
  (forall q, label_of s q = 0) /\
  (forall q, matrix s q <> S754_nan).

(** The coordinates and the offsets are binary32 numbers. *)
Definition floats (C : config) (l : list point) : Prop :=
  (valid_binary 24 128 (off_x C) = true /\ valid_binary 24 128 (off_y C) = true /\ valid_binary 24 128 (off_z C) = true) /\
  forall p, In p l -> valid_binary 24 128 (px p) = true /\ valid_binary 24 128 (py p) = true /\ valid_binary 24 128 (pz p) = true.
(** std::atan2 returns NaN if an argument is NaN (C11 F.10). *)
Definition quiet (C : config) : Prop := forall y x, y = S754_nan \/ x = S754_nan -> atan2 C y x = S754_nan.

(** The labelled cloud lists the points of each cluster in turn. *)
Definition reported (pts : list point) (cl : list (nat * list nat)) (out : list (nat * point)) : Prop :=
  exists qs, Forall2 (fun kv q => exists ps, Forall2 (fun i p => nth_error pts i = Some p) (snd kv) ps /\ q = map (pair (fst kv)) ps) cl qs /\
    out = concat qs.
