(** What joining maps should give. *)
From Coq Require Import List Bool ZArith.
From Verif Require Import Outcome JoinModel.
Import ListNotations.
Local Open Scope Z_scope.

Section Spec.
Variable P : Type.
Variable rel : P -> P -> P.
Notation package := (JoinModel.package P).
Notation raw := (JoinModel.raw P).
Notation factor := (JoinModel.factor P).
Notation sub := (JoinModel.sub P).
Notation st := (JoinModel.st P).

(** A file as the program writes it: every submap has its position as index, and its connections exist. *)
Definition exists_in (pk : package) (c : Z * Z) : Prop :=
  exists t i tr, c = (Z.of_nat t, Z.of_nat i) /\ nth_error pk t = Some tr /\ (i < length tr)%nat.
Definition proper (pk : package) : Prop := forall t tr, nth_error pk t = Some tr ->
  forall i r, nth_error tr i = Some r -> fst (fst r) = Z.of_nat i /\ forall c, In c (snd r) -> exists_in pk c.
(** The indices fit into the keys of the solver. *)
Definition fits (pks : list package) : Prop := (Z.of_nat (length (concat pks)) <= 2 ^ 24) /\
  forall tr, In tr (concat pks) -> Z.of_nat (length tr) <= 2 ^ 32.
(** The submaps of a file in order, with the indices of their trajectories from [t] on. *)
Fixpoint flat (t : Z) (pk : package) : list (Z * raw) :=
  match pk with [] => [] | tr :: r => map (pair t) tr ++ flat (t + 1) r end.
Definition shift (off : Z) (c : Z * Z) : Z * Z := (fst c + off, snd c).
Definition raw_at (pk : package) (c : Z * Z) : option raw := match at_ pk (fst c) with Some tr => at_ tr (snd c) | None => None end.
(** The edges of a file whose trajectories are numbered from [off] on: one for every connection. *)
Definition edges (off : Z) (pk : package) : list factor :=
  flat_map (fun x => flat_map (fun c => match raw_at pk c with
    | Some y => [Between P (key (fst x + off, fst (fst (snd x)))) (key (shift off c)) (rel (snd (fst (snd x))) (snd (fst y))) false]
    | None => [] end) (snd (snd x))) (flat 0 pk).
(** The ids and the poses of a file. *)
Definition ids (off : Z) (pk : package) : list (Z * Z) := map (fun x => (fst x + off, fst (fst (snd x)))) (flat 0 pk).
Definition poses (off : Z) (pk : package) : list P := map (fun x => snd (fst (snd x))) (flat 0 pk).
Definition conns (off : Z) (pk : package) : list (list (Z * Z)) := map (fun x => map (shift off) (snd (snd x))) (flat 0 pk).
(** The same of several files, numbered one after the other. *)
Fixpoint over {X} (f : Z -> package -> list X) (off : Z) (pks : list package) : list X :=
  match pks with [] => [] | p :: r => f off p ++ over f (off + Z.of_nat (length p)) r end.

(** The submap with a trajectory and an index in the joined map. *)
Definition sub_at (s : st) (t i : nat) : option sub :=
  match nth_error (base P s) t with
  | Some (_, l) => match nth_error l i with Some a => nth_error (mem P s) a | None => None end
  | None => None
  end.
Definition is_edge (f : factor) : bool := match f with Between _ _ _ _ false => true | _ => false end.
Definition is_loop (f : factor) : bool := match f with Between _ _ _ _ true => true | _ => false end.
Definition is_prior_of (k : Z) (f : factor) : bool := match f with Prior _ k' _ => k' =? k | _ => false end.
(** Contract of the loop detector, C44: the frames it finds are in the search window. *)
Definition in_window (detect : list sub -> list nat -> option (Z * Z) -> nat -> list (nat * P)) : Prop :=
  forall m fr a b x e, In e (detect m fr (Some (a, b)) x) -> a <= Z.of_nat (fst e) < b.
End Spec.
