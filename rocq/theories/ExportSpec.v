(** Specification vocabulary for the map output. *)
From Coq Require Import List ZArith Bool Arith.
From Verif Require Import ExportModel.
Import ListNotations.

(** Part [j] of a list cut every [k] elements, and the number of parts. *)
Definition part {A} (k j : nat) (l : list A) : list A := firstn k (skipn (j * k) l).
Definition parts (k n : nat) : nat := (n + k - 1) / k.

Section Spec.
Variable point : Type.
(** The files of one part: the submaps [s] under the number [name]. *)
Definition part_files (d m : bool) (name : Z) (s : list (list (list point))) : list (file point) :=
  (if d then match concat (concat s) with [] => [] | c => [PartMap name c] end else []) ++
  (if m then [StaticPart name (concat s)] else []).
End Spec.
