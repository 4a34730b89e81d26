(** What the texts of NumTextModel.v should mean: a reader of decimal numbers as strtod is, written
    without reference to the printer. *)
From Coq Require Import ZArith QArith List Bool String Ascii SpecFloat.
From Verif Require Import MapFileModel.
Import ListNotations.
Local Open Scope string_scope.
Local Open Scope Z_scope.

(** Digits: the number read so far, how many digits, the rest. *)
Fixpoint digits_of (acc k : Z) (s : string) : Z * Z * string :=
  match s with
  | EmptyString => (acc, k, s)
  | String c r => match digit c with Some d => digits_of (10 * acc + d) (k + 1) r | None => (acc, k, s) end
  end.
(** Digits with a point: the digits as number and how many are behind the point. *)
Definition mantissa (s : string) : option (Z * Z * string) :=
  let '(a, k, r) := digits_of 0 0 s in
  if k =? 0 then None
  else Some match r with
            | String "." r' => digits_of a 0 r'
            | _ => (a, 0, r)
            end.
(** An exponent, 0 if there is none. *)
Definition exponent_of (s : string) : option (Z * string) :=
  match s with
  | String "e" r =>
      let '(neg, r) := match r with String "-" r => (true, r) | String "+" r => (false, r) | _ => (false, r) end in
      let '(x, k, r) := digits_of 0 0 r in
      if k =? 0 then None else Some (if neg then - x else x, r)
  | _ => Some (0, s)
  end.
Definition unsigned (s : string) : option (Q * string) :=
  match mantissa s with
  | None => None
  | Some (a, k, r) => match exponent_of r with
                      | None => None
                      | Some (x, r) => Some ((inject_Z a * 10 ^ (x - k))%Q, r)
                      end
  end.
Fixpoint skip (s : string) : string :=
  match s with
  | String c r => if is_space c then skip r else s
  | EmptyString => s
  end.
Definition read (s : string) : option (Q * string) :=
  match skip s with
  | String "-" r => match unsigned r with Some (q, t) => Some (Qopp q, t) | None => None end
  | r => unsigned r
  end.
(** The number a field holds: nothing but blanks around it. *)
Definition field (s : string) : option Q :=
  match read s with
  | Some (q, r) => match skip r with EmptyString => Some q | _ => None end
  | None => None
  end.

(** [k] is the whole number nearest to [q], the even one if there are two. *)
Definition nearest (q : Q) (k : Z) : Prop :=
  (- (1 # 2) <= q - inject_Z k <= 1 # 2)%Q /\
  ((q - inject_Z k == 1 # 2 \/ q - inject_Z k == - (1 # 2))%Q -> Z.even k = true).
