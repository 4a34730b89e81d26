(** Model of common/simple_time.{h,cc}. *)
From Coq Require Import ZArith List Bool.
From Verif Require Import Outcome.
Import ListNotations.
Local Open Scope Z_scope.
Local Open Scope outcome_scope.

(** One second in nanoseconds, the literal 1000000000 of simple_time.cc:44-49. *)
Definition NS : Z := 1000000000.

(** C++ conversions to unsigned types: reduction modulo 2^width
    (the casts at simple_time.h:118 and simple_time.cc:49,97-98). *)
Definition u32 (x : Z) : Z := x mod 2 ^ 32.
Definition u64 (x : Z) : Z := x mod 2 ^ 64.

(** Signed arithmetic: the exact value if representable, otherwise UB.
    Used for the int64_t intermediates of simple_time.cc:62-96 and the
    [int div] of simple_time.cc:89-93. *)
Definition i64 (x : Z) : outcome Z :=
  if (- 2 ^ 63 <=? x) && (x <? 2 ^ 63) then Ok x else UB.
Definition i32 (x : Z) : outcome Z :=
  if (- 2 ^ 31 <=? x) && (x <? 2 ^ 31) then Ok x else UB.

(** class SimpleTime, simple_time.h:53-111.  The member u_judge_range is always 1
    (constructors simple_time.cc:27-30; no setter exists) and is therefore the
    constant [judge_range] instead of a field. *)
Record time := mkTime { secs : Z; nsecs : Z }.
Definition judge_range : Z := 1.

(** Values of the C++ type: both fields are uint32_t (simple_time.h:102-103). *)
Definition rep (t : time) : Prop :=
  0 <= secs t < 2 ^ 32 /\ 0 <= nsecs t < 2 ^ 32.
(** Normalised values: the nanosecond field is below one second.  The two-argument
    constructor (simple_time.cc:29) does not enforce it. *)
Definition normal (t : time) : Prop :=
  0 <= secs t < 2 ^ 32 /\ 0 <= nsecs t < NS.

(** SimpleTime(), simple_time.cc:27. *)
Definition time_zero : time := mkTime 0 0.

(** FromNanoSec(uint64_t), simple_time.cc:48-50.  The argument conversion from the
    signed intermediates of the callers is [u64]. *)
Definition from_nano (t : Z) : time := mkTime (u32 (t / NS)) (u32 (t mod NS)).

(** ToNanoSec(), simple_time.h:117-119: computed in uint64_t, then converted to
    int64_t (two's complement). *)
Definition to_nano (t : time) : Z :=
  let x := u64 (secs t * NS + nsecs t) in
  if x <? 2 ^ 63 then x else x - 2 ^ 64.

(** TimeMax(), simple_time.cc:52-54. *)
Definition time_max : time := mkTime 4294967295 999999999.

(** operator==, simple_time.cc:61-67. *)
Definition t_eq (a b : time) : outcome bool :=
  let* diff := i64 (to_nano a - to_nano b) in
  let* diff := (if diff <? 0 then i64 (- diff) else Ok diff) in
  Ok (diff <=? judge_range).

(** operator!=, simple_time.cc:56-58. *)
Definition t_ne (a b : time) : outcome bool :=
  let* e := t_eq a b in Ok (negb e).

(** operator+, simple_time.cc:69-72 (and +=, 103-106). *)
Definition t_add (a b : time) : outcome time :=
  let* s := i64 (to_nano a + to_nano b) in
  Ok (from_nano (u64 s)).

(** operator-, simple_time.cc:74-81. *)
Definition t_sub (a b : time) : outcome time :=
  let* s := i64 (to_nano a - to_nano b) in
  let s := if s <? 0 then 0 else s in
  Ok (from_nano (u64 s)).

(** operator/=, simple_time.cc:83-101; returns the updated object.
    C++ division truncates toward zero: [Z.quot], [Z.rem]. *)
Definition t_div (t : time) (a : Z) : outcome time :=
  if a =? 0 then Ok t
  else
    let* div := (if a <? 0 then i32 (- a) else Ok a) in
    let tmp := Z.quot (to_nano t) div in
    Ok (mkTime (u32 (Z.quot tmp NS)) (u32 (Z.rem tmp NS))).

(** Ordering operators, simple_time.cc:108-119. *)
Definition t_lt (a b : time) : bool := to_nano a <? to_nano b.
Definition t_le (a b : time) : bool := to_nano a <=? to_nano b.
Definition t_gt (a b : time) : bool := to_nano b <? to_nano a.
Definition t_ge (a b : time) : bool := to_nano b <=? to_nano a.

(** IsZero(), simple_time.h:75. *)
Definition t_is_zero (t : time) : bool := (nsecs t =? 0) && (secs t =? 0).

(** ToLocalTime(PclTimeStamp), simple_time.h:127-129: u64 product. *)
Definition to_local_time (us : Z) : time := from_nano (u64 (us * 1000)).

(** ToPclTime(SimpleTime), simple_time.h:131-133: the int64 operand is converted to
    unsigned long long because the divisor is 1000ull. *)
Definition to_pcl_time (t : time) : Z := u64 (to_nano t) / 1000.

(** The while loop of TimeStampBinarySearch, simple_time.h:141-148.
    [times] are the time stamps of the vector, [at] throws std::out_of_range.
    The loop is unrolled by [fuel]; running out of fuel is [None]. *)
Definition at_ {A} (l : list A) (i : Z) : outcome A :=
  if i <? 0 then Throw
  else match nth_error l (Z.to_nat i) with Some x => Ok x | None => Throw end.

Fixpoint search_loop (fuel : nat) (times : list time) (q : time)
    (start end_ : Z) : option (outcome (Z * Z)) :=
  if end_ - start >? 1 then
    match fuel with
    | O => None
    | S fuel' =>
      let mid := start + Z.quot (end_ - start) 2 in
      match at_ times mid with
      | Ok m => if t_lt q m then search_loop fuel' times q start mid
                else search_loop fuel' times q mid end_
      | Abort => Some Abort | Throw => Some Throw | UB => Some UB
      end
    end
  else Some (Ok (start, end_)).

(** TimeStampBinarySearch, simple_time.h:135-151.  [int end = size() - 1]: for an
    empty vector the size_t subtraction wraps and converts back to -1; sizes of 2^31 or
    more are not modelled.  The fuel is the vector length. *)
Definition binary_search (times : list time) (q : time)
  : option (outcome (Z * Z)) :=
  match search_loop (length times) times q 0 (Z.of_nat (length times) - 1) with
  | None => None
  | Some r =>
    Some (let* se := r in
          let* _ := check (snd se - fst se =? 1) in
          Ok se)
  end.
