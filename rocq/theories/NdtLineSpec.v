(** Interpolation of values and slopes. *)
From Coq Require Import Reals.
Local Open Scope R_scope.

(** An end of an interval: place, value and slope. *)
Definition place := (R * R * R)%type.
Definition at_ (e : place) : R := fst (fst e).
Definition val (e : place) : R := snd (fst e).
Definition slope (e : place) : R := snd e.

(** A polynomial of degree three at most, with its first and second derivatives. *)
Record poly := mkP { k0 : R; k1 : R; k2 : R; k3 : R }.
Definition pval (p : poly) (x : R) : R := k0 p + k1 p * x + k2 p * (x * x) + k3 p * (x * x * x).
Definition pslope (p : poly) (x : R) : R := k1 p + 2 * k2 p * x + 3 * k3 p * (x * x).
Definition pcurve (p : poly) (x : R) : R := 2 * k2 p + 6 * k3 p * x.
Definition fits (p : poly) (e : place) : Prop := pval p (at_ e) = val e /\ pslope p (at_ e) = slope e.
Definition is_min (p : poly) (m : R) : Prop := pslope p m = 0 /\ 0 < pcurve p m.
Definition is_max (p : poly) (m : R) : Prop := pslope p m = 0 /\ pcurve p m < 0.
Definition middle (l t : place) : R := (at_ l + at_ t) / 2.

(** The vertex of the parabola with the value and slope of [l] and the value of [t]. *)
Definition vertex (l t : place) (v : R) : Prop :=
  exists k, 0 < k /\ val t = val l + slope l * (at_ t - at_ l) + k * ((at_ t - at_ l) * (at_ t - at_ l)) /\ slope l + 2 * k * (v - at_ l) = 0.
(** Where the straight line through the two slopes is zero. *)
Definition zero_slope (l t : place) (s : R) : Prop := exists k, k <> 0 /\ slope l = k * (at_ l - s) /\ slope t = k * (at_ t - s).
