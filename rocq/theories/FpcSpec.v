(** * Precision cast: values of bit patterns, and the formats *)
From Verif Require Import Prelude.
Local Open Scope R_scope.

Definition p2 (z : Z) : R := powerRZ 2 z.
(** IEEE 754 single precision: sign, 8 bits of exponent, 23 bits of mantissa *)
Inductive fval : Type := FNan | FInf (negative : bool) | FNum (v : R).
Definition magnitude (a : Z) : R :=
  let e := (a / 2 ^ 23)%Z in let m := (a mod 2 ^ 23)%Z in
  if (e =? 0)%Z then IZR m * p2 (-149) else IZR (2 ^ 23 + m) * p2 (e - 150).
Definition negative (x : Z) : bool := (2 ^ 31 <=? x)%Z.
Definition fvalue (x : Z) : fval :=
  let a := (x mod 2 ^ 31)%Z in
  if (a <? 255 * 2 ^ 23)%Z then FNum ((if negative x then -1 else 1) * magnitude a)
  else if (a =? 255 * 2 ^ 23)%Z then FInf (negative x) else FNan.
Definition bits32 (x : Z) : Prop := (0 <= x < 2 ^ 32)%Z.

(** The exponent bias of a format with [EL] bits of exponent; exponents 0 and [2^EL - 1] are reserved for zero and
    infinity *)
Definition bias (EL : Z) : Z := (2 ^ (EL - 1) - 1)%Z.
(** zero, and the numbers with [EL] bits of exponent and [ML] bits of mantissa after the leading one *)
Definition in_format (EL ML : Z) (v : R) : Prop :=
  v = 0 \/ exists E k : Z, (1 <= E <= 2 ^ EL - 2)%Z /\ (0 <= k < 2 ^ ML)%Z /\ Rabs v = IZR (2 ^ ML + k) * p2 (E - bias EL - ML).
(** the same with subnormal numbers *)
Definition in_format_sub (EL ML : Z) (v : R) : Prop :=
  in_format EL ML v \/ exists k : Z, (0 <= k < 2 ^ ML)%Z /\ Rabs v = IZR k * p2 (1 - bias EL - ML).
(** [w] is nearest to [v] in a set, and of two nearest ones the one farther from zero *)
Definition nearest_away (S : R -> Prop) (v w : R) : Prop :=
  S w /\ (forall u, S u -> Rabs (v - w) <= Rabs (v - u)) /\ (forall u, S u -> Rabs (v - u) = Rabs (v - w) -> Rabs u <= Rabs w).
(** smallest and largest number of a format; the half ways to the next one (of the next binade) outside of it *)
Definition fmt_min (EL : Z) : R := p2 (1 - bias EL).
Definition fmt_max (EL ML : Z) : R := IZR (2 ^ (ML + 1) - 1) * p2 (2 ^ EL - 2 - bias EL - ML).
Definition flush_below (EL ML : Z) : R := fmt_min EL - p2 (- bias EL - ML - 1).
Definition overflow_from (EL ML : Z) : R := fmt_max EL ML + p2 (2 ^ EL - 2 - bias EL - ML) / 2.
(** ** Order and sign of values *)
Definition fneg (a : fval) : fval := match a with FNan => FNan | FInf s => FInf (negb s) | FNum v => FNum (- v) end.
Definition fle (a b : fval) : Prop :=
  match a, b with
  | FNan, _ => False | _, FNan => False
  | FInf true, _ => True | _, FInf false => True
  | FNum v, FNum w => v <= w | _, _ => False
  end.
(** the number with the other sign bit *)
Definition flip_sign (x : Z) : Z := ((x + 2 ^ 31) mod 2 ^ 32)%Z.
Definition sgn (x : Z) : R := if negative x then -1 else 1.
