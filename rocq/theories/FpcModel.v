(** * Cast to floating point numbers of lower precision
    Sources: /repo/src/aihwkit/extension/extension_src/ops/float_prec_common.h, float_prec_op.cpp and
    /repo/src/aihwkit/extension/functions.py.  The number is its 32 bits, an integer from 0 to 2^32 - 1. *)
From Verif Require Import Prelude.
Local Open Scope Z_scope.

Definition u32 (a : Z) : Z := a mod 2 ^ 32.
Definition u32_not (a : Z) : Z := 2 ^ 32 - 1 - a.
(** float_prec_common.h:4-10 [FLOATPREC_INIT] *)
Definition bias_el (EL : Z) : Z := Z.shiftl 1 (EL - 1) - 1.
Definition sat_el (EL : Z) : Z := Z.shiftl 1 EL - 1.
Definition sat_exp (EL : Z) : Z := u32 (Z.shiftl (sat_el EL + 127 - bias_el EL) 23).
Definition not_needed (ML : Z) : Z := Z.shiftl 1 (22 - ML).
Definition valid_msk (ML : Z) : Z := u32_not (Z.shiftl (not_needed ML) 1 - 1).
(** :18-23, float_prec_op.cpp:24-29: cut the mantissa, rounded; infinity (of the same sign) if all bits of
    the exponent are set *)
Definition rounded (ML x : Z) : Z :=
  let up := u32 (Z.shiftl (Z.land x (not_needed ML)) 1) in
  let overflow := (Z.land 2139095040 x =? 2139095040) in
  let x1 := Z.land x (valid_msk ML) in
  if overflow then Z.land x1 4286578688 else u32 (x1 + up).
(** float_prec_common.h:12-35 [FLOATPREC_BODY] with rounding *)
Definition fp_body (EL ML : Z) (sat : bool) (x : Z) : Z :=
  let x2 := rounded ML x in
  let f32_exp := Z.shiftr (Z.land x2 2139095040) 23 - 127 + bias_el EL in
  let x3 := if sat then (if sat_el EL <=? f32_exp then Z.land (Z.lor x2 2139095040) 4286578688 else x2)
            else (if sat_el EL <=? f32_exp then Z.lor (sat_exp EL) (Z.land x2 (u32_not 2139095040)) else x2) in
  if f32_exp <=? 0 then 0 else x3.
(** float_prec_op.cpp:47-68 [floatPrecisionCastCPU], one element *)
Definition fp_cast (EL ML : Z) (sat : bool) (x : Z) : Z := if ((EL =? 8) && sat)%bool then rounded ML x else fp_body EL ML sat x.
(** :114-147 [floatPrecisionCast] *)
Definition fp_op (EL ML : Z) (sat : bool) (xs : list Z) : res (list Z) :=
  if ((3 <=? ML) && (ML <=? 22))%bool then
    if ((2 <=? EL) && (EL <=? 8))%bool then Ok (map (fp_cast EL ML sat) xs) else Raise RuntimeError
  else Raise RuntimeError.
(** functions.py:31-34 [backward] returns one gradient; autograd wants one for each of the [inputs] arguments of
    forward (:25-29: tensor, exponent, mantissa, saturate_to_inf) *)
Definition fp_backward (inputs : nat) (grad : list Z) : res (list Z) := if (inputs =? 1)%nat then Ok grad else Raise RuntimeError.
