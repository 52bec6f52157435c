(** * What the user is told about the passes of the floating point tile *)
From Verif Require Import Prelude CnnModel FlModel.
Local Open Scope nat_scope.

(** feature [i] of sample [s] in a tensor [*, n] (or [n, *] if transposed) with [m] samples *)
Definition sample (trans : bool) (n m : nat) (X : list R) (s i : nat) : R := nth (if trans then i * m + s else s * n + i) X 0%R.
(** number of inputs of the user and, with a bias, an additional constant input of 1 *)
Definition inputs (xs : nat) (bias : bool) : nat := if bias then xs - 1 else xs.
Definition input (xs : nat) (bias : bool) (trans : bool) (m : nat) (X : list R) (s i : nat) : R :=
  if bias then (if i =? xs - 1 then 1%R else sample trans (xs - 1) m X s i) else sample trans xs m X s i.
(** the weight between input [i] and output [o] *)
Definition weight (t : tile) (o i : nat) : R := nth (o * f_xs t + i) (f_w t) 0%R.
(** a tensor: number of elements and its samples *)
Definition elements (sh : list nat) : nat := fold_right Nat.mul 1 sh.
(** a tensor with [n] features: of shape [batch ++ [n]], or [n :: batch] if transposed *)
Definition tensor_shape (trans : bool) (batch : list nat) (n : nat) : list nat := if trans then n :: batch else (batch ++ [n])%list.
(** the matrix [d_s x_s^T] summed over the samples *)
Definition outer (t : tile) (bias xt dt : bool) (m : nat) (X D : list R) (o i : nat) : R :=
  Sum m (fun s => (sample dt (f_ds t) m D s o * input (f_xs t) bias xt m X s i)%R).
Definition no_set (l : list event) : Prop := Forall (fun e => match e with SetLearningRate _ => False | _ => True end) l.
Fixpoint run_opt (scale : R) (o : opt) (l : list event) : opt := match l with [] => o | e :: r => run_opt scale (opt_event scale o e) r end.
Fixpoint decays (n : nat) (lifetime alpha : R) (bnd : bool) (xs : nat) (w : list R) : list R := match n with 0 => w | S k => decays k lifetime alpha bnd xs (decay lifetime alpha bnd xs w) end.
