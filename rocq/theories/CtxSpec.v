(** * Specification vocabulary for the context properties (no proofs) *)
From Verif Require Import Prelude PeriModel CtxModel.
From Coq Require Import Ascii.
Local Open Scope string_scope.

(** torch's naming convention for in-place functions: the name ends in one underscore *)
Definition inplace_name (name : string) : Prop :=
  exists p x, x <> "_"%char /\ name = p ++ String x "_".
Definition follows_convention (f : fn) : Prop :=
  match f_kind f with FInplace _ => inplace_name (f_name f) | _ => True end.
Definition no_view (f : fn) : Prop := f_kind f <> FView.
Definition plain_call (o : cop) : Prop :=
  match o with
  | CCall f args _ => follows_convention f /\ no_view f
      /\ match f_kind f, args with FInplace _, IList _ :: _ => False | _, _ => True end
  | _ => True
  end.
Definition stays_placeholder (o : cop) : Prop := match o with CMode m => m = PLACEHOLDER | _ => True end.
