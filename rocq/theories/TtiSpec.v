(** * Training of a linear layer (torch.nn.Linear with SGD), and the gradient of an input range *)
From Verif Require Import Prelude.
Local Open Scope R_scope.

Fixpoint total (n : nat) (f : nat -> R) : R := match n with O => 0 | S n => total n f + f n end.
Record linear := { l_w : nat -> nat -> R; l_b : nat -> R }.
(** y = W x + b, for every sample *)
Definition output (K : nat) (l : linear) (x : nat -> nat -> R) : nat -> nat -> R := fun b i => total K (fun j => l_w l i j * x b j) + l_b l i.
(** dL/dW = sum of dy x^T, dL/db = sum of dy *)
Definition descend (B : nat) (lr : R) (x dy : nat -> nat -> R) (l : linear) : linear :=
  {| l_w := fun i j => l_w l i j - lr * total B (fun b => dy b i * x b j); l_b := fun i => l_b l i - lr * total B (fun b => dy b i) |}.
(** what happens to the layer, and what was put out *)
Inductive act := Train (x : nat -> nat -> R) (B : nat) (loss : (nat -> nat -> R) -> nat -> nat -> R) (lr : R) | Assign (l : linear) | Nothing.
Definition act1 (K : nat) (a : act) (l : linear) : list (nat -> nat -> R) * linear :=
  match a with
  | Train x B loss lr => let y := output K l x in ([y], descend B lr x (loss y) l)
  | Assign l' => ([], l')
  | Nothing => ([], l)
  end.
Fixpoint acts (K : nat) (s : list act) (l : linear) : list (nat -> nat -> R) * linear :=
  match s with [] => ([], l) | a :: r => let o := act1 K a l in let o' := acts K r (snd o) in (fst o ++ fst o', snd o')%list end.
(** the documented gradient of the range: inputs beyond it whose gradient asks for a larger value, relative to the range,
    and decay when enough inputs are inside *)
Definition wants (B K : nat) (ir : R) (x g : nat -> nat -> R) : R :=
  total B (fun b => total K (fun j =>
    (if Rle_dec ir (x b j) then if Rlt_dec (g b j) 0 then - g b j else 0 else 0) + (if Rle_dec (x b j) (- ir) then if Rlt_dec 0 (g b j) then g b j else 0 else 0))).
Definition inside (B K : nat) (ir : R) (x : nat -> nat -> R) : R :=
  total B (fun b => total K (fun j => if Rlt_dec (Rabs (x b j)) ir then 1 else 0)) / (INR B * INR K).
(** dL/dx of the layer behind the range *)
Definition dx (D : nat) (w : nat -> nat -> R) (dy : nat -> nat -> R) : nat -> nat -> R := fun b j => total D (fun i => w i j * dy b i).
