(** * Specification of recurrent networks, element by element *)
From Verif Require Import Prelude RnnModel CnnModel.
From Coq Require Import Rtrigo_def.
Local Open Scope nat_scope.

Definition el (m : mat) (i j : nat) : R := nth j (nth i m []) 0%R.
(** row [i] of W x + b *)
Definition affine (W : mat) (b : vec) (n : nat) (x : nat -> R) (i : nat) : R := (Sum n (fun q => el W i q * x q) + nth i b 0)%R.
(** a linear layer with an ideal tile *)
Definition ideal {TS} (W : mat) (b : vec) : lin TS := fun s m => (map (fun x => vadd (matvec W x) b) m, s).

Section Spec.
(** sizes of input and hidden state; weights and biases (torch.nn.LSTM, torch.nn.GRU: rows of the gates one after the other) *)
Context (n H : nat) (Wih Whh : mat) (bih bhh : vec).
(** input of one sample at each time, initial states *)
Context (x : nat -> nat -> R) (h0 c0 : nat -> R).
(** torch.nn.LSTM: i, f, g, o gates *)
Fixpoint lstm_at (t : nat) : (nat -> R) * (nat -> R) :=
  match t with
  | 0 => (h0, c0)
  | S t =>
      let '(h, c) := lstm_at t in
      let g k j := (affine Wih bih n (x t) (k * H + j) + affine Whh bhh H h (k * H + j))%R in
      let c' j := (sigmoid (g 1%nat j) * c j + sigmoid (g 0%nat j) * tanh (g 2%nat j))%R in
      (fun j => (sigmoid (g 3%nat j) * tanh (c' j))%R, c')
  end.
(** torch.nn.GRU: r, z, n gates *)
Fixpoint gru_at (t : nat) : nat -> R :=
  match t with
  | 0 => h0
  | S t =>
      let h := gru_at t in
      let gi k j := affine Wih bih n (x t) (k * H + j) in
      let gh k j := affine Whh bhh H h (k * H + j) in
      let r j := sigmoid (gi 0%nat j + gh 0%nat j)%R in
      let z j := sigmoid (gi 1%nat j + gh 1%nat j)%R in
      let nn j := tanh (gi 2%nat j + r j * gh 2%nat j)%R in
      fun j => ((1 - z j) * nn j + z j * h j)%R
  end.
(** torch.nn.RNN with tanh *)
Fixpoint rnn_at (t : nat) : nat -> R :=
  match t with
  | 0 => h0
  | S t => let h := rnn_at t in fun j => tanh (affine Wih bih n (x t) j + affine Whh bhh H h j)%R
  end.
End Spec.
