(** * Recurrent networks (nn/modules/rnn/cells.py, layers.py, rnn.py) *)
From Verif Require Import Prelude.
From Coq Require Import Rtrigo_def.
Local Open Scope nat_scope.

(** torch.sigmoid; tanh is that of Coq's library *)
Definition sigmoid (x : R) : R := (1 / (1 + exp (- x)))%R.
(** elementwise operations on batches ([batch x features]) *)
Definition madd : mat -> mat -> mat := map2 vadd.
Definition mmul : mat -> mat -> mat := map2 vmul.
Definition msub : mat -> mat -> mat := map2 (map2 Rminus).
Definition mmap (f : R -> R) : mat -> mat := map (map f).
(** [gates.chunk(n, 1)]: piece [k] of width [H] (the width of the gates is a multiple of [H]) *)
Definition chunk (H k : nat) (m : mat) : mat := map (fun r => slice (k * H) (k * H + H) r) m.

Section Rnn.
(** a linear layer: maps a batch to a batch; [TS]: everything its analog tile remembers (weights, random generator, ...) *)
Context {TS : Type}.
Definition lin := TS -> mat -> mat * TS.

(** cells.py:79-96 AnalogVanillaRNNCell.forward: the output is the state *)
Definition rnn_cell (wih whh : lin) (s : TS) (h x : mat) : mat * mat * TS :=
  let '(a, s1) := wih s x in
  let '(b, s2) := whh s1 h in
  let out := mmap tanh (madd a b) in
  (out, out, s2).
(** cells.py:160-174, 235-250: the gates *)
Definition lstm_gates (H : nat) (gates c : mat) : mat * mat :=
  let ig := mmap sigmoid (chunk H 0 gates) in
  let fg := mmap sigmoid (chunk H 1 gates) in
  let cg := mmap tanh (chunk H 2 gates) in
  let og := mmap sigmoid (chunk H 3 gates) in
  let cy := madd (mmul fg c) (mmul ig cg) in
  (mmul og (mmap tanh cy), cy).
(** cells.py:148-174 AnalogLSTMCell.forward *)
Definition lstm_cell (H : nat) (wih whh : lin) (s : TS) (hc : mat * mat) (x : mat) : mat * (mat * mat) * TS :=
  let '(h, c) := hc in
  let '(a, s1) := wih s x in
  let '(b, s2) := whh s1 h in
  let '(hy, cy) := lstm_gates H (madd a b) c in
  (hy, (hy, cy), s2).
(** cells.py:223-250 AnalogLSTMCellCombinedWeight.forward *)
Definition lstm_cell_combined (H : nat) (w : lin) (s : TS) (hc : mat * mat) (x : mat) : mat * (mat * mat) * TS :=
  let '(h, c) := hc in
  let '(g, s1) := w s (map2 (@app R) x h) in
  let '(hy, cy) := lstm_gates H g c in
  (hy, (hy, cy), s1).
(** cells.py:303-328 AnalogGRUCell.forward *)
Definition gru_cell (H : nat) (wih whh : lin) (s : TS) (h x : mat) : mat * mat * TS :=
  let '(gi, s1) := wih s x in
  let '(gh, s2) := whh s1 h in
  let r := mmap sigmoid (madd (chunk H 0 gi) (chunk H 0 gh)) in
  let z := mmap sigmoid (madd (chunk H 1 gi) (chunk H 1 gh)) in
  let n := mmap tanh (madd (chunk H 2 gi) (mmul r (chunk H 2 gh))) in
  let hy := madd n (mmul z (msub h n)) in
  (hy, hy, s2).

(** cells.py:67-77, 133-146: [zeros(batch_size, hidden_size)] *)
Definition zeros (B H : nat) : mat := repeat (repeat 0%R H) B.
End Rnn.

Section Layers.
Context {TS X : Type}.
(** a cell with its own tiles: tile state, recurrent state, input *)
Definition cell := TS -> X -> mat -> mat * X * TS.
(** layers.py:40-60 AnalogRNNLayer.forward: the loop over time.  [stack] of an empty list is an error in torch, here [] *)
Fixpoint run (f : cell) (s : TS) (h : X) (xs : list mat) : list mat * X * TS :=
  match xs with
  | [] => ([], h, s)
  | x :: r => let '(o, h1, s1) := f s h x in let '(os, h2, s2) := run f s1 h1 r in (o :: os, h2, s2)
  end.
(** layers.py:91-111 AnalogReverseRNNLayer.forward *)
Definition run_reverse (f : cell) (s : TS) (h : X) (xs : list mat) : list mat * X * TS :=
  let '(os, h1, s1) := run f s h (rev xs) in (rev os, h1, s1).
(** a layer: its output, its states and its tiles.  The unidirectional layer has one state, the bidirectional one a list of
    two; [zip(self.directions, states)] stops at the shorter one (layers.py:141-163) *)
Inductive layer : Type := Uni (f : cell) | Bi (fwd bwd : cell).
Inductive rstate : Type := One (h : X) | Many (hs : list X).
(** the tile states of a layer: one for each direction *)
Definition run_layer (l : layer) (ts : TS * TS) (st : rstate) (xs : list mat) : res (list mat * rstate * (TS * TS)) :=
  match l, st with
  | Uni f, One h => let '(os, h1, s1) := run f (fst ts) h xs in Ok (os, One h1, (s1, snd ts))
  | Bi f g, Many hs =>
      match hs with
      | [] => Raise RuntimeError (* cat of nothing *)
      | [h] => let '(os, h1, s1) := run f (fst ts) h xs in Ok (os, Many [h1], (s1, snd ts))
      | h :: k :: _ =>
          let '(os, h1, s1) := run f (fst ts) h xs in
          let '(ps, k1, s2) := run_reverse g (snd ts) k xs in
          Ok (map2 (map2 (@app R)) os ps, Many [h1; k1], (s1, s2))
      end
  | _, _ => Raise TypeError (* other mixtures are not modelled *)
  end.
(** rnn.py:86-115 ModularRNN.forward: [drop] is the dropout layer ([None]: no dropout), applied to each time step of all
    outputs but those of the layer [num_layers - 1].  [i]: index of the layer *)
Fixpoint run_stack (drop : option (mat -> mat)) (num_layers i : nat) (ls : list layer) (ts : list (TS * TS)) (sts : list rstate) (xs : list mat)
    : res (list mat * list rstate * list (TS * TS)) :=
  match ls, ts with
  | [], _ => Ok (xs, [], ts)
  | l :: lr, t :: tr =>
      match sts with
      | [] => Raise IndexError
      | st :: sr =>
          r <- run_layer l t st xs ;;
          let '(os, st1, t1) := r in
          let os := match drop with Some d => if (i + 1 <? num_layers) then map d os else os | None => os end in
          q <- run_stack drop num_layers (i + 1) lr tr sr os ;;
          let '(ys, sts1, ts1) := q in Ok (ys, st1 :: sts1, t1 :: ts1)
      end
  | _ :: _, [] => Raise IndexError
  end.
(** rnn.py:60-80: [layer(first)] and num_layers - 1 others *)
Definition make_layers (num_layers : nat) (first other : layer) : list layer := first :: repeat other (num_layers - 1).
(** rnn.py:246-261 AnalogRNN.forward: without states the zero states [zero] are taken *)
Definition rnn_forward (drop : option (mat -> mat)) (num_layers : nat) (ls : list layer) (zero : nat -> list rstate) (ts : list (TS * TS)) (sts : option (list rstate)) (xs : list mat) :=
  run_stack drop num_layers 0 ls ts (match sts with Some s => s | None => zero (List.length (nth 0 xs [])) end) xs.
End Layers.
Arguments lin : clear implicits.
Arguments cell : clear implicits.
Arguments layer : clear implicits.
Arguments rstate : clear implicits.
