(** * What a fit is to report *)
From Verif Require Import Prelude.
Local Open Scope R_scope.

Section Spec.
Context {tile : Type} (sw : list (list R) -> tile -> tile) (up : list R -> list R -> tile -> tile) (get_weights : tile -> list (list R)).
Context (n_traces n_devices : nat).
(** the tile after one update per pulse, for all traces *)
Definition after (t : tile) (pulses : list (list R)) : tile := fold_left (fun t p => up p (repeat (-1) n_traces) t) pulses t.
(** mean over the traces *)
Definition mean_over (w : list (list R)) : list R := map (fun j => sumR (map (fun i => nth j (nth i w []) 0) (seq 0 n_traces)) / INR n_traces) (seq 0 n_devices).
(** response to a measurement: the first value measured, then the weights after each pulse *)
Definition start (Q : list (list R)) (t : tile) : tile := sw (repeat (hd [] Q) n_traces) t.
Definition response_at (P Q : list (list R)) (t : tile) (j : nat) : list R :=
  match j with O => hd [] Q | S _ => mean_over (get_weights (after (start Q t) (firstn j P))) end.
(** the deviation of device [i] at point [j] *)
Definition deviation_at (P Q : list (list R)) (v : option (list R)) (t : tile) (j i : nat) : R :=
  (nth i (response_at P Q t j) 0 - nth i (nth j Q []) 0) * match v with Some v => nth i v 0 | None => 1 end.
Definition responses_of (P Q : list (list R)) (t : tile) : list (list R) := map (response_at P Q t) (seq 0 (length Q)).
Definition deviations_of (P Q : list (list R)) (v : option (list R)) (t : tile) : list R :=
  concat (map (fun j => map (deviation_at P Q v t j) (seq 0 n_devices)) (seq 0 (length Q))).
(** several measurements one after the other on the same tile *)
Fixpoint expected (ms : list (list (list R) * list (list R) * option (list R))) (t : tile) : list (list (list R)) * list R :=
  match ms with
  | [] => ([], [])
  | (P, Q, v) :: r =>
      let rest := expected r (after (start Q t) (removelast P)) in
      (responses_of P Q t :: fst rest, (deviations_of P Q v t ++ snd rest)%list)
  end.
(** data that fits: as many columns as devices, not more responses than pulses *)
Definition fits (P Q : list (list R)) : Prop :=
  (1 <= length Q <= length P)%nat /\ Forall (fun r => length r = n_devices) P /\ Forall (fun r => length r = n_devices) Q.
End Spec.
