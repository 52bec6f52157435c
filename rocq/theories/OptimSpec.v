(** * Specification vocabulary for the optimizer properties (no proofs) *)
From Verif Require Import Prelude PeriModel PeriSpec OptimModel.

(** all parameters with the learning rate of their group, in order *)
Definition flat (o : optim) : list (option R * param) :=
  concat (map (fun g => map (pair (g_lr g)) (g_params g)) (o_groups o)).
Definition all_params (o : optim) : list param := concat (map g_params (o_groups o)).
Definition tile_of (e : event) : nat :=
  match e with ESetLR n _ | EUpdate n _ _ | EUpdateIndexed n _ _ | EPost n => n end.
Definition events_of (n : nat) (ev : list event) : list event := filter (fun e => Nat.eqb (tile_of e) n) ev.

(** the ordinary parameters with the learning rate of their group, in order *)
Definition digital_view (o : optim) : list (option R * param) :=
  filter (fun x => negb (is_analog (snd x))) (flat o).

(** ** Histories of backward passes and optimizer steps
    [HBack n x d]: a forward/backward pass through tile [n] with input batch [x] and
    output gradient batch [d]; [HStep]: [optimizer.step()]. *)
Inductive hop : Type := HBack (n : nat) (x d : list vec) | HStep.
Definition hstep (o : optim) (cf : nat -> pcfg) (s : (nat -> ptile) * (nat -> actx)) (h : hop) :=
  match h with
  | HBack n x d => (fst s, fupd (snd s) n (record_grad x d (snd s n)))
  | HStep => let '(cs, ev) := step o (snd s) in (fold_left (apply_event cf) ev (fst s), cs)
  end.
Definition hrun o cf s h := fold_left (hstep o cf) h s.
Definition samples (n : nat) (h : list hop) : list (vec * vec) :=
  concat (map (fun o => match o with HBack m x d => if Nat.eqb m n then combine x d else [] | HStep => [] end) h).
Definition shaped (cf : nat -> pcfg) (h : hop) : Prop :=
  match h with
  | HBack n x d => length x = length d /\ Forall (fun v => length v = c_in (cf n)) x
                   /\ Forall (fun v => length v = c_out (cf n)) d
  | HStep => True
  end.

