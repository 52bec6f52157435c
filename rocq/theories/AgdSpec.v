(** * Dynamic transfer: vocabulary of the theorems *)
From Verif Require Import Prelude Rand DevModel PulseModel CompModel TransModel TransSpec AgdModel.
Local Open Scope R_scope.

(** Lists of reads have the latest first.  The running mean of what was read from entry [j] of slice
    [k], with weight [b] and starting at zero *)
Fixpoint g_meanof (b : R) (k j : nat) (l : list ard) : R :=
  match l with [] => 0 | r :: l' => if (q_k r =? k)%nat then (1 - b) * g_meanof b k j l' + b * q_val r j else g_meanof b k j l' end.
(** that mean at the time of the last switch of the slice, zero if there was none *)
Fixpoint g_refof (b : R) (k j : nat) (l : list ard) : R :=
  match l with [] => 0 | r :: l' => if ((q_k r =? k)%nat && q_sw r)%bool then g_meanof b k j l else g_refof b k j l' end.
(** reads and switches of a slice *)
Definition g_readsof (k : nat) (l : list ard) : nat := length (filter (fun r => (q_k r =? k)%nat) l).
Definition g_switches (k : nat) (l : list ard) : nat := length (filter (fun r => ((q_k r =? k)%nat && q_sw r)%bool) l).
Definition g_sgn (n : nat) : R := if Nat.even n then 1 else -1.
(** what the reads brought to entry [j] of slice [k], the steps made of it, those sent *)
Definition g_brought (k j : nat) (l : list ard) : R :=
  sumR (map (fun r => if (q_k r =? k)%nat then q_lr r * q_sign r j * (q_val r j - q_ref r j) else 0) l).
Definition g_made (k j : nat) (l : list ard) : Z := fold_right (fun r a => ((if (q_k r =? k)%nat then q_steps r j else 0) + a)%Z) 0%Z l.
Definition g_written (k j : nat) (l : list ard) : Z := fold_right (fun r a => ((if ((q_k r =? k)%nat && q_sent r)%bool then q_steps r j else 0) + a)%Z) 0%Z l.
(** histories in which the weights are not set, and in which no transfer has a learning rate of zero *)
Definition no_set (h : list aev) : Prop := Forall (fun e => match e with AUp _ _ _ _ _ => True | ASet => False end) h.
Definition nonzero (h : list aev) : Prop := Forall (fun e => match e with AUp lr _ _ _ _ => lr <> 0 | ASet => True end) h.
(** two histories from [s] (and another device in the same place of the schedule) with the same events
    except that what is read from entry [j] of slice [k] is larger by [O k j] in the second one *)
Fixpoint g_related (c : acfg) (O : gmat) (s : ast) (h h' : list aev) : Prop :=
  match h, h' with
  | [], [] => True
  | e :: h1, e' :: h1' =>
      match e, e' with
      | AUp lr cl ev val coin, AUp lr' cl' ev' val' coin' => lr' = lr /\ cl' = cl /\ ev' = ev /\ coin' = coin /\ forall j, (j < a_out c)%nat -> val' j = val j + O (g_idx s) j
      | ASet, ASet => True
      | _, _ => False
      end /\ g_related c O (a_step c s e) h1 h1'
  | _, _ => False
  end.
(** the same decisions: slices, signs, steps, what is sent and when is switched *)
Definition same_decisions (c : acfg) (r r' : ard) : Prop :=
  q_k r' = q_k r /\ q_lr r' = q_lr r /\ q_sent r' = q_sent r /\ q_sw r' = q_sw r /\ forall j, (j < a_out c)%nat -> q_sign r' j = q_sign r j /\ q_steps r' j = q_steps r j.
(** the second device: means and references larger by [O], everything else equal *)
Definition g_shifted (c : acfg) (O : gmat) (s s' : ast) : Prop :=
  (forall k j, (k < a_in c)%nat -> (j < a_out c)%nat -> g_H s' k j = g_H s k j /\ g_mean s' k j = g_mean s k j + O k j /\ g_past s' k j = g_past s k j + O k j) /\
  (forall k, g_in s' k = g_in s k) /\ (forall j, g_out s' j = g_out s j) /\ (forall k, g_sw s' k = g_sw s k) /\ g_cnt s' = g_cnt s /\ g_idx s' = g_idx s /\ g_upd s' = g_upd s /\ (g_idx s < a_in c)%nat.
(** [n] reads before the last switch of the slice *)
Fixpoint g_old (k : nat) (l : list ard) : nat :=
  match l with [] => 0%nat | r :: l' => if ((q_k r =? k)%nat && q_sw r)%bool then g_readsof k l else g_old k l' end.
