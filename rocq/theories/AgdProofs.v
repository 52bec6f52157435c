(** * Dynamic transfer: basic facts *)
From Verif Require Import Prelude Rand DevModel PulseModel CompModel TransModel TransSpec TransProofs AgdModel AgdSpec.
Local Open Scope R_scope.

Lemma a_run_snoc c s h e : a_run c s (h ++ [e]) = a_step c (a_run c s h) e.
Proof. unfold a_run. now rewrite fold_left_app. Qed.
Lemma a_run_ind c s0 (P : list aev -> ast -> Prop) :
  P [] s0 -> (forall h e, P h (a_run c s0 h) -> P (h ++ [e]) (a_step c (a_run c s0 h) e)) -> forall h, P h (a_run c s0 h).
Proof. intros P0 PS h. induction h as [|e h IH] using rev_ind; [exact P0|]. rewrite a_run_snoc. now apply PS. Qed.
(** the digital state without the counters of the schedule *)
Definition same_core (s s' : ast) : Prop :=
  g_H s' = g_H s /\ g_mean s' = g_mean s /\ g_past s' = g_past s /\ g_in s' = g_in s /\ g_out s' = g_out s /\ g_sw s' = g_sw s /\ g_cnt s' = g_cnt s /\ g_log s' = g_log s.
Lemma a_step_cases c s e : same_core s (a_step c s e) \/
  exists lr cl ev val coin, e = AUp lr cl ev val coin /\ lr <> 0 /\ same_core (a_read c lr cl (g_idx s) val coin s) (a_step c s e) /\ g_idx (a_step c s e) = ((g_idx s + 1) mod a_in c)%nat.
Proof.
  destruct e as [lr cl ev val coin|]; cbn [a_step]; [|left; repeat split]. destruct (_ && _)%bool; [|left; repeat split]. unfold a_transfer. destruct (Req_EM_T lr 0) as [->|N].
  - left. unfold a_read. rewrite (proj2 (Reqb_true 0 0) eq_refl). repeat split.
  - right. exists lr, cl, ev, val, coin. split; [reflexivity|]. split; [exact N|]. unfold a_read. rewrite (proj2 (Reqb_false lr 0) N). repeat split.
Qed.
(** the fields after a read *)
Definition ref_at (s : ast) (k : nat) : gvec := if g_sw s k then g_mean s k else g_past s k.
Definition sign_of (s : ast) (k j : nat) : R := if Bool.eqb (g_in s k) (g_out s j) then 1 else -1.
Definition omega_of (c : acfg) (lr cl : R) (k : nat) (val : gvec) (s : ast) (j : nat) : R := g_H s k j + sign_of s k j * (val j - ref_at s k j) * a_scale c (g_cnt s) lr cl.
Definition switch_of (c : acfg) (coin : R) (s : ast) : bool := ((g_cnt s mod n_samples c + 1 =? n_samples c)%nat || (cp_in_random (a_cp c) && Rltb coin (cp_in_prob (a_cp c))))%bool.
Definition ard_of (c : acfg) (lr cl : R) (k : nat) (val : gvec) (coin : R) (s : ast) : ard :=
  {| q_k := k; q_lr := a_scale c (g_cnt s) lr cl; q_sign := sign_of s k; q_ref := ref_at s k; q_val := val; q_steps := fun j => snd (a_next c (omega_of c lr cl k val s j));
     q_sent := (existsb (fun j => Rleb 1 (Rabs (omega_of c lr cl k val s j))) (seq 0 (a_out c)) && (n_samples c <? g_cnt s)%nat)%bool; q_sw := switch_of c coin s |}.
Lemma a_read_fields c lr cl k val coin s : lr <> 0 -> let s' := a_read c lr cl k val coin s in
  g_H s' = gput (g_H s) k (fun j => fst (a_next c (omega_of c lr cl k val s j))) /\
  g_mean s' = gput (g_mean s) k (fun j => g_mean s k j * (1 - weight_of c) + val j * weight_of c) /\
  g_past s' = gput (g_past s) k (ref_at s k) /\
  g_in s' = (if switch_of c coin s then gput (g_in s) k (negb (g_in s k)) else g_in s) /\ g_out s' = g_out s /\
  g_sw s' = gput (g_sw s) k (switch_of c coin s) /\
  g_cnt s' = (if (k =? a_in c - 1)%nat then S (g_cnt s) else g_cnt s) /\
  g_log s' = ard_of c lr cl k val coin s :: g_log s.
Proof. intros N s'. unfold s', a_read. rewrite (proj2 (Reqb_false lr 0) N). cbn [g_H g_mean g_past g_in g_out g_sw g_cnt g_log]. repeat split. Qed.
Lemma gput_at {A} (f : nat -> A) k v : gput f k v k = v.
Proof. unfold gput. now rewrite Nat.eqb_refl. Qed.
Lemma gput_other {A} (f : nat -> A) k v i : i <> k -> gput f k v i = f i.
Proof. intros N. unfold gput. apply Nat.eqb_neq in N. now rewrite N. Qed.
Lemma g_sgn_S n : g_sgn (S n) = - g_sgn n.
Proof. unfold g_sgn. rewrite Nat.even_succ, <- Nat.negb_even. destruct (Nat.even n); cbn [negb]; lra. Qed.
(** one step for facts about the core *)
Lemma core_cases c s e : let s' := a_step c s e in same_core s s' \/
  exists lr cl ev val coin, e = AUp lr cl ev val coin /\ lr <> 0 /\ let k := g_idx s in
  g_H s' = gput (g_H s) k (fun j => fst (a_next c (omega_of c lr cl k val s j))) /\
  g_mean s' = gput (g_mean s) k (fun j => g_mean s k j * (1 - weight_of c) + val j * weight_of c) /\
  g_past s' = gput (g_past s) k (ref_at s k) /\
  g_in s' = (if switch_of c coin s then gput (g_in s) k (negb (g_in s k)) else g_in s) /\ g_out s' = g_out s /\
  g_sw s' = gput (g_sw s) k (switch_of c coin s) /\
  g_cnt s' = (if (k =? a_in c - 1)%nat then S (g_cnt s) else g_cnt s) /\
  g_log s' = ard_of c lr cl k val coin s :: g_log s.
Proof.
  intros s'. destruct (a_step_cases c s e) as [H | (lr & cl & ev & val & coin & E & N & (C1 & C2 & C3 & C4 & C5 & C6 & C7 & C8) & _)]; [now left|]. right. exists lr, cl, ev, val, coin. split; [exact E|]. split; [exact N|].
  intros k. unfold s'. rewrite C1, C2, C3, C4, C5, C6, C7, C8. now apply a_read_fields.
Qed.
