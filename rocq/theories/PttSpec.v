(** * Specifications for the transfer tile written in Python *)
From Verif Require Import Prelude PulseModel PttModel.
Local Open Scope R_scope.

(** A history: updates with batches, and settings of the learning rate.  [run] stops at the first
    error. *)
Inductive ev : Type := Up (xs ds : list fvec) | SetLr (l : option R).
Definition step (c : pcfg) (v : dev) (s : pst) (e : ev) : res pst :=
  match e with
  | Up xs ds => let o := update c v s xs ds in match o_e o with None => Ok (o_s o) | Some e => Raise e end
  | SetLr l => Ok (set_lr l s)
  end.
Fixpoint run (c : pcfg) (v : dev) (s : pst) (h : list ev) : res pst :=
  match h with [] => Ok s | e :: r => s1 <- step c v s e ;; run c v s1 r end.
(** the number of samples of a history *)
Definition samples (h : list ev) : nat := sum_nat (map (fun e => match e with Up xs _ => length xs | SetLr _ => 0%nat end) h).
Definition batches (P : nat -> Prop) (h : list ev) : Prop := Forall (fun e => match e with Up xs _ => P (length xs) | SetLr _ => True end) h.
(** configurations accepted by [update] *)
Definition supported (c : pcfg) : Prop := c_nreads c = 1%Z /\ 0 <= c_every c /\ (c_tail c <> None -> c_cacc c = false).
(** nothing to divide by zero *)
Definition regular (c : pcfg) : Prop := 0 < c_dwA c /\ 0 < c_dwC c /\ (0 < c_fast c) /\ (c_auto c = true -> 0 < c_bl c) /\ (c_cols c = false -> (c_d c <= c_x c)%nat).
(** the reads made, oldest first *)
Definition reads (s : pst) : list rd := rev (s_log s).
(** what the reads of slice [k] brought to entry [o] of its buffer, and the steps sent *)
Definition brought (k o : nat) (l : list rd) : R :=
  sumR (map (fun r => if (r_k r =? k)%nat then r_lr r * r_sign r * (r_val r o - r_ref r o) else 0) l).
Definition sent (k o : nat) (l : list rd) : Z :=
  fold_right (fun r a => ((if (r_k r =? k)%nat then r_steps r o else 0) + a)%Z) 0%Z l.
(** the slice and the entry of the buffer of weight ([i], [j]) *)
Definition slice_of (c : pcfg) (i j : nat) : nat := if c_cols c then j else i.
Definition entry_of (c : pcfg) (i j : nat) : nat := if c_cols c then i else j.
(** the documented factor of what is read (compounds.py:625-658, [final_transfer_lr], with
    [thres_scale=transfer_lr=1] and [scale_transfer_lr]); [T]: [transfer_every] in samples *)
Definition documented_rate (c : pcfg) (T lr fast : R) : R :=
  let threshold := (if Rltb 0 (c_gran c) then c_gran c else 1) * c_dwA c in
  let base := if Rltb 0 (c_again c) then threshold * c_again c / (INR (t_in c) * T) else threshold in
  if c_correct c then lr / (base * (c_dwC c / c_dwA c)) / fast else lr / base.
(** the documented content of the buffer after a transfer (compounds.py:667-674): [h] with the read
    added *)
Definition documented_buffer (c : pcfg) (h : R) : R :=
  if Rltb (Rabs h) 1 then h else if c_forget c then c_mom c * h else h - (1 - c_mom c) * IZR (truncZ h).
(** a slow crossbar that makes at most [bl] steps of size [dw] for an entry *)
Definition clipped_update (bl dw lr : R) (xs ds : list fvec) (w : fmat) : fmat :=
  fun i j => w i j + clampR (- (bl * dw)) (bl * dw) (ideal_update lr xs ds w i j - w i j).
Definition exact_slow (v : dev) : Prop := forall n, v_slow v n = ideal_update.
Definition exact_fast (c : pcfg) (v : dev) : Prop := (forall n, v_fast v n = ideal_update) /\ (forall n x w i, v_fwd v n x w i = sumf (c_x c) (fun j => w i j * x j)) /\ (forall n d w j, v_bwd v n d w j = sumf (c_d c) (fun i => w i j * d i)).
(** two tiles that differ by an offset [O] of the fast crossbar, of its past means and of its
    references *)
Record shifted (c : pcfg) (O : fmat) (s s' : pst) : Prop := {
  sh_A : forall i j, s_A s' i j = s_A s i j + O i j;
  sh_P : forall i j, s_P s' (slice_of c i j) (entry_of c i j) = s_P s (slice_of c i j) (entry_of c i j) + O i j;
  sh_F : forall i j, s_F s' (slice_of c i j) (entry_of c i j) = s_F s (slice_of c i j) (entry_of c i j) + O i j;
  sh_H : forall k o, s_H s' k o = s_H s k o;
  sh_W : forall i j, s_W s' i j = s_W s i j;
  sh_c : forall k, s_c s' k = s_c s k;
  sh_cnt : s_cnt s' = s_cnt s; sh_idx : s_idx s' = s_idx s; sh_chop : s_chop s' = s_chop s;
  sh_mx : s_mx s' = s_mx s; sh_md : s_md s' = s_md s; sh_lr : s_lr s' = s_lr s; sh_clk : s_clk s' = s_clk s }.
Definition smul (a : R) (x : fvec) : fvec := fun j => a * x j.
(** the same history with all inputs multiplied by [a] and all errors by [b] *)
Definition scale_ev (a b : R) (e : ev) : ev :=
  match e with Up xs ds => Up (map (smul a) xs) (map (smul b) ds) | SetLr l => SetLr l end.
(** a sensible momentum of the automatic scale *)
Definition momentum_ok (c : pcfg) : Prop := 0 <= c_amom c < 1.
(** AGAD: the running mean of the reads of entry [o] of slice [k] (latest first, starting at zero) with
    weight [b], and the reference: that mean at the time of the last switch, zero before *)
Fixpoint mean (b : R) (k o : nat) (l : list rd) : R :=
  match l with [] => 0 | r :: l' => if (r_k r =? k)%nat then (1 - b) * mean b k o l' + b * r_val r o else mean b k o l' end.
Fixpoint reference (b : R) (k o : nat) (l : list rd) : R :=
  match l with [] => 0 | r :: l' => if ((r_k r =? k)%nat && r_sw r)%bool then mean b k o l else reference b k o l' end.
(** the number of switches of slice [k] *)
Definition switched (k : nat) (l : list rd) : nat := length (filter (fun r => ((r_k r =? k)%nat && r_sw r)%bool) l).
