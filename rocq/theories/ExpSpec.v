(** * What the loops of an experiment are to report: runs without any hooks or metrics *)
From Verif Require Import Prelude.
Local Open Scope R_scope.

Section Spec.
Context {Mdl Img : Type} (train_mode eval_mode : Mdl -> Mdl).
Context (tstep : Mdl -> list (Img * nat) -> Mdl * R) (vstep : Mdl -> list (Img * nat) -> Mdl * list nat * R).
Context (program : Mdl -> Mdl) (drift : R -> Mdl -> Mdl).

(** all samples of a list of batches *)
Definition n_samples (bs : list (list (Img * nat))) : nat := length (concat bs).
(** training on the batches in order: the network, and size and loss of each batch *)
Fixpoint train_trace (m : Mdl) (bs : list (list (Img * nat))) : Mdl * list (nat * R) :=
  match bs with
  | [] => (m, [])
  | b :: r => let s := tstep m b in let t := train_trace (fst s) r in (fst t, (length b, snd s) :: snd t)
  end.
(** evaluation of the batches in order: the network, and labels, predictions and loss of each batch *)
Fixpoint valid_trace (m : Mdl) (bs : list (list (Img * nat))) : Mdl * list (list nat * list nat * R) :=
  match bs with
  | [] => (m, [])
  | b :: r => let s := vstep m b in let t := valid_trace (fst (fst s)) r in (fst t, (map snd b, snd (fst s), snd s) :: snd t)
  end.
(** mean of the losses of the batches, weighted with their sizes *)
Definition weighted (l : list (nat * R)) : R := sumR (map (fun p => INR (fst p) * snd p) l) / INR (sum_nat (map fst l)).
(** fraction of the predictions that are the label *)
Definition hits (labels preds : list nat) : nat := length (filter (fun p => (fst p =? snd p)%nat) (combine preds labels)).
Definition accuracy (l : list (list nat * list nat * R)) : R :=
  INR (sum_nat (map (fun p => hits (fst (fst p)) (snd (fst p))) l)) / INR (sum_nat (map (fun p => length (fst (fst p))) l)).
Definition losses (l : list (list nat * list nat * R)) : list (nat * R) := map (fun p => (length (fst (fst p)), snd p)) l.

(** one epoch *)
Definition after_training (m : Mdl) (tb : list (list (Img * nat))) : Mdl := fst (train_trace (train_mode m) tb).
Definition after_epoch (m : Mdl) (tb vb : list (list (Img * nat))) : Mdl := fst (valid_trace (eval_mode (after_training m tb)) vb).
(** network before epoch [e] *)
Fixpoint model_at (tb vb : nat -> list (list (Img * nat))) (m : Mdl) (e : nat) : Mdl :=
  match e with O => m | S e' => after_epoch (model_at tb vb m e') (tb e') (vb e') end.
Definition train_report (tb vb : nat -> list (list (Img * nat))) (m : Mdl) (e : nat) := snd (train_trace (train_mode (model_at tb vb m e)) (tb e)).
Definition valid_report (tb vb : nat -> list (list (Img * nat))) (m : Mdl) (e : nat) := snd (valid_trace (eval_mode (after_training (model_at tb vb m e) (tb e))) (vb e)).

(** inference: the network after the evaluations at the times [ts], one after the other *)
Fixpoint after_times (bs : list (list (Img * nat))) (m : Mdl) (ts : list R) : Mdl :=
  match ts with [] => m | t :: r => after_times bs (fst (valid_trace (drift t m) bs)) r end.
(** network before repeat [r] *)
Fixpoint repeat_at (bs : list (list (Img * nat))) (ts : list R) (m : Mdl) (r : nat) : Mdl :=
  match r with O => m | S r' => after_times bs (program (eval_mode (repeat_at bs ts m r'))) ts end.
(** what is seen in repeat [r] at the [i]-th time *)
Definition seen (bs : list (list (Img * nat))) (ts : list R) (m : Mdl) (r i : nat) :=
  snd (valid_trace (drift (nth i ts 0) (after_times bs (program (eval_mode (repeat_at bs ts m r))) (firstn i ts))) bs).
End Spec.

(** the elements of a set an experiment is asked to use: all, or the first ones *)
Definition elements {A} (max : nat) (set : list A) : list A := if (max =? 0)%nat then set else firstn max set.

(** mean and (population) standard deviation of [n] numbers *)
Definition avg (n : nat) (f : nat -> R) : R := sumR (map f (seq 0 n)) / INR n.
Definition sdev (n : nat) (f : nat -> R) : R := sqrt (avg n (fun r => (f r - avg n f) ^ 2)).
