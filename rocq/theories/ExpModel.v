(** * Experiments: training and inference loops, hooks, metrics, runners
    Sources: /repo/src/aihwkit/experiments/experiments/base.py:16-91, training.py:94-302, inferencing.py:119-383,
    /repo/src/aihwkit/experiments/runners/metrics.py:13-95, i_metrics.py:14-68, local.py:20-87, i_local.py:20-82.
    The neural network, the loss and the optimizer are parameters: one optimizer step gives a new network and the loss of
    the batch, one evaluation gives a (possibly changed) network, the predicted classes and the loss.  The wall clock is a
    parameter, read in order.  Printing is not modelled, only the divisions in the printed terms. *)
From Coq Require Import ZArith.
From Verif Require Import Prelude LgcModel.
Local Open Scope string_scope.

(** ** Values of result dictionaries *)
Inductive value := VNat (n : nat) | VReal (x : R) | VBool (b : bool) | VList (l : list value) | VDict (d : list (string * value)).
Definition dict := list (string * value).
Fixpoint put (k : string) (v : value) (d : dict) : dict :=
  match d with [] => [(k, v)] | (k', v') :: r => if String.eqb k k' then (k, v) :: r else (k', v') :: put k v r end.
(** [d.update(n)] *)
Definition update (d n : dict) : dict := fold_left (fun a kv => put (fst kv) (snd kv) a) n d.
Fixpoint get (k : string) (d : dict) : option value :=
  match d with [] => None | (k', v) :: r => if String.eqb k k' then Some v else get k r end.

(** ** base.py:16-33: signals; the arguments they are emitted with *)
Inductive signal := EXPERIMENT_START | EXPERIMENT_END | EPOCH_START | EPOCH_END | TRAIN_EPOCH_START | TRAIN_EPOCH_END
| TRAIN_EPOCH_BATCH_START | TRAIN_EPOCH_BATCH_END | VALIDATION_EPOCH_START | VALIDATION_EPOCH_END
| VALIDATION_EPOCH_BATCH_START | VALIDATION_EPOCH_BATCH_END | INFERENCE_START | INFERENCE_END
| INFERENCE_REPEAT_START | INFERENCE_REPEAT_END.
Definition signal_eqb (a b : signal) : bool :=
  match a, b with
  | EXPERIMENT_START, EXPERIMENT_START | EXPERIMENT_END, EXPERIMENT_END | EPOCH_START, EPOCH_START | EPOCH_END, EPOCH_END
  | TRAIN_EPOCH_START, TRAIN_EPOCH_START | TRAIN_EPOCH_END, TRAIN_EPOCH_END | TRAIN_EPOCH_BATCH_START, TRAIN_EPOCH_BATCH_START
  | TRAIN_EPOCH_BATCH_END, TRAIN_EPOCH_BATCH_END | VALIDATION_EPOCH_START, VALIDATION_EPOCH_START
  | VALIDATION_EPOCH_END, VALIDATION_EPOCH_END | VALIDATION_EPOCH_BATCH_START, VALIDATION_EPOCH_BATCH_START
  | VALIDATION_EPOCH_BATCH_END, VALIDATION_EPOCH_BATCH_END | INFERENCE_START, INFERENCE_START | INFERENCE_END, INFERENCE_END
  | INFERENCE_REPEAT_START, INFERENCE_REPEAT_START | INFERENCE_REPEAT_END, INFERENCE_REPEAT_END => true
  | _, _ => false
  end.
Inductive args := ANone | ANumber (n : nat) | ATrain (n : nat) (l : R) | AValid (n c : nat) (l : R)
| AResults (ts acc std err loss : list R) (repeats : nat).

(** ** metrics.py:20-35: one LocalMetric; [current_epoch] is [None] for the empty dictionary *)
Record epoch := { ep_number : nat; ep_start : R; ep_loss : R; ep_train : nat; ep_valid : nat; ep_correct : nat; ep_vloss : R }.
Record metric := { me_epochs : list epoch; me_current : option epoch; me_stdout : bool }.
(** i_metrics.py:17-24: one InferenceLocalMetric *)
Record imetric := { im_number : option nat; im_init : R; im_stdout : bool }.
Inductive obj := OLocal (m : metric) | OInfer (m : imetric).
Inductive method := receive_epoch_start | receive_epoch_end | receive_train_epoch_end | receive_train_epoch_batch_end
| receive_validation_epoch_batch_end | receive_validation_epoch_end | receive_repeat_start | receive_repeat_end.
(** a hook is a bound method of a metric, or a function of the user (without effects on the experiment) *)
Inductive hook := Bound (o : nat) (m : method) | User (f : args -> option dict).
Definition hooks := signal -> list hook.

(** Python's true division of a number by an integer *)
Definition pdiv (x : R) (n : nat) : res R := if (n =? 0)%nat then Raise ZeroDivisionError else Ok (x / INR n)%R.

(** metrics.py:25-35 *)
Definition epoch_start (n : nat) (t : R) (m : metric) : metric :=
  {| me_epochs := me_epochs m; me_stdout := me_stdout m; me_current := Some {| ep_number := n; ep_start := t; ep_loss := 0; ep_train := 0; ep_valid := 0; ep_correct := 0; ep_vloss := 0 |} |}.
Definition with_current (m : metric) (f : epoch -> epoch) : res metric :=
  match me_current m with None => Raise KeyError | Some e => Ok {| me_epochs := me_epochs m; me_stdout := me_stdout m; me_current := Some (f e) |} end.
(** metrics.py:37-40 *)
Definition train_batch_end (n : nat) (l : R) (m : metric) : res metric :=
  with_current m (fun e => {| ep_number := ep_number e; ep_start := ep_start e; ep_loss := ep_loss e + l; ep_train := (ep_train e + n)%nat; ep_valid := ep_valid e; ep_correct := ep_correct e; ep_vloss := ep_vloss e |}).
(** metrics.py:42-48 *)
Definition valid_batch_end (n c : nat) (l : R) (m : metric) : res metric :=
  with_current m (fun e => {| ep_number := ep_number e; ep_start := ep_start e; ep_loss := ep_loss e; ep_train := ep_train e; ep_valid := (ep_valid e + n)%nat; ep_correct := (ep_correct e + c)%nat; ep_vloss := ep_vloss e + l |}).
(** metrics.py:50-60 *)
Definition train_epoch_end (m : metric) : res unit :=
  if negb (me_stdout m) then Ok tt
  else match me_current m with None => Raise KeyError | Some e => _ <- pdiv (ep_loss e) (ep_train e) ;; Ok tt end.
(** metrics.py:62-73 *)
Definition valid_epoch_end (m : metric) : res unit :=
  if negb (me_stdout m) then Ok tt
  else match me_current m with None => Raise KeyError
       | Some e => _ <- pdiv (INR (ep_correct e)) (ep_valid e) ;; _ <- pdiv (ep_vloss e) (ep_valid e) ;; Ok tt end.
(** metrics.py:75-95 *)
Definition epoch_end (t : R) (m : metric) : res (metric * dict) :=
  match me_current m with
  | None => Raise KeyError
  | Some e =>
      acc <- pdiv (INR (ep_correct e)) (ep_valid e) ;;
      tl <- pdiv (ep_loss e) (ep_train e) ;;
      vl <- pdiv (ep_vloss e) (ep_valid e) ;;
      Ok ({| me_epochs := me_epochs m ++ [e]; me_current := Some e; me_stdout := me_stdout m |},
          [("epoch", VNat (ep_number e)); ("time_epoch", VReal (t - ep_start e)); ("accuracy", VReal acc); ("train_loss", VReal tl); ("valid_loss", VReal vl)])
  end%list.
(** i_metrics.py:39-48, :50-60.  An index past the end of an array is an IndexError *)
Definition at_ (l : list R) (i : nat) : res R := match nth_error l i with Some x => Ok x | None => Raise IndexError end.
Definition result_at (ts acc std err loss : list R) (i : nat) : res value :=
  t <- at_ ts i ;; a <- at_ acc i ;; s <- at_ std i ;; e <- at_ err i ;; l <- at_ loss i ;;
  Ok (VDict [("t_inference", VReal t); ("avg_accuracy", VReal a); ("std_accuracy", VReal s); ("avg_error", VReal e); ("avg_loss", VReal l)]).
Definition repeat_end (ts acc std err loss : list R) (repeats : nat) (t : R) (m : imetric) : res dict :=
  rs <- mapM (result_at ts acc std err loss) (seq 0 (length ts)) ;;
  match im_number m with
  | None => Raise KeyError
  | Some n =>
      Ok [("inference_runs", VDict [("inference_repeat", VNat (n + 1)); ("is_partial", VBool (n + 1 <? repeats)%nat);
                                    ("time_elapsed", VReal (t - im_init m)); ("inference_results", VList rs)])]
  end.

Fixpoint set_nth {A} (n : nat) (x : A) (l : list A) : list A :=
  match l, n with [], _ => [] | _ :: r, O => x :: r | a :: r, S n' => a :: set_nth n' x r end.

Section Exp.
Context {Mdl Img : Type} (now : nat -> R).
(** model.train(), model.eval() *)
Context (train_mode eval_mode : Mdl -> Mdl).
(** training.py:174-180: zero_grad, forward, loss, backward, step of one batch; loss.item() *)
Context (tstep : Mdl -> list (Img * nat) -> Mdl * R).
(** training.py:209-214, inferencing.py:249-258: forward in evaluation mode, classes with the largest output, loss.item() *)
Context (vstep : Mdl -> list (Img * nat) -> Mdl * list nat * R).
(** program_analog_weights, drift_analog_weights *)
Context (program : Mdl -> Mdl) (drift : R -> Mdl -> Mdl).

Record world := { w_objs : list obj; w_tick : nat; w_model : Mdl }.
Definition X (A : Type) := world -> res (A * world).
Definition xret {A} (a : A) : X A := fun w => Ok (a, w).
Definition xbind {A B} (m : X A) (f : A -> X B) : X B := fun w => match m w with Ok (a, w') => f a w' | Raise e => Raise e end.
Definition xlift {A} (r : res A) : X A := fun w => match r with Ok a => Ok (a, w) | Raise e => Raise e end.
Definition clock : X R := fun w => Ok (now (w_tick w), {| w_objs := w_objs w; w_tick := S (w_tick w); w_model := w_model w |}).
Definition set_model (m : Mdl) : X unit := fun w => Ok (tt, {| w_objs := w_objs w; w_tick := w_tick w; w_model := m |}).
Definition get_mdl : X Mdl := fun w => Ok (w_model w, w).
Definition get_obj (o : nat) : X obj := fun w => match nth_error (w_objs w) o with Some x => Ok (x, w) | None => Raise AttributeError end.
Definition put_obj (o : nat) (x : obj) : X unit := fun w => Ok (tt, {| w_objs := set_nth o x (w_objs w); w_tick := w_tick w; w_model := w_model w |}).

(** a bound method called with the arguments of a signal; wrong arguments are a TypeError *)
Definition call_method (o : nat) (m : method) (a : args) : X (option dict) :=
  xbind (get_obj o) (fun ob =>
  match ob, m, a with
  | OLocal me, receive_epoch_start, ANumber n => xbind clock (fun t => xbind (put_obj o (OLocal (epoch_start n t me))) (fun _ => xret None))
  | OLocal me, receive_train_epoch_batch_end, ATrain n l => xbind (xlift (train_batch_end n l me)) (fun me' => xbind (put_obj o (OLocal me')) (fun _ => xret None))
  | OLocal me, receive_validation_epoch_batch_end, AValid n c l => xbind (xlift (valid_batch_end n c l me)) (fun me' => xbind (put_obj o (OLocal me')) (fun _ => xret None))
  | OLocal me, receive_train_epoch_end, ANone => xbind (xlift (train_epoch_end me)) (fun _ => xret None)
  | OLocal me, receive_validation_epoch_end, ANone => xbind (xlift (valid_epoch_end me)) (fun _ => xret None)
  | OLocal me, receive_epoch_end, ANone => xbind clock (fun t => xbind (xlift (epoch_end t me)) (fun r => xbind (put_obj o (OLocal (fst r))) (fun _ => xret (Some (snd r)))))
  | OInfer me, receive_repeat_start, ANumber n => xbind (put_obj o (OInfer {| im_number := Some n; im_init := im_init me; im_stdout := im_stdout me |})) (fun _ => xret None)
  | OInfer me, receive_repeat_end, AResults ts acc std err loss k => xbind clock (fun t => xbind (xlift (repeat_end ts acc std err loss k t me)) (fun d => xret (Some d)))
  | OLocal _, (receive_repeat_start | receive_repeat_end), _ => xlift (Raise AttributeError)
  | OInfer _, (receive_epoch_start | receive_epoch_end | receive_train_epoch_end | receive_train_epoch_batch_end | receive_validation_epoch_batch_end | receive_validation_epoch_end), _ => xlift (Raise AttributeError)
  | _, _, _ => xlift (Raise TypeError)
  end).
Definition call_one (h : hook) (a : args) : X (option dict) :=
  match h with Bound o m => call_method o m a | User f => xret (f a) end.
(** base.py:83-91 *)
Fixpoint call_list (l : list hook) (a : args) (ret : dict) : X dict :=
  match l with
  | [] => xret ret
  | h :: r => xbind (call_one h a) (fun o => call_list r a (match o with Some d => update ret d | None => ret end))
  end.
Definition call_hook (hs : hooks) (s : signal) (a : args) : X dict := call_list (hs s) a [].
(** base.py:65-75, :77-80, :43-60 *)
Definition add_hook (s : signal) (h : hook) (hs : hooks) : hooks := fun s' => if signal_eqb s s' then (hs s' ++ [h])%list else hs s'.
Definition clear_hooks (hs : hooks) : hooks := fun _ => [].
Definition no_hooks : hooks := fun _ => [].

(** ** Data loaders *)
Local Notation sample := (Img * nat)%type.
(** one iteration of a loader: its batches, fetched when they are needed *)
Definition batches := list (res (list sample)).
Fixpoint chunks {A} (fuel m : nat) (l : list A) : list (list A) :=
  match fuel with O => [] | S f => match l with [] => [] | _ => firstn m l :: chunks f m (skipn m l) end end.
Definition fetch (set : list sample) (i : nat) : res sample :=
  match nth_error set i with Some s => Ok s | None => Raise IndexError end.
(** torch DataLoader, one iteration in the given order of indices *)
Definition data_loader (set : list sample) (bs : nat) (order : list nat) : batches :=
  map (mapM (fetch set)) (chunks (length order) bs order).
(** training.py:121-128, inferencing.py:148-149: number of elements of the set that is used; a Subset has the number of
    indices given, whatever the size of the set *)
Definition used (max : nat) (set : list sample) : nat := if (max =? 0)%nat then length set else max.

(** ** training.py:146-185 *)
Fixpoint training_loop (hs : hooks) (l : batches) : X unit :=
  match l with
  | [] => xret tt
  | b :: r =>
      xbind (xlift b) (fun b =>
      xbind get_mdl (fun m =>
      let '(m', loss) := tstep m b in
      xbind (set_model m') (fun _ =>
      xbind (call_hook hs TRAIN_EPOCH_BATCH_END (ATrain (length b) (loss * INR (length b)))) (fun _ =>
      training_loop hs r))))
  end.
Definition training_step (hs : hooks) (l : batches) : X unit :=
  xbind get_mdl (fun m => xbind (set_model (train_mode m)) (fun _ => training_loop hs l)).
(** (predicted == labels).sum() *)
Fixpoint count_eq (p l : list nat) : nat :=
  match p, l with a :: p', b :: l' => ((if (a =? b)%nat then 1 else 0) + count_eq p' l')%nat | _, _ => O end.
(** training.py:186-222 *)
Fixpoint validation_loop (hs : hooks) (l : batches) : X unit :=
  match l with
  | [] => xret tt
  | b :: r =>
      xbind (xlift b) (fun b =>
      xbind get_mdl (fun m =>
      let '(m', predicted, loss) := vstep m b in
      xbind (set_model m') (fun _ =>
      xbind (call_hook hs VALIDATION_EPOCH_BATCH_END (AValid (length b) (count_eq predicted (map snd b)) (loss * INR (length b)))) (fun _ =>
      validation_loop hs r))))
  end.
Definition validation_step (hs : hooks) (l : batches) : X unit :=
  xbind get_mdl (fun m => xbind (set_model (eval_mode m)) (fun _ => validation_loop hs l)).
(** training.py:224-264; [tl e], [vl e]: the iteration of the loaders in epoch [e] *)
Fixpoint train_from (hs : hooks) (tl vl : nat -> batches) (k n : nat) : X (list dict) :=
  match n with
  | O => xret []
  | S n' =>
      xbind (call_hook hs EPOCH_START (ANumber k)) (fun _ =>
      xbind (call_hook hs TRAIN_EPOCH_START (ANumber k)) (fun _ =>
      xbind (training_step hs (tl k)) (fun _ =>
      xbind (call_hook hs TRAIN_EPOCH_END ANone) (fun _ =>
      xbind (call_hook hs VALIDATION_EPOCH_START (ANumber k)) (fun _ =>
      xbind (validation_step hs (vl k)) (fun _ =>
      xbind (call_hook hs VALIDATION_EPOCH_END ANone) (fun _ =>
      xbind (call_hook hs EPOCH_END ANone) (fun d =>
      xbind (train_from hs tl vl (S k) n') (fun rest =>
      xret (update [("epoch", VNat k)] d :: rest))))))))))
  end.
Definition train (hs : hooks) (tl vl : nat -> batches) (epochs : nat) : X (list dict) := train_from hs tl vl 0 epochs.
(** training.py:94-129, :266-302: [run]; [sht e n], [shv e n]: the random orders of [n] elements drawn in epoch [e].
    A batch size of 0 is a ValueError of the DataLoader.  Data sets are not empty (torch refuses those). *)
Definition train_run (hs : hooks) (tset vset : list sample) (bs : nat) (sht shv : nat -> nat -> list nat) (max epochs : nat) : X (list dict) :=
  if (bs =? 0)%nat then xlift (Raise ValueError)
  else train hs (fun e => data_loader tset bs (sht e (used max tset))) (fun e => data_loader vset bs (shv e (used max vset))) epochs.

(** local.py:68-78: the hooks of a new LocalMetric (object [o]) *)
Definition local_hooks (hs : hooks) (o : nat) : hooks :=
  add_hook VALIDATION_EPOCH_END (Bound o receive_validation_epoch_end)
  (add_hook VALIDATION_EPOCH_BATCH_END (Bound o receive_validation_epoch_batch_end)
  (add_hook TRAIN_EPOCH_BATCH_END (Bound o receive_train_epoch_batch_end)
  (add_hook TRAIN_EPOCH_END (Bound o receive_train_epoch_end)
  (add_hook EPOCH_END (Bound o receive_epoch_end)
  (add_hook EPOCH_START (Bound o receive_epoch_start)
  (clear_hooks hs)))))).
Definition new_obj (x : obj) : X nat := fun w => Ok (length (w_objs w), {| w_objs := (w_objs w ++ [x])%list; w_tick := w_tick w; w_model := w_model w |}).
(** local.py:36-87: the results and the hooks the experiment is left with *)
Definition local_runner (hs : hooks) (stdout : bool) (k : hooks -> X (list dict)) : X (list dict * hooks) :=
  xbind (new_obj (OLocal {| me_epochs := []; me_current := None; me_stdout := stdout |})) (fun o =>
  let hs' := local_hooks hs o in
  xbind (k hs') (fun r => xret (r, hs'))).

(** ** inferencing.py:243-265: one pass over the data at one time *)
Fixpoint infer_loop (l : batches) (ok total : nat) (loss : R) : X (nat * nat * R) :=
  match l with
  | [] => xret (ok, total, loss)
  | b :: r =>
      xbind (xlift b) (fun b =>
      xbind get_mdl (fun m =>
      let '(m', predicted, lo) := vstep m b in
      xbind (set_model m') (fun _ =>
      infer_loop r (ok + count_eq predicted (map snd b)) (total + length b) (loss + lo * INR (length b)))))
  end.
Fixpoint infer_times (l : batches) (ts : list R) : X (list R * list R * list R) :=
  match ts with
  | [] => xret ([], [], [])
  | t :: r =>
      xbind get_mdl (fun m => xbind (set_model (drift t m)) (fun _ =>
      xbind (infer_loop l 0 0 0) (fun '(ok, total, loss) =>
      xbind (xlift (pdiv (INR ok) total)) (fun q =>
      xbind (xlift (pdiv loss total)) (fun lo =>
      xbind (infer_times l r) (fun '(acc, err, los) =>
      xret (q * 100 :: acc, 100 - q * 100 :: err, lo :: los))))))%R)
  end.
(** inferencing.py:201-267 *)
Definition inferencing_step (l : batches) (ts : list R) : X (list R * list R * list R) :=
  xbind get_mdl (fun m => xbind (set_model (program (eval_mode m))) (fun _ => infer_times l ts)).
(** inferencing.py:301-303: numpy's logspace from 1 to [T] for a positive [T] *)
Definition logspace (T : R) (k : nat) : list R :=
  match k with
  | 1%nat => [1%R]
  | _ => map (fun i => Rpower 10 (ln T / ln 10 * INR i / INR (k - 1))) (seq 0 k)
  end.
Definition t_list (T : R) (n : nat) : res (list R) := if (n =? 0)%nat then Raise ValueError else Ok (0%R :: logspace T (n - 1)).
(** [a.reshape(r, n).mean(axis=0)] and [.std(axis=0)] of the concatenated arrays, as a list of rows of [n] *)
Definition column (rows : list (list R)) (i : nat) : list R := map (fun r => nth i r 0%R) rows.
Definition mean (l : list R) : R := (sumR l / INR (length l))%R.
Definition std (l : list R) : R := sqrt (mean (map (fun x => (x - mean l) * (x - mean l))%R l)).
Definition mean0 (n : nat) (rows : list (list R)) : list R := map (fun i => mean (column rows i)) (seq 0 n).
Definition std0 (n : nat) (rows : list (list R)) : list R := map (fun i => std (column rows i)) (seq 0 n).
(** inferencing.py:309-332; [attr]: self.inference_repeats *)
Fixpoint inference_from (hs : hooks) (l : batches) (ts : list R) (attr k n : nat) (acc err los : list (list R)) (last : dict) : X dict :=
  match n with
  | O => xret last
  | S n' =>
      xbind (call_hook hs INFERENCE_REPEAT_START (ANumber k)) (fun _ =>
      xbind (inferencing_step l ts) (fun '(a, e, lo) =>
      let acc := (acc ++ [a])%list in
      let err := (err ++ [e])%list in
      let los := (los ++ [lo])%list in
      let m := length ts in
      xbind (call_hook hs INFERENCE_REPEAT_END (AResults ts (mean0 m acc) (std0 m acc) (mean0 m err) (mean0 m los) attr)) (fun d =>
      inference_from hs l ts attr (S k) n' acc err los d)))
  end.
Definition inference (hs : hooks) (l : batches) (attr repeats : nat) (T : R) (n_times : nat) : X dict :=
  xbind (xlift (t_list T n_times)) (fun ts => inference_from hs l ts attr 0 repeats [] [] [] []).
(** i_local.py:69-72 *)
Definition infer_hooks (hs : hooks) (o : nat) : hooks :=
  add_hook INFERENCE_REPEAT_END (Bound o receive_repeat_end) (add_hook INFERENCE_REPEAT_START (Bound o receive_repeat_start) (clear_hooks hs)).
(** inferencing.py:355-383: [run]; [prep]: get_model; the order is not shuffled (:151); 10 times (:277) *)
Definition infer_run (hs : hooks) (prep : Mdl -> res Mdl) (vset : list sample) (bs max repeats : nat) (T : R) : X dict :=
  if (bs =? 0)%nat then xlift (Raise ValueError)
  else xbind get_mdl (fun m => xbind (xlift (prep m)) (fun m' => xbind (set_model m') (fun _ =>
    inference hs (data_loader vset bs (seq 0 (used max vset))) repeats repeats T 10))).
(** i_local.py:36-82 *)
Definition infer_runner (hs : hooks) (stdout : bool) (k : hooks -> X dict) : X (dict * hooks) :=
  xbind clock (fun t =>
  xbind (new_obj (OInfer {| im_number := None; im_init := t; im_stdout := stdout |})) (fun o =>
  let hs' := infer_hooks hs o in
  xbind (k hs') (fun r => xret (r, hs')))).
(** inferencing.py:155-199: [file p]: contents of a template file after a possible download ([None]: there is none),
    [load s m]: load_state_dict of the converted checkpoint, [remap m]: remap_analog_weights *)
Definition get_model {S : Type} (file : string -> option S) (load : S -> Mdl -> Mdl) (remap : Mdl -> Mdl) (id : string) (remap_weights : bool) (m : Mdl) : res Mdl :=
  p <- template_path id ;;
  match p with
  | None => Ok m
  | Some p => let m' := match file p with Some s => load s m | None => m end in Ok (if remap_weights then remap m' else m')
  end.
End Exp.
