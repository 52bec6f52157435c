(** * Inference experiments (C196-C197) *)
From Coq Require Import ZArith Permutation.
From Verif Require Import Prelude LgcModel ExpModel ExpSpec ExpProofs ExpProps.
Local Open Scope string_scope.

Lemma sumR_map_ext {A} (f g : A -> R) l : (forall x, In x l -> f x = g x) -> sumR (map f l) = sumR (map g l).
Proof. intros H. f_equal. apply map_ext_in. exact H. Qed.
Lemma column_rows (f : nat -> nat -> R) n rows i : (i < n)%nat -> column (map (fun r => map (f r) (seq 0 n)) rows) i = map (fun r => f r i) rows.
Proof.
  intros L. unfold column. rewrite map_map. apply map_ext. intros r. rewrite (nth_indep _ 0%R (f r O)) by (rewrite map_length, seq_length; exact L). rewrite map_nth, seq_nth by exact L. reflexivity.
Qed.
Lemma mean_rows (f : nat -> nat -> R) n K : mean0 n (map (fun r => map (f r) (seq 0 n)) (seq 0 K)) = map (fun i => avg K (fun r => f r i)) (seq 0 n).
Proof. unfold mean0. apply map_ext_in. intros i Hi. apply in_seq in Hi. rewrite column_rows by lia. unfold mean, avg. rewrite map_length, seq_length. reflexivity. Qed.
Lemma std_rows (f : nat -> nat -> R) n K : std0 n (map (fun r => map (f r) (seq 0 n)) (seq 0 K)) = map (fun i => sdev K (fun r => f r i)) (seq 0 n).
Proof.
  unfold std0. apply map_ext_in. intros i Hi. apply in_seq in Hi. rewrite column_rows by lia. unfold std, sdev. f_equal. unfold mean at 1, avg at 1. rewrite !map_length, seq_length, map_map. f_equal. apply sumR_map_ext. intros r _. unfold mean, avg. rewrite map_length, seq_length. ring.
Qed.
Lemma avg_100_minus K f : (0 < K)%nat -> avg K (fun r => 100 - f r)%R = (100 - avg K f)%R.
Proof.
  intros P. unfold avg. assert (S1 : forall l : list nat, sumR (map (fun r => 100 - f r)%R l) = (100 * INR (length l) - sumR (map f l))%R).
  { induction l as [|a l IH]; [cbn; ring|]. cbn [map sumR]. rewrite IH. cbn [length]. rewrite S_INR. ring. }
  rewrite S1, seq_length. field. apply not_0_INR. lia.
Qed.
Lemma map_seq_snoc {A} (f : nat -> A) k : (map f (seq 0 k) ++ [f k])%list = map f (seq 0 (S k)).
Proof. rewrite seq_S, map_app. reflexivity. Qed.

Section Exp.
Context {Mdl Img : Type} (now : nat -> R) (eval_mode : Mdl -> Mdl) (vstep : Mdl -> list (Img * nat) -> Mdl * list nat * R).
Context (program : Mdl -> Mdl) (drift : R -> Mdl -> Mdl).
Notation inference := (inference now eval_mode vstep program drift).
Notation inference_from := (inference_from now eval_mode vstep program drift).
Notation infer_run := (infer_run now eval_mode vstep program drift).
Notation infer_runner := (infer_runner (Mdl := Mdl) now).
Notation infer_times := (infer_times vstep drift).
Notation valid_trace := (valid_trace vstep).
Notation after_times := (after_times vstep drift).
Notation seen := (seen eval_mode vstep program drift).
Notation repeat_at := (repeat_at eval_mode vstep program drift).

Lemma infer_loop_run : forall bs ok total loss (w : @world Mdl),
  let tr := snd (valid_trace (w_model w) bs) in
  infer_loop vstep (map Ok bs) ok total loss w =
  Ok (((ok + sum_nat (map (fun p => hits (fst (fst p)) (snd (fst p))) tr))%nat, (total + n_samples bs)%nat, (loss + sumR (map (fun p => INR (fst p) * snd p) (losses tr)))%R),
      {| w_objs := w_objs w; w_tick := w_tick w; w_model := fst (valid_trace (w_model w) bs) |}).
Proof.
  induction bs as [|b bs IH]; intros ok total loss w tr; subst tr.
  - cbn. unfold xret. rewrite !Nat.add_0_r, Rplus_0_r. destruct w; reflexivity.
  - cbn [map infer_loop]. unfold xbind at 1, xlift. unfold xbind at 1, get_mdl. destruct (vstep (w_model w) b) as [[m' p] lo] eqn:Eb. unfold xbind at 1, set_model. cbv zeta in IH. rewrite IH. cbn [w_objs w_tick w_model].
    cbn [ExpSpec.valid_trace]. rewrite Eb. cbn [fst snd map losses]. unfold n_samples, sum_nat. cbn [concat fold_right sumR fst snd]. rewrite app_length, map_length, count_hits, !Nat.add_assoc, Rplus_assoc, (Rmult_comm lo). reflexivity.
Qed.
Lemma accuracy_eq bs m : (INR (sum_nat (map (fun p => hits (fst (fst p)) (snd (fst p))) (snd (valid_trace m bs)))) / INR (n_samples bs))%R = accuracy (snd (valid_trace m bs)).
Proof. unfold accuracy. rewrite lengths_valid. reflexivity. Qed.
Lemma weighted_eq bs m : (sumR (map (fun p => INR (fst p) * snd p)%R (losses (snd (valid_trace m bs)))) / INR (n_samples bs))%R = weighted (losses (snd (valid_trace m bs))).
Proof. unfold weighted. rewrite lengths_losses, lengths_valid. reflexivity. Qed.
Definition see (bs : list (list (Img * nat))) (m : Mdl) (ts : list R) (i : nat) := snd (valid_trace (drift (nth i ts 0%R) (after_times bs m (firstn i ts))) bs).
Lemma infer_times_run bs : (0 < n_samples bs)%nat -> forall ts (w : @world Mdl),
  infer_times (map Ok bs) ts w =
  Ok ((map (fun i => accuracy (see bs (w_model w) ts i) * 100)%R (seq 0 (length ts)), map (fun i => 100 - accuracy (see bs (w_model w) ts i) * 100)%R (seq 0 (length ts)),
       map (fun i => weighted (losses (see bs (w_model w) ts i))) (seq 0 (length ts))),
      {| w_objs := w_objs w; w_tick := w_tick w; w_model := after_times bs (w_model w) ts |}).
Proof.
  intros P. induction ts as [|t ts IH]; intros w; [destruct w; reflexivity|]. cbn [ExpModel.infer_times]. unfold xbind at 1, get_mdl. unfold xbind at 1, set_model. unfold xbind at 1. rewrite infer_loop_run. cbn [w_objs w_tick w_model].
  unfold xbind at 1, xlift. rewrite pdiv_ok by exact P. unfold xbind at 1. rewrite pdiv_ok by exact P. unfold xbind at 1. rewrite IH. cbn [w_objs w_tick w_model]. unfold xret.
  cbn [length seq map ExpSpec.after_times]. rewrite !Nat.add_0_l, !Rplus_0_l, accuracy_eq, weighted_eq, <- seq_shift, !map_map. reflexivity.
Qed.
Lemma call_repeat_start hs o n (w : @world Mdl) me : nth_error (w_objs w) o = Some (OInfer me) ->
  call_hook now (infer_hooks hs o) INFERENCE_REPEAT_START (ANumber n) w =
  Ok ([], {| w_objs := set_nth o (OInfer {| im_number := Some n; im_init := im_init me; im_stdout := im_stdout me |}) (w_objs w); w_tick := w_tick w; w_model := w_model w |}).
Proof. intros H. unfold call_hook, infer_hooks, clear_hooks, add_hook. cbn. unfold xbind, call_method, xbind, get_obj. rewrite H. reflexivity. Qed.
Definition entry (f g h i : nat -> R) (ts : list R) (j : nat) : value :=
  VDict [("t_inference", VReal (nth j ts 0%R)); ("avg_accuracy", VReal (f j)); ("std_accuracy", VReal (g j)); ("avg_error", VReal (h j)); ("avg_loss", VReal (i j))].
Lemma at_map f n j : (j < n)%nat -> at_ (map f (seq 0 n)) j = Ok (f j).
Proof. intros L. unfold at_. rewrite (nth_error_nth' _ (f O)) by (rewrite map_length, seq_length; exact L). rewrite map_nth, seq_nth by exact L. reflexivity. Qed.
Lemma results_ok f g h i ts : let n := length ts in mapM (result_at ts (map f (seq 0 n)) (map g (seq 0 n)) (map h (seq 0 n)) (map i (seq 0 n))) (seq 0 n) = Ok (map (entry f g h i ts) (seq 0 n)).
Proof.
  intros n. assert (G : forall l, Forall (fun j => (j < n)%nat) l -> mapM (result_at ts (map f (seq 0 n)) (map g (seq 0 n)) (map h (seq 0 n)) (map i (seq 0 n))) l = Ok (map (entry f g h i ts) l)).
  { induction l as [|j l IH]; intros F; [reflexivity|]. inversion F; subst. cbn [mapM map]. unfold result_at at 1. unfold at_ at 1. rewrite (nth_error_nth' ts 0%R) by assumption. cbn [bind]. rewrite !at_map by assumption. cbn [bind]. rewrite IH by assumption. reflexivity. }
  apply G, Forall_forall. intros j Hj. apply in_seq in Hj. lia.
Qed.
Lemma call_repeat_end hs o f g h i ts attr k (w : @world Mdl) me : nth_error (w_objs w) o = Some (OInfer me) -> im_number me = Some k -> let n := length ts in
  call_hook now (infer_hooks hs o) INFERENCE_REPEAT_END (AResults ts (map f (seq 0 n)) (map g (seq 0 n)) (map h (seq 0 n)) (map i (seq 0 n)) attr) w =
  Ok ([("inference_runs", VDict [("inference_repeat", VNat (k + 1)); ("is_partial", VBool (k + 1 <? attr)%nat); ("time_elapsed", VReal (now (w_tick w) - im_init me)); ("inference_results", VList (map (entry f g h i ts) (seq 0 n)))])],
      {| w_objs := w_objs w; w_tick := S (w_tick w); w_model := w_model w |}).
Proof.
  intros H C n. unfold call_hook, infer_hooks, clear_hooks, add_hook. cbn. unfold xbind, call_method, xbind, get_obj. rewrite H. unfold repeat_end. unfold clock. cbn [w_tick]. unfold xlift. subst n. rewrite results_ok. cbn [bind]. rewrite C. reflexivity.
Qed.
Definition acc_at bs ts m r i := (accuracy (seen bs ts m r i) * 100)%R.
Definition loss_at bs ts m r i := weighted (losses (seen bs ts m r i)).
Definition summary bs ts m K attr (t1 t0 : R) : dict :=
  [("inference_runs", VDict [("inference_repeat", VNat K); ("is_partial", VBool (K <? attr)%nat); ("time_elapsed", VReal (t1 - t0)%R);
    ("inference_results", VList (map (entry (fun i => avg K (fun r => acc_at bs ts m r i)) (fun i => sdev K (fun r => acc_at bs ts m r i)) (fun i => avg K (fun r => 100 - acc_at bs ts m r i)%R) (fun i => avg K (fun r => loss_at bs ts m r i)) ts) (seq 0 (length ts))))])].
Lemma inference_from_run hs o bs ts attr m0 : (0 < n_samples bs)%nat -> forall n k (w : @world Mdl) me last,
  nth_error (w_objs w) o = Some (OInfer me) -> w_model w = repeat_at bs ts m0 k ->
  let rows := fun (f : nat -> nat -> R) K => map (fun r => map (f r) (seq 0 (length ts))) (seq 0 K) in
  exists w', inference_from (infer_hooks hs o) (map Ok bs) ts attr k n (rows (acc_at bs ts m0) k) (rows (fun r i => 100 - acc_at bs ts m0 r i)%R k) (rows (loss_at bs ts m0) k) last w =
    Ok (match n with O => last | S _ => summary bs ts m0 (k + n) attr (now (w_tick w + n - 1)) (im_init me) end, w') /\ w_model w' = repeat_at bs ts m0 (k + n) /\ length (w_objs w') = length (w_objs w) /\
    firstn o (w_objs w') = firstn o (w_objs w).
Proof.
  intros P. induction n as [|n IH]; intros k w me last H M rows.
  - exists w. rewrite Nat.add_0_r. repeat split; assumption.
  - assert (Lo : (o < length (w_objs w))%nat) by (apply nth_error_Some; rewrite H; discriminate).
    cbn [ExpModel.inference_from]. unfold xbind at 1. rewrite (call_repeat_start hs o k w me H). cbn [w_objs w_tick w_model].
    unfold xbind at 1, inferencing_step. unfold xbind at 1, get_mdl. unfold xbind at 1, set_model. rewrite infer_times_run by exact P. cbn [w_objs w_tick w_model]. rewrite M.
    set (mk := program (eval_mode (repeat_at bs ts m0 k))).
    assert (A1 : map (fun i => (accuracy (see bs mk ts i) * 100)%R) (seq 0 (length ts)) = map (acc_at bs ts m0 k) (seq 0 (length ts))) by reflexivity.
    assert (A2 : map (fun i => (100 - accuracy (see bs mk ts i) * 100)%R) (seq 0 (length ts)) = map (fun i => 100 - acc_at bs ts m0 k i)%R (seq 0 (length ts))) by reflexivity.
    assert (A3 : map (fun i => weighted (losses (see bs mk ts i))) (seq 0 (length ts)) = map (loss_at bs ts m0 k) (seq 0 (length ts))) by reflexivity.
    rewrite A1, A2, A3. unfold rows.
    rewrite (map_seq_snoc (fun r => map (acc_at bs ts m0 r) (seq 0 (length ts)))), (map_seq_snoc (fun r => map (fun i => 100 - acc_at bs ts m0 r i)%R (seq 0 (length ts)))), (map_seq_snoc (fun r => map (loss_at bs ts m0 r) (seq 0 (length ts)))).
    rewrite mean_rows, (mean_rows (fun r i => 100 - acc_at bs ts m0 r i)%R), (mean_rows (loss_at bs ts m0)), std_rows.
    unfold xbind at 1. erewrite call_repeat_end; [|cbn [w_objs]; apply nth_error_set; exact Lo|reflexivity]. cbn [w_objs w_tick w_model im_init].
    edestruct (IH (S k)) as (w' & E & M' & L' & F').
    2: { exact (eq_refl : w_model {| w_objs := set_nth o (OInfer {| im_number := Some k; im_init := im_init me; im_stdout := im_stdout me |}) (w_objs w); w_tick := S (w_tick w); w_model := after_times bs mk ts |} = _). }
    { cbn [w_objs]. apply nth_error_set. exact Lo. }
    exists w'. split; [rewrite E|]; [|split; [rewrite M'; f_equal; lia|cbn [w_objs] in L', F'; rewrite L', F', set_nth_length, set_nth_firstn; auto]].
    f_equal. f_equal. destruct n as [|n].
    + unfold summary. rewrite Nat.add_sub, Nat.add_1_r. reflexivity.
    + cbn [w_tick im_init]. f_equal; [lia|]. f_equal. lia.
Qed.

(** what the runner returns: the averages over the repeats, for every time *)
Lemma runner_results (hs0 : hooks) (stdout : bool) (bs : list (list (Img * nat))) (attr K : nat) (T : R) (n : nat) (ts : list R) (w : @world Mdl) :
  (0 < n_samples bs)%nat -> (0 < K)%nat -> t_list T n = Ok ts ->
  exists hs w', infer_runner hs0 stdout (fun hs => inference hs (map Ok bs) attr K T n) w = Ok ((summary bs ts (w_model w) K attr (now (w_tick w + K)) (now (w_tick w)), hs), w') /\ w_model w' = repeat_at bs ts (w_model w) K /\ firstn (length (w_objs w)) (w_objs w') = w_objs w.
Proof.
  intros P PK ET. unfold ExpModel.infer_runner. unfold xbind at 1, clock. unfold xbind at 1, new_obj. unfold xbind at 1. cbn [w_objs w_tick w_model]. unfold ExpModel.inference. unfold xbind at 1. rewrite ET. unfold xlift.
  set (o := length (w_objs w)).
  edestruct (inference_from_run hs0 o bs ts attr (w_model w) P K 0 {| w_objs := (w_objs w ++ [OInfer {| im_number := None; im_init := now (w_tick w); im_stdout := stdout |}])%list; w_tick := S (w_tick w); w_model := w_model w |}) as (w' & E & M & L & F).
  { cbn [w_objs]. subst o. rewrite nth_error_app2, Nat.sub_diag by lia. reflexivity. }
  { reflexivity. }
  cbn [seq map] in E. rewrite E. unfold xret. eexists _, w'. split; [|split; [exact M|]].
  - destruct K as [|K]; [lia|]. cbn [im_init w_tick]. rewrite Nat.add_0_l. replace (Datatypes.S (w_tick w) + Datatypes.S K - 1)%nat with (w_tick w + Datatypes.S K)%nat by lia. reflexivity.
  - rewrite F. cbn [w_objs]. subst o. rewrite firstn_app, Nat.sub_diag, firstn_all. cbn [firstn]. apply app_nil_r.
Qed.
Theorem C196_results (hs0 : hooks) (stdout : bool) (bs : list (list (Img * nat))) (K : nat) (T : R) (n : nat) (ts : list R) (w : @world Mdl) :
  (0 < n_samples bs)%nat -> (0 < K)%nat -> t_list T n = Ok ts ->
  exists hs w' els, infer_runner hs0 stdout (fun hs => inference hs (map Ok bs) K K T n) w =
    Ok (([("inference_runs", VDict [("inference_repeat", VNat K); ("is_partial", VBool false); ("time_elapsed", VReal (now (w_tick w + K) - now (w_tick w))%R); ("inference_results", VList els)])], hs), w') /\
    w_model w' = repeat_at bs ts (w_model w) K /\ length els = length ts /\
    forall i, (i < length ts)%nat -> nth i els (VNat 0) =
      let a := avg K (fun r => accuracy (seen bs ts (w_model w) r i) * 100)%R in
      VDict [("t_inference", VReal (nth i ts 0%R)); ("avg_accuracy", VReal a); ("std_accuracy", VReal (sdev K (fun r => accuracy (seen bs ts (w_model w) r i) * 100)%R));
             ("avg_error", VReal (100 - a)%R); ("avg_loss", VReal (avg K (fun r => weighted (losses (seen bs ts (w_model w) r i)))))].
Proof.
  intros P PK ET. destruct (runner_results hs0 stdout bs K K T n ts w P PK ET) as (hs & w' & E & M & _). unfold summary in E. rewrite Nat.ltb_irrefl in E. eexists hs, w', _. split; [exact E|]. split; [exact M|]. split; [rewrite map_length, seq_length; reflexivity|].
  intros i L. match goal with |- nth i (map ?f _) _ = _ => rewrite (nth_indep _ (VNat 0) (f O)) by (rewrite map_length, seq_length; exact L) end. rewrite map_nth, seq_nth by exact L. rewrite Nat.add_0_l. unfold entry. rewrite avg_100_minus by exact PK. reflexivity.
Qed.
(** the flag compares with the attribute of the experiment, not with the number of repeats asked for *)
Theorem C196_partial_refuted (hs0 : hooks) (stdout : bool) (bs : list (list (Img * nat))) (attr K : nat) (T : R) (n : nat) (ts : list R) (w : @world Mdl) :
  (0 < n_samples bs)%nat -> (0 < K)%nat -> (K < attr)%nat -> t_list T n = Ok ts ->
  exists hs w' d, infer_runner hs0 stdout (fun hs => inference hs (map Ok bs) attr K T n) w = Ok (([("inference_runs", VDict d)], hs), w') /\
    get "inference_repeat" d = Some (VNat K) /\ get "is_partial" d = Some (VBool true).
Proof.
  intros P PK PA ET. destruct (runner_results hs0 stdout bs attr K T n ts w P PK ET) as (hs & w' & E & M & _). unfold summary in E. eexists hs, w', _. split; [exact E|]. split; [reflexivity|]. cbn. f_equal. f_equal. apply Nat.ltb_lt. exact PA.
Qed.
(** nothing without a metric, or without repeats *)
Theorem C196_nothing (bs : list (list (Img * nat))) (attr K : nat) (T : R) (n : nat) (ts : list R) (w : @world Mdl) : (0 < n_samples bs)%nat -> t_list T n = Ok ts ->
  inference no_hooks (map Ok bs) attr K T n w = Ok ([], {| w_objs := w_objs w; w_tick := w_tick w; w_model := repeat_at bs ts (w_model w) K |}).
Proof.
  intros P ET. unfold ExpModel.inference. unfold xbind at 1. rewrite ET. unfold xlift.
  set (m0 := w_model w). assert (M : w_model w = repeat_at bs ts m0 0) by reflexivity. clearbody m0. change K with (0 + K)%nat at 2. generalize (@nil (list R)) at 1 as a. generalize (@nil (list R)) at 1 as b. generalize (@nil (list R)) at 1 as c.
  revert w M. generalize 0%nat as k. induction K as [|K IH]; intros k w M a b c.
  - cbn. unfold xret. rewrite Nat.add_0_r, <- M. destruct w; reflexivity.
  - cbn [ExpModel.inference_from]. unfold xbind at 1, call_hook at 1. cbn [no_hooks call_list]. unfold xret at 1. unfold xbind at 1, inferencing_step. unfold xbind at 1, get_mdl. unfold xbind at 1, set_model. rewrite infer_times_run by exact P. cbn [w_objs w_tick w_model].
    unfold xbind at 1, call_hook at 1. cbn [no_hooks call_list]. unfold xret at 1. rewrite (IH (S k)) by (cbn [w_model]; rewrite M; reflexivity). cbn [w_objs w_tick]. replace (S k + K)%nat with (k + S K)%nat by lia. reflexivity.
Qed.
Theorem C196_empty_refuted (hs0 : hooks) (stdout : bool) (bs : list (list (Img * nat))) (attr K : nat) (T : R) (n : nat) (ts : list R) (w : @world Mdl) :
  n_samples bs = O -> (0 < K)%nat -> t_list T n = Ok ts ->
  infer_runner hs0 stdout (fun hs => inference hs (map Ok bs) attr K T n) w = Raise ZeroDivisionError.
Proof.
  intros P PK ET. destruct K as [|K]; [lia|]. unfold ExpModel.infer_runner. unfold xbind at 1, clock. unfold xbind at 1, new_obj. unfold xbind at 1. cbn [w_objs w_tick w_model]. unfold ExpModel.inference. unfold xbind at 1. rewrite ET. unfold xlift.
  cbn [ExpModel.inference_from]. unfold xbind at 1. erewrite call_repeat_start by (cbn [w_objs]; rewrite nth_error_app2, Nat.sub_diag by lia; reflexivity).
  unfold xbind at 1, inferencing_step. unfold xbind at 1, get_mdl. unfold xbind at 1, set_model.
  assert (TS : exists r, ts = 0%R :: r). { unfold t_list in ET. destruct (n =? 0)%nat; [discriminate|]. injection ET as <-. eauto. }
  destruct TS as (r & ->). cbn [ExpModel.infer_times]. unfold xbind at 1, get_mdl. unfold xbind at 1, set_model. unfold xbind at 1. rewrite infer_loop_run. unfold xbind at 1, xlift. rewrite P. reflexivity.
Qed.

(** the whole run: the first elements in order, after preparing the network *)
Lemma train_ext_infer hs l l' attr K T n w : l = l' -> inference hs l attr K T n w = inference hs l' attr K T n w.
Proof. intros ->. reflexivity. Qed.
Theorem C196_run (prep : Mdl -> res Mdl) (vset : list (Img * nat)) (bs max K : nat) (T : R) : (0 < bs)%nat -> (max <= length vset)%nat ->
  exists b, concat b = elements max vset /\ Forall (fun x => (1 <= length x <= bs)%nat) b /\
    forall hs w, infer_run hs prep vset bs max K T w = match prep (w_model w) with Raise x => Raise x | Ok m => inference hs (map Ok b) K K T 10 {| w_objs := w_objs w; w_tick := w_tick w; w_model := m |} end.
Proof.
  intros Pb L0. destruct (used_elements max vset L0) as (L & <- & _). set (k := used max vset) in *.
  assert (H : exists b, data_loader vset bs (seq 0 k) = map Ok b /\ concat b = firstn k vset /\ Forall (fun x => (1 <= length x <= bs)%nat) b).
  { destruct vset as [|d0 r]; [cbn [length] in L; assert (k = O) as -> by lia; exists []; repeat split; constructor|]. set (vs := d0 :: r) in *.
    exists (map (map (fun i => nth i vs d0)) (chunks (length (seq 0 k)) bs (seq 0 k))). repeat split.
    - unfold data_loader. rewrite map_map. apply map_ext_in. intros idx Hi. apply fetch_all. apply Forall_forall. intros i Ii. assert (I : In i (seq 0 k)) by (rewrite <- (chunks_concat bs Pb (length (seq 0 k)) (seq 0 k)) by lia; apply in_concat; eauto). apply in_seq in I. lia.
    - rewrite <- concat_map, chunks_concat by (assumption || lia). apply nth_seq_map. exact L.
    - apply Forall_map. eapply Forall_impl; [|apply chunks_size, Pb]. intros a Ha. cbn beta in *. rewrite map_length. exact Ha. }
  destruct H as (b & Eb & Cb & Fb). exists b. split; [exact Cb|]. split; [exact Fb|]. intros hs w. unfold ExpModel.infer_run. destruct (Nat.eqb_spec bs 0); [lia|]. unfold xbind at 1, get_mdl. unfold xbind at 1, xlift. destruct (prep (w_model w)); [|reflexivity]. unfold xbind at 1, set_model. fold k. rewrite Eb. reflexivity.
Qed.
Lemma infer_loop_bad : forall l ok total loss (w : @world Mdl), Exists (fun b => b = Raise IndexError) l -> Forall (fun b => (exists x, b = Ok x) \/ b = Raise IndexError) l ->
  infer_loop vstep l ok total loss w = Raise IndexError.
Proof.
  induction l as [|b l IH]; intros ok total loss w Ex F; [inversion Ex|]. inversion F; subst. cbn [infer_loop]. unfold xbind at 1, xlift. destruct H1 as [(x & ->)| ->]; [|reflexivity].
  unfold xbind at 1, get_mdl. destruct (vstep (w_model w) x) as [[m' p] lo]. unfold xbind at 1, set_model. apply IH; [|assumption]. inversion Ex; subst; [discriminate|assumption].
Qed.
Theorem C196_max_refuted (hs0 : hooks) (stdout : bool) (prep : Mdl -> res Mdl) (vset : list (Img * nat)) (bs max K : nat) (T : R) (w : @world Mdl) m :
  (0 < bs)%nat -> (0 < K)%nat -> (length vset < max)%nat -> prep (w_model w) = Ok m ->
  infer_runner hs0 stdout (fun hs => infer_run hs prep vset bs max K T) w = Raise IndexError.
Proof.
  intros Pb PK L Ep. destruct K as [|K]; [lia|]. assert (U : used max vset = max) by (unfold used; destruct (Nat.eqb_spec max 0); [lia|reflexivity]).
  destruct (loader_bad vset bs (seq 0 max) max Pb L (Permutation_refl _)) as (X1 & X2).
  unfold ExpModel.infer_runner. unfold xbind at 1, clock. unfold xbind at 1, new_obj. unfold xbind at 1. cbn [w_objs w_tick w_model]. unfold ExpModel.infer_run. destruct (Nat.eqb_spec bs 0); [lia|]. unfold xbind at 1, get_mdl. cbn [w_model]. unfold xbind at 1. rewrite Ep. unfold xlift. unfold xbind at 1, set_model. rewrite U.
  unfold ExpModel.inference. unfold xbind at 1, xlift. unfold t_list. cbn [Nat.eqb]. cbn [ExpModel.inference_from]. unfold xbind at 1. erewrite call_repeat_start by (cbn [w_objs]; rewrite nth_error_app2, Nat.sub_diag by lia; reflexivity).
  unfold xbind at 1, inferencing_step. unfold xbind at 1, get_mdl. unfold xbind at 1, set_model. cbn [ExpModel.infer_times]. unfold xbind at 1, get_mdl. unfold xbind at 1, set_model. unfold xbind at 1. rewrite infer_loop_bad by assumption. reflexivity.
Qed.

(** ** weight templates *)
Context {S : Type} (file : string -> option S) (load : S -> Mdl -> Mdl) (remap : Mdl -> Mdl).
Theorem C197_template (p : string) (s : S) (rw : bool) (m : Mdl) : file ("/" ++ p) = Some s ->
  get_model file load remap ("/" ++ p) rw m = Ok (if rw then remap (load s m) else load s m).
Proof. intros H. unfold get_model, template_path. destruct p; cbn [append String.eqb Ascii.eqb Bool.eqb String.prefix orb]; cbn; cbn [append] in H; rewrite H; reflexivity. Qed.
(** remap_weights is ignored without a template *)
Theorem C197_remap_refuted (rw : bool) (m : Mdl) : get_model file load remap "" rw m = Ok m.
Proof. reflexivity. Qed.
(** a file that does not exist is not an error: the network is used with the weights it has *)
Theorem C197_missing_refuted (p : string) (m : Mdl) : file ("/" ++ p) = None -> get_model file load remap ("/" ++ p) false m = Ok m.
Proof. intros H. unfold get_model, template_path. destruct p; cbn; cbn [append] in H; rewrite H; reflexivity. Qed.
End Exp.

(** ** The times *)
Lemma power_log T x : (0 < T)%R -> Rpower 10 (ln T / ln 10 * x) = Rpower T x.
Proof. intros P. unfold Rpower. f_equal. assert (ln 10 <> 0)%R by (pose proof (ln_increasing 1 10 ltac:(lra) ltac:(lra)) as H; rewrite ln_1 in H; lra). field. assumption. Qed.
Lemma nth_logspace T k i : (0 < T)%R -> (2 <= k)%nat -> (i < k)%nat -> nth i (logspace T k) 0%R = Rpower T (INR i / INR (k - 1)).
Proof.
  intros P Lk L. destruct k as [|[|k]]; [lia|lia|]. unfold logspace. set (K := Datatypes.S (Datatypes.S k)) in *.
  set (f := fun i : nat => Rpower 10 (ln T / ln 10 * INR i / INR (K - 1))). rewrite (nth_indep _ 0%R (f O)) by (rewrite map_length, seq_length; exact L). rewrite map_nth, seq_nth by exact L. unfold f. rewrite Nat.add_0_l.
  rewrite <- (power_log T) by exact P. f_equal. unfold Rdiv. ring.
Qed.
Theorem C197_times (T : R) (n : nat) : (1 < T)%R -> (3 <= n)%nat ->
  exists ts, t_list T n = Ok ts /\ length ts = n /\ nth 0 ts 0%R = 0%R /\ nth 1 ts 0%R = 1%R /\ nth (n - 1) ts 0%R = T /\
    (forall i, (i + 1 < n)%nat -> (nth i ts 0 < nth (i + 1) ts 0)%R) /\
    (forall i, (1 <= i)%nat -> (i + 2 < n)%nat -> (nth (i + 1) ts 0 / nth i ts 0 = nth (i + 2) ts 0 / nth (i + 1) ts 0)%R).
Proof.
  intros PT L. exists (0%R :: logspace T (n - 1)). unfold t_list. destruct (Nat.eqb_spec n 0); [lia|]. split; [reflexivity|].
  assert (LL : length (logspace T (n - 1)) = (n - 1)%nat). { unfold logspace. destruct (n - 1)%nat as [|[|k]] eqn:E; [lia|lia|]. rewrite map_length, seq_length. reflexivity. }
  assert (V : forall i, (1 <= i < n)%nat -> nth i (0%R :: logspace T (n - 1)) 0%R = Rpower T (INR (i - 1) / INR (n - 2))).
  { intros [|i] Li; [lia|]. cbn [nth]. rewrite nth_logspace by (lra || lia). f_equal. f_equal; f_equal; lia. }
  assert (PN : (0 < INR (n - 2))%R) by (apply lt_0_INR; lia).
  split; [cbn [length]; lia|]. split; [reflexivity|]. split; [rewrite V by lia; cbn [Nat.sub INR]; unfold Rdiv; rewrite Rmult_0_l; apply Rpower_O; lra|].
  split; [rewrite V by lia; replace (n - 1 - 1)%nat with (n - 2)%nat by lia; unfold Rdiv; rewrite Rinv_r by lra; apply Rpower_1; lra|].
  assert (D : forall a b : R, (a < b)%R -> (a / INR (n - 2) < b / INR (n - 2))%R) by (intros a b Hab; unfold Rdiv; apply Rmult_lt_compat_r; [apply Rinv_0_lt_compat; exact PN|exact Hab]).
  split.
  - intros [|i] Li.
    + rewrite (V (0 + 1)%nat) by lia. cbn [nth]. unfold Rpower. apply exp_pos.
    + rewrite !V by lia. apply Rpower_lt; [exact PT|]. apply D, lt_INR. lia.
  - intros i L1 L2. rewrite !V by lia. unfold Rdiv. rewrite <- !Rpower_Ropp, <- !Rpower_plus. f_equal.
    replace (i + 1 - 1)%nat with (i - 1 + 1)%nat by lia. replace (i + 2 - 1)%nat with (i - 1 + 2)%nat by lia. rewrite !plus_INR. cbn [INR]. field. lra.
Qed.
(** with two times the inference time asked for is not used; below one second the times are not increasing *)
Theorem C197_times_refuted (T : R) : (0 < T)%R -> t_list T 2 = Ok [0%R; 1%R] /\ (forall n ts, (T < 1)%R -> (3 <= n)%nat -> t_list T n = Ok ts -> (nth (n - 1) ts 0 < nth 1 ts 0)%R) /\ t_list T 0 = Raise ValueError.
Proof.
  intros P. split; [reflexivity|]. split; [|reflexivity]. intros n ts PT L E. unfold t_list in E. destruct (Nat.eqb_spec n 0); [lia|]. injection E as <-.
  destruct n as [|[|[|n]]]; try lia. cbn [Nat.sub nth]. rewrite !nth_logspace by (lra || lia). replace (INR 0 / _)%R with 0%R by (cbn [INR]; unfold Rdiv; ring). rewrite Rpower_O by lra. replace (INR (Datatypes.S n) / _)%R with 1%R.
  - rewrite Rpower_1 by lra. exact PT.
  - cbn [Nat.sub]. field. apply not_0_INR. lia.
Qed.

Theorem C196_nontrivial : exists ts, t_list 100 3 = Ok ts /\ ts = [0%R; 1%R; 100%R] /\ n_samples [[(1, 0); (2, 1)]; [(3, 0)]]%nat = 3%nat /\
  accuracy (seen (fun m => m) (fun m (b : list (nat * nat)) => (m, map (fun _ => m) b, 0%R)) (fun m => 0%nat) (fun t m => if Rleb t 1 then m else S m) [[(1, 0); (2, 1)]; [(3, 0)]]%nat [0%R; 1%R; 100%R] 5%nat 1 2) = (1 / 3)%R.
Proof.
  destruct (C197_times 100 3 ltac:(lra) ltac:(lia)) as (ts & E & L & T0 & T1 & T2 & _). exists ts. split; [exact E|].
  assert (ts = [0%R; 1%R; 100%R]). { destruct ts as [|a [|b [|c [|]]]]; cbn in L; try lia. cbn in T0, T1, T2. subst. reflexivity. }
  split; [assumption|]. split; [reflexivity|]. unfold accuracy, seen, hits. cbn. repeat (unfold Rleb; destruct (Rle_dec _ _); try lra; cbn). field.
Qed.
Print Assumptions C196_results.
Print Assumptions C196_partial_refuted.
Print Assumptions C196_nothing.
Print Assumptions C196_empty_refuted.
Print Assumptions C196_run.
Print Assumptions C196_max_refuted.
Print Assumptions C196_nontrivial.
Print Assumptions C197_template.
Print Assumptions C197_remap_refuted.
Print Assumptions C197_missing_refuted.
Print Assumptions C197_times.
Print Assumptions C197_times_refuted.
