(** * Lemmas on experiments *)
From Coq Require Import ZArith Permutation.
From Verif Require Import Prelude LgcModel ExpModel ExpSpec.
Local Open Scope string_scope.

Lemma set_nth_set {A} n (x y : A) : forall l, set_nth n x (set_nth n y l) = set_nth n x l.
Proof. induction n as [|n IH]; intros [|a l]; try reflexivity. cbn [set_nth]. now rewrite IH. Qed.
Lemma nth_error_set {A} n (x : A) : forall l, (n < length l)%nat -> nth_error (set_nth n x l) n = Some x.
Proof. induction n as [|n IH]; intros [|a l] L; cbn [length] in L; try lia; [reflexivity|]. cbn [set_nth nth_error]. apply IH. lia. Qed.
Lemma set_nth_length {A} n (x : A) : forall l, length (set_nth n x l) = length l.
Proof. induction n as [|n IH]; intros [|a l]; try reflexivity. cbn [set_nth length]. now rewrite IH. Qed.
Lemma set_nth_app {A} (x y : A) l : set_nth (length l) x (l ++ [y])%list = (l ++ [x])%list.
Proof. induction l as [|a l IH]; [reflexivity|]. cbn [length app set_nth]. now rewrite IH. Qed.
Lemma set_nth_firstn {A} n (x : A) : forall l, firstn n (set_nth n x l) = firstn n l.
Proof. induction n as [|n IH]; intros [|a l]; try reflexivity. cbn [set_nth firstn]. now rewrite IH. Qed.
Lemma count_hits p : forall l, count_eq p l = hits l p.
Proof.
  induction p as [|a p IH]; intros [|b l]; try reflexivity. cbn [count_eq]. rewrite IH. unfold hits. cbn [combine filter fst snd].
  destruct (a =? b)%nat; reflexivity.
Qed.
Lemma pdiv_ok x n : (0 < n)%nat -> pdiv x n = Ok (x / INR n)%R.
Proof. intros L. unfold pdiv. destruct (Nat.eqb_spec n 0); [lia|reflexivity]. Qed.

Section Exp.
Context {Mdl Img : Type} (now : nat -> R) (train_mode eval_mode : Mdl -> Mdl).
Context (tstep : Mdl -> list (Img * nat) -> Mdl * R) (vstep : Mdl -> list (Img * nat) -> Mdl * list nat * R).
Context (program : Mdl -> Mdl) (drift : R -> Mdl -> Mdl).
Notation call_hook := (call_hook (Mdl := Mdl) now).
Notation training_loop := (training_loop now tstep).
Notation validation_loop := (validation_loop now vstep).
Notation train_from := (train_from now train_mode eval_mode tstep vstep).
Notation train_trace := (train_trace tstep).
Notation valid_trace := (valid_trace vstep).

Lemma call_epoch_start hs o n (w : world) me : nth_error (w_objs w) o = Some (OLocal me) ->
  call_hook (local_hooks hs o) EPOCH_START (ANumber n) w =
  Ok ([], {| w_objs := set_nth o (OLocal (epoch_start n (now (w_tick w)) me)) (w_objs w); w_tick := S (w_tick w); w_model := w_model w |}).
Proof. intros H. unfold ExpModel.call_hook, local_hooks, clear_hooks, add_hook. cbn. unfold xbind, call_method, xbind, get_obj. rewrite H. reflexivity. Qed.
Lemma call_train_batch hs o n l (w : world) me ep : nth_error (w_objs w) o = Some (OLocal me) -> me_current me = Some ep ->
  call_hook (local_hooks hs o) TRAIN_EPOCH_BATCH_END (ATrain n l) w =
  Ok ([], {| w_objs := set_nth o (OLocal {| me_epochs := me_epochs me; me_stdout := me_stdout me; me_current := Some {| ep_number := ep_number ep; ep_start := ep_start ep; ep_loss := ep_loss ep + l; ep_train := (ep_train ep + n)%nat; ep_valid := ep_valid ep; ep_correct := ep_correct ep; ep_vloss := ep_vloss ep |} |}) (w_objs w); w_tick := w_tick w; w_model := w_model w |}).
Proof. intros H C. unfold ExpModel.call_hook, local_hooks, clear_hooks, add_hook. cbn. unfold xbind, call_method, xbind, get_obj. rewrite H. unfold train_batch_end, with_current. rewrite C. reflexivity. Qed.
Lemma call_valid_batch hs o n c l (w : world) me ep : nth_error (w_objs w) o = Some (OLocal me) -> me_current me = Some ep ->
  call_hook (local_hooks hs o) VALIDATION_EPOCH_BATCH_END (AValid n c l) w =
  Ok ([], {| w_objs := set_nth o (OLocal {| me_epochs := me_epochs me; me_stdout := me_stdout me; me_current := Some {| ep_number := ep_number ep; ep_start := ep_start ep; ep_loss := ep_loss ep; ep_train := ep_train ep; ep_valid := (ep_valid ep + n)%nat; ep_correct := (ep_correct ep + c)%nat; ep_vloss := ep_vloss ep + l |} |}) (w_objs w); w_tick := w_tick w; w_model := w_model w |}).
Proof. intros H C. unfold ExpModel.call_hook, local_hooks, clear_hooks, add_hook. cbn. unfold xbind, call_method, xbind, get_obj. rewrite H. unfold valid_batch_end, with_current. rewrite C. reflexivity. Qed.
Lemma call_none hs o s a (w : world) : s = TRAIN_EPOCH_START \/ s = VALIDATION_EPOCH_START -> call_hook (local_hooks hs o) s a w = Ok ([], w).
Proof. intros [-> | ->]; reflexivity. Qed.
Lemma call_train_end hs o (w : world) me : nth_error (w_objs w) o = Some (OLocal me) ->
  call_hook (local_hooks hs o) TRAIN_EPOCH_END ANone w = match train_epoch_end me with Ok _ => Ok ([], w) | Raise x => Raise x end.
Proof.
  intros H. unfold ExpModel.call_hook, local_hooks, clear_hooks, add_hook. cbn. unfold xbind, call_method, xbind, get_obj. rewrite H. cbn. unfold xlift. destruct (train_epoch_end me); [|reflexivity]. reflexivity.
Qed.
Lemma call_valid_end hs o (w : world) me : nth_error (w_objs w) o = Some (OLocal me) ->
  call_hook (local_hooks hs o) VALIDATION_EPOCH_END ANone w = match valid_epoch_end me with Ok _ => Ok ([], w) | Raise x => Raise x end.
Proof.
  intros H. unfold ExpModel.call_hook, local_hooks, clear_hooks, add_hook. cbn. unfold xbind, call_method, xbind, get_obj. rewrite H. cbn. unfold xlift. destruct (valid_epoch_end me); reflexivity.
Qed.
Lemma call_epoch_end hs o (w : world) me : nth_error (w_objs w) o = Some (OLocal me) ->
  call_hook (local_hooks hs o) EPOCH_END ANone w =
  match epoch_end (now (w_tick w)) me with
  | Ok r => Ok (update [] (snd r), {| w_objs := set_nth o (OLocal (fst r)) (w_objs w); w_tick := S (w_tick w); w_model := w_model w |})
  | Raise x => Raise x end.
Proof.
  intros H. unfold ExpModel.call_hook, local_hooks, clear_hooks, add_hook. cbn. unfold xbind, call_method, xbind, get_obj. rewrite H. cbn. unfold xlift. destruct (epoch_end (now (w_tick w)) me); reflexivity.
Qed.

Lemma training_loop_run hs o : forall bs (w : world) me ep, nth_error (w_objs w) o = Some (OLocal me) -> me_current me = Some ep ->
  training_loop (local_hooks hs o) (map Ok bs) w =
  Ok (tt, {| w_objs := set_nth o (OLocal {| me_epochs := me_epochs me; me_stdout := me_stdout me; me_current := Some {| ep_number := ep_number ep; ep_start := ep_start ep; ep_loss := ep_loss ep + sumR (map (fun p => INR (fst p) * snd p)%R (snd (train_trace (w_model w) bs))); ep_train := (ep_train ep + n_samples bs)%nat; ep_valid := ep_valid ep; ep_correct := ep_correct ep; ep_vloss := ep_vloss ep |} |}) (w_objs w); w_tick := w_tick w; w_model := fst (train_trace (w_model w) bs) |}).
Proof.
  induction bs as [|b bs IH]; intros w me ep H C.
  - cbn [map training_loop ExpModel.training_loop]. unfold xret. cbn [ExpSpec.train_trace fst snd map]. f_equal. f_equal. unfold n_samples. cbn [concat length sumR]. rewrite Nat.add_0_r, Rplus_0_r.
    destruct w as [os tk m], me as [es c so], ep as [q1 q2 q3 q4 q5 q6 q7]. cbn [w_objs w_tick w_model me_current me_epochs me_stdout ep_number ep_start ep_loss ep_train ep_valid ep_correct ep_vloss] in *. subst c. f_equal.
    clear -H. revert o H. induction os as [|a os IHo]; intros [|o] H; try discriminate; [now injection H as -> |]. cbn [set_nth]. f_equal. now apply IHo.
  - cbn [map ExpModel.training_loop]. unfold xbind at 1. unfold xlift. unfold xbind at 1. unfold get_mdl. destruct (tstep (w_model w) b) as [m' loss] eqn:E. unfold xbind at 1, set_model. cbn [w_objs w_tick w_model].
    unfold xbind at 1. rewrite (call_train_batch hs o _ _ _ me ep) by assumption. cbn [w_objs w_tick w_model].
    assert (Lo : (o < length (w_objs w))%nat) by (apply nth_error_Some; rewrite H; discriminate).
    erewrite IH; cbn [w_objs w_tick w_model]; [|apply nth_error_set; exact Lo|reflexivity]. cbn [me_epochs me_stdout ep_number ep_start ep_loss ep_train ep_valid ep_correct ep_vloss].
    rewrite set_nth_set. cbn [ExpSpec.train_trace]. rewrite E. cbn [fst snd map]. unfold n_samples. cbn [concat sumR fst snd]. rewrite app_length, Nat.add_assoc, Rplus_assoc, (Rmult_comm loss). reflexivity.
Qed.
Lemma validation_loop_run hs o : forall bs (w : world) me ep, nth_error (w_objs w) o = Some (OLocal me) -> me_current me = Some ep ->
  let tr := snd (valid_trace (w_model w) bs) in
  validation_loop (local_hooks hs o) (map Ok bs) w =
  Ok (tt, {| w_objs := set_nth o (OLocal {| me_epochs := me_epochs me; me_stdout := me_stdout me; me_current := Some {| ep_number := ep_number ep; ep_start := ep_start ep; ep_loss := ep_loss ep; ep_train := ep_train ep; ep_valid := (ep_valid ep + n_samples bs)%nat; ep_correct := (ep_correct ep + sum_nat (map (fun p => hits (fst (fst p)) (snd (fst p))) tr))%nat; ep_vloss := ep_vloss ep + sumR (map (fun p => INR (fst p) * snd p)%R (losses tr)) |} |}) (w_objs w); w_tick := w_tick w; w_model := fst (valid_trace (w_model w) bs) |}).
Proof.
  induction bs as [|b bs IH]; intros w me ep H C tr; subst tr.
  - cbn [map ExpModel.validation_loop]. unfold xret. cbn [ExpSpec.valid_trace fst snd map losses]. f_equal. f_equal. unfold n_samples. cbn [concat length sumR sum_nat fold_right]. rewrite !Nat.add_0_r, Rplus_0_r.
    destruct w as [os tk m], me as [es c so], ep as [q1 q2 q3 q4 q5 q6 q7]. cbn [w_objs w_tick w_model me_current me_epochs me_stdout ep_number ep_start ep_loss ep_train ep_valid ep_correct ep_vloss] in *. subst c. f_equal.
    clear -H. revert o H. induction os as [|a os IHo]; intros [|o] H; try discriminate; [now injection H as -> |]. cbn [set_nth]. f_equal. now apply IHo.
  - cbn [map ExpModel.validation_loop]. unfold xbind at 1. unfold xlift. unfold xbind at 1. unfold get_mdl. destruct (vstep (w_model w) b) as [[m' pred] loss] eqn:E. unfold xbind at 1, set_model. cbn [w_objs w_tick w_model].
    unfold xbind at 1. rewrite (call_valid_batch hs o _ _ _ _ me ep) by assumption. cbn [w_objs w_tick w_model].
    assert (Lo : (o < length (w_objs w))%nat) by (apply nth_error_Some; rewrite H; discriminate).
    cbv zeta in IH. erewrite IH; cbn [w_objs w_tick w_model]; [|apply nth_error_set; exact Lo|reflexivity]. cbn [me_epochs me_stdout ep_number ep_start ep_loss ep_train ep_valid ep_correct ep_vloss].
    rewrite set_nth_set. cbn [ExpSpec.valid_trace]. rewrite E. cbn [fst snd map losses]. unfold n_samples. cbn [concat sumR fst snd]. unfold sum_nat. cbn [fold_right fst snd]. rewrite app_length, map_length, count_hits, !Nat.add_assoc, Rplus_assoc, (Rmult_comm loss). reflexivity.
Qed.
Lemma lengths_samples : forall bs m, sum_nat (map fst (snd (train_trace m bs))) = n_samples bs.
Proof. induction bs as [|b bs IH]; intros m; [reflexivity|]. cbn [ExpSpec.train_trace snd map fst]. unfold sum_nat in *. cbn [fold_right]. rewrite IH. unfold n_samples. cbn [concat]. rewrite app_length. reflexivity. Qed.
Lemma lengths_valid : forall bs m, sum_nat (map (fun p => length (fst (fst p))) (snd (valid_trace m bs))) = n_samples bs.
Proof. induction bs as [|b bs IH]; intros m; [reflexivity|]. cbn [ExpSpec.valid_trace snd map fst]. unfold sum_nat in *. cbn [fold_right]. rewrite IH, map_length. unfold n_samples. cbn [concat]. rewrite app_length. reflexivity. Qed.
Lemma lengths_losses tr : sum_nat (map fst (losses tr)) = sum_nat (map (fun p => length (fst (fst p))) tr).
Proof. unfold losses. rewrite map_map. reflexivity. Qed.

Definition report tb vb m tick e : dict :=
  [("epoch", VNat e); ("time_epoch", VReal (now (tick + 1) - now tick)%R);
   ("accuracy", VReal (accuracy (valid_report train_mode eval_mode tstep vstep tb vb m e)));
   ("train_loss", VReal (weighted (train_report train_mode eval_mode tstep vstep tb vb m e)));
   ("valid_loss", VReal (weighted (losses (valid_report train_mode eval_mode tstep vstep tb vb m e))))].

Lemma update_nil_report n t a b c : update [] [("epoch", VNat n); ("time_epoch", t); ("accuracy", a); ("train_loss", b); ("valid_loss", c)] = [("epoch", VNat n); ("time_epoch", t); ("accuracy", a); ("train_loss", b); ("valid_loss", c)].
Proof. reflexivity. Qed.
Lemma update_report n t a b c : update [("epoch", VNat n)] [("epoch", VNat n); ("time_epoch", t); ("accuracy", a); ("train_loss", b); ("valid_loss", c)] = [("epoch", VNat n); ("time_epoch", t); ("accuracy", a); ("train_loss", b); ("valid_loss", c)].
Proof. reflexivity. Qed.

Lemma train_run_ok hs o tb vb m0 : forall n k (w : world) me,
  nth_error (w_objs w) o = Some (OLocal me) -> w_model w = model_at train_mode eval_mode tstep vstep tb vb m0 k ->
  (forall e, (k <= e < k + n)%nat -> (0 < n_samples (tb e))%nat /\ (0 < n_samples (vb e))%nat) ->
  exists rs w' me', train_from (local_hooks hs o) (fun e => map Ok (tb e)) (fun e => map Ok (vb e)) k n w = Ok (rs, w') /\
    rs = map (fun i => report tb vb m0 (w_tick w + 2 * i) (k + i)) (seq 0 n) /\ w_objs w' = set_nth o (OLocal me') (w_objs w) /\ w_tick w' = (w_tick w + 2 * n)%nat /\
    w_model w' = model_at train_mode eval_mode tstep vstep tb vb m0 (k + n) /\ length (me_epochs me') = (length (me_epochs me) + n)%nat.
Proof.
  induction n as [|n IH]; intros k w me H M P.
  - exists [], w, me. cbn. rewrite !Nat.add_0_r. repeat split; try assumption. destruct w as [os tk m]. cbn [w_objs] in *. clear -H. revert o H. induction os as [|a os IHo]; intros [|o] H; try discriminate; [now injection H as -> |]. cbn [set_nth]. f_equal. now apply IHo.
  - destruct (P k ltac:(lia)) as (Pt & Pv). cbn [ExpModel.train_from].
    assert (Lo : (o < length (w_objs w))%nat) by (apply nth_error_Some; rewrite H; discriminate).
    unfold xbind at 1. rewrite (call_epoch_start hs o k w me H). cbn [w_objs w_tick w_model].
    unfold xbind at 1. rewrite call_none by auto.
    unfold xbind at 1. unfold training_step. unfold xbind at 1, get_mdl. unfold xbind at 1, set_model. cbn [w_objs w_tick w_model].
    erewrite training_loop_run; cbn [w_objs w_tick w_model]; [|apply nth_error_set; exact Lo|reflexivity]. cbn [me_epochs me_stdout ep_number ep_start ep_loss ep_train ep_valid ep_correct ep_vloss epoch_start me_current].
    rewrite set_nth_set.
    unfold xbind at 1. erewrite call_train_end by (cbn [w_objs]; apply nth_error_set; exact Lo).
    assert (TE : forall es so ep, (0 < ep_train ep)%nat -> train_epoch_end {| me_epochs := es; me_current := Some ep; me_stdout := so |} = Ok tt).
    { intros es so ep L. unfold train_epoch_end. cbn [me_stdout me_current]. destruct (negb so); [reflexivity|]. rewrite pdiv_ok by exact L. reflexivity. }
    rewrite TE by (cbn [ep_train]; exact Pt). clear TE. cbn [w_objs w_tick w_model].
    unfold xbind at 1. rewrite call_none by auto.
    unfold xbind at 1. unfold validation_step. unfold xbind at 1, get_mdl. unfold xbind at 1, set_model. cbn [w_objs w_tick w_model].
    erewrite validation_loop_run; cbn [w_objs w_tick w_model]; [|apply nth_error_set; exact Lo|reflexivity]. cbn [me_epochs me_stdout ep_number ep_start ep_loss ep_train ep_valid ep_correct ep_vloss epoch_start me_current].
    rewrite set_nth_set, !Nat.add_0_l.
    unfold xbind at 1. erewrite call_valid_end by (cbn [w_objs]; apply nth_error_set; exact Lo).
    assert (VE : forall es so ep, (0 < ep_valid ep)%nat -> valid_epoch_end {| me_epochs := es; me_current := Some ep; me_stdout := so |} = Ok tt).
    { intros es so ep L. unfold valid_epoch_end. cbn [me_stdout me_current]. destruct (negb so); [reflexivity|]. rewrite !pdiv_ok by exact L. reflexivity. }
    rewrite VE by (cbn [ep_valid]; exact Pv). clear VE. cbn [w_objs w_tick w_model].
    unfold xbind at 1. erewrite call_epoch_end by (cbn [w_objs]; apply nth_error_set; exact Lo). cbn [w_objs w_tick w_model].
    unfold epoch_end. cbn [me_current me_epochs me_stdout ep_number ep_start ep_loss ep_train ep_valid ep_correct ep_vloss]. rewrite !pdiv_ok by assumption. cbn [bind fst snd]. rewrite set_nth_set, update_nil_report.
    match goal with |- context [set_nth o (OLocal ?mm) (w_objs w)] => set (me1 := mm) end.
    match goal with |- context [train_from _ _ _ (S k) n] => idtac end.
    rewrite M. set (mk := model_at train_mode eval_mode tstep vstep tb vb m0 k) in *.
    edestruct (IH (S k) {| w_objs := set_nth o (OLocal me1) (w_objs w); w_tick := S (S (w_tick w)); w_model := fst (valid_trace (eval_mode (fst (train_trace (train_mode mk) (tb k)))) (vb k)) |} me1) as (rs & w' & me' & E & R1 & O' & T' & M' & EP).
    { cbn [w_objs]. apply nth_error_set. exact Lo. }
    { reflexivity. }
    { intros e0 L. apply P. lia. }
    unfold xbind at 1. rewrite E. unfold xret. eexists _, w', me'. split; [reflexivity|]. rewrite O', T'. cbn [w_objs w_tick]. rewrite set_nth_set.
    split; [|split; [reflexivity|split; [lia|split; [rewrite M'; f_equal; lia|rewrite EP; subst me1; cbn [me_epochs]; rewrite app_length; cbn [length]; lia]]]].
    cbn [seq map]. f_equal.
    + rewrite update_report, !Nat.add_0_r. unfold report. rewrite Nat.add_1_r. unfold accuracy, weighted, train_report, valid_report, after_training. fold mk. rewrite lengths_losses, !lengths_valid, lengths_samples, !Rplus_0_l. reflexivity.
    + rewrite R1. rewrite <- seq_shift, map_map. apply map_ext. intros i. cbn [w_tick]. f_equal; lia.
Qed.
End Exp.
