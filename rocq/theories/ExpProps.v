(** * Training experiments (C193-C195) *)
From Coq Require Import ZArith Permutation.
From Verif Require Import Prelude LgcModel ExpModel ExpSpec ExpProofs.
Local Open Scope string_scope.

Section Exp.
Context {Mdl Img : Type} (now : nat -> R) (train_mode eval_mode : Mdl -> Mdl).
Context (tstep : Mdl -> list (Img * nat) -> Mdl * R) (vstep : Mdl -> list (Img * nat) -> Mdl * list nat * R).
Notation train := (train now train_mode eval_mode tstep vstep).
Notation train_from := (train_from now train_mode eval_mode tstep vstep).
Notation train_run := (train_run now train_mode eval_mode tstep vstep).
Notation local_runner := (local_runner (Mdl := Mdl)).
Notation model_at := (model_at train_mode eval_mode tstep vstep).
Notation train_report := (train_report train_mode eval_mode tstep vstep).
Notation valid_report := (valid_report train_mode eval_mode tstep vstep).

Theorem C193_results (hs0 : hooks) (stdout : bool) (tb vb : nat -> list (list (Img * nat))) (E : nat) (w : world) :
  (forall e, (e < E)%nat -> (0 < n_samples (tb e))%nat /\ (0 < n_samples (vb e))%nat) ->
  exists rs hs w', local_runner hs0 stdout (fun hs => train hs (fun e => map Ok (tb e)) (fun e => map Ok (vb e)) E) w = Ok ((rs, hs), w') /\
    length rs = E /\ w_model w' = model_at tb vb (w_model w) E /\ firstn (length (w_objs w)) (w_objs w') = w_objs w /\
    forall e, (e < E)%nat -> nth e rs [] =
      [("epoch", VNat e); ("time_epoch", VReal (now (w_tick w + 2 * e + 1) - now (w_tick w + 2 * e))%R);
       ("accuracy", VReal (accuracy (valid_report tb vb (w_model w) e)));
       ("train_loss", VReal (weighted (train_report tb vb (w_model w) e)));
       ("valid_loss", VReal (weighted (losses (valid_report tb vb (w_model w) e))))].
Proof.
  intros P. unfold ExpModel.local_runner. unfold xbind at 1, new_obj. unfold xbind at 1. unfold ExpModel.train.
  set (o := length (w_objs w)).
  edestruct (train_run_ok now train_mode eval_mode tstep vstep hs0 o tb vb (w_model w) E 0 {| w_objs := (w_objs w ++ [OLocal {| me_epochs := []; me_current := None; me_stdout := stdout |}])%list; w_tick := w_tick w; w_model := w_model w |}) as (rs & w' & me' & T & R1 & O' & T' & M' & _).
  { cbn [w_objs]. subst o. rewrite nth_error_app2 by lia. rewrite Nat.sub_diag. reflexivity. }
  { reflexivity. }
  { intros e0 L. apply P. lia. }
  rewrite T. unfold xret. eexists rs, _, w'. split; [reflexivity|]. cbn [w_tick w_objs] in *. split; [rewrite R1, map_length, seq_length; reflexivity|]. split; [exact M'|].
  split; [rewrite O'; subst o; rewrite set_nth_app, firstn_app, Nat.sub_diag, firstn_all; cbn [firstn]; apply app_nil_r|].
  intros e L. rewrite R1.
  set (f := fun i => report now train_mode eval_mode tstep vstep tb vb (w_model w) (w_tick w + 2 * i) (0 + i)).
  rewrite (nth_indep _ [] (f O)) by (rewrite map_length, seq_length; exact L). rewrite map_nth, seq_nth by exact L. unfold f, report. rewrite !Nat.add_0_l. reflexivity.
Qed.

Lemma train_ext hs tl vl tl' vl' : (forall e, tl e = tl' e) -> (forall e, vl e = vl' e) -> forall n k w, train_from hs tl vl k n w = train_from hs tl' vl' k n w.
Proof.
  intros Ht Hv. induction n as [|n IH]; intros k w; [reflexivity|]. cbn [ExpModel.train_from]. rewrite Ht, Hv. unfold xbind.
  destruct (call_hook now hs EPOCH_START (ANumber k) w) as [[? ?]|?]; [|reflexivity].
  destruct (call_hook now hs TRAIN_EPOCH_START (ANumber k) _) as [[? ?]|?]; [|reflexivity].
  destruct (training_step now train_mode tstep hs (tl' k) _) as [[? ?]|?]; [|reflexivity].
  destruct (call_hook now hs TRAIN_EPOCH_END ANone _) as [[? ?]|?]; [|reflexivity].
  destruct (call_hook now hs VALIDATION_EPOCH_START (ANumber k) _) as [[? ?]|?]; [|reflexivity].
  destruct (validation_step now eval_mode vstep hs (vl' k) _) as [[? ?]|?]; [|reflexivity].
  destruct (call_hook now hs VALIDATION_EPOCH_END ANone _) as [[? ?]|?]; [|reflexivity].
  destruct (call_hook now hs EPOCH_END ANone _) as [[? ?]|?]; [|reflexivity].
  rewrite IH. reflexivity.
Qed.

(** ** Data loaders *)
Lemma chunks_concat {A} m : (0 < m)%nat -> forall fuel (l : list A), (length l <= fuel)%nat -> concat (chunks fuel m l) = l.
Proof.
  intros P. induction fuel as [|f IH]; intros l L; [destruct l; [reflexivity|cbn in L; lia]|]. destruct l as [|a r]; [reflexivity|]. cbn [chunks]. set (l := a :: r) in *. cbn [concat]. rewrite IH, firstn_skipn; [reflexivity|]. rewrite skipn_length. subst l. cbn [length] in *. lia.
Qed.
Lemma chunks_size {A} m : (0 < m)%nat -> forall fuel (l : list A), Forall (fun b => (1 <= length b <= m)%nat) (chunks fuel m l).
Proof.
  intros P. induction fuel as [|f IH]; intros l; [constructor|]. destruct l as [|a r]; [constructor|]. cbn [chunks]. set (l := a :: r) in *. constructor; [|apply IH]. rewrite firstn_length. subst l. cbn [length]. lia.
Qed.
Lemma fetch_all (set : list (Img * nat)) d : forall idx, Forall (fun i => (i < length set)%nat) idx -> mapM (fetch set) idx = Ok (map (fun i => nth i set d) idx).
Proof.
  induction idx as [|i idx IH]; intros H; [reflexivity|]. inversion H; subst. cbn [mapM map]. unfold fetch at 1. rewrite (nth_error_nth' set d) by assumption. cbn [bind]. rewrite IH by assumption. reflexivity.
Qed.
Lemma fetch_bad (set : list (Img * nat)) : forall idx, Exists (fun i => (length set <= i)%nat) idx -> mapM (fetch set) idx = Raise IndexError.
Proof.
  induction idx as [|i idx IH]; intros H; [inversion H|]. cbn [mapM].
  inversion H; subst; [apply nth_error_None in H1; assert (N : fetch set i = Raise IndexError) by (unfold fetch; destruct (nth_error _ i) eqn:N in |- *; [exfalso; congruence|reflexivity]); rewrite N; reflexivity|]. rewrite IH by assumption. destruct (fetch set i) as [x|x] eqn:N; [reflexivity|]. unfold fetch in N. destruct (nth_error _ i) in N; [discriminate|]. injection N as <-. reflexivity.
Qed.
Lemma nth_seq_map (set : list (Img * nat)) d : forall n, (n <= length set)%nat -> map (fun i => nth i set d) (seq 0 n) = firstn n set.
Proof.
  intros n. revert set. induction n as [|n IH]; intros [|a l] L; cbn [length] in L; try reflexivity; try lia. cbn [seq map nth firstn]. f_equal. rewrite <- seq_shift, map_map. apply IH. lia.
Qed.
Lemma loader_ok (set : list (Img * nat)) bs order k : (0 < bs)%nat -> (k <= length set)%nat -> Permutation order (seq 0 k) ->
  exists b, data_loader set bs order = map Ok b /\ Permutation (concat b) (firstn k set) /\ Forall (fun x => (1 <= length x <= bs)%nat) b.
Proof.
  intros Pb L Pm. destruct set as [|d0 set'].
  { cbn [length] in L. assert (k = O) by lia. subst k. apply Permutation_sym, Permutation_nil in Pm. subst order. exists []. repeat split; constructor. }
  set (set := d0 :: set') in *. exists (map (map (fun i => nth i set d0)) (chunks (length order) bs order)).
  assert (F : Forall (fun i => (i < length set)%nat) order). { apply Forall_forall. intros i Hi. apply (Permutation_in _ Pm), in_seq in Hi. lia. }
  repeat split.
  - unfold data_loader. rewrite map_map. apply map_ext_in. intros idx Hi. apply fetch_all. apply Forall_forall. intros i Ii. rewrite Forall_forall in F. apply F. rewrite <- (chunks_concat bs Pb (length order) order) by lia. apply in_concat. eauto.
  - rewrite <- concat_map. rewrite chunks_concat by (assumption || lia). rewrite <- (nth_seq_map set d0) by exact L. apply Permutation_map. exact Pm.
  - apply Forall_map. eapply Forall_impl; [|apply chunks_size, Pb]. intros a Ha. cbn beta in *. rewrite map_length. exact Ha.
Qed.
Lemma loader_bad (set : list (Img * nat)) bs order k : (0 < bs)%nat -> (length set < k)%nat -> Permutation order (seq 0 k) ->
  Exists (fun b => b = Raise IndexError) (data_loader set bs order) /\ Forall (fun b => (exists x, b = Ok x) \/ b = Raise IndexError) (data_loader set bs order).
Proof.
  intros Pb L Pm. split.
  - assert (I : In (length set) order) by (apply (Permutation_in _ (Permutation_sym Pm)), in_seq; lia).
    rewrite <- (chunks_concat bs Pb (length order) order) in I by lia. apply in_concat in I. destruct I as (idx & I1 & I2). apply Exists_exists. exists (mapM (fetch set) idx). split; [unfold data_loader; apply in_map; exact I1|]. apply fetch_bad. apply Exists_exists. exists (length set). split; [exact I2|lia].
  - apply Forall_forall. intros b Hb. unfold data_loader in Hb. apply in_map_iff in Hb. destruct Hb as (idx & <- & _). destruct (Forall_Exists_dec (fun i => (i < length set)%nat) (fun i => lt_dec i (length set)) idx) as [F|Ex].
    + left. destruct set as [|d r]; [destruct idx; [eexists; reflexivity|inversion F; cbn in *; lia]|]. eexists. apply fetch_all with (d := d). exact F.
    + right. apply fetch_bad. eapply Exists_impl; [|exact Ex]. intros i. cbn beta. lia.
Qed.

(** every epoch goes over exactly the first ones, each once, in batches of the size asked for *)
Lemma samples (tset vset : list (Img * nat)) (bs max E : nat) (sht shv : nat -> nat -> list nat) :
  (0 < bs)%nat -> (used max tset <= length tset)%nat -> (used max vset <= length vset)%nat ->
  (forall e n, Permutation (sht e n) (seq 0 n)) -> (forall e n, Permutation (shv e n) (seq 0 n)) ->
  exists tb vb, (forall e, Permutation (concat (tb e)) (firstn (used max tset) tset) /\ Permutation (concat (vb e)) (firstn (used max vset) vset) /\
                           Forall (fun b => (1 <= length b <= bs)%nat) (tb e) /\ Forall (fun b => (1 <= length b <= bs)%nat) (vb e)) /\
    forall hs w, train_run hs tset vset bs sht shv max E w = train hs (fun e => map Ok (tb e)) (fun e => map Ok (vb e)) E w.
Proof.
  intros Pb Lt Lv Pt Pv.
  assert (Ht : forall e, exists b, data_loader tset bs (sht e (used max tset)) = map Ok b /\ Permutation (concat b) (firstn (used max tset) tset) /\ Forall (fun x => (1 <= length x <= bs)%nat) b) by (intros e; apply loader_ok; auto).
  assert (Hv : forall e, exists b, data_loader vset bs (shv e (used max vset)) = map Ok b /\ Permutation (concat b) (firstn (used max vset) vset) /\ Forall (fun x => (1 <= length x <= bs)%nat) b) by (intros e; apply loader_ok; auto).
  set (oks := fun (l : batches) => map (fun r : res (list (Img * nat)) => match r with Ok b => b | Raise _ => [] end) l).
  assert (OK : forall b, oks (map Ok b) = b) by (intros b; unfold oks; rewrite map_map; apply map_id).
  exists (fun e => oks (data_loader tset bs (sht e (used max tset)))), (fun e => oks (data_loader vset bs (shv e (used max vset)))). split.
  - intros e. destruct (Ht e) as (b & -> & P1 & F1), (Hv e) as (c & -> & P2 & F2). rewrite !OK. auto.
  - intros hs w. unfold ExpModel.train_run. destruct (Nat.eqb_spec bs 0); [lia|]. unfold ExpModel.train. apply train_ext; intros e; [destruct (Ht e) as (b & -> & _)|destruct (Hv e) as (b & -> & _)]; now rewrite OK.
Qed.

Lemma used_elements (max : nat) (set : list (Img * nat)) : (max <= length set)%nat -> (used max set <= length set)%nat /\ firstn (used max set) set = elements max set /\ length (elements max set) = used max set.
Proof. intros L. unfold used, elements. destruct (Nat.eqb_spec max 0); [rewrite firstn_all; auto|]. rewrite firstn_length. repeat split; lia. Qed.
(** with at most as many elements as there are, every epoch goes over exactly the ones asked for, each once, in batches of the size asked for *)
Theorem C194_samples (tset vset : list (Img * nat)) (bs max E : nat) (sht shv : nat -> nat -> list nat) :
  (0 < bs)%nat -> (max <= length tset)%nat -> (max <= length vset)%nat ->
  (forall e n, Permutation (sht e n) (seq 0 n)) -> (forall e n, Permutation (shv e n) (seq 0 n)) ->
  exists tb vb, (forall e, Permutation (concat (tb e)) (elements max tset) /\ Permutation (concat (vb e)) (elements max vset) /\
                           Forall (fun b => (1 <= length b <= bs)%nat) (tb e) /\ Forall (fun b => (1 <= length b <= bs)%nat) (vb e)) /\
    forall hs w, train_run hs tset vset bs sht shv max E w = train hs (fun e => map Ok (tb e)) (fun e => map Ok (vb e)) E w.
Proof.
  intros Pb Lt Lv. destruct (used_elements max tset Lt) as (U1 & <- & _), (used_elements max vset Lv) as (U2 & <- & _). apply samples; assumption.
Qed.

(** ** The maximal number of elements is not a maximum: with fewer elements in one of the sets the run fails *)
Lemma training_loop_bad hs o : forall l (w : world) me ep, nth_error (w_objs w) o = Some (OLocal me) -> me_current me = Some ep ->
  Exists (fun b => b = Raise IndexError) l -> Forall (fun b => (exists x, b = Ok x) \/ b = Raise IndexError) l ->
  training_loop now tstep (local_hooks hs o) l w = Raise IndexError.
Proof.
  induction l as [|b l IH]; intros w me ep H C Ex F; [inversion Ex|]. inversion F; subst. cbn [training_loop]. unfold xbind at 1.
  destruct H2 as [(x & ->)| ->]; [|reflexivity]. unfold xlift. unfold xbind at 1, get_mdl. destruct (tstep (w_model w) x) as [m' loss]. unfold xbind at 1, set_model. unfold xbind at 1.
  assert (Lo : (o < length (w_objs w))%nat) by (apply nth_error_Some; rewrite H; discriminate).
  erewrite call_train_batch by eassumption. eapply IH; [cbn [w_objs]; apply nth_error_set; exact Lo|reflexivity| |assumption]. inversion Ex; subst; [discriminate|assumption].
Qed.
Lemma validation_loop_bad hs o : forall l (w : world) me ep, nth_error (w_objs w) o = Some (OLocal me) -> me_current me = Some ep ->
  Exists (fun b => b = Raise IndexError) l -> Forall (fun b => (exists x, b = Ok x) \/ b = Raise IndexError) l ->
  validation_loop now vstep (local_hooks hs o) l w = Raise IndexError.
Proof.
  induction l as [|b l IH]; intros w me ep H C Ex F; [inversion Ex|]. inversion F; subst. cbn [validation_loop]. unfold xbind at 1.
  destruct H2 as [(x & ->)| ->]; [|reflexivity]. unfold xlift. unfold xbind at 1, get_mdl. destruct (vstep (w_model w) x) as [[m' pr] loss]. unfold xbind at 1, set_model. unfold xbind at 1.
  assert (Lo : (o < length (w_objs w))%nat) by (apply nth_error_Some; rewrite H; discriminate).
  erewrite call_valid_batch by eassumption. eapply IH; [cbn [w_objs]; apply nth_error_set; exact Lo|reflexivity| |assumption]. inversion Ex; subst; [discriminate|assumption].
Qed.
(** the first epoch up to the validation loop *)
Lemma first_epoch hs o (tbk : list (list (Img * nat))) (vl tl : nat -> batches) k n (w : world) me : nth_error (w_objs w) o = Some (OLocal me) -> tl k = map Ok tbk -> (0 < n_samples tbk)%nat \/ me_stdout me = false ->
  exists me' ep, me_current me' = Some ep /\ ep_train ep = n_samples tbk /\ ep_valid ep = O /\ me_stdout me' = me_stdout me /\
  train_from (local_hooks hs o) tl vl k (S n) w =
  (xbind (validation_loop now vstep (local_hooks hs o) (vl k)) (fun _ =>
      xbind (call_hook now (local_hooks hs o) VALIDATION_EPOCH_END ANone) (fun _ =>
      xbind (call_hook now (local_hooks hs o) EPOCH_END ANone) (fun d =>
      xbind (train_from (local_hooks hs o) tl vl (S k) n) (fun rest =>
      xret (update [("epoch", VNat k)] d :: rest))))))
   {| w_objs := set_nth o (OLocal me') (w_objs w); w_tick := S (w_tick w); w_model := eval_mode (fst (train_trace tstep (train_mode (w_model w)) tbk)) |}.
Proof.
  intros H Et P. assert (Lo : (o < length (w_objs w))%nat) by (apply nth_error_Some; rewrite H; discriminate).
  set (ep := {| ep_number := k; ep_start := now (w_tick w); ep_loss := 0 + sumR (map (fun p => INR (fst p) * snd p)%R (snd (train_trace tstep (train_mode (w_model w)) tbk))); ep_train := 0 + n_samples tbk; ep_valid := 0; ep_correct := 0; ep_vloss := 0 |}).
  exists {| me_epochs := me_epochs me; me_stdout := me_stdout me; me_current := Some ep |}, ep. repeat split.
  match goal with |- _ = ?r => set (RHS := r) end.
  cbn [ExpModel.train_from]. unfold xbind at 1. rewrite (call_epoch_start now hs o k w me H).
  unfold xbind at 1. rewrite call_none by auto. unfold xbind at 1. unfold training_step. unfold xbind at 1, get_mdl. unfold xbind at 1, set_model. rewrite Et. cbn [w_objs w_tick w_model].
  erewrite training_loop_run; cbn [w_objs w_tick w_model]; [|apply nth_error_set; exact Lo|reflexivity]. cbn [me_epochs me_stdout ep_number ep_start ep_loss ep_train ep_valid ep_correct ep_vloss epoch_start me_current].
  rewrite set_nth_set. unfold xbind at 1. erewrite call_train_end by (cbn [w_objs]; apply nth_error_set; exact Lo).
  unfold train_epoch_end. cbn [me_stdout me_current ep_loss ep_train].
  assert (TE : (if negb (me_stdout me) then Ok tt else (_ <- pdiv (0 + sumR (map (fun p : nat * R => (INR (fst p) * snd p)%R) (snd (train_trace tstep (train_mode (w_model w)) tbk)))) (0 + n_samples tbk);; Ok tt)) = Ok tt).
  { destruct P as [P|P]; [rewrite pdiv_ok by exact P; destruct (negb (me_stdout me)); reflexivity|rewrite P; reflexivity]. }
  rewrite TE. unfold xbind at 1. rewrite call_none by auto. unfold xbind at 1. unfold validation_step. unfold xbind at 1, get_mdl. unfold xbind at 1, set_model. cbn [w_objs w_tick w_model].
  subst RHS. unfold xbind at 4. reflexivity.
Qed.
Theorem C194_max_refuted (hs0 : hooks) (stdout : bool) (tset vset : list (Img * nat)) (bs max E : nat) (sht shv : nat -> nat -> list nat) (w : world) :
  (0 < bs)%nat -> (0 < E)%nat -> (length tset < max \/ length vset < max)%nat ->
  (forall e n, Permutation (sht e n) (seq 0 n)) -> (forall e n, Permutation (shv e n) (seq 0 n)) ->
  local_runner hs0 stdout (fun hs => train_run hs tset vset bs sht shv max E) w = Raise IndexError.
Proof.
  intros Pb PE Hm Pt Pv. assert (PM : (0 < max)%nat) by lia. assert (U : forall s : list (Img * nat), used max s = max) by (intros s; unfold used; destruct (Nat.eqb_spec max 0); [lia|reflexivity]).
  destruct E as [|E]; [lia|]. unfold ExpModel.local_runner. unfold xbind at 1, new_obj. unfold xbind at 1. unfold ExpModel.train_run, ExpModel.train. destruct (Nat.eqb_spec bs 0); [lia|].
  set (o := length (w_objs w)). set (w1 := {| w_objs := _; w_tick := _; w_model := _ |}).
  assert (H : nth_error (w_objs w1) o = Some (OLocal {| me_epochs := []; me_current := None; me_stdout := stdout |})) by (subst w1 o; cbn [w_objs]; rewrite nth_error_app2, Nat.sub_diag by lia; reflexivity).
  assert (Lo : (o < length (w_objs w1))%nat) by (apply nth_error_Some; rewrite H; discriminate).
  set (tl := fun e => data_loader tset bs (sht e (used max tset))). set (vl := fun e => data_loader vset bs (shv e (used max vset))).
  match goal with |- match ?x with _ => _ end = _ => enough (x = Raise IndexError) as -> by reflexivity end.
  destruct (le_lt_dec max (length tset)) as [Lt|Lt].
  - destruct (loader_ok tset bs (sht O max) max Pb Lt (Pt O max)) as (tb & Etb & Ptb & _).
    assert (Etl : tl O = map Ok tb) by (unfold tl; rewrite U; exact Etb).
    edestruct (first_epoch hs0 o tb vl tl 0 E w1 _ H Etl) as (me' & ep & C & T1 & V1 & S1 & ->).
    { left. unfold n_samples. rewrite (Permutation_length Ptb), firstn_length. lia. }
    unfold xbind at 1. destruct (loader_bad vset bs (shv O max) max Pb ltac:(lia) (Pv O max)) as (X1 & X2).
    erewrite validation_loop_bad; [reflexivity|cbn [w_objs]; apply nth_error_set; exact Lo|exact C|unfold vl; rewrite U; exact X1|unfold vl; rewrite U; exact X2].
  - destruct (loader_bad tset bs (sht O max) max Pb Lt (Pt O max)) as (X1 & X2). cbn [ExpModel.train_from].
    unfold xbind at 1. rewrite (call_epoch_start now hs0 o 0 w1 _ H). unfold xbind at 1. rewrite call_none by auto. unfold xbind at 1. unfold training_step. unfold xbind at 1, get_mdl. unfold xbind at 1, set_model.
    erewrite training_loop_bad; [reflexivity|cbn [w_objs]; apply nth_error_set; exact Lo|reflexivity|unfold tl; rewrite U; exact X1|unfold tl; rewrite U; exact X2].
Qed.
Theorem C193_empty_refuted (hs0 : hooks) (stdout : bool) (tb vb : nat -> list (list (Img * nat))) (E : nat) (w : world) :
  (0 < E)%nat -> n_samples (tb O) = O \/ n_samples (vb O) = O ->
  local_runner hs0 stdout (fun hs => train hs (fun e => map Ok (tb e)) (fun e => map Ok (vb e)) E) w = Raise ZeroDivisionError.
Proof.
  intros PE Hz. destruct E as [|E]; [lia|]. unfold ExpModel.local_runner. unfold xbind at 1, new_obj. unfold xbind at 1. unfold ExpModel.train.
  set (o := length (w_objs w)). set (w1 := {| w_objs := _; w_tick := _; w_model := _ |}).
  assert (H : nth_error (w_objs w1) o = Some (OLocal {| me_epochs := []; me_current := None; me_stdout := stdout |})) by (subst w1 o; cbn [w_objs]; rewrite nth_error_app2, Nat.sub_diag by lia; reflexivity).
  assert (Lo : (o < length (w_objs w1))%nat) by (apply nth_error_Some; rewrite H; discriminate).
  match goal with |- match ?x with _ => _ end = _ => enough (x = Raise ZeroDivisionError) as -> by reflexivity end.
  destruct (Bool.bool_dec stdout false) as [Es|Es]; [|apply Bool.not_false_is_true in Es; destruct (n_samples (tb O)) as [|nt] eqn:Nt].
  - edestruct (first_epoch hs0 o (tb O) (fun e => map Ok (vb e)) (fun e => map Ok (tb e)) 0 E w1 _ H eq_refl) as (me' & ep & C & T1 & V1 & S1 & ->); [right; exact Es|].
    unfold xbind at 1. erewrite validation_loop_run; [|cbn [w_objs]; apply nth_error_set; exact Lo|exact C]. cbn [w_objs w_tick w_model]. rewrite set_nth_set.
    unfold xbind at 1. erewrite call_valid_end by (cbn [w_objs]; apply nth_error_set; exact Lo). unfold valid_epoch_end. cbn [me_stdout me_current]. rewrite S1. cbn [me_stdout]. rewrite Es. cbn [negb].
    unfold xbind at 1. erewrite call_epoch_end by (cbn [w_objs]; apply nth_error_set; exact Lo). unfold epoch_end. cbn [me_current ep_correct ep_valid ep_loss ep_train]. rewrite V1, T1. unfold pdiv.
    destruct Hz as [Hz|Hz]; rewrite Hz; [destruct (0 + n_samples (vb O) =? 0)%nat; reflexivity|reflexivity].
  - subst stdout. cbn [ExpModel.train_from]. unfold xbind at 1. rewrite (call_epoch_start now hs0 o 0 w1 _ H). unfold xbind at 1. rewrite call_none by auto. unfold xbind at 1. unfold training_step. unfold xbind at 1, get_mdl. unfold xbind at 1, set_model. cbn [w_objs w_tick w_model].
    erewrite training_loop_run; cbn [w_objs w_tick w_model]; [|apply nth_error_set; exact Lo|reflexivity]. rewrite set_nth_set. cbn [ep_number ep_start ep_loss ep_train ep_valid ep_correct ep_vloss epoch_start me_current me_epochs me_stdout].
    unfold xbind at 1. erewrite call_train_end by (cbn [w_objs]; apply nth_error_set; exact Lo). unfold train_epoch_end. cbn [me_stdout me_current ep_loss ep_train negb]. rewrite Nt. reflexivity.
  - destruct Hz as [Hz|Hz]; [lia|].
    edestruct (first_epoch hs0 o (tb O) (fun e => map Ok (vb e)) (fun e => map Ok (tb e)) 0 E w1 _ H eq_refl) as (me' & ep & C & T1 & V1 & S1 & ->); [left; lia|].
    unfold xbind at 1. erewrite validation_loop_run; [|cbn [w_objs]; apply nth_error_set; exact Lo|exact C]. cbn [w_objs w_tick w_model]. rewrite set_nth_set.
    unfold xbind at 1. erewrite call_valid_end by (cbn [w_objs]; apply nth_error_set; exact Lo). unfold valid_epoch_end. cbn [me_stdout me_current ep_correct ep_valid]. rewrite S1, V1, Hz. cbn [me_stdout]. rewrite Es. reflexivity.
Qed.

(** ** Validation does not depend on batches and order *)
Section Stateless.
Context (pred : Mdl -> Img -> nat) (loss : Mdl -> Img * nat -> R).
Lemma sumR_app a : forall b, sumR (a ++ b)%list = (sumR a + sumR b)%R.
Proof. induction a as [|x a IH]; intros b; cbn [app sumR]; [ring|rewrite IH; ring]. Qed.
Lemma sumR_perm a b : Permutation a b -> sumR a = sumR b.
Proof. induction 1; cbn [sumR]; try lra; congruence. Qed.
Lemma filter_perm {A} (f : A -> bool) a b : Permutation a b -> length (filter f a) = length (filter f b).
Proof. induction 1; cbn [filter]; try (destruct (f x)); try (destruct (f y)); cbn [length]; congruence. Qed.
Lemma stateless_trace (H : forall m b, vstep m b = (m, map (fun s => pred m (fst s)) b, (sumR (map (loss m) b) / INR (length b))%R)) : forall bs m, Forall (fun b => (1 <= length b)%nat) bs ->
  let tr := snd (valid_trace vstep m bs) in
  sum_nat (map (fun p => hits (fst (fst p)) (snd (fst p))) tr) = length (filter (fun s => (pred m (fst s) =? snd s)%nat) (concat bs)) /\
  sumR (map (fun p => INR (fst p) * snd p)%R (losses tr)) = sumR (map (loss m) (concat bs)).
Proof.
  induction bs as [|b bs IH]; intros m F; [split; reflexivity|]. inversion F; subst. cbn [valid_trace snd]. rewrite H. cbn [fst snd]. destruct (IH m H3) as (I1 & I2). cbn zeta in *. cbn [map losses concat]. split.
  - unfold sum_nat in *. cbn [fold_right fst snd]. rewrite I1, filter_app, app_length. f_equal. unfold hits. clear. induction b as [|s b IHb]; [reflexivity|]. cbn [map combine filter fst snd]. destruct (pred m (fst s) =? snd s)%nat; cbn [length]; congruence.
  - cbn [sumR fst snd]. unfold losses in I2. rewrite I2, map_app, sumR_app, map_length. f_equal. field. apply not_0_INR. lia.
Qed.
Theorem C194_metrics (hs0 : hooks) (stdout : bool) (tset vset : list (Img * nat)) (bs max E : nat) (sht shv : nat -> nat -> list nat) (w : world) :
  (forall m b, vstep m b = (m, map (fun s => pred m (fst s)) b, (sumR (map (loss m) b) / INR (length b))%R)) ->
  (0 < bs)%nat -> tset <> [] -> vset <> [] -> (max <= length tset)%nat -> (max <= length vset)%nat ->
  (forall e n, Permutation (sht e n) (seq 0 n)) -> (forall e n, Permutation (shv e n) (seq 0 n)) ->
  exists rs hs w' net, local_runner hs0 stdout (fun hs => train_run hs tset vset bs sht shv max E) w = Ok ((rs, hs), w') /\ length rs = E /\
    (forall e, (e < E)%nat -> exists tb, Permutation (concat tb) (elements max tset) /\ net (S e) = eval_mode (fst (train_trace tstep (train_mode (net e)) tb))) /\ net O = w_model w /\
    forall e, (e < E)%nat -> get "epoch" (nth e rs []) = Some (VNat e) /\
      get "accuracy" (nth e rs []) = Some (VReal (INR (length (filter (fun s => (pred (net (S e)) (fst s) =? snd s)%nat) (elements max vset))) / INR (length (elements max vset)))%R) /\
      get "valid_loss" (nth e rs []) = Some (VReal (sumR (map (loss (net (S e))) (elements max vset)) / INR (length (elements max vset)))%R).
Proof.
  intros HS Pb NEt NEv Lt Lv Pt Pv. destruct (C194_samples tset vset bs max E sht shv Pb Lt Lv Pt Pv) as (tb & vb & Q & EQ).
  assert (NS : forall e, n_samples (tb e) = length (elements max tset) /\ n_samples (vb e) = length (elements max vset)).
  { intros e. destruct (Q e) as (Q1 & Q2 & _). unfold n_samples. rewrite (Permutation_length Q1), (Permutation_length Q2). auto. }
  assert (PE : forall s : list (Img * nat), s <> [] -> (max <= length s)%nat -> (0 < length (elements max s))%nat).
  { intros s NE L. destruct (used_elements max s L) as (_ & _ & ->). unfold used. destruct (Nat.eqb_spec max 0); [destruct s; [congruence|cbn; lia]|lia]. }
  assert (PEt := PE tset NEt Lt). assert (PEv := PE vset NEv Lv).
  destruct (C193_results hs0 stdout tb vb E w) as (rs & hs & w' & Er & L & M & _ & R).
  { intros e _. destruct (NS e). lia. }
  exists rs, hs, w', (fun e => match e with O => w_model w | S e' => eval_mode (after_training train_mode tstep (model_at tb vb (w_model w) e') (tb e')) end).
  assert (MA : forall e, model_at tb vb (w_model w) e = match e with O => w_model w | S e' => eval_mode (after_training train_mode tstep (model_at tb vb (w_model w) e') (tb e')) end).
  { intros [|e]; [reflexivity|]. cbn [ExpSpec.model_at]. unfold after_epoch. clear -HS. generalize (eval_mode (after_training train_mode tstep (model_at tb vb (w_model w) e) (tb e))). generalize (vb e). induction l as [|b l IH]; intros m; [reflexivity|]. cbn [valid_trace fst]. rewrite HS. cbn [fst]. apply IH. }
  repeat split; try assumption.
  - unfold ExpModel.local_runner, xbind in Er |- *. destruct (new_obj _ w) as [[o w1]|?]; [|discriminate]. rewrite EQ. exact Er.
  - intros e Le. exists (tb e). split; [apply Q|]. unfold after_training. rewrite <- MA. reflexivity.
  - rewrite R by assumption. reflexivity.
  - rewrite R by assumption. cbn [get]. cbn [String.eqb Ascii.eqb Bool.eqb]. f_equal. f_equal. unfold accuracy, ExpSpec.valid_report. destruct (Q e) as (_ & Q2 & _ & F2).
    set (m := eval_mode _). destruct (stateless_trace HS (vb e) m) as (I1 & I2). { eapply Forall_impl; [|exact F2]. cbn beta. lia. }
    cbn zeta in I1, I2. rewrite I1, lengths_valid, (filter_perm _ _ _ Q2). destruct (NS e) as (_ & ->). reflexivity.
  - rewrite R by assumption. cbn [get]. cbn [String.eqb Ascii.eqb Bool.eqb]. f_equal. f_equal. unfold weighted, ExpSpec.valid_report. destruct (Q e) as (_ & Q2 & _ & F2).
    set (m := eval_mode _). destruct (stateless_trace HS (vb e) m) as (I1 & I2). { eapply Forall_impl; [|exact F2]. cbn beta. lia. }
    cbn zeta in I1, I2. rewrite I2, lengths_losses, lengths_valid, (sumR_perm _ _ (Permutation_map _ Q2)). destruct (NS e) as (_ & ->). reflexivity.
Qed.
End Stateless.

(** ** Hooks *)
Lemma no_training_loop hs : hs TRAIN_EPOCH_BATCH_END = [] -> forall bs (w : world),
  training_loop now tstep hs (map Ok bs) w = Ok (tt, {| w_objs := w_objs w; w_tick := w_tick w; w_model := fst (train_trace tstep (w_model w) bs) |}).
Proof.
  intros Hh. induction bs as [|b bs IH]; intros w; [destruct w; reflexivity|]. cbn [map training_loop]. unfold xbind at 1, xlift. unfold xbind at 1, get_mdl. destruct (tstep (w_model w) b) as [m' l] eqn:Eb. unfold xbind at 1, set_model. unfold xbind at 1, call_hook. rewrite Hh. cbn [call_list]. unfold xret. rewrite IH. cbn [w_objs w_tick w_model train_trace fst]. rewrite Eb. reflexivity.
Qed.
Lemma no_validation_loop hs : hs VALIDATION_EPOCH_BATCH_END = [] -> forall bs (w : world),
  validation_loop now vstep hs (map Ok bs) w = Ok (tt, {| w_objs := w_objs w; w_tick := w_tick w; w_model := fst (valid_trace vstep (w_model w) bs) |}).
Proof.
  intros Hh. induction bs as [|b bs IH]; intros w; [destruct w; reflexivity|]. cbn [map validation_loop]. unfold xbind at 1, xlift. unfold xbind at 1, get_mdl. destruct (vstep (w_model w) b) as [[m' p] l] eqn:Eb. unfold xbind at 1, set_model. unfold xbind at 1, call_hook. rewrite Hh. cbn [call_list]. unfold xret. rewrite IH. cbn [w_objs w_tick w_model valid_trace fst]. rewrite Eb. reflexivity.
Qed.
(** without hooks the network is trained the same but nothing is reported, and empty loaders are accepted *)
Theorem C195_no_hooks (tb vb : nat -> list (list (Img * nat))) (E : nat) (w : world) :
  train no_hooks (fun e => map Ok (tb e)) (fun e => map Ok (vb e)) E w =
  Ok (map (fun e => [("epoch", VNat e)]) (seq 0 E), {| w_objs := w_objs w; w_tick := w_tick w; w_model := model_at tb vb (w_model w) E |}).
Proof.
  unfold ExpModel.train. set (m0 := w_model w). assert (M : w_model w = model_at tb vb m0 0) by reflexivity. clearbody m0.
  change E with (0 + E)%nat at 3. revert M. generalize 0%nat as k. revert w. induction E as [|E IH]; intros w k M.
  - cbn. rewrite Nat.add_0_r. rewrite <- M. destruct w; reflexivity.
  - cbn [ExpModel.train_from]. unfold xbind at 1, call_hook at 1. cbn [no_hooks call_list]. unfold xret at 1. unfold xbind at 1, call_hook at 1. cbn [no_hooks call_list]. unfold xret at 1.
    unfold xbind at 1. unfold training_step. unfold xbind at 1, get_mdl. unfold xbind at 1, set_model. rewrite no_training_loop by reflexivity. cbn [w_objs w_tick w_model].
    unfold xbind at 1, call_hook at 1. cbn [no_hooks call_list]. unfold xret at 1. unfold xbind at 1, call_hook at 1. cbn [no_hooks call_list]. unfold xret at 1.
    unfold xbind at 1. unfold validation_step. unfold xbind at 1, get_mdl. unfold xbind at 1, set_model. rewrite no_validation_loop by reflexivity. cbn [w_objs w_tick w_model].
    unfold xbind at 1, call_hook at 1. cbn [no_hooks call_list]. unfold xret at 1. unfold xbind at 1, call_hook at 1. cbn [no_hooks call_list]. unfold xret at 1.
    unfold xbind at 1. rewrite (IH _ (S k)).
    + cbn [w_objs w_tick w_model]. unfold xret. replace (S k + E)%nat with (k + S E)%nat by lia. reflexivity.
    + cbn [w_model]. rewrite M. reflexivity.
Qed.
(** the hooks stay: running the experiment again, directly, reports the new epochs only, from the trained network *)
Theorem C195_rerun (hs0 hs : hooks) (stdout : bool) (tb vb tb2 vb2 : nat -> list (list (Img * nat))) (E E2 : nat) (w w' : world) rs :
  (forall e, (e < E)%nat -> (0 < n_samples (tb e))%nat /\ (0 < n_samples (vb e))%nat) ->
  (forall e, (e < E2)%nat -> (0 < n_samples (tb2 e))%nat /\ (0 < n_samples (vb2 e))%nat) ->
  local_runner hs0 stdout (fun hs => train hs (fun e => map Ok (tb e)) (fun e => map Ok (vb e)) E) w = Ok ((rs, hs), w') ->
  exists rs2 w2, train hs (fun e => map Ok (tb2 e)) (fun e => map Ok (vb2 e)) E2 w' = Ok (rs2, w2) /\ length rs2 = E2 /\
    w_model w2 = model_at tb2 vb2 (model_at tb vb (w_model w) E) E2 /\
    forall e, (e < E2)%nat -> get "epoch" (nth e rs2 []) = Some (VNat e) /\ get "accuracy" (nth e rs2 []) = Some (VReal (accuracy (valid_report tb2 vb2 (w_model w') e))) /\
      get "train_loss" (nth e rs2 []) = Some (VReal (weighted (train_report tb2 vb2 (w_model w') e))).
Proof.
  intros P P2. unfold ExpModel.local_runner. unfold xbind at 1, new_obj. unfold xbind at 1. unfold ExpModel.train.
  set (o := length (w_objs w)).
  edestruct (train_run_ok now train_mode eval_mode tstep vstep hs0 o tb vb (w_model w) E 0 {| w_objs := (w_objs w ++ [OLocal {| me_epochs := []; me_current := None; me_stdout := stdout |}])%list; w_tick := w_tick w; w_model := w_model w |}) as (rs1 & w1 & me' & T & R1 & O' & T' & M' & _).
  { cbn [w_objs]. subst o. rewrite nth_error_app2 by lia. rewrite Nat.sub_diag. reflexivity. }
  { reflexivity. }
  { intros e0 L. apply P. lia. }
  rewrite T. unfold xret. intros EQ. injection EQ as <- <- <-.
  edestruct (train_run_ok now train_mode eval_mode tstep vstep hs0 o tb2 vb2 (w_model w1) E2 0 w1) as (rs2 & w2 & me2 & U & V1 & V2 & V3 & V4 & _).
  { rewrite O'. apply nth_error_set. cbn [w_objs]. subst o. rewrite app_length. cbn [length]. lia. }
  { reflexivity. }
  { intros e0 L. apply P2. lia. }
  exists rs2, w2. split; [exact U|]. split; [rewrite V1, map_length, seq_length; reflexivity|]. split; [rewrite V4, M'; reflexivity|].
  intros e L. rewrite V1. set (f := fun i => report now train_mode eval_mode tstep vstep tb2 vb2 (w_model w1) (w_tick w1 + 2 * i) (0 + i)).
  rewrite (nth_indep _ [] (f O)) by (rewrite map_length, seq_length; exact L). rewrite map_nth, seq_nth by exact L. repeat split.
Qed.
(** what several hooks return is merged, later ones win *)
Fixpoint last_of (k : string) (ds : list (option dict)) : option value :=
  match ds with [] => None | d :: r => match last_of k r with Some v => Some v | None => match d with Some d => get k (rev d) | None => None end end end.
Lemma get_put k k' v d : get k (put k' v d) = if String.eqb k k' then Some v else get k d.
Proof.
  induction d as [|(a, b) d IH]; cbn [put get]; [reflexivity|]. destruct (String.eqb_spec k' a) as [->|N]; cbn [get]; destruct (String.eqb_spec k a) as [->|N2]; try reflexivity.
  - destruct (String.eqb_spec a k'); congruence || reflexivity.
  - exact IH.
Qed.
Lemma get_app k a : forall b, get k (a ++ b)%list = match get k a with Some v => Some v | None => get k b end.
Proof. induction a as [|(x, y) a IH]; intros b; [reflexivity|]. cbn [app get]. destruct (String.eqb k x); [reflexivity|apply IH]. Qed.
Lemma get_update k n : forall d, get k (update d n) = match get k (rev n) with Some v => Some v | None => get k d end.
Proof.
  unfold update. induction n as [|(a, b) n IH]; intros d; [reflexivity|]. cbn [fold_left fst snd rev]. rewrite IH, get_put, get_app. cbn [get]. destruct (get k (rev n)); [reflexivity|]. destruct (String.eqb k a); reflexivity.
Qed.
Theorem C195_merge (hs : hooks) (s : signal) (fs : list (args -> option dict)) (a : args) (w : @world Mdl) : hs s = map User fs ->
  exists d, call_hook now hs s a w = Ok (d, w) /\ forall k, get k d = last_of k (map (fun f => f a) fs).
Proof.
  intros H. unfold call_hook. rewrite H. clear H.
  assert (G : forall ret, exists d, call_list now (map User fs) a ret w = Ok (d, w) /\ forall k, get k d = match last_of k (map (fun f => f a) fs) with Some v => Some v | None => get k ret end).
  { induction fs as [|f fs IH]; intros ret; [exists ret; split; reflexivity|]. cbn [map call_list call_one]. unfold xbind, xret. destruct (IH (match f a with Some d => update ret d | None => ret end)) as (d & D1 & D2). exists d. split; [exact D1|]. intros k. rewrite D2. cbn [last_of]. destruct (last_of k (map (fun f0 => f0 a) fs)); [reflexivity|]. destruct (f a); [apply get_update|reflexivity]. }
  destruct (G []) as (d & D1 & D2). exists d. split; [exact D1|]. intros k. rewrite D2. destruct (last_of k _); reflexivity.
Qed.
End Exp.

(** three samples in two batches; the network counts optimizer steps and predicts class 0 *)
Theorem C193_nontrivial : let v := fun (m : nat) (b : list (nat * nat)) => (m, map (fun _ => 0%nat) b, (sumR (map (fun s => INR (snd s)) b) / INR (length b))%R) in
  exists rs hs w', local_runner (fun _ => [User (fun _ => Some [("epoch", VNat 99)])]) true
    (fun hs => train (fun _ => 0%R) (fun m => m) (fun m => m) (fun m b => (S m, 1%R)) v hs (fun _ => map Ok [[(1, 0); (2, 1)]; [(3, 0)]]%nat) (fun _ => map Ok [[(1, 0); (2, 1)]; [(3, 1); (4, 0)]]%nat) 2)
    {| w_objs := []; w_tick := 0; w_model := 0%nat |} = Ok ((rs, hs), w') /\ w_model w' = 4%nat /\ nth 1 rs [] = [("epoch", VNat 1); ("time_epoch", VReal 0); ("accuracy", VReal (1/2)); ("train_loss", VReal 1); ("valid_loss", VReal (1/2))].
Proof.
  intros v. destruct (C193_results (fun _ => 0%R) (fun m => m) (fun m => m) (fun m (b : list (nat * nat)) => (S m, 1%R)) v (fun _ => [User (fun _ => Some [("epoch", VNat 99)])]) true (fun _ => [[(1, 0); (2, 1)]; [(3, 0)]]%nat) (fun _ => [[(1, 0); (2, 1)]; [(3, 1); (4, 0)]]%nat) 2 {| w_objs := []; w_tick := 0; w_model := 0%nat |}) as (rs & hs & w' & H1 & H2 & H3 & H4 & H5).
  { intros e _. cbn. lia. }
  exists rs, hs, w'. split; [exact H1|]. split; [rewrite H3; reflexivity|]. rewrite H5 by lia. cbn. unfold accuracy, weighted, hits. cbn. repeat (match goal with |- (_ :: _) = (_ :: _) => f_equal | |- (_, _) = (_, _) => f_equal | |- VReal _ = VReal _ => f_equal end); try reflexivity; try (field; lra); lra.
Qed.
Theorem C194_nontrivial : let sh := fun (e n : nat) => rev (seq 0 n) in (forall e n, Permutation (sh e n) (seq 0 n)) /\ used 2 [(7, 0); (8, 1); (9, 0)]%nat = 2%nat /\
  data_loader [(7, 0); (8, 1); (9, 0)]%nat 2 (sh O 3%nat) = [Ok [(9, 0); (8, 1)]; Ok [(7, 0)]]%nat /\ data_loader [(7, 0)]%nat 2 (sh O 2%nat) = [Raise IndexError].
Proof. split; [intros; apply Permutation_sym, Permutation_rev|]. repeat split. Qed.

Print Assumptions C193_results.
Print Assumptions C193_empty_refuted.
Print Assumptions C193_nontrivial.
Print Assumptions C194_samples.
Print Assumptions C194_max_refuted.
Print Assumptions C194_metrics.
Print Assumptions C194_nontrivial.
Print Assumptions C195_no_hooks.
Print Assumptions C195_rerun.
Print Assumptions C195_merge.
