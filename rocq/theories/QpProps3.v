(** * Quantized periphery (C204-C206) *)
From Verif Require Import Prelude ConvModel QuantModel QuantSpec PeriModel QpModel QpSpec QpProps.

(** ** C204: the tile *)
Definition slot_tracks (c : pquant) (s : option slot) (k : Z) (g : option qst) : Prop := match s with Some s => tracks c s k g | None => False end.
Lemma values_step c test s k g x : slot_tracks c s k g -> x <> [] ->
  match doc_call c k g (as_call test x) with
  | Ok (o, g') => exists y s', o = Some y /\ opt_forward c test s x = Ok (y, s') /\ slot_tracks c s' (if test then k else k + 1)%Z g'
  | Raise e => opt_forward c test s x = Raise e
  end.
Proof.
  intros T Nx. destruct s as [s|]; [|destruct T]. cbn [slot_tracks opt_forward] in *. assert (Ok1 : ok_call (as_call test x)) by (destruct test; exact Nx). assert (Op : is_opt (as_call test x) = true -> learned_iff c s k) by (destruct test; discriminate).
  pose proof (step_ok c s k g (as_call test x) T Ok1 Op) as S. destruct (doc_call c k g (as_call test x)) as [[o g']|e] eqn:D.
  - destruct S as (s' & Ed & T' & _). destruct test; cbn [as_call do_call next is_train] in *.
    + destruct (slot_forward c true s x) as [[y s2]|]; [|discriminate]. cbn [bind fst snd] in *. injection Ed as <- <-. exists y, (Some s2). auto.
    + destruct (slot_forward c false s x) as [[y s2]|]; [|discriminate]. cbn [bind fst snd] in *. injection Ed as <- <-. exists y, (Some s2). auto.
  - destruct test; cbn [as_call do_call] in *; [destruct (slot_forward c true s x) as [[y s2]|]|destruct (slot_forward c false s x) as [[y s2]|]]; cbn [bind] in *; congruence.
Qed.
Lemma tile_ok c q (bias : bool) : forall h t ks gs kb gb, slot_tracks c (qt_scale t) ks gs -> (if bias then slot_tracks c (qt_bias t) kb gb else qt_bias t = None) ->
  Forall values_ok h -> Forall (fun o => match qc_b o with Some _ => bias = true | None => bias = false end) h -> tile_run c q t h = doc_tile c q (ks, gs) (kb, gb) h.
Proof.
  induction h as [|o h IH]; intros t ks gs kb gb Ts Tb F B; [reflexivity|]. inversion F as [|? ? [V1 V2] F2]; subst. inversion B as [|? ? B1 B2]; subst. cbn [tile_run doc_tile fst snd]. unfold qt_forward. cbn [with_values qt_ir qt_ms qt_los qt_b qt_scale qt_bias].
  assert (Bias : forall (v : vec) (sc : option slot) ks' gs', slot_tracks c sc ks' gs' ->
    (r <- (p <- match qc_b o with Some b0 => p <- opt_forward c (qc_test o) (qt_bias t) b0;; Ok (map2 Rplus v (fst p), snd p) | None => Ok (v, qt_bias t) end;; Ok (q (fst p), qt_with (with_values t o) sc (snd p))) ;; l <- tile_run c q (snd r) h ;; Ok (fst r :: l)) =
    (w <- doc_values c kb gb (qc_test o) (qc_b o) ;; l <- doc_tile c q (ks', gs') (snd w) h ;; Ok (q (match fst w with Some b => map2 Rplus v b | None => v end) :: l))).
  { intros v sc ks' gs' T'. destruct (qc_b o) as [b0|] eqn:Eb.
    - subst bias. cbn [doc_values]. assert (Nb : b0 <> []) by (intros ->; apply V1; reflexivity). pose proof (values_step c (qc_test o) (qt_bias t) kb gb b0 Tb Nb) as S. destruct (doc_call c kb gb (as_call (qc_test o) b0)) as [[w g']|e]; [|rewrite S; reflexivity]. destruct S as (y & s' & -> & -> & T2). cbn [bind fst snd]. rewrite (IH _ ks' gs' (if qc_test o then kb else kb + 1)%Z g'); auto.
    - subst bias. cbn [doc_values bind fst snd]. rewrite (IH _ ks' gs' kb gb); auto. }
  destruct (merged (qc_ir o) (qc_ms o) (qc_los o)) as [a|] eqn:Em.
  - cbn [doc_values]. assert (Na : a <> []) by (intros ->; apply V2; reflexivity). pose proof (values_step c (qc_test o) (qt_scale t) ks gs a Ts Na) as S. destruct (doc_call c ks gs (as_call (qc_test o) a)) as [[w g']|e]; [|rewrite S; reflexivity]. destruct S as (y & s' & -> & -> & T2). cbn [bind fst snd]. apply Bias. exact T2.
  - cbn [doc_values bind fst snd]. apply Bias. exact Ts.
Qed.
(** for all sequences of forwards, with any scales and biases in between *)
Theorem C204_tile c q ir ms los b t h : (0 < pq_bits c)%Z -> qt_new c ir ms los b = Ok t -> Forall values_ok h -> Forall (fun o => qc_b o = None <-> b = None) h ->
  tile_run c q t h = doc_tile c q (0%Z, None) (0%Z, None) h.
Proof.
  intros P N F B. unfold qt_new in N. destruct (slot_new c) as [s|] eqn:E; [|discriminate]. cbn [bind] in N. injection N as <-. destruct s as [s|].
  - destruct (new_tracks _ _ E) as (T & _). apply (tile_ok c q (match b with Some _ => true | None => false end)); auto; [destruct b; [exact T|reflexivity]|].
    eapply Forall_impl; [|exact B]. cbn beta. intros o Ho. destruct (qc_b o), b; auto; exfalso; destruct Ho as [H1 H2]; [specialize (H2 eq_refl)|specialize (H1 eq_refl)]; discriminate.
  - exfalso. unfold slot_new in E. destruct (Z.leb_spec (pq_bits c) 0); [lia|]. destruct (_ && _); discriminate.
Qed.
Example C204_nontrivial : exists c t, (0 < pq_bits c)%Z /\ qt_new c (Some 3) (Some [1]) None (Some [2; 3]) = Ok t /\
  Forall values_ok [{| qc_test := false; qc_ir := Some 3; qc_ms := Some [1]; qc_los := None; qc_b := Some [2; 3]; qc_y := [1; 1] |}] /\
  Forall (fun o => qc_b o = None <-> Some [2; 3] = None) [{| qc_test := false; qc_ir := Some 3; qc_ms := Some [1]; qc_los := None; qc_b := Some [2; 3]; qc_y := [1; 1] |}].
Proof.
  exists {| pq_bits := 8; pq_sym := true; pq_learn := false; pq_after := 100 |}. eexists. split; [cbn; lia|]. split; [reflexivity|]. split; repeat constructor; cbn; congruence.
Qed.

(** ** C205: the bias of a module array *)
Definition settled (s : slot) : Prop := m_state (sl_man s) = EstimateTrain \/ m_state (sl_man s) = Learn.
Lemma with_same m : m_with_state m (m_state m) = m. Proof. destruct m. reflexivity. Qed.
Lemma arr_same c test s x : settled s -> (m_state (sl_man s) = Learn -> pq_learn c = true) -> (test = true -> initialized (m_q (sl_man s)) = true) -> arr c test s x = slot_forward c test s x.
Proof.
  intros S L I. unfold arr, arr_forward, slot_forward. set (m := sl_man s) in *. rewrite negb_involutive. destruct test; cbn [negb andb].
  - unfold initialized in *. cbn [m_with_train m_q]. rewrite (I eq_refl). reflexivity.
  - assert (Le : learning (m_with_train m true) = match m_state m with Learn => true | _ => false end) by reflexivity. rewrite Le. destruct (pq_learn c) eqn:P; cbn [negb andb].
    + destruct S as [S|S]; fold m in S; rewrite S; cbn [negb]; [|reflexivity]. destruct (pq_after c <? sl_idx s + 1)%Z; [reflexivity|]. f_equal. rewrite <- S. symmetry. apply (with_same (m_with_train m true)).
    + destruct S as [S|S]; fold m in S; [|specialize (L S); discriminate]. f_equal. rewrite <- S. symmetry. apply (with_same (m_with_train m true)).
Qed.
Lemma run_state m idx x r : slot_run m idx x = Ok r -> m_state (sl_man (snd r)) = m_state m /\ m_train (sl_man (snd r)) = m_train m.
Proof.
  unfold slot_run, man_forward. intros H. destruct (m_est m); [|discriminate]. destruct (match m_state m with Estimate => true | EstimateTrain => m_train m | _ => false end).
  - destruct (estimate _ _ _ _) as [a|]; [|discriminate]. cbn [bind] in H. destruct (q_set _ _ _ _) as [b|]; [|discriminate]. cbn [bind] in H. destruct (q_forward _ _ _); [|discriminate]. cbn in H. injection H as <-. auto.
  - destruct (q_forward _ _ _); [|discriminate]. cbn in H. injection H as <-. auto.
Qed.
Lemma settled_step c x s k g o s' : tracks c s k g -> ok_call x -> settled s -> (is_train x = true \/ g <> None) -> do_call slot_forward c s x = Ok (o, s') -> settled s'.
Proof.
  intros T Ox S G E. destruct x as [x|x|f]; cbn [do_call is_train] in *.
  - destruct (slot_forward c false s x) as [r|] eqn:F; [|discriminate]. cbn [bind] in E. injection E as _ <-. unfold slot_forward in F. cbn [negb] in F. unfold settled in *. destruct (pq_learn c); cbn [negb] in F.
    + destruct (negb (learning _)); [destruct (_ <? _)%Z|]; apply run_state in F as (F & _); rewrite F; cbn; auto.
    + apply run_state in F as (F & _); rewrite F; cbn; auto.
  - destruct (slot_forward c true s x) as [r|] eqn:F; [|discriminate]. cbn [bind] in E. injection E as _ <-. unfold slot_forward in F. cbn [negb] in F. destruct G as [G|G]; [discriminate|]. destruct g as [q|]; [|congruence]. destruct T as (_ & _ & _ & _ & _ & _ & T & p & Hp). unfold initialized in F. cbn [m_with_train m_q] in F. rewrite T, Hp in F. cbn [negb] in F. apply run_state in F as (F & _). unfold settled in *. rewrite F. exact S.
  - injection E as _ <-. unfold slot_opt. destruct (learning (sl_man s)); exact S.
Qed.
Lemma arr_step c x s k g : tracks c s k g -> settled s -> (is_train x = true \/ g <> None) -> do_call arr c s x = do_call slot_forward c s x.
Proof.
  intros T S G. assert (L : m_state (sl_man s) = Learn -> pq_learn c = true) by (destruct T as (_ & _ & _ & _ & _ & T & _); intros H; now apply T).
  destruct x as [x|x|f]; cbn [do_call]; [rewrite (arr_same c false) by (auto; discriminate); reflexivity| |reflexivity].
  rewrite (arr_same c true); auto. intros _. destruct G as [G|G]; [discriminate|]. destruct g as [q|]; [|congruence]. destruct T as (_ & _ & _ & _ & _ & _ & T & p & Hp). unfold initialized. rewrite T, Hp. reflexivity.
Qed.
Lemma doc_grid c k g x o g' : doc_call c k g x = Ok (o, g') -> is_train x = true \/ g <> None -> g' <> None.
Proof.
  intros D G. destruct x as [x|x|f]; cbn [doc_call is_train] in *.
  - destruct (pq_learn c && _); [destruct g as [q|]; [|discriminate]; destruct (on _ _ _); cbn in D; [|discriminate]; congruence|]. destruct (grid_of _ _); cbn [bind] in D; [|discriminate]. destruct (on _ _ _); cbn in D; [|discriminate]. congruence.
  - destruct G as [G|G]; [discriminate|]. destruct g as [q|]; [|congruence]. cbn [bind] in D. destruct (on _ _ _); cbn in D; [|discriminate]. congruence.
  - destruct G as [G|G]; [discriminate|]. destruct (pq_learn c && _); destruct g; cbn in D; congruence.
Qed.
Lemma arr_run c : forall h s k g, tracks c s k g -> learned_iff c s k -> settled s -> g <> None -> Forall ok_call h -> (r <- do_run arr c s h ;; Ok (fst r)) = doc_run c k g h.
Proof.
  induction h as [|x h IH]; intros s k g T L S G F; [reflexivity|]. inversion F; subst. cbn [do_run doc_run]. rewrite (arr_step c x s k g) by auto. pose proof (step_ok c s k g x T H1 (fun _ => L)) as St. destruct (doc_call c k g x) as [[o g']|e] eqn:D; [|rewrite St; reflexivity].
  destruct St as (s' & Ed & T' & L'). rewrite Ed. cbn [bind fst snd]. fold (next k x). rewrite <- (IH s' (next k x) g'); auto; [destruct (do_run arr c s' h); reflexivity | exact (settled_step c x s k g o s' T H1 S (or_intror G) Ed) | exact (doc_grid c k g x o g' D (or_intror G))].
Qed.
(** if the first forward is in training, the bias of an array follows the documented rule *)
Theorem C205_array c s x h : slot_new c = Ok (Some s) -> x <> [] -> Forall ok_call h -> (r <- do_run arr c s (Train x :: h) ;; Ok (fst r)) = doc_run c 0 None (Train x :: h).
Proof.
  intros N Nx F. destruct (new_tracks _ _ N) as (T & L). assert (S : settled s) by (left; apply T). assert (Ox : ok_call (Train x)) by exact Nx. cbn [do_run]. rewrite (arr_step c (Train x) s 0 None) by auto. pose proof (step_ok c s 0 None (Train x) T Ox (fun _ => L)) as St.
  change (doc_run c 0 None (Train x :: h)) with (p <- doc_call c 0 None (Train x) ;; l <- doc_run c 1 (snd p) h ;; Ok (fst p :: l)). destruct (doc_call c 0 None (Train x)) as [[o g']|e] eqn:D; [|rewrite St; reflexivity].
  destruct St as (s' & Ed & T' & L'). rewrite Ed. cbn [bind fst snd]. rewrite <- (arr_run c h s' 1 g'); auto; [destruct (do_run arr c s' h); reflexivity | exact (settled_step c (Train x) s 0%Z None o s' T Ox S (or_introl eq_refl) Ed) | exact (doc_grid c 0%Z None (Train x) o g' D (or_introl eq_refl))].
Qed.
(** Refuted: that it always does.  After a first evaluation the grid of an array stays the one of this evaluation in all later training (without learning; with it, up to batch
    [pq_after]), and values that have grown are clipped *)
Lemma frozen_run c g : forall h s n, m_cfg (sl_man s) = pq_cfg c -> m_est (sl_man s) = Some CurrentMinMax -> m_state (sl_man s) = Fixed -> m_q (sl_man s) = g -> (exists p, qs_par g = Some [p]) -> sl_idx s = Z.of_nat n ->
  (pq_learn c = true -> Z.of_nat (n + trains h) <= pq_after c)%Z -> (r <- do_run arr c s h ;; Ok (fst r)) = all_on (pq_cfg c) g h.
Proof.
  induction h as [|x h IH]; intros s n C E S Q (p & Hp) I L; [reflexivity|]. cbn [do_run all_on].
  assert (Go : forall idx tr y, (on (pq_cfg c) g y = on (pq_cfg c) g y) -> slot_run (m_with_train (sl_man s) tr) idx y = (z <- on (pq_cfg c) g y ;; Ok (z, {| sl_man := m_with_train (sl_man s) tr; sl_idx := idx |}))).
  { intros idx tr y _. rewrite (run_use c); [cbn [m_with_train m_q]; rewrite Q; reflexivity|exact C|exact E|left; exact S]. }
  assert (In1 : initialized (m_q (sl_man s)) = true) by (unfold initialized; rewrite Q, Hp; reflexivity).
  destruct x as [x|x|f]; cbn [do_call].
  - unfold arr at 1. cbn [negb]. unfold arr_forward. cbn [negb andb]. assert (Le : learning (m_with_train (sl_man s) true) = false) by (unfold learning; cbn [m_with_train m_state]; rewrite S; reflexivity). rewrite Le. cbn [negb]. destruct (pq_learn c) eqn:P; cbn [andb].
    + specialize (L eq_refl). unfold trains in L. cbn [filter is_train length] in L. destruct (Z.ltb_spec (pq_after c) (sl_idx s + 1)); [rewrite I in *; lia|]. rewrite Go by reflexivity. destruct (on (pq_cfg c) g x) as [y|]; cbn [bind fst snd]; [|reflexivity].
      rewrite <- (IH {| sl_man := m_with_train (sl_man s) true; sl_idx := (sl_idx s + 1)%Z |} (Datatypes.S n)); auto; [destruct (do_run arr c _ h); reflexivity | eauto | cbn [sl_idx]; lia | intros _; unfold trains; lia].
    + rewrite Go by reflexivity. destruct (on (pq_cfg c) g x) as [y|]; cbn [bind fst snd]; [|reflexivity]. rewrite <- (IH {| sl_man := m_with_train (sl_man s) true; sl_idx := sl_idx s |} n); auto; [destruct (do_run arr c _ h); reflexivity | eauto | discriminate].
  - unfold arr at 1. cbn [negb]. unfold arr_forward. cbn [negb andb m_with_train m_q]. rewrite In1. cbn [negb andb]. rewrite Go by reflexivity. destruct (on (pq_cfg c) g x) as [y|]; cbn [bind fst snd]; [|reflexivity].
    rewrite <- (IH {| sl_man := m_with_train (sl_man s) false; sl_idx := sl_idx s |} n); auto; [destruct (do_run arr c _ h); reflexivity | eauto ].
  - unfold slot_opt, learning. rewrite S. cbn [bind fst snd]. rewrite <- (IH s n); auto; [destruct (do_run arr c s h); reflexivity | eauto].
Qed.
Theorem C205_frozen_refuted c s x0 g y0 h : slot_new c = Ok (Some s) -> x0 <> [] -> grid_of (pq_cfg c) x0 = Ok g -> on (pq_cfg c) g x0 = Ok y0 -> (pq_learn c = true -> Z.of_nat (trains h) <= pq_after c)%Z ->
  (r <- do_run arr c s (Eval x0 :: h) ;; Ok (fst r)) = all_on (pq_cfg c) g (Eval x0 :: h).
Proof.
  intros N Nx G O L. destruct (new_tracks _ _ N) as ((C & E & _ & _ & _ & _ & Q & _ & S) & _). cbn [do_run do_call all_on]. unfold arr at 1. cbn [negb]. unfold arr_forward. cbn [negb andb]. unfold initialized. cbn [m_with_train m_q]. rewrite Q. cbn [q_new qs_par negb].
  unfold slot_first. rewrite (run_est c) by (cbn [m_with_state m_with_train m_cfg m_est m_q m_state]; auto; rewrite Q; exact I). rewrite G. cbn [bind]. rewrite O. cbn [bind fst snd]. destruct (grid_one _ _ _ G) as (p & Hp). unfold man_fix, initialized. cbn [sl_man m_q]. rewrite Hp. cbn [bind fst snd].
  match goal with |- context [do_run arr c ?s1 h] => rewrite <- (frozen_run c g h s1 0%nat); auto; [destruct (do_run arr c s1 h); reflexivity | eauto | ] end.
  unfold slot_new in N. destruct (pq_bits c <=? 0)%Z; [discriminate|]. destruct (_ && _); [discriminate|]. cbn in N. injection N as <-. reflexivity.
Qed.
Example C205_nontrivial : exists c s g, slot_new c = Ok (Some s) /\ grid_of (pq_cfg c) [0; 1] = Ok g /\ on (pq_cfg c) g [0; 1] <> Raise AssertionError /\ pq_learn c = false.
Proof.
  exists {| pq_bits := 8; pq_sym := false; pq_learn := false; pq_after := 100 |}. eexists. eexists. split; [reflexivity|]. split; [reflexivity|]. split; [|reflexivity]. cbn. discriminate.
Qed.

(** ** C206: quantization configurations *)
Inductive cop := SetEst (e : estimator) | SetPar (p : pobj).
Definition cstep (c : qconf) (o : cop) : qconf := match o with SetEst e => set_estimator e c | SetPar p => match set_params p c with Ok c' => c' | Raise _ => c end end.
(** the parameters are always of a class for the estimator: by default, the default values *)
Definition fitting (c : qconf) : Prop := match qf_est c, qf_par c with EAll, p => p = PNone | e, PFor e' _ => e' = e \/ (e = EMse /\ e' = ECross) | _, _ => False end.
Lemma fit_new e : fitting (conf_new e). Proof. destruct e; cbn; auto. Qed.
Theorem C206_fitting e p c h : conf_user e p = Ok c -> fitting (fold_left cstep h c).
Proof.
  assert (SP : forall p c c', fitting c -> set_params p c = Ok c' -> fitting c'). { clear. intros p c c' F H. unfold set_params in H. destruct (qf_est c) eqn:E, p as [e' v| |]; try discriminate; destruct e'; cbn in H; try discriminate; injection H as <-; cbn; auto. }
  intros H. assert (F : fitting c). { unfold conf_user in H. destruct p; [eapply SP; [apply (fit_new e)|exact H]|injection H as <-; apply fit_new|eapply SP; [apply (fit_new e)|exact H]]. }
  clear H e p. revert c F. induction h as [|o h IH]; intros c F; [exact F|]. cbn [fold_left]. apply IH. destruct o as [e|p]; cbn [cstep]; [apply fit_new|]. destruct (set_params p c) eqn:S; [eapply SP; eassumption|exact F].
Qed.
(** the value given is used; other classes are a TypeError; changing the estimator discards the parameters *)
Theorem C206_set e v c : qf_est c = e -> e <> EAll -> set_params (PFor e v) c = Ok {| qf_est := e; qf_par := PFor e v |} /\ set_params PNone c = Raise TypeError /\ set_params POther c = Raise TypeError.
Proof. intros <- N. unfold set_params. destruct (qf_est c); try congruence; cbn; auto. Qed.
Theorem C206_reset e c : qf_par (set_estimator e c) = conf_default e /\ qf_est (set_estimator e c) = e.
Proof. split; reflexivity. Qed.
(** Refuted: that the parameters that such a configuration returns can be given to it: with allminmax they are None, which is a TypeError; and that parameters
    are of the class for the estimator: the ones for the cross entropy are accepted for MSE *)
Theorem C206_none_refuted c : qf_est c = EAll -> set_params PNone c = Raise TypeError.
Proof. intros E. unfold set_params. rewrite E. reflexivity. Qed.
Theorem C206_subclass_refuted v c : qf_est c = EMse -> set_params (PFor ECross v) c = Ok {| qf_est := EMse; qf_par := PFor ECross v |} .
Proof. intros E. unfold set_params. rewrite E. reflexivity. Qed.
Print Assumptions C204_tile.
Print Assumptions C205_array.
Print Assumptions C205_frozen_refuted.
Print Assumptions C206_fitting.

Print Assumptions C206_set.
Print Assumptions C206_reset.
Print Assumptions C206_none_refuted.
Print Assumptions C206_subclass_refuted.
