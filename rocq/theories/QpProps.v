(** * Quantized periphery (C202-C206) *)
From Verif Require Import Prelude ConvModel QuantModel QuantSpec QuantProofs QuantProps PeriModel QpModel QpSpec.

Lemma q_set_old c s a b : (match qs_par s with None => True | Some ps => length ps = 1%nat end) -> q_set c s [a] [b] = q_set c q_new [a] [b].
Proof. intros H. unfold q_set. destruct (negb _); [reflexivity|]. destruct (_ && _); [reflexivity|]. destruct (Z.eqb _ 0); [reflexivity|]. cbn [map2 qs_par q_new q_copy]. unfold q_copy. destruct (qs_par s) as [ps|]; [|reflexivity]. rewrite H. reflexivity. Qed.
Lemma grid_one c x g : grid_of c x = Ok g -> exists p, qs_par g = Some [p].
Proof. unfold grid_of, q_set. destruct (negb _); [discriminate|]. destruct (_ && _); [discriminate|]. destruct (Z.eqb _ 0); [discriminate|]. cbn. intros H. injection H as <-. cbn. eauto. Qed.
Definition one_grid (q : qst) : Prop := match qs_par q with None => True | Some ps => length ps = 1%nat end.
Lemma fwd_est m (x : vec) : m_est m = Some CurrentMinMax -> qc_pc (m_cfg m) = false -> one_grid (m_q m) -> x <> [] -> (m_state m = Estimate \/ m_state m = EstimateTrain /\ m_train m = true) ->
  man_forward m [x] = (g <- grid_of (m_cfg m) x ;; y <- q_forward (m_cfg m) g [x] ;;
    Ok (y, {| m_cfg := m_cfg m; m_est := m_est m; m_cur := Some ([minlist x], [maxlist x]); m_q := g; m_state := m_state m; m_train := m_train m |})).
Proof.
  intros E P O Nx S. unfold man_forward. rewrite E. replace (match m_state m with Estimate => true | EstimateTrain => m_train m | _ => false end) with true by (destruct S as [->|[-> ->]]; reflexivity).
  unfold estimate, batch_empty, batch_min, batch_max. rewrite P. cbn [concat]. rewrite app_nil_r. destruct x as [|a x]; [congruence|]. cbn [bind fst snd]. rewrite q_set_old by exact O. fold (grid_of (m_cfg m) (a :: x)). reflexivity.
Qed.
Lemma fwd_use m (x : vec) e : m_est m = Some e -> (m_state m = Fixed \/ m_state m = Learn \/ m_state m = EstimateTrain /\ m_train m = false) -> man_forward m [x] = (y <- q_forward (m_cfg m) (m_q m) [x] ;; Ok (y, m)).
Proof. intros E S. unfold man_forward. rewrite E. destruct S as [->|[->|[-> ->]]]; reflexivity. Qed.

(** the state of the code for [k] batches of training and a grid *)
Definition tracks (c : pquant) (s : slot) (k : Z) (g : option qst) : Prop :=
  let m := sl_man s in
  m_cfg m = pq_cfg c /\ m_est m = Some CurrentMinMax /\ m_state m <> Estimate /\ (0 <= k)%Z /\
  (pq_learn c = true -> (1 <= pq_after c)%Z /\ (if Z.leb k (pq_after c) then sl_idx s = k else (pq_after c < sl_idx s)%Z)) /\
  (m_state m = Learn -> pq_learn c = true /\ (pq_after c < k)%Z) /\
  match g with None => m_q m = q_new /\ k = 0%Z /\ m_state m = EstimateTrain | Some q => m_q m = q /\ exists p, qs_par q = Some [p] end.
Definition learned_iff (c : pquant) (s : slot) (k : Z) : Prop := m_state (sl_man s) = Learn <-> pq_learn c = true /\ (pq_after c < k)%Z.

Definition next (k : Z) (x : call) : Z := if is_train x then (k + 1)%Z else k.
Lemma cfg_pc c : qc_pc (pq_cfg c) = false. Proof. reflexivity. Qed.
Lemma run_est c m idx (x : vec) : m_cfg m = pq_cfg c -> m_est m = Some CurrentMinMax -> one_grid (m_q m) -> x <> [] -> (m_state m = Estimate \/ m_state m = EstimateTrain /\ m_train m = true) ->
  slot_run m idx x = (g <- grid_of (pq_cfg c) x ;; y <- on (pq_cfg c) g x ;;
    Ok (y, {| sl_man := {| m_cfg := m_cfg m; m_est := m_est m; m_cur := Some ([minlist x], [maxlist x]); m_q := g; m_state := m_state m; m_train := m_train m |}; sl_idx := idx |})).
Proof.
  intros C E O N S. unfold slot_run. rewrite (fwd_est m x E) by (auto; rewrite C; reflexivity). rewrite C. unfold on. destruct (grid_of (pq_cfg c) x) as [g|]; [|reflexivity]. cbn [bind]. destruct (q_forward (pq_cfg c) g [x]); reflexivity.
Qed.
Lemma run_use c m idx (x : vec) : m_cfg m = pq_cfg c -> m_est m = Some CurrentMinMax -> (m_state m = Fixed \/ m_state m = Learn \/ m_state m = EstimateTrain /\ m_train m = false) ->
  slot_run m idx x = (y <- on (pq_cfg c) (m_q m) x ;; Ok (y, {| sl_man := m; sl_idx := idx |})).
Proof. intros C E S. unfold slot_run. rewrite (fwd_use m x _ E S), C. unfold on. destruct (q_forward (pq_cfg c) (m_q m) [x]); reflexivity. Qed.
Lemma tracks_one c s k g : tracks c s k g -> one_grid (m_q (sl_man s)).
Proof. intros (_ & _ & _ & _ & _ & _ & H). unfold one_grid. destruct g as [q|]; [destruct H as (-> & p & ->); reflexivity | destruct H as (-> & _); exact I]. Qed.

Lemma step_ok c s k g x : tracks c s k g -> ok_call x -> (is_opt x = true -> learned_iff c s k) ->
  match doc_call c k g x with
  | Ok (o, g') => exists s', do_call slot_forward c s x = Ok (o, s') /\ tracks c s' (next k x) g' /\ (learned_iff c s k -> learned_iff c s' (next k x))
  | Raise e => do_call slot_forward c s x = Raise e
  end.
Proof.
  intros T Ox Lx. pose proof (tracks_one _ _ _ _ T) as One. destruct T as (C & E & Ne & K & L & Ll & G). destruct x as [x|x|f]; cbn [doc_call do_call next is_train ok_call] in *.
  - unfold slot_forward. cbn [negb]. set (m := sl_man s) in *. destruct (pq_learn c) eqn:El; cbn [negb andb].
    + destruct (L eq_refl) as (L1 & L2). destruct (learning m) eqn:Lm.
      * assert (Sm : m_state m = Learn) by (unfold learning in Lm; destruct (m_state m); congruence). destruct (Ll Sm) as (_ & Kb). destruct g as [q|]; [|destruct G as (_ & _ & G); congruence]. destruct G as (<- & p & Hp). rewrite (proj2 (Z.ltb_lt _ _)) by lia. cbn [learning m_with_train m_state]. unfold learning in Lm |- *. cbn [m_with_train m_state]. rewrite Lm. cbn [negb].
        rewrite (run_use c) by (cbn; auto). cbn [m_with_train m_q]. destruct (on (pq_cfg c) (m_q m) x) as [y|]; cbn [bind fst snd]; [|reflexivity]. eexists. split; [reflexivity|]. split.
        { unfold tracks. cbn [sl_man sl_idx m_with_train m_cfg m_est m_state m_q]. split; [auto|]. split; [auto|]. split; [congruence|]. split; [lia|]. split; [intros _; split; [auto|destruct (Z.leb_spec k (pq_after c)), (Z.leb_spec (k + 1) (pq_after c)); lia]|]. split; [intros _; split; [auto|lia]|]. eauto. }
        { unfold learned_iff. cbn [sl_man m_with_train m_state]. rewrite Sm. intuition lia. }
      * assert (Lm' : learning (m_with_train m true) = false) by exact Lm. rewrite Lm'. cbn [negb]. assert (Ic : (pq_after c <? sl_idx s + 1)%Z = (pq_after c <? k + 1)%Z) by (destruct (Z.leb_spec k (pq_after c)); destruct (Z.ltb_spec (pq_after c) (sl_idx s + 1)), (Z.ltb_spec (pq_after c) (k + 1)); lia). rewrite Ic.
        destruct (Z.ltb_spec (pq_after c) (k + 1)) as [H|H].
        -- destruct g as [q|]; [|destruct G as (_ & G & _); lia]. destruct G as (<- & p & Hp).
           rewrite (run_use c) by (cbn; auto). cbn [m_with_train m_with_state m_q]. destruct (on (pq_cfg c) (m_q m) x) as [y|]; cbn [bind fst snd]; [|reflexivity]. eexists. split; [reflexivity|].
           split; [|unfold learned_iff; cbn [sl_man m_with_state m_with_train m_state]; intuition lia].
           unfold tracks. cbn [sl_man sl_idx m_with_state m_with_train m_cfg m_est m_state m_q]. split; [auto|]. split; [auto|]. split; [discriminate|]. split; [lia|]. split; [|split; [intros _; split; [auto|lia]|split; [auto|eauto]]].
           intros _. split; [auto|]. destruct (Z.leb_spec k (pq_after c)), (Z.leb_spec (k + 1) (pq_after c)); lia.
        --
           rewrite (run_est c) by (cbn; auto). destruct (grid_of (pq_cfg c) x) as [g'|] eqn:Eg; cbn [bind fst snd]; [|reflexivity]. destruct (on (pq_cfg c) g' x) as [y|]; cbn [bind fst snd]; [|reflexivity]. eexists. split; [reflexivity|].
           split; [|unfold learned_iff; cbn [sl_man m_with_state m_with_train m_state]; intuition (try lia; discriminate)].
           unfold tracks. cbn [sl_man sl_idx m_with_state m_with_train m_cfg m_est m_state m_q]. split; [auto|]. split; [auto|]. split; [discriminate|]. split; [lia|]. split; [intros _; split; [auto|destruct (Z.leb_spec k (pq_after c)), (Z.leb_spec (k + 1) (pq_after c)); lia]|]. split; [discriminate|]. split; [reflexivity|]. eapply grid_one; eassumption.
    + rewrite (run_est c) by (cbn; auto). destruct (grid_of (pq_cfg c) x) as [g'|] eqn:Eg; cbn [bind fst snd]; [|reflexivity]. destruct (on (pq_cfg c) g' x) as [y|]; cbn [bind fst snd]; [|reflexivity]. eexists. split; [reflexivity|].
      split; [|unfold learned_iff; cbn [sl_man m_with_state m_with_train m_state]; rewrite El; intuition discriminate].
      unfold tracks. cbn [sl_man sl_idx m_with_state m_with_train m_cfg m_est m_state m_q]. split; [auto|]. split; [auto|]. split; [discriminate|]. split; [lia|]. split; [congruence|]. split; [discriminate|]. split; [reflexivity|]. eapply grid_one; eassumption.
  - unfold slot_forward. cbn [negb]. set (m := sl_man s) in *. destruct g as [q|].
    + destruct G as (<- & p & Hp). cbn [bind]. unfold initialized. cbn [m_with_train m_q]. rewrite Hp. cbn [negb].
      rewrite (run_use c); [|auto|auto|unfold m_with_train; cbn [m_state m_train]; destruct (m_state m); auto; congruence]. cbn [m_with_train m_q]. destruct (on (pq_cfg c) (m_q m) x) as [y|]; cbn [bind fst snd]; [|reflexivity]. eexists. split; [reflexivity|]. split; [|intros H; exact H].
      unfold tracks. cbn [sl_man sl_idx m_with_train m_cfg m_est m_state m_q]. repeat split; auto; try (now apply L); try (now apply Ll). eauto.
    + destruct G as (Gq & -> & Gs). unfold initialized. cbn [m_with_train m_q]. rewrite Gq. cbn [q_new qs_par negb]. unfold slot_first. rewrite (run_est c) by (cbn; auto). destruct (grid_of (pq_cfg c) x) as [g'|] eqn:Eg; cbn [bind fst snd]; [|reflexivity]. destruct (on (pq_cfg c) g' x) as [y|]; cbn [bind fst snd]; [|reflexivity].
      destruct (grid_one _ _ _ Eg) as (p & Hp). unfold man_fix, initialized. cbn [sl_man m_q sl_idx]. rewrite Hp. cbn [bind fst snd]. eexists. split; [reflexivity|].
      split; [|unfold learned_iff; cbn [sl_man m_with_state m_with_train m_state]; intros H; split; [discriminate|intros H'; apply H in H'; fold m in H'; congruence]].
      unfold tracks. cbn [sl_man sl_idx m_with_state m_with_train m_cfg m_est m_state m_q]. split; [auto|]. split; [auto|]. split; [discriminate|]. split; [lia|]. split; [auto|]. split; [discriminate|]. split; [reflexivity|]. eauto.
  - specialize (Lx eq_refl). unfold slot_opt, learning. destruct (pq_learn c && (pq_after c <? k)%Z) eqn:H.
    + apply andb_true_iff in H as (H1 & H2). apply Z.ltb_lt in H2. assert (Sm : m_state (sl_man s) = Learn) by (apply Lx; auto). rewrite Sm. eexists. split; [reflexivity|]. split; [|unfold learned_iff; cbn [sl_man m_with_q m_state]; auto].
      unfold tracks. cbn [sl_man sl_idx m_with_q m_cfg m_est m_state m_q]. split; [auto|]. split; [auto|]. split; [auto|]. split; [auto|]. split; [auto|]. split; [auto|]. destruct g as [q|]; [|destruct G as (_ & _ & G); congruence]. destruct G as (<- & p & Hp). cbn [option_map]. split; [reflexivity|]. cbn [qs_par]. rewrite Hp. cbn. eauto.
    + assert (Sm : m_state (sl_man s) <> Learn). { intros Sm. apply Lx in Sm as (H1 & H2). rewrite H1 in H. apply Z.ltb_lt in H2. rewrite H2 in H. discriminate. } replace (match m_state (sl_man s) with Learn => true | _ => false end) with false by (destruct (m_state (sl_man s)); congruence).
      eexists. split; [reflexivity|]. split; [|auto]. unfold tracks. repeat split; auto; try (now apply L); try (now apply Ll).
Qed.
Lemma run_ok c : forall h s k g, tracks c s k g -> Forall ok_call h -> (learned_iff c s k \/ Forall (fun x => is_opt x = false) h) ->
  (r <- do_run slot_forward c s h ;; Ok (fst r)) = doc_run c k g h.
Proof.
  induction h as [|x h IH]; intros s k g T F H; [reflexivity|]. inversion F; subst. cbn [do_run doc_run]. assert (Hx : is_opt x = true -> learned_iff c s k) by (destruct H as [H|H]; [auto|inversion H; congruence]).
  pose proof (step_ok c s k g x T H2 Hx) as S. destruct (doc_call c k g x) as [[o g']|e]; [|rewrite S; reflexivity]. destruct S as (s' & -> & T' & Lf). cbn [bind fst snd]. specialize (IH s' (next k x) g' T' H3). fold (next k x). rewrite <- IH; [destruct (do_run slot_forward c s' h); reflexivity|]. destruct H as [H|H]; [left; auto | right; now inversion H].
Qed.
Lemma new_tracks c s : slot_new c = Ok (Some s) -> tracks c s 0 None /\ learned_iff c s 0.
Proof.
  unfold slot_new. destruct (pq_bits c <=? 0)%Z; [discriminate|]. destruct (pq_learn c && (pq_after c <? 1)%Z) eqn:A; [discriminate|]. cbn. intros H. injection H as <-.
  assert (P : pq_learn c = true -> (1 <= pq_after c)%Z) by (intros P; rewrite P in A; cbn in A; apply Z.ltb_ge in A; lia). split.
  - unfold tracks. cbn [sl_man sl_idx m_cfg m_est m_state m_q]. split; [auto|]. split; [auto|]. split; [discriminate|]. split; [lia|]. split; [intros L1; specialize (P L1); split; [auto|rewrite (proj2 (Z.leb_le _ _)) by lia; reflexivity]|]. split; [discriminate|auto].
  - unfold learned_iff. cbn. split; [discriminate|]. intros (L1 & L2). specialize (P L1). lia.
Qed.
(** C202: the grid follows the documented rule, for all sequences of training, evaluation and optimizer steps *)
Theorem C202_refines c s h : slot_new c = Ok (Some s) -> Forall ok_call h -> (r <- do_run slot_forward c s h ;; Ok (fst r)) = doc_run c 0 None h.
Proof. intros N F. destruct (new_tracks _ _ N) as (T & L). apply run_ok; auto. Qed.
Lemma doc_count c : forall h k g l, doc_run c k g h = Ok l -> length l = length h.
Proof. induction h as [|x h IH]; intros k g l H; cbn [doc_run] in H; [injection H as <-; reflexivity|]. destruct (doc_call c k g x) as [p|]; [|discriminate]. cbn [bind] in H. destruct (doc_run _ _ _ h) eqn:E; [|discriminate]. cbn in H. injection H as <-. cbn. f_equal. eapply IH; eassumption. Qed.
(** saving and loading at any time: the following calls give the same results *)
Lemma doc_end c : forall h s k g r, tracks c s k g -> learned_iff c s k -> Forall ok_call h -> do_run slot_forward c s h = Ok r -> exists k' g', tracks c (snd r) k' g'.
Proof.
  induction h as [|x h IH]; intros s k g r T L F H; cbn [do_run] in H; [injection H as <-; eauto|]. inversion F; subst. pose proof (step_ok c s k g x T H2 (fun _ => L)) as S. destruct (doc_call c k g x) as [[o g']|e]; [|rewrite S in H; discriminate]. destruct S as (s' & Ed & T' & Lf). rewrite Ed in H. cbn [bind fst snd] in H.
  destruct (do_run slot_forward c s' h) as [l|] eqn:El; [|discriminate]. cbn [bind] in H. injection H as <-. cbn [snd]. eapply IH; eauto.
Qed.
Lemma reload_tracks c s k g : tracks c s k g -> tracks c (slot_reload s) k g.
Proof. unfold tracks, slot_reload. cbn. intros (A & B & D & E & F & G & H). repeat split; auto; try (now apply F); try discriminate. destruct g as [q|]; [exact H | destruct H as (H1 & H2 & _); auto]. Qed.
Theorem C202_checkpoint c s h r h2 : slot_new c = Ok (Some s) -> Forall ok_call h -> do_run slot_forward c s h = Ok r -> Forall ok_call h2 -> Forall (fun x => is_opt x = false) h2 ->
  (q <- do_run slot_forward c (slot_reload (snd r)) h2 ;; Ok (fst q)) = (q <- do_run slot_forward c (snd r) h2 ;; Ok (fst q)).
Proof.
  intros N F E F2 O. destruct (new_tracks _ _ N) as (T & L). destruct (doc_end _ _ _ _ _ _ T L F E) as (k & g & T'). rewrite (run_ok c h2 _ k g (reload_tracks _ _ _ _ T') F2) by auto. rewrite (run_ok c h2 _ k g T' F2) by auto. reflexivity.
Qed.
(** after the first batch in training, evaluation does not depend on anything but this grid; with learning, the grid after batch [pq_after] is only changed by the optimizer *)
Print Assumptions C202_refines.
Print Assumptions C202_checkpoint.
Example C202_nontrivial : exists c s, slot_new c = Ok (Some s) /\ pq_learn c = true /\ Forall ok_call [Eval [1; 2]; Train [1; 3]; Opt (fun p => p); Train [2; 4]; Eval [5]].
Proof. exists {| pq_bits := 8; pq_sym := true; pq_learn := true; pq_after := 1 |}. eexists. split; [reflexivity|]. split; [reflexivity|]. repeat constructor; cbn; discriminate. Qed.
