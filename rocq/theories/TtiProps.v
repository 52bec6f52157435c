(** * Theorems about the training of the torch inference tile *)
From Verif Require Import Prelude TtiModel TtiSpec.
From Coq Require Import FunctionalExtensionality.
Local Open Scope R_scope.

Lemma sum_total n f : sum n f = total n f.
Proof.
  unfold sum. induction n as [|n IH]; [reflexivity|]. rewrite seq_S, map_app. cbn [map total]. rewrite <- IH, Nat.add_0_l.
  generalize (map f (seq 0 n)). intros l. induction l as [|a l IHl]; cbn; [lra|]. cbn in IHl. lra.
Qed.
Lemma total_ext n f g : (forall i, (i < n)%nat -> f i = g i) -> total n f = total n g.
Proof. induction n as [|n IH]; intros H; [reflexivity|]. cbn [total]. rewrite IH by (intros; apply H; lia). rewrite H by lia. reflexivity. Qed.
Lemma total_mul n f c : total n (fun i => f i * c) = total n f * c.
Proof. induction n as [|n IH]; cbn [total]; [ring|]. rewrite IH. ring. Qed.
Lemma total_add n f g : total n (fun i => f i + g i) = total n f + total n g.
Proof. induction n as [|n IH]; cbn [total]; [ring|]. rewrite IH. ring. Qed.
Lemma total_opp n f : total n (fun i => - f i) = - total n f.
Proof. induction n as [|n IH]; cbn [total]; [ring|]. rewrite IH. ring. Qed.
Lemma total_swap m n (f : nat -> nat -> R) : total m (fun i => total n (fun j => f i j)) = total n (fun j => total m (fun i => f i j)).
Proof.
  induction m as [|m IH]; cbn [total]; [|rewrite IH, <- total_add; reflexivity]. symmetry. induction n as [|n IHn]; cbn [total]; [reflexivity|]. rewrite IHn. ring.
Qed.
Lemma total_0 n f : (forall i, (i < n)%nat -> f i = 0) -> total n f = 0.
Proof. induction n as [|n IH]; intros H; [reflexivity|]. cbn [total]. rewrite IH by (intros; apply H; lia). rewrite H by lia. ring. Qed.
Lemma total_nonneg n f : (forall i, (i < n)%nat -> 0 <= f i) -> 0 <= total n f.
Proof. induction n as [|n IH]; intros H; cbn [total]; [lra|]. specialize (IH (fun i L => H i (Nat.lt_lt_succ_r _ _ L))). specialize (H n (Nat.lt_succ_diag_r n)). lra. Qed.

(** the weights the tile stands for *)
Definition logical (t : tile) (i j : nat) : R := oscale (t_ms t) i * oscale (t_os t) i * t_w t i j.
Definition represents (t : tile) (l : linear) : Prop := (forall i j, logical t i j = l_w l i j) /\ (forall i, t_bias t i = l_b l i).
(** the hook compensates the mapping scales *)
Definition compensated (t : tile) : Prop :=
  (forall i, oscale (t_ms t) i <> 0) /\
  match t_hook t with None => forall i, oscale (t_ms t) i = 1 | Some HShared => True | Some (HOwn (STensor s)) => forall i, scale s i = oscale (t_ms t) i | Some (HOwn (SFloat _)) => False end.
(** trainable, without learned output scales *)
Definition plain (t : tile) : Prop := t_rg t = true /\ t_os t = None.

Section Sizes.
Context (D K : nat).
Notation remap_weights := (remap_weights D K).
Notation run := (run D K).
Notation exec := (exec D K).

Lemma hook_ok t : compensated t -> exists h, hook_run t = Ok h /\ forall i, h i = oscale (t_ms t) i.
Proof.
  intros (_ & H). unfold hook_run, hook_div. destruct (t_hook t) as [[|[x|s]]|]; try contradiction; eexists; (split; [reflexivity|]); intros i; cbn; auto.
Qed.
Lemma oscale_fill s a i : oscale (Some (fill s a)) i = a.
Proof. destruct s; reflexivity. Qed.
Lemma set_scales_spec s t : (forall i, scale s i <> 0) -> t_rg t = true ->
  let t' := set_scales (STensor s) t in
  t_w t' = t_w t /\ t_bias t' = t_bias t /\ t_rg t' = true /\ (forall i, oscale (t_ms t') i = scale s i) /\ (t_os t = None -> t_os t' = None) /\ (forall i, oscale (t_os t') i = 1) /\ compensated t'.
Proof.
  intros N Rg. unfold set_scales. rewrite Rg. destruct s as [a|v]; cbn [set_mapping_scales assigned]; [destruct (t_ms t) as [cur|] eqn:E|]; cbn [t_w t_bias t_rg t_ms t_os t_hook]; unfold compensated; cbn [t_ms t_hook].
  - repeat split; try assumption; intros; try (apply oscale_fill); try (rewrite H; reflexivity); try (rewrite oscale_fill; apply (N 0%nat)); try (destruct (t_os t) as [[]|]; reflexivity).
    rewrite oscale_fill. reflexivity.
  - repeat split; try assumption; intros; try (rewrite H; reflexivity); try (apply (N 0%nat)); try (destruct (t_os t) as [[]|]; reflexivity).
  - repeat split; try assumption; intros; try (rewrite H; reflexivity); try (apply N); try (destruct (t_os t) as [[]|]; reflexivity).
Qed.
Lemma get_scales_spec t : match get_scales t with Some s => forall i, scale s i = oscale (t_ms t) i * oscale (t_os t) i | None => t_ms t = None /\ t_os t = None end.
Proof. unfold get_scales. destruct (t_ms t) as [m|], (t_os t) as [o|]; cbn; auto; intros i; [destruct m, o; reflexivity|ring|ring]. Qed.
Lemma amax_nonneg n f : 0 <= amax n f.
Proof. unfold amax. induction (seq 0 n) as [|i l IH]; cbn; [lra|]. apply Rle_trans with (1 := IH). apply Rmax_r. Qed.
Lemma nonzero_ne a : nonzero a <> 0.
Proof. unfold nonzero. destruct (Reqb a 0) eqn:E; [lra|]. apply Reqb_false in E. exact E. Qed.
Lemma set_weights_spec W b om c t l : 0 < om -> plain t -> (forall i j, l_w l i j = W i j) -> (forall i, l_b l i = b i) ->
  let t' := set_weights D K W b om c t in plain t' /\ compensated t' /\ represents t' l.
Proof.
  intros Ho (Rg & Os) Hw Hb. unfold set_weights. rewrite (proj2 (Rltb_true 0 om) Ho). cbn zeta.
  match goal with |- context [set_scales (STensor ?s) t] => set (al := s) end.
  assert (N : forall i, scale al i <> 0) by (intros i; unfold al; destruct c; apply nonzero_ne).
  destruct (set_scales_spec al t N Rg) as (A1 & A2 & A3 & A4 & A5 & A6 & (A7 & A8)). split; [split; [exact A3|exact (A5 Os)]|]. split; [split; [exact A7|exact A8]|]. split; intros i; [intros j|]; cbn.
  - unfold logical. cbn [t_ms t_os t_w]. rewrite A4, A6, Hw. field. apply N.
  - symmetry. apply Hb.
Qed.
Lemma remap_spec r t t' l : plain t -> compensated t -> represents t l -> remap_weights r t = Ok t' -> plain t' /\ compensated t' /\ represents t' l.
Proof.
  intros (Rg & Os) C (Hw & Hb) E. unfold TtiModel.remap_weights in E. pose proof (get_scales_spec t) as G. destruct (get_scales t) as [s|]; [|discriminate].
  assert (P : forall n, (forall i, scale n i <> 0) -> let t1 := {| t_w := fun i j => t_w t i j * scale s i / scale n i; t_bias := t_bias t; t_ms := t_ms t; t_os := t_os t; t_hook := t_hook t; t_rg := t_rg t |} in
    let u := set_scales (STensor n) t1 in plain u /\ compensated u /\ represents u l).
  { intros n N. cbn zeta. match goal with |- context [set_scales _ ?t1] => set (t1v := t1) end. destruct (set_scales_spec n t1v N Rg) as (A1 & A2 & A3 & A4 & A5 & A6 & A7). split; [split; [exact A3|apply A5; exact Os]|]. split; [exact A7|]. split; [intros i j|intros i].
    - unfold logical. rewrite A1, A4, A6. unfold t1v. cbn [t_w]. rewrite G, <- Hw. unfold logical. field. apply N.
    - rewrite A2. apply Hb. }
  destruct r.
  - match type of E with context [Reqb ?m 0] => set (mx := m) in *; destruct (Reqb mx 0) eqn:Q end; [discriminate|]. injection E as <-. apply Reqb_false in Q. apply (P (S1 mx)). intros i. exact Q.
  - match type of E with context [existsb ?f ?l] => destruct (existsb f l) eqn:Q end; [discriminate|]. injection E as <-. apply (P (SV (fun i => if (i <? D)%nat then amax K (fun j => t_w t i j * scale s i) else 1))).
    intros i. cbn [scale]. destruct (Nat.ltb_spec i D) as [L|L]; [|lra]. intros Z. rewrite <- Bool.not_true_iff_false in Q. apply Q, existsb_exists. exists i. split; [apply in_seq; lia|]. apply Reqb_true. exact Z.
Qed.
Lemma convert_spec t l : plain t -> compensated t -> represents t l -> plain (convert t) /\ compensated (convert t) /\ represents (convert t) l.
Proof.
  intros (Rg & Os) C (Hw & Hb). unfold convert. pose proof (get_scales_spec t) as G. destruct (get_scales t) as [s|]; [|repeat split; try assumption; apply C].
  assert (N : forall i, scale s i <> 0) by (intros i; rewrite G, Os; cbn [oscale]; rewrite Rmult_1_r; apply C).
  destruct (set_scales_spec s t N Rg) as (A1 & A2 & A3 & A4 & A5 & A6 & A7). split; [split; [exact A3|apply A5; exact Os]|]. split; [exact A7|]. split; [intros i j|intros i].
  - unfold logical. rewrite A1, A4, A6, G, <- Hw. unfold logical. ring.
  - rewrite A2. apply Hb.
Qed.
(** a forward pass with the noise of the weight modifier *)
Lemma forward_spec noise t l x : represents t l ->
  forward K noise t x = output K {| l_w := fun i j => l_w l i j + oscale (t_ms t) i * oscale (t_os t) i * noise i j; l_b := l_b l |} x.
Proof.
  intros (Hw & Hb). extensionality b. extensionality i. unfold forward, output. cbn [l_w l_b]. rewrite sum_total, Hb. f_equal. rewrite <- !total_mul. apply total_ext. intros j _. rewrite <- Hw. unfold logical. ring.
Qed.
Theorem C200_noise (noise : nat -> nat -> R) (t : tile) (l : linear) (x dy : nat -> nat -> R) (B : nat) (lr : R) :
  plain t -> compensated t -> represents t l ->
  forward K noise t x = output K {| l_w := fun i j => l_w l i j + oscale (t_ms t) i * noise i j; l_b := l_b l |} x /\
  exists t', sgd D K B lr noise x dy t = Ok t' /\ plain t' /\ compensated t' /\ represents t' (descend B lr x dy l).
Proof.
  intros (Rg & Os) C Rp. split.
  - rewrite (forward_spec noise t l x Rp). f_equal. f_equal. extensionality i. extensionality j. rewrite Os. cbn [oscale]. ring.
  - unfold sgd. rewrite Rg. destruct (hook_ok t C) as (h & E & Hh). rewrite E. cbn [bind]. eexists. split; [reflexivity|]. split; [split; cbn [t_rg t_os]; [reflexivity|unfold step_os; rewrite Os; reflexivity]|]. split; [exact C|]. destruct Rp as (Hw & Hb). split; [intros i j|intros i]; unfold logical; cbn [t_w t_ms t_os t_bias descend l_w l_b].
    + unfold step_os. rewrite Os. cbn [oscale]. unfold grad_w. rewrite Os, sum_total. cbn [oscale]. rewrite Hh, <- Hw. unfold logical. rewrite Os. cbn [oscale].
      rewrite (total_ext B _ (fun b => dy b i * x b j * oscale (t_ms t) i)) by (intros; ring). rewrite total_mul. field. apply C.
    + unfold grad_b. rewrite sum_total, Hb. reflexivity.
Qed.

(** ** Any history of training, remapping, conversion and assignment *)
Definition act_of (e : event) : act :=
  match e with Step b => Train (b_x b) (b_n b) (b_loss b) (b_lr b) | SetWeights W b _ _ => Assign {| l_w := W; l_b := b |} | _ => Nothing end.
Definition usual (e : event) : Prop := match e with Step b => b_noise b = (fun _ _ => 0) | SetWeights _ _ om _ => 0 < om | _ => True end.
Lemma exec_spec e t l ys t' : usual e -> plain t -> compensated t -> represents t l -> exec e t = Ok (ys, t') ->
  ys = fst (act1 K (act_of e) l) /\ plain t' /\ compensated t' /\ represents t' (snd (act1 K (act_of e) l)).
Proof.
  intros U P C Rp E. destruct e as [b|r|W b om c|]; cbn [TtiModel.exec act_of act1 fst snd usual] in *.
  - assert (F : forward K (b_noise b) t (b_x b) = output K l (b_x b)).
    { rewrite (forward_spec _ t l _ Rp), U. f_equal. destruct l as [lw lb]. cbn [l_w l_b]. f_equal. extensionality i. extensionality j. ring. }
    rewrite F in E. destruct (C200_noise (b_noise b) t l (b_x b) (b_loss b (output K l (b_x b))) (b_n b) (b_lr b) P C Rp) as (_ & t1 & E1 & P1 & C1 & R1). rewrite E1 in E. cbn [bind] in E. injection E as <- <-. auto.
  - destruct (remap_weights r t) as [t1|] eqn:E1; [|discriminate]. cbn [bind] in E. injection E as <- <-. split; [reflexivity|]. exact (remap_spec r t t1 l P C Rp E1).
  - injection E as <- <-. split; [reflexivity|]. apply set_weights_spec; auto.
  - injection E as <- <-. split; [reflexivity|]. apply convert_spec; assumption.
Qed.
Lemma run_spec : forall es t l ys t', Forall usual es -> plain t -> compensated t -> represents t l -> run es t = Ok (ys, t') ->
  ys = fst (acts K (map act_of es) l) /\ plain t' /\ compensated t' /\ represents t' (snd (acts K (map act_of es) l)).
Proof.
  induction es as [|e es IH]; intros t l ys t' U P C Rp E; cbn [TtiModel.run map acts fst snd] in *; [injection E as <- <-; auto|]. inversion U; subst. destruct (exec e t) as [[y1 t1]|] eqn:E1; [|discriminate]. cbn [bind fst snd] in E. destruct (run es t1) as [[y2 t2]|] eqn:E2; [|discriminate]. cbn [bind fst snd] in E. injection E as <- <-.
  destruct (exec_spec _ _ _ _ _ H1 P C Rp E1) as (-> & P1 & C1 & R1). destruct (IH _ _ _ _ H2 P1 C1 R1 E2) as (-> & P2). split; [reflexivity|exact P2].
Qed.
Lemma fresh_ok has_ms bias : plain (fresh has_ms None bias) /\ compensated (fresh has_ms None bias) /\ represents (fresh has_ms None bias) {| l_w := fun _ _ => 0; l_b := bias |}.
Proof.
  split; [split; reflexivity|]. split; [split; destruct has_ms; cbn; intros; lra|]. split; [intros i j|reflexivity]. unfold logical. cbn. destruct has_ms; cbn; ring.
Qed.
Theorem C200_training (has_ms : bool) (bias : nat -> R) (es : list event) (ys : list (nat -> nat -> R)) (t' : tile) :
  Forall usual es -> run es (fresh has_ms None bias) = Ok (ys, t') ->
  let o := acts K (map act_of es) {| l_w := fun _ _ => 0; l_b := bias |} in
  ys = fst o /\ represents t' (snd o) /\ (forall x, forward K (fun _ _ => 0) t' x = output K (snd o) x).
Proof.
  intros U E o. destruct (fresh_ok has_ms bias) as (P & C & Rp). destruct (run_spec _ _ _ _ _ U P C Rp E) as (A & _ & _ & A2). split; [exact A|]. split; [exact A2|]. intros x. rewrite (forward_spec _ t' (snd o) x A2). f_equal. destruct (snd o) as [lw lb]. cbn [l_w l_b]. f_equal. extensionality i. extensionality j. ring.
Qed.
(** it runs: only remapping of a vanishing matrix or row, or without scales, fails *)
Theorem C200_runs (has_ms : bool) (bias : nat -> R) (es : list event) :
  Forall usual es -> (forall r, ~ In (Remap r) es) -> exists o, run es (fresh has_ms None bias) = Ok o.
Proof.
  destruct (fresh_ok has_ms bias) as (P & C & Rp). revert P C Rp. generalize (fresh has_ms None bias). generalize {| l_w := fun _ _ : nat => 0; l_b := bias |}. induction es as [|e es IH]; intros l t P C Rp U NR; [eexists; reflexivity|]. inversion U; subst. cbn [TtiModel.run].
  assert (X : exists o, exec e t = Ok o).
  { destruct e as [b|r| |]; cbn [TtiModel.exec]; try (eexists; reflexivity).
    - destruct (C200_noise (b_noise b) t l (b_x b) (b_loss b (forward K (b_noise b) t (b_x b))) (b_n b) (b_lr b) P C Rp) as (_ & t1 & E1 & _). rewrite E1. eexists. reflexivity.
    - exfalso. exact (NR r (or_introl eq_refl)). }
  destruct X as ((y1 & t1) & E1). rewrite E1. cbn [bind fst snd]. destruct (exec_spec _ _ _ _ _ H1 P C Rp E1) as (_ & P1 & C1 & R1). destruct (IH _ _ P1 C1 R1 H2) as (o & E2); [intros r Hr; exact (NR r (or_intror Hr))|]. rewrite E2. eexists. reflexivity.
Qed.

(** ** Where the compensation is lost *)
Lemma sgd_logical t l B lr noise x dy t' h : represents t l -> t_rg t = true -> t_os t = None -> hook_run t = Ok h -> (forall i, h i <> 0) -> sgd D K B lr noise x dy t = Ok t' ->
  forall i j, logical t' i j = l_w l i j - lr * (oscale (t_ms t) i / h i) ^ 2 * total B (fun b => dy b i * x b j).
Proof.
  intros (Hw & _) Rg Os Eh Nh E i j. unfold sgd in E. rewrite Rg, Eh in E. cbn [bind] in E. injection E as <-. unfold logical. cbn [t_ms t_os t_w]. unfold step_os, grad_w. rewrite Os, sum_total. cbn [oscale]. rewrite <- Hw. unfold logical. rewrite Os. cbn [oscale].
  rewrite (total_ext B _ (fun b => dy b i * x b j * oscale (t_ms t) i)) by (intros; ring). rewrite total_mul. field. apply Nh.
Qed.
Theorem C200_deepcopy_refuted (t t' : tile) (l : linear) (B : nat) (lr : R) (noise x dy : nat -> nat -> R) :
  plain t -> compensated t -> represents t l -> sgd D K B lr noise x dy (deepcopy t) = Ok t' ->
  forall i j, logical t' i j = l_w l i j - lr * oscale (t_ms t) i ^ 2 * total B (fun b => dy b i * x b j).
Proof.
  intros (Rg & Os) C Rp E i j. rewrite (sgd_logical (deepcopy t) l B lr noise x dy t' (fun _ => 1) Rp Rg Os eq_refl (fun _ => R1_neq_R0) E). cbn [deepcopy t_ms]. field.
Qed.
Theorem C200_load_refuted (c t t' : tile) (l : linear) (B : nat) (lr : R) (noise x dy : nat -> nat -> R) :
  plain c -> represents c l -> plain t -> compensated t -> t_ms t <> None -> sgd D K B lr noise x dy (load c t) = Ok t' ->
  forall i j, logical t' i j = l_w l i j - lr * (oscale (t_ms c) i / oscale (t_ms t) i) ^ 2 * total B (fun b => dy b i * x b j).
Proof.
  intros (Rc & Oc) Rp (Rg & Os) C NM E i j.
  assert (H : exists h, hook_run (load c t) = Ok h /\ forall i, h i = oscale (t_ms t) i).
  { destruct C as (N & C). unfold hook_run, hook_div, load, detach. cbn [t_hook t_ms]. destruct (t_ms t) as [m|]; [|congruence]. destruct (t_hook t) as [[|[z|s]]|]; try contradiction; eexists; (split; [reflexivity|]); intros k; cbn; first [reflexivity | apply C | symmetry; apply C]. }
  destruct H as (h & Eh & Hh). rewrite (sgd_logical (load c t) l B lr noise x dy t' h Rp Rg Oc Eh); [rewrite Hh; reflexivity|intros k; rewrite Hh; apply C|exact E].
Qed.
(** scales given as a number, or set while the weights are frozen *)
Theorem C200_float_refuted (a : R) (t : tile) (B : nat) (lr : R) (noise x dy : nat -> nat -> R) : t_rg t = true -> sgd D K B lr noise x dy (set_scales (SFloat a) t) = Raise AttributeError.
Proof. intros Rg. unfold sgd, set_scales. cbn [set_mapping_scales assigned]. destruct (t_ms t); cbn [t_rg]; rewrite Rg; reflexivity. Qed.
Theorem C200_frozen_refuted (W : nat -> nat -> R) (bias : nat -> R) (om : R) (c : bool) (t t' : tile) (l : linear) (B : nat) (lr : R) (noise x dy : nat -> nat -> R) :
  0 < om -> t_os t = None -> represents (set_weights D K W bias om c (require_grad false t)) l ->
  let u := set_weights D K W bias om c (require_grad false t) in
  sgd D K B lr noise x dy (require_grad true u) = Ok t' ->
  forall i j, logical t' i j = l_w l i j - lr * oscale (t_ms u) i ^ 2 * total B (fun b => dy b i * x b j).
Proof.
  intros Ho Os Rp u E i j. assert (Hk : t_hook (require_grad true u) = None) by (unfold u, set_weights; rewrite (proj2 (Rltb_true 0 om) Ho); cbn; reflexivity).
  assert (Ou : t_os (require_grad true u) = None). { unfold u, set_weights. rewrite (proj2 (Rltb_true 0 om) Ho). cbn. destruct c; cbn; [rewrite Os; reflexivity|]. destruct (t_ms t); cbn; rewrite Os; reflexivity. }
  rewrite (sgd_logical (require_grad true u) l B lr noise x dy t' (fun _ => 1) Rp eq_refl Ou); [cbn [require_grad t_ms]; field| |intros; lra|exact E]. unfold hook_run, hook_div. rewrite Hk. reflexivity.
Qed.
(** with learned output scales the weights move with their square *)
Theorem C200_learned_refuted (t t' : tile) (B : nat) (lr : R) (noise x dy : nat -> nat -> R) :
  t_rg t = true -> compensated t -> sgd D K B lr noise x dy t = Ok t' ->
  forall i j, oscale (t_ms t) i * oscale (t_os t) i * t_w t' i j = logical t i j - lr * oscale (t_os t) i ^ 2 * total B (fun b => dy b i * x b j).
Proof.
  intros Rg C E i j. destruct (hook_ok t C) as (h & Eh & Hh). unfold sgd in E. rewrite Rg, Eh in E. cbn [bind] in E. injection E as <-. cbn [t_w]. unfold grad_w, logical. rewrite sum_total, Hh.
  rewrite (total_ext B _ (fun b => dy b i * x b j * (oscale (t_os t) i * oscale (t_ms t) i))) by (intros; ring). rewrite total_mul. field. apply C.
Qed.
End Sizes.

(** ** Input range *)
Section Range.
Context (B D K : nat) (w : nat -> nat -> R) (ms : nat -> R).
Definition documented (p : irp) (ir : R) (x g : nat -> nat -> R) : R :=
  (if Rlt_dec 0 (ir_decay p) then if Rlt_dec (ir_min_pct p) (inside B K ir x) then ir_decay p * ir else 0 else 0)
  - wants B K ir x g * (if ir_relative p then ir * ir_scale p else 1).
Lemma dbl_ext (f g : nat -> nat -> R) : (forall b j, f b j = g b j) -> total B (fun b => total K (fun j => f b j)) = total B (fun b => total K (fun j => g b j)).
Proof. intros H. apply total_ext. intros b _. apply total_ext. intros j _. apply H. Qed.
Lemma sum2 (f : nat -> nat -> R) : sum B (fun b => sum K (fun j => f b j)) = total B (fun b => total K (fun j => f b j)).
Proof. rewrite sum_total. apply total_ext. intros b _. apply sum_total. Qed.
Lemma thres_documented p ir x g : thres_grad B K p ir x g = documented p ir x g.
Proof.
  unfold thres_grad, documented. rewrite !sum2.
  assert (Wn : 0 + total B (fun b => total K (fun j => Rmin (ind (Rleb ir (x b j)) (g b j)) 0)) - total B (fun b => total K (fun j => Rmax (ind (Rleb (x b j) (- ir)) (g b j)) 0)) = - wants B K ir x g).
  { unfold wants. rewrite (dbl_ext (fun b j => (if Rle_dec ir (x b j) then if Rlt_dec (g b j) 0 then - g b j else 0 else 0) + (if Rle_dec (x b j) (- ir) then if Rlt_dec 0 (g b j) then g b j else 0 else 0)) (fun b j => - Rmin (ind (Rleb ir (x b j)) (g b j)) 0 + Rmax (ind (Rleb (x b j) (- ir)) (g b j)) 0)).
    - assert (Q : forall f g : nat -> nat -> R, total B (fun b => total K (fun j => - f b j + g b j)) = - total B (fun b => total K (fun j => f b j)) + total B (fun b => total K (fun j => g b j))).
      { intros f h. rewrite <- total_opp, <- total_add. apply total_ext. intros b _. rewrite total_add, total_opp. reflexivity. }
      rewrite Q. ring.
    - intros b j. unfold Rleb. f_equal.
      + destruct (Rle_dec ir (x b j)); cbn [ind]; [destruct (Rlt_dec (g b j) 0); [rewrite Rmin_left by lra; reflexivity|rewrite Rmin_right by lra; ring]|rewrite Rmin_left by lra; ring].
      + destruct (Rle_dec (x b j) (- ir)); cbn [ind]; [destruct (Rlt_dec 0 (g b j)); [rewrite Rmax_left by lra; reflexivity|rewrite Rmax_right by lra; reflexivity]|rewrite Rmax_left by lra; reflexivity]. }
  rewrite Wn. unfold Rltb, inside. destruct (Rlt_dec 0 (ir_decay p)) as [L|L].
  - rewrite (dbl_ext (fun b j => ind (if Rlt_dec (Rabs (x b j)) ir then true else false) 1) (fun b j => if Rlt_dec (Rabs (x b j)) ir then 1 else 0)) by (intros b j; destruct (Rlt_dec (Rabs (x b j)) ir); reflexivity).
    destruct (Rlt_dec (ir_min_pct p) _); cbn [ind]; destruct (ir_relative p); ring.
  - destruct (ir_relative p); ring.
Qed.
Lemma clip_cases ir x : 0 < ir -> (x < - ir /\ clip ir x = - ir) \/ (- ir <= x <= ir /\ clip ir x = x) \/ (ir < x /\ clip ir x = ir).
Proof. intros H. unfold clip. rewrite Rabs_right by lra. destruct (Rlt_dec x (- ir)); [left; rewrite Rmax_right, Rmin_left by lra; auto|]. rewrite Rmax_left by lra. destruct (Rle_dec x ir); [right; left; rewrite Rmin_left by lra; split; [lra|reflexivity]|right; right; rewrite Rmin_right by lra; split; [lra|reflexivity]]. Qed.
Lemma documented_clip p ir x g : 0 < ir -> documented p ir (fun b j => clip ir (x b j)) g = documented p ir x g.
Proof.
  intros H. unfold documented. f_equal.
  - destruct (Rlt_dec 0 (ir_decay p)); [|reflexivity]. assert (I : inside B K ir (fun b j => clip ir (x b j)) = inside B K ir x). { unfold inside. f_equal. apply dbl_ext. intros b j. destruct (clip_cases ir (x b j) H) as [(L & ->)|[(L & ->)|(L & ->)]]; [|reflexivity|]; destruct (Rlt_dec (Rabs (x b j)) ir) as [Q|Q], (Rlt_dec (Rabs _) ir) as [Q'|Q'] in |- *; try reflexivity; exfalso; unfold Rabs in *; repeat destruct Rcase_abs; lra. }
    rewrite I. reflexivity.
  - f_equal. unfold wants. apply dbl_ext. intros b j. destruct (clip_cases ir (x b j) H) as [(L & ->)|[(L & ->)|(L & ->)]]; [|reflexivity|]; destruct (Rle_dec ir (x b j)), (Rle_dec (x b j) (- ir)); repeat (match goal with |- context [Rle_dec ?a ?b] => destruct (Rle_dec a b) end); try reflexivity; exfalso; lra.
Qed.
Lemma mvm_grad_dx dy ir b j : ir <> 0 -> mvm_grad D w ms ir dy b j / ir = dx D (fun i j => ms i * w i j) dy b j.
Proof. intros H. unfold mvm_grad, dx. rewrite sum_total. unfold Rdiv. rewrite <- total_mul. apply total_ext. intros i _. field. exact H. Qed.
Lemma cpu_grad_dx dy b j : cpu_x_grad D w ms dy b j = dx D (fun i j => ms i * w i j) dy b j.
Proof. unfold cpu_x_grad, dx. rewrite sum_total. apply total_ext. intros i _. ring. Qed.
(** the gradient of the range: the documented one, plus what additive noise of the MVM contributes *)
Lemma torch_ir p ir eps x dy : 0 < ir -> ir_manage p = false ->
  torch_ir_grad B D K p w ms ir eps x dy = Ok (documented p ir x (dx D (fun i j => ms i * w i j) dy) + total B (fun b => total D (fun i => dy b i * ms i * eps b i))).
Proof.
  intros H M. unfold torch_ir_grad. rewrite M. f_equal. rewrite thres_documented.
  assert (E1 : (fun b j => mvm_grad D w ms ir dy b j / ir) = dx D (fun i j => ms i * w i j) dy) by (extensionality b; extensionality j; apply mvm_grad_dx; lra).
  rewrite E1, documented_clip by exact H. rewrite Rplus_assoc. f_equal. rewrite sum2. rewrite sum_total.
  rewrite (total_ext B (fun b => sum D _) (fun b => total D (fun i => dy b i * ms i * eps b i) + total K (fun j => mvm_grad D w ms ir dy b j * (clip ir (x b j) / (ir * ir))))).
  - rewrite total_add. rewrite (dbl_ext _ (fun b j => - (mvm_grad D w ms ir dy b j * (clip ir (x b j) / (ir * ir))))) by (intros; field; lra).
    assert (Q : forall f : nat -> nat -> R, total B (fun b => total K (fun j => - f b j)) = - total B (fun b => total K (fun j => f b j))).
    { intros f. rewrite <- total_opp. apply total_ext. intros b _. apply total_opp. }
    rewrite Q. ring.
  - intros b _. rewrite sum_total. rewrite (total_ext D _ (fun i => dy b i * ms i * eps b i + total K (fun j => dy b i * ms i * w i j * (clip ir (x b j) / ir)))).
    + rewrite total_add. f_equal. rewrite total_swap. apply total_ext. intros j _. unfold mvm_grad. rewrite sum_total, <- total_mul. apply total_ext. intros i _. field. lra.
    + intros i _. rewrite sum_total. rewrite (total_ext K (fun j => dy b i * ms i * w i j * (clip ir (x b j) / ir)) (fun j => w i j * (clip ir (x b j) / ir) * (dy b i * ms i))) by (intros; ring). rewrite total_mul. ring.
Qed.
Theorem C201_gradient (p : irp) (ir : R) (x dy : nat -> nat -> R) : 0 < ir -> ir_manage p = false ->
  torch_ir_grad B D K p w ms ir (fun _ _ => 0) x dy = Ok (documented p ir x (dx D (fun i j => ms i * w i j) dy)) /\
  cpu_ir_grad B D K p w ms ir x dy = documented p ir x (dx D (fun i j => ms i * w i j) dy).
Proof.
  intros H M. split.
  - rewrite torch_ir by assumption. f_equal. rewrite (total_0 B); [ring|]. intros b _. apply total_0. intros i _. ring.
  - unfold cpu_ir_grad. rewrite thres_documented. f_equal. extensionality b. extensionality j. apply cpu_grad_dx.
Qed.
(** without decay the range never shrinks, and inputs inside it leave it alone *)
Theorem C201_expands (p : irp) (ir lr : R) (x g : nat -> nat -> R) : 0 < ir -> 0 <= lr -> 0 <= ir_scale p ->
  ir_decay p <= 0 \/ inside B K ir x <= ir_min_pct p ->
  ir <= ir - lr * documented p ir x g /\ ((forall b j, (b < B)%nat -> (j < K)%nat -> Rabs (x b j) < ir) -> documented p ir x g = 0).
Proof.
  intros H L S0 Dc. unfold documented. assert (D0 : (if Rlt_dec 0 (ir_decay p) then if Rlt_dec (ir_min_pct p) (inside B K ir x) then ir_decay p * ir else 0 else 0) = 0) by (destruct Dc; destruct (Rlt_dec 0 (ir_decay p)); try reflexivity; [lra|]; destruct (Rlt_dec (ir_min_pct p) (inside B K ir x)); [lra|reflexivity]).
  rewrite D0. assert (W0 : 0 <= wants B K ir x g).
  { unfold wants. apply total_nonneg. intros b _. apply total_nonneg. intros j _. repeat match goal with |- context [Rle_dec ?a ?b] => destruct (Rle_dec a b) | |- context [Rlt_dec ?a ?b] => destruct (Rlt_dec a b) end; lra. }
  split.
  - assert (0 <= wants B K ir x g * (if ir_relative p then ir * ir_scale p else 1)) by (apply Rmult_le_pos; [exact W0|]; destruct (ir_relative p); [apply Rmult_le_pos; lra|lra]). assert (0 <= lr * (wants B K ir x g * (if ir_relative p then ir * ir_scale p else 1))) by (apply Rmult_le_pos; assumption). lra.
  - intros In. assert (wants B K ir x g = 0) as ->; [|ring]. unfold wants. apply total_0. intros b Lb. apply total_0. intros j Lj. specialize (In b j Lb Lj). unfold Rabs in In. destruct (Rle_dec ir (x b j)), (Rle_dec (x b j) (- ir)); destruct Rcase_abs; try lra.
Qed.
(** the gradient of the inputs: masked by the torch tile, passed on by the CPU tile *)
Theorem C201_inputs (ir : R) (x dy : nat -> nat -> R) (b j : nat) : 0 < ir ->
  cpu_x_grad D w ms dy b j = dx D (fun i j => ms i * w i j) dy b j /\
  torch_x_grad D w ms ir x dy b j = (if Rle_dec (Rabs (x b j)) ir then dx D (fun i j => ms i * w i j) dy b j else 0).
Proof.
  intros H. split; [apply cpu_grad_dx|]. unfold torch_x_grad. rewrite mvm_grad_dx by lra. rewrite (Rabs_right ir) by lra. unfold Rleb, ind. destruct (Rle_dec (- ir) (x b j)), (Rle_dec (x b j) ir), (Rle_dec (Rabs (x b j)) ir) as [Q|Q]; cbn; try reflexivity; exfalso; unfold Rabs in Q; destruct Rcase_abs; lra.
Qed.
Theorem C201_noise_refuted (p : irp) (ir : R) (eps x dy : nat -> nat -> R) : 0 < ir -> ir_manage p = false ->
  torch_ir_grad B D K p w ms ir eps x dy = Ok (documented p ir x (dx D (fun i j => ms i * w i j) dy) + total B (fun b => total D (fun i => dy b i * ms i * eps b i))).
Proof. apply torch_ir. Qed.
Theorem C201_manage_refuted (p : irp) (ir : R) (eps x dy : nat -> nat -> R) : ir_manage p = true -> torch_ir_grad B D K p w ms ir eps x dy = Raise NotImplementedError.
Proof. intros M. unfold torch_ir_grad. rewrite M. reflexivity. Qed.
(** forward: the layer on the clipped inputs *)
Theorem C201_forward (ir : R) (x : nat -> nat -> R) (b i : nat) : 0 < ir ->
  ir_forward K w ms ir (fun _ _ => 0) x b i = total K (fun j => ms i * w i j * Rmax (- ir) (Rmin (x b j) ir)).
Proof.
  intros H. unfold ir_forward. rewrite sum_total, Rplus_0_r, <- total_mul. apply total_ext. intros j _.
  assert (clip ir (x b j) = Rmax (- ir) (Rmin (x b j) ir)) as ->. { destruct (clip_cases ir (x b j) H) as [(L & ->)|[(L & ->)|(L & ->)]]; [rewrite (Rmin_left (x b j)), Rmax_left by lra|rewrite (Rmin_left (x b j)), Rmax_right by lra|rewrite (Rmin_right (x b j)), Rmax_right by lra]; reflexivity. }
  field. lra.
Qed.
End Range.

(** one output, two inputs, columnwise scales, one step *)
Theorem C200_nontrivial :
  let W := fun i j : nat => match j with O => 3 | S _ => 1 end in
  let b := {| b_x := fun _ _ => 1; b_n := 1; b_loss := fun y b i => y b i; b_lr := 1/4; b_noise := fun _ _ => 0 |} in
  let es := [SetWeights W (fun _ => 0) 1 true; Remap Channelwise; Step b] in
  Forall usual es /\ (exists o, run 1 2 es (fresh true None (fun _ => 0)) = Ok o) /\ l_w (snd (acts 2 (map act_of es) {| l_w := fun _ _ => 0; l_b := fun _ => 0 |})) 0%nat 0%nat = 2.
Proof.
  intros W b es. split; [repeat constructor; cbn; lra|]. split.
  - unfold es. cbn [run exec bind fst snd]. unfold remap_weights.
    set (t1 := set_weights 1 2 W (fun _ => 0) 1 true (fresh true None (fun _ => 0))).
    assert (F := fresh_ok true (fun _ => 0)). destruct F as (P & C & Rp). destruct (set_weights_spec 1 2 W (fun _ => 0) 1 true _ {| l_w := W; l_b := fun _ => 0 |} Rlt_0_1 P ltac:(reflexivity) ltac:(reflexivity)) as (P1 & C1 & R1). fold t1 in P1, C1, R1.
    assert (X : exists t2, remap_weights 1 2 Channelwise t1 = Ok t2).
    { unfold remap_weights. pose proof (get_scales_spec t1) as G. destruct (get_scales t1) as [s|] eqn:Es.
      - match goal with |- context [existsb ?f ?l] => destruct (existsb f l) eqn:Q end; [|eexists; reflexivity]. exfalso. apply existsb_exists in Q. destruct Q as (i & Hi & Q). apply in_seq in Hi. assert (i = 0)%nat by lia. subst i. apply Reqb_true in Q. unfold amax in Q. cbn in Q. assert (E0 : t_w t1 0 0 * scale s 0 = 3). { rewrite G. destruct R1 as (R1 & _). specialize (R1 0%nat 0%nat). cbn in R1. unfold logical in R1. rewrite <- R1. ring. }
        rewrite E0 in Q. revert Q. rewrite (Rabs_right 3) by lra. intros Q. assert (3 <= 0) by (rewrite <- Q; apply Rmax_l). lra.
      - exfalso. destruct G as (G & _). unfold t1, set_weights in G. rewrite (proj2 (Rltb_true 0 1) Rlt_0_1) in G. cbn in G. discriminate. }
    destruct X as (t2 & X). unfold remap_weights in X. rewrite X. cbn [bind fst snd]. destruct (remap_spec 1 2 Channelwise t1 t2 _ P1 C1 R1 X) as (P2 & C2 & R2). destruct (C200_noise 1 2 (b_noise b) t2 _ (b_x b) (b_loss b (forward 2 (b_noise b) t2 (b_x b))) (b_n b) (b_lr b) P2 C2 R2) as (_ & t3 & E3 & _). rewrite E3. eexists. reflexivity.
  - cbn. unfold output. cbn. lra.
Qed.
Theorem C201_nontrivial :
  let p := {| ir_decay := 1/10; ir_min_pct := 1/4; ir_scale := 1; ir_relative := true; ir_manage := false |} in
  documented 1 2 p 2 (fun _ j => match j with O => 3 | S _ => 1 end) (fun _ _ => -1) = 2/10 - 2.
Proof.
  cbn. unfold documented, inside, wants. cbn. destruct (Rlt_dec 0 (1/10)); [|lra]. rewrite (Rabs_right 3), (Rabs_right 1) by lra. destruct (Rlt_dec 3 2); [lra|]. destruct (Rlt_dec 1 2); [|lra]. destruct (Rlt_dec (1/4) _) as [Q|Q]; [|exfalso; apply Q; lra].
  repeat match goal with |- context [Rle_dec ?a ?b] => destruct (Rle_dec a b); try lra | |- context [Rlt_dec ?a ?b] => destruct (Rlt_dec a b); try lra end.
Qed.
Print Assumptions C200_noise.
Print Assumptions C200_training.
Print Assumptions C200_runs.
Print Assumptions C200_deepcopy_refuted.
Print Assumptions C200_load_refuted.
Print Assumptions C200_float_refuted.
Print Assumptions C200_frozen_refuted.
Print Assumptions C200_learned_refuted.
Print Assumptions C201_gradient.
Print Assumptions C201_expands.
Print Assumptions C201_inputs.
Print Assumptions C201_noise_refuted.
Print Assumptions C201_manage_refuted.
Print Assumptions C201_forward.
Print Assumptions C200_nontrivial.
Print Assumptions C201_nontrivial.
