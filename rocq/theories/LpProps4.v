(** * C147: layers with quantized weights and activations *)
From Verif Require Import Prelude ConvModel QuantModel QuantSpec QuantProofs QuantProps LpModel LpSpec LpProofs LpProps2 LpProps3.
Local Open Scope nat_scope.

(** the largest error of a quantization of [x] whose range was taken from [x]: half a step *)
Definition half_step (c : qcfg) (n : nat) (x y : mat) : Prop := exists mns mxs, extremes (qc_pc c) n [x] mns mxs
  /\ forall i j, is_elem x i j -> (Rabs (elem y i j - elem x i j) <= step c (is_signed c mns) (lim mns i) (lim mxs i) / 2)%R.
Lemma first_forward c e n m0 x : q_sane c -> 2 <= qc_bits c -> 1 <= n -> fits (qc_pc c) n x -> man_new c e None = Ok m0 ->
  exists y m1, man_forward m0 x = Ok (y, m1) /\ half_step c n x y
  /\ man_forward (m_with_train m1 false) x = Ok (y, m_with_train m1 false) /\ m_state m1 = EstimateTrain.
Proof.
  intros S Hb Hn F New. injection New as <-. set (m0 := {| m_cfg := c |}).
  assert (G : good_len n m0) by (split; intros; discriminate).
  destruct (man_forward_ok m0 e n x eq_refl eq_refl Hb F G) as (y & m1 & r & E & G1 & Ee & Es & Et & Ec & Er & Cu & Qs & Qf & Ps & Sg). exists y, m1. split; [exact E|].
  destruct (batch_len _ _ _ F) as (L1 & L2 & L3). unfold estimate in Er. cbn [m_cfg m_cur m0] in Er. rewrite L3 in Er. assert (Er' : r = (batch_min (qc_pc c) x, batch_max (qc_pc c) x)) by (destruct e; injection Er as <-; reflexivity). subst r.
  pose proof (extremes_one _ _ _ F) as Ex. pose proof Ex as (_ & _ & Ex').
  assert (Cal : calibrated m1 (batch_min (qc_pc c) x) (batch_max (qc_pc c) x)) by (split; [exact Cu|]; exists (m_q m0); rewrite Ec; exact Qs).
  destruct (eval_error c n m1 x (batch_min (qc_pc c) x) (batch_max (qc_pc c) x) S Ec (ex_intro _ e Ee) Es Cal Hn L1 L2 F Ps Sg) as (y' & E' & Err).
  { intros i v Hi Hv. apply Ex'; [exact Hi|]. exists x. split; [left; reflexivity|exact Hv]. }
  assert (y' = y). { unfold man_forward in E'. cbn [m_with_train m_est m_state m_train m_cfg m_q] in E'. rewrite Ee, Es in E'. cbn [m0 m_state] in E'. rewrite Ec in E'. change (m_cfg m0) with c in *. rewrite Qf in E'. cbn [bind] in E'. injection E' as <-. reflexivity. }
  subst y'. split; [exists (batch_min (qc_pc c) x), (batch_max (qc_pc c) x); split; [exact Ex|exact Err]|]. split; [exact E'|]. exact Es.
Qed.
(** a layer converted with 0 bits for the weights and the activations computes what the original does, in any sequence of evaluations and changes of mode *)
Inductive yop : Type := YForward (x : mat) | YTrain (b : bool).
Definition layer_step (run : mat -> mat -> mat) (y : qlayer) (o : yop) : qlayer := match o with YTrain b => layer_train b y | YForward x => match layer_forward run y x with Ok (_, y') => y' | Raise _ => y end end.
Definition layer_run (run : mat -> mat -> mat) (y : qlayer) (ops : list yop) : qlayer := fold_left (layer_step run) ops y.
Theorem C147_zero_bits run wc ac we ae w y ops x : layer_new wc ac we ae w = Ok y -> qc_bits wc = 0 -> qc_bits ac = 0 ->
  exists y', layer_forward run (layer_run run y ops) x = Ok (run w x, y').
Proof.
  intros New Hw Ha. unfold layer_new in New. cbn in New. injection New as <-. rewrite Hw, Ha. cbn [Nat.ltb Nat.leb].
  set (P := fun y : qlayer => h_quant (y_hij y) = false /\ y_quant_a y = false /\ h_w (y_hij y) = w /\ (h_cache (y_hij y) = None \/ h_cache (y_hij y) = Some w)).
  assert (F : forall y x, P y -> exists y', layer_forward run y x = Ok (run w x, y') /\ P y').
  { clear. intros y x (P1 & P2 & P3 & P4). unfold layer_forward, h_params. rewrite P1, P2, P3. destruct P4 as [P4|P4], (m_train (h_man (y_hij y))); rewrite P4; cbn; eexists; (split; [reflexivity|]); unfold P; cbn; repeat split; auto.
    all: destruct (h_caching (y_hij y)); auto. }
  unfold layer_run.
  assert (G : forall y, P y -> P (fold_left (layer_step run) ops y)).
  { induction ops as [|o r IH]; intros y Py; [exact Py|]. cbn [fold_left]. apply IH. destruct o as [z|b]; cbn [layer_step].
    - destruct (F y z Py) as (y' & -> & Py'). exact Py'.
    - destruct Py as (P1 & P2 & P3 & P4). unfold P, layer_train. cbn. repeat split; auto. destruct b; auto. }
  match goal with |- context [fold_left _ ops ?y0] => destruct (F (fold_left (layer_step run) ops y0) x) as (y' & E & _) end; [apply G; unfold P; cbn; auto|]. exists y'. exact E.
Qed.
(** otherwise: a first pass in training mode computes with weights that are at most half a step away from the original ones, and the result is at most half
    a step away from that of the original operation on these weights; the pass repeated in evaluation mode gives the same *)
Theorem C147_half_step run wc ac we ae w y x n1 n2 : layer_new wc ac we ae w = Ok y -> q_sane wc -> q_sane ac -> 2 <= qc_bits wc -> 2 <= qc_bits ac -> 1 <= n1 -> 1 <= n2 ->
  fits (qc_pc wc) n1 w -> (forall w', length w' = length w -> fits (qc_pc ac) n2 (run w' x)) ->
  exists w' z y1, layer_forward run y x = Ok (z, y1) /\ half_step wc n1 w w' /\ half_step ac n2 (run w' x) z
  /\ exists y2, layer_forward run (layer_train false y1) x = Ok (z, y2).
Proof.
  intros New Sw Sa Bw Ba N1 N2 Fw Fa. unfold layer_new in New. destruct (man_new wc we None) as [mw|] eqn:Ew; [|discriminate]. destruct (man_new ac ae None) as [ma|] eqn:Ea; [|discriminate]. cbn [bind] in New. injection New as <-.
  destruct (first_forward wc we n1 mw w Sw Bw N1 Fw Ew) as (w' & mw1 & E1 & H1 & R1 & S1).
  assert (Lw : length w' = length w).
  { unfold man_forward in E1. injection Ew as <-. cbn [m_est m_state m_train m_cfg m_cur m_q] in E1. destruct (estimate _ _ _ _) as [r|] eqn:Er; [|discriminate]. cbn [bind] in E1. destruct (q_set _ _ _ _) as [q|] eqn:Eq; [|discriminate]. cbn [bind] in E1. destruct (q_forward _ _ _) as [z|] eqn:Ez; [|discriminate]. injection E1 as <- _.
    assert (Nr : fst r <> []). { destruct (estimate_ok we (qc_pc wc) n1 None w Fw ltac:(discriminate)) as (r0 & Er0 & Lr & _). assert (Q0 : Ok r0 = Ok r) by (etransitivity; [symmetry; exact Er0|exact Er]). injection Q0 as ->. intros Q. rewrite Q in Lr. simpl in Lr. lia. }
    exact (proj1 (q_forward_rows _ _ _ _ _ _ _ Nr Eq Ez)). }
  destruct (first_forward ac ae n2 ma (run w' x) Sa Ba N2 (Fa w' Lw) Ea) as (z & ma1 & E2 & H2 & R2 & S2).
  assert (Tw : m_train mw = true) by (injection Ew as <-; reflexivity).
  assert (Bw' : (0 <? qc_bits wc) = true) by (apply Nat.ltb_lt; lia). assert (Ba' : (0 <? qc_bits ac) = true) by (apply Nat.ltb_lt; lia). rewrite Bw', Ba'.
  eexists w', z, _. split.
  { unfold layer_forward, h_params. cbn [y_hij h_man h_cache h_quant h_w h_caching y_quant_a y_act]. rewrite Tw, E1. cbn [bind fst snd andb negb]. rewrite E2. cbn [bind fst snd]. reflexivity. }
  split; [exact H1|]. split; [exact H2|]. unfold layer_forward, layer_train, h_params. cbn [y_hij h_step h_with h_man h_cache h_quant h_w h_caching y_quant_a y_act m_with_train m_train]. change (m_with_train mw1 false) with (m_with_train mw1 false) in *.
  unfold h_params. cbn [h_man h_cache h_quant h_w h_caching m_train m_with_train]. fold (m_with_train mw1 false). rewrite R1. cbn [bind fst snd]. fold (m_with_train ma1 false). rewrite R2. cbn [bind fst snd]. eexists. reflexivity.
Qed.
Example C147_nontrivial : exists y, layer_new (cfg8 Sym true) (cfg8 Asym false) CurrentMinMax AllMinMax [[1; -2]; [3; 4]]%R = Ok y
  /\ fits true 2 [[1; -2]; [3; 4]]%R /\ forall w' : mat, length w' = 2 -> fits false 1 ((fun w x => map (fun r => [hd 0%R r]) w) w' [[1%R]]).
Proof.
  eexists. split; [reflexivity|]. split; [repeat constructor; discriminate|]. intros w' L. split; [|reflexivity]. destruct w' as [|a r]; [discriminate|]. cbn. discriminate.
Qed.
(** "quantized(model)" also switches on the quantization of layers that were converted with 0 bits: the results are not numbers *)
Theorem C147_all_quantized_refuted : ~ (forall run wc ac we ae w y x, layer_new wc ac we ae w = Ok y -> (exists y', layer_forward run y x = Ok (run w x, y')) -> exists z y', layer_forward run (layer_quantized y) x = Ok (z, y')).
Proof.
  intros H. pose (c := {| qc_meth := Asym; qc_bits := 0; qc_log := false; qc_eps := (1 / 10 ^ 8)%R; qc_pc := false |}).
  destruct (H (fun w _ => w) c c CurrentMinMax CurrentMinMax [[1%R]] _ [[1%R]] eq_refl ltac:(eexists; reflexivity)) as (z & y' & E). discriminate.
Qed.
(** padding: the quantized convolution is the original one without padding or with zeros *)
Theorem C147_padding m p k x : m = PZeros \/ p = 0 -> quant_conv2d_forward m p k x = conv2d_forward m p k x.
Proof.
  intros [-> | ->]; [reflexivity|]. unfold quant_conv2d_forward, conv2d_forward. f_equal. destruct m; cbn; rewrite ?app_nil_r, ?Nat.sub_0_r, ?skipn_all; reflexivity.
Qed.
Theorem C147_padding_refuted : ~ (forall m p k x, quant_conv2d_forward m p k x = conv2d_forward m p k x).
Proof. intros H. specialize (H PCircular 1 [1%R] [5%R; 7%R]). cbn in H. injection H as H _. lra. Qed.

Print Assumptions C147_zero_bits.
Print Assumptions C147_half_step.
Print Assumptions C147_all_quantized_refuted.
Print Assumptions C147_padding.
Print Assumptions C147_padding_refuted.
