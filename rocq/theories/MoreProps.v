(** * Further facts about several areas, found by changing the models *)
From Verif Require Import Prelude Rand PeriModel PeriSpec ConvModel QuantModel QuantSpec LpModel LpSpec LpProofs LpProps.
Local Open Scope nat_scope.

Lemma los_mapping c t : t_ms t = MsNone -> t_los (set_mapping_scales c (STensor [1%R]) t) = t_los t /\ t_los (set_mapping_scales c SNone t) = t_los t.
Proof. intros H. unfold set_mapping_scales. unfold ms_val. rewrite H. destruct (PeriModel.c_mapping c); cbn [negb]; split; try reflexivity; destruct (c_lrcomp c); reflexivity. Qed.
(** C09: the learned output scales of a new tile are ones, one for each output if columnwise, else a single one *)
Theorem C09_learned_shape c w0 ir lr : PeriModel.c_mapping c = true -> c_learn_out c = true -> t_los (ptile_new c w0 ir lr) = Some (repeat 1%R (if c_out_colwise c then c_out c else 1)).
Proof.
  intros M L. unfold ptile_new, init_mapping_scales, init_learned_out_scales. rewrite M, L. cbn [negb]. destruct (Reqb (c_omega c) 0), (c_colwise c), (c_out_colwise c); try reflexivity; (etransitivity; [apply los_mapping; reflexivity | reflexivity]).
Qed.
Theorem C09_not_learned c w0 ir lr : PeriModel.c_mapping c = false \/ c_learn_out c = false -> t_los (ptile_new c w0 ir lr) = None.
Proof.
  intros [M|L]; unfold ptile_new, init_mapping_scales, init_learned_out_scales; [rewrite M|rewrite L]; cbn [negb]; try destruct (PeriModel.c_mapping c); cbn [negb]; try destruct (Reqb (c_omega c) 0), (c_colwise c); try reflexivity; (etransitivity; [apply los_mapping; reflexivity | reflexivity]).
Qed.
(** C143: a quantizer of inputs put before a module is on exactly if it has bits, and only its activation is *)
Theorem C143_enabled_inputs q t t' p m b : plain t -> convert_to_quantized q t = Ok t' -> p <> [] -> module_at t p = Some m -> reached q [] t p -> ~ List.In p (q_excl q) -> t_ty m <> TLeaf -> q_input q p = Some b ->
  exists m', module_at t' p = Some m' /\ enabled m' = (false, (0 <? b)%Z).
Proof.
  intros Pl E Np At Re Ne Nl Ei. destruct (C143_modules q t t' p m Pl E Np At Re) as (m' & A & _ & _ & B). destruct (B Ne Nl) as (m1 & W & _). rewrite Ei in W. cbn in W. destruct W as [W _]. exists m'. split; [exact A|]. unfold enabled. rewrite W. reflexivity.
Qed.
Print Assumptions C09_learned_shape.
Print Assumptions C09_not_learned.
Print Assumptions C143_enabled_inputs.
