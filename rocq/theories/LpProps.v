(** * C143: conversion by a QuantizationMap *)
From Verif Require Import Prelude ConvModel QuantModel QuantSpec LpModel LpSpec LpProofs.
Local Open Scope nat_scope.

(** every module with a name [p] that the conversion reaches: excluded modules and quantizers stay as they are with all that is below them, selected ones are replaced
    (instance before class), or kept with all that is below them if no bits are given, others keep their class, parameters and children's names; wrapped if requested *)
Theorem C143_modules q t t' p m : plain t -> convert_to_quantized q t = Ok t' -> p <> [] -> module_at t p = Some m -> reached q [] t p ->
  exists m', module_at t' p = Some m' /\ (List.In p (q_excl q) -> m' = m) /\ (t_ty m = TLeaf -> m' = m)
  /\ (~ List.In p (q_excl q) -> t_ty m <> TLeaf -> exists m1, input_wrapped (q_input q p) m1 m' /\ becomes q p m m1).
Proof.
  intros Pl E Np At Re. unfold convert_to_quantized in E. destruct (quantize q [] t) as [[t1|]|e] eqn:Eq; cbn [bind] in E; try discriminate. injection E as <-.
  destruct (quantize_at q p [] t t1 m Pl Eq Np At Re) as (m' & A & _ & B). exists m'. split; [exact A|exact B].
Qed.
(** the model itself *)
Theorem C143_root q t t' : plain t -> convert_to_quantized q t = Ok t' -> becomes q [] t t'.
Proof.
  intros Pl E. unfold convert_to_quantized in E. destruct (quantize q [] t) as [[t1|]|e] eqn:Eq; cbn [bind] in E; try discriminate. injection E as <-. apply quantize_becomes; [exact Pl| |exact Eq].
  intros C. destruct t as [id ty tr d ch]. rewrite quantize_eq in Eq. rewrite (proj2 (excluded_in q []) C) in Eq. discriminate.
Qed.
(** it succeeds if all modules that are to be replaced can be replaced; a model that is itself excluded is an error *)
Theorem C143_succeeds q t : plain t -> ~ List.In [] (q_excl q) -> t_ty t <> TLeaf ->
  (forall p m, module_at t p = Some m -> reached q [] t p -> ~ List.In p (q_excl q) -> (exists c, (q_inst q p = Some c \/ q_inst q p = None /\ q_type q (t_ty m) = Some c) /\ (0 < c_w c \/ 0 < c_a c)%Z) -> convertible m) ->
  exists t', convert_to_quantized q t = Ok t'.
Proof.
  intros Pl Ne Nl Cv. unfold convert_to_quantized. destruct (quantize_total q t [] Pl) as (r & E & [C|[C|[t1 ->]]]); try contradiction.
  - intros p m At Re Nx (c & Ec & B). cbn [app] in *. apply (Cv p m At Re Nx). exists c. split; [|exact B]. destruct (q_inst q p); auto.
  - rewrite E. cbn. eauto.
Qed.
Theorem C143_root_excluded_refuted q t : List.In [] (q_excl q) -> convert_to_quantized q t = Raise AttributeError.
Proof. intros C. unfold convert_to_quantized. destruct t as [id ty tr d ch]. rewrite quantize_eq, (proj2 (excluded_in q []) C). reflexivity. Qed.
(** a selected module that cannot be replaced is an error *)
Theorem C143_root_fails q t c : ~ List.In [] (q_excl q) -> t_ty t <> TLeaf -> selected q [] (t_ty t) = Some c -> (0 < c_w c \/ 0 < c_a c)%Z -> ~ convertible t -> exists e, convert_to_quantized q t = Raise e.
Proof.
  intros Ne Nl Es B Nc. unfold convert_to_quantized. destruct t as [id ty tr d ch]. cbn [t_ty] in *. rewrite quantize_eq, (excluded_not _ _ Ne), Es.
  replace (negb ((0 <? c_a c)%Z || (0 <? c_w c)%Z)) with false by (destruct (Z.ltb_spec 0 (c_a c)), (Z.ltb_spec 0 (c_w c)); try lia; reflexivity).
  unfold convertible in Nc. cbn [t_ty t_pay] in Nc. unfold convert. cbn [t_ty t_pay].
  destruct ty; cbn [bind]; try contradiction; eauto; try (destruct (d_w d) as [w|]; cbn [bind]; [|eauto]); exfalso; apply Nc; (split; [discriminate|]); cbn; intros H; decompose [or] H; discriminate || contradiction.
Qed.

(** ** A model with two blocks: names 1 (a block with a Linear 1 and a LayerNorm 2), 2 (a Linear), 3 (an analog Linear) *)
Definition lin (i : nat) := Node (Some i) TLinear true {| d_w := Some i; d_b := Some i; d_args := i |} [].
Definition demo : tree := Node (Some 100) (TOther 0) true no_payload
  [(1, Node (Some 101) (TOther 1) true no_payload [(1, lin 1); (2, Node (Some 2) TLayerNorm true {| d_w := Some 2; d_b := None; d_args := 2 |} [])]); (2, lin 3);
   (3, Node (Some 4) TAnalogLinear true {| d_w := Some 4; d_b := None; d_args := 4 |} [])].
Definition demo_map : qmap := {| q_excl := [[1; 2]]; q_inst := fun p => if path_eqb p [2] then Some {| c_cls := 7; c_w := 4; c_a := 4 |} else None;
  q_type := fun ty => match ty with TLinear | TAnalogLinear => Some {| c_cls := 1; c_w := 8; c_a := 8 |} | TLayerNorm => Some {| c_cls := 2; c_w := 8; c_a := 8 |} | _ => None end; q_input := fun p => if path_eqb p [1] then Some 8%Z else None |}.
Lemma demo_plain : plain demo.
Proof.
  assert (L : forall i, plain (lin i)) by (intros i; constructor; [discriminate|eauto|constructor|constructor|intros n m []]).
  assert (N2 : forall (a b : nat), a <> b -> NoDup [a; b]) by (intros; repeat constructor; cbn; tauto || intuition congruence).
  constructor; [discriminate|eauto|repeat constructor; cbn; intuition congruence|repeat constructor; cbn; intuition congruence|].
  intros n m [[= <- <-]|[[= <- <-]|[[= <- <-]|[]]]]; [|apply L|constructor; [discriminate|eauto|constructor|constructor|intros n m []]].
  constructor; [discriminate|eauto|repeat constructor; cbn; intuition congruence|repeat constructor; cbn; intuition congruence|].
  intros n m [[= <- <-]|[[= <- <-]|[]]]; [apply L|constructor; [discriminate|eauto|constructor|constructor|intros n m []]].
Qed.
Example C143_nontrivial : exists t', convert_to_quantized demo_map demo = Ok t' /\ (exists m, module_at t' [1; 1] = Some m /\ t_ty m = TQuant TLinear 1 8 8) /\ (exists m, module_at t' [1; 2] = Some m /\ t_ty m = TLayerNorm)
  /\ (exists m, module_at t' [2] = Some m /\ t_ty m = TQuant TLinear 7 4 4) /\ (exists m, module_at t' [3] = Some m /\ t_ty m = TQuant TLinear 1 8 8) /\ (exists m, module_at t' [1] = Some m /\ t_ty m = TInputQ 8)
  /\ reached demo_map [] demo [1; 1] /\ plain demo.
Proof.
  eexists. split; [reflexivity|]. split; [eexists; split; reflexivity|]. split; [eexists; split; reflexivity|]. split; [eexists; split; reflexivity|]. split; [eexists; split; reflexivity|]. split; [eexists; split; reflexivity|].
  assert (N : forall p, p <> [1; 2] -> ~ List.In p (q_excl demo_map)) by (intros p H [C|[]]; congruence).
  split; [|exact demo_plain]. cbn [reached]. split; [split; [apply N; discriminate|repeat split; discriminate]|]. eexists. split; [reflexivity|]. split; [split; [apply N; discriminate|repeat split; discriminate]|]. eexists. split; [reflexivity|exact I].
Qed.
(** a module that is used under two names of the same parent is replaced under the first name only *)
Theorem C143_shared_refuted : exists q t t' m, convert_to_quantized q t = Ok t' /\ module_at t [1] = Some (lin 1) /\ module_at t [2] = Some (lin 1)
  /\ (forall p, selected q p TLinear <> None) /\ q_excl q = [] /\ module_at t' [1] = Some m /\ t_ty m = TQuant TLinear 1 8 8 /\ module_at t' [2] = Some (lin 1).
Proof.
  exists {| q_excl := []; q_inst := fun _ => None; q_type := fun ty => match ty with TLinear => Some {| c_cls := 1; c_w := 8; c_a := 8 |} | _ => None end; q_input := fun _ => None |}, (Node (Some 100) (TOther 0) true no_payload [(1, lin 1); (2, lin 1)]).
  eexists _, _. repeat split; discriminate || reflexivity.
Qed.
(** modules made by the conversion of a model in evaluation mode are in training mode, so that their ranges are estimated in the first calls *)
Theorem C143_mode_refuted q p m m1 : plain m -> ~ List.In p (q_excl q) -> quantize q p m = Ok (Some m1) -> t_ty m1 <> t_ty m -> t_train m1 = true.
Proof.
  intros Pl Ne E D. pose proof (quantize_becomes _ _ _ _ Pl Ne E) as B. destruct m as [id ty tr d ch]. rewrite quantize_eq, (excluded_not _ _ Ne) in E. unfold becomes in B. unfold selected in E. cbn [t_ty] in *.
  destruct (match q_inst q p with Some c => Some c | None => q_type q ty end) as [c|] eqn:Es; [|destruct B as (_ & B & _); contradiction].
  assert (E' : (if negb ((0 <? c_a c)%Z || (0 <? c_w c)%Z) then Ok (Some (Node id ty tr d ch)) else r <- convert c (Node id ty tr d ch) ;; Ok (Some r)) = Ok (Some m1)) by (destruct ty; try exact E; discriminate).
  destruct (negb _); [injection E' as <-; contradiction|]. destruct (convert c (Node id ty tr d ch)) as [r|e] eqn:Ec; [|discriminate]. injection E' as <-. unfold convert in Ec. cbn [t_ty t_pay] in Ec.
  destruct ty; try (destruct (d_w d); [|discriminate]); try discriminate; injection Ec as <-; reflexivity.
Qed.
Example C143_mode_nontrivial : exists q t t', t_train t = false /\ convert_to_quantized q t = Ok t' /\ t_train t' = true.
Proof. exists demo_map, (Node (Some 1) TLinear false {| d_w := Some 1; d_b := None; d_args := 1 |} []). eexists. repeat split; reflexivity. Qed.
(** which quantizers are switched on: exactly those with bits *)
Theorem C143_enabled q t t' p m : plain t -> convert_to_quantized q t = Ok t' -> p <> [] -> module_at t p = Some m -> reached q [] t p -> ~ List.In p (q_excl q) -> t_ty m <> TLeaf -> q_input q p = None ->
  (forall ty c w a, t_ty m <> TQuant ty c w a) ->
  exists m', module_at t' p = Some m' /\ enabled m' = match selected q p (t_ty m) with Some c => ((0 <? c_w c)%Z, (0 <? c_a c)%Z) | None => (false, false) end.
Proof.
  intros Pl E Np At Re Ne Nl Ni Nq. destruct (C143_modules q t t' p m Pl E Np At Re) as (m' & A & _ & _ & B). destruct (B Ne Nl) as (m1 & W & Bc). rewrite Ni in W. cbn in W. subst m1. exists m'. split; [exact A|].
  assert (Pm : forall b, t_ty m <> TInputQ b).
  { clear - Pl At. revert t Pl At. induction p as [|n r IH]; intros t Pl At; cbn in At; [injection At as <-; inversion Pl; assumption|]. rewrite (plain_unwrap _ Pl) in At. destruct (child n (t_ch t)) as [u|] eqn:Cu; [|discriminate]. eapply IH; [eapply plain_child; eassumption|exact At]. }
  assert (Off : enabled m = (false, false)) by (unfold enabled; destruct (t_ty m) eqn:Ty; try reflexivity; [exfalso; eapply Nq; reflexivity|exfalso; eapply Pm; reflexivity]).
  unfold becomes in Bc. unfold selected. destruct (match q_inst q p with Some c => Some c | None => q_type q (t_ty m) end) as [c|].
  - destruct ((c_w c <=? 0)%Z && (c_a c <=? 0)%Z) eqn:Eb.
    + subst m'. rewrite Off. apply andb_true_iff in Eb. destruct Eb as [B1 B2]. apply Z.leb_le in B1, B2. destruct (Z.ltb_spec 0 (c_w c)), (Z.ltb_spec 0 (c_a c)); try lia. reflexivity.
    + destruct Bc as [Bc _]. unfold enabled. rewrite Bc. reflexivity.
  - destruct Bc as (_ & Bc & _). unfold enabled in *. rewrite Bc. exact Off.
Qed.

Print Assumptions C143_modules.
Print Assumptions C143_root.
Print Assumptions C143_succeeds.
Print Assumptions C143_root_excluded_refuted.
Print Assumptions C143_root_fails.
Print Assumptions C143_shared_refuted.
Print Assumptions C143_mode_refuted.
Print Assumptions C143_enabled.
