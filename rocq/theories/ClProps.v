(** * Converters of the cloud (C180-C182) *)
From Verif Require Import Prelude ClModel ClSpec.
Local Open Scope string_scope.

Lemma int64_ok z : fits1 z -> int64 z = true.
Proof. intros [A B]. unfold int64. apply andb_true_iff. split; [now apply Z.leb_le | now apply Z.ltb_lt]. Qed.
Lemma mem_In s l : mem s l = true <-> In s l.
Proof. unfold mem. rewrite existsb_exists. split; [intros (x & Hx & E); apply String.eqb_eq in E; now subst | intros H; exists s; split; [exact H | apply String.eqb_refl]]. Qed.
Opaque int64 mem.
(** one layer *)
Lemma layer_roundtrip f32 l m : fits l -> made l m -> exists i m', item_to_proto f32 m = Ok i /\ item_from_proto i = Ok m' /\ made (rounded f32 l) m' /\ supported m = true.
Proof.
  intros F M. unfold made in *.
  destruct l; cbn [fits] in F; unfold fits2 in F; cbn in M; injection M as <-.
  all: repeat match goal with H : _ /\ _ |- _ => destruct H end.
  all: repeat match goal with p : (Z * Z)%type |- _ => destruct p end; cbn [fst snd] in *.
  all: repeat match goal with H : fits1 _ |- _ => apply int64_ok in H end.
  all: try match goal with H : In _ presets |- _ => apply mem_In in H end.
  all: try match goal with b : bool |- _ => destruct b end.
  all: try match goal with b : option Z |- _ => destruct b; try match goal with H : fits1 _ |- _ => apply int64_ok in H end end.
  all: unfold item_to_proto, fun_to_proto; cbn.
  all: repeat match goal with H : int64 ?z = true |- context [int64 ?z] => rewrite H; cbn | H : mem ?z ?l = true |- context [mem ?z ?l] => rewrite H; cbn end.
  all: eexists; eexists; split; [reflexivity|]; split; [|split; [reflexivity | reflexivity]].
  all: unfold item_from_proto; cbn; unfold fun_from_proto, argument; cbn; repeat match goal with H : mem ?z ?l = true |- context [mem ?z ?l] => rewrite H; cbn end.
  all: try reflexivity.
Qed.
Lemma children_distinct : forall l seen, NoDup (map fst l) -> (forall i, In i (map fst l) -> ~ In i seen) -> children seen l = map snd l.
Proof.
  induction l as [|[i m] l IH]; intros seen N H; [reflexivity|]. cbn [children map snd]. inversion N as [|? ? N1 N2]; subst. assert (E : existsb (Nat.eqb i) seen = false). { apply not_true_iff_false. intros T. apply existsb_exists in T. destruct T as (j & Hj & E). apply Nat.eqb_eq in E. subst. apply (H j); [now left | exact Hj]. } rewrite E. f_equal. apply IH; [exact N2|]. intros j Hj [->|Hs]; [contradiction | apply (H j); [now right | exact Hs]].
Qed.
Lemma map_snd_combine {A B} : forall (l : list A) (k : list B), length l = length k -> map snd (combine l k) = k.
Proof. induction l as [|a l IH]; intros [|b k] L; try discriminate L; [reflexivity|]. cbn. f_equal. apply IH. now injection L. Qed.
Lemma dataset_ok d n : lookup d datasets = Some n -> find_snd n datasets = Some d.
Proof.
  unfold datasets. cbn [lookup]. destruct (String.eqb "FashionMNIST" d) eqn:E; [intros H; injection H as <-; apply String.eqb_eq in E; now subst|]. destruct (String.eqb "SVHN" d) eqn:E2; [intros H; injection H as <-; apply String.eqb_eq in E2; now subst | discriminate].
Qed.

(** C180: an experiment whose model is a sequence of distinct layers that the format can express survives the conversion
    to the format and back: layers in the same order with the same parameters, data set, batch size, loss and epochs; the
    learning rate and slopes are rounded to single precision. *)
Theorem C180_roundtrip f32 e ls ids ms : n_sequential (e_model e) = true -> n_children (e_model e) = combine ids ms -> length ids = length ms -> NoDup ids ->
  Forall2 made ls ms -> Forall fits ls -> has (e_dataset e) datasets = true -> In (e_loss e) losses -> fits1 (e_batch e) -> fits1 (e_epochs e) ->
  exists t e' ms', to_proto f32 e = Ok t /\ from_proto t = Ok e' /\
    n_sequential (e_model e') = true /\ map snd (n_children (e_model e')) = ms' /\ Forall2 made (map (rounded f32) ls) ms' /\
    e_dataset e' = e_dataset e /\ e_loss e' = e_loss e /\ e_batch e' = e_batch e /\ e_epochs e' = e_epochs e /\ e_lr e' = f32 (e_lr e).
Proof.
  intros Sq Ch Li Nd Mk Ft Hd Hl Fb Fe.
  assert (Cs : children [] (n_children (e_model e)) = ms). { rewrite Ch. rewrite children_distinct; [now apply map_snd_combine | | intros i _ []]. assert (F : map fst (combine ids ms) = ids). { clear -Li. revert ms Li. induction ids as [|i ids IH]; intros [|m ms] L; try discriminate L; [reflexivity|]. cbn. f_equal. apply IH. now injection L. } now rewrite F. }
  assert (Its : exists its ms', mapM (item_to_proto f32) ms = Ok its /\ mapM item_from_proto its = Ok ms' /\ Forall2 made (map (rounded f32) ls) ms' /\ forallb supported ms = true). { clear -Mk Ft. induction Mk as [|l m ls ms Hm Mk IH]; [exists [], []; repeat split; constructor|]. inversion Ft; subst. destruct IH as (its & ms' & I1 & I2 & I3 & I4); [assumption|]. destruct (layer_roundtrip f32 l m) as (i & m' & J1 & J2 & J3 & J4); [assumption | assumption|]. exists (i :: its), (m' :: ms'). cbn [mapM map bind forallb]. rewrite J1. cbn [bind]. rewrite I1. cbn [bind]. rewrite J2. cbn [bind]. rewrite I2, J4, I4. repeat split; [constructor; assumption]. }
  destruct Its as (its & ms' & I1 & I2 & I3 & I4).
  unfold has in Hd. destruct (lookup (e_dataset e) datasets) as [dn|] eqn:Ed; [|discriminate]. pose proof (proj2 (mem_In _ _) Hl) as Ml.
  eexists. eexists. exists ms'. split; [unfold to_proto, model_to_proto; rewrite Ed; cbn [bind]; rewrite (int64_ok _ Fb), Sq, Cs, I4; cbn [negb bind]; rewrite I1; cbn [bind]; rewrite Ml; cbn [bind]; rewrite (int64_ok _ Fe); cbn [bind]; reflexivity|].
  split; [unfold from_proto, model_from_proto; cbn [t_dataset t_net t_loss]; rewrite (dataset_ok _ _ Ed); cbn [bind]; rewrite I2; cbn [bind]; rewrite Ml; cbn [bind]; reflexivity|].
  cbn [e_model n_sequential n_children e_dataset e_loss e_batch e_epochs e_lr t_batch t_epochs t_lr]. split; [reflexivity|]. split; [apply map_snd_combine; now rewrite seq_length|]. repeat split; [exact I3].
Qed.
Theorem C180_nontrivial : exists ms, Forall2 made [LFlatten; LAnalogLinear 784 256 "PCMPreset"; LSigmoid; LLinear 256 10 false; LLogSoftmax 1] ms /\ Forall fits [LFlatten; LAnalogLinear 784 256 "PCMPreset"; LSigmoid; LLinear 256 10 false; LLogSoftmax 1].
Proof.
  eexists. split; [repeat (constructor; [reflexivity|]); constructor|]. repeat match goal with |- Forall _ _ => constructor end; cbn [fits]; unfold fits1; repeat split; try lia. cbn. tauto.
Qed.

(** ** C181: what is lost *)
(** [lost c kw kw']: the layer that is made by [c(kw)] comes back as the one that is made by [c(kw')], which differs *)
Definition lost (c : cls) (kw kw' : dict) : Prop :=
  exists m m', construct c kw = Ok m /\ construct c kw' = Ok m' /\ m <> m' /\ forall f32, exists i, item_to_proto f32 m = Ok i /\ item_from_proto i = Ok m'.
Definition differs (k : string) (m m' : md) : Prop := lookup k (md_attr m) <> lookup k (md_attr m').
Lemma differs_neq k m m' : differs k m m' -> m <> m'.
Proof. intros D ->. now apply D. Qed.
(** an analog layer without bias comes back with bias *)
Theorem C181_bias_refuted i o s : fits1 i -> fits1 o -> In s presets ->
  lost CAnalogLinear [("in_features", VInt i); ("out_features", VInt o); ("bias", VBool false); ("rpu_config", fresh_preset s)] [("in_features", VInt i); ("out_features", VInt o); ("bias", VBool true); ("rpu_config", fresh_preset s)].
Proof.
  intros Fi Fo Hs. apply int64_ok in Fi, Fo. apply mem_In in Hs. eexists. eexists. split; [reflexivity|]. split; [reflexivity|]. split; [apply (differs_neq "bias"); intros H; discriminate H|].
  intros f32. eexists. split; [unfold item_to_proto, fun_to_proto; cbn; rewrite Fi, Fo; cbn; rewrite Hs; cbn; reflexivity|]. unfold item_from_proto; cbn; unfold fun_from_proto, argument; cbn. rewrite Hs. reflexivity.
Qed.
(** a weight scaling and any other change of a preset comes back as the plain preset *)
Theorem C181_config_refuted i o s w other : fits1 i -> fits1 o -> In s presets -> w <> 0 \/ other <> 0%nat ->
  lost CAnalogLinear [("in_features", VInt i); ("out_features", VInt o); ("rpu_config", VRpu {| rc_class := s; rc_omega := w; rc_other := other |})] [("in_features", VInt i); ("out_features", VInt o); ("rpu_config", fresh_preset s)].
Proof.
  intros Fi Fo Hs Hw. apply int64_ok in Fi, Fo. apply mem_In in Hs. eexists. eexists. split; [reflexivity|]. split; [reflexivity|]. split; [apply (differs_neq "rpu_config"); intros H; cbn in H; injection H as -> ->; destruct Hw; congruence|].
  intros f32. eexists. split; [unfold item_to_proto, fun_to_proto; cbn; rewrite Fi, Fo; cbn; rewrite Hs; cbn; reflexivity|]. unfold item_from_proto; cbn; unfold fun_from_proto, argument; cbn. rewrite Hs. reflexivity.
Qed.
(** grouped convolutions come back without groups *)
Theorem C181_groups_refuted i o k g : fits1 i -> fits1 o -> fits1 k -> g <> 1%Z ->
  lost CConv2d [("in_channels", VInt i); ("out_channels", VInt o); ("kernel_size", VInt k); ("groups", VInt g)] [("in_channels", VInt i); ("out_channels", VInt o); ("kernel_size", VInt k)].
Proof.
  intros Fi Fo Fk Hg. apply int64_ok in Fi, Fo, Fk. eexists. eexists. split; [reflexivity|]. split; [reflexivity|]. split; [apply (differs_neq "groups"); intros H; cbn in H; injection H as ->; congruence|].
  intros f32. assert (I0 : int64 0 = true) by (apply int64_ok; unfold fits1; lia). assert (I1 : int64 1 = true) by (apply int64_ok; unfold fits1; lia). eexists. split; [unfold item_to_proto, fun_to_proto; cbn; rewrite ?Fi, ?Fo; cbn; rewrite ?Fk; cbn; rewrite ?I1; cbn; rewrite ?I0; cbn; rewrite ?I1; cbn; reflexivity|]. unfold item_from_proto; cbn; unfold fun_from_proto, argument; cbn. reflexivity.
Qed.
(** an object that is used twice comes back once *)
Theorem C181_shared_refuted f32 : exists e t e', length (n_children (e_model e)) = 2%nat /\ to_proto f32 e = Ok t /\ from_proto t = Ok e' /\ length (n_children (e_model e')) = 1%nat.
Proof.
  exists {| e_dataset := "SVHN"; e_model := {| n_sequential := true; n_children := [(0%nat, {| md_cls := CTanh; md_attr := [] |}); (0%nat, {| md_cls := CTanh; md_attr := [] |})] |}; e_batch := 8; e_loss := "NLLLoss"; e_epochs := 1; e_lr := 1 |}.
  eexists. eexists. split; [reflexivity|]. split; [|split].
  - unfold to_proto. cbn. rewrite !int64_ok by (unfold fits1; lia). cbn. rewrite (proj2 (mem_In "NLLLoss" losses)) by (cbn; tauto). cbn. reflexivity.
  - unfold from_proto. cbn. rewrite (proj2 (mem_In "NLLLoss" losses)) by (cbn; tauto). cbn. reflexivity.
  - reflexivity.
Qed.

(** ** C182: what is refused, in this order *)
Lemma children_all (P : md -> bool) : forall l seen, (forall p, In p l -> In (fst p) seen -> P (snd p) = true) -> (forall p q, In p l -> In q l -> fst p = fst q -> snd p = snd q) -> (forallb P (children seen l) = true <-> Forall (fun p => P (snd p) = true) l).
Proof.
  induction l as [|[i m] l IH]; intros seen Hs Hc; [split; [constructor | reflexivity]|]. cbn [children]. destruct (existsb (Nat.eqb i) seen) eqn:E.
  - apply existsb_exists in E. destruct E as (j & Hj & Ej). apply Nat.eqb_eq in Ej. subst j. rewrite (IH seen); [|intros p Hp; apply Hs; now right | intros p q Hp Hq; apply Hc; now right]. split; intros H; [constructor; [apply (Hs (i, m)); [now left | exact Hj] | exact H] | now inversion H].
  - cbn [forallb]. rewrite andb_true_iff. split.
    + intros [H1 H2]. constructor; [exact H1|]. apply (IH (i :: seen)); [|intros p q Hp Hq; apply Hc; now right | exact H2]. intros p Hp [Ei|Hi]; [rewrite <- (Hc (i, m) p); [exact H1 | now left | now right | exact Ei] | apply Hs; [now right | exact Hi]].
    + intros H. inversion H as [|? ? H1 H2]; subst. split; [exact H1|]. apply (IH (i :: seen)); [|intros p q Hp Hq; apply Hc; now right | exact H2]. intros p Hp _. rewrite Forall_forall in H2. now apply H2.
Qed.
Definition known (c : cls) : Prop := match c with COther _ => False | _ => True end.
Lemma supported_known m : supported m = true <-> known (md_cls m).
Proof. unfold supported, known. destruct (md_cls m); cbn; split; auto; discriminate. Qed.
(** data sets, models that are not sequential, layers and losses that the format does not know raise ConversionError;
    whatever is converted is known *)
Theorem C182_refused f32 e : fits1 (e_batch e) -> (forall p q, In p (n_children (e_model e)) -> In q (n_children (e_model e)) -> fst p = fst q -> snd p = snd q) ->
  (~ In (e_dataset e) (map fst datasets) \/ n_sequential (e_model e) = false \/ ~ Forall (fun p => known (md_cls (snd p))) (n_children (e_model e)) -> to_proto f32 e = Raise ConversionError) /\
  (forall t, to_proto f32 e = Ok t -> In (e_dataset e) (map fst datasets) /\ n_sequential (e_model e) = true /\ Forall (fun p => known (md_cls (snd p))) (n_children (e_model e)) /\ In (e_loss e) losses /\ fits1 (e_epochs e)).
Proof.
  intros Fb Hc. assert (Ds : In (e_dataset e) (map fst datasets) <-> exists d, lookup (e_dataset e) datasets = Some d). { unfold datasets. cbn [map fst In lookup]. destruct (String.eqb "FashionMNIST" (e_dataset e)) eqn:E1; [apply String.eqb_eq in E1; split; [intros _; eauto | intros _; now left]|]. apply String.eqb_neq in E1. destruct (String.eqb "SVHN" (e_dataset e)) eqn:E2; [apply String.eqb_eq in E2; split; [eauto | intros _; right; now left]|]. apply String.eqb_neq in E2. split; [intros [H|[H|[]]]; congruence | intros (d & H); discriminate]. }
  assert (Ch : forallb supported (children [] (n_children (e_model e))) = true <-> Forall (fun p => known (md_cls (snd p))) (n_children (e_model e))). { rewrite (children_all supported (n_children (e_model e)) []); [|intros p _ [] | exact Hc]. split; intros H; (eapply Forall_impl; [|exact H]); intros p; cbv beta; apply supported_known. }
  split.
  - intros H. unfold to_proto. destruct (lookup (e_dataset e) datasets) as [d|] eqn:Ed; [|reflexivity]. cbn [bind]. rewrite (int64_ok _ Fb). cbn [bind]. unfold model_to_proto. destruct (n_sequential (e_model e)) eqn:Es; [|reflexivity]. cbn [negb]. destruct (forallb supported (children [] (n_children (e_model e)))) eqn:Ef; [|reflexivity]. exfalso. destruct H as [H|[H|H]]; [apply H, Ds; eauto | discriminate | apply H, Ch; reflexivity].
  - intros t H. unfold to_proto in H. destruct (lookup (e_dataset e) datasets) as [d|] eqn:Ed; [|discriminate]. cbn [bind] in H. rewrite (int64_ok _ Fb) in H. cbn [bind] in H. unfold model_to_proto in H. destruct (n_sequential (e_model e)) eqn:Es; [|discriminate]. cbn [negb] in H. destruct (forallb supported (children [] (n_children (e_model e)))) eqn:Ef; [|discriminate]. cbn [negb] in H. destruct (mapM (item_to_proto f32) (children [] (n_children (e_model e)))) as [its|]; [|discriminate]. cbn [bind] in H. destruct (mem (e_loss e) losses) eqn:El; [|discriminate]. cbn [bind] in H. destruct (int64 (e_epochs e)) eqn:Ee; [|discriminate]. split; [apply Ds; eauto|]. split; [reflexivity|]. split; [apply Ch; reflexivity|]. split; [now apply mem_In|]. revert Ee. Transparent int64. unfold int64, fits1. rewrite andb_true_iff, Z.leb_le, Z.ltb_lt. tauto.
Qed.
Opaque int64.
(** layers that cannot be expressed: an analog layer whose configuration is no preset (ConversionError), a softmax
    without dimension and pooling with pairs (TypeError) *)
Theorem C182_layers f32 i o c k l : fits1 i -> fits1 o -> ~ In (rc_class c) presets ->
  (forall m, construct CAnalogLinear [("in_features", VInt i); ("out_features", VInt o); ("rpu_config", VRpu c)] = Ok m -> item_to_proto f32 m = Raise ConversionError) /\
  (forall m, construct CSoftmax [] = Ok m -> item_to_proto f32 m = Raise TypeError) /\
  (forall m, construct CMaxPool2d [("kernel_size", VInts [k; l])] = Ok m -> item_to_proto f32 m = Raise TypeError).
Proof.
  intros Fi Fo Hc. apply int64_ok in Fi, Fo. assert (Nm : mem (rc_class c) presets = false) by (apply not_true_iff_false; intros T; apply Hc, mem_In, T). split; [|split]; intros m H; cbn in H; injection H as <-; unfold item_to_proto, fun_to_proto; cbn; rewrite ?Fi, ?Fo; cbn; rewrite ?Nm; reflexivity.
Qed.
Theorem C182_nontrivial : known (md_cls {| md_cls := CReLU; md_attr := [] |}) /\ ~ known (COther "Dropout") /\ ~ In "InferenceRPUConfig" presets.
Proof. split; [exact I|]. split; [intros []|]. cbn. intuition discriminate. Qed.
Print Assumptions C180_roundtrip.
Print Assumptions C181_bias_refuted.
Print Assumptions C181_config_refuted.
Print Assumptions C181_groups_refuted.
Print Assumptions C181_shared_refuted.
Print Assumptions C182_refused.
Print Assumptions C182_layers.

Print Assumptions C180_nontrivial.
Print Assumptions C182_nontrivial.
