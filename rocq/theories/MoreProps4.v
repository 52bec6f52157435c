(** * Further facts about several areas, found by changing the models (4) *)
From Coq Require Import String.
From Verif Require Import Prelude HwaProofs NoiseModel NoiseSpec LifeModel OptimModel ClModel.
From Verif Require AgdModel TransModel PeriModel QpModel.
Import ListNotations.

(** C35: the drift coefficients of the PCM and HERMES models depend on the conductance in units of [g_max] only *)
Theorem C35_relative : forall a a' two z g g', na_ds a = na_ds a' -> g / na_gmax a = g' / na_gmax a' -> pcm_nu a z g = pcm_nu a' z g' /\ h_nu a two z g = h_nu a' two z g'.
Proof. intros a a' two z g g' D E. unfold pcm_nu, h_nu, rel. rewrite D, E. auto. Qed.
(** C35: so is the strength of the read noise *)
Theorem C35_relative_read : forall G G' two g g', Rabs g / G = Rabs g' / G' -> pcm_qs G g = pcm_qs G' g' /\ h_qs G two g = h_qs G' two g'.
Proof. intros G G' two g g' E. unfold pcm_qs, h_qs. rewrite E. auto. Qed.
(** C35: the state independent model: mean plus standard deviation times the draw where this is not negative, its absolute value
    otherwise *)
Theorem C35_state_independent : forall a m s z g, (0 <= m + s * z -> si_nu a m s z g = (m + s * z) * na_ds a) /\ (m + s * z <= 0 -> si_nu a m s z g = - (m + s * z) * na_ds a).
Proof. intros a m s z g. unfold si_nu, Rabs, Rmax. destruct (Rcase_abs (m + s * z)); destruct (Rle_dec _ 0); split; intros; try reflexivity; try lra; f_equal; lra. Qed.
Theorem C35_relative_nontrivial : 10 / 25 = 4 / 10 /\ 10 <> 4.
Proof. split; lra. Qed.

(** C41: a drift compensation that is given to a tile after it was programmed cannot be used before it is programmed again *)
Theorem C41_late_compensation : forall (E : lenv) (d0 dr0 d dr : e_D E) t (s : life E) k, e_comp E = Some k -> l_prog s <> None -> l_base s = None -> op_drift d0 dr0 d dr t s = Raise TypeError.
Proof.
  intros E d0 dr0 d dr t s k C P B. unfold op_drift. destruct (l_prog s) as [p|] eqn:Ep; [|contradiction]. rewrite Ep. rewrite C, B. destruct (l_par s); reflexivity.
Qed.

(** C17: a parameter is refused in a second group *)
Theorem C17_no_second_group : forall o ps p gr, In gr (o_groups o) -> In p (g_params gr) -> In p ps -> add_param_group o ps = Raise ValueError.
Proof.
  intros o ps p gr Hg Hp Hps. unfold add_param_group. replace (existsb _ ps) with true; [reflexivity|]. symmetry. apply existsb_exists. exists p. split; [exact Hps|]. apply existsb_exists. exists gr. split; [exact Hg|]. apply existsb_exists. exists p. split; [exact Hp|].
  destruct p; cbn; apply Nat.eqb_refl.
Qed.

(** C182: integers of more than 64 bits are refused, as a value and as a list *)
Theorem C182_int64 : forall f32 n t z, (z < - 2 ^ 63 \/ 2 ^ 63 <= z)%Z -> (t = TInt \/ t = TInts) -> set_field f32 n t (VInt z) = Raise ValueError /\ (t = TInts -> forall l, In z l -> set_field f32 n t (VInts l) = Raise ValueError).
Proof.
  intros f32 n t z H Ht. assert (I : int64 z = false). { unfold int64. destruct H; [replace (- 2 ^ 63 <=? z)%Z with false by lia; reflexivity | replace (z <? 2 ^ 63)%Z with false by lia; apply andb_false_r]. }
  split.
  - unfold set_field. cbv zeta. destruct Ht; subst t; rewrite I; reflexivity.
  - intros -> l Hl. unfold set_field. cbv zeta. replace (forallb int64 l) with false; [reflexivity|]. symmetry. apply not_true_iff_false. intros F. rewrite forallb_forall in F. rewrite (F _ Hl) in I. discriminate.
Qed.
(** and smaller ones are stored, a single integer for a list twice *)
Theorem C182_int64_stored : forall f32 n z, (- 2 ^ 63 <= z < 2 ^ 63)%Z -> exists a b, set_field f32 n TInt (VInt z) = Ok a /\ a_i a = z /\ set_field f32 n TInts (VInt z) = Ok b /\ a_ints b = [z; z].
Proof. intros f32 n z H. assert (I : int64 z = true) by (unfold int64; lia). unfold set_field. cbv zeta. rewrite I. do 2 eexists. repeat split. Qed.

(** C155: the parameters a dynamic transfer device accepts *)
Theorem C155_accepted : forall momentum reads randomly reset c, AgdModel.accepted momentum reads randomly reset c = true <->
  0 < TransModel.cp_in_prob (AgdModel.a_cp c) /\ 0 < momentum < 1 /\ reads = 1%Z /\ randomly = false /\ reset <= 0.
Proof.
  intros. unfold AgdModel.accepted. rewrite !andb_true_iff, !Rltb_true, Z.eqb_eq, !negb_true_iff, Rltb_false. intuition lra.
Qed.

(** C204: without quantization, the factor of an output is the product of the input range and of its mapping and learned output
    scales, each of which has one entry for all outputs or one for each *)
Definition own (v : vec) (i : nat) : R := if (length v =? 1)%nat then nth 0 v 0 else nth i v 0.
Definition factor (v : option vec) (i : nat) : R := match v with Some v => own v i | None => 1 end.
Definition shaped (n : nat) (v : option vec) : Prop := match v with Some v => length v = 1%nat \/ length v = n | None => True end.
Lemma bmul_own n a b : (length a = 1 \/ length a = n)%nat -> (length b = 1 \/ length b = n)%nat ->
  (length (PeriModel.bmul a b) = 1 \/ length (PeriModel.bmul a b) = n)%nat /\ forall i, (i < n)%nat -> own (PeriModel.bmul a b) i = own a i * own b i.
Proof.
  intros La Lb. destruct (Nat.eq_dec n 0) as [->|N0].
  - split; [|intros; lia]. destruct a as [|x [|x2 a]]; [| |cbn in La; lia].
    + right. destruct b as [|y [|y2 b]]; reflexivity.
    + cbn [PeriModel.bmul]. rewrite map_length. exact Lb.
  - destruct (Nat.eq_dec (length a) 1) as [A1|A1].
    + destruct a as [|x [|? ?]]; try discriminate A1. cbn [PeriModel.bmul]. rewrite map_length. split; [exact Lb|]. intros i Hi. unfold own. rewrite map_length. cbn [length Nat.eqb nth].
      assert (M : forall k, nth k (map (Rmult x) b) 0 = x * nth k b 0). { intros k. rewrite <- (map_nth (Rmult x)), Rmult_0_r. reflexivity. } rewrite !M. destruct (length b =? 1)%nat; reflexivity.
    + destruct La as [La|La]; [contradiction|]. destruct (Nat.eq_dec (length b) 1) as [B1|B1].
      * destruct b as [|y [|? ?]]; try discriminate B1. assert (E : PeriModel.bmul a [y] = map (fun x => x * y) a) by (destruct a as [|x [|? ?]]; cbn in *; try lia; reflexivity). rewrite E, map_length. split; [right; exact La|]. intros i Hi. unfold own. rewrite map_length. rewrite (proj2 (Nat.eqb_neq _ _) A1). cbn [length Nat.eqb nth].
        rewrite (nth_indep _ 0 ((fun x => x * y) 0)) by (rewrite map_length; lia). rewrite (map_nth (fun x => x * y)). reflexivity.
      * destruct Lb as [Lb|Lb]; [contradiction|]. assert (E : PeriModel.bmul a b = map2 Rmult a b) by (destruct a as [|x [|? ?]], b as [|y [|? ?]]; cbn in *; try lia; reflexivity).
        assert (Lm : length (map2 Rmult a b) = n). { rewrite map2_length, La, Lb. apply Nat.min_id. }
        rewrite E. split; [right; exact Lm|]. intros i Hi. unfold own. rewrite Lm, La, Lb. rewrite (proj2 (Nat.eqb_neq n 1)) by (unfold vec in *; lia). apply (nth_map2 Rmult a b 0 0 0); unfold vec in *; lia.
Qed.
Lemma own_1 r i : own [r] i = r. Proof. reflexivity. Qed.
Theorem C204_scales : forall n ir ms los a y i, shaped n ms -> shaped n los -> length y = n -> (i < n)%nat -> QpModel.merged ir ms los = Some a ->
  nth i (PeriModel.bmul a y) 0 = match ir with Some r => r | None => 1 end * factor ms i * factor los i * nth i y 0.
Proof.
  intros n ir ms los a y i Sm Sl Ly Hi E.
  assert (P : (length a = 1 \/ length a = n)%nat /\ own a i = match ir with Some r => r | None => 1 end * factor ms i * factor los i).
  { unfold QpModel.merged in E. destruct ir as [r|], ms as [m|], los as [l|]; cbn [shaped factor] in *; injection E as <- || discriminate E;
    repeat match goal with |- context [PeriModel.bmul ?u ?v] => match u with PeriModel.bmul _ _ => fail 1 | _ => idtac end end.
    - destruct (bmul_own n [r] m) as (L1 & F1); [now left|exact Sm|]. destruct (bmul_own n (PeriModel.bmul [r] m) l L1 Sl) as (L2 & F2). split; [exact L2|]. rewrite F2, F1, own_1 by exact Hi. ring.
    - destruct (bmul_own n [r] m) as (L1 & F1); [now left|exact Sm|]. split; [exact L1|]. rewrite F1, own_1 by exact Hi. ring.
    - destruct (bmul_own n [r] l) as (L1 & F1); [now left|exact Sl|]. split; [exact L1|]. rewrite F1, own_1 by exact Hi. ring.
    - split; [now left|]. rewrite own_1. ring.
    - destruct (bmul_own n m l Sm Sl) as (L1 & F1). split; [exact L1|]. rewrite F1 by exact Hi. ring.
    - split; [exact Sm|]. ring.
    - split; [exact Sl|]. ring. }
  destruct P as (La & <-). assert (Lb : (length y = 1 \/ length y = n)%nat) by now right. destruct (bmul_own n a y La Lb) as (_ & F). specialize (F i Hi).
  assert (G : forall v, (length v = 1 \/ length v = n)%nat -> (n = 1%nat \/ length v <> 1%nat) -> own v i = nth i v 0). { intros v _ [N|N]; unfold own; [|rewrite (proj2 (Nat.eqb_neq _ _) N); reflexivity]. replace i with 0%nat by lia. destruct (length v =? 1)%nat; reflexivity. }
  rewrite <- (G y) by (auto; lia). rewrite <- F. symmetry. apply G; [exact (proj1 (bmul_own n a y La Lb))|].
  destruct (Nat.eq_dec n 1) as [->|N1]; [now left|right]. destruct a as [|x [|x2 a]], y as [|z [|z2 y]]; cbn in *; try lia; rewrite ?map_length, ?map2_length; try lia; cbn; lia.
Qed.
Theorem C204_scales_nontrivial : exists a, QpModel.merged (Some 2) (Some [3; 5]) (Some [7]) = Some a /\ nth 1 (PeriModel.bmul a [1; 11]) 0 = 2 * 5 * 7 * 11.
Proof. eexists. split; [reflexivity|]. cbn. ring. Qed.

Print Assumptions C35_relative.
Print Assumptions C35_relative_read.
Print Assumptions C35_state_independent.
Print Assumptions C35_relative_nontrivial.
Print Assumptions C41_late_compensation.
Print Assumptions C17_no_second_group.
Print Assumptions C182_int64.
Print Assumptions C182_int64_stored.
Print Assumptions C155_accepted.
Print Assumptions C204_scales.
Print Assumptions C204_scales_nontrivial.
