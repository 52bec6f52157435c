(** * C164, C165: what fails, and the converter at the output *)
From Verif Require Import Prelude MvmModel ConvModel TransProofs IrModel IrSpec IrProofs IrProofs2 IrProofs3 IrProps IrProps2 IrProps3 IrProps4 IrProps5.
Local Open Scope R_scope.

(** ** C164 *)
(** An odd number of outputs fails as soon as there is IR drop (for all inputs), an even one never does (C161). *)
Lemma evens_odds_length {A} (l : list A) : Nat.even (length l) = false -> length (evens l) = S (length (odds l)).
Proof.
  induction l as [|x|x y l IH] using pair_ind; intros E; [discriminate | reflexivity|]. cbn [evens odds]. change (match l with [] => [] | _ :: l'' => evens l'' end) with (odds l). cbn [length]. rewrite IH by exact E. reflexivity.
Qed.
Lemma mapM_len {A B} (f : A -> res B) : forall l r, mapM f l = Ok r -> length r = length l.
Proof. induction l as [|a l IH]; intros r H; cbn [mapM] in H; [injection H as <-; reflexivity|]. destruct (f a); cbn [bind] in H; [|discriminate]. destruct (mapM f l); cbn [bind] in H; [|discriminate]. injection H as <-. cbn [length]. now rewrite (IH v0 eq_refl) || now erewrite IH. Qed.
Lemma column_ok p U tmax (x a b : list R) : (2 <= U)%nat -> 0 < tmax -> col_ok p (length x) -> length a = length x -> length b = length x -> exists v, column p U tmax (mkcells x a b) = Ok v.
Proof.
  intros LU T C La Lb. unfold column.
  assert (E : exists i, mapM (fun t => bind (thev p U tmax (o_drop p * o_rs p) (mkcells x a b) t) (fun vr => Ok ((fst vr - o_vread p) / snd vr))) (seq 0 U) = Ok i /\ i <> []).
  { eexists. split; [apply mapM_all_ok; intros t _; rewrite thev_groups; [cbn [bind]; reflexivity | rewrite mkcells_length by assumption; exact C | exact LU | exact T]|]. rewrite seq_hd by lia. discriminate. }
  destruct E as (i & Ei & Ni). rewrite Ei. cbn [bind]. unfold integrate. destruct (o_isum p); [eexists; reflexivity|]. destruct i; [contradiction|]. eexists. reflexivity.
Qed.
Theorem C164_odd_outputs p c U tmax W x d n r :
  (2 <= U)%nat -> 0 < tmax -> o_drop p <> 0 -> get_res p = Ok r -> fits p n -> Nat.even d = false -> is_mat d n W -> length x = n ->
  matmul_ir p (sp_pairs c) (o_drop p) U tmax W x = Raise RuntimeError.
Proof.
  intros LU T Nd Er Fi Od M Lx. pose proof Fi as (F1 & F2 & F3 & F4). destruct (pad_mat (o_phys p) n d W F1 M) as (k1 & k2 & K & P & C & MP & EP & MX). specialize (C p eq_refl Fi). set (N := (k1 + (n + k2))%nat) in *. set (WP := map (pad_sym (o_phys p) n) W) in *.
  unfold matmul_ir. rewrite Er. cbn [bind]. replace (Reqb (o_drop p) 0) with false by (symmetry; apply Reqb_false; exact Nd). replace (o_segs p =? 0)%nat with false by (symmetry; apply Nat.eqb_neq; lia). rewrite F3, Nat.eqb_refl. cbn [negb]. unfold vec in *. rewrite Lx. fold WP. unfold sp_pairs. cbn [mvm_pairs].
  set (gp := map (map (fun v => clampR 0 (sp_gmax c) (v * ((sp_gmax c - sp_gmin c) / Rmax (maxabs (concat WP)) zero_clip)) + sp_gmin c)) WP). set (gm := map (map (fun v => clampR 0 (sp_gmax c) (- (v * ((sp_gmax c - sp_gmin c) / Rmax (maxabs (concat WP)) zero_clip))) + sp_gmin c)) WP).
  assert (Mp : is_mat d N gp) by (apply is_mat_map2; exact MP). assert (Mm : is_mat d N gm) by (apply is_mat_map2; exact MP).
  assert (LX : length (pad_sym (o_phys p) n x) = N) by (rewrite (P _ Lx), !app_length, !repeat_length; unfold vec in *; unfold N; lia). set (X := pad_sym (o_phys p) n x) in *.
  assert (Sub : forall a b, (In a (evens gp) \/ In a (odds gp)) -> (In b (evens gm) \/ In b (odds gm)) -> length a = N /\ length b = N). { intros a b Ia Ib. destruct Mp as [_ Gp]. destruct Mm as [_ Gm]. rewrite Forall_forall in Gp, Gm. split; [apply Gp, In_evens, Ia | apply Gm, In_evens, Ib]. }
  assert (Me : forall l, (forall q, In q l -> length (fst q) = N /\ length (snd q) = N) -> exists v, mapM (fun '(a, b) => column p U tmax (mkcells X a b)) l = Ok v /\ length v = length l).
  { induction l as [|[a b] l IH]; intros H; [exists []; split; reflexivity|]. destruct (H (a, b) ltac:(now left)) as [La Lb]. cbn [fst snd] in La, Lb. cbn [mapM]. destruct (column_ok p U tmax X a b LU T) as (v & Ev); [unfold vec in *; rewrite LX; exact C | unfold vec in *; lia | unfold vec in *; lia|]. rewrite Ev. cbn [bind]. destruct IH as (vs & Evs & Lv); [intros; apply H; now right|]. rewrite Evs. cbn [bind]. eexists. split; [reflexivity|]. cbn [length]. now rewrite Lv. }
  assert (Mo : forall l, (forall q, In q l -> length (fst q) = N /\ length (snd q) = N) -> exists v, mapM (fun '(a, b) => column p U tmax (mkcells (rev X) (rev a) (rev b))) l = Ok v /\ length v = length l).
  { induction l as [|[a b] l IH]; intros H; [exists []; split; reflexivity|]. destruct (H (a, b) ltac:(now left)) as [La Lb]. cbn [fst snd] in La, Lb. cbn [mapM]. destruct (column_ok p U tmax (rev X) (rev a) (rev b) LU T) as (v & Ev); [rewrite rev_length; unfold vec in *; rewrite LX; exact C | rewrite !rev_length; unfold vec in *; lia | rewrite !rev_length; unfold vec in *; lia|]. rewrite Ev. cbn [bind]. destruct IH as (vs & Evs & Lv); [intros; apply H; now right|]. rewrite Evs. cbn [bind]. eexists. split; [reflexivity|]. cbn [length]. now rewrite Lv. }
  unfold mvm_pair. destruct (Me (combine (evens gp) (evens gm))) as (v1 & E1 & L1). { intros [a b] I. cbn [fst snd]. apply Sub; left; [eapply in_combine_l | eapply in_combine_r]; exact I. } rewrite E1. cbn [bind].
  destruct (Mo (combine (odds gp) (odds gm))) as (v2 & E2 & L2). { intros [a b] I. cbn [fst snd]. apply Sub; right; [eapply in_combine_l | eapply in_combine_r]; exact I. } rewrite E2. cbn [bind].
  unfold interleave. destruct Mp as [Lp _]. destruct Mm as [Lm _]. pose proof (evens_odds_length gp ltac:(unfold mat, vec in *; rewrite Lp; exact Od)) as Q1. pose proof (evens_odds_length gm ltac:(unfold mat, vec in *; rewrite Lm; exact Od)) as Q2. rewrite combine_length in L1, L2. replace (length v1 =? length v2)%nat with false; [reflexivity|]. symmetry. apply Nat.eqb_neq. unfold mat, vec in *. lia.
Qed.

(** The number of segments has to divide the number of rows, with IR drop: for all inputs, with or without extension. *)
Theorem C164_segments p conv U tmax W x r : get_res p = Ok r -> o_drop p <> 0 -> (0 < o_segs p)%nat -> (o_phys p mod o_segs p <> 0)%nat -> matmul_ir p conv (o_drop p) U tmax W x = Raise AssertionError.
Proof.
  intros Er Nd Ps Hm. unfold matmul_ir. rewrite Er. cbn [bind]. replace (Reqb (o_drop p) 0) with false by (symmetry; apply Reqb_false; exact Nd). replace (o_segs p =? 0)%nat with false by (symmetry; apply Nat.eqb_neq; lia). replace (o_phys p / o_segs p * o_segs p =? o_phys p)%nat with false; [reflexivity|]. symmetry. apply Nat.eqb_neq. pose proof (Nat.div_mod (o_phys p) (o_segs p) ltac:(lia)). nia.
Qed.
(** An input resolution of zero or less (no quantization of the inputs) is an error in all modes, even in training
    and with IR drop switched off. *)
Theorem C164_no_resolution p conv te fin W x : o_res p <= 0 -> compute_mv p conv te fin W x = Raise AssertionError.
Proof.
  intros H. assert (E : get_res p = Raise AssertionError). { unfold get_res, norm_res. rewrite (proj2 (Rltb_false 1 (o_res p))) by lra. rewrite (proj2 (Rltb_false 0 (o_res p))) by lra. reflexivity. } unfold compute_mv, prepare_inputs. rewrite E. reflexivity.
Qed.
(** Read noise that depends on the inputs fails on a batch of zeros, and only then. *)
Theorem C164_read_noise nz W X : (exists W', xdep true nz W X = Ok W') <-> exists x v, In x X /\ In v x /\ v <> 0.
Proof.
  unfold xdep. destruct (forallb (forallb (fun v => Reqb v 0)) X) eqn:E.
  - split; [intros [? C]; discriminate|]. intros (x & v & Ix & Iv & Nv). rewrite forallb_forall in E. specialize (E x Ix). rewrite forallb_forall in E. specialize (E v Iv). apply Reqb_true in E. contradiction.
  - split; [|intros _; eexists; reflexivity]. intros _. clear nz W. induction X as [|x X IH]; [discriminate|]. cbn [forallb] in E. destruct (forallb (fun v => Reqb v 0) x) eqn:Ex.
    + destruct (IH E) as (x' & v & Ix & H). exists x', v. split; [now right | exact H].
    + exists x. clear - Ex. induction x as [|v x IH]; [discriminate|]. cbn [forallb] in Ex. destruct (Reqb v 0) eqn:Ev; [destruct (IH Ex) as (w & Hx & Iw & Nw); exists w; split; [now left | split; [now right | exact Nw]] | exists v; split; [now left|]; split; [now left | now apply Reqb_false]].
Qed.
Theorem C164_failures_nontrivial : exists p, o_drop p <> 0 /\ get_res p = Ok (1 / 2) /\ fits p 1 /\ Nat.even 1 = false /\ is_mat 1 1 [[1]] /\ (forall nz, xdep true nz [[1]] [[0; 0]; [0]] = Raise UnboundLocalError).
Proof.
  exists (ex_p 0 1 (4 / 10) true). split; [cbn; lra|]. split; [apply ex_res|]. split; [apply ex_fits|]. split; [reflexivity|]. split; [split; [reflexivity | repeat constructor]|]. intros nz. unfold xdep. cbn [forallb]. rewrite (proj2 (Reqb_true 0 0) eq_refl). reflexivity.
Qed.

(** ** C165 *)
(** The output converter of frequency [f]: the value is a whole number of ticks of size [100 / f], not farther from zero
    and less than one tick away; it is odd, monotone, and idempotent. *)
Theorem C165_adc f v : 0 < f ->
  (exists k, adc f v = IZR k * (100 / f)) /\ Rabs (adc f v) <= Rabs v /\ 0 <= adc f v * v /\ Rabs (v - adc f v) < 100 / f.
Proof.
  intros Pf. pose proof (truncZ_spec (v / 100 * f)) as [T1 T2]. set (q := v / 100 * f) in *. assert (Ev : v = q * (100 / f)) by (unfold q; field; lra). assert (Pt : 0 < 100 / f) by (apply Rdiv_lt_0_compat; lra). unfold adc. fold q. set (k := truncZ q) in *. replace (IZR k * 100 / f) with (IZR k * (100 / f)) by (field; lra). split; [now exists k|]. split; [|split].
  - rewrite Ev, !Rabs_mult. apply Rmult_le_compat_r; [apply Rabs_pos | exact T1].
  - pose proof (TransProofs.truncZ_sign q) as S. rewrite Ev. replace (IZR k * (100 / f) * (q * (100 / f))) with (IZR k * q * ((100 / f) * (100 / f))) by ring. apply Rmult_le_pos; [exact S | nra].
  - rewrite Ev. replace (q * (100 / f) - IZR k * (100 / f)) with ((q - IZR k) * (100 / f)) by ring. rewrite Rabs_mult, (Rabs_right (100 / f)) by lra. rewrite <- (Rmult_1_l (100 / f)) at 2. apply Rmult_lt_compat_r; assumption.
Qed.
Lemma trunc_opp q : truncZ (- q) = (- truncZ q)%Z.
Proof.
  unfold truncZ. destruct (Rle_dec 0 q) as [H|H], (Rle_dec 0 (- q)) as [H'|H'].
  - assert (q = 0) by lra. subst. rewrite Ropp_0. replace 0 with (IZR 0) by reflexivity. rewrite floorZ_IZR. reflexivity.
  - now rewrite Ropp_involutive.
  - lia.
  - lra.
Qed.
Lemma floor_nonneg q : 0 <= q -> (0 <= floorZ q)%Z.
Proof. intros H. rewrite <- (floorZ_IZR 0). now apply floorZ_mono. Qed.
Lemma trunc_mono a b : a <= b -> (truncZ a <= truncZ b)%Z.
Proof.
  intros L. unfold truncZ. destruct (Rle_dec 0 a) as [H|H], (Rle_dec 0 b) as [H'|H']; try lra.
  - apply floorZ_mono. exact L.
  - assert (0 <= floorZ (- a))%Z by (apply floor_nonneg; lra). assert (0 <= floorZ b)%Z by (apply floor_nonneg; exact H'). lia.
  - apply Z.opp_le_mono. rewrite !Z.opp_involutive. apply floorZ_mono. lra.
Qed.
Lemma trunc_int k : truncZ (IZR k) = k.
Proof. unfold truncZ. destruct (Rle_dec 0 (IZR k)); [apply floorZ_IZR|]. rewrite <- opp_IZR, floorZ_IZR. lia. Qed.
Theorem C165_adc_shape f v w : 0 < f -> adc f (- v) = - adc f v /\ (v <= w -> adc f v <= adc f w) /\ adc f (adc f v) = adc f v.
Proof.
  intros Pf. unfold adc. split; [|split].
  - replace (- v / 100 * f) with (- (v / 100 * f)) by (field; lra). rewrite trunc_opp, opp_IZR. field. lra.
  - intros L. assert (T : (truncZ (v / 100 * f) <= truncZ (w / 100 * f))%Z) by (apply trunc_mono; apply Rmult_le_compat_r; lra). apply IZR_le in T. unfold Rdiv. apply Rmult_le_compat_r; [left; now apply Rinv_0_lt_compat|]. apply Rmult_le_compat_r; lra.
  - set (k := truncZ (v / 100 * f)). replace (IZR k * 100 / f / 100 * f) with (IZR k) by (field; lra). now rewrite trunc_int.
Qed.
(** With it the currents of the outputs are those without, converted: no other effect. *)
Definition with_adc (on : bool) (p : irp) : irp :=
  {| o_ext := o_ext p; o_mode := o_mode p; o_res := o_res p; o_bound := o_bound p; o_drop := o_drop p; o_rs := o_rs p; o_segs := o_segs p; o_tscale := o_tscale p; o_vread := o_vread p;
     o_shift := o_shift p; o_adc := on; o_freq := o_freq p; o_isum := o_isum p; o_phys := o_phys p |}.
Theorem C165_adc_outputs p U tmax x gp gm : mvm_pair (with_adc true p) U tmax x gp gm = match mvm_pair (with_adc false p) U tmax x gp gm with Ok y => Ok (map (adc (o_freq p)) y) | Raise e => Raise e end.
Proof.
  assert (C : forall cells, column (with_adc true p) U tmax cells = match column (with_adc false p) U tmax cells with Ok v => Ok (adc (o_freq p) v) | Raise e => Raise e end).
  { intros cells. unfold column. change (thev (with_adc true p)) with (thev (with_adc false p)). change (o_drop (with_adc true p) * o_rs (with_adc true p)) with (o_drop (with_adc false p) * o_rs (with_adc false p)). change (o_vread (with_adc true p)) with (o_vread (with_adc false p)). destruct (mapM _ (seq 0 U)) as [i|e]; cbn [bind]; [|reflexivity]. change (integrate (with_adc true p) i) with (integrate (with_adc false p) i). destruct (integrate (with_adc false p) i) as [v|e]; reflexivity. }
  assert (MM : forall (A : Type) (f g : A -> res R), (forall a, f a = match g a with Ok v => Ok (adc (o_freq p) v) | Raise e => Raise e end) -> forall l, mapM f l = match mapM g l with Ok v => Ok (map (adc (o_freq p)) v) | Raise e => Raise e end).
  { intros A f g H. induction l as [|a l IH]; [reflexivity|]. cbn [mapM]. rewrite H. destruct (g a) as [v|e]; cbn [bind]; [|reflexivity]. rewrite IH. destruct (mapM g l); reflexivity. }
  assert (WV : forall a b : list R, weave (map (adc (o_freq p)) a) (map (adc (o_freq p)) b) = map (adc (o_freq p)) (weave a b)) by (induction a as [|u a IH]; intros [|v b]; cbn [map weave]; [reflexivity | reflexivity | reflexivity | now rewrite IH]).
  unfold mvm_pair. rewrite (MM _ _ (fun '(a, b) => column (with_adc false p) U tmax (mkcells x a b))) by (intros [a b]; apply C). destruct (mapM (fun '(a, b) => column (with_adc false p) U tmax (mkcells x a b)) _) as [ev|e]; cbn [bind]; [|reflexivity].
  rewrite (MM _ _ (fun '(a, b) => column (with_adc false p) U tmax (mkcells (rev x) (rev a) (rev b)))) by (intros [a b]; apply C). destruct (mapM (fun '(a, b) => column (with_adc false p) U tmax (mkcells (rev x) (rev a) (rev b))) _) as [od|e]; cbn [bind]; [|reflexivity].
  unfold interleave. rewrite !map_length. destruct (length ev =? length od)%nat; [|reflexivity]. now rewrite WV.
Qed.
Theorem C165_adc_nontrivial : adc 1 (250 / 1) = 200 /\ adc 1 (- 250) = - 200 /\ adc 1 99 = 0.
Proof.
  assert (A : adc 1 250 = 200). { unfold adc. replace (truncZ (250 / 100 * 1)) with 2%Z; [field|]. unfold truncZ. destruct (Rle_dec 0 (250 / 100 * 1)); [|lra]. symmetry. apply floorZ_unique. lra. }
  split; [replace (250 / 1) with 250 by field; exact A|]. split; [replace (- 250) with (- (250)) by lra; rewrite (proj1 (C165_adc_shape 1 250 0 ltac:(lra))), A; reflexivity|]. unfold adc. replace (truncZ (99 / 100 * 1)) with 0%Z; [field|]. unfold truncZ. destruct (Rle_dec 0 (99 / 100 * 1)); [|lra]. symmetry. apply floorZ_unique. lra.
Qed.

Print Assumptions C164_odd_outputs.
Print Assumptions C164_segments.
Print Assumptions C164_no_resolution.
Print Assumptions C164_read_noise.
Print Assumptions C164_failures_nontrivial.
Print Assumptions C165_adc.
Print Assumptions C165_adc_shape.
Print Assumptions C165_adc_outputs.
Print Assumptions C165_adc_nontrivial.
