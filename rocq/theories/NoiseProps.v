(** * Noise models: the theorems *)
From Verif Require Import Prelude ConvModel ConvProofs NoiseModel NoiseSpec NoiseProofs ConvProps.

Lemma sensible_default : sensible pcm_default.
Proof. unfold sensible, pcm_default; simpl. repeat split; try lra; try easy. Qed.

(** C33: no model ever produces a negative conductance or a negative drift coefficient,
    whatever the draws. *)
Theorem C33_conductances_nonneg : forall a m, power_law a m -> forall z g g',
  (pl_prog m z g = Ok g' \/ (exists nu t, pl_drift m z g nu t = Ok g')) ->
  length g' = length g /\ forall v, In v g' -> 0 <= v.
Proof.
  intros a m _ z g g' [H | (nu & t & H)].
  - unfold pl_prog in H. destruct (pl_coeff m) as [|c cs]; [discriminate|]. destruct (pl_ref m) as [ref|]; [|discriminate].
    destruct (Reqb ref 0); [discriminate|]. injection H as <-. split; [apply mapi_length|].
    intros v Hv. apply mapi_in in Hv as (i & x & _ & ->). apply Rmax_r.
  - unfold pl_drift in H. destruct (Nat.eqb _ _) eqn:L; [|discriminate]. simpl in H. destruct (pl_undef m t); [discriminate|]. injection H as <-.
    apply Nat.eqb_eq in L. split; [rewrite mapi_length, combine_length; lia|].
    intros v Hv. apply mapi_in in Hv as (i & [x y] & _ & ->). apply Rmax_r.
Qed.
Theorem C33_drift_coefficients_nonneg : forall a m, power_law a m -> 0 <= na_ds a -> forall z g v,
  In v (nm_nu (pl_noise m) z g) -> 0 <= v.
Proof.
  intros a m H Hd z g v Hv. simpl in Hv. apply mapi_in in Hv as (i & x & _ & ->).
  destruct H as [|gl ml sl|mean std|two m E]; simpl.
  - apply Rmult_le_pos; auto. apply Rmax_r.
  - unfold cus_nu. apply Rmult_le_pos; auto. rcase; [lra|]. pose proof (Rabs_pos (interp gl ml (clampR (minlist gl) (maxlist gl) x) + interp gl sl (clampR (minlist gl) (maxlist gl) x) * z i)). lra.
  - apply Rmult_le_pos; auto. apply Rmax_r.
  - unfold hermes_new in E. destruct (Rltb _ (na_gmax a)); [discriminate|]. injection E as <-. simpl. apply Rmult_le_pos; auto. apply Rmax_r.
Qed.
Theorem C33_wan_nonneg : forall m z g g', (wan_prog m z g = Ok g' \/ (exists p t, wan_drift m z p g t = Ok g')) ->
  length g' = length g /\ forall v, In v g' -> 0 <= v.
Proof.
  intros m z g g' H.
  assert (P : forall cs, wan_poly m z g cs = Ok g' -> length g' = length g /\ forall v, In v g' -> 0 <= v).
  { intros cs E. unfold wan_poly in E. destruct cs; [discriminate|]. destruct (wa_ref m) as [ref|]; [|discriminate]. destruct (Reqb ref 0); [discriminate|].
    injection E as <-. split; [apply mapi_length|]. intros v Hv. apply mapi_in in Hv as (i & x & _ & ->). apply Rmax_r. }
  destruct H as [H | (p & t & H)]; [unfold wan_prog in H|unfold wan_drift in H]; destruct (lookupR _ _); try discriminate; eauto.
Qed.
(** mean drift coefficients of the PCM model are between 0.049 and 0.1 *)
Theorem C33_pcm_mean_nu : forall a g, na_ds a = 1 -> 49/1000 <= pl_nu1 (pcm_new a) 0 g <= 1/10.
Proof.
  intros a g Hd. simpl. unfold pcm_nu. rewrite Hd, Rmult_0_r, Rplus_0_r, Rmult_1_r.
  assert (R : 49/1000 <= pcm_mu (rel (na_gmax a) g) <= 1/10) by (apply clampR_range; lra). mm.
Qed.

Lemma sp_exact g_max g_min c : sp_new g_max g_min = Ok c -> exact_conv (sp_conv c).
Proof.
  intros H w _. destruct (C28_single_pair _ _ _ w H) as (gp & gm & r & E1 & E2 & E3 & _).
  exists [gp; gm], r. simpl. rewrite E1. split; [reflexivity|]. split; [exact E2|].
  unfold sp_new in H. apply check_g_ok in H as [Hg _].
  intros s v [<- | [<- | []]] Hv; [specialize (E3 v (or_introl Hv))|specialize (E3 v (or_intror Hv))]; lra.
Qed.
Lemma np_exact f g_max g_min c : np_new f g_max g_min = Ok c -> Forall (fun x => 0 < x) f -> exact_conv (np_conv c).
Proof.
  intros H F w Wn. destruct (C29_n_pairs _ _ _ _ w H F) as (g & r & E1 & _ & E2 & E3 & _).
  exists g, r. simpl. split; [exact E1|]. split; [auto|].
  unfold np_new in H. destruct f; [discriminate|]. destruct (Rltb _ 0); [discriminate|]. apply check_g_ok in H as [Hg _].
  intros s v Hs Hv. specialize (E3 s v Hs Hv). lra.
Qed.
(** The converters of C28 and C29 meet the hypothesis of the theorems below. *)
Theorem C34_pairs_exact : (forall g_max g_min c, sp_new g_max g_min = Ok c -> exact_conv (sp_conv c))
  /\ (forall f g_max g_min c, np_new f g_max g_min = Ok c -> Forall (fun x => 0 < x) f -> exact_conv (np_conv c)).
Proof. split; [exact sp_exact|exact np_exact]. Qed.

Lemma pl_ready a m : power_law a m -> sensible a -> exists c cs ref, pl_coeff m = c :: cs /\ pl_ref m = Some ref /\ ref <> 0
  /\ pl_gmax m = na_gmax a /\ pl_pns m = na_pns a /\ pl_t0 m = na_t0 a /\ pl_tread m = na_tread a /\ pl_rns m = na_rns a.
Proof.
  intros H (G & T & T0 & _ & Rf & Nc).
  destruct H as [|gl ml sl|mean std|two m E].
  - unfold pcm_new, ref_attr. simpl. rewrite Rf. destruct (na_coeff a) as [[|c cs]|]; [congruence| |]; eexists _, _, _; repeat split; lra.
  - unfold cus_new, pcm_new, ref_attr. simpl. rewrite Rf. destruct (na_coeff a) as [[|c cs]|]; [congruence| |]; eexists _, _, _; repeat split; lra.
  - unfold si_new. simpl. destruct (na_coeff a) as [[|c cs]|]; [congruence| |]; eexists _, _, _; repeat split; lra.
  - unfold hermes_new in E. destruct (Rltb _ (na_gmax a)); [discriminate|]. injection E as <-. unfold ref_attr. simpl. rewrite Rf.
    destruct (na_coeff a) as [[|c cs]|]; [congruence| |]; [|destruct two]; eexists _, _, _; repeat split; lra.
Qed.
Lemma pl_prog_ok a m z g : power_law a m -> sensible a -> exists g', pl_prog m z g = Ok g' /\ length g' = length g
  /\ (na_pns a = 0 -> (forall v, In v g -> 0 <= v) -> g' = g).
Proof.
  intros H S. destruct (pl_ready a m H S) as (c & cs & ref & E1 & E2 & E3 & E4 & E5 & _).
  unfold pl_prog. rewrite E1, E2, (proj2 (Reqb_false _ _)) by auto. eexists. split; [reflexivity|]. split; [apply mapi_length|].
  intros P Hg. apply mapi_id. intros i v Hv. rewrite E5, P, !Rmult_0_l, Rplus_0_r. apply Rmax_left. auto.
Qed.
Lemma mapiM_prog_id a m (zp : draws) : power_law a m -> sensible a -> na_pns a = 0 -> forall g,
  (forall s v, In s g -> In v s -> 0 <= v) -> mapiM (fun k s => pl_prog m (zp k) s) g = Ok g.
Proof.
  intros H S P g Hg. apply mapiM_id. intros i s Hs. destruct (pl_prog_ok a m (zp i) s H S) as (s' & E & _ & I).
  rewrite E. f_equal. apply I; eauto.
Qed.

(** C34: without programming noise, programming changes nothing. *)
Theorem C34_noiseless_programming : forall a m cv zp zn (w : vec), power_law a m -> sensible a -> exact_conv cv -> w <> [] -> na_pns a = 0 ->
  exists nus, apply_programming_noise cv (pl_noise m) zp zn w = Ok (w, nus).
Proof.
  intros a m cv zp zn w H S Ex Wn P. destruct (Ex w Wn) as (g & p & E1 & E2 & E3).
  unfold apply_programming_noise. rewrite E1. cbn [bind fst snd]. cbn [nm_prog pl_noise].
  rewrite (mapiM_prog_id a m zp H S P g E3). cbn [bind]. rewrite E2. cbn [bind]. eauto.
Qed.
Example C34_nonvacuous : exists a m cv (w : vec), power_law a m /\ sensible a /\ exact_conv cv /\ w <> [] /\ na_pns a = 0.
Proof.
  exists {| na_coeff := None; na_gmax := 25; na_tread := 250 / 10 ^ 9; na_t0 := 20; na_pns := 0; na_rns := 1; na_ds := 1; na_ref := None |}.
  destruct C28_nonvacuous as [c Hc]. eexists _, (sp_conv c), [1]. split; [apply PlPcm|]. split; [|split; [|split; [discriminate|reflexivity]]].
  - unfold sensible; simpl. repeat split; try lra; easy.
  - eapply sp_exact; eauto.
Qed.

(** C35: with a single pair and [g_min = 0], and no read noise, each weight decays with
    its own power law: the sign is kept, the magnitude never grows with time, and at
    [t = 0] the weights are the programmed ones. *)
Lemma sp_drift_eval a m g_max g_min c zd w n1 n2 t :
  power_law a m -> sensible a -> na_rns a = 0 -> sp_new g_max g_min = Ok c ->
  length n1 = length w -> length n2 = length w -> 0 <= t ->
  exists w', apply_drift_noise (sp_conv c) (pl_noise m) zd w [n1; n2] t = Ok w' /\ length w' = length w
  /\ forall i, (i < length w)%nat -> exists r, 0 < r /\
     nth i w' 0 = ((clampR 0 g_max (nth i w 0 * r) + g_min) * decay (na_t0 a) t (nth i n1 0)
                 - (clampR 0 g_max (- (nth i w 0 * r)) + g_min) * decay (na_t0 a) t (nth i n2 0)) / r
     /\ Rabs (nth i w 0 * r) <= g_max - g_min.
Proof.
  intros H S Rn Hc L1 L2 Ht. destruct (pl_ready a m H S) as (c0 & cs & ref & _ & _ & _ & E4 & _ & E6 & E7 & E8).
  pose proof S as (Sg & St & St0 & _). pose proof Hc as Hc'. unfold sp_new in Hc. apply check_g_ok in Hc as [Hg Hc]. injection Hc as <-.
  unfold apply_drift_noise. simpl cv_to. unfold sp_to. cbn [sp_gmax sp_gmin bind fst snd].
  set (r := (g_max - g_min) / Rmax (maxabs w) zero_clip).
  pose proof zero_clip_pos as Zc. pose proof (Rmax_r (maxabs w) zero_clip) as Zr.
  assert (Rp : 0 < r) by (apply Rdiv_lt_0_compat; lra).
  rewrite !map_map. set (gp := map (fun v => clampR 0 g_max (v * r) + g_min) w). set (gm := map (fun v => clampR 0 g_max (- (v * r)) + g_min) w).
  assert (Lp : length gp = length w) by apply map_length. assert (Lm : length gm = length w) by apply map_length.
  cbn [combine]. unfold mapiM. cbn [mapiM_from nm_drift pl_noise fst snd]. unfold pl_drift.
  rewrite (pl_undef_ok m t) by (rewrite ?E6, ?E7; lra).
  replace (Nat.eqb (length n1) (length gp)) with true by (symmetry; apply Nat.eqb_eq; lia).
  replace (Nat.eqb (length n2) (length gm)) with true by (symmetry; apply Nat.eqb_eq; lia).
  cbn [negb bind]. simpl cv_back. unfold sp_back. cbn [sp_gmin].
  set (d1 := mapi _ (combine gp n1)). set (d2 := mapi _ (combine gm n2)).
  assert (Ld1 : length d1 = length w) by (unfold d1; rewrite mapi_length, combine_length; lia).
  assert (Ld2 : length d2 = length w) by (unfold d2; rewrite mapi_length, combine_length; lia).
  eexists. split; [reflexivity|]. split; [rewrite map2_length; lia|].
  intros i Hi. exists r. split; [auto|].
  assert (B : Rabs (nth i w 0 * r) <= g_max - g_min).
  { apply scaled_bound; try lra. now apply nth_In. }
  split; [|exact B].
  assert (N2 : forall (x y : vec) (f : R -> R -> R) k, (k < length x)%nat -> length x = length y -> nth k (map2 f x y) 0 = f (nth k x 0) (nth k y 0)).
  { clear. induction x as [|a x IH]; intros [|b y] f k Hk L; simpl in *; try lia. destruct k; auto. apply IH; lia. }
  rewrite N2 by lia.
  assert (Gp : nth i gp 0 = clampR 0 g_max (nth i w 0 * r) + g_min).
  { unfold gp. rewrite (nth_indep _ 0 ((fun v => clampR 0 g_max (v * r) + g_min) 0)) by (rewrite map_length; auto). now rewrite (map_nth (fun v => clampR 0 g_max (v * r) + g_min)). }
  assert (Gm : nth i gm 0 = clampR 0 g_max (- (nth i w 0 * r)) + g_min).
  { unfold gm. rewrite (nth_indep (map _ w) 0 ((fun v => clampR 0 g_max (- (v * r)) + g_min) 0)) by (rewrite map_length; auto). now rewrite (map_nth (fun v => clampR 0 g_max (- (v * r)) + g_min)). }
  assert (P : forall x, 0 <= clampR 0 g_max x) by (intros; apply clampR_range; lra).
  assert (D1 : nth i d1 0 = (clampR 0 g_max (nth i w 0 * r) + g_min) * decay (na_t0 a) t (nth i n1 0)).
  { unfold d1. rewrite (mapi_nth _ _ i (0, 0)) by (rewrite combine_length; lia). rewrite combine_nth by lia. cbn [fst snd]. rewrite Gp.
    rewrite pl_drift1_noiseless; rewrite ?E6, ?E8; try lra; [reflexivity|]. specialize (P (nth i w 0 * r)). lra. }
  assert (D2 : nth i d2 0 = (clampR 0 g_max (- (nth i w 0 * r)) + g_min) * decay (na_t0 a) t (nth i n2 0)).
  { unfold d2. rewrite (mapi_nth _ _ i (0, 0)) by (rewrite combine_length; lia). rewrite combine_nth by lia. cbn [fst snd]. rewrite Gm.
    rewrite pl_drift1_noiseless; rewrite ?E6, ?E8; try lra; [reflexivity|]. specialize (P (- (nth i w 0 * r))). lra. }
  rewrite D1, D2. field. lra.
Qed.
Theorem C35_drift_power_law : forall a m g_max c zd w n1 n2 t,
  power_law a m -> sensible a -> na_rns a = 0 -> sp_new g_max 0 = Ok c ->
  length n1 = length w -> length n2 = length w -> 0 <= t ->
  exists w', apply_drift_noise (sp_conv c) (pl_noise m) zd w [n1; n2] t = Ok w' /\ length w' = length w
  /\ forall i, (i < length w)%nat ->
     nth i w' 0 = nth i w 0 * decay (na_t0 a) t (if Rle_dec 0 (nth i w 0) then nth i n1 0 else nth i n2 0).
Proof.
  intros a m g_max c zd w n1 n2 t H S Rn Hc L1 L2 Ht.
  destruct (sp_drift_eval a m g_max 0 c zd w n1 n2 t H S Rn Hc L1 L2 Ht) as (w' & E & Lw & F).
  exists w'. split; [auto|]. split; [auto|]. intros i Hi. destruct (F i Hi) as (r & Rp & En & B). rewrite En. clear En F.
  set (x := nth i w 0) in *. set (d1 := decay _ _ (nth i n1 0)). set (d2 := decay _ _ (nth i n2 0)).
  destruct (Rle_dec 0 x) as [Hx|Hx].
  - assert (X : 0 <= x * r) by (apply Rmult_le_pos; lra). rewrite Rabs_right in B by lra.
    replace (clampR 0 g_max (x * r)) with (x * r) by mm. replace (clampR 0 g_max (- (x * r))) with 0 by mm. fold d1. field. lra.
  - assert (X : x * r <= 0) by nra. rewrite Rabs_left1 in B by lra.
    replace (clampR 0 g_max (x * r)) with 0 by mm. replace (clampR 0 g_max (- (x * r))) with (- (x * r)) by mm. fold d2. field. lra.
Qed.
(** ... and, for every [g_min], if all devices have the same drift coefficient *)
Theorem C35_uniform_drift : forall a m g_max g_min c zd w nu t,
  power_law a m -> sensible a -> na_rns a = 0 -> sp_new g_max g_min = Ok c -> 0 <= t ->
  apply_drift_noise (sp_conv c) (pl_noise m) zd w [repeat nu (length w); repeat nu (length w)] t
  = Ok (map (fun v => v * decay (na_t0 a) t nu) w).
Proof.
  intros a m g_max g_min c zd w nu t H S Rn Hc Ht.
  destruct (sp_drift_eval a m g_max g_min c zd w _ _ t H S Rn Hc (repeat_length nu (length w)) (repeat_length nu (length w)) Ht) as (w' & E & Lw & F).
  rewrite E. f_equal. apply nth_ext with 0 0. { now rewrite map_length. }
  intros i Hi. rewrite Lw in Hi. destruct (F i Hi) as (r & Rp & En & B). rewrite En. clear En F E.
  rewrite (nth_indep (map _ w) 0 ((fun v => v * decay (na_t0 a) t nu) 0)) by (rewrite map_length; auto). rewrite (map_nth (fun v => v * decay (na_t0 a) t nu)).
  rewrite (nth_indep (repeat nu (length w)) 0 nu) by (rewrite repeat_length; auto). rewrite nth_repeat. set (x := nth i w 0) in *. set (d := decay _ _ _).
  assert (Hg : 0 <= g_min < g_max) by (unfold sp_new in Hc; now apply check_g_ok in Hc).
  replace ((clampR 0 g_max (x * r) + g_min) * d - (clampR 0 g_max (- (x * r)) + g_min) * d) with ((clampR 0 g_max (x * r) - clampR 0 g_max (- (x * r))) * d) by ring.
  replace (clampR 0 g_max (x * r) - clampR 0 g_max (- (x * r))) with (x * r) by mm. field. lra.
Qed.
Theorem C35_decay_facts : forall t0 nu, 0 < t0 -> 0 <= nu ->
  decay t0 0 nu = 1 /\ (forall t, 0 <= t -> 0 < decay t0 t nu <= 1)
  /\ (forall t t', 0 <= t <= t' -> decay t0 t' nu <= decay t0 t nu).
Proof.
  intros t0 nu H0 Hn. assert (Z : decay t0 0 nu = 1).
  { unfold decay. replace (1 + 0 / t0) with 1 by (field; lra). apply Rpower_1_l. }
  assert (M : forall t t', 0 <= t <= t' -> decay t0 t' nu <= decay t0 t nu).
  { intros t t' Ht. unfold decay. assert (0 < / t0) by (apply Rinv_0_lt_compat; auto).
    assert (0 <= t / t0) by (apply Rmult_le_pos; lra). assert (t / t0 <= t' / t0) by (apply Rmult_le_compat_r; lra). apply Rpower_decr; lra. }
  split; [auto|]. split; [|auto]. intros t Ht. split; [apply Rpower_pos|]. rewrite <- Z. apply M. lra.
Qed.
(** With [g_min > 0] and device dependent coefficients a drifting weight can change its sign. *)
Definition args_nonoise : nargs :=
  {| na_coeff := None; na_gmax := 1; na_tread := 1; na_t0 := 1; na_pns := 0; na_rns := 0; na_ds := 1; na_ref := None |}.
Lemma sensible_nonoise : sensible args_nonoise.
Proof. unfold sensible; simpl. repeat split; try lra; easy. Qed.
Theorem C35_sign_g_min_refuted :
  ~ (forall a m g_max g_min c zd w n1 n2 t w',
     power_law a m -> sensible a -> na_rns a = 0 -> sp_new g_max g_min = Ok c ->
     length n1 = length w -> length n2 = length w -> Forall (fun x => 0 <= x) (n1 ++ n2) -> 0 <= t ->
     apply_drift_noise (sp_conv c) (pl_noise m) zd w [n1; n2] t = Ok w' ->
     forall i, 0 < nth i w 0 -> 0 < nth i w' 0).
Proof.
  intros H. set (c := {| sp_gmax := 2; sp_gmin := 1 |}).
  assert (Hc : sp_new 2 1 = Ok c) by (unfold sp_new, check_g; repeat rcase; try lra; reflexivity).
  destruct (sp_drift_eval args_nonoise _ 2 1 c (fun _ _ => 0) [1] [2] [0] 1 (PlPcm args_nonoise) sensible_nonoise eq_refl Hc eq_refl eq_refl ltac:(lra)) as (w' & E & L & F).
  assert (Pos : 0 < nth 0 w' 0).
  { eapply (H args_nonoise _ 2 1 c (fun _ _ => 0) [1] [2] [0] 1 w' (PlPcm args_nonoise) sensible_nonoise eq_refl Hc); eauto; try lra.
    - repeat constructor; lra.
    - simpl. lra. }
  destruct (F 0%nat) as (r & Rp & En & B); [simpl; lia|]. rewrite En in Pos. clear -Pos Rp B. simpl in *.
  rewrite Rmult_1_l in *. rewrite Rabs_right in B by lra.
  replace (clampR 0 2 r) with r in Pos by mm. replace (clampR 0 2 (- r)) with 0 in Pos by mm.
  assert (D0 : decay 1 1 0 = 1) by (unfold decay; rewrite Ropp_0; unfold Rpower; rewrite Rmult_0_l; apply exp_0).
  assert (D2 : decay 1 1 2 = 1 / 4).
  { unfold decay. replace (1 + 1 / 1) with 2 by field. rewrite Rpower_Ropp. change 2 with (INR 2) at 2. rewrite Rpower_pow by lra. simpl. field. }
  rewrite D0, D2 in Pos.
  assert (K : ((r + 1) * (1 / 4) - (0 + 1) * 1) / r <= 0); [|lra].
  unfold Rdiv at 1. assert (0 < / r) by (apply Rinv_0_lt_compat; auto). nra.
Qed.

(** C36: drifting after programming.  Without programming noise it is the same as the
    one-shot [apply_noise] with the same draws. *)
Theorem C36_program_then_drift : forall a m cv zp zn zd (w : vec) t, power_law a m -> sensible a -> exact_conv cv -> w <> [] ->
  na_pns a = 0 -> 0 < t -> forall nus, apply_programming_noise cv (pl_noise m) zp zn w = Ok (w, nus) ->
  apply_drift_noise cv (pl_noise m) zd w nus t = apply_noise cv (pl_noise m) zp zn zd w t.
Proof.
  intros a m cv zp zn zd w t H S Ex Wn P Ht nus E. destruct (Ex w Wn) as (g & p & E1 & E2 & E3).
  unfold apply_programming_noise in E. rewrite E1 in E. cbn [bind fst snd nm_prog pl_noise] in E.
  rewrite (mapiM_prog_id a m zp H S P g E3) in E. cbn [bind] in E. rewrite E2 in E. cbn [bind] in E. injection E as <-.
  unfold apply_drift_noise, apply_noise. rewrite E1. cbn [bind fst snd].
  rewrite (proj2 (Rltb_true 0 t) Ht).
  assert (G : forall l k, (forall s v, In s l -> In v s -> 0 <= v) ->
     match mapiM_from (fun k q => pl_drift m (zd k) (fst q) (snd q) t) k (combine l (map2 (fun k g => mapi (fun i v => pl_nu1 m (zn k i) v) g) (seq k (length l)) l)) with
     | Ok a => mapiM_from (fun k g => g' <- pl_prog m (zp k) g ;; d <- pl_drift m (zd k) g' (mapi (fun i v => pl_nu1 m (zn k i) v) g) t ;; Ok [d]) k l = Ok (map (fun d => [d]) a)
     | Raise e => mapiM_from (fun k g => g' <- pl_prog m (zp k) g ;; d <- pl_drift m (zd k) g' (mapi (fun i v => pl_nu1 m (zn k i) v) g) t ;; Ok [d]) k l = Raise e
     end).
  { induction l as [|s l IH]; intros k Hl; [reflexivity|]. simpl seq. cbn [map2 combine mapiM_from fst snd].
    destruct (pl_prog_ok a m (zp k) s H S) as (s' & Es & _ & I). assert (s' = s) as -> by (apply I; auto; intros; eapply Hl; simpl; eauto).
    rewrite Es. cbn [bind]. 
    destruct (pl_drift m (zd k) s _ t) as [d|e]; cbn [bind]; [|reflexivity].
    specialize (IH (Datatypes.S k) ltac:(intros; eapply Hl; simpl; eauto)).
    match type of IH with match ?X with _ => _ end => destruct X as [ds|e] end; cbn [bind]; rewrite IH; reflexivity. }
  specialize (G g 0%nat E3). cbn [nm_drift nm_prog nm_nu pl_noise]. unfold mapiM, mapi.
  unfold mapi in G.
  match type of G with match ?X with _ => _ end => match goal with |- bind ?Y _ = _ => change Y with X end; destruct X as [ds|e] end; cbn [bind]; rewrite G; cbn [bind]; [|reflexivity].
  f_equal. clear. induction ds; simpl; auto. now f_equal.
Qed.
(** With programming noise it is not: [apply_drift_noise] converts the noisy weights to
    new conductances, in which one device of each pair is at [g_min], instead of drifting
    the programmed ones. *)
Theorem C36_programmed_conductances_refuted :
  ~ (forall a m g_max c zp zn zd (w : vec) t, power_law a m -> sensible a -> sp_new g_max 0 = Ok c -> na_gmax a = g_max -> w <> [] -> 0 < t ->
     forall w' nus, apply_programming_noise (sp_conv c) (pl_noise m) zp zn w = Ok (w', nus) ->
     apply_drift_noise (sp_conv c) (pl_noise m) zd w' nus t = apply_noise (sp_conv c) (pl_noise m) zp zn zd w t).
Proof.
  intros H.
  set (a := {| na_coeff := Some [1/2]; na_gmax := 1; na_tread := 1; na_t0 := 1; na_pns := 1; na_rns := 0; na_ds := 1; na_ref := None |}).
  assert (S : sensible a) by (unfold sensible; simpl; repeat split; try lra; try easy; discriminate).
  set (c := {| sp_gmax := 1; sp_gmin := 0 |}). set (m := si_new a 0 1).
  assert (Hc : sp_new 1 0 = Ok c) by (unfold sp_new, check_g; repeat rcase; try lra; reflexivity).
  set (zp := fun k i : nat => match k with O => 0 | _ => 1 end). set (zn := fun k i : nat => match k with O => 0 | _ => 1 end).
  assert (M : forall x, x = 1 \/ x = 1/2 -> Rmax (maxabs [x]) zero_clip = x) by (intros x [-> | ->]; unfold maxabs, zero_clip; simpl; mm).
  assert (T1 : sp_to c [1] = ([[1]; [0]], 1)).
  { unfold sp_to. rewrite M by auto. simpl. replace ((1 - 0) / 1) with 1 by field. unfold clampR.
    replace (Rmin (Rmax (1 * 1) 0) 1 + 0) with 1 by mm. replace (Rmin (Rmax (- (1 * 1)) 0) 1 + 0) with 0 by mm. reflexivity. }
  assert (T2 : sp_to c [1/2] = ([[1]; [0]], 2)).
  { unfold sp_to. rewrite M by auto. simpl. replace ((1 - 0) / (1/2)) with 2 by field. unfold clampR.
    replace (Rmin (Rmax (1 / 2 * 2) 0) 1 + 0) with 1 by mm. replace (Rmin (Rmax (- (1 / 2 * 2)) 0) 1 + 0) with 0 by mm. reflexivity. }
  assert (P1 : pl_prog m (zp 0%nat) [1] = Ok [1]).
  { unfold pl_prog; simpl. rewrite (proj2 (Reqb_false 1 0)) by lra. unfold mapi; simpl. replace (Rmax _ 0) with 1 by mm. reflexivity. }
  assert (P2 : pl_prog m (zp 1%nat) [0] = Ok [1/2]).
  { unfold pl_prog; simpl. rewrite (proj2 (Reqb_false 1 0)) by lra. unfold mapi; simpl. replace (1 / 1) with 1 by field. replace (Rmax _ 0) with (1/2) by mm. reflexivity. }
  assert (N1 : nm_nu (pl_noise m) (zn 0%nat) [1] = [0]).
  { simpl. unfold mapi, si_nu; simpl. replace (Rmax _ 0 * 1) with 0 by mm. reflexivity. }
  assert (N2 : nm_nu (pl_noise m) (zn 1%nat) [0] = [1]).
  { simpl. unfold mapi, si_nu; simpl. replace (Rmax _ 0 * 1) with 1 by mm. reflexivity. }
  assert (D : forall z g nu, 0 <= g -> pl_drift m z [g] [nu] 1 = Ok [g * decay 1 1 nu]).
  { intros z g nu Hg. unfold pl_drift. simpl Nat.eqb. cbn [negb]. rewrite pl_undef_ok by (simpl; lra). unfold mapi. simpl. rewrite pl_drift1_noiseless by (simpl; lra). reflexivity. }
  assert (D0 : decay 1 1 0 = 1) by (unfold decay; rewrite Ropp_0; unfold Rpower; rewrite Rmult_0_l; apply exp_0).
  assert (D1 : decay 1 1 1 = 1 / 2) by (unfold decay; replace (1 + 1 / 1) with 2 by field; rewrite Rpower_Ropp, Rpower_1 by lra; field).
  assert (Ap : apply_programming_noise (sp_conv c) (pl_noise m) zp zn [1] = Ok ([1/2], [[0]; [1]])).
  { unfold apply_programming_noise. simpl cv_to. rewrite T1. cbn [bind fst snd]. unfold mapiM. cbn [mapiM_from nm_prog pl_noise]. rewrite P1. cbn [bind]. rewrite P2. cbn [bind].
    simpl cv_back. replace ((1 - 0 - (1 / 2 - 0)) / 1) with (1/2) by field. cbn [bind].
    unfold mapi at 1. cbn [length seq map2]. rewrite N1, N2. reflexivity. }
  specialize (H a m 1 c zp zn (fun _ _ => 0) [1] 1 (PlStateIndependent a 0 1) S Hc eq_refl ltac:(discriminate) ltac:(lra) _ _ Ap).
  unfold apply_drift_noise, apply_noise in H. simpl cv_to in H. rewrite T1, T2 in H. cbn [bind fst snd combine] in H. unfold mapiM in H.
  cbn [mapiM_from nm_prog nm_drift pl_noise fst snd] in H. rewrite P1, P2 in H. cbn [bind] in H. rewrite (proj2 (Rltb_true 0 1)) in H by lra.
  rewrite N1, N2 in H. rewrite !D in H by lra. cbn [bind] in H.
  rewrite D0, D1 in H. simpl in H. injection H as H. lra.
Qed.

(** C37: totality.  Programming and drifting never fail for sensible arguments. *)
Theorem C37_total : forall a m g_max g_min c, power_law a m -> sensible a -> sp_new g_max g_min = Ok c ->
  forall zp zn w, exists w' nus, apply_programming_noise (sp_conv c) (pl_noise m) zp zn w = Ok (w', nus)
  /\ length w' = length w
  /\ forall zd t, 0 <= t -> exists w'', apply_drift_noise (sp_conv c) (pl_noise m) zd w' nus t = Ok w'' /\ length w'' = length w.
Proof.
  intros a m g_max g_min c H S Hc zp zn w.
  destruct (pl_ready a m H S) as (_ & _ & _ & _ & _ & _ & _ & _ & E6 & E7 & _). destruct S as (Sg & St & St0 & S'). assert (S : sensible a) by (repeat split; tauto).
  unfold apply_programming_noise. simpl cv_to.
  set (gp := map (fun v => clampR 0 (sp_gmax c) v + sp_gmin c) (map (fun v => v * ((sp_gmax c - sp_gmin c) / Rmax (maxabs w) zero_clip)) w)).
  set (gm := map (fun v => clampR 0 (sp_gmax c) (- v) + sp_gmin c) (map (fun v => v * ((sp_gmax c - sp_gmin c) / Rmax (maxabs w) zero_clip)) w)).
  assert (Lp : length gp = length w) by (unfold gp; now rewrite !map_length). assert (Lm : length gm = length w) by (unfold gm; now rewrite !map_length).
  change (sp_to c w) with ([gp; gm], (sp_gmax c - sp_gmin c) / Rmax (maxabs w) zero_clip). set (r := _ / _). cbn [bind fst snd].
  unfold mapiM. cbn [mapiM_from nm_prog pl_noise].
  destruct (pl_prog_ok a m (zp 0%nat) gp H S) as (gp' & E1 & L1 & _). destruct (pl_prog_ok a m (zp 1%nat) gm H S) as (gm' & E2 & L2 & _).
  rewrite E1. cbn [bind]. rewrite E2. cbn [bind]. simpl cv_back. cbn [bind]. unfold mapi at 1. cbn [length seq map2].
  eexists _, _. split; [reflexivity|]. set (w' := map2 _ gp' gm'). assert (Lw : length w' = length w) by (unfold w'; rewrite map2_length; lia). split; [auto|].
  intros zd t Ht. unfold apply_drift_noise. simpl cv_to. unfold sp_to. cbn [bind fst snd combine]. unfold mapiM. cbn [mapiM_from nm_drift pl_noise fst snd nm_nu].
  unfold pl_drift. rewrite !mapi_length, !map_length, Lw, Lp, Lm, Nat.eqb_refl. cbn [negb]. rewrite pl_undef_ok by (rewrite ?E6, ?E7; lra). cbn [bind].
  simpl cv_back. eexists. split; [reflexivity|]. rewrite map2_length, !mapi_length, !combine_length, !mapi_length, !map_length. lia.
Qed.
(** ... but [apply_noise] at [t_inference = 0] ("right after programming") always fails, ... *)
Theorem C37_apply_noise_zero_refuted : forall g_max g_min c a m, sp_new g_max g_min = Ok c -> power_law a m -> sensible a ->
  ~ (exists zp zn zd w w', apply_noise (sp_conv c) (pl_noise m) zp zn zd w 0 = Ok w').
Proof.
  intros g_max g_min c a m Hc H S (zp & zn & zd & w & w' & E). unfold apply_noise in E. simpl cv_to in E. unfold sp_to in E. cbn [bind fst snd] in E.
  unfold mapiM in E. cbn [mapiM_from nm_prog pl_noise] in E. rewrite (proj2 (Rltb_false 0 0)) in E by lra.
  destruct (pl_prog m (zp 0%nat) _); cbn [bind] in E; [|discriminate]. destruct (pl_prog m (zp 1%nat) _); cbn [bind] in E; discriminate.
Qed.
(** ... and explicitly given programming coefficients cannot be used together with the
    [g_max] they were fitted for. *)
Theorem C37_reference_refuted : forall a ref c cs, na_coeff a = Some (c :: cs) -> na_ref a = Some ref ->
  forall z g, pl_prog (pcm_new a) z g = Raise AttributeError.
Proof. intros a ref c cs Hc Hr z g. unfold pl_prog, pcm_new, ref_attr. simpl. rewrite Hc, Hr. reflexivity. Qed.

(** C38: the ReRAM model of Wan et al.  The one-shot [apply_noise] at a tabulated time
    does not depend on the programming noise: without noise at that time the weights are
    the targets. *)
Lemma wan_poly_zero m z g cs ref : cs <> [] -> wa_ref m = Some ref -> ref <> 0 -> (forall i, z i = 0) -> (forall v, In v g -> 0 <= v) -> wan_poly m z g cs = Ok g.
Proof.
  intros Hc Hr Hn Hz Hg. unfold wan_poly. destruct cs; [congruence|]. rewrite Hr, (proj2 (Reqb_false _ _)) by auto. f_equal.
  apply mapi_id. intros i v Hv. rewrite Hz, Rmult_0_r, Rplus_0_r. apply Rmax_left. auto.
Qed.
Lemma wan_poly_ok m z g cs ref : cs <> [] -> wa_ref m = Some ref -> ref <> 0 -> exists g', wan_poly m z g cs = Ok g'.
Proof. intros Hc Hr Hn. unfold wan_poly. destruct cs; [congruence|]. rewrite Hr, (proj2 (Reqb_false _ _)) by auto. eauto. Qed.
Definition wan_ok (m : wan) : Prop := (exists ref, wa_ref m = Some ref /\ ref <> 0) /\ wa_dic m <> [] /\ Forall (fun p => snd p <> []) (wa_dic m).
Lemma lookup_in {A} k (v : A) l : lookupR k l = Some v -> In (k, v) l.
Proof. induction l as [|[a b] l IH]; simpl; [discriminate|]. rcase; [|auto]. intros [= ->]. subst. auto. Qed.
Lemma lookup_some {A} k (l : list (R * A)) : In k (map fst l) -> exists v, lookupR k l = Some v.
Proof. induction l as [|[a b] l IH]; simpl; [easy|]. intros [-> | H]; [rewrite (proj2 (Reqb_true _ _)) by auto; eauto|]. rcase; eauto. Qed.
Theorem C38_wan_apply_noise : forall m cv zp zn zd (w : vec) t cs, wan_ok m -> exact_conv cv -> w <> [] -> 0 < t -> lookupR t (wa_dic m) = Some cs ->
  (forall k i, zd k i = 0) -> apply_noise cv (wan_noise m) zp zn zd w t = Ok w.
Proof.
  intros m cv zp zn zd w t cs [[ref [Hr Hn]] [Dn Dc]] Ex Wn Ht Hl Hz. destruct (Ex w Wn) as (g & p & E1 & E2 & E3).
  unfold apply_noise. rewrite E1. cbn [bind fst snd].
  rewrite Forall_forall in Dc.
  rewrite (proj2 (Rltb_true _ _) Ht).
  assert (Ep : forall z s, exists g', wan_prog m z s = Ok g').
  { intros z s. unfold wan_prog. destruct (lookup_some (minlist (map fst (wa_dic m))) (wa_dic m)) as [cs0 L0].
    { apply minlist_in. destruct (wa_dic m); [congruence|discriminate]. }
    rewrite L0. apply (wan_poly_ok m z s cs0 ref); auto. apply (Dc _ (lookup_in _ _ _ L0)). }
  assert (Ed : forall k q s, (forall v, In v s -> 0 <= v) -> wan_drift m (zd k) q s t = Ok s).
  { intros k q s Hs. unfold wan_drift. rewrite Hl. apply (wan_poly_zero m (zd k) s cs ref); auto. apply (Dc _ (lookup_in _ _ _ Hl)). }
  assert (F : forall l k, (forall s v, In s l -> In v s -> 0 <= v) ->
    mapiM_from (fun k g => g' <- nm_prog (wan_noise m) (zp k) g ;; d <- nm_drift (wan_noise m) (zd k) g' (nm_nu (wan_noise m) (zn k) g) t ;; Ok [d]) k l = Ok (map (fun s => [s]) l)).
  { induction l as [|s l IH]; intros k Hs; [reflexivity|]. cbn [mapiM_from nm_prog nm_drift nm_nu wan_noise] in *.
    destruct (Ep (zp k) s) as [g' Eg]. rewrite Eg. cbn [bind]. rewrite Ed by (intros; eapply Hs; simpl; eauto). cbn [bind].
    rewrite IH by (intros; eapply Hs; simpl; eauto). reflexivity. }
  unfold mapiM. rewrite F by auto. cbn [bind]. transitivity (cv_back cv g p); [|exact E2]. f_equal.
  clear. induction g; simpl; congruence.
Qed.
Example C38_nonvacuous : wan_ok (wan_new None 40 1 None) /\ exists cs, lookupR 86400 (wa_dic (wan_new None 40 1 None)) = Some cs.
Proof.
  split; [split; [exists 40; split; [reflexivity|lra]|]; split; [discriminate|]|]; simpl.
  - repeat constructor; discriminate.
  - rewrite (proj2 (Reqb_false 1 86400)) by lra. rewrite (proj2 (Reqb_true 86400 86400)) by reflexivity. eauto.
Qed.
(** After [program_weights] this is not so: the target conductances are scaled back with
    the scale of the noisy programmed weights. *)
Theorem C38_wan_drift_refuted :
  ~ (forall m g_max c zp zn zd (w : vec) t cs w' nus, wan_ok m -> sp_new g_max 0 = Ok c -> wa_gmax m = g_max -> w <> [] -> 0 < t -> lookupR t (wa_dic m) = Some cs ->
     apply_programming_noise (sp_conv c) (wan_noise m) zp zn w = Ok (w', nus) ->
     (forall k i, zd k i = 0) -> apply_drift_noise (sp_conv c) (wan_noise m) zd w' nus t = Ok w).
Proof.
  intros H. set (m := {| wa_dic := [(1, [1])]; wa_gmax := 1; wa_ref := Some 1; wa_ns := 1 |}). set (c := {| sp_gmax := 1; sp_gmin := 0 |}).
  assert (Hc : sp_new 1 0 = Ok c) by (unfold sp_new, check_g; repeat rcase; try lra; reflexivity).
  set (zp := fun k i : nat => match k with O => 1 | _ => 0 end).
  assert (M : forall x, x = 1 \/ x = 2 -> Rmax (maxabs [x]) zero_clip = x) by (intros x [-> | ->]; unfold maxabs, zero_clip; simpl; mm).
  assert (T1 : sp_to c [1] = ([[1]; [0]], 1)).
  { unfold sp_to. rewrite M by auto. simpl. replace ((1 - 0) / 1) with 1 by field. unfold clampR.
    replace (Rmin (Rmax (1 * 1) 0) 1 + 0) with 1 by mm. replace (Rmin (Rmax (- (1 * 1)) 0) 1 + 0) with 0 by mm. reflexivity. }
  assert (T2 : sp_to c [2] = ([[1]; [0]], 1/2)).
  { unfold sp_to. rewrite M by auto. simpl. replace ((1 - 0) / 2) with (1/2) by field. unfold clampR.
    replace (Rmin (Rmax (2 * (1 / 2)) 0) 1 + 0) with 1 by mm. replace (Rmin (Rmax (- (2 * (1 / 2))) 0) 1 + 0) with 0 by mm. reflexivity. }
  assert (Wo : wan_ok m) by (split; [exists 1; split; [reflexivity|lra]|split; [discriminate|repeat constructor; discriminate]]).
  assert (L : lookupR 1 (wa_dic m) = Some [1]) by (simpl; rewrite (proj2 (Reqb_true 1 1)) by reflexivity; reflexivity).
  assert (Pn : forall z x, 0 <= x + z 0%nat -> wan_poly m z [x] [1] = Ok [x + z 0%nat]).
  { intros z x Hx. unfold wan_poly; simpl. rewrite (proj2 (Reqb_false 1 0)) by lra. unfold mapi; simpl. replace (x + 1 * (1 * (1 / 1)) * z 0%nat) with (x + z 0%nat) by field.
    rewrite Rmax_left by lra. reflexivity. }
  assert (Ap : apply_programming_noise (sp_conv c) (wan_noise m) zp zp [1] = Ok ([2], [[1]; [0]])).
  { unfold apply_programming_noise. simpl cv_to. rewrite T1. cbn [bind fst snd]. unfold mapiM. cbn [mapiM_from nm_prog wan_noise]. unfold wan_prog.
    change (minlist (map fst (wa_dic m))) with 1. rewrite L. rewrite !Pn by (simpl; lra). cbn [bind]. simpl cv_back.
    replace ((1 + 1 - 0 - (0 + 0 - 0)) / 1) with 2 by field. reflexivity. }
  specialize (H m 1 c zp zp (fun _ _ => 0) [1] 1 [1] _ _ Wo Hc eq_refl ltac:(discriminate) ltac:(lra) L Ap ltac:(auto)).
  unfold apply_drift_noise in H. simpl cv_to in H. rewrite T2 in H. cbn [bind fst snd combine] in H. unfold mapiM in H.
  cbn [mapiM_from nm_drift wan_noise fst snd] in H. unfold wan_drift in H. rewrite L in H. rewrite !Pn in H by lra. cbn [bind] in H. simpl in H.
  injection H as H. lra.
Qed.
(** Drifting to any time that is not in the table, in particular the default
    [t_inference = 0], raises an error. *)
Theorem C38_wan_times : forall dic gmax ns ref c zd w nus t,
  lookupR t (wa_dic (wan_new dic gmax ns ref)) = None -> length nus = 2%nat ->
  apply_drift_noise (sp_conv c) (wan_noise (wan_new dic gmax ns ref)) zd w nus t = Raise ArgumentError.
Proof.
  intros dic gmax ns ref c zd w nus t Hl Hn. destruct nus as [|n1 nus]; [discriminate|]. unfold apply_drift_noise. simpl cv_to. unfold sp_to. cbn [bind fst snd combine].
  unfold mapiM. cbn [mapiM_from nm_drift wan_noise]. unfold wan_drift. rewrite Hl. reflexivity.
Qed.
Theorem C38_wan_default_time_refuted : forall gmax ns ref c zd w nus, length nus = 2%nat ->
  apply_drift_noise (sp_conv c) (wan_noise (wan_new None gmax ns ref)) zd w nus 0 = Raise ArgumentError.
Proof.
  intros. apply C38_wan_times; auto. simpl. repeat (rcase; [lra|]). reflexivity.
Qed.
(** The default coefficients (fitted at 40 uS) are not rescaled for another [g_max]. *)
Theorem C38_wan_reference_refuted :
  ~ (forall gmax ns z g g', 0 < gmax -> wan_prog (wan_new None gmax ns None) z g = Ok g' ->
     g' = mapi (fun i v => Rmax (v + ns * (poly (snd (hd (0, []) wan_default)) (v / gmax) * (gmax / 40)) * z i) 0) g).
Proof.
  intros H. specialize (H 20 1 (fun _ => 1) [0]).
  assert (E : wan_prog (wan_new None 20 1 None) (fun _ => 1) [0] = Ok [348/1000]).
  { unfold wan_prog. replace (minlist (map fst (wa_dic (wan_new None 20 1 None)))) with 1 by (simpl; mm). simpl.
    rewrite (proj2 (Reqb_true 1 1)) by reflexivity. unfold wan_poly. simpl. rewrite (proj2 (Reqb_false 20 0)) by lra. unfold mapi; simpl.
    f_equal. f_equal. replace (0 / 20) with 0 by field. replace (20 / 20) with 1 by field. rewrite Rmax_left; lra. }
  specialize (H _ ltac:(lra) E). simpl in H. unfold mapi in H. simpl in H. injection H as H.
  replace (0 / 20) with 0 in H by field. revert H. mm.
Qed.
Example C37_nonvacuous : exists c, sp_new 25 0 = Ok c /\ power_law pcm_default (pcm_new pcm_default) /\ sensible pcm_default.
Proof. eexists. split; [unfold sp_new, check_g; repeat rcase; try lra; reflexivity|]. split; [constructor|apply sensible_default]. Qed.
Example C33_nonvacuous : exists g', pl_prog (pcm_new pcm_default) (fun _ => -1) [25; 0] = Ok g'.
Proof. unfold pl_prog. simpl. rewrite (proj2 (Reqb_false 25 0)) by lra. eauto. Qed.

Print Assumptions C33_conductances_nonneg.
Print Assumptions C33_drift_coefficients_nonneg.
Print Assumptions C33_wan_nonneg.
Print Assumptions C33_pcm_mean_nu.
Print Assumptions C34_pairs_exact.
Print Assumptions C34_noiseless_programming.
Print Assumptions C35_drift_power_law.
Print Assumptions C35_uniform_drift.
Print Assumptions C35_decay_facts.
Print Assumptions C35_sign_g_min_refuted.
Print Assumptions C36_program_then_drift.
Print Assumptions C36_programmed_conductances_refuted.
Print Assumptions C37_total.
Print Assumptions C37_apply_noise_zero_refuted.
Print Assumptions C37_reference_refuted.
Print Assumptions C38_wan_apply_noise.
Print Assumptions C38_wan_drift_refuted.
Print Assumptions C38_wan_times.
Print Assumptions C38_wan_default_time_refuted.
Print Assumptions C38_wan_reference_refuted.
