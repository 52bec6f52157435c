(** * Remapping a tile (C88) *)
From Verif Require Import Prelude Rand CompModel PeriModel PeriSpec PeriProofs PeriProofs4 HwaModel HwaSpec HwaProofs HwaProps2.

(** the remapping is one that keeps the logical weights: layerwise or channelwise, with positive
    scales when their range is bounded *)
Definition remap_ok (p : rpar) (s : vec) : Prop :=
  0 < wr_wmax p /\
  (wr_type p = RmLayer \/ (wr_type p = RmChannel /\ wr_range p <= 0) \/
   (wr_type p = RmChannel /\ 0 < wr_range p /\ forall a, In a s -> 0 < a)).
Lemma core_logical p d x w s w' s' : shape d x w -> length s = d -> (0 < d)%nat -> (0 < x)%nat -> remap_ok p s -> remap_core p w s = Ok (w', s') -> same_logical d x w s w' s'.
Proof.
  intros S L D X (W & [T | [(T & Rg) | (T & Rg & P)]]) E.
  - destruct (C86_layer p d x w s S L D X T W) as (a & b & Q & H & _). rewrite Q in E. now injection E as <- <-.
  - destruct (C86_channel p d x w s S L X T Rg W) as (a & b & Q & H & _). rewrite Q in E. now injection E as <- <-.
  - destruct (Req_dec (wr_wmax p) 1) as [O | O]; [|rewrite C87_wmax_one in E by auto; discriminate].
    destruct (C87_bounded p d x w s (min_list s) S L X T Rg O P) as (a & b & Q & H & _); [apply min_list_spec; intros ->; cbn in L; lia|]. rewrite Q in E. now injection E as <- <-.
Qed.
Lemma scale_rows_ent s w d x i j : shape d x w -> length s = d -> (i < d)%nat -> (j < x)%nat -> ent (scale_rows s w) i j = nth i s 0 * ent w i j.
Proof.
  intros S L Hi Hj. assert (Lw : length w = d) by (now destruct S). rewrite (scale_rows_ex d) by (auto; now right). assert (E : ex d s = s). { unfold ex. destruct s as [|a [|b s]]; auto. cbn in L. subst d. reflexivity. }
  rewrite E. unfold ent. rewrite (nth_map2 _ _ _ 0 [] []) by lia. apply (nth_map_R (Rmult (nth i s 0)) (nth i w []) j). now rewrite (shape_row d x).
Qed.
Lemma same_logical_scaled d x w s w' s' : shape d x w -> length s = d -> same_logical d x w s w' s' -> scale_rows s' w' = scale_rows s w.
Proof.
  intros S L (S' & L' & H). apply (mat_ext d x); [apply scale_rows_shape; auto; now right | apply scale_rows_shape; auto; now right|].
  intros i j Hi Hj. rewrite !(scale_rows_ent _ _ d x) by auto. now apply H.
Qed.
(** reading the logical weights is scaling first and separating then *)
Lemma logical_eq c t g : shape (c_out c) (xs c) (t_w t) -> get_scales t = Some g -> okl (c_out c) g ->
  logical c t = (fst (separate_weights c (scale_rows g (t_w t))), if digital_bias c then t_bias t else snd (separate_weights c (scale_rows g (t_w t)))).
Proof.
  intros W E O. unfold logical, get_weights. rewrite separate_scale by auto. cbn [fst snd]. rewrite E. cbn [negb]. unfold separate_weights. destruct (analog_bias c) eqn:A; cbn [fst snd option_map].
  - f_equal. destruct (digital_bias c) eqn:D; [now rewrite (analog_not_digital c A) in D|]. cbn [option_map]. f_equal. apply bmul_full; auto. rewrite map_length. now destruct W.
  - destruct (digital_bias c); reflexivity.
Qed.
Lemma scale_rows_ex_eq n a b m : okl n a -> okl n b -> length m = n -> ex n a = ex n b -> scale_rows a m = scale_rows b m.
Proof. intros A B L E. now rewrite !(scale_rows_ex n), E by auto. Qed.

Lemma remap_step_spec c p t s t' : wf c t -> (0 < c_out c)%nat -> (0 < c_in c)%nat -> c_mapping c = true -> t_ms t <> MsNone -> get_scales t = Some s -> remap_ok p s -> remap_step c p t = Ok t' ->
  exists w' s', remap_core p (t_w t) s = Ok (w', s') /\ t_w t' = w' /\ t_bias t' = t_bias t /\ wf c t' /\ length s = c_out c /\ same_logical (c_out c) (xs c) (t_w t) s w' s' /\ exists g, get_scales t' = Some g /\ okl (c_out c) g /\ ex (c_out c) g = s'.
Proof.
  intros W D I M Ms Es Ok_ H. unfold remap_step in H. rewrite Es in H. destruct (Nat.eqb_spec (length s) (length (t_w t))) as [L | L]; cbn [negb] in H; [|discriminate]. assert (Lw : length (t_w t) = c_out c) by apply (wf_w _ _ W).
  assert (Ls : length s = c_out c) by congruence. destruct (remap_core p (t_w t) s) as [[w' s'] | e] eqn:Ec; cbn [bind fst snd] in H; [|discriminate].
  assert (Hm : exists m, ms_val t = Some m). { pose proof (wf_nalias _ _ W). unfold ms_val. destruct (t_ms t); [congruence | eauto | congruence]. } destruct Hm as [m Hm].
  assert (Ht : t' = set_scales c (STensor s') (with_w t w')). { unfold get_scales_arg in H. rewrite Hm in H. destruct (t_los t); now injection H as <-. }
  assert (X : (0 < xs c)%nat) by (unfold xs; destruct (analog_bias c); lia).
  pose proof (core_logical p _ _ _ _ _ _ (wf_w _ _ W) Ls D X Ok_ Ec) as SL. destruct SL as (S' & Ls' & Hl). assert (W1 : wf c (with_w t w')). { destruct W as [W1 W2 W3 W4 W5]. constructor; auto. }
  assert (Os : okl (c_out c) s') by (now right). destruct (set_scales_tensor c (with_w t w') s' W1 M Os) as (B1 & B2 & B3 & B4 & B5 & (m2 & Em & Om & Xm) & HL).
  destruct (get_scales_after c (with_w t w') s' W1 M Os) as (g & Eg & Og & Xg). exists w', s'. split; [reflexivity|]. rewrite Ht. split; [rewrite B1; reflexivity|]. split; [rewrite B2; reflexivity|]. split.
  { constructor; [rewrite B1; exact S' | intros v E; congruence | intros v E; now apply HL in E | exact B5 | rewrite B2; exact (wf_bias _ _ W1)]. }
  split; [exact Ls|]. split; [split; auto|]. exists g. split; [exact Eg|]. split; [exact Og|]. rewrite Xg. unfold ex. destruct s' as [|a [|b s']]; auto. cbn in Ls'. rewrite <- Ls'. reflexivity.
Qed.

(** C88: remapping a tile that has mapping scales does not change the logical weights and bias *)
Theorem C88_logical : forall c p t s t', reachable c t -> (0 < c_in c)%nat -> c_mapping c = true -> t_ms t <> MsNone -> get_scales t = Some s -> remap_ok p s -> remap_step c p t = Ok t' ->
  logical c t' = logical c t.
Proof.
  intros c p t s t' R I M Ms Es Ok_ H. pose proof (reachable_wf _ _ R) as W. pose proof (reachable_out _ _ R) as D. destruct (remap_step_spec c p t s t' W D I M Ms Es Ok_ H) as (w' & s' & Ec & Tw & Tb & W' & Ls & SL & g & Eg & Og & Xg).
  destruct SL as (S' & Ls' & Hl). rewrite (logical_eq c t' g), (logical_eq c t s); auto; try (now right); try apply (wf_w _ _ W); try apply (wf_w _ _ W'). rewrite Tw, Tb.
  assert (E : scale_rows g w' = scale_rows s (t_w t)). { rewrite <- (same_logical_scaled (c_out c) (xs c) (t_w t) s w' s'); auto; [|apply (wf_w _ _ W) | split; auto]. apply (scale_rows_ex_eq (c_out c)); auto; [now right | now destruct S'|]. rewrite Xg. unfold ex. destruct s' as [|a [|b s']]; auto. cbn in Ls'. rewrite <- Ls'. reflexivity. }
  now rewrite E.
Qed.
(** .. and (with unbounded scales) leaves weights not larger than the wanted maximum *)
Theorem C88_range : forall c p t s t' i j, reachable c t -> (0 < c_in c)%nat -> c_mapping c = true -> t_ms t <> MsNone -> get_scales t = Some s -> remap_ok p s -> (wr_type p = RmChannel -> wr_range p <= 0) -> remap_step c p t = Ok t' ->
  (i < c_out c)%nat -> (j < xs c)%nat -> Rabs (ent (t_w t') i j) <= wr_wmax p.
Proof.
  intros c p t s t' i j R I M Ms Es Ok_ Rg H Hi Hj. pose proof (reachable_wf _ _ R) as W. pose proof (reachable_out _ _ R) as D. destruct (remap_step_spec c p t s t' W D I M Ms Es Ok_ H) as (w' & s' & Ec & Tw & Tb & W' & Ls & (S' & Ls' & Hl) & _). rewrite Tw.
  assert (X : (0 < xs c)%nat) by lia. destruct Ok_ as (Wm & Ty). pose proof (wf_w _ _ W) as Sw. assert (Ty' : wr_type p = RmLayer \/ wr_type p = RmChannel) by (destruct Ty as [ | [[] | []]]; auto). destruct Ty' as [T | T].
  - destruct (C86_layer p _ _ _ _ Sw Ls D X T Wm) as (a & b & Q & _ & H1 & H2 & _). rewrite Q in Ec. injection Ec as -> ->. destruct (Req_dec (maxabs (concat (t_w t))) 0) as [Z | Z].
    + destruct H2 as [-> _]; [intros i0 j0 Hi0 Hj0; apply (proj1 (maxabs_zero _) Z); apply (in_ent (c_out c) (xs c)); eauto|]. assert (ent (t_w t) i j = 0) as ->; [|rewrite Rabs_R0; lra]. apply (proj1 (maxabs_zero _) Z). apply (in_ent (c_out c) (xs c)); eauto.
    + destruct H1 as [U _].
      * pose proof (concat_nonempty _ _ _ Sw D X) as Ne. destruct (maxabs_attained _ Ne) as (v & Hv & Ev). apply (in_ent (c_out c) (xs c)) in Hv as (i0 & j0 & Hi0 & Hj0 & ->); auto. exists i0, j0. split; auto. split; auto. intros E0. rewrite E0, Rabs_R0 in Ev. lra.
      * apply U. apply (in_ent (c_out c) (xs c)); eauto.
  - destruct (C86_channel p _ _ _ _ Sw Ls X T (Rg T) Wm) as (a & b & Q & _ & H1 & H2 & _). rewrite Q in Ec. injection Ec as -> ->.
    destruct (Req_dec (maxabs (row (t_w t) i)) 0) as [Z | Z].
    + assert (Zi : zero_row (t_w t) i) by (intros v Hv; now apply (proj1 (maxabs_zero _) Z)). destruct (H2 i Hi Zi) as [E _]. change (ent w' i j) with (nth j (row w' i) 0). rewrite E. rewrite (Zi (nth j (row (t_w t) i) 0)); [rewrite Rabs_R0; lra|]. apply nth_In. unfold row. now rewrite (shape_row (c_out c) (xs c)).
    + destruct (H1 i Hi) as [U _]; [intros Zi; apply Z; now apply maxabs_zero|]. apply U. unfold ent, row. apply nth_In. now rewrite (shape_row (c_out c) (xs c)).
Qed.
(** The call refuses tiles without scales, and those with a single scale for several outputs *)
Theorem C88_refused : forall c p t, (get_scales t = None -> remap_step c p t = Raise TypeError) /\
  (forall s, get_scales t = Some s -> length s <> length (t_w t) -> remap_step c p t = Raise RuntimeError).
Proof.
  intros c p t. unfold remap_step. split; [now intros ->|]. intros s -> N. apply Nat.eqb_neq in N. now rewrite N.
Qed.
Lemma bmul_ones n : bmul (repeat 1 n) (repeat 1 n) = repeat 1 n.
Proof.
  destruct n as [|[|n]]; cbn [repeat bmul map]; [reflexivity | now rewrite Rmult_1_l|]. change (map2 Rmult (repeat 1 (S (S n))) (repeat 1 (S (S n))) = repeat 1 (S (S n))). generalize (S (S n)). intros k. induction k; cbn; auto. rewrite IHk, Rmult_1_l. reflexivity.
Qed.
Lemma core_length p w s w' s' : length s = length w -> remap_core p w s = Ok (w', s') -> length s' = length w.
Proof.
  intros L E. unfold remap_core in E. destruct (wr_type p); [now injection E as _ <- | |].
  - cbv zeta in E. destruct (Rltb 0 (maxabs_mat w / wr_wmax p)); injection E as _ <-; [now rewrite map_length | auto].
  - destruct (Rleb (wr_range p) 0); cbv zeta in E; [|destruct (Reqb (wr_wmax p) 1); cbn [negb] in E; [|discriminate]]; injection E as _ <-; rewrite map2_length, ?map_length; lia.
Qed.
(** A tile whose only scales are learned output scales: the C++ code writes the new scales into
    the parameter itself, which is then reset to 1, so the scale is lost. *)
Theorem C88_learned_only_refuted : forall c p t l t', c_mapping c = true -> t_ms t = MsNone -> t_los t = Some l -> remap_step c p t = Ok t' ->
  get_scales t' = Some (repeat 1 (length (t_w t))).
Proof.
  intros c p t l t' M Ms Lo H. unfold remap_step in H. assert (Es : get_scales t = Some l) by (unfold get_scales, ms_val; now rewrite Ms, Lo). rewrite Es in H. destruct (Nat.eqb_spec (length l) (length (t_w t))) as [L | L]; cbn [negb] in H; [|discriminate].
  destruct (remap_core p (t_w t) l) as [[w' s'] | e] eqn:Ec; cbn [bind fst snd] in H; [|discriminate]. assert (Ea : get_scales_arg t = SOutAlpha) by (unfold get_scales_arg, ms_val; now rewrite Ms, Lo). rewrite Ea in H.
  pose proof (core_length _ _ _ _ _ L Ec) as Ls. injection H as <-. destruct t as [tw tms tlos tlrs tb tir tlr]. cbn [t_ms t_los t_w] in *. subst tms tlos. unfold set_scales, set_mapping_scales, ms_val, with_los, with_w, with_ms. rewrite M. cbn [negb t_ms t_los t_w].
  unfold set_learned_out_scales_one. destruct (c_lrcomp c); unfold get_scales, ms_val, with_lrs, with_los; cbn [t_ms t_los t_w]; rewrite Ls; f_equal; apply bmul_ones.
Qed.
(** .. for example: weight 1/2 with scale 3 becomes weight 1 with scale 1 *)
Definition lo_cfg : pcfg := {| c_out := 1; c_in := 1; c_mapping := true; c_omega := 0; c_colwise := false; c_lrcomp := false; c_learn_out := true; c_out_colwise := true; c_bias := false; c_digital := false |}.
Definition lo_tile : ptile := {| t_w := [[1/2]]; t_ms := MsNone; t_los := Some [3]; t_lrs := 1; t_bias := None; t_ir := None; t_lr := 1 |}.
Theorem C88_learned_only_example : reachable lo_cfg lo_tile /\ logical lo_cfg lo_tile = ([[3 * (1/2)]], None) /\
  forall p t', wr_type p = RmLayer -> wr_wmax p = 1 -> remap_step lo_cfg p lo_tile = Ok t' -> logical lo_cfg t' = ([[1]], None).
Proof.
  split; [|split; [reflexivity|]].
  - exists [[1/2]], None, 1, [OpLearned [3]]. split; [cbn; lia|]. split; [split; [reflexivity | repeat constructor]|]. split; [exact Logic.I|]. split; [repeat constructor|].
    unfold ptile_new, init_mapping_scales, init_learned_out_scales. cbn [lo_cfg c_mapping negb c_omega c_learn_out c_out_colwise c_out]. rewrite (proj2 (Reqb_true 0 0) eq_refl). reflexivity.
  - intros p t' T W H. pose proof (C88_learned_only_refuted lo_cfg p lo_tile [3] t' eq_refl eq_refl eq_refl H) as G. cbn [lo_tile t_w length repeat] in G.
    assert (Tw : t_w t' = [[1]]).
    { unfold remap_step in H. cbn [lo_tile get_scales ms_val t_ms t_los t_w length Nat.eqb negb] in H. unfold remap_core in H. rewrite T, W in H. assert (Mm : maxabs_mat [[1/2]] = 1/2) by (cbn [maxabs_mat maxabs fold_right]; mm). rewrite Mm in H. cbn [map] in H. cbv zeta in H. rewrite (proj2 (Rltb_true 0 (1/2/1))) in H by lra. cbn [bind fst snd get_scales_arg ms_val t_ms t_los lo_tile] in H.
      injection H as <-. unfold set_scales, set_mapping_scales, set_learned_out_scales_one. cbn. f_equal. f_equal. lra. }
    unfold logical, get_weights. rewrite G, Tw. unfold separate_weights, analog_bias, digital_bias. cbn. f_equal. f_equal. f_equal. lra.
Qed.
(** and a case that meets the hypotheses of [C88_logical] *)
Definition rm_cfg : pcfg := {| c_out := 2; c_in := 1; c_mapping := true; c_omega := 1; c_colwise := true; c_lrcomp := false; c_learn_out := false; c_out_colwise := true; c_bias := true; c_digital := false |}.
Theorem C88_nontrivial : exists p t s t', reachable rm_cfg t /\ t_ms t <> MsNone /\ get_scales t = Some s /\ remap_ok p s /\ remap_step rm_cfg p t = Ok t'.
Proof.
  set (t0 := ptile_new rm_cfg [[1/2; 3]; [0; -4]] None 1). exists {| wr_type := RmChannel; wr_wmax := 1; wr_range := 0; wr_ref := 0 |}, (set_scales rm_cfg (STensor [2; 3]) t0), [2; 3].
  assert (E0 : t0 = {| t_w := [[1/2; 3]; [0; -4]]; t_ms := MsNone; t_los := None; t_lrs := 1; t_bias := None; t_ir := None; t_lr := 1 |}).
  { unfold t0, ptile_new, init_mapping_scales, init_learned_out_scales. cbn [rm_cfg c_mapping negb c_omega c_colwise c_learn_out]. rewrite (proj2 (Reqb_false 1 0)) by lra. reflexivity. }
  assert (Es : get_scales (set_scales rm_cfg (STensor [2; 3]) t0) = Some [2; 3]) by (now rewrite E0).
  eexists. split; [|split; [|split; [exact Es|split]]].
  - exists [[1/2; 3]; [0; -4]], None, 1, [OpScales [2; 3]]. split; [cbn; lia|]. split; [split; [reflexivity | repeat constructor]|]. split; [exact Logic.I|]. split; [|reflexivity]. constructor; [|constructor]. cbn [valid]. split; [right; reflexivity|]. split; [discriminate|]. repeat constructor; lra.
  - rewrite E0. discriminate.
  - split; [cbn; lra|]. right; left. split; [reflexivity | cbn; lra].
  - unfold remap_step. rewrite Es. assert (Tw : t_w (set_scales rm_cfg (STensor [2; 3]) t0) = [[1/2; 3]; [0; -4]]) by (now rewrite E0). rewrite Tw. cbn [length Nat.eqb negb]. rewrite ch_core by (try reflexivity; cbn; lra). cbn [bind fst snd]. rewrite E0. reflexivity.
Qed.

Print Assumptions C88_logical.
Print Assumptions C88_range.
Print Assumptions C88_refused.
Print Assumptions C88_learned_only_refuted.
Print Assumptions C88_learned_only_example.
Print Assumptions C88_nontrivial.
