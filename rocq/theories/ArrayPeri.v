(** Instantiation of the tile array with periphery tiles (ideal simulator tile). *)
From Verif Require Import Prelude ArrayModel ArrayProofs PeriModel PeriProofs PeriProofs2.

(** The physical tiles of an array share the mapping configuration [c] and are
    created with [bias=False] (array.py:74-76). *)
Definition sub_cfg (c : pcfg) (o i : nat) : pcfg :=
  {| c_out := o; c_in := i; c_mapping := c_mapping c; c_omega := c_omega c;
     c_colwise := c_colwise c; c_lrcomp := c_lrcomp c; c_learn_out := c_learn_out c;
     c_out_colwise := c_out_colwise c; c_bias := false; c_digital := c_digital c |}.
Definition atile : Type := (pcfg * ptile)%type.
Definition at_new (c : pcfg) (lr : R) (o i : nat) : atile :=
  (sub_cfg c o i, ptile_new (sub_cfg c o i) (repeat (repeat 0 i) o) None lr).
Definition at_set (t : atile) (w : mat) : atile :=
  match set_weights (fst t) w None true None (snd t) with
  | Ok t' => (fst t, t')
  | Raise _ => t
  end.
Definition at_get (t : atile) : mat := fst (get_weights (fst t) true (snd t)).
Definition at_fwd (t : atile) (x : vec) : vec := forward (fst t) (snd t) x.

Definition at_good (c : pcfg) (o i : nat) (t : atile) : Prop :=
  fst t = sub_cfg c o i /\ wf (fst t) (snd t) /\ t_ir (snd t) = None
  /\ (c_mapping c = false \/ c_omega c <= 0 -> forall g, get_scales (snd t) = Some g -> Forall (eq 1) g).

Lemma repeat_all {A} (a : A) n : Forall (eq a) (repeat a n).
Proof. induction n; simpl; constructor; auto. Qed.

Lemma new_unit c w0 lr g : get_scales (ptile_new c w0 None lr) = Some g -> Forall (eq 1) g.
Proof.
  unfold ptile_new, init_mapping_scales, init_learned_out_scales, set_mapping_scales, get_scales, ms_val.
  destruct (c_mapping c), (c_learn_out c), (c_out_colwise c), (c_colwise c), (c_lrcomp c); simpl;
  destruct (Reqb (c_omega c) 0); simpl; intros E; try discriminate; injection E as <-;
  repeat (constructor; try lra); try apply repeat_all;
  try (apply Forall_forall; intros z Hz; apply in_map_iff in Hz as [y [<- Hy]]; apply repeat_spec in Hy; lra).
Qed.

Lemma at_good_new c lr o i : at_good c o i (at_new c lr o i).
Proof.
  unfold at_good, at_new; simpl. split; [reflexivity|]. split.
  - apply ptile_new_wf. split; [apply repeat_length|].
    apply Forall_forall; intros r Hr. apply repeat_spec in Hr; subst. apply repeat_length.
  - split.
    + unfold ptile_new, init_mapping_scales, init_learned_out_scales, set_mapping_scales; simpl.
      destruct (c_mapping c), (c_learn_out c), (c_out_colwise c), (c_colwise c), (c_lrcomp c); simpl;
      destruct (Reqb (c_omega c) 0); reflexivity.
    + intros _ g E. eapply new_unit; eauto.
Qed.

Lemma at_set_spec c o i t w : at_good c o i t -> shape o i w ->
  at_good c o i (at_set t w) /\ at_get (at_set t w) = w.
Proof.
  destruct t as [cc t]. unfold at_good, at_get, at_set; simpl.
  intros (-> & W & Ir & U) Hw.
  assert (Hb : bias_ok (sub_cfg c o i) None) by reflexivity.
  destruct (c_mapping c) eqn:M; [destruct (Rle_dec (c_omega c) 0) as [Ho|Ho]|].
  - destruct (set_get_unscaled (sub_cfg c o i) t w None None true W Hw Hb) as (t' & E & W' & G & K1 & K2 & K3).
    { right; right; exact Ho. }
    assert (U' : forall g, get_scales t' = Some g -> Forall (eq 1) g).
    { intros g Eg. apply U; auto. rewrite <- Eg. unfold get_scales, ms_val. now rewrite K1, K2. }
    assert (Ir' : t_ir t' = None).
    { revert E. unfold set_weights, apply_weight_scaling, combine_weights; simpl.
      rewrite M; simpl. unfold omega_of. destruct (Rltb 0 (c_omega c)) eqn:El; [apply Rltb_true in El; lra|].
      unfold analog_bias; simpl. intros E; injection E as <-; auto. }
    rewrite E. cbn [fst snd]. split; [auto|].
    rewrite (get_true_of_unit_scales _ _ W' U'), G. reflexivity.
  - destruct (set_get_scaled (sub_cfg c o i) t w None None W Hw Hb) as (t' & E & W' & G & Ir' & _); auto.
    { unfold omega_of; simpl; lra. }
    rewrite E. cbn [fst snd]. split; [|rewrite G; reflexivity].
    split; auto. split; auto. split; [congruence|]. intros [?|?]; [congruence|lra].
  - destruct (set_get_unscaled (sub_cfg c o i) t w None None true W Hw Hb) as (t' & E & W' & G & K1 & K2 & K3).
    { right; left; exact M. }
    assert (U' : forall g, get_scales t' = Some g -> Forall (eq 1) g).
    { intros g Eg. apply U; auto. rewrite <- Eg. unfold get_scales, ms_val. now rewrite K1, K2. }
    assert (Ir' : t_ir t' = None).
    { revert E. unfold set_weights, apply_weight_scaling, combine_weights; simpl.
      rewrite M; simpl. unfold analog_bias; simpl. intros E; injection E as <-; auto. }
    rewrite E. cbn [fst snd]. split; [auto|].
    rewrite (get_true_of_unit_scales _ _ W' U'), G. reflexivity.
Qed.

Lemma at_fwd_spec c o i t x : at_good c o i t -> length x = i -> at_fwd t x = matvec (at_get t) x.
Proof.
  destruct t as [cc t]. unfold at_good, at_fwd, at_get; simpl. intros (-> & W & Ir & _) Lx.
  rewrite forward_lemma; auto; [|rewrite Ir; exact I].
  destruct (get_weights_shape _ _ W) as [_ B].
  assert (E : snd (get_weights (sub_cfg c o i) true t) = None).
  { destruct (snd (get_weights (sub_cfg c o i) true t)); auto. destruct B as [B _]; discriminate. }
  rewrite E. reflexivity.
Qed.
Lemma at_get_shape c o i t : at_good c o i t -> shape o i (at_get t).
Proof.
  destruct t as [cc t]. unfold at_good, at_get; simpl. intros (-> & W & _ & _).
  exact (proj1 (get_weights_shape _ _ W)).
Qed.

Lemma mapped_array_lemma c lr os is mo mi bias a w b x :
  (0 < os)%nat -> (0 < is)%nat ->
  tarray_new atile (at_new c lr) os is mo mi bias = Ok a ->
  shape os is w -> length b = os -> length x = is ->
  let a' := tarray_set_weights atile at_set a w (Some b) in
  tarray_get_weights atile at_get a' = (w, if bias then Some b else None)
  /\ tarray_forward atile at_fwd a' x = (if bias then vadd (matvec w x) b else matvec w x).
Proof.
  intros Ho Hi En Hw Hb Hx.
  pose proof (tarray_new_wf atile (at_new c lr) (at_good c) (at_good_new c lr) os is mo mi bias a Ho Hi En) as Wf.
  assert (GS : forall o i t w, (0 < o)%nat -> (0 < i)%nat -> at_good c o i t -> shape o i w -> at_get (at_set t w) = w)
    by (intros o i t w0 _ _ G S; apply (at_set_spec c o i t w0 G S)).
  assert (GG : forall o i t w, (0 < o)%nat -> (0 < i)%nat -> at_good c o i t -> shape o i w -> at_good c o i (at_set t w))
    by (intros o i t w0 _ _ G S; apply (at_set_spec c o i t w0 G S)).
  destruct (array_get_set_lemma atile (at_new c lr) at_set at_get at_fwd (at_good c) (at_good_new c lr) GS GG os is a w (Some b) Ho Hi Wf Hw Hb) as (A & B & C).
  cbv zeta.
  assert (Bias : ta_bias a = if bias then Some (repeat 0 os) else None).
  { revert En. unfold tarray_new.
    destruct (get_split_sizes (Z.of_nat is) mi); [|discriminate]; simpl.
    destruct (get_split_sizes (Z.of_nat os) mo); [|discriminate]; simpl.
    intros E; injection E as <-. reflexivity. }
  assert (Eget : tarray_get_weights atile at_get (tarray_set_weights atile at_set a w (Some b)) = (w, if bias then Some b else None)).
  { rewrite (surjective_pairing (tarray_get_weights _ _ _)), A, B, Bias. destruct bias; reflexivity. }
  split; [exact Eget|].
  assert (FW : forall o i t x, (0 < o)%nat -> (0 < i)%nat -> at_good c o i t -> length x = i ->
      at_fwd t x = matvec (at_get t) x) by (intros o i t x0 _ _ G L; eapply at_fwd_spec; eauto).
  assert (SH : forall o i t, at_good c o i t -> shape o i (at_get t)) by (intros o i t G; eapply at_get_shape; eauto).
  rewrite (array_forward_lemma atile (at_new c lr) at_set at_get at_fwd (at_good c)
             (at_good_new c lr) GS GG FW SH os is); auto.
  rewrite Eget. destruct bias; reflexivity.
Qed.

(** histories of [set_weights] calls, and totality of the constructor *)
Definition set_all (a : tarray atile) (hist : list (mat * option vec)) : tarray atile :=
  fold_left (fun a '(w, b) => tarray_set_weights atile at_set a w b) hist a.
Definition wb_ok (os is : nat) (wb : mat * option vec) : Prop :=
  shape os is (fst wb) /\ match snd wb with Some v => length v = os | None => True end.

Lemma array_history_lemma c lr os is mo mi bias a hist x :
  (0 < os)%nat -> (0 < is)%nat ->
  tarray_new atile (at_new c lr) os is mo mi bias = Ok a ->
  Forall (wb_ok os is) hist -> length x = is ->
  let a' := set_all a hist in
  (forall w b h, hist = h ++ [(w, b)] ->
     tarray_get_weights atile at_get a'
     = (w, if bias then match b with Some v => Some v | None => snd (tarray_get_weights atile at_get (set_all a h)) end else None))
  /\ tarray_forward atile at_fwd a' x =
      (let '(w, b) := tarray_get_weights atile at_get a' in
       match b with Some v => vadd (matvec w x) v | None => matvec w x end).
Proof.
  intros Ho Hi En F Hx.
  pose proof (tarray_new_wf atile (at_new c lr) (at_good c) (at_good_new c lr) os is mo mi bias a Ho Hi En) as Wf.
  assert (GS : forall o i t w, (0 < o)%nat -> (0 < i)%nat -> at_good c o i t -> shape o i w -> at_get (at_set t w) = w)
    by (intros o i t w0 _ _ G S; apply (at_set_spec c o i t w0 G S)).
  assert (GG : forall o i t w, (0 < o)%nat -> (0 < i)%nat -> at_good c o i t -> shape o i w -> at_good c o i (at_set t w))
    by (intros o i t w0 _ _ G S; apply (at_set_spec c o i t w0 G S)).
  assert (FW : forall o i t x, (0 < o)%nat -> (0 < i)%nat -> at_good c o i t -> length x = i ->
      at_fwd t x = matvec (at_get t) x) by (intros o i t x0 _ _ G L; eapply at_fwd_spec; eauto).
  assert (SH : forall o i t, at_good c o i t -> shape o i (at_get t)) by (intros o i t G; eapply at_get_shape; eauto).
  assert (Bias : (ta_bias a = None <-> bias = false)).
  { revert En. unfold tarray_new.
    destruct (get_split_sizes (Z.of_nat is) mi); [|discriminate]; simpl.
    destruct (get_split_sizes (Z.of_nat os) mo); [|discriminate]; simpl.
    intros E; injection E as <-. simpl. destruct bias; split; congruence. }
  assert (WfAll : forall h, Forall (wb_ok os is) h -> ArrayProofs.wf atile (at_good c) os is (set_all a h)
             /\ (ta_bias (set_all a h) = None <-> bias = false)).
  { intros h. induction h as [|[w b] h IH] using rev_ind; intros Fh; [split; auto|].
    apply Forall_app in Fh as [F1 F2]. pose proof (Forall_inv F2) as [Hw Hb]. simpl in Hw, Hb.
    unfold set_all. rewrite fold_left_app. simpl. fold (set_all a h).
    destruct (IH F1) as [W1 B1].
    destruct (array_get_set_lemma atile (at_new c lr) at_set at_get at_fwd (at_good c) (at_good_new c lr) GS GG os is _ w b Ho Hi W1 Hw Hb) as (A & B & C).
    split; auto. simpl. destruct (ta_bias (set_all a h)) eqn:E; [destruct b|]; auto.
    split; [discriminate|]. intros Q; apply B1 in Q; discriminate. }
  cbv zeta. split.
  - intros w b h ->. apply Forall_app in F as [F1 F2]. pose proof (Forall_inv F2) as [Hw Hb]. simpl in Hw, Hb.
    destruct (WfAll h F1) as [W1 B1].
    unfold set_all at 1. rewrite fold_left_app. simpl fold_left. fold (set_all a h).
    destruct (array_get_set_lemma atile (at_new c lr) at_set at_get at_fwd (at_good c) (at_good_new c lr) GS GG os is _ w b Ho Hi W1 Hw Hb) as (A & B & C).
    rewrite (surjective_pairing (tarray_get_weights _ _ _)), A, B.
    unfold tarray_get_weights; cbn [snd].
    destruct bias.
    + destruct (ta_bias (set_all a h)) as [v0|] eqn:E; [destruct b; reflexivity|].
      destruct B1 as [B1 _]. specialize (B1 eq_refl); congruence.
    + destruct B1 as [_ B1]. rewrite (B1 eq_refl). reflexivity.
  - destruct (WfAll hist F) as [W1 _].
    apply (array_forward_lemma atile (at_new c lr) at_set at_get at_fwd (at_good c)
             (at_good_new c lr) GS GG FW SH os is); auto.
Qed.

Lemma array_new_total c lr os is mo mi bias : (0 < os)%nat -> (0 < is)%nat ->
  exists a, tarray_new atile (at_new c lr) os is mo mi bias = Ok a
   /\ fold_right Nat.add 0%nat (ta_in_sizes a) = is /\ fold_right Nat.add 0%nat (ta_out_sizes a) = os
   /\ ((0 < mi)%Z -> forall s, In s (ta_in_sizes a) -> (0 < s)%nat /\ (Z.of_nat s <= mi)%Z)
   /\ ((0 < mo)%Z -> forall s, In s (ta_out_sizes a) -> (0 < s)%nat /\ (Z.of_nat s <= mo)%Z)
   /\ Forall2 (fun i row => Forall2 (fun o t => c_out (fst t) = o /\ c_in (fst t) = i) (ta_out_sizes a) row)
        (ta_in_sizes a) (ta_array a).
Proof.
  intros Ho Hi.
  assert (T : forall n mx, (0 < n)%nat -> exists l, get_split_sizes (Z.of_nat n) mx = Ok l).
  { intros n mx Hn. destruct (Z_le_gt_dec mx 0).
    - eexists; now apply split_sizes_unbounded.
    - destruct (split_sizes_lemma (Z.of_nat n) mx) as (l & E & _); try lia. eauto. }
  destruct (T is mi Hi) as [li Ei]. destruct (T os mo Ho) as [lo Eo].
  unfold tarray_new. rewrite Ei, Eo. simpl. eexists; split; [reflexivity|]. simpl.
  destruct (split_sizes_nat _ _ _ Hi Ei) as (S1 & _ & F1).
  destruct (split_sizes_nat _ _ _ Ho Eo) as (S2 & _ & F2).
  split; [exact S1|]. split; [exact S2|].
  split; [intros P s Hs; destruct (F1 s Hs); auto|].
  split; [intros P s Hs; destruct (F2 s Hs); auto|].
  clear. generalize (map Z.to_nat li) as ins, (map Z.to_nat lo) as outs. intros ins outs.
  induction ins as [|i ins IH]; simpl; constructor; auto.
  clear. induction outs as [|o outs IH]; simpl; constructor; auto.
Qed.
