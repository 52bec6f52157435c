From Verif Require Import Prelude PeriModel.

(** ** Normal form for broadcast scales *)
Definition ex (n : nat) (v : vec) : vec := match v with [a] => repeat a n | _ => v end.
Definition okl (n : nat) (v : vec) : Prop := length v = 1%nat \/ length v = n.

Lemma ex_length n v : okl n v -> length (ex n v) = n.
Proof.
  intros [H|H]; destruct v as [|a [|b v]]; simpl in *; try discriminate; try (now rewrite repeat_length);
  auto; try (subst n; auto).
Qed.
Lemma ex_map n f v : ex n (map f v) = map f (ex n v).
Proof. destruct v as [|a [|b v]]; simpl; auto. induction n; simpl; congruence. Qed.
Lemma okl_map n f v : okl n v -> okl n (map f v).
Proof. unfold okl; now rewrite map_length. Qed.

Lemma map2_repeat_l {A B C} (f : A -> B -> C) a l : map2 f (repeat a (length l)) l = map (f a) l.
Proof. induction l; simpl; congruence. Qed.
Lemma map2_repeat_r {A B C} (f : A -> B -> C) b l : map2 f l (repeat b (length l)) = map (fun a => f a b) l.
Proof. induction l; simpl; congruence. Qed.
Lemma map2_map_l {A A' B C} (f : A -> B -> C) (g : A' -> A) l k : map2 f (map g l) k = map2 (fun a b => f (g a) b) l k.
Proof. revert k; induction l; destruct k; simpl; congruence. Qed.
Lemma map2_map_r {A B B' C} (f : A -> B -> C) (g : B' -> B) l k : map2 f l (map g k) = map2 (fun a b => f a (g b)) l k.
Proof. revert k; induction l; destruct k; simpl; congruence. Qed.
Lemma map_map2 {A B C D} (f : A -> B -> C) (g : C -> D) l k : map g (map2 f l k) = map2 (fun a b => g (f a b)) l k.
Proof. revert k; induction l; destruct k; simpl; congruence. Qed.
Lemma map2_ext_in {A B C} (f g : A -> B -> C) l k :
  (forall a b, In a l -> In b k -> f a b = g a b) -> map2 f l k = map2 g l k.
Proof.
  revert k; induction l as [|a l IH]; intros [|b k] H; simpl; auto.
  f_equal; [apply H; left; auto | apply IH; intros; apply H; right; auto].
Qed.
Lemma map2_same {A C} (f : A -> A -> C) (l : list A) (g : A -> C) :
  (forall a, In a l -> f a a = g a) -> map2 f l l = map g l.
Proof. induction l; simpl; intros; auto. f_equal; [apply H; auto | apply IHl; auto]. Qed.
Lemma map2_snd {A B} (l : list A) (k : list B) : length l = length k -> map2 (fun _ b => b) l k = k.
Proof. revert k; induction l; destruct k; simpl; intros; try discriminate; f_equal; auto. Qed.
Lemma map2_fst {A B} (l : list A) (k : list B) : length l = length k -> map2 (fun a _ => a) l k = l.
Proof. revert k; induction l; destruct k; simpl; intros; try discriminate; f_equal; auto. Qed.

Lemma scale_rows_ex n v m : okl n v -> length m = n ->
  scale_rows v m = map2 (fun a row => map (Rmult a) row) (ex n v) m.
Proof.
  intros H E. destruct v as [|a [|b v]]; simpl; auto.
  subst n. now rewrite map2_repeat_l.
Qed.
Lemma scale_vec_ex n v m : okl n v -> length m = n -> scale_vec v m = map2 Rmult (ex n v) m.
Proof.
  intros H E. destruct v as [|a [|b v]]; simpl; auto.
  subst n. now rewrite map2_repeat_l.
Qed.
Lemma bmul_ok n a b : okl n a -> okl n b -> okl n (bmul a b).
Proof.
  unfold okl; intros Ha Hb; destruct a as [|x [|x' a]]; destruct b as [|y [|y' b]]; cbn [bmul map2] in *;
  rewrite ?map_length in *; cbn [length] in *; rewrite ?map2_length, ?map_length; try lia.
Qed.
Lemma bmul_ex n a b : okl n a -> okl n b -> ex n (bmul a b) = map2 Rmult (ex n a) (ex n b).
Proof.
  intros Ha Hb.
  destruct a as [|x [|x' a]].
  - destruct Ha as [Ha|Ha]; [discriminate|]. simpl in Ha; subst n.
    destruct b as [|y [|y' b]]; reflexivity.
  - cbn [bmul]. rewrite ex_map. simpl ex at 2.
    pose proof (ex_length n b Hb) as L.
    replace (repeat x n) with (repeat x (length (ex n b))) by (now rewrite L).
    now rewrite map2_repeat_l.
  - destruct b as [|y [|y' b]].
    + destruct Hb as [Hb|Hb]; [discriminate|]. simpl in Hb; subst n.
      destruct Ha as [Ha|Ha]; simpl in Ha; discriminate.
    + cbn [bmul]. rewrite ex_map.
      pose proof (ex_length n (x :: x' :: a) Ha) as L.
      change (ex n [y]) with (repeat y n).
      replace (repeat y n) with (repeat y (length (ex n (x :: x' :: a)))) by (now rewrite L).
      now rewrite map2_repeat_r.
    + destruct Ha as [Ha|Ha]; [simpl in Ha; discriminate|].
      destruct Hb as [Hb|Hb]; [simpl in Hb; discriminate|].
      reflexivity.
Qed.

Lemma bmul_full n g u : okl n g -> length u = n -> bmul g u = map2 Rmult (ex n g) u.
Proof.
  intros Og Lu. destruct g as [|x [|y g]].
  - destruct u as [|p [|q u]]; reflexivity.
  - simpl. rewrite <- Lu. now rewrite map2_repeat_l.
  - destruct u as [|p [|q u]]; [reflexivity| |reflexivity].
    destruct Og as [Og|Og]; simpl in *; try discriminate.
    rewrite <- Lu in Og. discriminate.
Qed.

(** ** Well-formed tiles *)
Definition xs (c : pcfg) : nat := if analog_bias c then S (c_in c) else c_in c.
Record wf (c : pcfg) (t : ptile) : Prop := {
  wf_w : shape (c_out c) (xs c) (t_w t);
  wf_ms : forall v, ms_val t = Some v -> okl (c_out c) v;
  wf_los : forall v, t_los t = Some v -> okl (c_out c) v;
  wf_nalias : t_ms t <> MsAlias;
  wf_bias : if digital_bias c then exists b, t_bias t = Some b /\ length b = c_out c else t_bias t = None
}.

Lemma ptile_new_wf c w0 ir lr : shape (c_out c) (xs c) w0 -> wf c (ptile_new c w0 ir lr).
Proof.
  intros H. unfold ptile_new, init_mapping_scales, init_learned_out_scales, set_mapping_scales.
  destruct (c_mapping c), (c_learn_out c), (c_out_colwise c), (c_colwise c), (c_lrcomp c); simpl;
  destruct (Reqb (c_omega c) 0); simpl;
  (split; simpl;
   [ exact H
   | intros v E; unfold ms_val in E; simpl in E; try discriminate; injection E as <-; left; reflexivity
   | intros v E; try discriminate; injection E as <-; unfold okl; simpl; rewrite ?repeat_length; auto
   | discriminate
   | destruct (digital_bias c); auto; eexists; split; [reflexivity | apply repeat_length] ]).
Qed.

Lemma analog_not_digital c : analog_bias c = true -> digital_bias c = false.
Proof. unfold analog_bias, digital_bias; destruct (c_bias c), (c_digital c); simpl; congruence. Qed.

(** What a user hands to / gets from the tile for a given bias configuration *)
Definition bias_ok (c : pcfg) (b : option vec) : Prop :=
  match b with
  | Some v => c_bias c = true /\ length v = c_out c
  | None => analog_bias c = false
  end.

Lemma combine_ok c w b : shape (c_out c) (c_in c) w -> bias_ok c b ->
  exists cw, combine_weights c w (if digital_bias c then None else b) = Ok cw
    /\ shape (c_out c) (xs c) cw
    /\ separate_weights c cw = (w, if analog_bias c then b else None).
Proof.
  intros [L F] Hb. unfold combine_weights, separate_weights, xs.
  destruct (analog_bias c) eqn:A.
  - rewrite (analog_not_digital c A). destruct b as [b|]; simpl in Hb; [|congruence].
    destruct Hb as [_ Hb].
    eexists; split; [reflexivity|]. split.
    + split; [rewrite map2_length; lia|].
      clear A L Hb. revert b; induction F as [|r w Hr F IH]; intros [|x b]; simpl; constructor; auto.
      rewrite app_length; simpl; lia.
    + f_equal.
      * rewrite map_map2. transitivity (map2 (fun (r : list R) (_ : R) => r) w b).
        -- apply map2_ext_in; intros. apply removelast_last.
        -- apply map2_fst; lia.
      * f_equal. rewrite map_map2. transitivity (map2 (fun (_ : list R) (x : R) => x) w b).
        -- apply map2_ext_in; intros. apply last_last.
        -- apply map2_snd; lia.
  - eexists; split; [destruct (digital_bias c); reflexivity|].
    split; [split; auto|reflexivity].
Qed.

(** ** The weight scaling step *)
Definition alphas (c : pcfg) (w : mat) (omega : R) : vec :=
  map (fun a => if Reqb a 0 then 1 else a)
      (map (fun m => m / omega) (if c_colwise c then map maxabs w else [maxabs_mat w])).
Definition omega_of (c : pcfg) (o : option R) : R := match o with Some r => r | None => c_omega c end.

Lemma alphas_ok c w omega : length w = c_out c -> okl (c_out c) (alphas c w omega).
Proof.
  intros; unfold alphas, okl; rewrite !map_length. destruct (c_colwise c); rewrite ?map_length; simpl; auto.
Qed.
Lemma alphas_pos c w omega a : 0 < omega -> In a (alphas c w omega) -> 0 < a.
Proof.
  unfold alphas; intros Ho H. apply in_map_iff in H as [b [<- Hb]].
  apply in_map_iff in Hb as [m [<- Hm]].
  rcase; [lra|].
  assert (0 <= m).
  { destruct (c_colwise c).
    - apply in_map_iff in Hm as [r [<- _]]. apply maxabs_nonneg.
    - destruct Hm as [<-|[]]. apply maxabs_mat_nonneg. }
  assert (0 <= m / omega) by (apply Rmult_le_pos; [auto | left; apply Rinv_0_lt_compat; lra]).
  lra.
Qed.
Lemma ex_In n v a : In a (ex n v) -> In a v.
Proof.
  destruct v as [|x [|y v]]; simpl; auto. intros H. left. symmetry; eapply repeat_spec; eauto.
Qed.

(** effect of [set_scales] with a tensor on a well-formed tile with a mapping *)
Lemma set_scales_tensor c t v : wf c t -> c_mapping c = true -> okl (c_out c) v ->
  let t' := set_scales c (STensor v) t in
  t_w t' = t_w t /\ t_bias t' = t_bias t /\ t_ir t' = t_ir t /\ t_lr t' = t_lr t
  /\ t_ms t' <> MsAlias
  /\ (exists m, ms_val t' = Some m /\ okl (c_out c) m /\ ex (c_out c) m = ex (c_out c) v)
  /\ (forall l, t_los t' = Some l -> okl (c_out c) l /\ ex (c_out c) l = repeat 1 (c_out c)).
Proof.
  intros W M Hv. unfold set_scales, set_mapping_scales. rewrite M; simpl negb; cbv iota.
  set (t1 := match ms_val t with Some _ => _ | None => _ end).
  assert (H1 : t_w t1 = t_w t /\ t_bias t1 = t_bias t /\ t_ir t1 = t_ir t /\ t_lr t1 = t_lr t
     /\ t_los t1 = t_los t
     /\ exists m, t_ms t1 = MsOwn m /\ okl (c_out c) m /\ ex (c_out c) m = ex (c_out c) v).
  { subst t1. destruct (ms_val t) as [old|] eqn:EM.
    - destruct v as [|x [|y v]].
      + simpl. repeat split; auto. exists []; auto.
      + pose proof (wf_nalias _ _ W). pose proof (wf_ms _ _ W old EM) as [O|O];
        destruct (t_ms t) eqn:ET; try congruence; simpl; repeat split; auto;
        eexists; (split; [reflexivity|]); unfold okl; rewrite repeat_length; (split; [auto|]).
        all: rewrite O; try reflexivity.
        * destruct (c_out c) as [|[|n]]; reflexivity.
        * destruct (c_out c) as [|[|n]]; reflexivity.
      + simpl. repeat split; auto. eexists; split; [reflexivity|]; auto.
    - simpl. repeat split; auto. exists v; auto. }
  destruct H1 as (A1 & A2 & A3 & A4 & A5 & m & Em & Om & Xm).
  set (t2 := if c_lrcomp c then _ else t1).
  assert (H2 : t_w t2 = t_w t /\ t_bias t2 = t_bias t /\ t_ir t2 = t_ir t /\ t_lr t2 = t_lr t
     /\ t_los t2 = t_los t /\ t_ms t2 = MsOwn m).
  { subst t2. destruct (c_lrcomp c); auto 10. unfold ms_val; rewrite Em; simpl; auto 10. }
  clearbody t2; clear t1 A1 A2 A3 A4 A5 Em.
  destruct H2 as (A1 & A2 & A3 & A4 & A5 & A6).
  unfold set_learned_out_scales_one.
  destruct (t_los t2) as [l|] eqn:EL; simpl.
  - repeat split; auto; try congruence.
    + exists m. unfold ms_val; simpl. rewrite A6; auto.
    + injection H as <-. pose proof (wf_los _ _ W l (eq_sym A5)). unfold okl in *; rewrite repeat_length; auto.
    + injection H as <-. pose proof (wf_los _ _ W l (eq_sym A5)) as O.
      destruct O as [O|O]; rewrite O; [reflexivity|]. destruct (c_out c) as [|[|n]]; reflexivity.
  - repeat split; auto; try congruence.
    exists m. unfold ms_val; rewrite A6; auto.
Qed.

Lemma get_scales_after c t v : wf c t -> c_mapping c = true -> okl (c_out c) v ->
  exists g, get_scales (set_scales c (STensor v) t) = Some g /\ okl (c_out c) g
       /\ ex (c_out c) g = ex (c_out c) v.
Proof.
  intros W M Hv. destruct (set_scales_tensor c t v W M Hv) as (_ & _ & _ & _ & _ & (m & Em & Om & Xm) & HL).
  unfold get_scales. rewrite Em.
  destruct (t_los (set_scales c (STensor v) t)) as [l|] eqn:EL; [|exists m; auto].
  destruct (HL l eq_refl) as [OL XL].
  exists (bmul m l). split; [reflexivity|]. split; [now apply bmul_ok|].
  rewrite bmul_ex by auto. rewrite XL, <- Xm.
  replace (repeat 1 (c_out c)) with (repeat 1 (length (ex (c_out c) m))) by (now rewrite (ex_length _ _ Om)).
  rewrite map2_repeat_r.
  rewrite <- (map_id (ex (c_out c) m)) at 2. apply map_ext; intros; lra.
Qed.

Lemma rows_inv_cancel v m : (forall a, In a v -> a <> 0) -> length v = length m ->
  map2 (fun a row => map (Rmult a) row) v (map2 (fun a row => map (Rmult a) row) (map Rinv v) m) = m.
Proof.
  revert m; induction v as [|a v IH]; intros [|r m] H L; simpl in *; try discriminate; auto.
  f_equal.
  - rewrite map_map. rewrite <- (map_id r) at 2. apply map_ext. intros x. field. apply H; auto.
  - apply IH; auto.
Qed.

Lemma scale_rows_shape n k v m : okl n v -> shape n k m -> shape n k (scale_rows v m).
Proof.
  intros O [L F]. rewrite (scale_rows_ex n) by auto. split.
  - rewrite map2_length, (ex_length n) by auto. lia.
  - clear L. generalize (ex n v) as u. induction F; intros [|a u]; simpl; constructor; auto.
    rewrite map_length; auto.
Qed.

Lemma removelast_map {A B} (f : A -> B) l : removelast (map f l) = map f (removelast l).
Proof. induction l as [|a [|b l] IH]; simpl in *; auto. now rewrite IH. Qed.
Lemma last_map (f : R -> R) l : l <> [] -> last (map f l) 0 = f (last l 0).
Proof. induction l as [|a [|b l] IH]; simpl in *; intros; [congruence|auto|]. rewrite IH; congruence. Qed.

(** separating a row-scaled matrix is scaling the separated one *)
Lemma separate_scale c v m : okl (c_out c) v -> shape (c_out c) (xs c) m ->
  separate_weights c (scale_rows v m)
  = (scale_rows v (fst (separate_weights c m)),
     if analog_bias c then option_map (fun b => map2 Rmult (ex (c_out c) v) b) (snd (separate_weights c m)) else None).
Proof.
  intros O [L F]. unfold separate_weights. destruct (analog_bias c) eqn:A; [|reflexivity].
  rewrite (scale_rows_ex (c_out c)) by auto. simpl fst; simpl snd; simpl option_map.
  assert (L2 : length (map (fun r : list R => removelast r) m) = c_out c) by (now rewrite map_length).
  rewrite (scale_rows_ex (c_out c)) by auto.
  rewrite map_map2, map2_map_r, map_map2, map2_map_r. f_equal.
  - apply map2_ext_in; intros. apply removelast_map.
  - f_equal. apply map2_ext_in. intros a r _ Hr. apply last_map.
    rewrite Forall_forall in F. apply F in Hr. unfold xs in Hr; rewrite A in Hr.
    destruct r; [discriminate|congruence].
Qed.

(** ** Main round trip *)
Lemma set_get_scaled c t w b o :
  wf c t -> shape (c_out c) (c_in c) w -> bias_ok c b ->
  c_mapping c = true -> 0 < omega_of c o ->
  exists t', set_weights c w b true o t = Ok t' /\ wf c t'
    /\ get_weights c true t' = (w, if c_bias c then match b with Some v => Some v | None => t_bias t end else None)
    /\ t_ir t' = t_ir t /\ t_lr t' = t_lr t
    /\ (forall cw, combine_weights c w (if digital_bias c then None else b) = Ok cw ->
          t_w t' = scale_rows (map Rinv (alphas c cw (omega_of c o))) cw)
    /\ (forall l, t_los t' = Some l -> ex (c_out c) l = repeat 1 (c_out c)).
Proof.
  intros W Hw Hb M Ho.
  destruct (combine_ok c w b Hw Hb) as (cw & Ecw & Scw & Sep).
  set (tb := match b with Some v => if digital_bias c then with_bias t (Some v) else t | None => t end).
  assert (Wb : wf c tb).
  { subst tb. destruct b as [v|]; auto. destruct (digital_bias c) eqn:D; auto.
    destruct W as [W1 W2 W3 W4 W5]; constructor; simpl; auto.
    rewrite D. exists v; split; auto. destruct Hb; auto. }
  assert (Eset : set_weights c w b true o t
     = Ok (with_w (set_scales c (STensor (alphas c cw (omega_of c o))) tb)
                  (scale_rows (map Rinv (alphas c cw (omega_of c o))) cw))).
  { unfold set_weights. subst tb.
    destruct b as [v|]; [destruct (digital_bias c) eqn:D|]; cbv beta iota zeta.
    - rewrite Ecw; simpl. unfold apply_weight_scaling. rewrite M; simpl.
      fold (omega_of c o). apply Rltb_true in Ho. rewrite Ho. reflexivity.
    - rewrite Ecw; simpl. unfold apply_weight_scaling. rewrite M; simpl.
      fold (omega_of c o). apply Rltb_true in Ho. rewrite Ho. reflexivity.
    - assert (E2 : combine_weights c w None = Ok cw) by (destruct (digital_bias c); auto).
      rewrite E2; simpl. unfold apply_weight_scaling. rewrite M; simpl.
      fold (omega_of c o). apply Rltb_true in Ho. rewrite Ho. reflexivity. }
  set (al := alphas c cw (omega_of c o)) in *.
  assert (Oal : okl (c_out c) al) by (apply alphas_ok; apply Scw).
  assert (Pal : forall a, In a (ex (c_out c) al) -> a <> 0).
  { intros a Ha. apply ex_In in Ha. apply alphas_pos in Ha; auto. lra. }
  destruct (set_scales_tensor c tb al Wb M Oal) as (B1 & B2 & B3 & B4 & B5 & (m & Em & Om & Xm) & HL).
  destruct (get_scales_after c tb al Wb M Oal) as (g & Eg & Og & Xg).
  exists (with_w (set_scales c (STensor al) tb) (scale_rows (map Rinv al) cw)).
  split; [exact Eset|].
  assert (Sh : shape (c_out c) (xs c) (scale_rows (map Rinv al) cw)) by (apply scale_rows_shape; auto using okl_map).
  split.
  { constructor.
    - exact Sh.
    - intros v E. change (ms_val (with_w (set_scales c (STensor al) tb) (scale_rows (map Rinv al) cw)))
        with (ms_val (set_scales c (STensor al) tb)) in E. congruence.
    - intros v E. simpl in E. now apply HL in E.
    - exact B5.
    - simpl. rewrite B2. exact (wf_bias _ _ Wb). }
  split.
  { unfold get_weights. simpl t_w. rewrite separate_scale by (auto using okl_map).
    rewrite Sep. simpl fst; simpl snd; cbv beta iota.
    change (get_scales (with_w (set_scales c (STensor al) tb) (scale_rows (map Rinv al) cw)))
      with (get_scales (set_scales c (STensor al) tb)).
    rewrite Eg. simpl negb; cbv iota. simpl t_bias. rewrite B2.
    f_equal.
    - destruct Hw as [Lw Fw]. rewrite (scale_rows_ex (c_out c) g); auto.
      2:{ rewrite (scale_rows_ex (c_out c)) by (auto using okl_map).
          rewrite map2_length, (ex_length (c_out c)) by (auto using okl_map). lia. }
      rewrite (scale_rows_ex (c_out c) (map Rinv al)) by (auto using okl_map).
      rewrite Xg, ex_map. apply rows_inv_cancel; auto.
      rewrite (ex_length (c_out c)) by auto; lia.
    - destruct (analog_bias c) eqn:A.
      + rewrite (analog_not_digital c A). destruct b as [v|]; simpl in Hb; [|congruence].
        destruct Hb as [Cb Lb]. rewrite Cb. simpl. f_equal.
        rewrite (bmul_full (c_out c)); auto; [|rewrite map2_length, (ex_length (c_out c)) by (auto using okl_map); lia].
        rewrite Xg, ex_map. clear -Pal Lb Oal.
        pose proof (ex_length _ _ Oal) as LL. revert LL Pal. generalize (ex (c_out c) al) as u.
        revert Lb. generalize (c_out c) as n. intros n <-. revert v.
        induction v as [|x v IH]; intros [|a u] LL P; simpl in *; try discriminate; auto.
        rewrite IH; auto. f_equal. field. apply P; auto.
      + subst tb. unfold analog_bias, digital_bias in *.
        destruct b as [v|]; simpl in Hb.
        * destruct Hb as [Cb _]. rewrite Cb in *. simpl in *. destruct (c_digital c); simpl in *; [reflexivity|congruence].
        * destruct (c_bias c), (c_digital c); simpl in *; try congruence; reflexivity. }
  simpl. rewrite B3, B4. subst tb.
  split; [destruct b; [destruct (digital_bias c)|]; reflexivity|].
  split; [destruct b; [destruct (digital_bias c)|]; reflexivity|].
  split; [|intros l El; apply (HL l El)].
  intros cw' E'. rewrite Ecw in E'. injection E' as <-. reflexivity.
Qed.
