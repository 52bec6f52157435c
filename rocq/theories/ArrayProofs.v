From Verif Require Import Prelude ArrayModel.
Require Import ZifyBool.
Ltac Zify.zify_post_hook ::= Z.div_mod_to_equations.

Definition sumZ (l : list Z) : Z := fold_right Z.add 0%Z l.

Lemma sumZ_split base extra n : (0 <= extra <= Z.of_nat n)%Z ->
  sumZ (map (fun i => base + (if Z.of_nat i <? extra then 1 else 0))%Z (seq 0 n))
  = (base * Z.of_nat n + extra)%Z.
Proof.
  intros H.
  assert (G : forall k m, sumZ (map (fun i => base + (if Z.of_nat i <? extra then 1 else 0))%Z (seq k m))
     = (base * Z.of_nat m + Z.max 0 (Z.min (Z.of_nat m) (extra - Z.of_nat k)))%Z).
  { intros k m; revert k; induction m as [|m IH]; intros k.
    - simpl. lia.
    - cbn [seq map sumZ fold_right]. fold (sumZ (map (fun i => base + (if Z.of_nat i <? extra then 1 else 0))%Z (seq (S k) m))).
      rewrite IH. destruct (Z.ltb_spec (Z.of_nat k) extra); lia. }
  rewrite G. lia.
Qed.

Lemma sumZ_le_length l m : Forall (fun s => s <= m)%Z l -> (sumZ l <= Z.of_nat (length l) * m)%Z.
Proof.
  induction 1; [simpl; lia|].
  cbn [sumZ fold_right length]. fold (sumZ l). lia.
Qed.

Lemma split_sizes_lemma size mx :
  (0 < size)%Z -> (0 < mx)%Z ->
  exists l, get_split_sizes size mx = Ok l
    /\ sumZ l = size
    /\ Forall (fun s => 1 <= s <= mx)%Z l
    /\ (forall a b, In a l -> In b l -> (Z.abs (a - b) <= 1)%Z)
    /\ (forall l', sumZ l' = size -> Forall (fun s => s <= mx)%Z l' -> (length l <= length l')%nat).
Proof.
  intros Hs Hm. unfold get_split_sizes.
  destruct (Z.leb_spec mx 0); [lia|].
  set (n := ((size + mx - 1) / mx)%Z).
  assert (Hn1 : (mx * n <= size + mx - 1 < mx * n + mx)%Z) by (subst n; nia).
  assert (Hn : (1 <= n)%Z) by nia.
  assert (Hns : (n <= size)%Z) by nia.
  destruct (Z.eqb_spec n 0); [lia|].
  eexists; split; [reflexivity|].
  assert (Hd : (size = n * (size / n) + size mod n)%Z) by (apply Z.div_mod; lia).
  assert (Hmod : (0 <= size mod n < n)%Z) by (apply Z.mod_pos_bound; lia).
  set (b := (size / n)%Z) in *. set (e := (size mod n)%Z) in *.
  assert (Hb : (1 <= b)%Z) by nia.
  split; [|split; [|split]].
  - rewrite sumZ_split by (rewrite Z2Nat.id; lia). rewrite Z2Nat.id by lia. lia.
  - apply Forall_forall. intros x Hx. apply in_map_iff in Hx as [i [<- Hi]].
    apply in_seq in Hi.
    destruct (Z.ltb_spec (Z.of_nat i) e) as [Hlt|Hge]; split; try lia; nia.
  - intros x y Hx Hy. apply in_map_iff in Hx as [i [<- Hi]]. apply in_map_iff in Hy as [j [<- Hj]].
    destruct (Z.of_nat i <? e)%Z, (Z.of_nat j <? e)%Z; lia.
  - intros l' Hl' Hle. rewrite map_length, seq_length.
    apply sumZ_le_length in Hle. rewrite Hl' in Hle. nia.
Qed.

Lemma split_sizes_unbounded size mx : (mx <= 0)%Z -> get_split_sizes size mx = Ok [size].
Proof. intros; unfold get_split_sizes. destruct (Z.leb_spec mx 0); [auto|lia]. Qed.

Lemma split_sizes_zero mx : (0 < mx)%Z -> get_split_sizes 0 mx = Raise ZeroDivisionError.
Proof.
  intros; unfold get_split_sizes. destruct (Z.leb_spec mx 0); [lia|].
  rewrite Z.div_small by lia. reflexivity.
Qed.

(** Round trip and forward *)
Lemma sum_to_nat l : Forall (fun s => 0 <= s)%Z l -> sum_nat (map Z.to_nat l) = Z.to_nat (sumZ l).
Proof.
  induction 1 as [|x l Hx Hl IH]; [reflexivity|].
  cbn [map sum_nat fold_right sumZ]. fold (sum_nat (map Z.to_nat l)); fold (sumZ l).
  rewrite IH, Z2Nat.inj_add; auto.
  clear -Hl; induction Hl; [simpl; lia|]; cbn [sumZ fold_right]; fold (sumZ l); lia.
Qed.

Lemma split_sizes_nat size mx l : (0 < size)%nat -> get_split_sizes (Z.of_nat size) mx = Ok l ->
  sum_nat (map Z.to_nat l) = size /\ l <> [] /\
  (forall s, In s (map Z.to_nat l) -> (0 < s)%nat /\ ((0 < mx)%Z -> (Z.of_nat s <= mx)%Z)).
Proof.
  intros Hs E. destruct (Z_le_gt_dec mx 0) as [L|G].
  - rewrite split_sizes_unbounded in E by auto. injection E as <-.
    simpl. rewrite Nat2Z.id. split; [lia|]. split; [discriminate|].
    intros s [<-|[]]. split; lia.
  - destruct (split_sizes_lemma (Z.of_nat size) mx) as [l' [E' [S [F _]]]]; try lia.
    rewrite E in E'; injection E' as ->.
    split; [|split].
    + rewrite sum_to_nat; [rewrite S; lia|].
      eapply Forall_impl; [|exact F]; intros; simpl in *; lia.
    + intros ->; simpl in S; lia.
    + intros s Hin. apply in_map_iff in Hin as [z [<- Hz]].
      rewrite Forall_forall in F. specialize (F z Hz). split; lia.
Qed.

Lemma map2_app_map {A B} (f g : A -> list B) l :
  map2 (@app B) (map f l) (map g l) = map (fun x => f x ++ g x) l.
Proof. induction l; simpl; congruence. Qed.

Section Laws.
  Variable tile : Type.
  Variable tile_new : nat -> nat -> tile.
  Variable tile_set : tile -> mat -> tile.
  Variable tile_get : tile -> mat.
  Variable tile_fwd : tile -> vec -> vec.
  (** [good o i t]: [t] is a legal tile of shape (o, i) *)
  Variable good : nat -> nat -> tile -> Prop.
  Hypothesis good_new : forall o i, good o i (tile_new o i).
  Hypothesis get_set : forall o i t w, (0 < o)%nat -> (0 < i)%nat -> good o i t -> shape o i w ->
    tile_get (tile_set t w) = w.
  Hypothesis good_set : forall o i t w, (0 < o)%nat -> (0 < i)%nat -> good o i t -> shape o i w ->
    good o i (tile_set t w).

  (** the array has the grid structure laid down by the constructor *)
  Definition wf (out_size in_size : nat) (a : tarray tile) : Prop :=
    sum_nat (ta_in_sizes a) = in_size /\ sum_nat (ta_out_sizes a) = out_size
    /\ ta_in_sizes a <> [] /\ ta_out_sizes a <> []
    /\ Forall (fun s => (0 < s)%nat) (ta_in_sizes a) /\ Forall (fun s => (0 < s)%nat) (ta_out_sizes a)
    /\ Forall2 (fun i row => Forall2 (fun o t => good o i t) (ta_out_sizes a) row) (ta_in_sizes a) (ta_array a)
    /\ match ta_bias a with Some b => length b = out_size | None => True end.

  Lemma tarray_new_wf os is mo mi b a :
    (0 < os)%nat -> (0 < is)%nat ->
    tarray_new tile tile_new os is mo mi b = Ok a -> wf os is a.
  Proof.
    unfold tarray_new, wf; intros Ho Hi.
    destruct (get_split_sizes (Z.of_nat is) mi) as [ins|] eqn:EI; [|discriminate]; simpl.
    destruct (get_split_sizes (Z.of_nat os) mo) as [outs|] eqn:EO; [|discriminate]; simpl.
    intros H; injection H as <-; simpl.
    apply split_sizes_nat in EI as [SI [NI FI]]; auto.
    apply split_sizes_nat in EO as [SO [NO FO]]; auto.
    repeat split; auto.
    - destruct ins; simpl; congruence.
    - destruct outs; simpl; congruence.
    - apply Forall_forall; intros; now apply FI.
    - apply Forall_forall; intros; now apply FO.
    - generalize (map Z.to_nat ins) as l, (map Z.to_nat outs) as k; clear -good_new.
      induction l; simpl; constructor; auto.
      clear IHl. induction k; simpl; constructor; auto.
    - destruct b; auto. apply repeat_length.
  Qed.

  Lemma block_shape os is w s e s' e' :
    shape os is w -> (s <= e <= os)%nat -> (s' <= e' <= is)%nat ->
    shape (e - s) (e' - s') (map (slice s' e') (slice s e w)).
  Proof.
    intros [L F] H H'. split.
    - rewrite map_length. apply slice_length; lia.
    - apply Forall_forall. intros r Hr. apply in_map_iff in Hr as [r0 [<- Hr0]].
      apply slice_length. rewrite Forall_forall in F.
      rewrite F; [lia|]. unfold slice in Hr0.
      rewrite <- (firstn_skipn s w). apply in_or_app; right.
      rewrite <- (firstn_skipn (e - s) (skipn s w)). apply in_or_app; left; auto.
  Qed.

  Lemma set_out_loop_spec os is w i (Hw : shape os is w) : forall out_sizes s ts e,
    (0 < i)%nat -> Forall (fun x => (0 < x)%nat) out_sizes ->
    Forall2 (fun o t => good o i t) out_sizes ts ->
    (s + sum_nat out_sizes <= os)%nat -> (e + i <= is)%nat ->
    concat (map tile_get (set_out_loop tile tile_set w e (e + i) s out_sizes ts))
      = map (slice e (e + i)) (slice s (s + sum_nat out_sizes) w)
    /\ Forall2 (fun o t => good o i t) out_sizes (set_out_loop tile tile_set w e (e + i) s out_sizes ts).
  Proof.
    induction out_sizes as [|o out_sizes IH]; intros s ts e Hi FP F2 Hs He.
    - inversion F2; subst. simpl. rewrite Nat.add_0_r, slice_nil. split; auto.
    - inversion F2 as [|? t ? ts' Hg F2']; subst. inversion FP; subst.
      cbn [set_out_loop map concat sum_nat fold_right] in *. fold (sum_nat out_sizes) in *.
      assert (HB : shape o i (map (slice e (e + i)) (slice s (s + o) w))).
      { replace o with (s + o - s)%nat at 1 by lia. replace i with (e + i - e)%nat at 1 by lia.
        apply (block_shape os is); auto; lia. }
      destruct (IH (s + o)%nat ts' e) as [IHA IHB]; auto; try lia.
      split.
      + rewrite (get_set o i) by auto. rewrite IHA, <- map_app, slice_merge by lia.
        do 2 f_equal; lia.
      + constructor; auto.
  Qed.

  Lemma set_in_loop_spec os is w out_sizes (Hw : shape os is w)
    (Hos : sum_nat out_sizes = os) (HP : Forall (fun x => (0 < x)%nat) out_sizes) :
    forall in_sizes s arr,
    in_sizes <> [] -> Forall (fun x => (0 < x)%nat) in_sizes ->
    Forall2 (fun i row => Forall2 (fun o t => good o i t) out_sizes row) in_sizes arr ->
    (s + sum_nat in_sizes <= is)%nat ->
    cat1 (map (fun ts => concat (map tile_get ts)) (set_in_loop tile tile_set w out_sizes s in_sizes arr))
      = map (slice s (s + sum_nat in_sizes)) w
    /\ Forall2 (fun i row => Forall2 (fun o t => good o i t) out_sizes row) in_sizes
         (set_in_loop tile tile_set w out_sizes s in_sizes arr).
  Proof.
    induction in_sizes as [|i in_sizes IH]; intros s arr NE FP F2 Hs; [congruence|].
    inversion F2 as [|? row ? arr' Hg F2']; subst. inversion FP as [|? ? Hi FP']; subst.
    cbn [set_in_loop map sum_nat fold_right] in *. fold (sum_nat in_sizes) in *.
    destruct (set_out_loop_spec _ is w i Hw out_sizes 0 row s) as [OA OB]; auto; try lia.
    assert (Hlen : (0 + sum_nat out_sizes)%nat = length w) by (destruct Hw; lia).
    rewrite Hlen in OA. rewrite slice_full in OA.
    destruct in_sizes as [|i' in_sizes].
    - inversion F2'; subst. simpl. simpl in OA. rewrite OA. rewrite Nat.add_0_r. split; [reflexivity|].
      constructor; auto.
    - destruct (IH (s + i)%nat arr') as [IA IB]; auto; try discriminate; try lia.
      split; [|constructor; auto].
      inversion F2' as [|? row' ? arr'' Hg' F2'']; subst.
      remember (i' :: in_sizes) as L.
      remember (set_in_loop tile tile_set w out_sizes (s + i) L (row' :: arr'')) as A' eqn:EA'.
      assert (HA' : A' <> []) by (subst A' L; simpl; discriminate).
      destruct A' as [|a0 A']; [congruence|].
      cbn [cat1 map] in *.
      rewrite OA. rewrite IA. rewrite map2_app_map.
      apply map_ext. intros r. rewrite slice_merge by lia. f_equal; lia.
  Qed.

  Lemma slice_ge_full {A} (l : list A) n : length l = n -> slice 0 n l = l.
  Proof. intros <-; apply slice_full. Qed.

  Lemma array_get_set_lemma os is a w b :
    (0 < os)%nat -> (0 < is)%nat ->
    wf os is a -> shape os is w ->
    match b with Some v => length v = os | None => True end ->
    let a' := tarray_set_weights tile tile_set a w b in
    fst (tarray_get_weights tile tile_get a') = w
    /\ snd (tarray_get_weights tile tile_get a')
        = match ta_bias a, b with Some _, Some v => Some v | o, _ => o end
    /\ wf os is a'.
  Proof.
    intros Ho Hi (SI & SO & NI & NO & FI & FO & F2 & HB) Hw Hb; simpl.
    destruct (set_in_loop_spec os is w (ta_out_sizes a) Hw SO FO (ta_in_sizes a) 0 (ta_array a)) as [A B];
      auto; try lia.
    split; [|split].
    - rewrite A. rewrite SI. simpl. rewrite <- (map_id w) at 2. apply map_ext_in.
      intros r Hr. apply slice_ge_full. destruct Hw as [_ F]. rewrite Forall_forall in F; auto.
    - reflexivity.
    - unfold wf; simpl. repeat split; auto.
      destruct (ta_bias a), b; auto.
  Qed.

  (** forward *)
  Hypothesis fwd_lin : forall o i t x, (0 < o)%nat -> (0 < i)%nat -> good o i t -> length x = i ->
    tile_fwd t x = matvec (tile_get t) x.
  Hypothesis get_shape : forall o i t, good o i t -> shape o i (tile_get t).

  Lemma matvec_app w1 w2 x : matvec (w1 ++ w2) x = matvec w1 x ++ matvec w2 x.
  Proof. apply map_app. Qed.

  Lemma fwd_row i row outs x : (0 < i)%nat -> Forall (fun s => (0 < s)%nat) outs ->
    Forall2 (fun o t => good o i t) outs row ->
    length x = i ->
    concat (map (fun t => tile_fwd t x) row) = matvec (concat (map tile_get row)) x
    /\ shape (sum_nat outs) i (concat (map tile_get row)).
  Proof.
    intros Hi FP F2 Hx. induction F2 as [|o t outs row Hg F2 IH]; simpl.
    - split; [reflexivity|]. split; [reflexivity|constructor].
    - inversion FP; subst. destruct IH as [IH1 IH2]; auto.
      split.
      + rewrite matvec_app. f_equal; auto. apply (fwd_lin o (length x)); auto.
      + destruct (get_shape _ _ _ Hg) as [G1 G2]. destruct IH2 as [S1 S2].
        split; [rewrite app_length; fold (sum_nat outs); lia|].
        apply Forall_app; auto.
  Qed.

  Lemma vadd_matvec r m1 m2 c1 c2 x1 x2 :
    shape r c1 m1 -> shape r c2 m2 -> length x1 = c1 ->
    vadd (matvec m1 x1) (matvec m2 x2) = matvec (map2 (@app R) m1 m2) (x1 ++ x2).
  Proof.
    intros [L1 F1] [L2 F2]. revert r m2 L1 L2 F2. induction F1 as [|a m1 Ha F1 IH]; intros r m2 L1 L2 F2 Hx.
    - reflexivity.
    - destruct m2 as [|b m2]; [simpl in *; lia|]. inversion F2; subst.
      unfold vadd, matvec in *. cbn [map map2]. f_equal.
      + symmetry; apply dot_app. lia.
      + simpl in L2. apply (IH (length m1)); auto.
  Qed.

  Lemma vadd_length a b : length a = length b -> length (vadd a b) = length a.
  Proof. intros; unfold vadd; rewrite map2_length; lia. Qed.
  Lemma vadd_assoc a b c : vadd (vadd a b) c = vadd a (vadd b c).
  Proof.
    unfold vadd. revert b c; induction a as [|x a IH]; intros [|y b] [|z c]; try reflexivity.
    cbn [map2]. rewrite Rplus_assoc. f_equal. apply IH.
  Qed.
  Lemma fold_vadd ps p q : fold_left vadd ps (vadd p q) = vadd p (fold_left vadd ps q).
  Proof. revert q; induction ps; intros q; simpl; auto. rewrite vadd_assoc. apply IHps. Qed.

  Lemma cat1_shape r : forall ms cs, ms <> [] -> Forall2 (fun c m => shape r c m) cs ms ->
    shape r (sum_nat cs) (cat1 ms).
  Proof.
    induction ms as [|m ms IH]; intros cs NE F2; [congruence|].
    inversion F2 as [|c ? cs' ? Hm F2']; subst.
    destruct ms as [|m' ms].
    - inversion F2'; subst. simpl. now rewrite Nat.add_0_r.
    - change (cat1 (m :: m' :: ms)) with (map2 (@app R) m (cat1 (m' :: ms))).
      assert (IH' : shape r (sum_nat cs') (cat1 (m' :: ms))) by (apply IH; auto; discriminate).
      revert IH'; generalize (cat1 (m' :: ms)) as k; intros k [K1 K2]. destruct Hm as [M1 M2].
      split; [rewrite map2_length; lia|].
      cbn [sum_nat fold_right]; fold (sum_nat cs').
      clear -M2 K2. revert k K2; induction M2; intros k K2; simpl; [constructor|].
      destruct k; [constructor|]. inversion K2; subst. constructor; auto.
      rewrite app_length; lia.
  Qed.

  Lemma split_vec_spec : forall sizes x, length x = sum_nat sizes ->
    Forall2 (fun s v => length v = s) sizes (split_vec sizes x) /\ concat (split_vec sizes x) = x.
  Proof.
    induction sizes as [|s sizes IH]; intros x Hx; simpl in *.
    - destruct x; [|discriminate]. auto.
    - fold (sum_nat sizes) in *.
      destruct (IH (skipn s x)) as [A B]; [rewrite skipn_length; lia|].
      split.
      + constructor; auto. rewrite firstn_length; lia.
      + rewrite B. apply firstn_skipn.
  Qed.

  Lemma rows_shape outs (HP : Forall (fun s => (0 < s)%nat) outs) : forall I A,
    Forall2 (fun i row => Forall2 (fun o t => good o i t) outs row) I A ->
    Forall (fun s => (0 < s)%nat) I ->
    Forall2 (fun c m => shape (sum_nat outs) c m) I (map (fun ts => concat (map tile_get ts)) A).
  Proof.
    intros I A F2; induction F2 as [|i r I A Hr F2 IH]; simpl; intros FP; constructor.
    - inversion FP; subst. destruct (fwd_row i r outs (repeat 0 i)) as [_ S]; auto.
      apply repeat_length.
    - inversion FP; subst; auto.
  Qed.

  Lemma fwd_grid outs (HP : Forall (fun s => (0 < s)%nat) outs) : forall ins arr xs,
    ins <> [] -> Forall (fun s => (0 < s)%nat) ins ->
    Forall2 (fun i row => Forall2 (fun o t => good o i t) outs row) ins arr ->
    Forall2 (fun s v => length v = s) ins xs ->
    match map2 (fun xs row => concat (map (fun t => tile_fwd t xs) row)) xs arr with
    | [] => [] | p :: ps => fold_left vadd ps p end
    = matvec (cat1 (map (fun ts => concat (map tile_get ts)) arr)) (concat xs).
  Proof.
    induction ins as [|i ins IH]; intros arr xs NE FP F2 FX; [congruence|].
    inversion F2 as [|? row ? arr' Hrow F2']; subst.
    inversion FX as [|? x ? xs' Hx FX']; subst.
    inversion FP as [|? ? Hi FP']; subst.
    cbn [map2 map concat].
    destruct (fwd_row (length x) row outs x) as [R1 R2]; auto.
    destruct ins as [|i' ins].
    - inversion F2'; subst. inversion FX'; subst. simpl. now rewrite app_nil_r.
    - assert (NE' : i' :: ins <> []) by discriminate.
      specialize (IH arr' xs' NE' FP' F2' FX').
      inversion F2' as [|? row' ? arr'' Hrow' F2'']; subst.
      inversion FX' as [|? x' ? xs'' Hx' FX'']; subst.
      cbn [map2 fold_left] in *. rewrite fold_vadd, IH, R1.
      change (cat1 (map ?f (row :: row' :: arr''))) with (map2 (@app R) (f row) (cat1 (map f (row' :: arr'')))).
      apply (vadd_matvec (sum_nat outs) _ _ (length x) (sum_nat (length x' :: ins))); auto.
      apply cat1_shape; [discriminate|].
      apply rows_shape; auto.
  Qed.

  Lemma array_forward_lemma os is a x :
    (0 < os)%nat -> (0 < is)%nat -> wf os is a -> length x = is ->
    tarray_forward tile tile_fwd a x =
      (let '(w, b) := tarray_get_weights tile tile_get a in
       match b with Some v => vadd (matvec w x) v | None => matvec w x end).
  Proof.
    intros Ho Hi (SI & SO & NI & NO & FI & FO & F2 & HB) Hx.
    unfold tarray_forward, tarray_get_weights; simpl.
    destruct (split_vec_spec (ta_in_sizes a) x) as [S1 S2]; [lia|].
    pose proof (fwd_grid (ta_out_sizes a) FO (ta_in_sizes a) (ta_array a) _ NI FI F2 S1) as G.
    rewrite S2 in G.
    assert (E : (if Nat.eqb (length (ta_in_sizes a) * length (ta_out_sizes a)) 1
      then match ta_array a with (t :: _) :: _ => tile_fwd t x | _ => [] end
      else match map2 (fun xs row => concat (map (fun t => tile_fwd t xs) row)) (split_vec (ta_in_sizes a) x) (ta_array a)
           with [] => [] | p :: ps => fold_left vadd ps p end)
      = matvec (cat1 (map (fun ts => concat (map tile_get ts)) (ta_array a))) x).
    { destruct (Nat.eqb_spec (length (ta_in_sizes a) * length (ta_out_sizes a)) 1) as [E1|]; [|exact G].
      apply Nat.eq_mul_1 in E1 as [E1 E2].
      destruct (ta_in_sizes a) as [|i [|]]; try discriminate.
      inversion F2 as [|? row ? arr' Hrow F2']; subst. inversion F2'; subst.
      destruct (ta_out_sizes a) as [|o [|]]; try discriminate.
      inversion Hrow as [|? t ? row' Ht Hrow']; subst. inversion Hrow'; subst.
      simpl. rewrite app_nil_r. simpl in Hx.
      inversion FI; inversion FO; subst.
      apply (fwd_lin o i); auto. lia. }
    rewrite E. reflexivity.
  Qed.
End Laws.
