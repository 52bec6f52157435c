(** * Analog matrices *)
From Verif Require Import Prelude ArrayModel ArrayProofs PeriModel PeriSpec PeriProofs PeriProofs2 PeriProofs3 PeriProofs4 ArrayPeri LinModel LinSpec.

Definition hist_t : Type := list (R * (list (list R) * list (list R))).
Fixpoint ger_all (a : amat) (h : hist_t) : res amat :=
  match h with [] => Ok a | (alpha, (xs, ds)) :: r => a' <- am_ger a alpha xs ds ;; ger_all a' r end.

Lemma all_len_true n X : all_len n X = true <-> Forall (fun x => length x = n) X.
Proof. unfold all_len. rewrite forallb_forall, Forall_forall. split; intros H x I; specialize (H x I); now apply Nat.eqb_eq. Qed.
Lemma vecmat_nth n d W j : Forall (fun r => length r = n) W -> (j < n)%nat -> nth j (vecmat n d W) 0 = dot d (column W j).
Proof.
  intros F J. revert d. induction W as [|row W IH]; intros d.
  - unfold vecmat. destruct d; cbn [map2 map fold_right column dot]; apply nth_repeat.
  - destruct d as [|a d]; [unfold vecmat; cbn [map2 map fold_right]; cbn [dot]; apply nth_repeat|]. inversion F as [|? ? Fr FW]; subst. unfold vecmat in *. cbn [map2 map fold_right column dot]. specialize (IH FW d). pose proof (vecmat_length (length row) d W FW) as Lv. unfold vecmat in Lv. fold (column W j). rewrite <- IH. unfold vadd.
    assert (G : forall (u v : list R) k, (k < length u)%nat -> (k < length v)%nat -> nth k (map2 Rplus u v) 0 = nth k u 0 + nth k v 0). { clear. induction u as [|x u IHu]; intros v k Hu Hv; [cbn in Hu; lia|]. destruct v as [|y v]; [cbn in Hv; lia|]. destruct k; [reflexivity|]. cbn in *. apply IHu; lia. }
    rewrite G; [|rewrite map_length; lia | eapply Nat.lt_le_trans; [exact J | apply Nat.eq_le_incl; symmetry; exact Lv]]. f_equal. rewrite (nth_indep _ 0 (a * 0)) by (rewrite map_length; lia). now rewrite map_nth.
Qed.
Lemma map2_nth {A B C} (f : A -> B -> C) l k da db dc n : (n < length l)%nat -> (n < length k)%nat -> nth n (map2 f l k) dc = f (nth n l da) (nth n k db).
Proof. revert k n. induction l as [|a l IH]; intros k n L K; [cbn in L; lia|]. destruct k as [|b k]; [cbn in K; lia|]. destruct n; [reflexivity|]. cbn in *. apply IH; lia. Qed.
Lemma sgd_shape o i lr W x d : shape o i W -> length x = i -> length d = o -> shape o i (sgd lr W x d).
Proof. intros. apply (rank1_shape lr o i W x d); assumption. Qed.
Lemma sgd_entry o i lr W x d a b : shape o i W -> length x = i -> length d = o -> (a < o)%nat -> (b < i)%nat ->
  entry (sgd lr W x d) a b = entry W a b - lr * nth a d 0 * nth b x 0.
Proof.
  intros [Lw Fw] Lx Ld Ha Hb. unfold entry, sgd. rewrite (map2_nth _ d W 0 [] []) by (unfold vec in *; lia). assert (Lr : length (nth a W []) = i) by (rewrite Forall_forall in Fw; apply Fw; apply nth_In; unfold vec in *; lia). rewrite (map2_nth _ (nth a W []) x 0 0 0) by (unfold vec in *; lia). reflexivity.
Qed.
Lemma fold_sgd o i lr : forall xs ds W, shape o i W -> Forall (fun x => length x = i) xs -> Forall (fun d => length d = o) ds -> length xs = length ds ->
  let W' := fold_left (fun W p => sgd lr W (fst p) (snd p)) (combine xs (map (map Ropp) ds)) W in
  shape o i W' /\ forall a b, (a < o)%nat -> (b < i)%nat -> entry W' a b = entry W a b + lr * outer_sum xs ds a b.
Proof.
  induction xs as [|x xs IH]; intros ds W S Fx Fd L; destruct ds as [|d ds]; try discriminate L; cbn [map combine fold_left].
  - split; [exact S|]. intros. unfold outer_sum. cbn. lra.
  - inversion Fx as [|? ? Hx Fx']; subst. inversion Fd as [|? ? Hd Fd']; subst. cbn [fst snd]. assert (Ld : length (map Ropp d) = length d) by apply map_length. destruct (IH ds (sgd lr W x (map Ropp d))) as [S' E']; auto.
    { apply sgd_shape; auto. } split; [exact S'|]. intros a b Ha Hb. rewrite (E' a b Ha Hb). rewrite (sgd_entry (length d) (length x)) by auto. unfold outer_sum. cbn [map2 sumR]. assert (En : nth a (map Ropp d) 0 = - nth a d 0). { rewrite (nth_indep _ 0 (- 0)) by lia. apply map_nth. } rewrite En. lra.
Qed.

(** ** The tile of a small matrix *)
Definition okt (c : pcfg) (o i : nat) (t : atile) (W : list (list R)) : Prop :=
  fst t = sub_cfg c o i /\ reachable (fst t) (snd t) /\ t_ir (snd t) = None /\ t_los (snd t) = None /\ fst (logical (fst t) (snd t)) = W /\ shape o i W.
Lemma zeros_shape o i : shape o i (repeat (repeat 0 i) o).
Proof. split; [apply repeat_length|]. apply Forall_forall. intros r Hr. apply repeat_spec in Hr. subst. apply repeat_length. Qed.
Lemma set_ms_los c v t : t_ms t <> MsAlias -> t_los (set_mapping_scales c (STensor v) t) = t_los t.
Proof.
  intros A. unfold set_mapping_scales. destruct (negb (c_mapping c)); [reflexivity|]. set (t1 := match ms_val t with Some _ => _ | None => _ end). assert (K : t_los t1 = t_los t) by (unfold t1; destruct (ms_val t); [destruct v as [|x [|y v]]; try reflexivity; destruct (t_ms t); [reflexivity | reflexivity | congruence] | reflexivity]). clearbody t1. rewrite <- K. destruct (ms_val t1) as [m|]; destruct (c_lrcomp c); reflexivity.
Qed.
Lemma okt_new c lr o i M : c_learn_out c = false -> (0 < o)%nat -> shape o i M -> okt c o i (at_set (at_new c lr o i) M) M.
Proof.
  intros NL Ho S. pose proof (at_good_new c lr o i) as G. destruct (at_set_spec c o i _ M G S) as [G' E]. destruct G' as (F & _ & Ir & _). split; [exact F|]. split; [|split; [exact Ir|split]].
  - rewrite F. exists (repeat (repeat 0 i) o), None, lr, [OpSet M None true None]. split; [exact Ho|]. split; [apply zeros_shape|]. split; [exact I|]. split; [constructor; [|constructor]; split; [exact S | reflexivity]|]. unfold at_set, at_new. cbn [fst snd fold_left run]. destruct (set_weights _ _ _ _ _ _); reflexivity.
  - unfold at_set, at_new. cbn [fst snd]. assert (L0 : t_los (ptile_new (sub_cfg c o i) (repeat (repeat 0 i) o) None lr) = None). { unfold ptile_new, init_mapping_scales, init_learned_out_scales, set_mapping_scales. cbn [c_mapping c_learn_out sub_cfg]. rewrite NL. destruct (c_mapping c); cbn; [|reflexivity]. destruct (Reqb (c_omega c) 0); [reflexivity|]. destruct (c_colwise c); [reflexivity|]. destruct (c_lrcomp c); reflexivity. }
    assert (A0 : t_ms (ptile_new (sub_cfg c o i) (repeat (repeat 0 i) o) None lr) <> MsAlias) by (apply (wf_nalias (sub_cfg c o i)); apply ptile_new_wf; apply zeros_shape).
    set (t0 := ptile_new _ _ _ _) in *. unfold set_weights, combine_weights. change (analog_bias (sub_cfg c o i)) with false. cbn [bind]. unfold apply_weight_scaling, set_scales, set_learned_out_scales_one. cbn [c_mapping sub_cfg]. destruct (c_mapping c); cbn [negb]; [|exact L0]. destruct (Rltb 0 (c_omega (sub_cfg c o i))); cbn [fst snd]; [|exact L0]. set (s := STensor _). assert (K : t_los (set_mapping_scales (sub_cfg c o i) s t0) = None) by (unfold s; rewrite set_ms_los; [exact L0 | exact A0]). cbn [sub_cfg c_omega c_colwise] in *. unfold with_w. cbn [t_los snd]. fold s. rewrite K. exact K.
  - split; [exact E | exact S].
Qed.
Lemma okt_none c o i t W : okt c o i t W -> snd (logical (fst t) (snd t)) = None.
Proof.
  intros (F & Rc & _). destruct (get_weights_shape _ _ (reachable_wf _ _ Rc)) as [_ B]. unfold logical. destruct (snd (get_weights (fst t) true (snd t))); [|reflexivity]. destruct B as [B _]. rewrite F in B. discriminate.
Qed.
Lemma okt_fwd c o i t W x : okt c o i t W -> length x = i -> at_fwd t x = matvec W x.
Proof.
  intros H Lx. pose proof (okt_none _ _ _ _ _ H) as N. destruct H as (F & Rc & Ir & Lo & E & S). unfold at_fwd. rewrite P_forward; [|exact Rc | rewrite F; exact Lx | rewrite Ir; exact I]. unfold logical in *. rewrite E, N. reflexivity.
Qed.
Lemma okt_bwd c o i t W d : okt c o i t W -> length d = o -> backward (fst t) (snd t) d = map (fun j => dot d (column W j)) (seq 0 i).
Proof.
  intros (F & Rc & Ir & Lo & E & S) Ld. rewrite backward_lemma; [|now apply reachable_wf | exact Lo | rewrite F; exact Ld]. unfold logical in E. rewrite E, F. cbn [c_in sub_cfg]. destruct S as [Ls Fs]. apply (nth_ext _ _ 0 0); [rewrite map_length, seq_length; now apply vecmat_length|]. rewrite (vecmat_length i d W Fs). intros j Hj. rewrite (vecmat_nth i d W j Fs Hj). rewrite (nth_indep _ 0 (dot d (column W 0))) by (rewrite map_length, seq_length; exact Hj). rewrite (map_nth (fun j => dot d (column W j))). rewrite seq_nth by exact Hj. reflexivity.
Qed.
Lemma okt_ger c o i t W alpha xs ds : okt c o i t W -> Forall (fun x => length x = i) xs -> Forall (fun d => length d = o) ds -> length xs = length ds ->
  okt c o i (fst t, update_batch (fst t) (set_learning_rate (Some alpha) (snd t)) (combine xs (map (map Ropp) ds)))
    (fold_left (fun W p => sgd alpha W (fst p) (snd p)) (combine xs (map (map Ropp) ds)) W).
Proof.
  intros (F & Rc & Ir & Lo & E & S) Fx Fd L. cbn [fst snd]. set (xd := combine xs (map (map Ropp) ds)).
  assert (Fxd : Forall (fun p => length (fst p) = c_in (fst t) /\ length (snd p) = c_out (fst t)) xd). { rewrite F. cbn [c_in c_out sub_cfg]. apply Forall_forall. intros [x d] Hp. pose proof (in_combine_l _ _ _ _ Hp) as Hx. pose proof (in_combine_r _ _ _ _ Hp) as Hd. apply in_map_iff in Hd. destruct Hd as (d0 & <- & Hd). rewrite Forall_forall in Fx, Fd. cbn [fst snd]. split; [now apply Fx|]. rewrite map_length. now apply Fd. }
  assert (K : forall l t0, t_ir (update_batch (fst t) t0 l) = t_ir t0 /\ t_los (update_batch (fst t) t0 l) = t_los t0). { induction l as [|[x d] l IH]; intros t0; [split; reflexivity|]. unfold update_batch in *. cbn [fold_left]. destruct (IH (update (fst t) t0 x d)) as [A B]. rewrite A, B. destruct (update_keeps (fst t) t0 x d) as (_ & K2 & K3 & _). split; assumption. }
  assert (SL : t_ir (set_learning_rate (Some alpha) (snd t)) = t_ir (snd t) /\ t_los (set_learning_rate (Some alpha) (snd t)) = t_los (snd t)) by (split; reflexivity). destruct SL as [SI SLo]. destruct (K xd (set_learning_rate (Some alpha) (snd t))) as [KI KL].
  split; [exact F|]. split; [|split; [exact (eq_trans KI (eq_trans SI Ir))|split; [exact (eq_trans KL (eq_trans SLo Lo))|split]]].
  - destruct Rc as (w0 & ir & lr & ops & R1 & R2 & R3 & R4 & R5). exists w0, ir, lr, (ops ++ OpLR alpha :: map (fun p => OpUpdate (fst p) (snd p)) xd). split; [exact R1|]. split; [exact R2|]. split; [exact R3|]. split.
    + apply Forall_app. split; [exact R4|]. constructor; [exact I|]. apply Forall_map. exact Fxd.
    + rewrite fold_left_app. cbn [fst snd] in *. rewrite <- R5. cbn [fold_left run]. unfold update_batch. generalize (set_learning_rate (Some alpha) (snd t)). clear. induction xd as [|[x d] l IH]; intros t0; [reflexivity|]. cbn [map fold_left run fst snd]. apply IH.
  - cbn [fst snd]. rewrite P_update; auto. rewrite E. reflexivity.
  - exact (proj1 (fold_sgd o i alpha xs ds W S Fx Fd L)).
Qed.

Lemma shape_updated o i M W : shape o i M -> shape o i W -> length W = length M /\ forall k, length (nth k W []) = length (nth k M []).
Proof.
  intros [Lm Fm] [Lw Fw]. split; [unfold vec in *; lia|]. intros k. destruct (Nat.lt_ge_cases k o) as [H|H].
  - rewrite Forall_forall in Fm, Fw. transitivity i; [apply Fw | symmetry; apply Fm]; apply nth_In; unfold vec in *; lia.
  - rewrite !nth_overflow by (unfold vec in *; lia). reflexivity.
Qed.
Lemma ger_all_ok c o i : forall (h : hist_t) t W a', okt c o i t W -> ger_all (Single t) h = Ok a' ->
  exists t' W', a' = Single t' /\ okt c o i t' W' /\ forall a b, (a < o)%nat -> (b < i)%nat -> entry W' a b = entry W a b + sumR (map (fun h => fst h * outer_sum (fst (snd h)) (snd (snd h)) a b) h).
Proof.
  induction h as [|[alpha [xs ds]] h IH]; intros t W a' H E.
  - cbn [ger_all] in E. injection E as <-. exists t, W. split; [reflexivity|]. split; [exact H|]. intros. cbn. lra.
  - cbn [ger_all] in E. unfold am_ger in E. assert (Ci : c_in (fst t) = i /\ c_out (fst t) = o) by (destruct H as (F & _); rewrite F; split; reflexivity). destruct Ci as [-> ->] in E. destruct (all_len i xs) eqn:E1; cbn [andb bind] in E; [|discriminate]. destruct (all_len o ds) eqn:E2; cbn [andb bind] in E; [|discriminate]. destruct (Nat.eqb_spec (length xs) (length ds)) as [E3|]; cbn [bind] in E; [|discriminate]. apply all_len_true in E1. apply all_len_true in E2.
    pose proof (okt_ger c o i t W alpha xs ds H E1 E2 E3) as H'. destruct (IH _ _ _ H' E) as (t' & W' & -> & H2 & En). exists t', W'. split; [reflexivity|]. split; [exact H2|]. intros a b Ha Hb. rewrite (En a b Ha Hb). destruct H as (_ & _ & _ & _ & _ & S). rewrite (proj2 (fold_sgd o i alpha xs ds W S E1 E2 E3) a b Ha Hb). cbn [map sumR fst snd]. lra.
Qed.

Lemma ger_total c o i : forall (h : hist_t) t W, okt c o i t W -> Forall (fun p => Forall (fun x => length x = i) (fst (snd p)) /\ Forall (fun d => length d = o) (snd (snd p)) /\ length (fst (snd p)) = length (snd (snd p))) h -> exists a', ger_all (Single t) h = Ok a'.
Proof.
  induction h as [|[alpha [xs ds]] h IH]; intros t W H Fh; [eexists; reflexivity|]. inversion Fh as [|? ? (H1 & H2 & H3) Fh']; subst. cbn [fst snd] in *. cbn [ger_all]. unfold am_ger. assert (Ci : c_in (fst t) = i /\ c_out (fst t) = o) by (destruct H as (F & _); rewrite F; split; reflexivity). destruct Ci as [-> ->]. rewrite (proj2 (all_len_true i xs) H1), (proj2 (all_len_true o ds) H2), (proj2 (Nat.eqb_eq _ _) H3). cbn [andb bind]. eapply IH; [|exact Fh']. exact (okt_ger c o i t W alpha xs ds H H1 H2 H3).
Qed.

(** C170: on an ideal crossbar, after any history of rank updates [ger(x, d, alpha)], each of which adds
    [alpha d x^T], products from the left and from the right are those of the resulting matrix, whatever weight
    scaling is configured. *)
Theorem C170_history c mi mo lr o i M a (h : hist_t) a' : (0 < o)%nat -> shape o i M -> c_learn_out c = false -> wants_array mi mo o i = false ->
  am_new c mi mo lr o i M = Ok a -> ger_all a h = Ok a' ->
  exists W, updated M W h /\
    (forall numpy X, Forall (fun x => length x = i) X -> am_matmul numpy a' X = Ok (map (matvec W) X)) /\
    (forall D, Forall (fun d => length d = o) D -> am_rmatmul a' D = Ok (map (fun d => map (fun j => dot d (column W j)) (seq 0 i)) D)).
Proof.
  intros Ho S NL NA E G. unfold am_new in E. rewrite NA in E. injection E as <-. destruct (ger_all_ok c o i h _ M a' (okt_new c lr o i M NL Ho S) G) as (t' & W & -> & H & En). exists W. pose proof H as (F & _ & _ & _ & _ & SW). split; [|split].
  - destruct (shape_updated o i M W S SW) as [L1 L2]. split; [exact L1|]. split; [exact L2|]. destruct S as [Lm Fm]. intros p q Hp Hq. apply En; [unfold vec in *; lia|]. assert (length (nth p M []) = i) by (rewrite Forall_forall in Fm; apply Fm; apply nth_In; exact Hp). unfold vec in *. lia.
  - intros numpy X FX. cbn [am_matmul]. rewrite F. cbn [c_in sub_cfg]. rewrite (proj2 (all_len_true i X) FX). f_equal. apply map_ext_in. intros x Hx. rewrite Forall_forall in FX. apply (okt_fwd c o i t' W x H). now apply FX.
  - intros D FD. cbn [am_rmatmul]. rewrite F. cbn [c_out sub_cfg]. rewrite (proj2 (all_len_true o D) FD). f_equal. apply map_ext_in. intros d Hd. rewrite Forall_forall in FD. rewrite <- F. apply (okt_bwd c o i t' W d H). now apply FD.
Qed.
(** ... and [ger] accepts exactly pairs of vectors of matching sizes. *)
Theorem C170_ger_accepts c mi mo lr o i M a alpha xs ds : wants_array mi mo o i = false -> am_new c mi mo lr o i M = Ok a ->
  ((exists a', am_ger a alpha xs ds = Ok a') <-> Forall (fun x => length x = i) xs /\ Forall (fun d => length d = o) ds /\ length xs = length ds).
Proof.
  intros NA E. unfold am_new in E. rewrite NA in E. injection E as <-. assert (F : fst (at_set (at_new c lr o i) M) = sub_cfg c o i) by (unfold at_set, at_new; cbn [fst snd]; destruct (set_weights _ _ _ _ _ _); reflexivity). unfold am_ger. rewrite F. cbn [c_in c_out sub_cfg]. split.
  - intros [a' Ha]. destruct (all_len i xs) eqn:E1; cbn [andb] in Ha; [|discriminate]. destruct (all_len o ds) eqn:E2; cbn [andb] in Ha; [|discriminate]. destruct (Nat.eqb_spec (length xs) (length ds)) as [E3|]; [|discriminate]. apply all_len_true in E1. apply all_len_true in E2. auto.
  - intros (H1 & H2 & H3). rewrite (proj2 (all_len_true i xs) H1), (proj2 (all_len_true o ds) H2), (proj2 (Nat.eqb_eq _ _) H3). cbn [andb]. eexists; reflexivity.
Qed.
Definition cfg_lin : pcfg := {| c_out := 0; c_in := 0; c_mapping := true; c_omega := 1; c_colwise := false; c_lrcomp := false; c_learn_out := false; c_out_colwise := false; c_bias := false; c_digital := true |}.
Example C170_nontrivial : exists a a', am_new cfg_lin 512 512 1 1 2 [[1; 2]] = Ok a /\ wants_array 512 512 1 2 = false /\ ger_all a [(3, ([[1; 0]], [[1]])); (1, ([[0; 1]; [0; 2]], [[5]; [1]]))] = Ok a'.
Proof.
  assert (S : shape 1 2 [[1; 2]]) by (split; [reflexivity | repeat constructor]). destruct (ger_total cfg_lin 1 2 [(3, ([[1; 0]], [[1]])); (1, ([[0; 1]; [0; 2]], [[5]; [1]]))] _ _ (okt_new cfg_lin 1 1 2 [[1; 2]] eq_refl ltac:(lia) S)) as [a' E]; [repeat constructor|]. eexists. exists a'. split; [reflexivity|]. split; [reflexivity | exact E].
Qed.

(** ** C171: limits of analog matrices *)
(** The matrix product of scipy ([A.matmat(X)], X given by its rows): unless [X] is square it raises; if it is, the
    result is [X M^T] instead of [M X]. *)
Theorem C171_matmat c mi mo lr o i M a X k : (0 < o)%nat -> (0 < i)%nat -> shape o i M -> c_learn_out c = false -> wants_array mi mo o i = false ->
  am_new c mi mo lr o i M = Ok a -> shape i k X ->
  am_matmat a X = if (k =? i)%nat then Ok (map (matvec M) X) else Raise RuntimeError.
Proof.
  intros Ho Hi S NL NA E [LX FX]. pose proof (C170_history c mi mo lr o i M a [] a Ho S NL NA E eq_refl) as (W & U & P & _). assert (EW : W = M). { destruct U as (U1 & U2 & U3). apply (nth_ext _ _ [] []); [exact U1|]. intros p Hp. apply (nth_ext _ _ 0 0); [apply U2|]. intros q Hq. specialize (U3 p q ltac:(unfold vec in *; lia) ltac:(rewrite <- U2; exact Hq)). unfold entry in U3. cbn [map sumR] in U3. rewrite Rplus_0_r in U3. exact U3. } subst W.
  unfold am_matmat. assert (Ai : am_in a = i). { unfold am_new in E. rewrite NA in E. injection E as <-. unfold am_in, at_set, at_new. cbn [fst snd]. destruct (set_weights _ _ _ _ _ _); reflexivity. } rewrite Ai. replace (length X =? i)%nat with true by (symmetry; apply Nat.eqb_eq; exact LX). destruct (Nat.eqb_spec k i) as [->|N].
  - apply P. exact FX.
  - assert (Es : exists t, a = Single t /\ c_in (fst t) = i). { unfold am_new in E. rewrite NA in E. injection E as <-. eexists. split; [reflexivity|]. exact Ai. } destruct Es as (t & -> & Ct). cbn [am_matmul]. rewrite Ct. replace (all_len i X) with false; [reflexivity|]. symmetry. apply Bool.not_true_is_false. intros K. apply all_len_true in K. destruct X as [|x X]; [cbn in LX; lia|]. inversion K; inversion FX; subst. unfold vec in *. lia.
Qed.
Theorem C171_matmat_refuted : exists a Y, am_new cfg_lin 512 512 1 2 2 [[1; 1]; [0; 1]] = Ok a /\ am_matmat a [[1; 0]; [0; 1]] = Ok Y /\ Y <> [[1; 1]; [0; 1]].
Proof.
  assert (S : shape 2 2 [[1; 1]; [0; 1]]) by (split; [reflexivity | repeat constructor]). assert (SX : shape 2 2 [[1; 0]; [0; 1]]) by (split; [reflexivity | repeat constructor]). eexists. eexists. split; [reflexivity|]. split; [apply (C171_matmat cfg_lin 512 512 1 2 2 [[1; 1]; [0; 1]] _ _ 2); auto; try lia; reflexivity|]. cbn [map matvec dot]. intros E. injection E. intros. lra.
Qed.
(** Matrices larger than a tile: products of tensors are those of the matrix, but products of numpy arrays, products
    from the left and rank updates raise AttributeError. *)
Theorem C171_large c mi mo lr o i M : (0 < o)%nat -> (0 < i)%nat -> shape o i M -> wants_array mi mo o i = true ->
  exists a, am_new c mi mo lr o i M = Ok a /\
    (forall X, Forall (fun x => length x = i) X -> am_matmul false a X = Ok (map (matvec M) X)) /\
    (forall X, am_matmul true a X = Raise AttributeError) /\
    (forall X, am_rmatmul a X = Raise AttributeError) /\
    forall alpha xs ds, am_ger a alpha xs ds = Raise AttributeError.
Proof.
  intros Ho Hi S WA. destruct (array_new_total c lr o i mo mi false Ho Hi) as (ar & E & _). unfold am_new. rewrite WA, E. cbn [bind]. eexists. split; [reflexivity|]. split; [|repeat split].
  intros X FX. cbn [am_matmul]. rewrite (proj2 (all_len_true i X) FX). f_equal. apply map_ext_in. intros x Hx. rewrite Forall_forall in FX. pose proof (mapped_array_lemma c lr o i mo mi false ar M (repeat 0 o) x Ho Hi E S ltac:(apply repeat_length) (FX x Hx)) as [_ K]. cbv zeta in K. rewrite <- K. unfold tarray_set_weights. assert (B : ta_bias ar = None). { revert E. unfold tarray_new. destruct (get_split_sizes (Z.of_nat i) mi); [|discriminate]; cbn [bind]. destruct (get_split_sizes (Z.of_nat o) mo); [|discriminate]; cbn [bind]. intros E. injection E as <-. reflexivity. } rewrite B. reflexivity.
Qed.
Example C171_nontrivial : wants_array 512 512 600 10 = true /\ wants_array 0 512 10 10 = true /\ shape 1 1 [[2]].
Proof. repeat split. repeat constructor. Qed.

Print Assumptions C170_history.
Print Assumptions C170_ger_accepts.
Print Assumptions C171_matmat.
Print Assumptions C171_matmat_refuted.
Print Assumptions C171_large.
