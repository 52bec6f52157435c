(** * Proofs about the weight programming optimizer *)
From Verif Require Import Prelude ConvModel ConvProofs ConvProps WpoModel.

Definition in01 (l : list R) : Prop := Forall (fun v => 0 <= v <= 1) l.
(** ** Factors *)
Definition factor_ok (d : wpo) (o : option R) (f : R) : Prop := match o with Some v => f = v | None => o_fmin d <= f <= o_fmax d end.
Lemma fill_f_ok d : o_fmin d <= o_fmax d -> forall fs x, (n_none fs <= length x)%nat -> in01 x ->
  exists f, fill_f (o_fmin d) (o_fmax d) fs x = map Some f /\ Forall2 (factor_ok d) fs f.
Proof.
  intros Hf. induction fs as [|[v|] fs IH]; intros x L I.
  - exists []. split; [reflexivity | constructor].
  - destruct (IH x) as (f & E & F); auto. exists (v :: f). cbn [fill_f map]. rewrite E. split; [reflexivity | constructor; [reflexivity | exact F]].
  - unfold n_none in L. cbn [filter length] in L. destruct x as [|u x]; [cbn in L; lia|]. inversion I as [|? ? I1 I2]; subst. destruct (IH x) as (f & E & F); [cbn in L; unfold n_none; lia | exact I2|]. exists (u * (o_fmax d - o_fmin d) + o_fmin d :: f). cbn [fill_f map]. rewrite E. split; [reflexivity|]. constructor; [|exact F]. cbn [factor_ok]. assert (0 <= u * (o_fmax d - o_fmin d)) by (apply Rmult_le_pos; lra). assert (u * (o_fmax d - o_fmin d) <= 1 * (o_fmax d - o_fmin d)) by (apply Rmult_le_compat_r; lra). lra.
Qed.
Lemma all_some_map {A} (l : list A) : all_some (map Some l) = Ok l.
Proof. unfold all_some. induction l as [|a l IH]; [reflexivity|]. cbn [map mapM bind]. rewrite IH. reflexivity. Qed.
Lemma Forall2_len {A B} (P : A -> B -> Prop) l k : Forall2 P l k -> length l = length k.
Proof. induction 1; cbn; auto. Qed.

(** ** The pairs of one weight *)
Definition span (d : wpo) (f : R) : R := f * (o_gmax d - o_gmin d).
Definition spans (d : wpo) (fs : list R) : R := sumR (map (fun v => v * (o_gmax d - o_gmin d)) fs).
Definition okcol (d : wpo) (fs : list R) (w : R) (ps : list (R * R)) : Prop :=
  length ps = length fs /\ Forall (fun p => o_gmin d <= fst p <= o_gmax d /\ o_gmin d <= snd p <= o_gmax d) ps /\
  sumR (map2 (fun f p => f * (fst p - snd p)) fs ps) = w.
Lemma spans_nonneg d fs : o_gmin d < o_gmax d -> Forall (fun f => 0 < f) fs -> 0 <= spans d fs.
Proof. intros H. unfold spans. induction 1 as [|f fs Hf _ IH]; cbn [map sumR]; [lra|]. assert (0 <= f * (o_gmax d - o_gmin d)) by (apply Rmult_le_pos; lra). lra. Qed.
Lemma pairs_ok d rows i : o_gerr d = 0 -> o_gmin d < o_gmax d -> forall fs j c, Forall (fun f => 0 < f) fs ->
  (forall a, (a < 2 * (j + length fs) - 1)%nat -> exists v, at2 rows a i = Ok v /\ 0 <= v <= 1) -> Rabs c <= spans d fs ->
  exists ps, pairs_of d rows i fs j c = Ok ps /\ okcol d fs c ps.
Proof.
  intros Ge Hg. induction fs as [|f fs IH]; intros j c F At Hc.
  - exists []. split; [reflexivity|]. split; [reflexivity|]. split; [constructor|]. cbn. unfold spans in Hc. cbn in Hc. destruct (Rle_dec 0 c); [rewrite Rabs_right in Hc by lra; lra | rewrite Rabs_left in Hc by lra; lra].
  - inversion F as [|? ? Hf F']; subst. set (Dg := o_gmax d - o_gmin d). assert (HD : 0 < Dg) by (unfold Dg; lra). pose proof (spans_nonneg d fs Hg F') as Rn.
    destruct (At (2 * j)%nat) as (xg & Eg & Ig); [cbn [length]; lia|]. cbn [pairs_of]. rewrite Eg. cbn [bind].
    assert (Xd : exists xd, match fs with [] => Ok 1 | _ => at2 rows (2 * j + 1) i end = Ok xd /\ 0 <= xd <= 1). { destruct fs as [|f' fs]; [exists 1; split; [reflexivity | lra]|]. apply At. cbn [length]. lia. } destruct Xd as (xd & -> & Id). cbn [bind].
    fold (spans d fs). fold Dg. set (rest := spans d fs) in *. set (sp := f * Dg). assert (Hsp : 0 < sp) by (apply Rmult_lt_0_compat; assumption). assert (Hc' : - (sp + rest) <= c <= sp + rest). { unfold spans in Hc. cbn [map sumR] in Hc. fold (spans d fs) in Hc. fold Dg in Hc. fold sp rest in Hc. unfold Rabs in Hc. destruct (Rcase_abs c); lra. }
    set (lo := Rmax (c - rest) (- sp)). set (hi := Rmin (c + rest) sp). assert (Hlh : lo <= hi) by (unfold lo, hi; apply Rmax_lub; apply Rmin_glb; lra). set (fd := xd * (hi - lo) + lo).
    assert (Hfd : lo <= fd <= hi). { unfold fd. assert (0 <= xd * (hi - lo)) by (apply Rmult_le_pos; lra). assert (xd * (hi - lo) <= 1 * (hi - lo)) by (apply Rmult_le_compat_r; lra). lra. }
    rewrite (proj2 (Reqb_false f 0)) by lra. set (delta := fd / f). assert (Ef : f * delta = fd) by (unfold delta; field; lra).
    assert (Hd : - Dg <= delta <= Dg). { assert (- sp <= fd <= sp) by (unfold lo, hi in *; pose proof (Rmax_r (c - rest) (- sp)); pose proof (Rmin_r (c + rest) sp); lra). unfold sp in *. split; apply (Rmult_le_reg_l f); try assumption; lra. }
    rewrite Ge. set (lo2 := o_gmin d + Rmax delta 0 - 0). set (hi2 := o_gmax d + Rmin delta 0 + 0). assert (H2 : lo2 <= hi2) by (unfold lo2, hi2, Dg in *; unfold Rmax, Rmin; destruct (Rle_dec delta 0); lra).
    set (gp0 := xg * (hi2 - lo2) + lo2). assert (Hgp : lo2 <= gp0 <= hi2). { unfold gp0. assert (0 <= xg * (hi2 - lo2)) by (apply Rmult_le_pos; lra). assert (xg * (hi2 - lo2) <= 1 * (hi2 - lo2)) by (apply Rmult_le_compat_r; lra). lra. }
    assert (Bgp : o_gmin d <= gp0 <= o_gmax d) by (unfold lo2, hi2 in Hgp; pose proof (Rmax_r delta 0); pose proof (Rmin_r delta 0); lra). assert (Bgm : o_gmin d <= gp0 - delta <= o_gmax d) by (unfold lo2, hi2 in Hgp; pose proof (Rmax_l delta 0); pose proof (Rmin_l delta 0); lra).
    replace (Rmax (Rmin gp0 (o_gmax d)) (o_gmin d)) with gp0 by (rewrite Rmin_left by lra; rewrite Rmax_left by lra; reflexivity). replace (Rmax (Rmin (gp0 - delta) (o_gmax d)) (o_gmin d)) with (gp0 - delta) by (rewrite Rmin_left by lra; rewrite Rmax_left by lra; reflexivity).
    destruct (IH (Datatypes.S j) (c - fd)) as (ps & Ep & O1 & O2 & O3).
    + exact F'.
    + intros a Ha. apply At. cbn [length]. lia.
    + fold rest. apply Rabs_le. unfold lo, hi in Hfd. pose proof (Rmax_l (c - rest) (- sp)). pose proof (Rmin_l (c + rest) sp). lra.
    + rewrite Ep. cbn [bind]. eexists. split; [reflexivity|]. split; [cbn [length]; now rewrite O1|]. split; [constructor; [cbn [fst snd]; lra | exact O2]|]. cbn [map2 sumR fst snd]. rewrite O3. replace (gp0 - (gp0 - delta)) with delta by ring. lra.
Qed.
Lemma swap_ok d fs w ps : okcol d fs w ps -> okcol d fs (- w) (map swap_pair ps).
Proof.
  intros (L & F & S). split; [now rewrite map_length|]. split; [apply Forall_map; eapply Forall_impl; [|exact F]; intros p H; unfold swap_pair; cbn [fst snd]; destruct H; split; assumption|]. rewrite <- S. clear -L. revert ps L. induction fs as [|f fs IH]; intros [|p ps] L; try discriminate L; [cbn; lra|]. cbn [map map2 sumR]. unfold swap_pair at 1 2. cbn [fst snd]. rewrite IH by (now injection L). ring.
Qed.

(** ** The table by columns *)
Lemma put_col_ok {A} (v : A) : forall k l, (k < length l)%nat -> exists l', put_col k v l = Ok l' /\ length l' = length l /\ forall q, nth q l' None = if (q =? k)%nat then Some v else nth q l None.
Proof.
  induction k as [|k IH]; intros [|x l] H; cbn [length] in H; try lia.
  - eexists. split; [reflexivity|]. split; [reflexivity|]. intros [|q]; reflexivity.
  - destruct (IH l) as (l' & E & L & N); [lia|]. cbn [put_col]. rewrite E. cbn [bind]. eexists. split; [reflexivity|]. split; [cbn; lia|]. intros [|q]; [reflexivity | cbn [nth Nat.eqb]; apply N].
Qed.
Definition inr (a i len : nat) : bool := ((i <=? a) && (a <? i + len))%nat%bool.
Lemma inr_spec a i len : inr a i len = true <-> (i <= a < i + len)%nat.
Proof. unfold inr. rewrite andb_true_iff, Nat.leb_le, Nat.ltb_lt. reflexivity. Qed.
Lemma inr_false a i len : inr a i len = false <-> ~ (i <= a < i + len)%nat.
Proof. rewrite <- inr_spec. destruct (inr a i len); split; congruence. Qed.
Ltac dcase := match goal with |- context [if ?b then _ else _] => let Hb := fresh "Hb" in destruct b eqn:Hb; [try apply inr_spec in Hb; try apply Nat.eqb_eq in Hb | try apply inr_false in Hb; try apply Nat.eqb_neq in Hb] end.
Lemma fill_cols_ok d rows fs g_len : o_gerr d = 0 -> o_gmin d < o_gmax d -> Forall (fun f => 0 < f) fs ->
  forall ws i cols, length cols = g_len -> (i + length ws <= g_len)%nat -> (o_sym d = true -> g_len = (2 * (i + length ws) - 1)%nat) ->
  (forall a q, (a < 2 * length fs - 1)%nat -> (q < i + length ws)%nat -> exists v, at2 rows a q = Ok v /\ 0 <= v <= 1) ->
  Forall (fun w => Rabs w <= spans d fs) ws ->
  exists cols' psf, fill_cols d rows fs g_len ws i cols = Ok cols' /\ length cols' = g_len /\
    (forall k, (k < length ws)%nat -> okcol d fs (nth k ws 0) (psf (i + k)%nat)) /\
    forall k, (k < g_len)%nat -> nth k cols' None =
      if (o_sym d && inr (g_len - 1 - k) i (length ws))%bool then Some (map swap_pair (psf (g_len - 1 - k)%nat))
      else if inr k i (length ws) then Some (psf k) else nth k cols None.
Proof.
  intros Ge Hg Fp. induction ws as [|w ws IH]; intros i cols Lc Li Sy At Fw.
  - exists cols, (fun _ => []). cbn [length fill_cols]. split; [reflexivity|]. split; [exact Lc|]. split; [intros k Hk; lia|]. intros k Hk. assert (N : forall a, inr a i 0 = false) by (intros a; apply inr_false; lia). rewrite !N, andb_false_r. reflexivity.
  - inversion Fw as [|? ? Hw Fw']; subst. cbn [length] in *. destruct (pairs_ok d rows i Ge Hg fs 0 w Fp) as (ps & Ep & Op); [intros a Ha; apply At; [exact Ha | lia] | exact Hw|]. cbn [fill_cols]. rewrite Ep. cbn [bind]. destruct (put_col_ok ps i cols) as (c1 & E1 & L1 & N1); [lia|]. rewrite E1. cbn [bind].
    set (g := length cols) in *.
    assert (C2 : exists c2, (if o_sym d then put_col (g - i - 1) (map swap_pair ps) c1 else Ok c1) = Ok c2 /\ length c2 = g /\ forall q, nth q c2 None = if (o_sym d && (q =? g - i - 1)%nat)%bool then Some (map swap_pair ps) else if (q =? i)%nat then Some ps else nth q cols None). { destruct (o_sym d); cbn [andb]. - destruct (put_col_ok (map swap_pair ps) (g - i - 1) c1) as (c2 & E2 & L2 & N2); [lia|]. exists c2. split; [exact E2|]. split; [lia|]. intros q. rewrite N2. destruct (q =? g - i - 1)%nat; [reflexivity | apply N1]. - exists c1. split; [reflexivity|]. split; [lia|]. exact N1. }
    destruct C2 as (c2 & E2 & L2 & N2). rewrite E2. cbn [bind]. destruct (IH (Datatypes.S i) c2) as (c' & psf & E & L' & O' & N'); auto; [lia | intros Hs; specialize (Sy Hs); lia | intros a q Ha Hq; apply At; [exact Ha | lia]|].
    exists c', (fun k => if (k =? i)%nat then ps else psf k). split; [exact E|]. split; [exact L'|]. split.
    + intros k Hk. destruct k; [rewrite Nat.add_0_r, Nat.eqb_refl; exact Op|]. cbn [nth]. destruct (Nat.eqb_spec (i + Datatypes.S k) i); [lia|]. replace (i + Datatypes.S k)%nat with (Datatypes.S i + k)%nat by lia. apply O'. lia.
    + intros k Hk. rewrite (N' k Hk), (N2 k). destruct (o_sym d) eqn:Sd; cbn [andb].
      * specialize (Sy eq_refl). repeat dcase; try reflexivity; try (exfalso; lia); try (rewrite ?Hb1 in *; f_equal; f_equal; lia); try lia.
      * repeat dcase; try reflexivity; try (exfalso; lia).
Qed.
Lemma all_some_ok {A} (l : list (option A)) : (forall k, (k < length l)%nat -> nth k l None <> None) -> exists l', all_some l = Ok l' /\ l = map Some l'.
Proof.
  induction l as [|[a|] l IH]; intros H.
  - exists []. split; reflexivity.
  - destruct IH as (l' & E & ->); [intros k Hk; apply (H (Datatypes.S k)); cbn; lia|]. exists (a :: l'). unfold all_some in *. cbn [mapM bind]. rewrite E. split; reflexivity.
  - exfalso. apply (H 0%nat); [cbn; lia | reflexivity].
Qed.

(** ** Slices of the coordinates *)
Lemma chunks_nth g : (0 < g)%nat -> forall q fuel l, length l = (q * g)%nat -> (q <= fuel)%nat -> forall a, (a < q)%nat -> nth_error (chunks fuel g l) a = Some (firstn g (skipn (a * g) l)).
Proof.
  intros Hg. induction q as [|q IH]; intros fuel l L Hq a Ha; [lia|]. destruct fuel as [|fuel]; [lia|]. destruct l as [|x l]; [cbn in L; lia|]. cbn [chunks]. destruct a as [|a]; [reflexivity|]. cbn [nth_error]. rewrite (IH fuel); [|rewrite skipn_length, L; lia | lia | lia]. f_equal. f_equal. rewrite skipn_skipn. f_equal; lia.
Qed.
