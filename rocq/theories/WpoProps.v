(** * The weight programming optimizer (C176-C179) *)
From Verif Require Import Prelude ConvModel ConvProofs ConvProps WpoModel WpoProofs.

(** ** The represented weights *)
Lemma pairs_flat {A} (a b : nat -> A) : forall l, pairs (flat_map (fun j => [a j; b j]) l) = map (fun j => (a j, b j)) l.
Proof. induction l as [|x l IH]; [reflexivity|]. cbn [flat_map app pairs map]. now rewrite IH. Qed.
Lemma map2_nth' (f : R -> R -> R) : forall (l k : list R) n, (n < length l)%nat -> (n < length k)%nat -> nth n (map2 f l k) 0 = f (nth n l 0) (nth n k 0).
Proof. induction l as [|a l IH]; intros [|b k] n L K; cbn [length] in *; try lia. destruct n; [reflexivity|]. cbn [map2 nth]. apply IH; lia. Qed.
Lemma sum_pairs_nth (a b : nat -> list R) n k : (k < n)%nat -> forall fs (s : nat) (acc : list R), length acc = n -> (forall j, length (a j) = n /\ length (b j) = n) ->
  length (sum_pairs acc fs (map (fun j => (a j, b j)) (seq s (length fs)))) = n /\
  nth k (sum_pairs acc fs (map (fun j => (a j, b j)) (seq s (length fs)))) 0 = nth k acc 0 + sumR (map2 (fun f j => f * (nth k (a j) 0 - nth k (b j) 0)) fs (seq s (length fs))).
Proof.
  intros Hk. induction fs as [|f fs IH]; intros s acc La Hab.
  - cbn. split; [exact La | lra].
  - cbn [length seq map sum_pairs map2 sumR]. destruct (Hab s) as [A1 B1]. assert (Lm : length (map2 (fun u v => f * (u - v)) (a s) (b s)) = n) by (rewrite map2_length; lia). assert (Lv : length (vadd acc (map2 (fun u v => f * (u - v)) (a s) (b s))) = n) by (unfold vadd; rewrite map2_length; unfold vec in *; lia). destruct (IH (Datatypes.S s) _ Lv Hab) as [I1 I2]. split; [exact I1|]. etransitivity; [exact I2|]. unfold vadd. rewrite map2_nth' by (unfold vec in *; lia). rewrite (map2_nth' (fun u v => f * (u - v))) by lia. lra.
Qed.
Lemma sum_nth_pairs : forall fs (pre ps : list (R * R)), length ps = length fs -> sumR (map2 (fun f j => f * (fst (nth j (pre ++ ps) (0, 0)) - snd (nth j (pre ++ ps) (0, 0)))) fs (seq (length pre) (length fs))) = sumR (map2 (fun f p => f * (fst p - snd p)) fs ps).
Proof.
  induction fs as [|f fs IH]; intros pre ps L; [reflexivity|]. destruct ps as [|p ps]; [discriminate L|]. cbn [length seq map2 sumR]. rewrite app_nth2, Nat.sub_diag by lia. cbn [nth]. f_equal. specialize (IH (pre ++ [p]) ps ltac:(now injection L)). rewrite <- app_assoc in IH. cbn [app] in IH. rewrite app_length in IH. cbn [length] in IH. rewrite Nat.add_1_r in IH. exact IH.
Qed.
Lemma rows_us d fs (cols : list (list (R * R))) k w : (k < length cols)%nat -> fs <> [] -> okcol d fs w (nth k cols []) ->
  nth k (cp_us {| cp_f := fs; cp_g := rows_of (length fs) cols |}) 0 = w.
Proof.
  intros Hk Nf (L & _ & S). unfold cp_us. cbn [cp_g cp_f]. unfold rows_of. destruct fs as [|f fs]; [contradiction|]. set (fs' := f :: fs) in *. assert (E0 : exists g0 r, flat_map (fun j => [map (fun c => fst (nth j c (0, 0))) cols; map (fun c => snd (nth j c (0, 0))) cols]) (seq 0 (length fs')) = g0 :: r /\ length g0 = length cols). { unfold fs'. cbn [length seq flat_map app]. eexists. eexists. split; [reflexivity | apply map_length]. } destruct E0 as (g0 & r & Eg & Lg). unfold vec in *. rewrite Eg. rewrite <- Eg.
  rewrite (pairs_flat (fun j => map (fun c : list (R * R) => fst (nth j c (0, 0))) cols) (fun j => map (fun c : list (R * R) => snd (nth j c (0, 0))) cols)).
  destruct (sum_pairs_nth (fun j => map (fun c : list (R * R) => fst (nth j c (0, 0))) cols) (fun j => map (fun c : list (R * R) => snd (nth j c (0, 0))) cols) (length cols) k Hk fs' 0 (map (fun _ => 0) g0)) as [_ E]; [rewrite map_length; exact Lg | intros j; split; apply map_length|]. etransitivity; [exact E|]. rewrite <- S. rewrite <- (sum_nth_pairs fs' [] (nth k cols []) L). cbn [length app].
  assert (Z : nth k (map (fun _ : R => 0) g0) 0 = 0) by (clear; revert k; induction g0; intros [|k]; cbn; auto). rewrite Z, Rplus_0_l. f_equal. assert (X : forall (l : list nat) g1 g2, (forall j, g1 j = g2 j) -> forall l' : list R, map2 (fun f j => f * (g1 j : R)) l' l = map2 (fun f j => f * (g2 j : R)) l' l). { induction l as [|j l IHl]; intros g1 g2 Hg [|v l']; cbn [map2]; auto. rewrite Hg. f_equal. now apply IHl. }
  apply X. intros j. f_equal.
  - rewrite (nth_indep _ 0 (fst (nth j (@nil (R * R)) (0, 0)))) by (rewrite map_length; exact Hk). apply (map_nth (fun c : list (R * R) => fst (nth j c (0, 0)))).
  - f_equal. rewrite (nth_indep _ 0 (snd (nth j (@nil (R * R)) (0, 0)))) by (rewrite map_length; exact Hk). apply (map_nth (fun c : list (R * R) => snd (nth j c (0, 0)))).
Qed.
Lemma grid_nth m n k : (k < n)%nat -> nth k (grid m n) 0 = - m + 2 * m * INR k / INR (n - 1).
Proof. intros H. unfold grid. rewrite (nth_indep _ 0 (- m + 2 * m * INR 0 / INR (n - 1))) by (rewrite map_length, seq_length; auto). rewrite (map_nth (fun k => - m + 2 * m * INR k / INR (n - 1)) (seq 0 n) 0%nat). now rewrite seq_nth. Qed.
Lemma grid_len m n : length (grid m n) = n.
Proof. unfold grid. now rewrite map_length, seq_length. Qed.

Lemma rows_of_len n cols : length (rows_of n cols) = (2 * n)%nat.
Proof. unfold rows_of. rewrite <- (seq_length n 0) at 2. induction (seq 0 n) as [|j l IH]; [reflexivity|]. cbn [flat_map app length]. rewrite IH. lia. Qed.
(** what the hypotheses of an optimizer are: sensible conductances, factors, weights *)
Definition sensible (d : wpo) : Prop :=
  0 <= o_gmin d < o_gmax d /\ o_gerr d = 0 /\ 0 < o_maxw d /\ (1 < o_nbins d)%nat /\ o_f d <> [] /\ 0 < o_fmin d <= o_fmax d /\ Forall (fun o => match o with Some f => 0 < f | None => True end) (o_f d).

Lemma factors_pos d f : sensible d -> Forall2 (factor_ok d) (o_f d) f -> Forall (fun v => 0 < v) f.
Proof. intros (_ & _ & _ & _ & _ & H1 & H2) F. induction F as [|o v l k Ho F IH]; [constructor|]. inversion H2; subst. constructor; [|now apply IH]. destruct o; cbn [factor_ok] in Ho; subst; lra. Qed.
(** the core: what [denormalize] yields for a point of the hypercube *)
Lemma denorm_core d x : sensible d -> length x = hop_dim d -> in01 x ->
  exists f m cols psf, denormalize d x = Ok (f, rows_of (length f) cols) /\ Forall2 (factor_ok d) (o_f d) f /\
    5 / 100 * spans d f <= m <= spans d f /\ length cols = (o_nbins d * 2 - 1)%nat /\
    (forall k, (k < o_nbins d * 2 - 1)%nat -> okcol d f (- m + 2 * m * INR k / INR (o_nbins d * 2 - 1 - 1)) (nth k cols [])) /\
    (o_sym d = true -> forall k, (k < o_nbins d)%nat -> nth (o_nbins d * 2 - 2 - k) cols [] = map swap_pair (psf k) /\ ((k < o_nbins d - 1)%nat -> nth k cols [] = psf k)).
Proof.
  intros Sn Lx Ix. pose proof Sn as ((Hg0 & Hg) & Ge & Hm & Hn & Nf & Hf & Ff). set (N := (o_nbins d * 2 - 1)%nat). set (L := length (o_f d)).
  assert (HL : (0 < L)%nat) by (unfold L; destruct (o_f d); [contradiction | cbn; lia]).
  set (h := if o_sym d then o_nbins d else N).
  assert (Ed : hop_dim d = (h * (2 * L - 1) + n_none (o_f d) + if o_use_max_kw d then 0 else 1)%nat). { unfold hop_dim, discretized. rewrite grid_len. fold L N. unfold h. destruct (o_sym d). - replace ((N + 1) / 2)%nat with (o_nbins d) by (unfold N; replace (o_nbins d * 2 - 1 + 1)%nat with (o_nbins d * 2)%nat by lia; now rewrite Nat.div_mul). destruct (o_use_max_kw d); lia. - destruct (o_use_max_kw d); lia. }
  rewrite Ed in Lx.
  assert (Hh : (0 < h)%nat) by (unfold h, N; destruct (o_sym d); lia).
  destruct (fill_f_ok d ltac:(lra) (o_f d) x) as (f & Ef & F2); [rewrite Lx; generalize (h * (2 * L - 1))%nat; intros; destruct (o_use_max_kw d); lia | exact Ix|]. pose proof (factors_pos d f Sn F2) as Fp. pose proof (Forall2_len _ _ _ F2) as Lf. fold L in Lf.
  set (x1 := skipn (n_none (o_f d)) x). assert (L1 : length x1 = (h * (2 * L - 1) + if o_use_max_kw d then 0 else 1)%nat) by (unfold x1; rewrite skipn_length, Lx; generalize (h * (2 * L - 1))%nat; intros; destruct (o_use_max_kw d); lia).
  assert (I1 : in01 x1). { unfold in01 in *. rewrite Forall_forall in *. intros v Hv. apply Ix. unfold x1 in Hv. rewrite <- (firstn_skipn (n_none (o_f d)) x). apply in_or_app. now right. }
  assert (Xk : exists xk, (if o_use_max_kw d then Ok 1 else match x1 with v :: _ => Ok v | [] => Raise IndexError end) = Ok xk /\ 0 <= xk <= 1). { destruct (o_use_max_kw d); [exists 1; split; [reflexivity | lra]|]. destruct x1 as [|v x1']; [exfalso; change (0 = h * (2 * L - 1) + 1)%nat in L1; revert L1; generalize (h * (2 * L - 1))%nat; intros; lia|]. exists v. split; [reflexivity|]. now inversion I1. }
  destruct Xk as (xk & Exk & Ixk). set (xg := if o_use_max_kw d then x1 else tl x1). assert (Lg : length xg = ((2 * L - 1) * h)%nat). { rewrite (Nat.mul_comm (2 * L - 1) h). unfold xg. destruct (o_use_max_kw d); [rewrite L1; apply Nat.add_0_r|]. destruct x1; [exfalso; change (0 = h * (2 * L - 1) + 1)%nat in L1; revert L1; generalize (h * (2 * L - 1))%nat; intros; lia|]. cbn [tl length] in *. revert L1. generalize (h * (2 * L - 1))%nat. intros. lia. }
  assert (Ig : in01 xg). { unfold xg. destruct (o_use_max_kw d); [exact I1|]. destruct x1; [exact I1|]. now inversion I1. }
  pose proof (spans_nonneg d f Hg Fp) as Sp0. set (M := spans d f) in *. assert (Mp : 0 < M). { unfold M, spans. destruct f as [|v f']; [cbn in Lf; lia|]. inversion Fp as [|? ? P1 P2]; subst. cbn [map sumR]. pose proof (spans_nonneg d f' Hg P2) as Q. unfold spans in Q. assert (0 < v * (o_gmax d - o_gmin d)) by (apply Rmult_lt_0_compat; lra). lra. }
  set (m := xk * (M - 5 / 100 * M) + 5 / 100 * M). assert (Bm : 5 / 100 * M <= m <= M). { unfold m. assert (0 <= xk * (M - 5 / 100 * M)) by (apply Rmult_le_pos; lra). assert (xk * (M - 5 / 100 * M) <= 1 * (M - 5 / 100 * M)) by (apply Rmult_le_compat_r; lra). lra. }
  assert (Ep : partition_parameters d x = Ok (f, m / o_maxw d, xg)). { unfold partition_parameters. fold x1. rewrite Exk. cbn [bind]. rewrite Ef, all_some_map. cbn [bind]. reflexivity. }
  assert (Er : reformat d xg (length f) = Ok (chunks (length xg) h xg, if o_sym d then (h * 2 - 1)%nat else h)). { unfold reformat. rewrite <- Lf, Lg. assert (Q : ((2 * L - 1) * h / (2 * L - 1) = h)%nat) by (rewrite Nat.mul_comm; apply Nat.div_mul; lia). rewrite Q. destruct (Nat.eqb_spec h 0); [lia | reflexivity]. }
  set (gl := if o_sym d then (h * 2 - 1)%nat else h). assert (Egl : gl = N) by (unfold gl, h, N; destruct (o_sym d); lia).
  set (W := map (Rmult (m / o_maxw d)) (discretized d)).
  assert (EW : W = grid m N). { unfold W, discretized, grid. rewrite map_map. apply map_ext. intros k. fold N. assert (INR (N - 1) <> 0) by (apply not_0_INR; unfold N; lia). field. split; lra. }
  set (ws := if o_sym d then firstn (gl / 2 + 1) W else W). assert (Lws : length ws = h). { unfold ws. rewrite EW. unfold gl, h in *. destruct (o_sym d); [|apply grid_len]. rewrite firstn_length, grid_len. replace ((o_nbins d * 2 - 1) / 2)%nat with (o_nbins d - 1)%nat by (apply (Nat.div_unique _ 2 (o_nbins d - 1) 1); lia). unfold N. lia. }
  assert (Nws : forall k, (k < h)%nat -> nth k ws 0 = - m + 2 * m * INR k / INR (N - 1)). { intros k Hk. assert (Hk' : (k < N)%nat) by (unfold h, N in *; destruct (o_sym d); lia). rewrite <- (grid_nth m N k Hk'). unfold ws. rewrite EW. destruct (o_sym d) eqn:Sd; [|reflexivity]. rewrite <- (firstn_skipn (gl / 2 + 1) (grid m N)) at 2. rewrite app_nth1; [reflexivity|]. unfold ws in Lws. rewrite EW in Lws. lia. }
  assert (Bws : Forall (fun w => Rabs w <= spans d f) ws). { apply Forall_forall. intros w Hw. assert (Hw' : In w (grid m N)). { unfold ws in Hw. rewrite EW in Hw. destruct (o_sym d); [|exact Hw]. rewrite <- (firstn_skipn (gl / 2 + 1) (grid m N)). apply in_or_app. now left. } apply Rle_trans with (maxabs (grid m N)); [now apply maxabs_ub|]. rewrite maxabs_grid; [fold M; lra | lra | unfold N; lia]. }
  assert (At : forall a q, (a < 2 * length f - 1)%nat -> (q < 0 + length ws)%nat -> exists v, at2 (chunks (length xg) h xg) a q = Ok v /\ 0 <= v <= 1). { intros a q Ha Hq. unfold at2. rewrite (chunks_nth h Hh (2 * L - 1) (length xg) xg Lg); [|nia | lia]. assert (Lq : length (firstn h (skipn (a * h) xg)) = h) by (rewrite firstn_length, skipn_length, Lg; nia). destruct (nth_error (firstn h (skipn (a * h) xg)) q) as [v|] eqn:En; [|apply nth_error_None in En; lia]. exists v. split; [reflexivity|]. apply nth_error_In in En. unfold in01 in Ig. rewrite Forall_forall in Ig. apply Ig. rewrite <- (firstn_skipn (a * h) xg). apply in_or_app. right. rewrite <- (firstn_skipn h (skipn (a * h) xg)). apply in_or_app. now left. }
  destruct (fill_cols_ok d (chunks (length xg) h xg) f gl Ge Hg Fp ws 0 (repeat None gl)) as (cols' & psf & Ec & Lc & Oc & Nc); auto; [apply repeat_length | rewrite Lws, Egl; unfold h, N; destruct (o_sym d); lia | intros Hs; rewrite Lws; unfold gl; rewrite Hs; lia|].
  assert (Val : forall k, (k < N)%nat -> exists ps, nth k cols' None = Some ps /\ okcol d f (- m + 2 * m * INR k / INR (N - 1)) ps). { intros k Hk. rewrite Nc by lia. destruct (o_sym d) eqn:Sd; cbn [andb].
    - destruct (inr (gl - 1 - k) 0 (length ws)) eqn:E1.
      + apply inr_spec in E1. eexists. split; [reflexivity|]. assert (Hq : (gl - 1 - k < h)%nat) by lia. pose proof (Oc (gl - 1 - k)%nat ltac:(lia)) as O1. cbn [Nat.add] in O1. rewrite (Nws _ Hq) in O1. apply swap_ok in O1. replace (- m + 2 * m * INR k / INR (N - 1)) with (- (- m + 2 * m * INR (gl - 1 - k) / INR (N - 1))); [exact O1|]. rewrite Egl. assert (INR (N - 1 - k) = INR (N - 1) - INR k) by (apply minus_INR; lia). rewrite H. assert (INR (N - 1) <> 0) by (apply not_0_INR; unfold N; lia). field. assumption.
      + apply inr_false in E1. assert (E2 : inr k 0 (length ws) = true) by (apply inr_spec; unfold h, N in *; lia). rewrite E2. eexists. split; [reflexivity|]. rewrite <- Nws by (apply inr_spec in E2; lia). apply (Oc k). apply inr_spec in E2. lia.
    - assert (E2 : inr k 0 (length ws) = true) by (apply inr_spec; unfold h in *; lia). rewrite E2. eexists. split; [reflexivity|]. rewrite <- Nws by (unfold h; lia). apply (Oc k). unfold h in *. lia. }
  destruct (all_some_ok cols') as (cols & Ea & Em); [intros k Hk; destruct (Val k ltac:(lia)) as (ps & -> & _); discriminate|].
  assert (Nn : forall k, (k < N)%nat -> nth k cols' None = Some (nth k cols [])). { intros k Hk. rewrite Em. rewrite (nth_indep _ None (Some [])) by (rewrite map_length; rewrite Em, map_length in Lc; lia). apply (map_nth Some). }
  exists f, m, cols, psf. split; [|split; [exact F2 | split; [exact Bm | split; [rewrite Em, map_length in Lc; fold N; lia | split]]]].
  - unfold denormalize. rewrite Ep. cbn [bind]. fold W. rewrite Er. cbn [bind]. fold gl. fold ws. rewrite Ec. cbn [bind]. rewrite Ea. reflexivity.
  - intros k Hk. fold N in Hk |- *. destruct (Val k Hk) as (ps & E & O). rewrite (Nn k Hk) in E. injection E as ->. exact O.
  - intros Sd k Hk. assert (Eh : h = o_nbins d) by (unfold h; now rewrite Sd). split.
    + assert (Hq : (o_nbins d * 2 - 2 - k < N)%nat) by (unfold N; lia). pose proof (Nn _ Hq) as E. rewrite Nc in E by lia. rewrite Sd in E. cbn [andb] in E. replace (gl - 1 - (o_nbins d * 2 - 2 - k))%nat with k in E by (unfold N in Egl; lia). rewrite (proj2 (inr_spec k 0 (length ws))) in E by lia. now injection E as ->.
    + intros Hk2. assert (Hq : (k < N)%nat) by (unfold N; lia). pose proof (Nn _ Hq) as E. rewrite Nc in E by lia. rewrite Sd in E. cbn [andb] in E. rewrite (proj2 (inr_false (gl - 1 - k) 0 (length ws))) in E by (unfold N in Egl; lia). rewrite (proj2 (inr_spec k 0 (length ws))) in E by lia. now injection E as ->.
Qed.

(** C176: every point of the hypercube is a programming strategy of the requested kind, which represents every weight
    tensor exactly: given factors are kept, others are within their bounds; all conductances lie between [g_min] and
    [g_max]; the converter is accepted; and weights that it turns into conductances and back are unchanged. *)
Theorem C176_strategy d x : sensible d -> length x = hop_dim d -> in01 x ->
  exists f g c, denormalize d x = Ok (f, g) /\ Forall2 (factor_ok d) (o_f d) f /\
    length g = (2 * length f)%nat /\ Forall (fun row => length row = (o_nbins d * 2 - 1)%nat /\ Forall (fun v => o_gmin d <= v <= o_gmax d) row) g /\
    cp_new f g (o_gmax d) (o_gmin d) false = Ok c /\
    forall w, w <> [] -> exists cond ratio, cp_to c w = Ok (cond, ratio) /\ cp_back c cond ratio = Ok w.
Proof.
  intros Sn Lx Ix. destruct (denorm_core d x Sn Lx Ix) as (f & m & cols & psf & Ed & F2 & Bm & Lc & Ok_ & _). pose proof Sn as ((Hg0 & Hg) & Ge & Hm & Hn & Nf & Hf & Ff). pose proof (factors_pos d f Sn F2) as Fp. pose proof (Forall2_len _ _ _ F2) as Lf.
  assert (Nf' : f <> []) by (intros ->; destruct (o_f d); [contradiction | discriminate Lf]).
  assert (Mp : 0 < spans d f). { destruct f as [|v f']; [contradiction|]. inversion Fp as [|? ? P1 P2]; subst. unfold spans. cbn [map sumR]. pose proof (spans_nonneg d f' Hg P2) as Q. unfold spans in Q. assert (0 < v * (o_gmax d - o_gmin d)) by (apply Rmult_lt_0_compat; lra). lra. }
  set (g := rows_of (length f) cols). assert (Lg : length g = (2 * length f)%nat). { unfold g. apply rows_of_len. }
  assert (Rg : Forall (fun row => length row = (o_nbins d * 2 - 1)%nat /\ Forall (fun v => o_gmin d <= v <= o_gmax d) row) g). { apply Forall_forall. intros row Hr. unfold g, rows_of in Hr. apply in_flat_map in Hr. destruct Hr as (j & Hj & Hr). apply in_seq in Hj. assert (Inr_ : forall c, In c cols -> o_gmin d <= fst (nth j c (0, 0)) <= o_gmax d /\ o_gmin d <= snd (nth j c (0, 0)) <= o_gmax d). { intros c Hc. apply (In_nth _ _ []) in Hc. destruct Hc as (k & Hk & <-). destruct (Ok_ k ltac:(lia)) as (L1 & R1 & _). rewrite Forall_forall in R1. apply R1. apply nth_In. lia. } destruct Hr as [<-|[<-|[]]]; (split; [rewrite map_length; exact Lc|]); apply Forall_forall; intros v Hv; apply in_map_iff in Hv; destruct Hv as (c & <- & Hc); apply (Inr_ c Hc). }
  exists f, g, {| cp_f := f; cp_g := g |}. split; [exact Ed|]. split; [exact F2|]. split; [exact Lg|]. split; [exact Rg|].
  assert (En : cp_new f g (o_gmax d) (o_gmin d) false = Ok {| cp_f := f; cp_g := g |}). { unfold cp_new. unfold vec in *. rewrite Lg. replace (Nat.odd (2 * length f)) with false by (symmetry; rewrite <- Nat.negb_even; rewrite Nat.even_mul; reflexivity). rewrite Nat.eqb_refl. cbn [negb]. unfold check_g. rewrite (proj2 (Rltb_false (o_gmax d) 0)) by lra. rewrite (proj2 (Rltb_false (o_gmin d) 0)) by lra. rewrite (proj2 (Rleb_false (o_gmax d) (o_gmin d))) by lra. reflexivity. }
  split; [exact En|]. intros w Hw. apply (C30_custom_linear f g (o_gmax d) (o_gmin d) _ m (o_nbins d * 2 - 1) w En); [lia | lra | intros E; rewrite E in Lg; destruct f; [contradiction | discriminate Lg] | eapply Forall_impl; [|exact Rg]; cbv beta; tauto | | exact Hw].
  intros k Hk. unfold g. apply (rows_us d); [lia | exact Nf' | now apply Ok_].
Qed.


(** C176 is not vacuous: one free factor and one given one, two pairs, symmetric. *)
Definition ex_wpo : wpo := {| o_f := [Some 1; None]; o_fmin := 1 / 10; o_fmax := 5; o_use_max_kw := false; o_gmin := 1 / 10; o_gmax := 25; o_gerr := 0; o_maxw := 1; o_nbins := 6; o_sym := true |}.
Theorem C176_nontrivial : sensible ex_wpo /\ hop_dim ex_wpo = 20%nat /\ length (repeat (1 / 2) 20) = hop_dim ex_wpo /\ in01 (repeat (1 / 2) 20).
Proof.
  split; [|split; [reflexivity | split; [reflexivity|]]].
  - unfold sensible, ex_wpo. cbn [o_gmin o_gmax o_gerr o_maxw o_nbins o_f o_fmin o_fmax]. repeat split; try lra; try lia; [discriminate | repeat constructor; lra].
  - unfold in01. cbn [repeat]. repeat constructor; lra.
Qed.

(** C177: symmetric strategies.  The pairs that represent [-w] are the pairs that represent [w] with plus and minus
    exchanged, for every weight of the grid other than 0. *)
Theorem C177_symmetric d x f g : sensible d -> o_sym d = true -> length x = hop_dim d -> in01 x -> denormalize d x = Ok (f, g) ->
  forall j k, (j < length f)%nat -> (k < o_nbins d * 2 - 1)%nat -> k <> (o_nbins d - 1)%nat ->
  nth (o_nbins d * 2 - 2 - k) (nth (2 * j) g []) 0 = nth k (nth (2 * j + 1) g []) 0.
Proof.
  intros Sn Sd Lx Ix Hd j k Hj Hk Nk. destruct (denorm_core d x Sn Lx Ix) as (f' & m & cols & psf & Ed & F2 & Bm & Lc & Ok_ & Sy). rewrite Ed in Hd. injection Hd as -> <-. specialize (Sy Sd).
  assert (R : forall n j, (j < n)%nat -> nth (2 * j) (rows_of n cols) [] = map (fun c => fst (nth j c (0, 0))) cols /\ nth (2 * j + 1) (rows_of n cols) [] = map (fun c => snd (nth j c (0, 0))) cols). { clear. intros n j Hj. unfold rows_of. assert (X : forall n s j, (j < n)%nat -> nth (2 * j) (flat_map (fun j => [map (fun c : list (R * R) => fst (nth j c (0, 0))) cols; map (fun c : list (R * R) => snd (nth j c (0, 0))) cols]) (seq s n)) [] = map (fun c => fst (nth (s + j) c (0, 0))) cols /\ nth (2 * j + 1) (flat_map (fun j => [map (fun c : list (R * R) => fst (nth j c (0, 0))) cols; map (fun c : list (R * R) => snd (nth j c (0, 0))) cols]) (seq s n)) [] = map (fun c => snd (nth (s + j) c (0, 0))) cols). { clear. induction n as [|n IH]; intros s j Hj; [lia|]. cbn [seq flat_map app]. destruct j as [|j]; [rewrite Nat.add_0_r; split; reflexivity|]. replace (2 * Datatypes.S j)%nat with (Datatypes.S (Datatypes.S (2 * j))) by lia. replace (Datatypes.S (Datatypes.S (2 * j)) + 1)%nat with (Datatypes.S (Datatypes.S (2 * j + 1))) by lia. cbn [nth]. replace (s + Datatypes.S j)%nat with (Datatypes.S s + j)%nat by lia. apply IH. lia. } apply (X n 0%nat j Hj). }
  destruct (R (length f) j Hj) as [R1 R2]. rewrite R1, R2. clear R R1 R2.
  assert (M1 : forall h : list (R * R) -> R, forall q, (q < length cols)%nat -> nth q (map h cols) 0 = h (nth q cols [])). { intros h q Hq. rewrite (nth_indep _ 0 (h [])) by (rewrite map_length; exact Hq). apply map_nth. }
  rewrite !M1 by lia.
  assert (Sw : forall ps : list (R * R), (j < length ps)%nat -> nth j (map swap_pair ps) (0, 0) = swap_pair (nth j ps (0, 0))). { intros ps Hp. rewrite (nth_indep _ (0, 0) (swap_pair (0, 0))) by (rewrite map_length; exact Hp). apply map_nth. }
  assert (Lp : forall q, (q < o_nbins d * 2 - 1)%nat -> length (nth q cols []) = length f) by (intros q Hq; apply (Ok_ q Hq)).
  destruct (Nat.lt_ge_cases k (o_nbins d - 1)) as [Lk|Gk].
  - destruct (Sy k ltac:(lia)) as [S1 S2]. specialize (S2 Lk). pose proof (Lp k Hk) as L1. rewrite S1, S2 in *. rewrite Sw by lia. reflexivity.
  - destruct (Sy (o_nbins d * 2 - 2 - k)%nat ltac:(lia)) as [S1 S2]. specialize (S2 ltac:(lia)). replace (o_nbins d * 2 - 2 - (o_nbins d * 2 - 2 - k))%nat with k in S1 by lia. pose proof (Lp (o_nbins d * 2 - 2 - k)%nat ltac:(lia)) as L1. rewrite S1, S2 in *. rewrite Sw by lia. reflexivity.
Qed.

Lemma pairs_step d rows i f r j c xg xd fd delta gp gm ps : at2 rows (2 * j) i = Ok xg -> match r with [] => Ok 1 | _ => at2 rows (2 * j + 1) i end = Ok xd -> f <> 0 ->
  fd = xd * (Rmin (c + spans d r) (f * (o_gmax d - o_gmin d)) - Rmax (c - spans d r) (- (f * (o_gmax d - o_gmin d)))) + Rmax (c - spans d r) (- (f * (o_gmax d - o_gmin d))) ->
  delta = fd / f ->
  gp = Rmax (Rmin (xg * ((o_gmax d + Rmin delta 0 + o_gerr d) - (o_gmin d + Rmax delta 0 - o_gerr d)) + (o_gmin d + Rmax delta 0 - o_gerr d)) (o_gmax d)) (o_gmin d) ->
  gm = Rmax (Rmin (gp - delta) (o_gmax d)) (o_gmin d) ->
  pairs_of d rows i r (Datatypes.S j) (c - fd) = Ok ps -> pairs_of d rows i (f :: r) j c = Ok ((gp, gm) :: ps).
Proof. intros E1 E2 Nf -> -> -> -> Ep. cbn [pairs_of]. rewrite E1. cbn [bind]. rewrite E2. cbn [bind]. rewrite (proj2 (Reqb_false f 0) Nf). unfold spans in *. rewrite Ep. reflexivity. Qed.
Ltac mx := repeat match goal with
  | |- context [Rmin ?a ?b] => first [rewrite (Rmin_left a b) by lra | rewrite (Rmin_right a b) by lra]
  | |- context [Rmax ?a ?b] => first [rewrite (Rmax_left a b) by lra | rewrite (Rmax_right a b) by lra] end; lra.

(** C177, refuted at 0: with two pairs, the pairs that represent the weight 0 need not be symmetric, here they
    cancel each other at full conductance. *)
Definition mid_wpo : wpo := {| o_f := [Some 1; Some 1]; o_fmin := 1; o_fmax := 1; o_use_max_kw := true; o_gmin := 0; o_gmax := 1; o_gerr := 0; o_maxw := 1; o_nbins := 2; o_sym := true |}.
Theorem C177_middle_refuted : ~ (forall d x f g, sensible d -> o_sym d = true -> length x = hop_dim d -> in01 x -> denormalize d x = Ok (f, g) ->
  forall j k, (j < length f)%nat -> (k < o_nbins d * 2 - 1)%nat -> nth (o_nbins d * 2 - 2 - k) (nth (2 * j) g []) 0 = nth k (nth (2 * j + 1) g []) 0).
Proof.
  intros H. assert (Sn : sensible mid_wpo). { unfold sensible, mid_wpo. cbn [o_gmin o_gmax o_gerr o_maxw o_nbins o_f o_fmin o_fmax]. repeat split; try lra; try lia; [discriminate | repeat constructor; lra]. }
  set (x := [0; 0; 0; 1; 0; 0]). assert (Ix : in01 x) by (unfold in01, x; repeat constructor; lra).
  assert (P1 : pairs_of mid_wpo [[0; 0]; [0; 1]; [0; 0]] 1 [1; 1] 0 0 = Ok [(1, 0); (0, 1)]).
  { eapply (pairs_step _ _ _ _ _ _ _ 0 1 1 1); [reflexivity | reflexivity | lra | unfold spans; cbn [map sumR mid_wpo o_gmax o_gmin]; mx | lra | cbn [mid_wpo o_gmax o_gmin o_gerr]; mx | cbn [mid_wpo o_gmax o_gmin o_gerr]; mx |].
    eapply (pairs_step _ _ _ _ _ _ _ 0 1 (-1) (-1)); [reflexivity | reflexivity | lra | unfold spans; cbn [map sumR mid_wpo o_gmax o_gmin]; mx | lra | cbn [mid_wpo o_gmax o_gmin o_gerr]; mx | cbn [mid_wpo o_gmax o_gmin o_gerr]; mx | reflexivity]. }
  assert (P0 : pairs_of mid_wpo [[0; 0]; [0; 1]; [0; 0]] 0 [1; 1] 0 (-2) = Ok [(0, 1); (0, 1)]).
  { eapply (pairs_step _ _ _ _ _ _ _ 0 0 (-1) (-1)); [reflexivity | reflexivity | lra | unfold spans; cbn [map sumR mid_wpo o_gmax o_gmin]; mx | lra | cbn [mid_wpo o_gmax o_gmin o_gerr]; mx | cbn [mid_wpo o_gmax o_gmin o_gerr]; mx |].
    eapply (pairs_step _ _ _ _ _ _ _ 0 1 (-1) (-1)); [reflexivity | reflexivity | lra | unfold spans; cbn [map sumR mid_wpo o_gmax o_gmin]; mx | lra | cbn [mid_wpo o_gmax o_gmin o_gerr]; mx | cbn [mid_wpo o_gmax o_gmin o_gerr]; mx | reflexivity]. }
  assert (E : denormalize mid_wpo x = Ok ([1; 1], rows_of 2 [[(0, 1); (0, 1)]; [(0, 1); (1, 0)]; [(1, 0); (1, 0)]])).
  { unfold denormalize, partition_parameters, x. cbn [mid_wpo o_f o_fmin o_fmax fill_f n_none filter length skipn o_use_max_kw bind all_some mapM].
    unfold reformat. cbn [length Nat.mul Nat.add Nat.sub Nat.div Nat.divmod fst Nat.eqb bind o_sym mid_wpo chunks firstn skipn map sumR o_gmax o_gmin o_maxw].
    unfold discretized. cbn [o_maxw mid_wpo o_nbins Nat.mul Nat.add Nat.sub]. unfold grid. cbn [seq map firstn Nat.sub INR].
    replace ((1 * ((1 * (1 - 0) + (1 * (1 - 0) + 0)) - 5 / 100 * (1 * (1 - 0) + (1 * (1 - 0) + 0))) + 5 / 100 * (1 * (1 - 0) + (1 * (1 - 0) + 0))) / 1 * (- (1) + 2 * 1 * 0 / (1 + 1))) with (-2) by field.
    replace ((1 * ((1 * (1 - 0) + (1 * (1 - 0) + 0)) - 5 / 100 * (1 * (1 - 0) + (1 * (1 - 0) + 0))) + 5 / 100 * (1 * (1 - 0) + (1 * (1 - 0) + 0))) / 1 * (- (1) + 2 * 1 * 1 / (1 + 1))) with 0 by field.
    cbn [fill_cols]. rewrite P0, P1. reflexivity. }
  specialize (H mid_wpo x _ _ Sn eq_refl eq_refl Ix E 0%nat 1%nat ltac:(cbn; lia) ltac:(cbn; lia)). cbn in H. lra.
Qed.
Print Assumptions C176_strategy.
Print Assumptions C177_symmetric.
Print Assumptions C177_middle_refuted.

Print Assumptions C176_nontrivial.
