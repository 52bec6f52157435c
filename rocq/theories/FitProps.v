(** * Fitting device models (C198-C199) *)
From Verif Require Import Prelude FitModel FitSpec.
Local Open Scope string_scope.

Lemma nth_removelast {A} (l : list A) j : (j < length l - 1)%nat -> firstn j (removelast l) = firstn j l.
Proof.
  revert j. induction l as [|a l IH]; intros j L; [reflexivity|]. destruct l as [|b l]; [cbn in L; lia|]. change (removelast (a :: b :: l)) with (a :: removelast (b :: l)). destruct j as [|j]; [reflexivity|]. cbn [firstn]. f_equal. apply IH. cbn [length] in *. lia.
Qed.
Lemma firstn_removelast {A} (l : list A) j : (j <= length l - 1)%nat -> firstn j (removelast l) = firstn j l.
Proof.
  revert j. induction l as [|a l IH]; intros j L; [destruct j; reflexivity|]. destruct l as [|b l]; [assert (j = O) as -> by (cbn in L; lia); reflexivity|]. change (removelast (a :: b :: l)) with (a :: removelast (b :: l)). destruct j as [|j]; [reflexivity|]. cbn [firstn]. f_equal. apply IH. cbn [length] in *. lia.
Qed.
Lemma removelast_length {A} (l : list A) : length (removelast l) = (length l - 1)%nat.
Proof. induction l as [|a l IH]; [reflexivity|]. destruct l as [|b l]; [reflexivity|]. change (removelast (a :: b :: l)) with (a :: removelast (b :: l)). cbn [length] in *. rewrite IH. lia. Qed.
Lemma removelast_Forall {A} (P : A -> Prop) l : Forall P l -> Forall P (removelast l).
Proof. induction 1 as [|a l H F IH]; [constructor|]. destruct l; [constructor|]. change (removelast (a :: a0 :: l)) with (a :: removelast (a0 :: l)). constructor; assumption. Qed.
Lemma map_nth_seq {A B} (f : A -> B) (l : list A) d : map f l = map (fun i => f (nth i l d)) (seq 0 (length l)).
Proof. induction l as [|a l IH]; [reflexivity|]. cbn [length seq map]. f_equal. rewrite <- seq_shift, map_map. exact IH. Qed.
Lemma nth_map_d {A B} (f : A -> B) (l : list A) i d e : (i < length l)%nat -> nth i (map f l) e = f (nth i l d).
Proof. intros L. rewrite (nth_indep _ e (f d)) by (rewrite map_length; exact L). apply map_nth. Qed.
Lemma nth_map_seq {B} (f : nat -> B) n i d : (i < n)%nat -> nth i (map f (seq 0 n)) d = f i.
Proof. intros L. rewrite (nth_map_d f _ i O) by (rewrite seq_length; exact L). rewrite seq_nth by exact L. reflexivity. Qed.

Lemma at2_plain m n c i j : length m = n -> (forall r, In r m -> length r = c) -> (i < n)%nat -> (j < c)%nat -> at2 m i j = nth j (nth i m []) 0%R.
Proof.
  intros Ln Lc Hi Hj. unfold at2. assert (Nc : ncols m = c). { destruct m as [|r m]; [cbn in Ln; lia|]. cbn [ncols]. apply Lc. left. reflexivity. }
  rewrite Nc, Ln. destruct (Nat.eqb_spec n 1) as [E|E].
  - assert (i = O) as -> by lia. rewrite (nth_map_d _ _ _ []) by lia. destruct (Nat.eqb_spec c 1); [assert (j = O) as -> by lia|]; reflexivity.
  - rewrite (nth_map_d _ _ _ []) by lia. destruct (Nat.eqb_spec c 1); [assert (j = O) as -> by lia|]; reflexivity.
Qed.
Lemma bdim_same n : bdim n n = Ok n.
Proof. unfold bdim. rewrite Nat.eqb_refl. reflexivity. Qed.
Lemma ncols_of m n c : length m = n -> (0 < n)%nat -> (forall r, In r m -> length r = c) -> ncols m = c.
Proof. intros Ln P Lc. destruct m as [|r m]; [cbn in Ln; lia|]. apply Lc. left. reflexivity. Qed.
Lemma bop_same f a b n c : length a = n -> length b = n -> (0 < n)%nat -> (forall r, In r a -> length r = c) -> (forall r, In r b -> length r = c) ->
  bop f a b = Ok (map (fun i => map (fun j => f (nth j (nth i a []) 0%R) (nth j (nth i b []) 0%R)) (seq 0 c)) (seq 0 n)).
Proof.
  intros La Lb P Ca Cb. unfold bop. rewrite La, Lb, bdim_same. cbn [bind]. rewrite (ncols_of a n c), (ncols_of b n c), bdim_same by assumption. cbn [bind]. f_equal. apply map_ext_in. intros i Hi. apply in_seq in Hi. apply map_ext_in. intros j Hj. apply in_seq in Hj. rewrite (at2_plain a n c), (at2_plain b n c) by (assumption || lia). reflexivity.
Qed.
Lemma bop_row f a v n c : length a = n -> (0 < n)%nat -> (forall r, In r a -> length r = c) -> length v = c ->
  bop f a [v] = Ok (map (fun i => map (fun j => f (nth j (nth i a []) 0%R) (nth j v 0%R)) (seq 0 c)) (seq 0 n)).
Proof.
  intros La P Ca Lv. unfold bop. cbn [length]. rewrite La. replace (bdim n 1) with (Ok n). 2: { unfold bdim. destruct (Nat.eqb_spec n 1) as [->|]; [reflexivity|]. cbn [Nat.eqb]. reflexivity. }
  cbn [bind]. rewrite (ncols_of a n c) by assumption. change (ncols [v]) with (length v). rewrite Lv, bdim_same. cbn [bind]. f_equal. apply map_ext_in. intros i Hi. apply in_seq in Hi. apply map_ext_in. intros j Hj. apply in_seq in Hj.
  rewrite (at2_plain a n c) by (assumption || lia). f_equal. unfold at2. cbn [length Nat.eqb map nth]. change (ncols [v]) with (length v). rewrite Lv. destruct (Nat.eqb_spec c 1); [assert (j = O) as -> by lia|]; reflexivity.
Qed.

Section Fit.
Context {tile : Type} (new_tile : nat -> nat -> rpu -> tile) (set_weights : list (list R) -> tile -> res tile).
Context (update : list R -> list R -> tile -> res tile) (get_weights : tile -> list (list R)) (default_rpu : device -> rpu).
Notation model_response := (model_response new_tile set_weights update get_weights).
Notation measurements := (measurements set_weights update get_weights).
Notation one_measurement := (one_measurement set_weights update get_weights).
Notation trace := (trace update get_weights).
Notation fit := (fit new_tile set_weights update get_weights default_rpu).

Section Response.
(** a tile of [n] traces and [D] devices accepts weights and pulses of its size *)
Context (n D : nat) (sw : list (list R) -> tile -> tile) (up : list R -> list R -> tile -> tile).
Definition sized (w : list (list R)) : Prop := length w = n /\ forall r, In r w -> length r = D.
Context (Hn : (0 < n)%nat) (HD : (0 < D)%nat).
Context (Hset : forall w t, sized w -> set_weights w t = Ok (sw w t)).
Context (Hup : forall x d t, length x = D -> length d = n -> update x d t = Ok (up x d t)).
Context (Hget : forall t, sized (get_weights t)).
Notation after := (after up n).
Notation start := (start sw n).
Notation expected := (expected sw up get_weights n D).
Notation response_at := (response_at sw up get_weights n D).

Lemma times_same row : length row = D -> times_ones D row = Ok row.
Proof. intros L. unfold times_ones. rewrite L, Nat.eqb_refl. reflexivity. Qed.
Lemma mean_same w : sized w -> mean_traces w = mean_over n D w.
Proof.
  intros (L & C). unfold mean_traces, mean_over. rewrite (ncols_of w n D), L by assumption. apply map_ext. intros j. rewrite (map_nth_seq _ w []), L. reflexivity.
Qed.
Lemma trace_run : forall ps t, Forall (fun r => length r = D) ps -> trace n D ps t = Ok (map (fun j => get_weights (after t (firstn (S j) ps))) (seq 0 (length ps)), after t ps).
Proof.
  induction ps as [|p ps IH]; intros t F; [reflexivity|]. inversion F; subst. cbn [FitModel.trace]. rewrite times_same by assumption. cbn [bind]. rewrite Hup by (try rewrite repeat_length; reflexivity || assumption). cbn [bind]. rewrite IH by assumption. cbn [bind fst snd length seq map]. rewrite <- seq_shift, map_map. reflexivity.
Qed.
Lemma mean_repeat row : length row = D -> mean_traces (repeat row n) = row.
Proof.
  intros L. rewrite mean_same. 2: { split; [apply repeat_length|]. intros r Hr. apply repeat_spec in Hr. subst. exact L. }
  unfold mean_over. transitivity (map (fun x : R => x) row); [|apply map_id]. rewrite (map_nth_seq (fun x => x) row 0%R), L. apply map_ext_in. intros j Hj. apply in_seq in Hj.
  rewrite (map_ext_in _ (fun _ => nth j row 0%R)). 2: { intros i Hi. apply in_seq in Hi. rewrite (nth_indep _ [] row) by (rewrite repeat_length; lia). rewrite nth_repeat. reflexivity. }
  assert (S1 : forall l : list nat, sumR (map (fun _ => nth j row 0%R) l) = (INR (length l) * nth j row 0)%R).
  { induction l as [|a l IH]; [cbn; ring|]. cbn [map sumR length]. rewrite IH, S_INR. ring. }
  rewrite S1, seq_length. field. apply not_0_INR. lia.
Qed.
Lemma one_ok idx (fw : option fitw) v pd rd P Q t : as2 pd = Ok P -> as2 rd = Ok Q -> fits D P Q ->
  (match fw, v with None, None => True | Some (FTuple l), Some u => nth_error l idx = Some (FArr u) /\ (D <= length u)%nat | _, _ => False end) ->
  one_measurement n D idx fw pd rd t = Ok (responses_of sw up get_weights n D P Q t, deviations_of sw up get_weights n D P Q v t, after (start Q t) (removelast P)).
Proof.
  intros EP EQ (L & FP & FQ) HV. unfold FitModel.one_measurement. rewrite EP, EQ. cbn [bind]. destruct Q as [|q0 Q']; [cbn in L; lia|]. set (Q := q0 :: Q') in *. cbn [bind].
  assert (Lq : length q0 = D) by (inversion FQ; assumption). rewrite times_same by exact Lq. cbn [bind].
  rewrite Hset. 2: { split; [apply repeat_length|]. intros r Hr. apply repeat_spec in Hr. rewrite Hr; exact Lq. }
  cbn [bind]. change (sw (repeat q0 n) t) with (start Q t). set (t0 := start Q t).
  rewrite trace_run by (apply removelast_Forall; exact FP). cbn [bind fst snd].
  assert (AV : firstn (length Q) (map mean_traces (repeat q0 n :: map (fun j => get_weights (after t0 (firstn (S j) (removelast P)))) (seq 0 (length (removelast P))))) = responses_of sw up get_weights n D P Q t).
  { unfold responses_of. cbn [map]. rewrite mean_repeat by exact Lq. change (length Q) with (S (length Q')). cbn [firstn seq map]. f_equal. rewrite <- seq_shift, map_map, map_map, firstn_map.
    assert (LQ : (length Q' <= length (removelast P))%nat) by (rewrite removelast_length; unfold Q in L; cbn [length] in L; lia).
    assert (FS : forall a b, (a <= b)%nat -> firstn a (seq 0 b) = seq 0 a). { intros a b Lab. replace b with (a + (b - a))%nat by lia. rewrite seq_app, firstn_app, seq_length, Nat.sub_diag. cbn [firstn]. rewrite app_nil_r. apply firstn_all2. rewrite seq_length. lia. }
    rewrite FS by exact LQ. apply map_ext_in. intros j Hj. apply in_seq in Hj. unfold FitSpec.response_at. rewrite mean_same by apply Hget. fold t0. change (match removelast P with [] => [] | a :: l => a :: firstn j l end) with (firstn (S j) (removelast P)). rewrite firstn_removelast; [reflexivity|]. rewrite removelast_length in LQ. lia. }
  rewrite AV. set (A := responses_of sw up get_weights n D P Q t).
  assert (LA : length A = length Q) by (unfold A, responses_of; rewrite map_length, seq_length; reflexivity).
  assert (CA : forall r, In r A -> length r = D). { intros r Hr. unfold A, responses_of in Hr. apply in_map_iff in Hr. destruct Hr as (j & <- & _). destruct j; cbn [FitSpec.response_at]; [exact Lq|]. unfold mean_over. rewrite map_length, seq_length. reflexivity. }
  rewrite (bop_same Rminus A Q (length Q) D) by (assumption || reflexivity || (unfold Q; cbn [length]; lia) || (intros r Hr; rewrite Forall_forall in FQ; apply FQ; exact Hr)). cbn [bind].
  assert (NA : forall j, (j < length Q)%nat -> nth j A [] = response_at P Q t j) by (intros j Hj; unfold A, responses_of; apply nth_map_seq; exact Hj).
  set (dev := map (fun i => map (fun j => (nth j (nth i A []) 0 - nth j (nth i Q []) 0)%R) (seq 0 D)) (seq 0 (length Q))).
  assert (LD : length dev = length Q) by (unfold dev; rewrite map_length, seq_length; reflexivity).
  assert (CD : forall r, In r dev -> length r = D) by (intros r Hr; unfold dev in Hr; apply in_map_iff in Hr; destruct Hr as (j & <- & _); rewrite map_length, seq_length; reflexivity).
  destruct fw as [f|], v as [u|]; try contradiction.
  - destruct f as [| |l]; try contradiction. destruct HV as (HV & LV). unfold weights_of. rewrite HV. cbn [bind]. rewrite (ncols_of dev (length Q) D) by (assumption || (unfold Q; cbn [length]; lia)).
    rewrite (bop_row Rmult dev (firstn D u) (length Q) D) by (assumption || (unfold Q; cbn [length]; lia) || (apply firstn_length_le; exact LV)). cbn [bind]. f_equal. f_equal. f_equal. unfold deviations_of. f_equal. apply map_ext_in. intros j Hj. apply in_seq in Hj. apply map_ext_in. intros i Hi. apply in_seq in Hi.
    unfold deviation_at, dev. rewrite nth_map_seq by lia. rewrite nth_map_seq by lia. rewrite NA by lia. f_equal. rewrite <- (firstn_skipn D u) at 2. rewrite app_nth1 by (rewrite firstn_length_le by exact LV; lia). reflexivity.
  - destruct f; contradiction.
  - cbn [bind]. f_equal. f_equal. f_equal. unfold deviations_of, dev. f_equal. apply map_ext_in. intros j Hj. apply in_seq in Hj. apply map_ext_in. intros i Hi. unfold deviation_at. rewrite NA by lia. ring.
Qed.
Definition usable_weights (fw : option fitw) (vs : list (option (list R))) : Prop :=
  match fw with None => Forall (fun v => v = None) vs | Some (FTuple l) => exists us, l = map FArr us /\ vs = map Some us /\ Forall (fun u => (D <= length u)%nat) us | _ => False end.
Lemma measurements_run (fw : option fitw) (l0 : list fitw) : forall ms pl rl idx t,
  (match fw with None => Forall (fun m => snd m = None) ms | Some f => exists us, f = FTuple (l0 ++ map FArr us) /\ length l0 = idx /\ map snd ms = map Some us /\ Forall (fun u => (D <= length u)%nat) us end) ->
  Forall2 (fun pd m => as2 pd = Ok (fst (fst m))) pl ms -> Forall2 (fun rd m => as2 rd = Ok (snd (fst m))) rl ms -> Forall (fun m => fits D (fst (fst m)) (snd (fst m))) ms ->
  measurements n D idx fw pl rl t = Ok (expected ms t).
Proof.
  intros ms. revert l0. induction ms as [|[[P Q] v] ms IH]; intros l0 pl rl idx t HV HP HQ HF; inversion HP; subst; inversion HQ; subst; [reflexivity|]. inversion HF; subst. cbn [fst snd] in *. cbn [FitModel.measurements].
  rewrite (one_ok idx fw v _ _ P Q t); [|assumption|assumption|assumption|].
  2: { destruct fw as [f|]; [|inversion HV; subst; cbn [snd] in *; subst; exact I]. destruct HV as (us & -> & Hi & Hs & Hl). destruct us as [|u us]; [discriminate|]. cbn [map] in Hs. injection Hs as -> Hs. split; [|inversion Hl; assumption]. rewrite nth_error_app2 by lia. rewrite Hi, Nat.sub_diag. reflexivity. }
  cbn [bind fst snd]. rewrite (IH (match fw with Some (FTuple (_ :: _) as f) => l0 ++ [FArr (match v with Some u => u | None => [] end)] | _ => l0 end)%list _ _ (S idx)); try assumption.
  - reflexivity.
  - destruct fw as [f|]; [|inversion HV; subst; assumption]. destruct HV as (us & -> & Hi & Hs & Hl). destruct us as [|u us]; [discriminate|]. cbn [map] in *. injection Hs as -> Hs.
    assert (NE : exists a b, (l0 ++ FArr u :: map FArr us)%list = a :: b) by (destruct l0; cbn; eauto). destruct NE as (a & b & NE). rewrite NE. exists us. rewrite <- NE. split; [f_equal; rewrite <- app_assoc; reflexivity|]. split; [rewrite app_length, Hi; cbn [length]; lia|]. split; [assumption|inversion Hl; assumption].
Qed.
(** model responses and deviations, for several measurements with or without weights *)
Theorem C198_response (ps : params) (pl rl : list data) (ms : list (list (list R) * list (list R) * option (list R))) (r : rpu) (fw : option fitw) (d : device) :
  apply_params ps (rc_device r) = Ok d -> ms <> [] -> devices (hd (DList []) pl) = D ->
  Forall2 (fun pd m => as2 pd = Ok (fst (fst m))) pl ms -> Forall2 (fun rd m => as2 rd = Ok (snd (fst m))) rl ms -> Forall (fun m => fits D (fst (fst m)) (snd (fst m))) ms -> usable_weights fw (map snd ms) ->
  let r' := {| rc_device := d; rc_bl := rc_bl r; rc_blm := rc_blm r; rc_um := rc_um r; rc_rest := rc_rest r |} in
  model_response ps (Many pl) (Many rl) r n fw = Ok (r', expected ms (new_tile n D r')).
Proof.
  intros EA NE ED HP HQ HF HV r'. unfold FitModel.model_response. rewrite EA. cbn [bind]. destruct ms as [|m ms]; [congruence|]. inversion HP; subst. cbn [hd] in ED. rewrite ED.
  erewrite (measurements_run fw [] (m :: ms)); [reflexivity| |eassumption|eassumption|assumption].
  unfold usable_weights in HV. destruct fw as [[| |l0]|]; try contradiction.
  - destruct HV as (us & -> & Hs & Hl). exists us. auto.
  - rewrite Forall_map in HV. exact HV.
Qed.
(** one measurement *)
Theorem C198_single (ps : params) (pd rd : data) (P Q : list (list R)) (r : rpu) (v : option (list R)) (d : device) :
  apply_params ps (rc_device r) = Ok d -> devices pd = D -> as2 pd = Ok P -> as2 rd = Ok Q -> fits D P Q -> (match v with Some u => (D <= length u)%nat | None => True end) ->
  let r' := {| rc_device := d; rc_bl := rc_bl r; rc_blm := rc_blm r; rc_um := rc_um r; rc_rest := rc_rest r |} in
  model_response ps (One pd) (One rd) r n (option_map FArr v) = Ok (r', expected [(P, Q, v)] (new_tile n D r')).
Proof.
  intros EA ED EP EQ HF HV r'. unfold FitModel.model_response. rewrite EA. cbn [bind]. rewrite ED.
  rewrite (measurements_run _ [] [(P, Q, v)]); [reflexivity| |repeat constructor; assumption|repeat constructor; assumption|repeat constructor; cbn [fst snd]; apply HF].
  destruct v as [u|]; cbn [option_map]; [exists [u]; repeat split; repeat constructor; assumption|repeat constructor].
Qed.
(** a weight that is a number, the documented type, is an IndexError *)
Theorem C198_weights_refuted (ps : params) (pd rd : data) (P Q : list (list R)) (r : rpu) (x : R) (d : device) :
  apply_params ps (rc_device r) = Ok d -> devices pd = D -> as2 pd = Ok P -> as2 rd = Ok Q -> fits D P Q ->
  model_response ps (One pd) (One rd) r n (Some (FScalar x)) = Raise IndexError /\ model_response ps (Many [pd]) (Many [rd]) r n (Some (FTuple [FScalar x])) = Raise IndexError.
Proof.
  intros EA ED EP EQ HF.
  assert (B : forall t, one_measurement n D 0 (Some (FTuple [FScalar x])) pd rd t = Raise IndexError).
  { intros t. pose proof (one_ok 0 None None pd rd P Q t EP EQ HF I) as G. unfold FitModel.one_measurement in *. rewrite EP, EQ in *. cbn [bind] in *. destruct Q as [|q Q']; [discriminate|]. cbn [bind] in *. destruct (times_ones D q); [|discriminate]. cbn [bind] in *. destruct (set_weights _ t); [|discriminate]. cbn [bind] in *. destruct (trace n D (removelast P) a0) as [[w t']|]; [|discriminate]. cbn [bind] in *. destruct (bop Rminus _ _); [|discriminate]. reflexivity. }
  unfold FitModel.model_response. rewrite EA. cbn [bind]. rewrite ED. cbn [FitModel.measurements]. rewrite B. split; reflexivity.
Qed.
(** more responses than pulses *)
Theorem C198_short_refuted (ps : params) (pd rd : data) (P Q : list (list R)) (r : rpu) (d : device) :
  apply_params ps (rc_device r) = Ok d -> devices pd = D -> as2 pd = Ok P -> as2 rd = Ok Q -> (2 <= length P < length Q)%nat ->
  Forall (fun r => length r = D) P -> Forall (fun r => length r = D) Q ->
  model_response ps (One pd) (One rd) r n None = Raise ValueError.
Proof.
  intros EA ED EP EQ L FP FQ. unfold FitModel.model_response. rewrite EA. cbn [bind]. rewrite ED. cbn [FitModel.measurements]. unfold FitModel.one_measurement. rewrite EP, EQ. cbn [bind]. destruct Q as [|q0 Q']; [cbn in L; lia|]. cbn [bind].
  assert (Lq : length q0 = D) by (inversion FQ; assumption). rewrite times_same by exact Lq. cbn [bind].
  rewrite Hset. 2: { split; [apply repeat_length|]. intros r0 Hr. apply repeat_spec in Hr. rewrite Hr; exact Lq. }
  cbn [bind]. rewrite trace_run by (apply removelast_Forall; exact FP). cbn [bind fst snd]. unfold bop.
  assert (LL : forall (a : list R) l, length (firstn (length (q0 :: Q')) (map mean_traces (repeat q0 n :: map l (seq 0 (length (removelast P)))))) = length P).
  { intros _ l. rewrite firstn_length, map_length. cbn [length]. rewrite map_length, seq_length, removelast_length. cbn [length] in L. lia. }
  rewrite (LL [] (fun j => get_weights (after (sw (repeat q0 n) (new_tile n D {| rc_device := d; rc_bl := rc_bl r; rc_blm := rc_blm r; rc_um := rc_um r; rc_rest := rc_rest r |})) (firstn (S j) (removelast P))))).
  unfold bdim at 1. destruct (Nat.eqb_spec (length P) (length (q0 :: Q'))); [lia|]. destruct (Nat.eqb_spec (length P) 1); [lia|]. destruct (Nat.eqb_spec (length (q0 :: Q')) 1); [lia|]. reflexivity.
Qed.
End Response.

(** responses (and pulses) as Python lists, which are documented, are an AttributeError *)
Theorem C198_list_refuted (ps : params) (pd : data) (v : list R) (r : rpu) (n : nat) (fw : option fitw) (d : device) : apply_params ps (rc_device r) = Ok d ->
  model_response ps (One pd) (One (DList v)) r n fw = Raise AttributeError.
Proof. intros EA. unfold FitModel.model_response. rewrite EA. cbn [bind FitModel.measurements]. unfold FitModel.one_measurement. destruct pd as [[|]|]; reflexivity. Qed.
(** measurements without counterpart are dropped silently; so is the last pulse *)
Theorem C198_dropped_refuted (ps : params) (pl rl extra : list data) (r : rpu) (n : nat) (fw : option fitw) : pl <> [] -> length pl = length rl ->
  model_response ps (Many (pl ++ extra)) (Many rl) r n fw = model_response ps (Many pl) (Many rl) r n fw /\
  model_response ps (Many pl) (Many (rl ++ extra)) r n fw = model_response ps (Many pl) (Many rl) r n fw.
Proof.
  intros NE L. assert (M : forall nd pl rl idx t, length pl = length rl -> measurements n nd idx fw (pl ++ extra) rl t = measurements n nd idx fw pl rl t /\ measurements n nd idx fw pl (rl ++ extra) t = measurements n nd idx fw pl rl t).
  { intros nd pl0. induction pl0 as [|p pl0 IH]; intros [|q rl0] idx t Le; cbn [length] in Le; try lia; [split; [destruct extra; reflexivity|reflexivity]|]. cbn [app FitModel.measurements]. destruct (one_measurement n nd idx fw p q t) as [m|]; [|split; reflexivity]. cbn [bind]. destruct (IH rl0 (S idx) (snd m) ltac:(lia)) as (-> & ->). split; reflexivity. }
  unfold FitModel.model_response. destruct (apply_params ps (rc_device r)); [|split; reflexivity]. cbn [bind]. destruct pl as [|p pl]; [congruence|]. cbn [app]. change (p :: (pl ++ extra)%list)%list with ((p :: pl) ++ extra)%list. destruct (M (devices p) (p :: pl) rl 0%nat (new_tile n (devices p) {| rc_device := a; rc_bl := rc_bl r; rc_blm := rc_blm r; rc_um := rc_um r; rc_rest := rc_rest r |}) L) as (-> & ->). split; reflexivity.
Qed.
Theorem C198_last_pulse_refuted (ps : params) (P : list (list R)) (p q : list R) (rd : data) (r : rpu) (n : nat) (fw : option fitw) : P <> [] ->
  model_response ps (One (DArr (A2 (P ++ [p])))) (One rd) r n fw = model_response ps (One (DArr (A2 (P ++ [q])))) (One rd) r n fw.
Proof.
  intros NE. destruct P as [|p0 P]; [congruence|]. unfold FitModel.model_response, FitModel.one_measurement. cbn [FitModel.measurements devices as2 app]. unfold FitModel.one_measurement. cbn [as2 bind app ncols].
  change (p0 :: (P ++ [p])%list) with ((p0 :: P) ++ [p])%list. change (p0 :: (P ++ [q])%list) with ((p0 :: P) ++ [q])%list. rewrite !removelast_last. reflexivity.
Qed.

(** ** The configuration returned *)
Fixpoint getf (k : string) (d : device) : option fval := match d with [] => None | (k', v) :: r => if String.eqb k k' then Some v else getf k r end.
Fixpoint last_param (k : string) (ps : params) : option R := match ps with [] => None | (k', v) :: r => match last_param k r with Some x => Some x | None => if String.eqb k k' then Some v else None end end.
Lemma has_getf k d : has k d = true <-> getf k d <> None.
Proof. induction d as [|(a, b) d IH]; cbn; [split; congruence|]. destruct (String.eqb k a); [split; congruence|exact IH]. Qed.
Lemma getf_setf k k' v d : getf k (setf k' v d) = if (String.eqb k k' && has k' d)%bool then Some v else getf k d.
Proof.
  induction d as [|(a, b) d IH]; cbn [setf getf has]; [rewrite Bool.andb_false_r; reflexivity|]. destruct (String.eqb_spec k' a) as [->|N]; cbn [getf].
  - destruct (String.eqb_spec k a); reflexivity.
  - rewrite IH. destruct (String.eqb_spec k a) as [->|]; [destruct (String.eqb_spec a k'); [congruence|reflexivity]|reflexivity].
Qed.
Lemma setf_keys k v d : map fst (setf k v d) = map fst d.
Proof. induction d as [|(a, b) d IH]; [reflexivity|]. cbn [setf]. destruct (String.eqb k a); cbn [map fst]; congruence. Qed.
Lemma has_keys k : forall d d', map fst d = map fst d' -> has k d = has k d'.
Proof. induction d as [|(a, b) d IH]; intros [|(a', b') d'] E; try discriminate; [reflexivity|]. cbn [map fst] in E. injection E as -> E. cbn [has]. now rewrite (IH d' E). Qed.
Lemma apply_spec : forall ps d d', apply_params ps d = Ok d' -> map fst d' = map fst d /\ forall k, getf k d' = match last_param k ps with Some v => Some (FNum v) | None => getf k d end.
Proof.
  induction ps as [|(k0, v) ps IH]; intros d d' E; cbn [apply_params] in E; [injection E as <-; split; reflexivity|]. destruct (has k0 d) eqn:H; [|discriminate]. destruct (IH _ _ E) as (K & G). rewrite setf_keys in K. split; [exact K|]. intros k. rewrite G, getf_setf, H, Bool.andb_true_r. cbn [last_param]. destruct (last_param k ps); [reflexivity|]. destruct (String.eqb k k0); reflexivity.
Qed.
Lemma apply_total : forall ps d, (forall k, In k (map fst ps) -> has k d = true) -> exists d', apply_params ps d = Ok d'.
Proof.
  induction ps as [|(k0, v) ps IH]; intros d H; [eexists; reflexivity|]. cbn [apply_params]. rewrite (H k0) by (left; reflexivity). apply IH. intros k Hk. rewrite (has_keys k _ d) by apply setf_keys. apply H. right. exact Hk.
Qed.
Lemma apply_unknown : forall ps d k, In k (map fst ps) -> has k d = false -> apply_params ps d = Raise ConfigError.
Proof.
  induction ps as [|(k0, v) ps IH]; intros d k Hk H; [destruct Hk|]. cbn [apply_params]. destruct (has k0 d) eqn:H0; [|reflexivity]. destruct Hk as [Hk|Hk]; [cbn in Hk; subst; congruence|]. apply (IH _ k Hk). rewrite (has_keys k _ d) by apply setf_keys. exact H.
Qed.
Lemma suppress_keys d : map fst (suppress d) = map fst d.
Proof. unfold suppress. rewrite map_map. apply map_ext. intros (a, b). cbn [fst]. destruct (_ || _)%bool; reflexivity. Qed.
Lemma getf_suppress k d : getf k (suppress d) = match getf k d with Some v => Some (if (ends_with "dtod" k || ends_with "std" k)%bool then FNum 0 else v) | None => None end.
Proof.
  induction d as [|(a, b) d IH]; [reflexivity|]. unfold suppress in *. cbn [map fst getf]. destruct (ends_with "dtod" a || ends_with "std" a)%bool eqn:B; cbn [getf]; destruct (String.eqb_spec k a) as [->|]; try (rewrite B; reflexivity); exact IH.
Qed.
Lemma last_param_names k : forall ps, (last_param k ps <> None) <-> In k (map fst ps).
Proof.
  induction ps as [|(a, v) ps IH]; cbn; [split; [congruence|tauto]|]. destruct (last_param k ps) eqn:E.
  - split; [intros _; right; apply IH; congruence|congruence].
  - destruct (String.eqb_spec k a) as [->|N]; split; try congruence; [left; reflexivity|]. intros [H|H]; [congruence|]. apply IH in H. congruence.
Qed.
Lemma model_cfg ps pd rd r n fw o : model_response ps pd rd r n fw = Ok o -> exists d, apply_params ps (rc_device r) = Ok d /\ fst o = {| rc_device := d; rc_bl := rc_bl r; rc_blm := rc_blm r; rc_um := rc_um r; rc_rest := rc_rest r |}.
Proof.
  unfold FitModel.model_response. destruct (apply_params ps (rc_device r)) as [d|]; [|discriminate]. cbn [bind]. intros E. exists d. split; [reflexivity|].
  destruct pd as [p|p], rd as [q|q]; try (destruct p as [|p0 p1]; [discriminate|]); destruct (measurements _ _ _ _ _ _ _) in E; try discriminate; cbn [bind] in E; injection E as <-; reflexivity.
Qed.
Lemma trials_cfg pd rd n fw : forall tr names r r', Forall (fun ps => map fst ps = names) tr -> trials new_tile set_weights update get_weights tr pd rd r n fw = Ok r' ->
  map fst (rc_device r') = map fst (rc_device r) /\ (forall k, ~ In k names -> getf k (rc_device r') = getf k (rc_device r)) /\ rc_bl r' = rc_bl r /\ rc_blm r' = rc_blm r /\ rc_um r' = rc_um r /\ rc_rest r' = rc_rest r.
Proof.
  induction tr as [|ps tr IH]; intros names r r' F E; cbn [trials] in E; [injection E as <-; auto 10|]. inversion F; subst. destruct (model_response ps pd rd r n fw) as [o|] eqn:Eo; [|discriminate]. cbn [bind] in E.
  destruct (model_cfg _ _ _ _ _ _ _ Eo) as (d & A & C). destruct (apply_spec _ _ _ A) as (K & G). destruct (IH _ _ _ H2 E) as (I1 & I2 & I3). rewrite C in *. cbn [rc_device rc_bl rc_blm rc_um rc_rest] in *. split; [congruence|]. split; [|exact I3]. intros k Nk. rewrite I2, G by exact Nk. destruct (last_param k ps) eqn:Lp; [exfalso; apply Nk, last_param_names; congruence|reflexivity].
Qed.
Definition cfg_device (c : config) : device := match c with CDevice d => d | CRpu r => rc_device r end.
(** the fitted values, the noise suppressed, everything else as given; the kind of configuration stays *)
Theorem C199_config (ps : list (string * pspec)) (pd rd : input) (c c' : config) (sup : bool) (mp : option nat) (n : nat) (fw : option fitw) tried best b resp :
  (forall i, Forall (fun x => map fst x = map fst i) (tried i)) -> (forall i, map fst (best i) = map fst i) ->
  fit ps pd rd c sup mp n fw tried best = Ok (b, c', resp) ->
  map fst (cfg_device c') = map fst (cfg_device c) /\
  (forall k, getf k (cfg_device c') = match last_param k b with Some v => Some (FNum v) | None =>
     match getf k (cfg_device c) with Some v => Some (if (sup && (ends_with "dtod" k || ends_with "std" k))%bool then FNum 0 else v) | None => None end end) /\
  match c, c' with CDevice _, CDevice _ => True | CRpu r, CRpu r' => rc_bl r' = rc_bl r /\ rc_blm r' = rc_blm r /\ rc_um r' = rc_um r /\ rc_rest r' = rc_rest r | _, _ => False end.
Proof.
  intros Ht Hb E. unfold FitModel.fit in E. destruct (negb _); [discriminate|].
  match type of E with context [if sup then _ else ?r] => set (r0 := r) in * end.
  set (r1 := if sup then _ else r0) in *. destruct (mapM init_param ps) as [i|]; [|discriminate]. cbn [bind] in E. destruct (trials _ _ _ _ (tried i) pd rd r1 n fw) as [r2|] eqn:Et; [|discriminate]. cbn [bind] in E. destruct (model_response (best i) pd rd r2 n fw) as [o|] eqn:Eo; [|discriminate]. cbn [bind] in E.
  set (c1 := match c with CDevice _ => _ | CRpu _ => _ end) in E. destruct (apply_config (best i) c1) as [c2|] eqn:Ec; [|discriminate]. cbn [bind] in E. injection E as <- <- _.
  destruct (trials_cfg _ _ _ _ _ _ _ _ (Ht i) Et) as (T1 & T2 & T3 & T4 & T5 & T6). destruct (model_cfg _ _ _ _ _ _ _ Eo) as (d & A & C). destruct (apply_spec _ _ _ A) as (K & G).
  assert (D0 : rc_device r0 = cfg_device c) by (unfold r0; destruct c; [destruct mp; reflexivity|reflexivity]).
  assert (D1 : map fst (rc_device r1) = map fst (cfg_device c) /\ forall k, getf k (rc_device r1) = match getf k (cfg_device c) with Some v => Some (if (sup && (ends_with "dtod" k || ends_with "std" k))%bool then FNum 0 else v) | None => None end).
  { unfold r1. destruct sup; cbn [rc_device andb]; rewrite D0; [split; [apply suppress_keys|intros k; apply getf_suppress]|]. split; [reflexivity|]. intros k. destruct (getf k (cfg_device c)); reflexivity. }
  destruct D1 as (D1 & D2).
  assert (C1 : cfg_device c1 = d) by (unfold c1; destruct c; rewrite C; reflexivity).
  assert (A2 : apply_params (best i) d = Ok (cfg_device c2) /\ match c1, c2 with CDevice _, CDevice _ => True | CRpu r, CRpu r' => rc_bl r' = rc_bl r /\ rc_blm r' = rc_blm r /\ rc_um r' = rc_um r /\ rc_rest r' = rc_rest r | _, _ => False end).
  { rewrite <- C1. unfold apply_config in Ec. destruct c1 as [x|x]; [destruct (apply_params (best i) x) eqn:Ex|destruct (apply_params (best i) (rc_device x)) eqn:Ex]; try discriminate; cbn [bind] in Ec; injection Ec as <-; cbn [cfg_device rc_device]; rewrite Ex; auto. }
  destruct A2 as (A2 & A3). destruct (apply_spec _ _ _ A2) as (K2 & G2). split; [congruence|]. split.
  - intros k. rewrite G2, G. destruct (last_param k (best i)) eqn:Lp; [reflexivity|]. rewrite T2; [apply D2|]. intros HI. rewrite <- Hb in HI. apply last_param_names in HI. congruence.
  - unfold c1 in A3. destruct c as [x|x], c2 as [y|y]; try contradiction; [exact I|]. rewrite C in A3. cbn [rc_bl rc_blm rc_um rc_rest] in A3. assert (R0 : r1 = x \/ r1 = {| rc_device := suppress (rc_device x); rc_bl := rc_bl x; rc_blm := rc_blm x; rc_um := rc_um x; rc_rest := rc_rest x |}) by (unfold r1, r0; destruct sup; auto). destruct R0 as [R0|R0]; rewrite R0 in *; cbn [rc_bl rc_blm rc_um rc_rest] in *; intuition congruence.
Qed.
(** the responses returned are the ones of the configuration returned *)
Lemma setf_same k v : forall d, getf k d = Some v -> setf k v d = d.
Proof. induction d as [|(a, b) d IH]; intros H; [reflexivity|]. cbn [setf getf] in *. destruct (String.eqb k a); [injection H as ->; reflexivity|]. f_equal. apply IH. exact H. Qed.
Lemma apply_again : forall ps d d', NoDup (map fst ps) -> apply_params ps d = Ok d' -> apply_params ps d' = Ok d'.
Proof.
  assert (G : forall ps d, (forall k v, In (k, v) ps -> getf k d = Some (FNum v)) -> apply_params ps d = Ok d).
  { induction ps as [|(k, v) ps IH]; intros d H; [reflexivity|]. cbn [apply_params]. assert (Hk := H k v (or_introl eq_refl)). assert (Hh : has k d = true) by (apply has_getf; congruence). rewrite Hh, setf_same by exact Hk. apply IH. intros k' v' Hi. apply H. right. exact Hi. }
  intros ps d d' ND E. apply G. intros k v Hi. destruct (apply_spec _ _ _ E) as (_ & S1). rewrite S1. assert (LP : last_param k ps = Some v); [|rewrite LP; reflexivity]. clear -ND Hi. induction ps as [|(a, b) ps IH]; [destruct Hi|]. cbn [map fst] in ND. inversion ND; subst. cbn [last_param]. destruct Hi as [Hi|Hi].
  - injection Hi as -> ->. destruct (last_param k ps) eqn:L; [exfalso; apply H1, last_param_names; congruence|]. rewrite String.eqb_refl. reflexivity.
  - rewrite (IH H2 Hi). reflexivity.
Qed.
Theorem C199_reproduces (ps : list (string * pspec)) (pd rd : input) (r : rpu) (c' : config) (sup : bool) (mp : option nat) (n : nat) (fw : option fitw) tried best b resp :
  (forall i, NoDup (map fst i) -> NoDup (map fst (best i))) -> NoDup (map fst ps) ->
  fit ps pd rd (CRpu r) sup mp n fw tried best = Ok (b, c', resp) ->
  exists r' dev, c' = CRpu r' /\ model_response [] pd rd r' n fw = Ok (r', (resp, dev)).
Proof.
  intros Hb ND E. unfold FitModel.fit in E. destruct (negb _); [discriminate|].
  match type of E with context [trials _ _ _ _ _ _ _ ?r] => set (r1 := r) in * end. destruct (mapM init_param ps) as [i|] eqn:Ei; [|discriminate]. cbn [bind] in E. destruct (trials _ _ _ _ (tried i) pd rd r1 n fw) as [r2|] eqn:Et; [|discriminate]. cbn [bind] in E. destruct (model_response (best i) pd rd r2 n fw) as [o|] eqn:Eo; [|discriminate]. cbn [bind] in E.
  assert (Ni : NoDup (map fst i)). { assert (N : map fst i = map fst ps); [|rewrite N; exact ND]. clear -Ei. revert i Ei. induction ps as [|(k, s) ps IH]; intros i Ei; cbn [mapM] in Ei; [injection Ei as <-; reflexivity|]. destruct (init_param (k, s)) as [[k' x]|] eqn:E0; [|discriminate]. cbn [bind] in Ei. destruct (mapM init_param ps) as [j|]; [|discriminate]. cbn [bind] in Ei. injection Ei as <-. cbn [map fst]. f_equal; [|apply IH; reflexivity]. unfold init_param in E0. cbn [snd fst] in E0. destruct s as [[|? [|? [|? [|]]]]|]; try discriminate; injection E0 as <- _; reflexivity. }
  destruct (model_cfg _ _ _ _ _ _ _ Eo) as (d & A & C). cbn [apply_config] in E. rewrite C in E. cbn [rc_device rc_bl rc_blm rc_um rc_rest] in E. rewrite (apply_again _ _ _ (Hb i Ni) A) in E. cbn [bind] in E. injection E as <- <- <-. eexists _, (snd (snd o)). split; [reflexivity|].
  unfold FitModel.model_response in Eo |- *. rewrite A in Eo. cbn [bind apply_params rc_device rc_bl rc_blm rc_um rc_rest] in Eo |- *. destruct o as [ro [resp dv]]. cbn [fst snd] in *. subst ro. exact Eo.
Qed.
(** a parameter the device does not have *)
Theorem C199_unknown (ps : list (string * pspec)) (pd rd : input) (c : config) (sup : bool) (mp : option nat) (n : nat) (fw : option fitw) tried best k i :
  mapM init_param ps = Ok i -> (forall i, Forall (fun x => map fst x = map fst i) (tried i)) -> (forall i, map fst (best i) = map fst i) ->
  (match pd, rd with One _, One _ | Many _, Many _ => True | _, _ => False end) -> In k (map fst ps) -> has k (cfg_device c) = false ->
  fit ps pd rd c sup mp n fw tried best = Raise ConfigError.
Proof.
  intros Ei Ht Hb Hd Hk Hc. assert (N : map fst i = map fst ps). { clear -Ei. revert i Ei. induction ps as [|(k, s) ps IH]; intros i Ei; cbn [mapM] in Ei; [injection Ei as <-; reflexivity|]. destruct (init_param (k, s)) as [[k' x]|] eqn:E0; [|discriminate]. cbn [bind] in Ei. destruct (mapM init_param ps) as [j|]; [|discriminate]. cbn [bind] in Ei. injection Ei as <-. cbn [map fst]. f_equal; [|apply IH; reflexivity]. unfold init_param in E0. cbn [snd fst] in E0. destruct s as [[|? [|? [|? [|]]]]|]; try discriminate; injection E0 as <- _; reflexivity. }
  unfold FitModel.fit. destruct (negb _) eqn:EN; [destruct pd, rd; try contradiction; discriminate|]. clear EN.
  match goal with |- context [if sup then _ else ?r] => set (r0 := r) end. set (r1 := if sup then _ else r0). rewrite Ei. cbn [bind].
  assert (H1 : has k (rc_device r1) = false). { assert (rc_device r0 = cfg_device c) as D0 by (unfold r0; destruct c; [destruct mp; reflexivity|reflexivity]). unfold r1. destruct sup; cbn [rc_device]; [rewrite (has_keys k _ (rc_device r0)) by apply suppress_keys|]; rewrite D0; exact Hc. }
  assert (U : forall x, map fst x = map fst i -> model_response x pd rd r1 n fw = Raise ConfigError). { intros x Hx. unfold FitModel.model_response. rewrite (apply_unknown x _ k); [reflexivity| |exact H1]. rewrite Hx, N. exact Hk. }
  destruct (tried i) as [|x rest] eqn:Et; cbn [trials bind].
  - rewrite U by apply Hb. reflexivity.
  - assert (Hx := Ht i). rewrite Et in Hx. inversion Hx; subst. rewrite U by assumption. reflexivity.
Qed.
(** the devices inside a compound keep their noise, and the number of pulses is not constrained for a whole configuration *)
Theorem C199_nested_refuted (ps : list (string * pspec)) (pd rd : input) (c c' : config) (mp : option nat) (n : nat) (fw : option fitw) tried best b resp (k : string) (sub : device) :
  (forall i, Forall (fun x => map fst x = map fst i) (tried i)) -> (forall i, map fst (best i) = map fst i) ->
  fit ps pd rd c true mp n fw tried best = Ok (b, c', resp) ->
  getf k (cfg_device c) = Some (FDev sub) -> ends_with "dtod" k = false -> ends_with "std" k = false -> ~ In k (map fst b) -> getf k (cfg_device c') = Some (FDev sub).
Proof.
  intros Ht Hb E H A B N. destruct (C199_config _ _ _ _ _ _ _ _ _ _ _ _ _ Ht Hb E) as (_ & G & _). rewrite G, H, A, B. destruct (last_param k b) eqn:L; [exfalso; apply N, last_param_names; congruence|reflexivity].
Qed.
Theorem C199_pulses_refuted (ps : list (string * pspec)) (pd rd : input) (r : rpu) (sup : bool) (mp mp' : option nat) (n : nat) (fw : option fitw) tried best :
  fit ps pd rd (CRpu r) sup mp n fw tried best = fit ps pd rd (CRpu r) sup mp' n fw tried best.
Proof. reflexivity. Qed.
End Fit.

(** two devices, two traces; the tile is its weights, every pulse adds a tenth of it *)
Theorem C198_nontrivial :
  let up := fun (x d : list R) (t : list (list R)) => map (fun row => map2 (fun w p => w + p / 10)%R row x) t in
  let P := [[1; -1]; [1; -1]; [1; 1]]%R in let Q := [[0; 1/2]; [1/10; 4/10]]%R in
  fits 2 P Q /\ as2 (DArr (A2 P)) = Ok P /\ responses_of (fun w _ => w) up (fun t => t) 2 2 P Q [] = [[0; 1/2]; [1/10; 4/10]]%R.
Proof.
  intros up P Q. split; [unfold fits, P, Q; cbn; repeat split; repeat constructor|]. split; [reflexivity|]. unfold responses_of, P, Q. cbn. unfold mean_over. cbn. repeat match goal with |- _ :: _ = _ :: _ => apply f_equal2 | |- [] = [] => reflexivity end; try reflexivity; lra.
Qed.
Theorem C199_nontrivial : exists d, apply_params [("dw_min", 2)]%R (suppress [("dw_min", FNum 1); ("dw_min_dtod", FNum 3)])%R = Ok d /\ getf "dw_min" d = Some (FNum 2) /\ getf "dw_min_dtod" d = Some (FNum 0) /\ ends_with "std" "unit_cell_devices" = false.
Proof. eexists. repeat split. Qed.
Print Assumptions C198_response.
Print Assumptions C198_single.
Print Assumptions C198_weights_refuted.
Print Assumptions C198_short_refuted.
Print Assumptions C198_list_refuted.
Print Assumptions C198_dropped_refuted.
Print Assumptions C198_last_pulse_refuted.
Print Assumptions C199_config.
Print Assumptions C199_reproduces.
Print Assumptions C199_unknown.
Print Assumptions C199_nested_refuted.
Print Assumptions C199_pulses_refuted.
Print Assumptions C198_nontrivial.
Print Assumptions C199_nontrivial.
