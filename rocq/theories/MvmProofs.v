From Verif Require Import Prelude MvmModel MvmSpec.

(** ** Quantizer *)
Lemma norm_res_pos res : 0 < res -> 0 < norm_res res <= 1.
Proof.
  intros H. unfold norm_res. rcase; [|lra]. assert (0 < / res) by (apply Rinv_0_lt_compat; lra).
  unfold Rdiv. split; [lra|]. rewrite Rmult_1_l. rewrite <- Rinv_1. apply Rinv_le_contravar; lra.
Qed.
Lemma step_pos res bound : 0 < res -> 0 < bound -> 0 < quant_step res bound.
Proof. intros. unfold quant_step. apply Rmult_lt_0_compat; [apply norm_res_pos; auto|lra]. Qed.
Lemma step_nz res bound : 0 < res -> bound <> 0 -> quant_step res bound <> 0.
Proof.
  intros H B. unfold quant_step. pose proof (norm_res_pos res H). apply Rmult_integral_contrapositive. split; lra.
Qed.
Lemma uquant_err res bound u x : quant_step res bound <> 0 -> 
  Rabs (uquant res bound u x - x) <= Rabs (quant_step res bound) * (1/2 + Rabs u).
Proof.
  intros S. unfold uquant. set (s := quant_step res bound) in *.
  replace (IZR (rhe (x / s + u)) * s - x) with (s * ((IZR (rhe (x / s + u)) - (x / s + u)) + u)) by (field; auto).
  rewrite Rabs_mult. apply Rmult_le_compat_l; [apply Rabs_pos|].
  eapply Rle_trans; [apply Rabs_triang|]. pose proof (rhe_err (x / s + u)). lra.
Qed.
Lemma uquant_0 res bound : uquant res bound 0 0 = 0.
Proof. unfold uquant. replace (0 / quant_step res bound + 0) with 0 by (unfold Rdiv; ring). rewrite (rhe_IZR 0). ring. Qed.

(** ** imap *)
Lemma imap_length {A B} (f : nat -> A -> B) i l : length (imap f i l) = length l.
Proof. revert i; induction l; simpl; auto. Qed.
Lemma imap_ext {A B} (f g : nat -> A -> B) i l : (forall k a, In a l -> f k a = g k a) -> imap f i l = imap g i l.
Proof. revert i; induction l as [|a l IH]; simpl; intros i H; auto. rewrite H, IH; auto. Qed.
Lemma imap_map {A B C} (f : nat -> B -> C) (g : A -> B) i l : imap f i (map g l) = imap (fun k a => f k (g a)) i l.
Proof. revert i; induction l; simpl; intros; auto. now rewrite IHl. Qed.
Lemma map_imap {A B C} (f : nat -> A -> B) (g : B -> C) i l : map g (imap f i l) = imap (fun k a => g (f k a)) i l.
Proof. revert i; induction l; simpl; intros; auto. now rewrite IHl. Qed.
Lemma imap_const {A B} (f : A -> B) i l : imap (fun _ => f) i l = map f l.
Proof. revert i; induction l; simpl; intros; auto. now rewrite IHl. Qed.
Lemma imap_nth {A B} (f : nat -> A -> B) i l n a b : (n < length l)%nat -> nth n (imap f i l) b = f (i + n)%nat (nth n l a).
Proof.
  revert i n; induction l as [|x l IH]; simpl; intros i n H; [lia|]. destruct n; simpl; [now rewrite Nat.add_0_r|].
  rewrite IH by lia. f_equal. lia.
Qed.
Lemma imap_app {A B} (f : nat -> A -> B) i l k : imap f i (l ++ k) = imap f i l ++ imap f (i + length l) k.
Proof. revert i; induction l; simpl; intros; [now rewrite Nat.add_0_r|]. rewrite IHl. do 3 f_equal. lia. Qed.
Lemma nth_map2' {A B C} (f : A -> B -> C) l k n a b c : (n < length l)%nat -> (n < length k)%nat ->
  nth n (map2 f l k) c = f (nth n l a) (nth n k b).
Proof.
  revert k n; induction l as [|x l IH]; intros [|y k] n; simpl; intros; try lia. destruct n; simpl; auto.
  apply IH; lia.
Qed.

(** ** clamps *)
Lemma clampb_le b v : 0 < b -> Rabs (clampb b v) <= b.
Proof. intros. unfold clampb. rcase; mm. Qed.
Lemma clampb_within b v : within b v = true -> clampb b v = v.
Proof. unfold within, clampb. destruct (Rltb 0 b); auto. rewrite Rleb_true. intros. apply clampR_id. mm. Qed.
Lemma clampb_near b v t : within b t = true -> Rabs (clampb b v - t) <= Rabs (v - t).
Proof. unfold within, clampb. destruct (Rltb 0 b); [|lra]. rewrite Rleb_true. intros. mm. Qed.

(** ** Rows *)
Definition nzs (nms : vec) : vec := map (fun a => if Rleb a 0 then 1 else a) nms.
Lemma nzs_pos nms a : In a (nzs nms) -> 0 < a.
Proof. unfold nzs. intros H. apply in_map_iff in H as [x [E _]]. revert E. rcase; intros; lra. Qed.

Lemma rows_length p rn k (W : mat) X scales : length scales = length X ->
  length (snd (analog_mv p rn k W X scales)) = length X.
Proof. intros L. unfold analog_mv. simpl. rewrite map_length, imap_length, combine_length, L. apply Nat.min_id. Qed.

(** row i, column j of the result *)
Definition raw_at p rn k (W : mat) i s (x : vec) : vec := finalize_raw p rn k i (matvec W (prepare_input p rn k i s x)).
Lemma analog_mv_row p rn k W X scales i : length scales = length X -> (i < length X)%nat ->
  nth i (snd (analog_mv p rn k W X scales)) [] = map (clampb (out_bound p)) (raw_at p rn k W i (nth i scales 0) (nth i X [])).
Proof.
  intros L Hi. unfold analog_mv. simpl.
  rewrite (nth_indep _ [] (map (clampb (out_bound p)) [])) by (rewrite map_length, imap_length, combine_length; lia).
  rewrite map_nth. f_equal.
  rewrite imap_nth with (a := ((0, []) : R * vec)) by (rewrite combine_length; lia). simpl.
  rewrite combine_nth by auto. reflexivity.
Qed.
Lemma raw_length p rn k W i s x : length (raw_at p rn k W i s x) = length W.
Proof. unfold raw_at, finalize_raw. now rewrite imap_length, matvec_length. Qed.

Lemma fst_analog_mv p rn k W X scales : length scales = length X ->
  fst (analog_mv p rn k W X scales) = true ->
  forall i j, (i < length X)%nat -> (j < length W)%nat ->
  within (out_bound p) (nth j (raw_at p rn k W i (nth i scales 0) (nth i X [])) 0) = true.
Proof.
  intros L H i j Hi Hj. unfold analog_mv in H. simpl in H. rewrite forallb_forall in H.
  specialize (H (raw_at p rn k W i (nth i scales 0) (nth i X []))).
  assert (Q : In (raw_at p rn k W i (nth i scales 0) (nth i X [])) 
    (imap (fun i '(s, x) => finalize_raw p rn k i (matvec W (prepare_input p rn k i s x))) 0 (combine scales X))).
  { assert (E : raw_at p rn k W i (nth i scales 0) (nth i X []) =
      nth i (imap (fun i '(s, x) => finalize_raw p rn k i (matvec W (prepare_input p rn k i s x))) 0 (combine scales X)) []).
    { rewrite imap_nth with (a := ((0, []) : R * vec)) by (rewrite combine_length; lia). rewrite combine_nth by auto. reflexivity. }
    rewrite E. apply nth_In. rewrite imap_length, combine_length. lia. }
  specialize (H Q). rewrite forallb_forall in H. apply H. apply nth_In. rewrite raw_length. auto.
Qed.

(** ** The bound management loop *)
Definition bm_stop (p : io) (red : R) : bool :=
  Rltb (max_bm_factor p) red
  || (if Rltb 0 (inp_res p) then Rltb 0 (norm_res (inp_res p) * (2 * inp_bound p))
        && Rltb (max_bm_res p / (norm_res (inp_res p) * (2 * inp_bound p))) red else false).
Definition bm_scales (nms : vec) (red : R) : vec := map (fun a => 1 / a / red) nms.
Lemma bm_loop_step f p rn W X nms k red :
  bm_loop (S f) p rn W X nms k red =
    if fst (analog_mv p rn k W X (bm_scales nms (red * 2))) || bm_stop p (red * 2)
    then Some (k, bm_scales nms (red * 2), snd (analog_mv p rn k W X (bm_scales nms (red * 2))))
    else bm_loop f p rn W X nms (S k) (red * 2).
Proof.
  unfold bm_stop. cbn [bm_loop]. fold (bm_scales nms (red * 2)).
  destruct (analog_mv p rn k W X (bm_scales nms (red * 2))) as [b Y]. cbn [fst snd]. rewrite orb_assoc. reflexivity.
Qed.
Lemma bm_loop_spec p rn W X nms : forall f k red r,
  bm_loop f p rn W X nms k red = Some r ->
  exists n, (n < f)%nat /\ r = ((k + n)%nat, bm_scales nms (red * 2 ^ S n), snd (analog_mv p rn (k + n) W X (bm_scales nms (red * 2 ^ S n))))
    /\ (fst (analog_mv p rn (k + n) W X (bm_scales nms (red * 2 ^ S n))) = true \/ bm_stop p (red * 2 ^ S n) = true)
    /\ (forall m, (m < n)%nat -> fst (analog_mv p rn (k + m) W X (bm_scales nms (red * 2 ^ S m))) = false
           /\ bm_stop p (red * 2 ^ S m) = false).
Proof.
  induction f as [|f IH]; intros k red r H; [discriminate|]. rewrite bm_loop_step in H.
  destruct (fst (analog_mv p rn k W X (bm_scales nms (red * 2))) || bm_stop p (red * 2)) eqn:E.
  - injection H as <-. exists 0%nat. rewrite Nat.add_0_r. simpl pow. rewrite Rmult_1_r.
    split; [lia|]. split; [reflexivity|]. split; [now apply orb_true_iff|]. intros; lia.
  - destruct (IH _ _ _ H) as (n & Hn & -> & P & Q). exists (S n).
    replace (k + S n)%nat with (S k + n)%nat by lia.
    replace (red * 2 ^ S (S n)) with (red * 2 * 2 ^ S n) by (simpl; ring).
    split; [lia|]. split; [reflexivity|]. split; [exact P|].
    intros m Hm. destruct m as [|m].
    + rewrite Nat.add_0_r. simpl pow. rewrite Rmult_1_r. now apply orb_false_iff.
    + replace (k + S m)%nat with (S k + m)%nat by lia.
      replace (red * 2 ^ S (S m)) with (red * 2 * 2 ^ S m) by (simpl; ring). apply Q. lia.
Qed.
Lemma bm_loop_total p rn W X nms : forall n f k red, (n < f)%nat -> max_bm_factor p < red * 2 ^ S n ->
  exists r, bm_loop f p rn W X nms k red = Some r /\ (fst (fst r) <= k + n)%nat.
Proof.
  induction n as [|n IH]; intros [|f] k red Hf Hm; try lia; rewrite bm_loop_step.
  - assert (E : bm_stop p (red * 2) = true).
    { unfold bm_stop. apply orb_true_iff; left. apply Rltb_true. simpl in Hm. lra. }
    rewrite E, orb_true_r. eexists; split; [reflexivity|]. simpl. lia.
  - destruct (_ || _); [eexists; split; [reflexivity|]; simpl; lia|].
    destruct (IH f (S k) (red * 2)) as (r & E & Hr); [lia| |].
    + replace (red * 2 * 2 ^ S n) with (red * 2 ^ S (S n)) by (simpl; ring). auto.
    + exists r. split; auto. lia.
Qed.
Lemma bm_loop_more p rn W X nms : forall f k red r f', (f <= f')%nat ->
  bm_loop f p rn W X nms k red = Some r -> bm_loop f' p rn W X nms k red = Some r.
Proof.
  induction f as [|f IH]; intros k red r f' Hf H; [discriminate|]. destruct f' as [|f']; [lia|].
  rewrite bm_loop_step in *. destruct (_ || _); auto. apply IH; auto. lia.
Qed.

(** final reduction factor and scales of a run that returned *)
Lemma half_pow n : 1 / 2 * 2 ^ S n = 2 ^ n.
Proof. simpl. field. Qed.

(** common view of a successful run without the shortcut: [red] and round [k] *)
Lemma matmul_inv f p rn W X Y : is_perfect p = false -> matmul f p rn W X = Some (Ok Y) ->
  (inp_noise_on p = false /\ nm_tensor p = true /\ Forall (fun x => noise_management p x = 0) X
     /\ Y = map (fun _ => map (fun _ => 0) W) X)
  \/ (quant_div0 p = false /\ exists k red, Y = unscale p (bm_scales (nzs (map (noise_management p) X)) red)
         (snd (analog_mv p rn k W X (bm_scales (nzs (map (noise_management p) X)) red)))
      /\ (bm_on p = false -> k = 0%nat /\ red = 1)
      /\ (bm_on p = true -> red = 2 ^ k /\
            (fst (analog_mv p rn k W X (bm_scales (nzs (map (noise_management p) X)) red)) = true \/ bm_stop p red = true)
            /\ (forall m, (m < k)%nat ->
                 fst (analog_mv p rn m W X (bm_scales (nzs (map (noise_management p) X)) (2 ^ m))) = false
                 /\ bm_stop p (2 ^ m) = false))).
Proof.
  intros NP H. unfold matmul in H. rewrite NP in H.
  set (nms := map (noise_management p) X) in *. change (map (fun a => if Rleb a 0 then 1 else a) nms) with (nzs nms) in *.
  assert (H' : (if negb (inp_noise_on p) && nm_tensor p && forallb (fun a => Reqb a 0) nms
     then Some (Ok (map (fun _ => map (fun _ => 0) W) X))
     else if quant_div0 p then Some (Raise ZeroDivisionError) else
      if bm_on p then match bm_loop f p rn W X (nzs nms) 0 (1/2) with
        | Some (_, scales, Y) => Some (Ok (unscale p scales Y)) | None => None end
      else Some (Ok (unscale p (map (fun a => 1 / a) (nzs nms)) (snd (analog_mv p rn 0 W X (map (fun a => 1 / a) (nzs nms))))))) = Some (Ok Y)).
  { destruct (nm p); try exact H; discriminate. }
  clear H. destruct (negb (inp_noise_on p) && nm_tensor p && forallb (fun a => Reqb a 0) nms) eqn:E.
  - left. injection H' as <-. apply andb_true_iff in E as [E E2]. apply andb_true_iff in E as [E0 E1].
    split; [now apply negb_true_iff in E0|]. split; auto. split; auto.
    apply Forall_forall. intros x Hx. rewrite forallb_forall in E2. apply Reqb_true. apply E2. unfold nms. now apply in_map.
  - right. destruct (quant_div0 p) eqn:D; [discriminate|]. split; auto. destruct (bm_on p).
    + destruct (bm_loop f p rn W X (nzs nms) 0 (1 / 2)) as [[[k scales] Y']|] eqn:B; [|discriminate].
      injection H' as <-. destruct (bm_loop_spec _ _ _ _ _ _ _ _ _ B) as (n & _ & R & P & Q).
      rewrite half_pow in *. simpl Nat.add in *. injection R as -> -> ->. exists n, (2 ^ n).
      split; [reflexivity|]. split; [discriminate|]. intros _. split; auto. split; auto.
      intros m Hm. specialize (Q m Hm). now rewrite half_pow in Q.
    + injection H' as <-. exists 0%nat, 1.
      assert (S1 : bm_scales (nzs nms) 1 = map (fun a => 1 / a) (nzs nms)).
      { unfold bm_scales. apply map_ext. intros a. lra. }
      rewrite S1. split; [reflexivity|]. split; [auto|discriminate].
Qed.

Lemma entry p rn k W X nms red i j : (i < length X)%nat -> (j < length W)%nat -> length nms = length X ->
  nth j (nth i (unscale p (bm_scales nms red) (snd (analog_mv p rn k W X (bm_scales nms red)))) []) 0
  = out_scale p / (1 / nth i nms 0 / red)
    * clampb (out_bound p) (nth j (raw_at p rn k W i (1 / nth i nms 0 / red) (nth i X [])) 0).
Proof.
  intros Hi Hj L. unfold unscale.
  assert (Ls : length (bm_scales nms red) = length X) by (unfold bm_scales; now rewrite map_length).
  assert (Es : nth i (bm_scales nms red) 0 = 1 / nth i nms 0 / red).
  { unfold bm_scales. rewrite (nth_indep _ 0 (1 / 0 / red)) by (rewrite map_length; lia).
    exact (map_nth (fun a => 1 / a / red) nms 0 i). }
  rewrite nth_map2' with (a := 0) (b := []).
  2: { rewrite Ls; auto. }
  2: { rewrite rows_length; auto. }
  rewrite analog_mv_row, Es by auto. rewrite map_map.
  rewrite (nth_indep _ 0 (out_scale p / (1 / nth i nms 0 / red) * clampb (out_bound p) 0)).
  2: { rewrite map_length, raw_length; auto. }
  exact (map_nth (fun v => out_scale p / (1 / nth i nms 0 / red) * clampb (out_bound p) v) _ 0 j).
Qed.
Lemma unscale_shape p rn k W X nms red : length nms = length X ->
  length (unscale p (bm_scales nms red) (snd (analog_mv p rn k W X (bm_scales nms red)))) = length X
  /\ Forall (fun y => length y = length W) (unscale p (bm_scales nms red) (snd (analog_mv p rn k W X (bm_scales nms red)))).
Proof.
  intros L. assert (Ls : length (bm_scales nms red) = length X) by (unfold bm_scales; now rewrite map_length).
  split. { unfold unscale. rewrite map2_length, rows_length, Ls by auto. apply Nat.min_id. }
  unfold unscale, analog_mv. simpl. apply Forall_forall. intros y H.
  revert H Ls. generalize (bm_scales nms red) as sc, 0%nat as i0. clear.
  induction X as [|x X IH]; intros [|s sc] i0; simpl; try contradiction; try discriminate.
  intros [<-|H] E.
  - rewrite !map_length. unfold finalize_raw. now rewrite imap_length, matvec_length.
  - eapply IH; eauto.
Qed.

(** ** Output bound *)
Lemma nth_nzs nms i : (i < length nms)%nat -> nth i (nzs nms) 0 = (if Rleb (nth i nms 0) 0 then 1 else nth i nms 0).
Proof.
  intros H. unfold nzs. rewrite (nth_indep _ 0 (if Rleb 0 0 then 1 else 0)) by (rewrite map_length; auto).
  exact (map_nth (fun a => if Rleb a 0 then 1 else a) nms 0 i).
Qed.
Lemma nth_nms p X i : (i < length X)%nat -> nth i (map (noise_management p) X) 0 = noise_management p (nth i X []).
Proof.
  intros H. rewrite (nth_indep _ 0 (noise_management p [])) by (rewrite map_length; auto). apply map_nth.
Qed.

(** ** Error *)
Lemma sum_abs_nonneg (row : vec) : 0 <= sumR (map Rabs row).
Proof. induction row as [|a row IH]; simpl; [lra|]. pose proof (Rabs_pos a). lra. Qed.
Lemma dot_err (row a b : vec) e : 0 <= e -> length a = length b ->
  (forall j, (j < length b)%nat -> Rabs (nth j a 0 - nth j b 0) <= e) ->
  Rabs (dot row a - dot row b) <= sumR (map Rabs row) * e.
Proof.
  intros He. revert a b. induction row as [|w row IH]; intros [|x a] [|y b] L H; simpl in *; try discriminate;
    try (rewrite Rminus_eq_0, Rabs_R0).
  - lra.
  - lra.
  - pose proof (sum_abs_nonneg row). pose proof (Rabs_pos w). apply Rmult_le_pos; lra.
  - replace (w * x + dot row a - (w * y + dot row b)) with (w * (x - y) + (dot row a - dot row b)) by ring.
    eapply Rle_trans; [apply Rabs_triang|]. rewrite Rmult_plus_distr_r. apply Rplus_le_compat.
    + rewrite Rabs_mult. apply Rmult_le_compat_l; [apply Rabs_pos|]. apply (H 0%nat). lia.
    + apply IH; [lia|]. intros j Hj. apply (H (S j)). lia.
Qed.
Lemma dot_nth_scale (row x : vec) s : dot row (map (fun v => v * s) x) = s * dot row x.
Proof.
  rewrite <- dot_scale_r. f_equal. apply map_ext. intros; ring.
Qed.

Lemma nth_matvec (W : mat) (x : vec) j : (j < length W)%nat -> nth j (matvec W x) 0 = dot (nth j W []) x.
Proof.
  intros H. unfold matvec. rewrite (nth_indep _ 0 (dot (@nil R) x)) by (rewrite map_length; auto).
  exact (map_nth (fun row => dot row x) W [] j).
Qed.
Lemma qerr_nonneg res bound sto : 0 <= qerr res bound sto.
Proof. unfold qerr. rcase; [|lra]. pose proof (Rabs_pos (quant_step res bound)). destruct sto; lra. Qed.
Lemma quant_div0_false p : quant_div0 p = false ->
  (0 < inp_res p -> quant_step (inp_res p) (inp_bound p) <> 0) /\ (0 < out_res p -> quant_step (out_res p) (out_bound p) <> 0).
Proof.
  unfold quant_div0. intros H. apply orb_false_iff in H as [A B].
  split; intros R; apply step_nz; auto; intros E; [rewrite E in A|rewrite E in B].
  - rewrite (proj2 (Rltb_true _ _) R), (proj2 (Reqb_true 0 0) eq_refl) in A. discriminate.
  - rewrite (proj2 (Rltb_true _ _) R), (proj2 (Reqb_true 0 0) eq_refl) in B. discriminate.
Qed.
Lemma uq_err res bound (sto : bool) u v : (0 < res -> quant_step res bound <> 0) -> Rabs u <= 1/2 ->
  Rabs ((if Rltb 0 res then uquant res bound (if sto then u else 0) v else v) - v) <= qerr res bound sto.
Proof.
  intros H U. unfold qerr. rcase; [|rewrite Rminus_eq_0, Rabs_R0; lra].
  eapply Rle_trans; [apply uquant_err; auto|]. apply Rmult_le_compat_l; [apply Rabs_pos|].
  destruct sto; [lra|]. rewrite Rabs_R0. lra.
Qed.

Lemma prep_err p rn k i s x : noise_off p -> rounding_ok rn -> quant_div0 p = false ->
  (forall v, In v x -> within (inp_bound p) (v * s) = true) ->
  forall j, (j < length x)%nat ->
  Rabs (nth j (prepare_input p rn k i s x) 0 - nth j (map (fun v => v * s) x) 0) <= qerr (inp_res p) (inp_bound p) (inp_sto p).
Proof.
  intros (N1 & N2 & N3 & N4) RO D Hw j Hj. unfold prepare_input.
  rewrite imap_nth with (a := 0) by auto. simpl Nat.add.
  rewrite (nth_indep (map (fun v => v * s) x) 0 (0 * s)) by (rewrite map_length; auto). rewrite (map_nth (fun v => v * s)).
  cbv zeta. rewrite N1, N3. set (v := nth j x 0 * s).
  set (q := if Rltb 0 (inp_res p) then uquant (inp_res p) (inp_bound p) (if inp_sto p then r_qin rn k i j else 0) v else v).
  assert (E : (if Rltb (clampb (inp_bound p) q) 0 then clampb (inp_bound p) q * (1 - 0) else clampb (inp_bound p) q) = clampb (inp_bound p) q).
  { destruct (Rltb _ 0); ring. }
  rewrite E. eapply Rle_trans; [apply clampb_near|].
  - apply Hw. now apply nth_In.
  - apply uq_err; [apply quant_div0_false; auto|apply RO].
Qed.

Lemma raw_err p rn k W i s x : noise_off p -> rounding_ok rn -> quant_div0 p = false ->
  (forall v, In v x -> within (inp_bound p) (v * s) = true) ->
  forall j, (j < length W)%nat ->
  Rabs (nth j (raw_at p rn k W i s x) 0 - s * nth j (matvec W x) 0)
   <= sumR (map Rabs (nth j W [])) * qerr (inp_res p) (inp_bound p) (inp_sto p) + qerr (out_res p) (out_bound p) (out_sto p).
Proof.
  intros N RO D Hw j Hj. pose proof N as (N1 & N2 & N3 & N4). unfold raw_at, finalize_raw.
  rewrite imap_nth with (a := 0) by (rewrite matvec_length; exact Hj). simpl Nat.add. cbv zeta. rewrite N2, N4.
  rewrite !(nth_matvec W) by exact Hj.
  set (v := dot (nth j W []) (prepare_input p rn k i s x)).
  assert (E : (if Rltb v 0 then v * (1 - 0) else v) = v) by (destruct (Rltb _ 0); ring). rewrite E.
  set (q := if Rltb 0 (out_res p) then uquant (out_res p) (out_bound p) (if out_sto p then r_qout rn k i j else 0) v else v).
  replace (q - s * dot (nth j W []) x) with ((v - s * dot (nth j W []) x) + (q - v)) by ring.
  eapply Rle_trans; [apply Rabs_triang|]. apply Rplus_le_compat.
  - unfold v. rewrite <- dot_nth_scale. apply dot_err; [apply qerr_nonneg| |].
    + unfold prepare_input. now rewrite imap_length, map_length.
    + rewrite map_length. intros m Hm. now apply prep_err.
  - unfold q. apply uq_err; [apply quant_div0_false; auto|apply RO].
Qed.

Lemma entry_err p rn k W X nms red i j e : (i < length X)%nat -> (j < length W)%nat -> length nms = length X ->
  0 < nth i nms 0 -> 0 < red ->
  Rabs (clampb (out_bound p) (nth j (raw_at p rn k W i (1 / nth i nms 0 / red) (nth i X [])) 0)
        - 1 / nth i nms 0 / red * nth j (matvec W (nth i X [])) 0) <= e ->
  Rabs (nth j (nth i (unscale p (bm_scales nms red) (snd (analog_mv p rn k W X (bm_scales nms red)))) []) 0
        - out_scale p * nth j (matvec W (nth i X [])) 0) <= Rabs (out_scale p) * (nth i nms 0 * red) * e.
Proof.
  intros Hi Hj L Pa Pr H. rewrite entry by auto. set (a := nth i nms 0) in *.
  set (c := clampb _ _) in *. set (t := nth j (matvec W (nth i X [])) 0) in *.
  replace (out_scale p / (1 / a / red) * c - out_scale p * t) with (out_scale p * (a * red) * (c - 1 / a / red * t)).
  2: { field. split; lra. }
  rewrite Rabs_mult. apply Rle_trans with (Rabs (out_scale p * (a * red)) * e).
  - apply Rmult_le_compat_l; [apply Rabs_pos|auto].
  - rewrite Rabs_mult. rewrite (Rabs_right (a * red)); [lra|]. apply Rle_ge, Rlt_le, Rmult_lt_0_compat; auto.
Qed.

(** ** Zero rows *)
Lemma rhe_small u : Rabs u <= 1/2 -> rhe u = 0%Z.
Proof.
  intros H. pose proof (rhe_err u) as E. destruct (Req_dec u (1/2)) as [->|N1].
  - unfold rhe. replace (floorZ (1/2)) with 0%Z by (symmetry; apply floorZ_unique; lra). rcase; [lra|]. rcase; [lra|]. reflexivity.
  - destruct (Req_dec u (-(1/2))) as [->|N2].
    + rewrite rhe_opp. unfold rhe. replace (floorZ (1/2)) with 0%Z by (symmetry; apply floorZ_unique; lra). rcase; [lra|]. rcase; [lra|]. reflexivity.
    + assert (A : IZR (rhe u) < 1 /\ -1 < IZR (rhe u)) by (split; mm). destruct A as [A B].
      apply lt_IZR in A. apply lt_IZR in B. lia.
Qed.
Lemma uq_zero res bound (sto : bool) u : Rabs u <= 1/2 ->
  (if Rltb 0 res then uquant res bound (if sto then u else 0) 0 else 0) = 0.
Proof.
  intros U. destruct (Rltb 0 res); auto. unfold uquant. replace (0 / quant_step res bound + (if sto then u else 0)) with (if sto then u else 0) by (unfold Rdiv; ring).
  rewrite rhe_small; [ring|]. destruct sto; auto. rewrite Rabs_R0. lra.
Qed.
Lemma prep_zero p rn k i s x : noise_off p -> rounding_ok rn -> Forall (eq 0) x ->
  prepare_input p rn k i s x = map (fun _ => 0) x.
Proof.
  intros (N1 & N2 & N3 & N4) S F. unfold prepare_input. rewrite <- (imap_const (fun _ => 0) 0 x). apply imap_ext.
  intros j a Ha. rewrite Forall_forall in F. rewrite <- (F a Ha). cbv zeta. rewrite N1, N3, Rmult_0_l.
  rewrite uq_zero by apply S.
  assert (C : clampb (inp_bound p) 0 = 0) by (unfold clampb; rcase; auto; mm). rewrite C. destruct (Rltb 0 0); ring.
Qed.
Lemma dot_zeros row (x : vec) : dot row (map (fun _ => 0) x) = 0.
Proof. revert x; induction row; destruct x; simpl; try lra. rewrite IHrow. lra. Qed.
Lemma raw_zero p rn k W i s x : noise_off p -> rounding_ok rn -> Forall (eq 0) x ->
  raw_at p rn k W i s x = map (fun _ => 0) W.
Proof.
  intros N S F. unfold raw_at. rewrite prep_zero by auto. pose proof N as (N1 & N2 & N3 & N4).
  unfold finalize_raw, matvec. rewrite imap_map, <- (imap_const (fun _ => 0) 0 W). apply imap_ext. intros j row _.
  cbv zeta. rewrite dot_zeros, N2, N4.
  replace (if Rltb 0 0 then 0 * (1 - 0) else 0) with 0 by (destruct (Rltb 0 0); ring).
  apply uq_zero, S.
Qed.
Lemma maxabs_0 x : maxabs x = 0 -> Forall (eq 0) x.
Proof.
  intros H. apply Forall_forall. intros a Ha. pose proof (maxabs_ub x a Ha). rewrite H in *. mm.
Qed.
Lemma matvec_zero W x : Forall (eq 0) x -> matvec W x = map (fun _ => 0) W.
Proof.
  intros F. unfold matvec. apply map_ext. intros row. revert row. induction F as [|a x E F IH]; intros [|w row]; simpl; auto.
  rewrite IH, <- E. lra.
Qed.
Lemma nth_zeros {A} (W : list A) j : nth j (map (fun _ => 0) W) 0 = 0.
Proof. revert j; induction W; intros [|j]; simpl; auto. Qed.

(** scale used for a row *)
Lemma scale_cases p x : nm p <> NM_MAX ->
  (0 < range_of p x /\ noise_management p x = range_of p x
    /\ (if Rleb (noise_management p x) 0 then 1 else noise_management p x) = range_of p x)
  \/ (nm p = NM_ABS_MAX /\ range_of p x = 0 /\ noise_management p x = 0 /\ Forall (eq 0) x
      /\ (if Rleb (noise_management p x) 0 then 1 else noise_management p x) = 1).
Proof.
  intros H. unfold noise_management, range_of.
  destruct (nm p); try congruence; clear H.
  - left. rcase; repeat split; lra.
  - pose proof (maxabs_nonneg x). destruct (Req_dec (maxabs x) 0) as [E|E].
    + right. rewrite E. destruct (Rltb 0 (nm_thres p)) eqn:T; [apply Rltb_true in T; rewrite Rmin_left by lra|];
      (repeat split; auto; [now apply maxabs_0|]; rcase; lra).
    + left. destruct (Rltb 0 (nm_thres p)) eqn:T; [apply Rltb_true in T|]; (rcase; repeat split; mm).
  - left. destruct (Rltb 0 (nm_thres p)) eqn:T; [apply Rltb_true in T|]; (rcase; repeat split; lra).
  - left. rcase; repeat split; lra.
Qed.

Lemma within_scale b v a : 0 < a -> (0 < b -> Rabs v <= a * b) -> within b (v * (1 / a)) = true.
Proof.
  intros A H. unfold within. destruct (Rltb 0 b) eqn:E; auto. apply Rltb_true in E. apply Rleb_true.
  rewrite Rabs_mult, (Rabs_right (1 / a)).
  - apply Rmult_le_reg_r with a; auto. replace (Rabs v * (1 / a) * a) with (Rabs v) by (field; lra). rewrite Rmult_comm. auto.
  - apply Rle_ge, Rlt_le. apply Rdiv_lt_0_compat; lra.
Qed.
