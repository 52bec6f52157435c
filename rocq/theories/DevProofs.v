(** * Pulsed devices: lemmas *)
From Verif Require Import Prelude Rand DevModel DevSpec.

Lemma bnd_within x w : x_min x <= x_max x -> within x (bnd x w).
Proof. unfold within, bnd. intros. split; [apply Rmax_r|]. apply Rmax_lub; auto. apply Rmin_r. Qed.
Lemma bnd'_within x w : x_min x <= x_max x -> within x (bnd' x w).
Proof. unfold within, bnd'. intros. split; [|apply Rmin_r]. apply Rmin_glb; auto. apply Rmax_r. Qed.
Lemma bnd_id x w : within x w -> bnd x w = w.
Proof. unfold within, bnd. intros. rewrite Rmin_left by lra. apply Rmax_left. lra. Qed.
Lemma bnd'_id x w : within x w -> bnd' x w = w.
Proof. unfold within, bnd'. intros. rewrite Rmax_left by lra. apply Rmin_left. lra. Qed.
Lemma bnd_bnd' x w : x_min x <= x_max x -> bnd' x w = bnd x w.
Proof. unfold bnd, bnd', Rmax, Rmin. intros. repeat destruct Rle_dec; lra. Qed.
Lemma bnd_neg x w : x_min x <= x_max x -> bnd (mirror_xp x) (- w) = - bnd x w.
Proof. unfold bnd, Rmax, Rmin; simpl. intros. repeat destruct Rle_dec; lra. Qed.

(** ** Index lemmas *)
Lemma nth_error_zipi {A} (l : list A) : forall i, nth_error (zipi l) i = match nth_error l i with Some a => Some (i, a) | None => None end.
Proof.
  unfold zipi. enough (H : forall k i, nth_error (combine (seq k (length l)) l) i = match nth_error l i with Some a => Some ((k + i)%nat, a) | None => None end) by (intros; apply H).
  induction l as [|a l IH]; intros k [|i]; simpl; auto.
  - now rewrite Nat.add_0_r.
  - rewrite IH. destruct nth_error; auto. now replace (S k + i)%nat with (k + S i)%nat by lia.
Qed.
Lemma zipi_length {A} (l : list A) : length (zipi l) = length l.
Proof. unfold zipi. now rewrite combine_length, seq_length, Nat.min_id. Qed.
Lemma F2_nth {A B} (P : A -> B -> Prop) : forall l r i, Forall2 P l r ->
  match nth_error l i, nth_error r i with Some a, Some b => P a b | None, None => True | _, _ => False end.
Proof. intros l r i F. revert i. induction F; intros [|i]; simpl; auto. apply IHF. Qed.
Lemma each_at f cs cs' : yields (each f cs) cs' -> forall i j,
  match nth_error cs i, cell_at cs i j, cell_at cs' i j with
  | Some row, Some c, Some c' => yields (f j (length row) c) c'
  | _, None, None => True
  | _, _, _ => False
  end.
Proof.
  intros Y i j. unfold each in Y. apply yields_mapMM in Y. pose proof (F2_nth _ _ _ i Y) as N. unfold cell_at.
  destruct (nth_error cs i) as [row|], (nth_error cs' i) as [row'|]; auto; try contradiction.
  apply yields_mapMM in N. pose proof (F2_nth _ _ _ j N) as N2. rewrite nth_error_zipi in N2.
  destruct (nth_error row j), (nth_error row' j); auto.
Qed.
Lemma each_back f cs cs' i j c' : yields (each f cs) cs' -> cell_at cs' i j = Some c' ->
  exists row c, nth_error cs i = Some row /\ cell_at cs i j = Some c /\ yields (f j (length row) c) c'.
Proof.
  intros Y E. pose proof (each_at _ _ _ Y i j) as N. rewrite E in N. unfold cell_at in *.
  destruct (nth_error cs i) as [row|]; [|contradiction]. destruct (nth_error row j) eqn:Ej; [|contradiction]. eauto.
Qed.
Lemma each_fwd f cs cs' i j c : yields (each f cs) cs' -> cell_at cs i j = Some c ->
  exists row c', nth_error cs i = Some row /\ cell_at cs' i j = Some c' /\ yields (f j (length row) c) c'.
Proof.
  intros Y E. pose proof (each_at _ _ _ Y i j) as N. rewrite E in N. unfold cell_at in *.
  destruct (nth_error cs i) as [row|]; [|discriminate]. destruct (match nth_error cs' i with Some row0 => _ | None => _ end) eqn:Ej; [|contradiction]. eauto.
Qed.
Lemma upd_nth_at {A} (f : A -> M A) : forall n l l', yields (upd_nth n f l) l' -> forall k,
  match nth_error l k, nth_error l' k with
  | Some a, Some b => if Nat.eqb k n then yields (f a) b else b = a
  | None, None => True
  | _, _ => False
  end.
Proof.
  induction n as [|n IH]; intros [|a l] l' Y k; simpl in Y; ysimp; try (destruct k; simpl; auto; fail).
  - destruct k as [|k]; simpl; auto. destruct (nth_error l k); auto.
  - destruct k as [|k]; simpl; auto. apply (IH l _ Y0).
Qed.
Lemma pulse_at_at mt cs cs' i j b : yields (pulse_at mt cs (i, j, b)) cs' -> forall i' j',
  match cell_at cs i' j', cell_at cs' i' j' with
  | Some c, Some c' => if (Nat.eqb i' i && Nat.eqb j' j)%bool then yields (pulse mt b c) c' else c' = c
  | None, None => True
  | _, _ => False
  end.
Proof.
  unfold pulse_at. cbn [fst snd]. intros Y i' j'. pose proof (upd_nth_at _ _ _ _ Y i') as N. unfold cell_at.
  destruct (nth_error cs i') as [row|], (nth_error cs' i') as [row'|]; auto; try contradiction.
  destruct (Nat.eqb i' i) eqn:E; simpl.
  - pose proof (upd_nth_at _ _ _ _ N j'). destruct (nth_error row j'), (nth_error row' j'); auto.
  - subst. destruct (nth_error row j'); auto.
Qed.
Lemma pulse_at_back mt cs cs' p i j c' : yields (pulse_at mt cs p) cs' -> cell_at cs' i j = Some c' ->
  exists c, cell_at cs i j = Some c /\ (c' = c \/ yields (pulse mt (snd p) c) c').
Proof.
  destruct p as [[a b] d]. intros Y E. pose proof (pulse_at_at _ _ _ _ _ _ Y i j) as N. rewrite E in N.
  destruct (cell_at cs i j) as [c|]; [|contradiction]. exists c. split; auto. destruct (_ && _)%bool; auto.
Qed.

(** ** Invariants: a predicate kept by every elementary step holds after any history *)
Section Inv.
  Variable mt : meta.
  Variable P : nat -> nat -> cell -> Prop.
  Definition everyp (d : dev) : Prop := forall i j c, cell_at (d_cells d) i j = Some c -> P i j c.
  Variable allowed : op -> Prop.
  Hypothesis Hpulse : forall i j b c c', P i j c -> yields (pulse mt b c) c' -> P i j c'.
  Hypothesis Hdecay : forall i j a k l c c', P i j c -> yields (decay_cell mt a k l c) c' -> P i j c'.
  Hypothesis Hdiff : forall i j c c', P i j c -> yields (diffuse_cell mt c) c' -> P i j c'.
  Hypothesis Hclip : forall i j v c c', allowed (OClip v) -> P i j c -> yields (clip_cell mt v c) c' -> P i j c'.
  Hypothesis Hreset : forall i j p h c c', P i j c -> yields (reset_cell mt p h c) c' -> P i j c'.
  Hypothesis Hset : forall i j w c c', P i j c -> yields (set_cell mt c w) c' -> P i j c'.
  Hypothesis Hdrift : forall i j p f n c c', P i j c -> yields (drift_cell mt p f n c) c' -> P i j c'.
  Hypothesis Hfloat : forall i j m c dw c', allowed (OFloat m) -> P i j c -> yields (clip_cell mt (-1) (set_wp c (c_w c + dw) (c_p c))) c' -> P i j c'.
  Lemma op_inv d o d' : allowed o -> everyp d -> yields (do_op mt d o) d' -> everyp d'.
  Proof.
    intros Ok Pd Y. unfold everyp in *. destruct o; cbn [do_op] in Y; ysimp; cbn [d_cells with_cells] in *.
    - refine (yields_foldMM_inv _ (fun cs => forall i j c, cell_at cs i j = Some c -> P i j c) l _ _ _ Pd Y0).
      intros b q b' _ Hb Yb i j c E. destruct (pulse_at_back _ _ _ _ _ _ _ Yb E) as (c0 & E0 & [-> | Yp]); eauto.
    - intros i j c E. destruct (each_back _ _ _ _ _ _ Y0 E) as (row & c0 & _ & E0 & Y). eauto.
    - intros i j c E. destruct (each_back _ _ _ _ _ _ Y0 E) as (row & c0 & _ & E0 & Y). eauto.
    - intros i j c E. destruct (each_back _ _ _ _ _ _ Y0 E) as (row & c0 & _ & E0 & Y). eauto.
    - intros i j c E. destruct (each_back _ _ _ _ _ _ Y0 E) as (row & c0 & _ & E0 & Y). eauto.
    - apply yields_mapMM in Y0. intros i j c E. pose proof (F2_nth _ _ _ i Y0) as N. unfold cell_at in E.
      destruct (nth_error a i) as [row'|] eqn:Ei; [|discriminate].
      destruct (nth_error (combine (d_cells d) w) i) as [[row ws]|] eqn:Ec; [|contradiction].
      apply yields_mapMM in N. pose proof (F2_nth _ _ _ j N) as N2. rewrite E in N2. cbn [fst snd] in N2.
      destruct (nth_error (combine row ws) j) as [[c0 w0]|] eqn:E2; [|contradiction]. cbn [fst snd] in N2.
      assert (R1 : nth_error (d_cells d) i = Some row) by (clear -Ec; revert w i Ec; induction (d_cells d); intros [|? ?] [|?]; simpl; intros; try discriminate; [congruence | eauto]).
      assert (R2 : nth_error row j = Some c0) by (clear -E2; revert ws j E2; induction row; intros [|? ?] [|?]; simpl; intros; try discriminate; [congruence | eauto]).
      eapply Hset; [|exact N2]. apply (Pd i j). unfold cell_at. now rewrite R1.
    - intros i j c E. destruct (each_back _ _ _ _ _ _ Y0 E) as (row & c0 & _ & E0 & Y). eauto.
    - intros i j c E. destruct (each_back _ _ _ _ _ _ Y0 E) as (row & c0 & _ & E0 & Y).
      assert (exists c1 dw, cell_at (d_cells d) i j = Some c1 /\ c0 = set_wp c1 (c_w c1 + dw) (c_p c1)) as (c1 & dw & E1 & ->).
      { clear -E0. unfold cell_at in *. revert delta i E0. induction (d_cells d) as [|r rs IH]; intros [|q qs] [|i]; simpl; try discriminate; eauto.
        clear IH. intros E. revert q j E. induction r as [|c r IH]; intros [|x q] [|j]; simpl; try discriminate; eauto. intros [= <-]. eauto. }
      eapply Hfloat; eauto.
  Qed.
  Lemma history_inv : forall os d d', (forall o, In o os -> allowed o) -> everyp d -> history mt d os d' -> everyp d'.
  Proof.
    intros os d d' Ok Pd Y. unfold history in Y. refine (yields_foldMM_inv _ (everyp) os _ d d' Pd Y).
    intros b o b' Ho Pb Yb. eapply op_inv; eauto.
  Qed.
End Inv.

(** ** Shape of one step *)
Lemma stored_cur mt c : stored mt c = cur mt c.
Proof. reflexivity. Qed.
Lemma renoise_keeps mt c c' : yields (renoise mt c) c' -> (persist mt = true -> c_p c' = c_p c) /\ (persist mt = false -> c' = c) /\
  c_x c' = c_x c /\ c_rule c' = c_rule c /\ c_h c' = c_h c /\ c_prev c' = c_prev c /\ c_w0 c' = c_w0 c /\ c_t c' = c_t c /\ c_nu c' = c_nu c.
Proof.
  unfold renoise. intros Y. destruct (impl_wn _ && persist mt)%bool eqn:E; [|ysimp; tauto].
  apply andb_prop in E as [_ E]. rewrite E. destruct (Rltb 0 (scaled_wn mt)); ysimp; cbn; repeat split; auto; discriminate.
Qed.
Lemma renoise_stored mt c c' : yields (renoise mt c) c' -> stored mt c' = stored mt c.
Proof.
  intros Y. apply renoise_keeps in Y as (Y1 & Y2 & _). unfold stored. fold (persist mt). destruct (persist mt); [auto | now rewrite Y2].
Qed.
Lemma set_cur_stored mt c w : stored mt (set_cur mt c w) = w.
Proof. unfold stored, set_cur. fold (persist mt). now destruct (persist mt). Qed.
Lemma set_cur_keeps mt c w : c_x (set_cur mt c w) = c_x c /\ c_rule (set_cur mt c w) = c_rule c /\ c_h (set_cur mt c w) = c_h c.
Proof. unfold set_cur. destruct (persist mt); auto. Qed.
Lemma step_stored mt c w c' : yields (renoise mt (set_cur mt c w)) c' ->
  stored mt c' = w /\ c_x c' = c_x c /\ c_rule c' = c_rule c /\ c_h c' = c_h c.
Proof.
  intros Y. rewrite (renoise_stored _ _ _ Y), set_cur_stored. apply renoise_keeps in Y as (_ & _ & -> & -> & -> & _).
  destruct (set_cur_keeps mt c w) as (-> & -> & ->). auto.
Qed.
(** one pulse on an accepted device *)
Lemma pulse_stored mt b c c' : accepted mt c -> yields (pulse mt b c) c' ->
  c_x c' = c_x c /\ c_rule c' = c_rule c /\
  if skips (c_rule c) (c_x c) then c' = c
  else yields (pulse_w mt (c_rule c) (c_x c) b (stored mt c) (c_h c)) (stored mt c', if impl_wn (c_rule c) then snd (stored mt c', c_h c) else c_h c').
Proof.
  unfold accepted, pulse, stored. fold (persist mt). intros [Dw Ac] Y. destruct (skips _ _); [ysimp; auto|].
  destruct (impl_wn (c_rule c)) eqn:Ei.
  - ysimp. assert (Hh : snd a = c_h c).
    { destruct (c_rule c); try discriminate; simpl in Y0; ysimp; auto. }
    destruct a as [w h]. cbn [fst snd] in *. subst h.
    destruct (Rltb 0 (scaled_wn mt)) eqn:Es, (persist mt) eqn:Ep; ysimp; cbn; auto.
    exfalso. unfold persist in Ep. apply Rltb_false in Ep. apply Rltb_true in Es. unfold scaled_wn in Es. nra.
  - assert (persist mt = false) as E by (unfold persist; apply Rltb_false; apply Rnot_lt_le; intros Q; specialize (Ac Q); congruence).
    rewrite E in *. ysimp. destruct a as [w h]. cbn in *. auto.
Qed.

(** ** Bounds *)
Definition keeps (mt : meta) (os : list op) (c : cell) : Prop :=
  accepted mt c /\ x_min (c_x c) <= x_max (c_x c) /\ hidden_ok mt c /\ (forall o, In o os -> clip_ok c o) /\ in_range c (stored mt c).
Lemma keeps_move mt os c c' : keeps mt os c -> c_x c' = c_x c -> c_rule c' = c_rule c -> in_range c (stored mt c') -> keeps mt os c'.
Proof.
  unfold keeps, accepted, hidden_ok, clip_ok, in_range. intros (A & B & C & D & E) -> -> F. repeat split; try tauto.
Qed.
Lemma within_range c w : within (c_x c) w -> in_range c w.
Proof. unfold within, in_range. pose proof (Rmax_r (reference (c_rule c)) 0). pose proof (Rmin_r (reference (c_rule c)) 0). lra. Qed.
Lemma ref_range c w : within (c_x c) (w + reference (c_rule c)) -> in_range c w.
Proof. unfold within, in_range. pose proof (Rmax_l (reference (c_rule c)) 0). pose proof (Rmin_l (reference (c_rule c)) 0). lra. Qed.
Lemma pulse_w_range mt c b w h w' h' : x_min (c_x c) <= x_max (c_x c) -> hidden_ok mt c -> in_range c w ->
  yields (pulse_w mt (c_rule c) (c_x c) b w h) (w', h') -> in_range c w'.
Proof.
  intros O H I Y. unfold pulse_w in Y.
  assert (Eb : forall v, within (c_x c) (bnd (c_x c) v)) by (intros; now apply bnd_within).
  assert (Eb' : forall v, within (c_x c) (bnd' (c_x c) v)) by (intros; now apply bnd'_within).
  destruct (c_rule c) eqn:Er.
  all: try (ysimp; inversion Y; subst; apply within_range; auto; fail).
  - destruct (Rltb 0 (m_std mt)); ysimp; inversion Y; subst; apply within_range; auto.
  - ysimp. inversion Y; subst. apply ref_range. rewrite Er. cbn [reference]. rewrite Rplus_comm. unfold Rminus. rewrite <- Rplus_assoc, (Rplus_comm ref), Rplus_assoc, Rplus_opp_r, Rplus_0_r. auto.
  - ysimp. inversion Y; subst. apply ref_range. rewrite Er. cbn [reference]. rewrite Rplus_comm. unfold Rminus. rewrite <- Rplus_assoc, (Rplus_comm ref), Rplus_assoc, Rplus_opp_r, Rplus_0_r. auto.
  - destruct H as (S & U & D); [now rewrite Er|]. assert (Es : Rltb 0 (m_std mt) = false) by (apply Rltb_false; lra). rewrite Es in Y.
    unfold in_range in *. rewrite Er in *. cbn [reference] in *. assert (Z1 : Rmax 0 0 = 0) by (apply Rmax_left; lra). assert (Z2 : Rmin 0 0 = 0) by (apply Rmin_left; lra). rewrite Z1, Z2 in *.
    ysimp. destruct (Rltb a (-1)); [|destruct (Rltb 1 a)]; ysimp; inversion Y; subst; auto; unfold Rmax, Rmin; destruct Rle_dec; lra.
Qed.
Lemma keeps_pulse mt os b c c' : keeps mt os c -> yields (pulse mt b c) c' -> keeps mt os c'.
Proof.
  intros K Y. destruct K as (A & B & C & D & E). destruct (pulse_stored _ _ _ _ A Y) as (X1 & X2 & X3).
  apply (keeps_move mt os c); auto; [exact (conj A (conj B (conj C (conj D E))))|].
  destruct (skips _ _); [rewrite X3; exact E|]. eapply pulse_w_range; eauto.
Qed.
Lemma keeps_step mt os c w c' : keeps mt os c -> within (c_x c) w -> yields (renoise mt (set_cur mt c w)) c' -> keeps mt os c'.
Proof.
  intros K W Y. apply step_stored in Y as (S & X1 & X2 & _). apply (keeps_move mt os c); auto. rewrite S. now apply within_range.
Qed.
Lemma sat_within x v : x_min x <= x_max x -> within x (Rmin (Rmax (x_min x) v) (x_max x)).
Proof. unfold within. intros. mm. Qed.
Lemma clip_within c v w : clip_ok c (OClip v) -> x_min (c_x c) <= x_max (c_x c) ->
  within (c_x c) (if Rltb v 0 then bnd (c_x c) w else Rmax (Rmin w (Rmin (x_max (c_x c)) v)) (Rmax (x_min (c_x c)) (- v))).
Proof.
  cbn [clip_ok]. intros C O. destruct (Rltb v 0) eqn:E; [now apply bnd_within|]. apply Rltb_false in E.
  destruct C as [C | C]; [lra|]. unfold within. split; [|]; unfold Rmax, Rmin; repeat destruct Rle_dec; lra.
Qed.
Lemma clip_keeps mt os v c c' : clip_ok c (OClip v) -> keeps mt os c -> yields (clip_cell mt v c) c' -> keeps mt os c'.
Proof. intros C K Y. eapply keeps_step; eauto. apply clip_within; auto. apply K. Qed.
Lemma keeps_reset mt os p h c c' : keeps mt os c -> yields (reset_cell mt p h c) c' -> keeps mt os c'.
Proof.
  unfold reset_cell. intros K Y. ysimp. destruct h.
  - ysimp. destruct a0; ysimp.
    + eapply keeps_step; eauto. apply bnd_within, K.
    + pose proof (renoise_stored _ _ _ Y) as S. apply renoise_keeps in Y as (_ & _ & X1 & X2 & _). apply (keeps_move mt os c); auto. rewrite S. apply K.
  - ysimp. pose proof (renoise_stored _ _ _ Y) as S. apply renoise_keeps in Y as (_ & _ & X1 & X2 & _). apply (keeps_move mt os c); auto. rewrite S. apply K.
Qed.
Lemma set_cell_stored mt c w c' : yields (set_cell mt c w) c' -> stored mt c' = bnd (c_x c) w /\ c_x c' = c_x c /\ c_rule c' = c_rule c.
Proof.
  unfold set_cell. intros Y. unfold stored. fold (persist mt). destruct (persist mt) eqn:Ep.
  - destruct (m_wn_on_set mt); [|ysimp; auto]. apply renoise_keeps in Y as (Y1 & _ & X1 & X2 & _). rewrite Y1; auto.
  - ysimp; auto.
Qed.
Lemma keeps_set mt os w c c' : keeps mt os c -> yields (set_cell mt c w) c' -> keeps mt os c'.
Proof.
  intros K Y. apply set_cell_stored in Y as (S & X1 & X2). apply (keeps_move mt os c); auto. rewrite S. apply within_range, bnd_within, K.
Qed.
Lemma set_drift_keeps mt os c a b t : keeps mt os c -> keeps mt os (set_drift c a b t).
Proof. intros K. exact K. Qed.
Lemma keeps_drift mt os p f n c c' : keeps mt os c -> yields (drift_cell mt p f n c) c' -> keeps mt os c'.
Proof.
  unfold drift_cell. intros K Y. ysimp. cbv zeta in Y.
  assert (K1 : keeps mt os (if f then set_drift c (cur mt c) (cur mt c) 0 else c)) by (destruct f; auto).
  set (c1 := if f then _ else c) in *. eapply keeps_step; [|  |exact Y]; [exact (set_drift_keeps mt os c1 _ _ _ K1)|]. apply sat_within, K1.
Qed.
Lemma keeps_history mt os d d' : every (keeps mt os) d -> history mt d os d' -> every (keeps mt os) d'.
Proof.
  intros K H. apply (history_inv mt (fun _ _ => keeps mt os) (fun o => In o os)) with (os := os) (d := d); auto; intros.
  - eapply keeps_pulse; eauto.
  - eapply keeps_step; eauto. apply bnd_within, H0.
  - unfold diffuse_cell in H1. ysimp. eapply keeps_step; eauto. apply bnd_within, H0.
  - eapply clip_keeps; eauto. apply H1; auto.
  - eapply keeps_reset; eauto.
  - eapply keeps_set; eauto.
  - eapply keeps_drift; eauto.
  - unfold clip_cell in H2. cbv zeta in H2. apply step_stored in H2 as (S & X1 & X2 & _). apply (keeps_move mt os c); auto.
    rewrite S. apply within_range. assert (E : Rltb (-1) 0 = true) by (apply Rltb_true; lra). rewrite E. apply bnd_within, H1.
Qed.
Lemma pulse_keeps mt b c c' : yields (pulse mt b c) c' -> c_x c' = c_x c /\ c_rule c' = c_rule c.
Proof.
  unfold pulse. intros Y. destruct (skips _ _); [ysimp; auto|]. destruct (impl_wn (c_rule c)); ysimp; auto.
  destruct (Rltb 0 (scaled_wn mt)), (persist mt); ysimp; auto.
Qed.
Lemma reset_keeps mt p h c c' : yields (reset_cell mt p h c) c' -> c_x c' = c_x c /\ c_rule c' = c_rule c.
Proof.
  unfold reset_cell. intros Y. ysimp. apply renoise_keeps in Y as (_ & _ & -> & -> & _).
  destruct h; ysimp; auto. destruct a0; ysimp; auto. destruct (set_cur_keeps mt c (bnd (c_x c) (x_rbias (c_x c) + a0))); tauto.
Qed.
(** the parameters of a cross point never change *)
Lemma params_history mt os (Q : nat -> nat -> xp -> rule -> Prop) d d' :
  (forall i j c, cell_at (d_cells d) i j = Some c -> Q i j (c_x c) (c_rule c)) -> history mt d os d' ->
  forall i j c, cell_at (d_cells d') i j = Some c -> Q i j (c_x c) (c_rule c).
Proof.
  intros K H. apply (history_inv mt (fun i j c => Q i j (c_x c) (c_rule c)) (fun o => True)) with (os := os) (d := d); auto; intros.
  - destruct (pulse_keeps _ _ _ _ H1) as (-> & ->). auto.
  - apply step_stored in H1 as (_ & -> & -> & _). auto.
  - unfold diffuse_cell in H1. ysimp. apply step_stored in H1 as (_ & -> & -> & _). auto.
  - apply step_stored in H2 as (_ & -> & -> & _). auto.
  - destruct (reset_keeps _ _ _ _ _ H1) as (-> & ->). auto.
  - apply set_cell_stored in H1 as (_ & -> & ->). auto.
  - unfold drift_cell in H1. ysimp. apply step_stored in H1 as (_ & -> & -> & _). cbn. destruct f; auto.
  - apply step_stored in H2 as (_ & -> & -> & _). auto.
Qed.

(** ** Construction *)
Definition q_max (q : R * R * R * R) := fst (fst (fst q)).
Definition q_min (q : R * R * R * R) := snd (fst (fst q)).
Definition q_up (q : R * R * R * R) := snd (fst q).
Definition q_dn (q : R * R * R * R) := snd q.
Lemma tanh_bound z : -1 < tanh z < 1.
Proof.
  unfold tanh, sinh, cosh. pose proof (exp_pos z). pose proof (exp_pos (- z)).
  replace ((exp z - exp (- z)) / 2 / ((exp z + exp (- z)) / 2)) with ((exp z - exp (- z)) / (exp z + exp (- z))) by (field; lra).
  split; [apply (Rmult_lt_reg_r (exp z + exp (- z))) | apply (Rmult_lt_reg_r (exp z + exp (- z)))]; try lra; unfold Rdiv; rewrite Rmult_assoc, Rinv_l by lra; lra.
Qed.
Lemma bounds_order p mx mn up dn : q_min (pop_bounds p mx mn up dn) <= q_max (pop_bounds p mx mn up dn).
Proof.
  unfold pop_bounds, q_min, q_max. destruct (pp_consistent p); cbn.
  - pose proof (Rabs_pos (if Rltb mx mn then mx else mn)). pose proof (Rabs_pos (if Rltb mx mn then mn else mx)). lra.
  - destruct (Rltb mx mn) eqn:E; cbn; [lra | apply Rltb_false in E; lra].
Qed.
Lemma bounds_zero p mx mn up dn : pp_consistent p = true ->
  q_min (pop_bounds p mx mn up dn) <= 0 <= q_max (pop_bounds p mx mn up dn) /\ 0 <= q_up (pop_bounds p mx mn up dn) /\ 0 <= q_dn (pop_bounds p mx mn up dn).
Proof.
  intros E. unfold pop_bounds, q_min, q_max, q_up, q_dn. rewrite E. cbn.
  pose proof (Rabs_pos (if Rltb mx mn then mx else mn)). pose proof (Rabs_pos (if Rltb mx mn then mn else mx)). pose proof (Rabs_pos up). pose proof (Rabs_pos dn). lra.
Qed.
Lemma adjust_lo p w al : 0 <= w ->
  let lo := if Rltb 0 (pp_adjust_dev p) then - ((tanh ((al - 1/2) / pp_adjust_dev p) + 1) / 2) * w
              else if Rltb al (1/2) then 0 else if Reqb al (1/2) then - w / 2 else - w in
  lo <= 0 <= lo + w.
Proof.
  intros W. cbv zeta. destruct (Rltb 0 _); [|destruct (Rltb al _); [|destruct (Reqb al _)]]; try lra.
  pose proof (tanh_bound ((al - 1 / 2) / pp_adjust_dev p)). nra.
Qed.
Lemma adjust_order p q : q_min q <= q_max q -> q_min (pop_adjust p q) <= q_max (pop_adjust p q).
Proof.
  unfold pop_adjust. destruct (pp_adjust p); auto. destruct q as [[[mx mn] up] dn]. unfold q_min, q_max. cbn. intros O.
  assert (E : Rltb mx mn = false) by (apply Rltb_false; lra). rewrite E.
  pose proof (adjust_lo p (mx - mn) (up / (up + dn)) ltac:(lra)) as A. cbv zeta in A. lra.
Qed.
Lemma adjust_zero p q : q_min q <= 0 <= q_max q ->
  q_min (pop_adjust p q) <= 0 <= q_max (pop_adjust p q) /\ q_up (pop_adjust p q) = q_up q /\ q_dn (pop_adjust p q) = q_dn q.
Proof.
  unfold pop_adjust. destruct (pp_adjust p); auto. destruct q as [[[mx mn] up] dn]. unfold q_min, q_max, q_up, q_dn. cbn. intros O.
  assert (E : Rltb mx mn = false) by (apply Rltb_false; lra). rewrite E.
  pose proof (adjust_lo p (mx - mn) (up / (up + dn)) ltac:(lra)) as A. cbv zeta in A. split; auto.
Qed.
Definition gain_of (p : ppar) (g : R) : R := if pp_lognormal p then exp (pp_dwmin_dtod p * g) else 1 + pp_dwmin_dtod p * g.
Definition draw_q (p : ppar) (g1 g2 g3 g4 : R) : R * R * R * R :=
  let up_bias := if Rltb 0 (pp_updown p) then 0 else pp_updown p in
  let dn_bias := if Rltb 0 (pp_updown p) then - pp_updown p else 0 in
  pop_adjust p (pop_bounds p (pp_wmax p * (1 + pp_wmax_dtod p * g1)) (pp_wmin p * (1 + pp_wmin_dtod p * g2))
     ((up_bias + gain_of p g3 + pp_updown_dtod p * g4) * pp_dwmin p) ((dn_bias + gain_of p g3 - pp_updown_dtod p * g4) * pp_dwmin p)).
Lemma populate_inv p last x : yields (populate p last) x ->
  exists mx mn up dn dec g5 g6, (pp_wmin p <= 0 <= pp_wmax p) /\
   ((pp_perfect_bias p = true /\ last = true /\ mx = 100 * pp_wmax p /\ mn = 100 * pp_wmin p /\ up = pp_dwmin p /\ dn = pp_dwmin p) \/
    (pp_perfect_bias p && last = false /\ exists g1 g2 g3 g4 u1, 0 <= u1 <= 1 /\
      let q := draw_q p g1 g2 g3 g4 in
      ((pp_corrupt p <= u1 /\ (mx, mn, up, dn) = q) \/
       (u1 < pp_corrupt p /\ up = 0 /\ dn = 0 /\ mx = mn /\ exists u2, 0 <= u2 <= 1 /\
          mx = Rmax (q_min q) (- Rabs (pp_corrupt_range p)) + (Rmin (q_max q) (Rabs (pp_corrupt_range p)) - Rmax (q_min q) (- Rabs (pp_corrupt_range p))) * u2)))%bool) /\
   (dec = 1 \/ exists t, dec = if Rltb 1 t then 1 - 1 / t else 0) /\
   x = {| x_max := mx; x_min := mn; x_up := up; x_dn := dn; x_decay := dec;
          x_diff := Rabs (pp_diff p * (1 + pp_diff_dtod p * g5)); x_rbias := pp_reset p + pp_reset_dtod p * g6 |}.
Proof.
  unfold populate. destruct (Rltb 0 (pp_wmin p) || Rltb (pp_wmax p) 0)%bool eqn:Ew; [intros Y; ysimp|].
  apply orb_false_elim in Ew as [E1 E2]. apply Rltb_false in E1, E2.
  unfold gauss, unif. cbv zeta. intros Y.
  apply yields_bind in Y as [g1 [_ Y]]. apply yields_bind in Y as [g2 [_ Y]]. apply yields_bind in Y as [g3 [_ Y]]. apply yields_bind in Y as [g4 [_ Y]].
  fold (gain_of p g3) in Y.
  match type of Y with context [pop_adjust p ?b] => change (pop_adjust p b) with (draw_q p g1 g2 g3 g4) in Y end.
  assert (O : q_min (draw_q p g1 g2 g3 g4) <= q_max (draw_q p g1 g2 g3 g4)) by (unfold draw_q; apply adjust_order, bounds_order).
  destruct (draw_q p g1 g2 g3 g4) as [[[mx mn] up] dn] eqn:Eq. unfold q_min, q_max in O. cbn [fst snd] in O.
  apply yields_bind in Y as [u1 [Y1 Y]]. ysimp. rename a into q2.
  destruct (pp_perfect_bias p && last)%bool eqn:Ep.
  - ysimp. apply andb_prop in Ep as [Ep El]. do 4 eexists. exists a1. do 2 eexists. split; [lra|]. split; [left; repeat split; auto|]. split; [|reflexivity].
    destruct (Rltb 0 (pp_lifetime p)); ysimp; eauto.
  - destruct q2 as [[[mx2 mn2] up2] dn2]. ysimp. exists mx2, mn2, up2, dn2, a1. do 2 eexists. split; [lra|]. split; [|split; [destruct (Rltb 0 (pp_lifetime p)); ysimp; eauto | reflexivity]].
    right. split; auto. exists g1, g2, g3, g4, u. split; auto. cbv zeta. rewrite Eq. unfold q_min, q_max. cbn [fst snd].
    destruct (Rltb u (pp_corrupt p)) eqn:Eu.
    + apply Rltb_true in Eu. right. ysimp. match goal with H : (_,_,_,_) = _ |- _ => rename H into Q end. rewrite (Rmin_right mx mn), (Rmax_left mx mn) in Q by lra. injection Q as Q1 Q2 Q3 Q4. subst. repeat split; auto. exists u0. split; auto.
    + apply Rltb_false in Eu. left. ysimp. auto.
Qed.

(** ** Step laws *)
Lemma raw_det mt r x b w g : m_std mt = 0 -> raw_step mt r x b w g = raw_step mt r x b w 0.
Proof.
  intros S. unfold raw_step. rewrite S. assert (E : Rltb 0 0 = false) by (apply Rltb_false; lra). rewrite E. cbn [andb].
  replace (1 + 0 * g) with (1 + 0 * 0) by lra. destruct r as [|[]| | | |[]| |]; auto.
  destruct b; f_equal; f_equal; f_equal; lra.
Qed.
Lemma pulse_det mt b c c' : accepted mt c -> m_std mt = 0 -> x_min (c_x c) <= x_max (c_x c) -> ~ is_hidden (c_rule c) ->
  skips (c_rule c) (c_x c) = false -> yields (pulse mt b c) c' ->
  stored mt c' = bnd (c_x c) (raw_step mt (c_rule c) (c_x c) b (stored mt c + reference (c_rule c)) 0) - reference (c_rule c)
  /\ c_x c' = c_x c /\ c_rule c' = c_rule c.
Proof.
  intros A S O NH NS Y. destruct (pulse_stored _ _ _ _ A Y) as (X1 & X2 & X3). rewrite NS in X3. split; auto.
  set (pr := (stored mt c', _)) in X3. assert (E : fst pr = stored mt c') by reflexivity. rewrite <- E. clearbody pr.
  assert (Ez : Rltb 0 (m_std mt) = false) by (apply Rltb_false; lra).
  unfold pulse_w in X3. destruct (c_rule c) eqn:Er; try (exfalso; apply NH; exact I); rewrite ?Ez in X3; ysimp; cbn [fst reference];
    rewrite ?(raw_det mt _ _ _ _ g S), ?Rplus_0_r, ?Rminus_0_r, ?bnd_bnd'; auto.
Qed.
Lemma pulses_S mt n b c : pulses mt (S n) b c = bindM (pulse mt b c) (pulses mt n b).
Proof. reflexivity. Qed.
Lemma accepted_move mt c c' : accepted mt c -> c_rule c' = c_rule c -> accepted mt c'.
Proof. unfold accepted. now intros ? ->. Qed.
(** [n] equal pulses, given what one does *)
Lemma pulses_ind mt b (F : R -> R) (Q : R -> Prop) x r n : m_std mt = 0 -> x_min x <= x_max x -> ~ is_hidden r -> skips r x = false ->
  (forall w, Q w -> bnd x (raw_step mt r x b (w + reference r) 0) - reference r = F w /\ Q (F w)) ->
  forall c c', c_x c = x -> c_rule c = r -> accepted mt c -> Q (stored mt c) -> yields (pulses mt n b c) c' ->
  stored mt c' = Nat.iter n F (stored mt c).
Proof.
  intros S O NH NS St. induction n as [|n IH]; intros c c' Ex Er A Q0 Y.
  - unfold pulses in Y. simpl in Y. ysimp. reflexivity.
  - rewrite pulses_S in Y. ysimp. subst x r. destruct (pulse_det _ _ _ _ A S O NH NS Y0) as (E & X1 & X2).
    destruct (St _ Q0) as (St1 & St2). rewrite St1 in E. rewrite (IH a c'); auto; [|eapply accepted_move; eauto | now rewrite E].
    rewrite E. clear. induction n as [|n IHn]; simpl; auto. simpl in IHn. now rewrite IHn.
Qed.
Lemma powf_pos b g : 0 <= powf b g.
Proof. unfold powf. destruct (Rltb 0 b); [left; apply exp_pos|]. destruct (Reqb g 0); lra. Qed.
Lemma exp_y_pos r x b w : 0 <= exp_y r x b w.
Proof. unfold exp_y. destruct r; try lra. destruct b; apply Rmax_r. Qed.
Lemma floorZ_le_self z : IZR (floorZ z) <= z < IZR (floorZ z) + 1.
Proof. pose proof (floorZ_spec z). lra. Qed.
Lemma piece_pos v x w : Forall (fun a => 0 <= a) v -> 0 <= piece_f v x w.
Proof.
  intros F. assert (N : forall k, 0 <= nth k v 0).
  { intros k. destruct (Nat.lt_ge_cases k (length v)) as [L | L]; [|rewrite nth_overflow by lia; lra]. rewrite Forall_forall in F. apply F, nth_In, L. }
  unfold piece_f. destruct (_ || _)%bool eqn:E.
  { destruct v; simpl; [lra | now inversion F]. }
  apply orb_false_elim in E as [E1 E2]. apply Nat.eqb_neq in E1.
  set (ws := Rmax _ 0). set (idx := Nat.min _ _). assert (W : 0 <= ws) by apply Rmax_r.
  assert (I : INR idx <= ws).
  { unfold idx. apply Rle_trans with (INR (Z.to_nat (floorZ ws))); [apply le_INR, Nat.le_min_l|].
    assert (0 <= floorZ ws)%Z. { pose proof (floorZ_le_self ws). apply le_IZR. destruct (Z.lt_ge_cases (floorZ ws) 0) as [L | L]; [|now apply IZR_le]. assert (IZR (floorZ ws) <= -1) by (apply IZR_le; lia). lra. }
    rewrite INR_IZR_INZ, Z2Nat.id by auto. apply floorZ_le_self. }
  set (t := Rmin (ws - INR idx) 1). assert (0 <= t <= 1) by (unfold t; mm). pose proof (N idx). pose proof (N (S idx)). nra.
Qed.
(** direction of one noise free step *)
Lemma raw_dir mt r x w : m_std mt = 0 -> sane_step x r -> ~ is_hidden r -> within x w ->
  w <= raw_step mt r x false w 0 /\ raw_step mt r x true w 0 <= w.
Proof.
  intros S (U & D & Sr) NH W. unfold raw_step. rewrite S. assert (Ez : Rltb 0 0 = false) by (apply Rltb_false; lra). rewrite Ez. cbn [andb].
  replace (1 + 0 * 0) with 1 by lra. destruct r as [|[]| | | |m ref|up dn|]; try (exfalso; apply NH; exact I).
  - lra.
  - destruct (Sr _ W). lra.
  - destruct (Sr _ W). lra.
  - pose proof (exp_y_pos (RExp a b A_dn A_up g_dn g_up std_add std_slope) x true w). pose proof (exp_y_pos (RExp a b A_dn A_up g_dn g_up std_add std_slope) x false w). nra.
  - pose proof (powf_pos ((x_max x - w) / (x_max x - x_min x)) g_up). pose proof (powf_pos ((w - x_min x) / (x_max x - x_min x)) g_dn). nra.
  - pose proof (powf_pos ((x_max x - w) / (x_max x - x_min x)) g_up). pose proof (powf_pos ((w - x_min x) / (x_max x - x_min x)) g_dn). nra.
  - assert (A1 : 0 <= 1 - (if Rltb 0 (x_max x) then w / x_max x else 0)).
    { destruct (Rltb 0 (x_max x)) eqn:E; [|lra]. apply Rltb_true in E. assert (w / x_max x <= 1); [|lra]. apply (Rmult_le_reg_r (x_max x)); auto. unfold Rdiv. rewrite Rmult_assoc, Rinv_l; unfold within in W; lra. }
    assert (A2 : 0 <= 1 - (if Rltb (x_min x) 0 then w / x_min x else 0)).
    { destruct (Rltb (x_min x) 0) eqn:E; [|lra]. apply Rltb_true in E. assert (w / x_min x <= 1); [|lra].
      replace (w / x_min x) with ((- w) / (- x_min x)) by (field; lra). apply (Rmult_le_reg_r (- x_min x)); [lra|]. unfold Rdiv. rewrite Rmult_assoc, Rinv_l; unfold within in W; lra. }
    destruct m; nra.
  - destruct Sr as [F1 F2]. pose proof (piece_pos up x w F1). pose proof (piece_pos dn x w F2). nra.
Qed.

(** ** Drift *)
Lemma sat_bnd x v : x_min x <= x_max x -> Rmin (Rmax (x_min x) v) (x_max x) = bnd x v.
Proof. intros. unfold bnd. mm. Qed.
Lemma drift_a_offset p : plain_drift p -> drift_a p = offset p.
Proof.
  intros (_ & _ & _ & _ & [E | E]); unfold drift_a; fold (offset p).
  - rewrite E. destruct (Rltb _ _); auto.
  - rewrite (proj2 (Rltb_false _ _)); auto.
Qed.
Lemma drift_one_law p now w prev w0 t nu r : plain_drift p -> yields (drift_one p now w prev w0 t nu) r ->
  r = if Rltb (dp_tol p) (Rabs (prev - w)) then (w, w, now) else (drift_law p (if dp_simple p then dp_nu p else nu) w0 (now - t), w0, t).
Proof.
  intros Pd Y. pose proof (drift_a_offset p Pd) as Eo. destruct Pd as (P1 & P2 & P3 & P4 & _). unfold drift_one in Y. apply yields_bind in Y as (wwt & Y0 & Y). apply yields_bind in Y as (n & Y1 & Y). rewrite (proj2 (Rltb_false 0 (dp_read p))) in Y1 by lra. apply yields_ret in Y1, Y. subst n r.
  rewrite Rplus_0_r. destruct (Rltb (dp_tol p) (Rabs (prev - w))); [ysimp; auto|].
  apply yields_bind in Y0 as (nu' & Y0 & Y). rewrite (proj2 (Rleb_true (dp_nu_std p) 0)) in Y0 by lra. cbv zeta in Y0. apply yields_ret in Y0. cbv zeta in Y. apply yields_ret in Y. subst. rewrite (proj2 (Reqb_true (dp_k p) 0)) by lra. cbn [fst snd].
  unfold drift_law. cbv zeta. rewrite Eo. destruct (Reqb (offset p) 0) eqn:Ea; auto. apply Reqb_true in Ea. rewrite Ea. f_equal. f_equal. ring.
Qed.
Lemma drift_cell_gen mt p fresh now c c' : plain_drift p -> x_min (c_x c) <= x_max (c_x c) -> yields (drift_cell mt p fresh now c) c' ->
  let moved := (negb fresh && Rltb (dp_tol p) (Rabs (c_prev c - stored mt c)))%bool in
  let w0 := if (fresh || moved)%bool then stored mt c else c_w0 c in
  let t := if fresh then 0 else if moved then now else c_t c in
  stored mt c' = bnd (c_x c) (if moved then stored mt c else drift_law p (nu_of p c) w0 (now - t)) /\
  c_prev c' = stored mt c' /\ c_w0 c' = w0 /\ c_t c' = t /\ c_x c' = c_x c /\ c_nu c' = c_nu c.
Proof.
  intros P O Y. pose proof P as (_ & _ & _ & P4 & _). unfold drift_cell in Y. cbv zeta. apply yields_bind in Y as (a & Y0 & Y). cbv zeta in Y.
  apply drift_one_law in Y0; auto. rewrite <- stored_cur in Y0. pose proof (renoise_stored _ _ _ Y) as S. rewrite set_cur_stored in S.
  apply renoise_keeps in Y as (_ & _ & X1 & _ & _ & X4 & X5 & X6 & X7). rewrite S.
  assert (Kc : forall c0 w, c_prev (set_cur mt c0 w) = c_prev c0 /\ c_w0 (set_cur mt c0 w) = c_w0 c0 /\ c_t (set_cur mt c0 w) = c_t c0 /\ c_nu (set_cur mt c0 w) = c_nu c0 /\ c_x (set_cur mt c0 w) = c_x c0)
   by (intros; unfold set_cur; destruct (persist mt); auto).
  match type of X4 with c_prev c' = c_prev (set_cur mt ?c0 ?w) => destruct (Kc c0 w) as (K1 & K2 & K3 & K4 & K5) end.
  rewrite K1 in X4; rewrite K2 in X5; rewrite K3 in X6; rewrite K4 in X7; rewrite K5 in X1. cbn [c_prev c_w0 c_t c_nu c_x set_drift] in *.
  destruct fresh; cbn [negb andb orb] in *.
  - match type of Y0 with context [Rltb (dp_tol p) ?e] => assert (Z : Rltb (dp_tol p) e = false) end.
    { change (Rltb (dp_tol p) (Rabs (stored mt c - stored mt c)) = false). apply Rltb_false. rewrite Rminus_diag_eq, Rabs_R0 by auto. lra. }
    rewrite Z in Y0. subst a. cbn [fst snd c_prev c_w0 c_t c_nu c_x set_drift] in *. rewrite sat_bnd in * by auto. rewrite X4, X5, X6, X7, X1. repeat split; reflexivity.
  - clear K1 K2 K3 K4 K5 Kc. change (cur mt c) with (stored mt c) in *. subst a. destruct (Rltb (dp_tol p) (Rabs (c_prev c - stored mt c))); cbn [fst snd] in *; rewrite sat_bnd in * by auto; rewrite X4, X5, X6, X7, X1; repeat split; reflexivity.
Qed.
(** a device that has drifted and was not written since *)
Definition drifted (mt : meta) (p : drift_par) (c : cell) (now : R) (c' : cell) : Prop :=
  stored mt c' = bnd (c_x c) (drift_law p (nu_of p c) (stored mt c) now) /\ c_prev c' = stored mt c' /\ c_w0 c' = stored mt c /\ c_t c' = 0 /\ c_x c' = c_x c /\ c_nu c' = c_nu c.
Lemma drift_first mt p dt d d' i j c : yields (do_op mt d (ODrift p dt)) d' -> d_fresh d = true -> plain_drift p -> cell_at (d_cells d) i j = Some c ->
  x_min (c_x c) <= x_max (c_x c) -> d_now d' = dt / dp_t0 p /\ d_fresh d' = false /\ exists c', cell_at (d_cells d') i j = Some c' /\ drifted mt p c (dt / dp_t0 p) c'.
Proof.
  intros Y Fr P E O. cbn [do_op] in Y. rewrite Fr in Y. ysimp. cbn [d_cells d_now d_fresh]. split; [lra|]. split; auto.
  destruct (each_fwd _ _ _ _ _ _ Y0 E) as (row' & c1 & Er' & E1 & Y1). exists c1. split; auto.
  apply drift_cell_gen in Y1 as (S1 & S2 & S3 & S4 & S5 & S6); auto. cbn [negb andb orb] in *. unfold drifted. repeat split; auto. rewrite S1. do 2 f_equal. lra.
Qed.
Lemma drift_next mt p dt d d' i j c c1 : yields (do_op mt d (ODrift p dt)) d' -> d_fresh d = false -> plain_drift p -> cell_at (d_cells d) i j = Some c1 ->
  x_min (c_x c) <= x_max (c_x c) -> drifted mt p c (d_now d) c1 ->
  d_now d' = d_now d + dt / dp_t0 p /\ d_fresh d' = false /\ exists c', cell_at (d_cells d') i j = Some c' /\ drifted mt p c (d_now d') c'.
Proof.
  intros Y Fr P E O (D1 & D2 & D3 & D4 & D5 & D6). pose proof P as (_ & _ & _ & P4). cbn [do_op] in Y. rewrite Fr in Y. ysimp. cbn [d_cells d_now d_fresh]. split; auto. split; auto.
  destruct (each_fwd _ _ _ _ _ _ Y0 E) as (row' & c2 & Er' & E1 & Y1). exists c2. split; auto.
  apply drift_cell_gen in Y1 as (S1 & S2 & S3 & S4 & S5 & S6); auto; [|now rewrite D5].
  assert (Z : Rltb (dp_tol p) (Rabs (c_prev c1 - stored mt c1)) = false) by (apply Rltb_false; rewrite Rminus_diag_eq, Rabs_R0 by auto; lra).
  rewrite Z in *. cbn [negb andb orb] in *. unfold drifted. rewrite D5, D3, D4 in *. repeat split; auto; [|congruence]. rewrite S1.
  assert (En : nu_of p c1 = nu_of p c) by (unfold nu_of; now rewrite D6). rewrite En. do 2 f_equal. lra.
Qed.
Lemma drift_chain mt p : forall dts d d' i j c c1, plain_drift p -> history mt d (map (ODrift p) dts) d' -> d_fresh d = false -> cell_at (d_cells d) i j = Some c1 ->
  x_min (c_x c) <= x_max (c_x c) -> drifted mt p c (d_now d) c1 ->
  d_now d' = d_now d + sumR dts / dp_t0 p /\ exists c', cell_at (d_cells d') i j = Some c' /\ drifted mt p c (d_now d') c'.
Proof.
  induction dts as [|t dts IH]; intros d d' i j c c1 P H Fr E O D; unfold history in H; cbn [map foldMM] in H.
  - ysimp. split; [simpl; unfold Rdiv; ring|]. eauto.
  - apply yields_bind in H as (d1 & Y & H). destruct (drift_next _ _ _ _ _ _ _ _ _ Y Fr P E O D) as (N & F1 & c2 & E2 & D2).
    destruct (IH d1 d' i j c c2 P H F1 E2 O D2) as (N2 & R). split; auto. rewrite N2, N. cbn [sumR]. unfold Rdiv. ring.
Qed.
