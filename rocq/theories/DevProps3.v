(** * Pulsed devices: the theorems (write noise, mirrored devices, saving and restoring) *)
From Verif Require Import Prelude Rand DevModel DevSpec DevProofs.

(** Two programs that do the same draws and end in related results, whatever the write noise *)
Inductive simM {A B} (Q : A -> B -> Prop) : M A -> M B -> Prop :=
| sim_ret a b : Q a b -> simM Q (Ret a) (Ret b)
| sim_unif k k' : (forall u, simM Q (k u) (k' u)) -> simM Q (Unif k) (Unif k')
| sim_gauss k k' : (forall u, simM Q (k u) (k' u)) -> simM Q (Gauss k) (Gauss k')
| sim_noise k k' : (forall n n', simM Q (k n) (k' n')) -> simM Q (WNoise k) (WNoise k')
| sim_throw e : simM Q (Throw e) (Throw e).
Lemma sim_bind {A B A' B'} (Q : A -> B -> Prop) (Q' : A' -> B' -> Prop) m m' f f' :
  simM Q m m' -> (forall a b, Q a b -> simM Q' (f a) (f' b)) -> simM Q' (bindM m f) (bindM m' f').
Proof. induction 1; simpl; intros F; auto; constructor; auto. Qed.
Lemma sim_mapMM {A A' B B'} (P : A -> A' -> Prop) (Q : B -> B' -> Prop) f f' l l' :
  Forall2 P l l' -> (forall a b, P a b -> simM Q (f a) (f' b)) -> simM (Forall2 Q) (mapMM f l) (mapMM f' l').
Proof.
  induction 1; simpl; intros F; [constructor; constructor|].
  eapply sim_bind; [apply F; eauto|]. intros a b Hab. eapply sim_bind; [apply IHForall2; auto|]. intros. constructor. constructor; auto.
Qed.
Lemma sim_fold {A B B'} (Q : B -> B' -> Prop) (f : B -> A -> M B) (f' : B' -> A -> M B') l :
  (forall a b b', In a l -> Q b b' -> simM Q (f b a) (f' b' a)) -> forall b b', Q b b' -> simM Q (foldMM f l b) (foldMM f' l b').
Proof.
  induction l as [|a l IH]; simpl; intros F b b' H; [now constructor|]. eapply sim_bind; [apply F; eauto|]. intros. apply IH; auto.
Qed.
Lemma sim_run {A B} (Q : A -> B -> Prop) m m' : simM Q m m' -> forall s s', (forall n, s_u s n = s_u s' n) -> (forall n, s_g s n = s_g s' n) ->
  forall i j k, match run s i j k m, run s' i j k m' with
  | Ok (a, c), Ok (b, c') => Q a b /\ c = c' | Raise e, Raise e' => e = e' | _, _ => False end.
Proof.
  induction 1 as [a b Hq|k k' _ IH|k k' _ IH|k k' _ IH|e]; intros s s' Eu Eg i j l; simpl; auto.
  - rewrite Eu. apply IH; auto.
  - rewrite Eg. apply IH; auto.
  - apply IH; auto.
Qed.
Definition sn (c c' : cell) : Prop := same_stored c c' /\ impl_wn (c_rule c) = true.
Ltac cells := repeat match goal with c : cell |- _ => destruct c end; unfold sn, same_stored in *; cbn [c_x c_rule c_p c_h c_prev c_w0 c_t c_nu c_w set_wp set_h set_drift] in *.
Lemma sn_wp c c' w w' p : sn c c' -> sn (set_wp c w p) (set_wp c' w' p).
Proof. cells. intuition congruence. Qed.
Lemma sim_renoise mt c c' : persist mt = true -> sn c c' -> simM sn (renoise mt c) (renoise mt c').
Proof.
  intros P H. unfold renoise. rewrite P. assert (E : c_rule c' = c_rule c /\ impl_wn (c_rule c) = true /\ c_p c' = c_p c) by (cells; intuition congruence).
  destruct E as (E1 & E2 & E3). rewrite E1, E2, E3. cbn [andb]. destruct (Rltb 0 (scaled_wn mt)).
  - apply sim_noise. intros. constructor. now apply sn_wp.
  - constructor. now apply sn_wp.
Qed.
Lemma sn_fields c c' : sn c c' -> c_x c' = c_x c /\ c_rule c' = c_rule c /\ c_p c' = c_p c /\ c_h c' = c_h c /\ c_prev c' = c_prev c /\ c_w0 c' = c_w0 c /\ c_t c' = c_t c /\ c_nu c' = c_nu c /\ impl_wn (c_rule c) = true.
Proof. cells. intuition congruence. Qed.
Ltac snf H := let F := fresh "F" in pose proof (sn_fields _ _ H) as F; destruct F as (?F1 & ?F2 & ?F3 & ?F4 & ?F5 & ?F6 & ?F7 & ?F8 & ?F9).
Lemma sim_set mt c c' w : persist mt = true -> sn c c' -> simM sn (renoise mt (set_cur mt c w)) (renoise mt (set_cur mt c' w)).
Proof. intros P H. apply sim_renoise; auto. unfold set_cur. rewrite P. now apply sn_wp. Qed.
Lemma sn_pulse mt b c c' : persist mt = true -> sn c c' -> simM sn (pulse mt b c) (pulse mt b c').
Proof.
  intros P H. snf H. unfold pulse. rewrite P, F1, F2, F3, F4, F9. destruct (skips _ _); [now constructor|].
  apply sim_bind with (Q := eq).
  - unfold pulse_w. destruct (c_rule c); try discriminate; constructor; intros; constructor; auto.
  - intros a ? <-. destruct (Rltb 0 (scaled_wn mt)); [apply sim_noise; intros|]; constructor; now apply sn_wp.
Qed.
Lemma zipi_F2 {A B} (P : A -> B -> Prop) l l' : Forall2 P l l' -> Forall2 (fun a b => fst a = fst b /\ P (snd a) (snd b)) (zipi l) (zipi l').
Proof.
  unfold zipi. generalize 0%nat. intros k H. revert k. induction H; intros k; simpl; constructor; auto.
Qed.
Lemma F2_len {A B} (P : A -> B -> Prop) l l' : Forall2 P l l' -> length l = length l'.
Proof. induction 1; simpl; auto. Qed.
Lemma sim_each f f' cs cs' : (forall j n c c', sn c c' -> simM sn (f j n c) (f' j n c')) -> Forall2 (Forall2 sn) cs cs' ->
  simM (Forall2 (Forall2 sn)) (each f cs) (each f' cs').
Proof.
  intros F H. unfold each. eapply sim_mapMM; [exact H|]. cbn beta. intros r r' Hr. eapply sim_mapMM; [apply zipi_F2, Hr|].
  intros [j c] [j' c'] [E Hc]. cbn [fst snd] in *. subst. rewrite (F2_len _ _ _ Hr). now apply F.
Qed.
Lemma sim_upd {A B} (Q : A -> B -> Prop) f f' : (forall a b, Q a b -> simM Q (f a) (f' b)) -> forall n l l', Forall2 Q l l' -> simM (Forall2 Q) (upd_nth n f l) (upd_nth n f' l').
Proof.
  intros F. induction n as [|n IH]; intros l l' H; inversion H; subst; simpl; try (constructor; constructor).
  - eapply sim_bind; [apply F; eauto|]. intros. constructor. constructor; auto.
  - eapply sim_bind; [apply IH; eauto|]. intros. constructor. constructor; auto.
Qed.
Definition snd_dev (d d' : dev) : Prop := Forall2 (Forall2 sn) (d_cells d) (d_cells d') /\ d_now d = d_now d' /\ d_fresh d = d_fresh d'.
Definition not_float (o : op) : Prop := match o with OFloat _ => False | _ => True end.
Lemma sim_op mt d d' o : persist mt = true -> not_float o -> snd_dev d d' -> simM snd_dev (do_op mt d o) (do_op mt d' o).
Proof.
  intros P NF (H & Hn & Hf). destruct o; cbn [do_op]; try contradiction.
  all: try (eapply sim_bind; [eapply sim_each; [|exact H] | intros cs cs' Hcs; constructor; repeat split; auto; fail]).
  - eapply sim_bind; [eapply sim_fold; [|exact H] | intros; constructor; repeat split; auto].
    intros [[i j] b] cs cs' _ Hc. unfold pulse_at. cbn [fst snd]. apply sim_upd; auto. intros. apply sim_upd; auto. intros. now apply sn_pulse.
  - intros j n c c' Hc. snf Hc. unfold decay_cell, cur. rewrite P, F1, F3. now apply sim_set.
  - intros j n c c' Hc. snf Hc. unfold diffuse_cell, cur. rewrite P. apply sim_gauss. intros g. rewrite F1, F3. now apply sim_set.
  - intros j n c c' Hc. snf Hc. unfold clip_cell, cur. rewrite P, F1, F3. now apply sim_set.
  - intros j xs c c' Hc. snf Hc. unfold reset_cell.
    apply sim_bind with (Q := sn); [|intros; now apply sim_renoise].
    destruct (in_cols _ _ _ _); [|now constructor]. apply sim_bind with (Q := eq).
    + destruct (Reqb prob 1); [now constructor | constructor; intros; now constructor].
    + intros a ? <-. destruct a; [|now constructor]. apply sim_bind with (Q := eq).
      * destruct (Rltb 0 (m_rstd mt)); [constructor; intros; now constructor | now constructor].
      * intros a ? <-. constructor. unfold set_cur. rewrite P, F1. now apply sn_wp.
  - eapply sim_bind; [|intros cs cs' Hcs; constructor; repeat split; eauto].
    apply sim_mapMM with (P := fun a b => Forall2 sn (fst a) (fst b) /\ snd a = snd b).
    { clear - H. revert w. induction H; intros [|r w]; simpl; constructor; auto. }
    intros [r ws] [r' ws'] [Hr E]. cbn [fst snd] in *. subst ws'. apply sim_mapMM with (P := fun a b => sn (fst a) (fst b) /\ snd a = snd b).
    { clear - Hr. revert ws. induction Hr; intros [|q ws]; simpl; constructor; auto. }
    intros [c v] [c' v'] [Hc E]. cbn [fst snd] in *. subst v'. snf Hc. unfold set_cell. rewrite P, F1. destruct (m_wn_on_set mt); [apply sim_renoise; auto | constructor]; now apply sn_wp.
  - rewrite Hf, Hn. eapply sim_bind; [eapply sim_each; [|exact H] | intros cs cs' Hcs; constructor; repeat split; auto].
    intros j n c c' Hc. snf Hc. unfold drift_cell.
    set (c1 := if d_fresh d' then set_drift c _ _ _ else c). set (c1' := if d_fresh d' then set_drift c' _ _ _ else c').
    assert (Hc1 : sn c1 c1') by (unfold c1, c1'; destruct (d_fresh d'); auto; unfold cur; rewrite P, F3; clear - Hc; cells; intuition congruence).
    clearbody c1 c1'. clear F1 F2 F3 F4 F5 F6 F7 F8 F9. snf Hc1. unfold cur. rewrite P, F1, F3, F5, F6, F7, F8.
    apply sim_bind with (Q := eq).
    + unfold drift_one. apply sim_bind with (Q := eq).
      * destruct (Rltb (dp_tol p) _); [now constructor|]. apply sim_bind with (Q := eq).
        -- cbv zeta. destruct (Rleb (dp_nu_std p) 0); [now constructor | constructor; intros; now constructor].
        -- intros a ? <-. now constructor.
      * intros a ? <-. apply sim_bind with (Q := eq); [destruct (Rltb 0 (dp_read p)); [constructor; intros; now constructor | now constructor]|].
        intros n0 ? <-. now constructor.
    + intros r ? <-. cbv zeta. apply sim_set; auto. clear - Hc1. cells. intuition congruence.
Qed.
(** C56: write noise affects what is read, never what is stored: run twice with the same random
    numbers except for the write noise, even from different visible weights, the same history
    of operations stores the same weights ... *)
Theorem C56_write_noise_not_stored : forall mt os d d' s s', 0 < m_wn mt -> every (accepted mt) d -> same_device d d' ->
  (forall o, In o os -> match o with OFloat _ => False | _ => True end) ->
  (forall n, s_u s n = s_u s' n) -> (forall n, s_g s n = s_g s' n) ->
  match run s 0 0 0 (foldMM (do_op mt) os d), run s' 0 0 0 (foldMM (do_op mt) os d') with
  | Ok (e, _), Ok (e', _) => same_device e e' | Raise e, Raise e' => e = e' | _, _ => False end.
Proof.
  intros mt os d d' s s' Hw Ac (Sc & Sn & Sf) NF Eu Eg.
  assert (P : persist mt = true) by (unfold persist; now apply Rltb_true).
  assert (H0 : snd_dev d d').
  { repeat split; auto. assert (I : forall row, In row (d_cells d) -> forall c, In c row -> impl_wn (c_rule c) = true).
    { intros row Hr c Hc. apply In_nth_error in Hr as (i & Hr). apply In_nth_error in Hc as (j & Hc). apply (Ac i j c); auto. unfold cell_at. now rewrite Hr. }
    clear Ac. induction Sc as [|r r' l l' Hr Hl IH]; constructor; [|apply IH; intros; eapply I; [right; eauto | auto]].
    assert (Ir : forall c, In c r -> impl_wn (c_rule c) = true) by (intros; eapply I; [left; auto | auto]). clear - Hr Ir.
    induction Hr; constructor; [split; auto; apply Ir; now left | apply IHHr; intros; apply Ir; now right]. }
  pose proof (sim_fold snd_dev (do_op mt) (do_op mt) os) as F.
  specialize (F (fun o b b' Ho Hb => sim_op mt b b' o P (NF o Ho) Hb) d d' H0).
  pose proof (sim_run _ _ _ F s s' Eu Eg 0%nat 0%nat 0%nat) as R.
  destruct (run s 0 0 0 _) as [[e c]|], (run s' 0 0 0 _) as [[e' c']|]; auto. destruct R as [(H1 & H2 & H3) _].
  repeat split; auto. clear - H1. induction H1 as [|r r' l l' Hr Hl IH]; constructor; auto. induction Hr as [|? ? ? ? [Q _]]; constructor; auto.
Qed.
(** ... but a floating point update (pulse type NoneWithDevice) of a device with write noise is
    lost: it changes the visible weight, which is then overwritten from the stored one. *)
Theorem C56_float_update_refuted : forall mt d delta d' i j c', 0 < m_wn mt -> yields (do_op mt d (OFloat delta)) d' ->
  every (fun c => within (c_x c) (stored mt c)) d -> cell_at (d_cells d') i j = Some c' ->
  exists c, cell_at (d_cells d) i j = Some c /\ stored mt c' = stored mt c.
Proof.
  intros mt d delta d' i j c' Hw Y W E. cbn [do_op] in Y. ysimp. cbn [d_cells with_cells] in E.
  destruct (each_back _ _ _ _ _ _ Y0 E) as (row & c0 & _ & E0 & Y1).
  assert (exists c1 dw, cell_at (d_cells d) i j = Some c1 /\ c0 = set_wp c1 (c_w c1 + dw) (c_p c1)) as (c1 & dw & E1 & ->).
  { clear -E0. unfold cell_at in *. revert delta i E0. induction (d_cells d) as [|r rs IH]; intros [|q qs] [|i]; simpl; try discriminate; eauto.
    clear IH. intros E. revert q j E. induction r as [|c r IH]; intros [|x q] [|j]; simpl; try discriminate; eauto. intros [= <-]. eauto. }
  exists c1. split; auto. apply step_stored in Y1 as (-> & _). specialize (W _ _ _ E1). cbn [c_x set_wp].
  rewrite (proj2 (Rltb_true (-1) 0)) by lra. unfold stored in *. unfold cur, persist. rewrite (proj2 (Rltb_true 0 (m_wn mt)) Hw) in *. cbn [c_p set_wp]. now apply bnd_id.
Qed.
Definition noisy : meta := {| m_dwmin := 1/10; m_std := 3/10; m_wn := 1/2; m_wn_on_set := true; m_rstd := 0 |}.
Definition nbounds : xp := {| x_max := 1; x_min := -1; x_up := 1/10; x_dn := 1/10; x_decay := 9/10; x_diff := 0; x_rbias := 1/10 |}.
Definition ncell (r : rule) (w p : R) : cell := {| c_x := nbounds; c_rule := r; c_w := w; c_p := p; c_h := 0; c_prev := 0; c_w0 := 0; c_t := 0; c_nu := 0 |}.
Example C56_example : every (accepted noisy) {| d_cells := [[ncell (RLin true (1/10) (-1/10)) (1/2) (1/3)]]; d_now := 0; d_fresh := true |} /\
  every (fun c => within (c_x c) (stored noisy c)) {| d_cells := [[ncell (RLin true (1/10) (-1/10)) (1/2) (1/3)]]; d_now := 0; d_fresh := true |}.
Proof.
  split; intros [|[|i]] [|[|j]] c; unfold cell_at; cbn; try discriminate; try (destruct i; discriminate); intros [= <-].
  - unfold accepted. cbn. split; [lra | auto].
  - unfold within, stored. cbn. rcase; lra.
Qed.

(** C57: a device that has been given the inverted parameters of an identical device is its
    mirror image: what a pulse can do to one, the opposite pulse can do to the other, with all weights
    negated ... *)
Definition invertible (r : rule) : Prop := match r with RExp _ _ _ _ _ _ _ _ | RPiece _ _ => False | _ => True end.
Lemma raw_mirror mt r x b w g : invertible r ->
  raw_step mt (copy_invert_rule r r) (mirror_xp x) (negb b) (- w) g = - raw_step mt r x b w g.
Proof.
  intros I. destruct r as [|m sd su| |gd gu|gd gu rf|m rf| |]; try contradiction; cbn [copy_invert_rule raw_step]; cbn [mirror_xp x_max x_min x_up x_dn].
  - destruct b, (Rltb 0 (m_std mt)); cbn [negb]; ring.
  - destruct m, b; cbn [negb]; ring.
  - assert (E : - x_min x - - x_max x = x_max x - x_min x) by ring. rewrite E. destruct b; cbn [negb].
    + replace (- x_min x - - w) with (w - x_min x) by ring. ring.
    + replace (- w - - x_max x) with (x_max x - w) by ring. ring.
  - assert (E : - x_min x - - x_max x = x_max x - x_min x) by ring. rewrite E. destruct b; cbn [negb].
    + replace (- x_min x - - w) with (w - x_min x) by ring. ring.
    + replace (- w - - x_max x) with (x_max x - w) by ring. ring.
  - assert (E1 : Rltb 0 (- x_min x) = Rltb (x_min x) 0) by (destruct (Rltb (x_min x) 0) eqn:E; [apply Rltb_true in E; apply Rltb_true; lra | apply Rltb_false in E; apply Rltb_false; lra]).
    assert (E2 : Rltb (- x_max x) 0 = Rltb 0 (x_max x)) by (destruct (Rltb 0 (x_max x)) eqn:E; [apply Rltb_true in E; apply Rltb_true; lra | apply Rltb_false in E; apply Rltb_false; lra]).
    rewrite E1, E2.
    assert (D1 : x_min x <> 0 -> - w / - x_min x = w / x_min x) by (intros; field; auto).
    assert (D2 : x_max x <> 0 -> - w / - x_max x = w / x_max x) by (intros; field; auto).
    destruct b; cbn [negb].
    + destruct (Rltb (x_min x) 0) eqn:E; [rewrite D1 by (apply Rltb_true in E; lra)|]; destruct m; ring.
    + destruct (Rltb 0 (x_max x)) eqn:E; [rewrite D2 by (apply Rltb_true in E; lra)|]; destruct m; ring.
  - reflexivity.
Qed.
Lemma pulse_w_mirror mt r x b w h q : invertible r -> x_min x <= x_max x -> yields (pulse_w mt r x b w h) q ->
  yields (pulse_w mt (copy_invert_rule r r) (mirror_xp x) (negb b) (- w) (- h)) (- fst q, - snd q).
Proof.
  intros I O Y. assert (O' : x_min (mirror_xp x) <= x_max (mirror_xp x)) by (cbn; lra).
  pose proof (fun w g => raw_mirror mt r x b w g I) as RM.
  destruct r as [|m sd su| |gd gu|gd gu rf|m rf| |hd hu hs]; try contradiction; cbn [copy_invert_rule pulse_w] in *.
  - destruct (Rltb 0 (m_std mt)); ysimp; cbn [fst snd]; [apply (y_gauss _ g)|]; rewrite RM, bnd_neg by auto; constructor.
  - ysimp. apply (y_gauss _ g). rewrite RM, !bnd_bnd', bnd_neg by auto. constructor.
  - ysimp. apply (y_gauss _ g). rewrite RM, !bnd_bnd', bnd_neg by auto. constructor.
  - ysimp. apply (y_gauss _ g). replace (- w + - rf) with (- (w + rf)) by ring. rewrite RM, !bnd_bnd', bnd_neg by auto. cbn [fst snd]. replace (- (bnd x (raw_step mt (RPowRef gd gu rf) x b (w + rf) g) - rf)) with (- bnd x (raw_step mt (RPowRef gd gu rf) x b (w + rf) g) - - rf) by ring. constructor.
  - ysimp. apply (y_gauss _ g). replace (- w + - rf) with (- (w + rf)) by ring. rewrite RM, !bnd_bnd', bnd_neg by auto. cbn [fst snd]. replace (- (bnd x (raw_step mt (RSoftRef m rf) x b (w + rf) g) - rf)) with (- bnd x (raw_step mt (RSoftRef m rf) x b (w + rf) g) - - rf) by ring. constructor.
  - apply yields_bind in Y as (h1 & Y1 & Y2). apply yields_bind. exists (- h1). split.
    + cbv zeta in *. destruct (Reqb hs 0); ysimp.
      * apply yields_ret. destruct b; cbn [negb]; ring.
      * apply (y_gauss _ g). apply yields_ret. destruct b; cbn [negb]; ring.
    + assert (E1 : Rltb (- h1) (-1) = Rltb 1 h1) by (destruct (Rltb 1 h1) eqn:E; [apply Rltb_true in E; apply Rltb_true; lra | apply Rltb_false in E; apply Rltb_false; lra]).
      assert (E2 : Rltb 1 (- h1) = Rltb h1 (-1)) by (destruct (Rltb h1 (-1)) eqn:E; [apply Rltb_true in E; apply Rltb_true; lra | apply Rltb_false in E; apply Rltb_false; lra]).
      rewrite E1, E2. destruct (Rltb h1 (-1)) eqn:L1.
      * assert (L2 : Rltb 1 h1 = false) by (apply Rltb_true in L1; apply Rltb_false; lra). rewrite L2.
        apply yields_bind in Y2 as (dw & Yd & Y2). apply yields_ret in Y2. subst q. cbn [fst snd x_up mirror_xp x_max]. apply yields_bind. exists dw. split; auto.
        apply yields_ret. f_equal; [|ring]. mm.
      * destruct (Rltb 1 h1).
        -- apply yields_bind in Y2 as (dw & Yd & Y2). apply yields_ret in Y2. subst q. cbn [fst snd x_dn mirror_xp x_min]. apply yields_bind. exists dw. split; auto.
           apply yields_ret. f_equal; [|ring]. mm.
        -- apply yields_ret in Y2. subst q. apply yields_ret. reflexivity.
Qed.
Theorem C57_mirror : forall mt b c m c', x_min (c_x c) <= x_max (c_x c) -> invertible (c_rule c) ->
  c_x m = copy_invert_xp (c_x c) (c_x c) -> c_rule m = copy_invert_rule (c_rule c) (c_rule c) ->
  c_w m = - c_w c -> c_p m = - c_p c -> c_h m = - c_h c ->
  yields (pulse mt b c) c' -> exists m', yields (pulse mt (negb b) m) m' /\ mirror_of c' m'.
Proof.
  intros mt b c m c' O I Ex Er Ew Ep Eh Y. change (copy_invert_xp (c_x c) (c_x c)) with (mirror_xp (c_x c)) in Ex.
  unfold pulse in *. rewrite Ex, Er.
  assert (Sk : skips (copy_invert_rule (c_rule c) (c_rule c)) (mirror_xp (c_x c)) = skips (c_rule c) (c_x c)).
  { destruct (c_rule c); try contradiction; cbn; auto; replace (- x_min (c_x c) - - x_max (c_x c)) with (x_max (c_x c) - x_min (c_x c)) by ring; auto. }
  assert (Iw : impl_wn (copy_invert_rule (c_rule c) (c_rule c)) = impl_wn (c_rule c)) by (destruct (c_rule c); auto).
  rewrite Sk, Iw. destruct (skips _ _).
  { ysimp. exists m. split; [constructor|]. unfold mirror_of. auto. }
  destruct (impl_wn (c_rule c)).
  - apply yields_bind in Y as (q & Yq & Y). apply pulse_w_mirror in Yq; auto.
    assert (Ecur : (if persist mt then c_p m else c_w m) = - (if persist mt then c_p c else c_w c)) by (destruct (persist mt); auto).
    rewrite <- Ecur, <- Eh in Yq.
    destruct (Rltb 0 (scaled_wn mt)) eqn:Es.
    + apply yields_wnoise in Y as (n & Y). eexists. split.
      * apply yields_bind. eexists. split; [exact Yq|]. apply (y_wnoise _ (- n)). constructor.
      * cbn [fst snd]. apply yields_ret in Y. subst c'. unfold mirror_of. destruct (persist mt); cbn; rewrite ?Ep, ?Eh, ?Ex; repeat split; auto; ring.
    + apply yields_ret in Y. eexists. split; [apply yields_bind; eexists; split; [exact Yq | constructor]|]. subst c'. cbn [fst snd].
      unfold mirror_of. destruct (c_rule c), (persist mt); cbn; rewrite ?Ew, ?Ep, ?Eh, ?Ex; auto.
  - apply yields_bind in Y as (q & Yq & Y). apply pulse_w_mirror in Yq; auto. apply yields_ret in Y. subst c'.
    rewrite <- Ew, <- Eh in Yq. eexists. split; [apply yields_bind; eexists; split; [exact Yq | constructor]|].
    unfold mirror_of. cbn. rewrite ?Ep, ?Ex. auto.
Qed.
(** ... an exponential step device is not mirrored, its asymmetry between up and down stays ... *)
Definition plain_cell (x : xp) (r : rule) (w : R) : cell := {| c_x := x; c_rule := r; c_w := w; c_p := 0; c_h := 0; c_prev := 0; c_w0 := 0; c_t := 0; c_nu := 0 |}.
Definition calm : meta := {| m_dwmin := 1/10; m_std := 0; m_wn := 0; m_wn_on_set := false; m_rstd := 0 |}.
Definition bounds (mn mx up dn : R) : xp := {| x_max := mx; x_min := mn; x_up := up; x_dn := dn; x_decay := 1; x_diff := 0; x_rbias := 0 |}.
Theorem C57_exp_step_refuted : exists c m, c_x m = copy_invert_xp (c_x c) (c_x c) /\ c_rule m = copy_invert_rule (c_rule c) (c_rule c) /\ c_w c = 0 /\ c_w m = 0 /\
  (forall c', yields (pulse calm false c) c' -> c_w c' = 1/20) /\ (forall m', yields (pulse calm true m) m' -> c_w m' = -1/10).
Proof.
  set (x := bounds (-1) 1 (1/10) (1/10)). set (r := RExp 1 0 0 (1/2) 0 0 0 0).
  exists (plain_cell x r 0), (plain_cell (copy_invert_xp x x) r 0). repeat split.
  - intros c' Y. unfold pulse in Y. cbn [c_rule plain_cell skips impl_wn c_x x_max x_min x bounds r] in Y. rewrite (proj2 (Rltb_true 0 (1 - -1))) in Y by lra. cbn [negb] in Y.
    assert (P : persist calm = false) by (unfold persist; cbn; apply Rltb_false; lra). assert (Z : Rltb 0 (scaled_wn calm) = false) by (unfold scaled_wn; cbn; apply Rltb_false; lra). rewrite P, Z in Y. ysimp.
    unfold r, x in Y0. cbn [pulse_w] in Y0. ysimp. cbn [fst c_w set_wp].
    match goal with |- context [raw_step calm ?r0 ?x0 ?b0 ?w0 ?g0] => rewrite (raw_det calm r0 x0 b0 w0 g0 eq_refl) end.
    unfold raw_step. cbn [m_std calm]. rewrite (proj2 (Rltb_false 0 0)) by lra. cbn [andb].
    unfold exp_y. cbn. rewrite Rmult_0_l, exp_0. unfold bnd. cbn. rewrite Rmax_left with (x := 1 - 1 / 2 * 1) by lra. mm.
  - intros c' Y. unfold pulse in Y. cbn [c_rule plain_cell skips impl_wn c_x x_max x_min x bounds r copy_invert_xp] in Y. rewrite (proj2 (Rltb_true 0 (- -1 - -(1)))) in Y by lra. cbn [negb] in Y.
    assert (P : persist calm = false) by (unfold persist; cbn; apply Rltb_false; lra). assert (Z : Rltb 0 (scaled_wn calm) = false) by (unfold scaled_wn; cbn; apply Rltb_false; lra). rewrite P, Z in Y. ysimp.
    unfold r, x in Y0. cbn [pulse_w] in Y0. ysimp. cbn [fst c_w set_wp].
    match goal with |- context [raw_step calm ?r0 ?x0 ?b0 ?w0 ?g0] => rewrite (raw_det calm r0 x0 b0 w0 g0 eq_refl) end.
    unfold raw_step. cbn [m_std calm]. rewrite (proj2 (Rltb_false 0 0)) by lra. cbn [andb].
    unfold exp_y. cbn. rewrite !Rmult_0_l. unfold bnd. cbn. rewrite Rmax_left with (x := 1 - 0) by lra. mm.
Qed.
(** ... and if the devices differ, the second one is not a mirrored copy of the first: it mirrors
    its own bounds and step sizes. *)
Theorem C57_second_device_refuted : exists x1 x2 w, x_min x1 <= w <= x_max x1 /\ x_min x2 <= w <= x_max x2 /\ x_min x2 <= - w <= x_max x2 /\
  (forall c', yields (pulse calm false (plain_cell x1 RConst w)) c' -> c_w c' = 55/100) /\
  (forall m', yields (pulse calm true (plain_cell (copy_invert_xp x2 x1) (copy_invert_rule RConst RConst) (- w))) m' -> c_w m' = -5/10).
Proof.
  exists (bounds (-1) 1 (1/10) (1/10)), (bounds (-1/2) (1/2) (1/10) (1/10)), (45/100). cbn [bounds x_min x_max]. split; [lra|]. split; [lra|]. split; [lra|].
  assert (Z : Rltb 0 0 = false) by (apply Rltb_false; lra).
  split; intros c' Y; unfold pulse in Y; cbn [c_rule plain_cell skips impl_wn pulse_w calm m_std copy_invert_rule] in Y; rewrite Z in Y; ysimp; cbn [c_w set_h set_wp fst]; unfold raw_step, bnd; cbn; rewrite Z; mm.
Qed.
Example C57_example : x_min nbounds <= x_max nbounds /\ invertible (RLin true (1/10) (-1/10)).
Proof. cbn. split; [lra | exact I]. Qed.

(** C58: saving and restoring: a device without write noise that is restored from its saved state is the same
    device, whatever the new one was before ... *)
Theorem C58_restore : forall mt c new c', m_wn mt <= 0 -> within (c_x c) (stored mt c) ->
  yields (load mt new (save mt c)) c' -> same_stored (set_wp c' (c_w c') (c_p c)) c /\ c_w c' = c_w c.
Proof.
  intros mt c new c' Hw W Y. assert (P : persist mt = false) by (unfold persist; apply Rltb_false; lra).
  unfold stored in W. fold (persist mt) in W. rewrite P in W.
  unfold load, save, set_cell in Y. rewrite P in Y. cbn in Y. ysimp. unfold same_stored. cbn. repeat split; auto. now apply bnd_id.
Qed.
(** ... with write noise the stored weight is not restored, though it is saved: it becomes the
    visible, noisy weight (within the bounds). *)
Theorem C58_write_noise_refuted : forall mt c new c', 0 < m_wn mt -> yields (load mt new (save mt c)) c' -> stored mt c' = bnd (c_x c) (c_w c).
Proof.
  intros mt c new c' Hw Y. unfold load in Y. apply yields_bind in Y as (c2 & Y2 & Y). apply yields_bind in Y as (c3 & Y3 & Y). apply yields_ret in Y. subst c'.
  apply set_cell_stored in Y2 as (_ & X2 & _). apply set_cell_stored in Y3 as (S & _ & _). rewrite X2 in S. exact S.
Qed.
Example C58_example : within nbounds (stored calm (ncell RConst (1/2) 0)) /\ (exists c', yields (load calm (ncell RConst (1/7) 7) (save calm (ncell RConst (1/2) 0))) c')
  /\ stored noisy (ncell (RLin true (1/10) (-1/10)) (1/2) (1/3)) = 1/3 /\ bnd nbounds (1/2) = 1/2.
Proof.
  split; [unfold within, stored; cbn; rcase; lra|]. split.
  - eexists. unfold load, set_cell. assert (P : persist calm = false) by (unfold persist; cbn; apply Rltb_false; lra). rewrite P. constructor.
  - split; [unfold stored; cbn; rcase; lra | unfold bnd; cbn; mm].
Qed.

Print Assumptions C56_write_noise_not_stored.
Print Assumptions C56_float_update_refuted.
Print Assumptions C57_mirror.
Print Assumptions C57_exp_step_refuted.
Print Assumptions C57_second_device_refuted.
Print Assumptions C58_restore.
Print Assumptions C58_write_noise_refuted.
