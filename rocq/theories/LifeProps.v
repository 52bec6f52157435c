(** * Life cycle: the theorems *)
From Verif Require Import Prelude LifeModel LifeSpec.

(** C39: drift is not cumulative: it starts from the programmed weights, whatever was
    drifted or trained in between. *)
Lemma drift_same {E} : forall ops (s : life E), Forall not_program ops -> l_prog s <> None ->
  l_prog (fold_left lrun ops s) = l_prog s /\ l_par (fold_left lrun ops s) = l_par s
  /\ l_base (fold_left lrun ops s) = l_base s /\ l_nm (fold_left lrun ops s) = l_nm s.
Proof.
  induction ops as [|o ops IH]; intros s F Hp; [simpl; auto|]. inversion F as [|? ? Ho F']; subst. simpl.
  assert (K : l_prog (lrun s o) = l_prog s /\ l_par (lrun s o) = l_par s /\ l_base (lrun s o) = l_base s /\ l_nm (lrun s o) = l_nm s).
  { destruct o as [w|w|d dr fr nm|d0 dr0 d dr t]; simpl in *; [auto|auto|contradiction|].
    unfold op_drift. destruct (l_prog s) as [p|] eqn:Ep; [|congruence]. rewrite Ep.
    destruct (l_par s) as [par|] eqn:Epar; [|repeat split; congruence].
    destruct (e_comp E) as [k|]; [|repeat split; simpl; congruence].
    destruct (l_base s) as [b|] eqn:Eb; repeat split; simpl; congruence. }
  destruct K as (K1 & K2 & K3 & K4). destruct (IH (lrun s o) F') as (A & B & C & D); [congruence|].
  rewrite A, B, C, D. auto.
Qed.
Theorem C39_drift_not_cumulative : forall E (s : life E) ops d0 dr0 d dr t, l_prog s <> None -> Forall not_program ops ->
  match op_drift d0 dr0 d dr t (fold_left lrun ops s), op_drift d0 dr0 d dr t s with
  | Ok a, Ok b => l_w a = l_w b /\ (e_comp E <> None -> l_alpha a = l_alpha b) /\ l_prog a = l_prog b /\ l_par a = l_par b
  | Raise a, Raise b => a = b
  | _, _ => False
  end.
Proof.
  intros E s ops d0 dr0 d dr t Hp F. destruct (drift_same ops s F Hp) as (A & B & C & D). unfold op_drift.
  destruct (l_prog s) as [p|] eqn:Ep; [|congruence]. rewrite A. rewrite A, B, C, D, Ep.
  destruct (l_par s) as [par|]; [|reflexivity]. destruct (e_comp E) as [k|]; [|simpl; repeat split; congruence].
  destruct (l_base s); simpl; auto.
Qed.
(** ... and the result is the drift of the programmed weights, with the parameters drawn
    when programming. *)
Theorem C39_drift_of_programmed : forall E (s : life E) d dr fr nm ops d0 dr0 d1 dr1 t s',
  let s0 := op_program d dr fr nm s in
  Forall not_program ops -> op_drift d0 dr0 d1 dr1 t (fold_left lrun ops s0) = Ok s' ->
  exists p par, l_prog s0 = Some p /\ l_w s0 = p /\ l_par s0 = Some par /\ l_w s' = e_drift E (l_nm s0) d1 p par t.
Proof.
  intros E s d dr fr nm ops d0 dr0 d1 dr1 t s' s0 F H.
  assert (P : exists p par, l_prog s0 = Some p /\ l_w s0 = p /\ l_par s0 = Some par).
  { subst s0. unfold op_program. destruct (e_prog E _ d _) as [p par]. simpl. eauto. }
  destruct P as (p & par & E1 & E2 & E3). exists p, par. repeat (split; [auto|]).
  destruct (drift_same ops s0 F) as (A & B & C & D); [congruence|].
  unfold op_drift in H. rewrite A, E1 in H. rewrite A, E1, B, E3, C, D in H.
  destruct (e_comp E) as [k|]; [destruct (l_base s0)|]; try discriminate; injection H as <-; reflexivity.
Qed.

(** C40: reprogramming from the reference always starts from the weights at the time of
    the first programming. *)
Lemma ref_same {E} : forall ops (s : life E) r, Forall keeps_reference ops -> l_ref s = Some r -> l_ref (fold_left lrun ops s) = Some r.
Proof.
  induction ops as [|o ops IH]; intros s r F Hr; [auto|]. inversion F as [|? ? Ho F']; subst. simpl. apply IH; auto.
  assert (P : forall d dr nm (s : life E), l_ref s = Some r -> l_ref (op_program d dr true nm s) = Some r).
  { intros d dr nm s1 H1. unfold op_program. rewrite H1. destruct (e_prog E _ d r). reflexivity. }
  destruct o as [w|w|d dr fr nm|d0 dr0 d dr t]; simpl in *; try tauto; [subst; auto|].
  unfold op_drift. set (s1 := match l_prog s with Some _ => s | None => op_program d0 dr0 true None s end).
  assert (H1 : l_ref s1 = Some r) by (unfold s1; destruct (l_prog s); auto).
  destruct (l_prog s1), (l_par s1); auto. destruct (e_comp E) as [k|]; [destruct (l_base s1)|]; simpl; auto.
Qed.
Theorem C40_reprogram_from_reference : forall E (s : life E) d dr nm ops d' dr' n, l_ref s = None -> Forall keeps_reference ops ->
  l_w (op_program d' dr' true (Some n) (fold_left lrun ops (op_program d dr true nm s))) = fst (e_prog E n d' (l_w s)).
Proof.
  intros E s d dr nm ops d' dr' n Hr F.
  assert (R0 : l_ref (op_program d dr true nm s) = Some (l_w s)).
  { unfold op_program. rewrite Hr. destruct (e_prog E _ d (l_w s)). reflexivity. }
  pose proof (ref_same ops _ _ F R0) as R1. unfold op_program at 1. rewrite R1. destruct (e_prog E n d' (l_w s)). reflexivity.
Qed.
(** Weights set or trained before the first programming are the ones programmed ... *)
Theorem C40_program_current : forall E (s : life E) d dr fr n w, (fr = false \/ l_ref s = None) ->
  l_w (op_program d dr fr (Some n) (op_set w s)) = fst (e_prog E n d w)
  /\ l_w (op_program d dr fr (Some n) (op_train w s)) = fst (e_prog E n d w).
Proof.
  intros E s d dr fr n w H. unfold op_program. simpl.
  destruct H as [-> | Hr]; [|rewrite ?Hr; destruct fr; rewrite ?Hr]; destruct (e_prog E n d w); auto.
Qed.
(** ... but training after a programming is lost if the tile is programmed again
    (with the default [from_reference=True]). *)
Definition E1 : lenv :=
  {| e_P := unit; e_D := unit; e_prog := fun _ _ w => (w, tt); e_drift := fun _ _ w _ t => map (map (fun v => v / (1 + t))) w;
     e_read := fun _ w => w; e_comp := Some GlobalComp |}.
Theorem C40_training_lost_refuted :
  ~ (forall E nm w0 (ops : list (lop E)) w d dr n,
       l_w (op_program d dr true (Some n) (op_train w (history nm w0 ops))) = fst (e_prog E n d w)).
Proof.
  intros H. specialize (H E1 0%nat [[1]] [LProgram (E := E1) tt tt true None] [[2]] tt tt 0%nat).
  cbv [op_program op_train history fold_left lrun life_new E1 l_w l_nm l_ref l_prog l_par l_base l_alpha e_prog e_P e_D e_comp fst snd] in H. injection H as H. lra.
Qed.

(** C41: after [set_weights], the first [drift_weights] programs and drifts the new weights
    if the tile has not been programmed before ... *)
Theorem C41_drift_programs_first : forall E (s : life E) w d0 dr0 d dr t s', l_prog s = None ->
  op_drift d0 dr0 d dr t (op_set w s) = Ok s' ->
  l_w s' = let '(p, par) := e_prog E (l_nm s) d0 w in e_drift E (l_nm s) d p par t.
Proof.
  intros E s w d0 dr0 d dr t s' Hp H. unfold op_drift in H. simpl in H. rewrite Hp in H. unfold op_program in H. simpl in H.
  destruct (e_prog E (l_nm s) d0 w) as [p par]. simpl in H.
  destruct (e_comp E) as [[| |]|]; injection H as <-; reflexivity.
Qed.
(** ... otherwise it drifts the old programmed weights and the new ones are lost. *)
Theorem C41_stale_programmed_refuted :
  ~ (forall E nm w0 (ops : list (lop E)) w d0 dr0 d dr t s', op_drift d0 dr0 d dr t (op_set w (history nm w0 ops)) = Ok s' ->
       exists n d1, l_w s' = let '(p, par) := e_prog E n d1 w in e_drift E n d p par t).
Proof.
  intros H. set (o := [LProgram (E := E1) tt tt true None]).
  destruct (H E1 0%nat [[1]] o [[2]] tt tt tt tt 0 _ eq_refl) as (n & d1 & X). cbv [op_drift op_program op_set history o fold_left lrun life_new E1 l_w l_nm l_ref l_prog l_par l_base l_alpha e_prog e_drift e_P e_D e_comp e_read fst snd map] in X. injection X as X. lra.
Qed.

(** C42: in evaluation mode a tile computes [W x] as long as it was never drifted ... *)
Theorem C42_no_drift_exact : forall E nm w0 (ops : list (lop E)) x, Forall not_drift ops ->
  eval_forward (history nm w0 ops) x = matvec (l_w (history nm w0 ops)) x.
Proof.
  intros E nm w0 ops x F. unfold history.
  assert (A : l_alpha (fold_left lrun ops (life_new E nm w0)) = [1]).
  { assert (G : forall ops (s : life E), Forall not_drift ops -> l_alpha (fold_left lrun ops s) = l_alpha s).
    { clear. induction ops as [|o ops IH]; intros s F; [auto|]. inversion F as [|? ? Ho F']; subst. simpl. rewrite IH by auto.
      destruct o as [w|w|d dr fr nm|d0 dr0 d dr t]; simpl in *; try tauto. unfold op_program. destruct (e_prog E _ d _). reflexivity. }
    now rewrite G. }
  unfold eval_forward. rewrite A. destruct (e_comp E); auto. simpl. rewrite <- (map_id (matvec _ x)) at 2. apply map_ext. intros; ring.
Qed.
(** ... and in training mode always.  After a drift, the compensation factor survives
    new weights and a new programming. *)
Lemma e1_alpha : forall s : life E1, l_prog s = Some [[1]] -> l_par s = Some tt -> l_base s = Some [1] ->
  exists s', op_drift (E := E1) tt tt tt tt 1 s = Ok s' /\ l_alpha s' = [2].
Proof.
  intros s A B C. unfold op_drift. rewrite A. rewrite A, B. cbv iota. change (e_comp E1) with (Some GlobalComp). rewrite C. eexists. split; [reflexivity|].
  cbn [l_alpha readout]. unfold meanabs, min_read. cbn -[Rmax].
  match goal with |- context [Rmax ?a ?b] => replace (Rmax a b) with (1/2) end.
  { unfold ratio_vec. cbn. apply (f_equal (fun v : R => [v])). field. }
  match goal with |- context [Rabs ?a] => rewrite (Rabs_right a) by lra end. mm.
Qed.
Definition drifted1 : life E1 := history 0 [[1]] [LProgram (E := E1) tt tt true None; LDrift (E := E1) tt tt tt tt 1].
Lemma drifted1_alpha : l_alpha drifted1 = [2].
Proof.
  unfold drifted1, history. cbn [fold_left]. set (s := lrun (life_new E1 0 [[1]]) _).
  destruct (e1_alpha s) as (s' & E & A); try reflexivity.
  - unfold s. simpl. f_equal. f_equal. unfold meanabs, min_read; simpl. replace ((Rabs 1 + 0) / 1) with 1 by (rewrite Rabs_right by lra; field). mm.
  - unfold lrun. rewrite E. exact A.
Qed.
Theorem C42_stale_alpha_set_weights_refuted :
  ~ (forall E nm w0 (ops : list (lop E)) w x, eval_forward (op_set w (history nm w0 ops)) x = matvec w x).
Proof.
  intros H. specialize (H E1 0%nat [[1]] [LProgram (E := E1) tt tt true None; LDrift (E := E1) tt tt tt tt 1] [[1]] [1]).
  fold drifted1 in H. unfold eval_forward in H. change (e_comp E1) with (Some GlobalComp) in H. cbv iota in H.
  change (l_alpha (op_set [[1]] drifted1)) with (l_alpha drifted1) in H. rewrite drifted1_alpha in H. simpl in H. injection H as H. lra.
Qed.
Theorem C42_stale_alpha_program_refuted :
  ~ (forall E nm w0 (ops : list (lop E)) d dr x, let s := op_program d dr true None (history nm w0 ops) in
       eval_forward s x = matvec (l_w s) x).
Proof.
  intros H. specialize (H E1 0%nat [[1]] [LProgram (E := E1) tt tt true None; LDrift (E := E1) tt tt tt tt 1] tt tt [1]).
  fold drifted1 in H. cbv zeta in H. unfold eval_forward in H. change (e_comp E1) with (Some GlobalComp) in H. cbv iota in H.
  change (l_alpha (op_program (E := E1) tt tt true None drifted1)) with (l_alpha drifted1) in H. rewrite drifted1_alpha in H.
  change (l_w (op_program (E := E1) tt tt true None drifted1)) with [[1]] in H. simpl in H. injection H as H. lra.
Qed.

(** C43: compensation factors are always positive ... *)
Lemma min_read_pos : 0 < min_read.
Proof. unfold min_read. lra. Qed.
Lemma readout_pos k out : Forall (fun v => 0 < v) (readout k out).
Proof.
  pose proof min_read_pos. assert (P : forall x, 0 < Rmax x min_read) by (intros; mm).
  destruct k; simpl; [auto|auto|]. induction out; simpl; auto.
Qed.
Lemma ratio_pos : forall a b, Forall (fun v => 0 < v) a -> Forall (fun v => 0 < v) b -> Forall (fun v => 0 < v) (ratio_vec a b).
Proof.
  unfold ratio_vec. induction a as [|x a IH]; intros [|y b] Ha Hb; simpl; auto. inversion Ha; inversion Hb; subst. constructor; [|apply IH; auto].
  now apply Rdiv_lt_0_compat.
Qed.
Theorem C43_alpha_positive : forall E nm w0 (ops : list (lop E)), Forall (fun v => 0 < v) (l_alpha (history nm w0 ops)).
Proof.
  intros E nm w0 ops. unfold history.
  assert (G : forall ops (s : life E), Forall (fun v => 0 < v) (l_alpha s) -> (forall b, l_base s = Some b -> Forall (fun v => 0 < v) b) ->
     Forall (fun v => 0 < v) (l_alpha (fold_left lrun ops s))).
  { clear. induction ops as [|o ops IH]; intros s Ha Hb; [auto|]. simpl.
    assert (P : forall d dr fr nm (s : life E), (forall b, l_base s = Some b -> Forall (fun v => 0 < v) b) ->
       (forall b, l_base (op_program d dr fr nm s) = Some b -> Forall (fun v => 0 < v) b) /\ l_alpha (op_program d dr fr nm s) = l_alpha s).
    { intros d dr fr nm s1 H1. unfold op_program. destruct (e_prog E _ d _) as [q par]. cbn [l_base l_alpha]. split; [|auto].
      destruct (e_comp E) as [k|]; [|auto]. intros b Eb. destruct k; injection Eb as <-; [apply (readout_pos GlobalComp)|apply (readout_pos GlobalExact)|apply (readout_pos PerColumn)]. }
    destruct o as [w|w|d dr fr nm|d0 dr0 d dr t].
    - apply IH; auto.
    - apply IH; auto.
    - destruct (P d dr fr nm s Hb) as [P1 P2]. apply IH; [simpl; now rewrite P2|exact P1].
    - assert (D : Forall (fun v => 0 < v) (l_alpha (lrun s (LDrift d0 dr0 d dr t))) /\ forall b, l_base (lrun s (LDrift d0 dr0 d dr t)) = Some b -> Forall (fun v => 0 < v) b).
      { simpl. unfold op_drift. set (s1 := match l_prog s with Some _ => s | None => op_program d0 dr0 true None s end).
        assert (H1 : (forall b, l_base s1 = Some b -> Forall (fun v => 0 < v) b) /\ l_alpha s1 = l_alpha s).
        { unfold s1. destruct (l_prog s); [auto|]. apply P; auto. }
        destruct H1 as [H1 H2].
        destruct (l_prog s1), (l_par s1); auto. destruct (e_comp E) as [k|]; [|simpl; rewrite H2; auto].
        destruct (l_base s1) as [b|] eqn:Eb; [|auto]. simpl. split; [|intros b0 [= <-]; auto]. apply ratio_pos; auto. apply readout_pos. }
      apply IH; tauto. }
  apply G; simpl; [repeat constructor; lra|discriminate].
Qed.
(** ... a drift that scales all weights by the same factor is compensated exactly, ... *)
Lemma sum_abs_scale c l : sumR (map Rabs (map (Rmult c) l)) = Rabs c * sumR (map Rabs l).
Proof. induction l; simpl; [ring|]. rewrite IHl, Rabs_mult. ring. Qed.
Lemma meanabs_scale c l : meanabs (map (Rmult c) l) = Rabs c * meanabs l.
Proof. unfold meanabs. rewrite sum_abs_scale, map_length. unfold Rdiv. ring. Qed.
Lemma matvec_scale c m x : matvec (map (map (Rmult c)) m) x = map (Rmult c) (matvec m x).
Proof. unfold matvec. rewrite !map_map. apply map_ext. intros. apply dot_scale_l. Qed.
Theorem C43_global_exact : forall E (s : life E) d dr fr nm d0 dr0 d1 dr1 t c s', exact_read E -> e_comp E = Some GlobalComp ->
  let s0 := op_program d dr fr nm s in let p := l_w s0 in
  (forall par, e_drift E (l_nm s0) d1 p par t = map (map (Rmult c)) p) -> 0 < c ->
  min_read <= meanabs (concat p) -> min_read <= c * meanabs (concat p) ->
  op_drift d0 dr0 d1 dr1 t s0 = Ok s' -> forall x, eval_forward s' x = matvec p x.
Proof.
  intros E s d dr fr nm d0 dr0 d1 dr1 t c s' Hr Hc s0 p Hd Cp M1 M2 H x.
  assert (S0 : l_prog s0 = Some p /\ l_base s0 = Some [Rmax (meanabs (concat p)) min_read] /\ exists par, l_par s0 = Some par).
  { subst p s0. unfold op_program. rewrite Hc. destruct (e_prog E _ d _) as [q par]. simpl. rewrite Hr. eauto. }
  destruct S0 as (A & B & [par C]). unfold op_drift in H. rewrite A in H. rewrite A, C, Hc, B in H. injection H as <-.
  unfold eval_forward. rewrite Hc. cbn [l_w l_alpha]. rewrite Hd, Hr. simpl.
  rewrite <- concat_map, meanabs_scale. rewrite Rabs_right by lra. rewrite !Rmax_left by lra. rewrite matvec_scale, map_map.
  rewrite <- (map_id (matvec p x)) at 2. apply map_ext. intros v. pose proof min_read_pos. field. split; lra.
Qed.
(** ... with per column compensation also one that scales each output differently, ... *)
Lemma scaled_rows_fwd : forall c (p : mat) x, length c = length p -> matvec (scaled_rows c p) x = map2 Rmult c (matvec p x).
Proof. induction c as [|a c IH]; intros [|r p] x L; simpl in *; try lia; auto. f_equal; [apply dot_scale_l|apply IH; lia]. Qed.
Lemma percol_ratio : forall (c : vec) (p : mat), Forall2 (fun a row => 0 < a /\ min_read <= meanabs row /\ min_read <= a * meanabs row) c p ->
  ratio_vec (map (fun row => Rmax (meanabs row) min_read) p) (map (fun row => Rmax (meanabs row) min_read) (scaled_rows c p)) = map Rinv c.
Proof.
  intros c p F. induction F as [|a row c p (H1 & H2 & H3) F IH]; simpl; auto. unfold ratio_vec in *. simpl. f_equal; [|exact IH].
  rewrite meanabs_scale, (Rabs_right a) by lra. rewrite !Rmax_left by lra. pose proof min_read_pos. field. split; lra.
Qed.
Theorem C43_per_column_exact : forall E (s : life E) d dr fr nm d0 dr0 d1 dr1 t c s', exact_read E -> e_comp E = Some PerColumn ->
  let s0 := op_program d dr fr nm s in let p := l_w s0 in
  (forall par, e_drift E (l_nm s0) d1 p par t = scaled_rows c p) ->
  Forall2 (fun a row => 0 < a /\ min_read <= meanabs row /\ min_read <= a * meanabs row) c p ->
  op_drift d0 dr0 d1 dr1 t s0 = Ok s' -> forall x, eval_forward s' x = matvec p x.
Proof.
  intros E s d dr fr nm d0 dr0 d1 dr1 t c s' Hr Hc s0 p Hd F H x.
  assert (S0 : l_prog s0 = Some p /\ l_base s0 = Some (map (fun row => Rmax (meanabs row) min_read) p) /\ exists par, l_par s0 = Some par).
  { subst p s0. unfold op_program. rewrite Hc. destruct (e_prog E _ d _) as [q par]. simpl. rewrite Hr. eauto. }
  destruct S0 as (A & B & [par C]). unfold op_drift in H. rewrite A in H. rewrite A, C, Hc, B in H. injection H as <-.
  unfold eval_forward. rewrite Hc. cbn [l_w l_alpha]. rewrite Hd, Hr. cbn [readout]. rewrite percol_ratio by auto.
  assert (L : length c = length p) by (clear -F; induction F; simpl; auto).
  rewrite scaled_rows_fwd by auto.
  assert (G : forall (c : vec) (y : vec), Forall (fun a => 0 < a) c -> length c = length y -> map2 Rmult (map2 Rmult c y) (map Rinv c) = y).
  { clear. induction c as [|a c IH]; intros [|v y] P L; simpl in *; try lia; auto. inversion P; subst. f_equal; [field; lra|apply IH; auto; lia]. }
  assert (Fc : Forall (fun a => 0 < a) c) by (clear -F; induction F; constructor; tauto).
  unfold scale_out. destruct (map Rinv c) as [|a0 [|b0 r0]] eqn:Em.
  - destruct c; [|discriminate]. destruct p; [reflexivity|simpl in L; lia].
  - destruct c as [|c0 [|c1 cr]]; try discriminate. simpl in Em. injection Em as <-. destruct p as [|r1 [|r2 p]]; simpl in L; try lia.
    simpl. inversion Fc; subst. f_equal. field. lra.
  - rewrite <- Em. apply G; auto. unfold matvec. now rewrite map_length.
Qed.
(** ... and for every drift and noise the average magnitude of the read-out weights is
    restored. *)
Theorem C43_mean_restored : forall E (s : life E) d dr fr nm d0 dr0 d1 dr1 t s', exact_read E -> e_comp E = Some GlobalComp ->
  let s0 := op_program d dr fr nm s in
  op_drift d0 dr0 d1 dr1 t s0 = Ok s' ->
  min_read <= meanabs (concat (l_w s0)) -> min_read <= meanabs (concat (l_w s')) ->
  exists a, l_alpha s' = [a] /\ meanabs (concat (map (map (Rmult a)) (l_w s'))) = meanabs (concat (l_w s0)).
Proof.
  intros E s d dr fr nm d0 dr0 d1 dr1 t s' Hr Hc s0 H M1 M2.
  set (p := l_w s0) in *.
  assert (S0 : l_prog s0 = Some p /\ l_base s0 = Some [Rmax (meanabs (concat p)) min_read] /\ exists par, l_par s0 = Some par).
  { subst p s0. unfold op_program. rewrite Hc. destruct (e_prog E _ d _) as [q par]. simpl. rewrite Hr. eauto. }
  destruct S0 as (A & B & [par C]). unfold op_drift in H. rewrite A in H. rewrite A, C, Hc, B in H. injection H as <-. cbn [l_w l_alpha] in *.
  rewrite Hr. simpl. eexists. split; [reflexivity|]. rewrite !Rmax_left by lra. rewrite <- concat_map, meanabs_scale.
  pose proof min_read_pos. rewrite Rabs_right. { field. lra. }
  apply Rle_ge, Rlt_le, Rdiv_lt_0_compat; lra.
Qed.
(** A tile with weights below the read-out limit is not compensated. *)
Theorem C43_small_weights_refuted :
  ~ (forall E (s : life E) d dr fr nm d0 dr0 d1 dr1 t c s', exact_read E -> e_comp E = Some GlobalComp ->
     let s0 := op_program d dr fr nm s in let p := l_w s0 in
     (forall par, e_drift E (l_nm s0) d1 p par t = map (map (Rmult c)) p) -> 0 < c ->
     op_drift d0 dr0 d1 dr1 t s0 = Ok s' -> forall x, eval_forward s' x = matvec p x).
Proof.
  intros H. set (w := 1 / 10 ^ 5).
  pose proof (fun s' => H E1 (life_new E1 0 [[w]]) tt tt true None tt tt tt tt 1 (1/2) s' (fun _ _ => eq_refl) eq_refl) as H'. clear H.
  cbv zeta in H'. pose proof (H' _ ltac:(intros par; cbv [op_program life_new E1 e_prog e_drift l_nm l_ref l_w map]; f_equal; f_equal; field) ltac:(lra) eq_refl [1]) as H. clear H'.
  unfold eval_forward in H. change (e_comp E1) with (Some GlobalComp) in H. cbn in H. unfold meanabs, min_read in H. cbn in H.
  replace ((Rabs w + 0) / 1) with w in H by (rewrite Rabs_right by (unfold w; lra); field).
  replace ((Rabs (w / (1 + 1)) + 0) / 1) with (w / 2) in H. 2: { replace (w / (1 + 1)) with (w / 2) by (unfold w; field). rewrite Rabs_right by (unfold w; lra). field. }
  rewrite !Rmax_right in H by (unfold w; lra). replace (1 / 10 ^ 4 / (1 / 10 ^ 4)) with 1 in H by field. injection H as H. unfold w in H. lra.
Qed.
Example C43_nonvacuous : exists s', op_drift (E := E1) tt tt tt tt 1 (op_program (E := E1) tt tt true None (life_new E1 0 [[1]])) = Ok s'
  /\ exact_read E1 /\ min_read <= meanabs (concat [[1]]) /\ min_read <= 1/2 * meanabs (concat [[1]]).
Proof. eexists. split; [reflexivity|]. split; [intros [] w; reflexivity|]. unfold meanabs, min_read; simpl. rewrite Rabs_right by lra. split; lra. Qed.

(** C44: programming with pulses on an ideal tile converges geometrically to the target;
    it stops only when the tolerance is met or the iterations are used up, and keeps the
    learning rate. *)
Lemma ideal_step lr : forall (w t : vec), length w = length t ->
  ideal_update lr w (map2 Rminus (ideal_read w) t) = map2 (fun a b => b + (1 - lr) * (a - b)) w t.
Proof. unfold ideal_update, ideal_read. induction w as [|a w IH]; intros [|b t] L; simpl in *; try lia; auto. f_equal; [ring|apply IH; lia]. Qed.
Theorem C44_program_converges : forall w0 lr n tol s s', length w0 = length (q_w s) ->
  pulse_program ideal_read ideal_update w0 true false lr n tol s = Ok s' ->
  q_lr s' = q_lr s /\ q_ref s' = Some (q_w s) /\
  exists k, (k <= n)%nat /\ q_w s' = map2 (fun a b => b + (1 - lr) ^ k * (a - b)) w0 (q_w s)
  /\ (k = n \/ exists e, tol = Some e /\ meanabs (map2 Rminus (q_w s') (q_w s)) / maxabs (q_w s) < e).
Proof.
  intros w0 lr n tol s s' L H. unfold pulse_program in H. destruct (q_ref s) eqn:Er; simpl in H; [discriminate|]. injection H as <-. cbn [q_lr q_ref q_w].
  split; [auto|]. split; [auto|]. set (T := q_w s) in *. set (tl := if Reqb (maxabs T) 0 then None else tol).
  assert (Tl : forall e, tl = Some e -> tol = Some e) by (unfold tl; intros e; rcase; [discriminate|auto]).
  assert (G : forall n j w, w = map2 (fun a b => b + (1 - lr) ^ j * (a - b)) w0 T -> exists k, (k <= n)%nat /\
      prog_loop ideal_read ideal_update lr T tl n w = map2 (fun a b => b + (1 - lr) ^ (j + k) * (a - b)) w0 T
      /\ (k = n \/ exists e, tol = Some e /\ meanabs (map2 Rminus (prog_loop ideal_read ideal_update lr T tl n w) T) / maxabs T < e)).
  { clear - L Tl. induction n as [|n IH]; intros j w Hw.
    - exists 0%nat. rewrite Nat.add_0_r. simpl. auto.
    - set (e := map2 Rminus w T).
      set (stop := match tl with Some t => Rltb (meanabs e / maxabs T) t | None => false end).
      assert (PL : prog_loop ideal_read ideal_update lr T tl (S n) w = if stop then w else prog_loop ideal_read ideal_update lr T tl n (ideal_update lr w e)) by reflexivity.
      rewrite PL. clear PL. destruct stop eqn:Es.
      + exists 0%nat. rewrite Nat.add_0_r. split; [lia|]. split; [auto|]. right. unfold stop in Es. destruct tl as [t|] eqn:Et; [|discriminate]. exists t. split; [auto|]. apply Rltb_true in Es. exact Es.
      + destruct (IH (S j) (ideal_update lr w e)) as (k & Hk & E & D).
        { unfold e. change w with (ideal_read w) at 2. rewrite ideal_step by (rewrite Hw, map2_length; lia).
          rewrite Hw. clear - L. revert L. generalize T. clear T. induction w0 as [|a w0 IHw]; intros [|b T] L; simpl in *; try lia; auto.
          f_equal; [ring|]. apply IHw. lia. }
        exists (S k). split; [lia|]. replace (j + S k)%nat with (S j + k)%nat by lia. split; [exact E|]. destruct D as [-> | D]; [left; auto|right; exact D]. }
  destruct (G n 0%nat w0) as (k & Hk & E & D).
  { clear - L. revert L. generalize T. clear T. induction w0 as [|a w0 IHw]; intros [|b T] L; simpl in *; try lia; auto. f_equal; [ring|]. apply IHw. lia. }
  exists k. simpl in E. auto.
Qed.
Example C44_nonvacuous : exists s', pulse_program ideal_read ideal_update [0] true false (1/10) 5 (Some (1/100)) {| q_w := [1]; q_ref := None; q_lr := 1 |} = Ok s'.
Proof. eexists. reflexivity. Qed.
(** It can be called only once, and never with given [x_values]. *)
Theorem C44_once_refuted : forall f u w0 x lr n tol s s', pulse_program f u w0 true x lr n tol s = Ok s' ->
  forall w1 x' lr' n' tol', pulse_program f u w1 true x' lr' n' tol' s' = Raise UnboundLocalError.
Proof.
  intros f u w0 x lr n tol s s' H w1 x' lr' n' tol'. unfold pulse_program in *. destruct x; [discriminate|]. destruct (q_ref s) eqn:Er; simpl in H; [discriminate|]. injection H as <-. cbn. destruct x'; reflexivity.
Qed.
Theorem C44_x_values_refuted : forall f u w0 fr lr n tol s, pulse_program f u w0 fr true lr n tol s = Raise UnboundLocalError.
Proof. reflexivity. Qed.
Example C39_nonvacuous : exists s' : life E1, op_drift (E := E1) tt tt tt tt 1 drifted1 = Ok s' /\ l_prog drifted1 <> None
  /\ Forall not_program [LDrift (E := E1) tt tt tt tt 1; LTrain [[3]]] /\ Forall keeps_reference [LDrift (E := E1) tt tt tt tt 1; LProgram (E := E1) tt tt true None].
Proof. eexists. split; [reflexivity|]. split; [discriminate|]. repeat constructor. Qed.

Print Assumptions C39_drift_not_cumulative.
Print Assumptions C39_drift_of_programmed.
Print Assumptions C40_reprogram_from_reference.
Print Assumptions C40_program_current.
Print Assumptions C40_training_lost_refuted.
Print Assumptions C41_drift_programs_first.
Print Assumptions C41_stale_programmed_refuted.
Print Assumptions C42_no_drift_exact.
Print Assumptions C42_stale_alpha_set_weights_refuted.
Print Assumptions C42_stale_alpha_program_refuted.
Print Assumptions C43_alpha_positive.
Print Assumptions C43_global_exact.
Print Assumptions C43_per_column_exact.
Print Assumptions C43_mean_restored.
Print Assumptions C43_small_weights_refuted.
Print Assumptions C44_program_converges.
Print Assumptions C44_once_refuted.
Print Assumptions C44_x_values_refuted.
