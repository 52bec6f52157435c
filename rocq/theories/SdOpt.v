(** * C129: an optimizer and a load_state_dict after its creation *)
From Verif Require Import Prelude OptimModel OptimSpec OptimProofs OptimProps.
Local Open Scope nat_scope.

(** every tile has a current AnalogContext; contexts are numbered in the order of creation, [l_own]: their tile
    (context.py:134-148).  The optimizer holds contexts, those that were current when it was made *)
Record lstate : Type := { l_cur : nat -> nat; l_own : nat -> nat; l_ctx : nat -> actx; l_next : nat }.
(** a backward pass through a tile (functions.py:73-112: recorded in the current context), optimizer.step(), and a load of the
    analog state of a tile (base.py:795-796 makes a new context; context.py:141-148) *)
Inductive lop : Type := Back (t : nat) (x d : list vec) | Step | Load (t : nat).
Definition new_ctx : actx := {| a_torch := false; a_indexed := false; a_in := []; a_gr := [] |}.
Definition lstep (o : optim) (s : lstate) (h : lop) : lstate * list event :=
  match h with
  | Back t x d => ({| l_cur := l_cur s; l_own := l_own s; l_ctx := fupd (l_ctx s) (l_cur s t) (record_grad x d (l_ctx s (l_cur s t))); l_next := l_next s |}, [])
  | Step => let '(cs, ev) := step o (l_ctx s) in ({| l_cur := l_cur s; l_own := l_own s; l_ctx := cs; l_next := l_next s |}, ev)
  | Load t => ({| l_cur := fupd (l_cur s) t (l_next s); l_own := fupd (l_own s) (l_next s) t; l_ctx := fupd (l_ctx s) (l_next s) new_ctx; l_next := Datatypes.S (l_next s) |}, [])
  end.
Fixpoint lrun (o : optim) (s : lstate) (h : list lop) : lstate * list event :=
  match h with
  | [] => (s, [])
  | a :: r => let '(s1, e1) := lstep o s a in let '(s2, e2) := lrun o s1 r in (s2, e1 ++ e2)
  end.

(** ** specification *)
(** all contexts were made before, and belong to the tile that has them *)
Definition lok (n : nat) (o : optim) (s : lstate) : Prop :=
  (forall c, List.In (PAna c) (all_params o) -> c < l_next s) /\ (forall t, t < n -> l_cur s t < l_next s) /\ (forall t, t < n -> l_own s (l_cur s t) = t).
(** the model has the tiles 0 .. n-1 *)
Definition of_model (n : nat) (h : lop) : Prop := match h with Back t _ _ | Load t => t < n | Step => True end.
(** the calls on a tile that change weights *)
Definition is_update (e : event) : bool := match e with EUpdate _ _ _ | EUpdateIndexed _ _ _ => true | _ => false end.
Definition updates_of (s : lstate) (t : nat) (ev : list event) : list event := filter (fun e => is_update e && (l_own s (tile_of e) =? t)) ev.

(** ** lemmas *)
Lemma fupd_eq {A} (f : nat -> A) i v : fupd f i v i = v.
Proof. unfold fupd. rewrite Nat.eqb_refl. reflexivity. Qed.
Lemma fupd_ne {A} (f : nat -> A) i v j : j <> i -> fupd f i v j = f j.
Proof. unfold fupd. intros H. destruct (Nat.eqb_spec j i); [contradiction|reflexivity]. Qed.
Lemma lok_load n o s t : lok n o s -> lok n o (fst (lstep o s (Load t))).
Proof.
  intros (H1 & H2 & H3). cbn. split; [|split]; cbn.
  - intros c Hc. specialize (H1 c Hc). lia.
  - intros u Hu. unfold fupd. destruct (u =? t); [lia|]. specialize (H2 u Hu). lia.
  - intros u Hu. destruct (Nat.eq_dec u t) as [->|N].
    + rewrite fupd_eq, fupd_eq. reflexivity.
    + rewrite (fupd_ne (l_cur s)) by exact N. rewrite fupd_ne; [apply H3; exact Hu|]. specialize (H2 u Hu). lia.
Qed.
Definition held (o : optim) (c : nat) : Prop := List.In (PAna c) (all_params o).
Lemma held_dec o c : held o c \/ ~ held o c.
Proof.
  unfold held. destruct (existsb (param_eqb (PAna c)) (all_params o)) eqn:X.
  - left. apply existsb_exists in X as [q [Hq X]]. apply param_eqb_eq in X. now subst.
  - right. intros Hin. assert (Y : existsb (param_eqb (PAna c)) (all_params o) = true).
    { apply existsb_exists. exists (PAna c). split; auto. now apply param_eqb_eq. } congruence.
Qed.
Lemma held_flat o c : held o c -> exists lr, List.In (lr, PAna c) (flat o).
Proof. intros H. unfold held in H. rewrite <- flat_params in H. apply in_map_iff in H as [[lr p] [Hp Hn]]. simpl in Hp. subst. eauto. Qed.

(** the invariant after the load: the current context of [t] is not in the optimizer, its other contexts hold no gradients *)
Definition stale (n : nat) (o : optim) (t : nat) (s : lstate) : Prop :=
  lok n o s /\ ~ held o (l_cur s t) /\ forall c, held o c -> l_own s c = t -> a_in (l_ctx s c) = [].
Lemma stale_step n o t s h : NoDup (all_params o) -> of_model n h -> stale n o t s ->
  stale n o t (fst (lstep o s h)) /\ (forall e, List.In e (snd (lstep o s h)) -> l_own s (tile_of e) = t -> is_update e = false)
  /\ forall c, c < l_next s -> l_own (fst (lstep o s h)) c = l_own s c.
Proof.
  intros ND Om (K & Nc & Em). destruct h as [u x d| |u].
  - cbn. split; [|split; [contradiction|reflexivity]]. split; [exact K|]. split; [exact Nc|]. cbn. intros c Hc Ho. destruct (Nat.eq_dec c (l_cur s u)) as [->|N].
    + exfalso. destruct K as (_ & _ & K3). rewrite K3 in Ho by exact Om. subst u. contradiction.
    + rewrite fupd_ne by exact N. auto.
  - cbn [lstep]. destruct (step o (l_ctx s)) as [cs ev] eqn:Es. cbn [fst snd l_own l_next l_ctx l_cur]. destruct (C18_step o (l_ctx s) cs ev ND Es) as (_ & _ & A2 & _ & A4).
    assert (Q : forall c, held o c -> l_own s c = t -> events_of c ev = [EPost c] /\ cs c = l_ctx s c).
    { intros c Hc Ho. destruct (held_flat o c Hc) as [lr Hl]. apply (A2 c lr Hl). right. apply Em; auto. }
    split; [split; [exact K|split; [exact Nc|]]|split; [|reflexivity]].
    + cbn. intros c Hc Ho. destruct (Q c Hc Ho) as [_ ->]. auto.
    + intros e He Ho. assert (In' : List.In e (events_of (tile_of e) ev)) by (apply filter_In; split; [exact He|apply Nat.eqb_refl]).
      destruct (held_dec o (tile_of e)) as [Hh|Hh].
      * destruct (Q _ Hh Ho) as [Q1 _]. rewrite Q1 in In'. destruct In' as [<-|[]]. reflexivity.
      * destruct (A4 _ Hh) as [Q1 _]. rewrite Q1 in In'. contradiction.
  - assert (K' := lok_load n o s u K). cbn in *. split; [split; [exact K'|]|split; [contradiction|]].
    + destruct K as (K1 & K2 & K3). split; cbn.
      * unfold fupd. destruct (Nat.eqb_spec t u); [|exact Nc]. intros Hh. specialize (K1 _ Hh). lia.
      * intros c Hc Ho. assert (c < l_next s) by (apply K1; exact Hc). rewrite fupd_ne in Ho by lia. rewrite fupd_ne by lia. auto.
    + intros c Hc. rewrite fupd_ne by lia. reflexivity.
Qed.
Lemma step_events_held o cs cs' ev e : NoDup (all_params o) -> step o cs = (cs', ev) -> List.In e ev -> held o (tile_of e).
Proof.
  intros ND Es He. destruct (C18_step o cs cs' ev ND Es) as (_ & _ & _ & _ & A4). destruct (held_dec o (tile_of e)) as [|Hh]; [assumption|exfalso].
  assert (In' : List.In e (events_of (tile_of e) ev)) by (apply filter_In; split; [exact He|apply Nat.eqb_refl]). rewrite (proj1 (A4 _ Hh)) in In'. exact In'.
Qed.
Lemma stale_run n o t h : NoDup (all_params o) -> Forall (of_model n) h -> forall s, stale n o t s ->
  updates_of (fst (lrun o s h)) t (snd (lrun o s h)) = []
  /\ (forall c, c < l_next s -> l_own (fst (lrun o s h)) c = l_own s c) /\ l_next s <= l_next (fst (lrun o s h)) /\ forall e, List.In e (snd (lrun o s h)) -> tile_of e < l_next s.
Proof.
  intros ND Fm. induction h as [|a r IH]; intros s St; [cbn; split; [reflexivity|split; [reflexivity|split; [lia|contradiction]]]|].
  inversion Fm as [|? ? Fa Fr]; subst. specialize (IH Fr). cbn [lrun]. destruct (stale_step n o t s a ND Fa St) as (S1 & S2 & S3).
  assert (Mo : l_next s <= l_next (fst (lstep o s a))) by (destruct a; cbn; [lia|destruct (step _ _); cbn; lia|lia]).
  assert (Hd : forall e, List.In e (snd (lstep o s a)) -> tile_of e < l_next s).
  { intros e He. destruct a as [u x d| |u]; cbn in He; [contradiction| |contradiction]. destruct (step o (l_ctx s)) as [cs ev] eqn:Es. cbn in He. destruct St as [(K1 & _) _]. apply K1. eapply step_events_held; eauto. }
  assert (Hr : forall e, List.In e (snd (lrun o (fst (lstep o s a)) r)) -> tile_of e < l_next s).
  { clear - ND St S1. intros e. assert (Gen : forall s', lok n o s' -> (forall c, held o c -> c < l_next s) -> List.In e (snd (lrun o s' r)) -> tile_of e < l_next s).
    { induction r as [|b q IHq]; intros s' K B; [contradiction|]. cbn. destruct (lstep o s' b) as [s1 e1] eqn:E1, (lrun o s1 q) as [s2 e2] eqn:E2. cbn. intros He. apply in_app_or in He. destruct He as [He|He].
      - destruct b as [u x d| |u]; cbn in E1; [injection E1 as <- <-; contradiction| |injection E1 as <- <-; contradiction]. destruct (step o (l_ctx s')) as [cs ev] eqn:Es. injection E1 as <- <-. apply B. eapply step_events_held; eauto.
      - apply (IHq s1); [|exact B|rewrite E2; exact He]. destruct b as [u x d| |u]; cbn in E1.
        + injection E1 as <- <-. exact K.
        + destruct (step o (l_ctx s')). injection E1 as <- <-. exact K.
        + injection E1 as <- <-. exact (lok_load n o s' u K). }
    apply Gen; [apply S1|]. intros c Hc. destruct St as [(K1 & _) _]. apply K1. exact Hc. }
  destruct (lstep o s a) as [s1 e1] eqn:E1. cbn [fst snd] in *. destruct (IH s1 S1) as (I1 & I2 & I3 & I4). destruct (lrun o s1 r) as [s2 e2] eqn:E2. cbn [fst snd] in *.
  split; [|split; [|split; [lia|]]].
  - unfold updates_of in *. rewrite filter_app, I1, app_nil_r.
    assert (Z : forall e, List.In e e1 -> is_update e && (l_own s2 (tile_of e) =? t) = false).
    { intros e He. assert (L := Hd e He). rewrite I2 by lia. rewrite S3 by exact L. destruct (Nat.eqb_spec (l_own s (tile_of e)) t) as [Eo|]; [|rewrite andb_false_r; reflexivity]. rewrite (S2 e He Eo). reflexivity. }
    clear - Z. induction e1 as [|e q IH]; [reflexivity|]. cbn. rewrite (Z e (or_introl eq_refl)). apply IH. intros e' He. apply Z. right. exact He.
  - intros c Hc. rewrite I2 by lia. apply S3. exact Hc.
  - intros e He. apply in_app_or in He. destruct He; auto.
Qed.

(** ** C129: an optimizer that is made after the load trains the tile *)
Theorem C129_new_optimizer n (o : optim) (s : lstate) t lr x d : NoDup (all_params o) -> t < n -> lok n o s -> List.In (Some lr, PAna (l_cur s t)) (flat o) -> lr <> 0%R ->
  l_ctx s (l_cur s t) = new_ctx ->
  events_of (l_cur s t) (snd (lrun o s [Back t x d; Step])) = [ESetLR (l_cur s t) lr; EUpdate (l_cur s t) x d; EPost (l_cur s t)]
  /\ updates_of s t (events_of (l_cur s t) (snd (lrun o s [Back t x d; Step]))) = [EUpdate (l_cur s t) x d].
Proof.
  intros ND Lt K Hl Nz Ec.
  assert (G : events_of (l_cur s t) (snd (lrun o s [Back t x d; Step])) = [ESetLR (l_cur s t) lr; EUpdate (l_cur s t) x d; EPost (l_cur s t)]).
  { cbn [lrun lstep l_ctx l_cur l_own l_next]. set (cs := fupd (l_ctx s) (l_cur s t) _). destruct (step o cs) as [cs' ev] eqn:Es. cbn [fst snd app]. rewrite app_nil_r.
    assert (Ecs : cs (l_cur s t) = {| a_torch := false; a_indexed := false; a_in := [x]; a_gr := [d] |}) by (unfold cs; rewrite fupd_eq, Ec; reflexivity).
    destruct (C18_step o cs cs' ev ND Es) as (_ & A1 & _). destruct (A1 _ lr Hl) as (_ & A2 & _); try (rewrite Ecs; cbn; congruence); [exact Nz|].
    rewrite A2 by (rewrite Ecs; reflexivity). rewrite Ecs. cbn. rewrite !app_nil_r. reflexivity. }
  split; [exact G|]. rewrite G. unfold updates_of. cbn. destruct K as (_ & _ & K3). rewrite (K3 t Lt), Nat.eqb_refl. reflexivity.
Qed.
(** ... but one made before the load never updates the tile again, whatever backward passes, steps and loads follow *)
Theorem C129_old_optimizer_refuted n (o : optim) (s : lstate) t h : NoDup (all_params o) -> t < n -> lok n o s -> Forall (of_model n) h ->
  (forall c, List.In (PAna c) (all_params o) -> l_own s c = t -> a_in (l_ctx s c) = []) ->
  let s1 := fst (lstep o s (Load t)) in
  updates_of (fst (lrun o s1 h)) t (snd (lrun o s1 h)) = [].
Proof.
  intros ND Lt K Fm Em s1. apply (stale_run n); [exact ND|exact Fm|]. unfold s1. split; [apply lok_load; exact K|]. destruct K as (K1 & K2 & K3). cbn. split.
  - rewrite fupd_eq. intros Hh. specialize (K1 _ Hh). lia.
  - intros c Hc Ho. assert (c < l_next s) by (apply K1; exact Hc). rewrite fupd_ne in Ho by lia. rewrite fupd_ne by lia. apply Em; auto.
Qed.
(** gradients that were recorded before the load and not yet used are applied to the loaded weights by the next step *)
Theorem C129_pending_gradients_refuted n (o : optim) (s : lstate) t lr x d : NoDup (all_params o) -> t < n -> lok n o s -> List.In (Some lr, PAna (l_cur s t)) (flat o) -> lr <> 0%R ->
  l_ctx s (l_cur s t) = new_ctx ->
  let '(s2, ev) := lrun o s [Back t x d; Load t; Step] in l_own s2 (l_cur s t) = t /\ List.In (EUpdate (l_cur s t) x d) ev.
Proof.
  intros ND Lt K Hl Nz Ec. cbn. set (cs := fupd (fupd (l_ctx s) (l_cur s t) _) (l_next s) new_ctx). destruct (step o cs) as [cs' ev] eqn:Es. cbn. rewrite app_nil_r.
  destruct K as (K1 & K2 & K3). specialize (K2 t Lt) as Lc. rewrite fupd_ne by lia. split; [apply K3; exact Lt|].
  assert (Ecs : cs (l_cur s t) = {| a_torch := false; a_indexed := false; a_in := [x]; a_gr := [d] |}) by (unfold cs; rewrite fupd_ne by lia; rewrite fupd_eq, Ec; reflexivity).
  destruct (C18_step o cs cs' ev ND Es) as (_ & A1 & _). destruct (A1 _ lr Hl) as (_ & A2 & _); try (rewrite Ecs; cbn; congruence); [exact Nz|].
  specialize (A2 ltac:(rewrite Ecs; reflexivity)). rewrite Ecs in A2. cbn in A2. rewrite !app_nil_r in A2.
  assert (In' : List.In (EUpdate (l_cur s t) x d) (events_of (l_cur s t) ev)) by (rewrite A2; right; left; reflexivity). apply filter_In in In'. apply In'.
Qed.
(** the hypotheses: an optimizer for the contexts 0 and 1 of the tiles 0 and 1 *)
Example C129_nontrivial : 
  let o := {| o_groups := [{| g_params := [PAna 0]; g_lr := Some 1%R |}; {| g_params := [PAna 1]; g_lr := Some 1%R |}]; o_default_lr := 1%R |} in
  let s := {| l_cur := fun t => t; l_own := fun c => c; l_ctx := fun _ => new_ctx; l_next := 2 |} in
  NoDup (all_params o) /\ lok 2 o s /\
  snd (lrun o s [Back 0 [[1%R]] [[2%R]]; Step]) <> [] /\ List.In (Some 1%R, PAna 0) (flat o).
Proof.
  intros o s. split; [|split; [split; [|split; [auto|auto]]|split]].
  - cbn. repeat constructor; cbn; intuition congruence.
  - cbn. intros c [E|[E|[]]]; injection E as <-; lia.
  - unfold lrun, lstep, step, step_param, o, s; cbn. destruct (Reqb 1 0); discriminate.
  - left. reflexivity.
Qed.
