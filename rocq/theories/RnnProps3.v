(** * C131 (bidirectional), C135: structure of the stacks; the hypotheses of C131-C135 are met *)
From Verif Require Import Prelude RnnModel CnnModel CnnProofs RnnSpec RnnProofs RnnProps RnnProps2.
From Coq Require Import Rtrigo_def.
Local Open Scope nat_scope.

Lemma tanh_pos x : (0 < x -> 0 < tanh x)%R.
Proof.
  intros Hx. unfold tanh. apply Rdiv_lt_0_compat; [|unfold cosh; pose proof (exp_pos x); pose proof (exp_pos (- x)); lra].
  unfold sinh. assert (exp (- x) < exp x)%R by (apply exp_increasing; lra). lra.
Qed.
Lemma tanh_zero : tanh 0 = 0%R.
Proof. unfold tanh, sinh. rewrite Ropp_0. unfold Rdiv. ring. Qed.

(** the example: one unit, weights 1, no bias *)
Definition unit_cell : cell unit mat := rnn_cell (ideal [[1%R]] [0%R]) (ideal [[1%R]] [0%R]).
Lemma unit_step s h x : unit_cell s [[h]] [[x]] = ([[tanh (x + h)%R]], [[tanh (x + h)%R]], s).
Proof. unfold unit_cell, rnn_cell, ideal, madd, mmap, matvec, dot, sumR, vadd, vmul. cbn. replace (1 * x + 0 + 0 + (1 * h + 0 + 0))%R with (x + h)%R by ring. reflexivity. Qed.
Lemma unit_run1 s h x : run unit_cell s [[h]] [[[x]]] = ([[[tanh (x + h)%R]]], [[tanh (x + h)%R]], s).
Proof. cbn [run]. rewrite unit_step. reflexivity. Qed.
Lemma unit_run2 s h x y : run unit_cell s [[h]] [[[x]]; [[y]]] = ([[[tanh (x + h)%R]]; [[tanh (y + tanh (x + h))%R]]], [[tanh (y + tanh (x + h))%R]], s).
Proof. cbn [run]. rewrite unit_step, unit_step. reflexivity. Qed.
(** bidirectional networks cannot be run in pieces: the backward direction starts at the end of each piece *)
Theorem C131_bidirectional_refuted : exists (f g : cell unit mat) h k xs ys, exists o st ts o1 st1 ts1 o2 st2 ts2,
  run_layer (Bi f g) (tt, tt) (Many [h; k]) (xs ++ ys) = Ok (o, st, ts) /\ run_layer (Bi f g) (tt, tt) (Many [h; k]) xs = Ok (o1, st1, ts1)
  /\ run_layer (Bi f g) ts1 st1 ys = Ok (o2, st2, ts2) /\ o <> o1 ++ o2.
Proof.
  exists unit_cell, unit_cell, [[0%R]], [[0%R]], [[[0%R]]], [[[1%R]]]. do 9 eexists.
  cbn [app run_layer]. unfold run_reverse. cbn [rev app fst snd]. rewrite !unit_run2, !unit_run1. split; [reflexivity|]. split; [reflexivity|].
  cbn [run_layer fst snd]. unfold run_reverse. cbn [rev app]. rewrite !unit_run1. split; [reflexivity|].
  cbn. intros E. assert (E' : tanh (0 + tanh (1 + 0)) = tanh (0 + 0)) by congruence. assert (P : (0 < tanh (1 + 0))%R) by (apply tanh_pos; lra).
  assert (P2 : (0 < tanh (0 + tanh (1 + 0)))%R) by (apply tanh_pos; lra). rewrite E' in P2. rewrite Rplus_0_r, tanh_zero in P2. lra.
Qed.

(** the sigmoid is the logistic function *)
Theorem C130_sigmoid x : sigmoid x = (exp x / (exp x + 1))%R.
Proof.
  unfold sigmoid. rewrite exp_Ropp. pose proof (exp_pos x) as P. field. lra.
Qed.

(** ** C135: the structure of a network *)
Section Structure.
Context {TS X : Type}.
(** a cell for batches of [B] samples: on inputs of width [n], and states for which [okX] holds, it returns outputs of width [H] *)
Definition cell_ok (B n H : nat) (okX : X -> Prop) (f : cell TS X) : Prop := forall s h x, okX h -> shape B n x -> let '(o, h1, _) := f s h x in okX h1 /\ shape B H o.
Lemma run_ok B n H okX (f : cell TS X) s h xs : cell_ok B n H okX f -> okX h -> sequence B n xs ->
  let '(os, h1, _) := run f s h xs in okX h1 /\ sequence B H os /\ length os = length xs.
Proof.
  intros C. revert s h. induction xs as [|x r IH]; intros s h Oh F; cbn [run]; [repeat split; [exact Oh|constructor]|]. inversion F as [|? ? Sx Fr]; subst.
  specialize (C s h x Oh Sx). destruct (f s h x) as [[o h1] s1]. destruct C as [C1 C2]. specialize (IH s1 h1 C1 Fr). destruct (run f s1 h1 r) as [[os h2] s2]. destruct IH as (I1 & I2 & I3). repeat split; [exact I1|constructor; assumption|cbn; f_equal; exact I3].
Qed.
(** a layer with inputs of width [n]: outputs of width [W] *)
Definition layer_ok (B n H : nat) (okX : X -> Prop) (bidir : bool) (l : layer TS X) : Prop :=
  match bidir, l with false, Uni f => cell_ok B n H okX f | true, Bi f g => cell_ok B n H okX f /\ cell_ok B n H okX g | _, _ => False end.
Definition state_ok (okX : X -> Prop) (bidir : bool) (st : rstate X) : Prop :=
  match bidir, st with false, One h => okX h | true, Many [h; k] => okX h /\ okX k | _, _ => False end.
Definition width (bidir : bool) (H : nat) : nat := if bidir then 2 * H else H.
Lemma cat_shape B H K m k : shape B H m -> shape B K k -> shape B (H + K) (map2 (@app R) m k).
Proof.
  intros [L1 F1] [L2 F2]. split; [rewrite map2_length; unfold mat, vec in *; lia|]. clear L1 L2. revert k F2. induction F1 as [|r m Lr F1 IH]; intros k F2; [constructor|]. destruct F2 as [|q k Lq F2]; [constructor|]. cbn. constructor; [rewrite app_length, Lr, Lq; reflexivity|]. apply IH. exact F2.
Qed.
Lemma layer_run B n H okX bidir (l : layer TS X) ts st xs : layer_ok B n H okX bidir l -> state_ok okX bidir st -> sequence B n xs ->
  exists os st1 ts1, run_layer l ts st xs = Ok (os, st1, ts1) /\ length os = length xs /\ sequence B (width bidir H) os /\ state_ok okX bidir st1.
Proof.
  intros Lo So F. destruct bidir, l as [f|f g]; try contradiction; destruct st as [h|hs]; try contradiction; cbn [run_layer layer_ok state_ok width] in *.
  - destruct hs as [|h [|k [|? ?]]]; try contradiction. destruct Lo as [Lf Lg], So as [Oh Ok]. pose proof (run_ok B n H okX f (fst ts) h xs Lf Oh F) as R1. assert (F' : sequence B n (rev xs)) by (apply Forall_rev; exact F).
    pose proof (run_ok B n H okX g (snd ts) k (rev xs) Lg Ok F') as R2. unfold run_reverse. destruct (run f (fst ts) h xs) as [[os h1] s1]. destruct (run g (snd ts) k (rev xs)) as [[ps k1] s2]. destruct R1 as (A1 & A2 & A3), R2 as (B1 & B2 & B3).
    eexists _, _, _. split; [reflexivity|]. rewrite rev_length in B3. split; [etransitivity; [apply map2_length|]; rewrite rev_length; unfold mat, vec in *; rewrite A3, B3; apply Nat.min_id|]. split; [|split; assumption].
    apply Forall_rev in B2. clear - A2 B2. revert B2. generalize (rev ps). clear ps. induction A2 as [|o os So A2 IH]; intros ps B2; [constructor|]. destruct B2 as [|p ps Sp B2]; [constructor|]. cbn [map2]. constructor; [|apply IH; exact B2]. replace (2 * H) with (H + H) by lia. apply cat_shape; [exact So|exact Sp].
  - pose proof (run_ok B n H okX f (fst ts) h xs Lo So F) as R. destruct (run f (fst ts) h xs) as [[os h1] s1]. destruct R as (A1 & A2 & A3). eexists _, _, _. split; [reflexivity|]. repeat split; assumption.
Qed.
Lemma rest_ok B H okX bidir drop nl (l : layer TS X) : layer_ok B (width bidir H) H okX bidir l ->
  (forall d m, drop = Some d -> shape B (width bidir H) m -> shape B (width bidir H) (d m)) ->
  forall k i ts sts xs, length ts = k -> k <= length sts -> Forall (state_ok okX bidir) sts -> sequence B (width bidir H) xs ->
  exists os sts1 ts1, run_stack drop nl i (repeat l k) ts sts xs = Ok (os, sts1, ts1) /\ length os = length xs /\ sequence B (width bidir H) os /\ length sts1 = k /\ Forall (state_ok okX bidir) sts1.
Proof.
  intros Ll D. induction k as [|k IH]; intros i ts sts xs Lt Ls So F.
  - destruct ts; [|discriminate]. cbn. eexists _, _, _. split; [reflexivity|]. repeat split; [exact F|constructor].
  - destruct ts as [|t tr]; [discriminate|]. destruct sts as [|st sr]; [cbn in Ls; lia|]. inversion So as [|? ? S1 Sr]; subst. cbn [repeat run_stack].
    destruct (layer_run B _ H okX bidir l t st xs Ll S1 F) as (os & st1 & ts1 & E & L & G & S2). rewrite E. cbn [bind].
    set (os' := match drop with Some d => if i + 1 <? nl then map d os else os | None => os end).
    assert (G' : sequence B (width bidir H) os' /\ length os' = length xs).
    { unfold os'. destruct drop as [d|]; [|split; assumption]. destruct (_ <? _); [|split; assumption]. rewrite map_length. split; [|exact L]. apply Forall_map. eapply Forall_impl; [|exact G]. intros m. apply D. reflexivity. }
    destruct G' as [G1 G2]. destruct (IH (i + 1) tr sr os') as (ys & sts1 & ts2 & E2 & L2 & G3 & L3 & S3); [cbn in *; lia|cbn in *; lia|exact Sr|exact G1|]. rewrite E2. cbn [bind].
    eexists _, _, _. split; [reflexivity|]. repeat split; [lia|exact G3|cbn; lia|constructor; assumption].
Qed.
(** a network of [num_layers] layers, the first for inputs of width [n] and the others for the width of the outputs, run on any
    sequence and with enough states, succeeds; it returns one output per time step, of width [H] ([2 H] if bidirectional), and one
    state for each layer, fit for the next call *)
Theorem C135_shapes B n H okX bidir drop num_layers (first other : layer TS X) ts sts xs : 0 < num_layers ->
  layer_ok B n H okX bidir first -> layer_ok B (width bidir H) H okX bidir other ->
  (forall d m, drop = Some d -> shape B (width bidir H) m -> shape B (width bidir H) (d m)) ->
  length ts = num_layers -> num_layers <= length sts -> Forall (state_ok okX bidir) sts -> sequence B n xs ->
  exists os sts1 ts1, run_stack drop num_layers 0 (make_layers num_layers first other) ts sts xs = Ok (os, sts1, ts1)
  /\ length os = length xs /\ sequence B (width bidir H) os /\ length sts1 = num_layers /\ Forall (state_ok okX bidir) sts1.
Proof.
  intros P Lf Lo D Lt Ls So F. unfold make_layers. destruct ts as [|t tr]; [cbn in Lt; lia|]. destruct sts as [|st sr]; [cbn in Ls; lia|]. inversion So as [|? ? S1 Sr]; subst. cbn [run_stack].
  destruct (layer_run B _ H okX bidir first t st xs Lf S1 F) as (os & st1 & ts1 & E & L & G & S2). rewrite E. cbn [bind]. set (nl := length (t :: tr)) in *.
  set (os' := match drop with Some d => if 0 + 1 <? nl then map d os else os | None => os end).
  assert (G' : sequence B (width bidir H) os' /\ length os' = length xs).
  { unfold os'. destruct drop as [d|]; [|split; assumption]. destruct (_ <? _); [|split; assumption]. rewrite map_length. split; [|exact L]. apply Forall_map. eapply Forall_impl; [|exact G]. intros m. apply D. reflexivity. }
  destruct G' as [G1 G2]. destruct (rest_ok B H okX bidir drop nl other Lo D (nl - 1) (0 + 1) tr sr os') as (ys & sts1 & ts2 & E2 & L2 & G3 & L3 & S3); [cbn in *; lia|cbn in *; lia|exact Sr|exact G1|]. rewrite E2. cbn [bind].
  eexists _, _, _. split; [reflexivity|]. repeat split; [lia|exact G3|cbn in *; lia|constructor; assumption].
Qed.
(** there is always at least one layer *)
Theorem C135_layers num_layers (first other : layer TS X) : length (make_layers num_layers first other) = Nat.max 1 num_layers.
Proof. unfold make_layers. cbn [length]. rewrite repeat_length. lia. Qed.

(** the result is what the last layer returned: dropout is applied to the outputs of all other layers only *)
Theorem C135_last_not_dropped drop (ls : list (layer TS X)) l : forall i ts sts xs ys sts1 ts1, run_stack drop (i + length ls + 1) i (ls ++ [l]) ts sts xs = Ok (ys, sts1, ts1) ->
  exists t st zs st1 t1, run_layer l t st zs = Ok (ys, st1, t1) /\ nth_error ts (length ls) = Some t /\ nth_error sts (length ls) = Some st.
Proof.
  induction ls as [|m ls IH]; intros i ts sts xs ys sts1 ts1 E.
  - cbn [app run_stack length] in *. destruct ts as [|t tr]; [discriminate|]. destruct sts as [|st sr]; [discriminate|]. destruct (run_layer l t st xs) as [[[os st1] t1]|e] eqn:R; [|discriminate]. cbn [bind] in E.
    replace (i + 1 <? i + 0 + 1) with false in E by (symmetry; apply Nat.ltb_ge; lia). exists t, st, xs, st1, t1. assert (ys = os) as ->; [|repeat split; exact R]. destruct drop; destruct tr; cbn in E; congruence.
  - cbn [app run_stack length] in *. destruct ts as [|t tr]; [discriminate|]. destruct sts as [|st sr]; [discriminate|]. destruct (run_layer m t st xs) as [[[os st1] t1]|e]; [|discriminate]. cbn [bind] in E.
    replace (i + S (length ls) + 1) with (i + 1 + length ls + 1) in E by lia.
    match type of E with context [run_stack drop ?n (i+1) ?a tr sr ?z] => destruct (run_stack drop n (i+1) a tr sr z) as [[[p1 sts2] ts2]|e] eqn:R1; [|discriminate] end. apply IH in R1. cbn [bind] in E. injection E as <- _ _. exact R1.
Qed.
(** ... and to the outputs of every other layer *)
Theorem C135_others_dropped d (m : layer TS X) ls i nl t tr st sr xs : i + 1 < nl -> run_stack (Some d) nl i (m :: ls) (t :: tr) (st :: sr) xs =
  (r <- run_layer m t st xs ;; let '(os, st1, t1) := r in q <- run_stack (Some d) nl (i + 1) ls tr sr (map d os) ;; let '(ys, sts1, ts1) := q in Ok (ys, st1 :: sts1, t1 :: ts1)).
Proof. intros L. cbn [run_stack]. destruct (run_layer m t st xs) as [[[os st1] t1]|e]; [|reflexivity]. cbn [bind]. rewrite (proj2 (Nat.ltb_lt _ _) L). reflexivity. Qed.
(** a single layer ignores the dropout *)
Theorem C135_single_layer d l (ts : list (TS * TS)) (sts : list (rstate X)) xs : run_stack (Some d) 1 0 [l] ts sts xs = run_stack None 1 0 [l] ts sts xs.
Proof. destruct ts; [reflexivity|]. destruct sts; [reflexivity|]. cbn. destruct (run_layer l p r xs) as [[[? ?] ?]|]; reflexivity. Qed.
(** surplus states are ignored; missing ones end in an IndexError *)
Theorem C135_surplus drop nl (ls : list (layer TS X)) : forall i ts sts more xs, length ls <= length sts -> run_stack drop nl i ls ts (sts ++ more) xs = run_stack drop nl i ls ts sts xs.
Proof.
  induction ls as [|l lr IH]; intros i ts sts more xs L; [reflexivity|]. destruct sts as [|st sr]; [cbn in L; lia|]. destruct ts as [|t tr]; [reflexivity|]. cbn [app run_stack].
  destruct (run_layer l t st xs) as [[[os st1] t1]|e]; [|reflexivity]. cbn [bind]. rewrite IH by (cbn in L; lia). reflexivity.
Qed.
Theorem C135_missing drop nl (ls : list (layer TS X)) : Forall uni ls -> forall i ts sts xs, Forall (fun st => exists h, st = One h) sts -> length sts < length ls -> length ts = length ls ->
  run_stack drop nl i ls ts sts xs = Raise IndexError.
Proof.
  induction ls as [|l lr IH]; intros Fu i ts sts xs Fs L Lt; [cbn in L; lia|]. inversion Fu as [|? ? Ul Ur]; subst. destruct l as [f|f g]; [|contradiction]. destruct ts as [|t tr]; [discriminate|]. destruct sts as [|st sr]; [reflexivity|].
  inversion Fs as [|? ? [h ->] Fr]; subst. cbn [run_stack run_layer]. destruct (run f (fst t) h xs) as [[os h1] s1]. cbn [bind]. rewrite (IH Ur); [reflexivity|exact Fr|cbn in L; lia|cbn in Lt; lia].
Qed.
(** a bidirectional layer given a single state silently runs only the forward direction *)
Theorem C135_one_state_refuted (f g : cell TS X) ts h xs : exists os h1 s1,
  run_layer (Bi f g) ts (Many [h]) xs = Ok (os, Many [h1], (s1, snd ts)) /\ run_layer (Uni f) ts (One h) xs = Ok (os, One h1, (s1, snd ts)).
Proof. cbn. destruct (run f (fst ts) h xs) as [[os h1] s1]. eexists _, _, _. split; reflexivity. Qed.
(** without states the network starts from its zero states for as many samples as the first input has *)
Theorem C135_default drop nl ls zero (ts : list (TS * TS)) x xs : rnn_forward (X := X) drop nl ls zero ts None (x :: xs) = rnn_forward drop nl ls zero ts (Some (zero (length x))) (x :: xs).
Proof. reflexivity. Qed.
End Structure.

(** each tile is used exactly once in every time step (tiles that count their uses and return anything) *)
Section Uses.
Context (f : nat * nat -> mat -> mat) (H : nat).
Definition count1 : lin (nat * nat) := fun s x => (f s x, (fst s + 1, snd s)).
Definition count2 : lin (nat * nat) := fun s x => (f s x, (fst s, snd s + 1)).
Lemma run_count {X} (c : cell (nat * nat) X) (d1 d2 : nat) : (forall s h x, snd (c s h x) = (fst s + d1, snd s + d2)) -> forall xs s h, snd (run c s h xs) = (fst s + length xs * d1, snd s + length xs * d2).
Proof.
  intros E. induction xs as [|x r IH]; intros s h; [cbn; rewrite !Nat.add_0_r; destruct s; reflexivity|]. cbn [run]. specialize (E s h x). destruct (c s h x) as [[o h1] s1]. cbn in E. subst s1. specialize (IH (fst s + d1, snd s + d2) h1).
  destruct (run c (fst s + d1, snd s + d2) h1 r) as [[os h2] s2]. cbn in *. rewrite IH. f_equal; lia.
Qed.
Theorem C131_tile_uses s h c xs :
  snd (run (lstm_cell H count1 count2) s (h, c) xs) = (fst s + length xs, snd s + length xs)
  /\ snd (run (lstm_cell_combined H count1) s (h, c) xs) = (fst s + length xs, snd s)
  /\ snd (run (gru_cell H count1 count2) s h xs) = (fst s + length xs, snd s + length xs)
  /\ snd (run (rnn_cell count1 count2) s h xs) = (fst s + length xs, snd s + length xs).
Proof.
  repeat split.
  - rewrite (run_count _ 1 1); [f_equal; lia|]. intros s' [h' c'] x. unfold lstm_cell, count1, count2. destruct (lstm_gates _ _ _). reflexivity.
  - rewrite (run_count _ 1 0); [f_equal; lia|]. intros s' [h' c'] x. unfold lstm_cell_combined, count1. destruct (lstm_gates _ _ _). cbn. f_equal; lia.
  - rewrite (run_count _ 1 1); [f_equal; lia|]. intros s' h' x. reflexivity.
  - rewrite (run_count _ 1 1); [f_equal; lia|]. intros s' h' x. reflexivity.
Qed.
End Uses.

(** the cells fit: with linear layers of the right sizes they are [cell_ok] *)
Definition lin_ok {TS} (B n o : nat) (w : lin TS) : Prop := forall s x, shape B n x -> shape B o (fst (w s x)).
Section Cells.
Context {TS : Type} (B n H : nat) (wih whh : lin TS).
Lemma tabbed m r c : shape r c m -> exists f, m = tab r c f.
Proof. intros Sm. eexists. apply tab_el. exact Sm. Qed.
Theorem C135_lstm : lin_ok B n (4 * H) wih -> lin_ok B H (4 * H) whh -> cell_ok B n H (fun hc => shape B H (fst hc) /\ shape B H (snd hc)) (lstm_cell H wih whh).
Proof.
  intros W1 W2 s [h c] x [Oh Oc] Sx. cbn [fst snd] in *. unfold lstm_cell. specialize (W1 s x Sx). destruct (wih s x) as [a s1]. specialize (W2 s1 h Oh). destruct (whh s1 h) as [b s2]. cbn [fst] in *.
  destruct (tabbed _ _ _ W1) as [fa ->], (tabbed _ _ _ W2) as [fb ->], (tabbed _ _ _ Oc) as [fc ->]. rewrite madd_tab, lstm_gates_tab. cbn. repeat split; apply tab_shape.
Qed.
Theorem C135_gru : lin_ok B n (3 * H) wih -> lin_ok B H (3 * H) whh -> cell_ok B n H (shape B H) (gru_cell H wih whh).
Proof.
  intros W1 W2 s h x Oh Sx. unfold gru_cell. specialize (W1 s x Sx). destruct (wih s x) as [a s1]. specialize (W2 s1 h Oh). destruct (whh s1 h) as [b s2]. cbn [fst] in *.
  destruct (tabbed _ _ _ W1) as [fa ->], (tabbed _ _ _ W2) as [fb ->], (tabbed _ _ _ Oh) as [fc ->]. rewrite !chunk_tab by lia. rewrite !madd_tab, !mmap_tab, !mmul_tab, !madd_tab, !mmap_tab, !msub_tab, !mmul_tab, !madd_tab. split; apply tab_shape.
Qed.
Theorem C135_rnn : lin_ok B n H wih -> lin_ok B H H whh -> cell_ok B n H (shape B H) (rnn_cell wih whh).
Proof.
  intros W1 W2 s h x Oh Sx. unfold rnn_cell. specialize (W1 s x Sx). destruct (wih s x) as [a s1]. specialize (W2 s1 h Oh). destruct (whh s1 h) as [b s2]. cbn [fst] in *.
  destruct (tabbed _ _ _ W1) as [fa ->], (tabbed _ _ _ W2) as [fb ->]. rewrite madd_tab, mmap_tab. split; apply tab_shape.
Qed.
End Cells.
Lemma zeros_shape B H : shape B H (zeros B H).
Proof. split; [apply repeat_length|]. apply Forall_forall. intros r Hr. apply repeat_spec in Hr. subst r. apply repeat_length. Qed.
Lemma ideal_ok {TS} W b B n o : shape o n W -> length b = o -> lin_ok (TS := TS) B n o (ideal W b).
Proof. intros SW Lb s x Sx. destruct (tabbed _ _ _ Sx) as [f ->]. rewrite (ideal_tab s W b B n o f SW Lb). apply tab_shape. Qed.

(** ** the hypotheses are met *)
Lemma unit_ok : cell_ok 1 1 1 (shape 1 1) unit_cell.
Proof. apply C135_rnn; apply ideal_ok; try reflexivity; repeat constructor. Qed.
Example C135_nontrivial : exists os sts1 ts1, run_stack (Some (fun m : mat => mmap (fun v => (2 * v)%R) m)) 2 0 (make_layers 2 (Uni unit_cell) (Uni unit_cell)) [(tt, tt); (tt, tt)] [One (zeros 1 1); One (zeros 1 1)] [[[1%R]]; [[0%R]]] = Ok (os, sts1, ts1)
  /\ length os = 2 /\ sequence 1 1 os /\ length sts1 = 2.
Proof.
  destruct (C135_shapes 1 1 1 (shape 1 1) false (Some (fun m : mat => mmap (fun v => (2 * v)%R) m)) 2 (Uni unit_cell) (Uni unit_cell) [(tt, tt); (tt, tt)] [One (zeros 1 1); One (zeros 1 1)] [[[1%R]]; [[0%R]]]) as (os & s & t & E & L & F & L2 & _).
  1: lia. 1,2: exact unit_ok. 2,3: cbn; lia. 2: repeat constructor. 2: repeat constructor.
  - intros d m [= <-] Sm. cbn [width] in *. destruct (tabbed _ _ _ Sm) as [f ->]. rewrite mmap_tab. apply tab_shape.
  - exists os, s, t. repeat split; assumption.
Qed.
Example C131_nontrivial : Forall uni [Uni unit_cell; Uni unit_cell] /\ exists o s t, run_stack None 2 0 [Uni unit_cell; Uni unit_cell] [(tt, tt); (tt, tt)] [One [[0%R]]; One [[0%R]]] ([[[1%R]]] ++ [[[0%R]]]) = Ok (o, s, t).
Proof. split; [repeat constructor|]. eexists _, _, _. reflexivity. Qed.
Example C132_nontrivial : exists ys zs : list mat, ys <> zs /\ (exists o s t, run_stack None 1 0 [Uni unit_cell] [(tt, tt)] [One [[0%R]]] ([[[1%R]]] ++ ys) = Ok (o, s, t)) /\ (exists o s t, run_stack None 1 0 [Uni unit_cell] [(tt, tt)] [One [[0%R]]] ([[[1%R]]] ++ zs) = Ok (o, s, t)).
Proof. exists [[[0%R]]], []. split; [discriminate|]. split; eexists _, _, _; reflexivity. Qed.
Example C133_nontrivial : rowwise (TS := unit) (ideal [[1%R]] [0%R]) /\ Forall (fun x : mat => length x = 2) [[[1%R]; [0%R]]] /\ forall b, List.In b [1; 0; 1] -> b < 2.
Proof. split; [eexists; reflexivity|]. split; [repeat constructor|]. intros b [<-|[<-|[<-|[]]]]; lia. Qed.
Example C134_nontrivial : below 0 (zeros 2 3) /\ below 1 (zeros 2 3).
Proof. unfold below, entries, zeros. cbn. split; repeat constructor; rewrite Rabs_R0; lra. Qed.

Print Assumptions C131_bidirectional_refuted.
Print Assumptions C135_shapes.
Print Assumptions C135_layers.
Print Assumptions C135_last_not_dropped.
Print Assumptions C135_others_dropped.
Print Assumptions C135_single_layer.
Print Assumptions C135_surplus.
Print Assumptions C135_missing.
Print Assumptions C135_one_state_refuted.
Print Assumptions C135_default.
Print Assumptions C135_lstm.
Print Assumptions C135_gru.
Print Assumptions C135_rnn.

Print Assumptions C130_sigmoid.
Print Assumptions C131_tile_uses.
