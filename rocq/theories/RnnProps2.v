(** * C131-C135: processing in pieces, causality, independence of the samples, bounds, structure *)
From Verif Require Import Prelude RnnModel CnnModel CnnProofs RnnSpec RnnProofs RnnProps.
From Coq Require Import Rtrigo_def.
Local Open Scope nat_scope.

(** ** C131: a sequence can be processed in pieces, handing over the states, in every unidirectional network, for arbitrary
    (noisy, stateful) tiles *)
Definition uni {TS X} (l : layer TS X) : Prop := match l with Uni _ => True | Bi _ _ => False end.
Section Pieces.
Context {TS X : Type}.
Theorem C131_pieces (drop : option (mat -> mat)) nl (ls : list (layer TS X)) : Forall uni ls -> forall i ts sts xs ys,
  run_stack drop nl i ls ts sts (xs ++ ys) =
  (r <- run_stack drop nl i ls ts sts xs ;;
   let '(o1, sts1, ts1) := r in
   q <- run_stack drop nl i ls ts1 sts1 ys ;;
   let '(o2, sts2, ts2) := q in Ok (o1 ++ o2, sts2, ts2)).
Proof.
  induction ls as [|l lr IH]; intros Fu i ts sts xs ys; [reflexivity|]. inversion Fu as [|? ? Ul Ur]; subst. destruct l as [f|f g]; [|contradiction].
  cbn [run_stack]. destruct ts as [|t tr]; [reflexivity|]. destruct sts as [|st sr]; [reflexivity|]. destruct st as [h|hs]; [|reflexivity]. cbn [run_layer].
  rewrite run_app. destruct (run f (fst t) h xs) as [[o1 h1] s1] eqn:R1. destruct (run f s1 h1 ys) as [[o2 h2] s2] eqn:R2. cbn [bind].
  set (D := fun os : list mat => match drop with Some d => if i + 1 <? nl then map d os else os | None => os end).
  change (match drop with Some d => if i + 1 <? nl then map d (o1 ++ o2) else o1 ++ o2 | None => o1 ++ o2 end) with (D (o1 ++ o2)).
  change (match drop with Some d => if i + 1 <? nl then map d o1 else o1 | None => o1 end) with (D o1).
  replace (D (o1 ++ o2)) with (D o1 ++ D o2) by (unfold D; destruct drop; [destruct (_ <? _); [rewrite map_app|]|]; reflexivity).
  rewrite (IH Ur). destruct (run_stack drop nl (i + 1) lr tr sr (D o1)) as [[[p1 sts1] ts1]|e]; [|reflexivity]. cbn [bind]. cbn [run_stack run_layer fst snd]. rewrite R2. cbn [bind].
  change (match drop with Some d => if i + 1 <? nl then map d o2 else o2 | None => o2 end) with (D o2).
  destruct (run_stack drop nl (i + 1) lr ts1 sts1 (D o2)) as [[[p2 sts2] ts2]|e]; reflexivity.
Qed.
(** ** C132: outputs of a unidirectional network never depend on later inputs *)
Lemma run_stack_length (drop : option (mat -> mat)) nl (ls : list (layer TS X)) : Forall uni ls -> forall i ts sts xs o st1 ts1, run_stack drop nl i ls ts sts xs = Ok (o, st1, ts1) -> length o = length xs.
Proof.
  induction ls as [|l lr IH]; intros Fu i ts sts xs o st1 ts1 E; [cbn in E; destruct ts; injection E as <- _ _; reflexivity|]. inversion Fu as [|? ? Ul Ur]; subst. destruct l as [f|f g]; [|contradiction].
  cbn [run_stack] in E. destruct ts as [|t tr]; [discriminate|]. destruct sts as [|st sr]; [discriminate|]. destruct st as [h|hs]; [|discriminate]. cbn [run_layer] in E.
  pose proof (run_length f (fst t) h xs) as L. destruct (run f (fst t) h xs) as [[o1 h1] s1]. cbn [bind fst] in *.
  match type of E with context [run_stack drop nl (i+1) lr tr sr ?z] => destruct (run_stack drop nl (i+1) lr tr sr z) as [[[p1 sts1] ts2]|e] eqn:R1; [|discriminate]; apply (IH Ur) in R1 end.
  injection E as <- _ _. rewrite R1. destruct drop; [destruct (_ <? _); [rewrite map_length|]|]; exact L.
Qed.
Theorem C132_causal (drop : option (mat -> mat)) nl (ls : list (layer TS X)) ts sts xs ys zs o1 sts1 ts1 o2 sts2 ts2 : Forall uni ls ->
  run_stack drop nl 0 ls ts sts (xs ++ ys) = Ok (o1, sts1, ts1) -> run_stack drop nl 0 ls ts sts (xs ++ zs) = Ok (o2, sts2, ts2) ->
  firstn (length xs) o1 = firstn (length xs) o2.
Proof.
  intros Fu. rewrite !(C131_pieces drop nl ls Fu). destruct (run_stack drop nl 0 ls ts sts xs) as [[[o s] t]|e] eqn:R; [|discriminate]. cbn [bind].
  apply (run_stack_length drop nl ls Fu) in R.
  destruct (run_stack drop nl 0 ls t s ys) as [[[p q] r]|e]; [|discriminate]. destruct (run_stack drop nl 0 ls t s zs) as [[[p' q'] r']|e]; [|discriminate]. cbn [bind].
  intros [= <- _ _] [= <- _ _]. rewrite !firstn_app, <- R, Nat.sub_diag, !firstn_all. reflexivity.
Qed.
(** the output of the bidirectional layer at time [t]: first the last output of the forward cell over the inputs up to [t], then the
    last output of the backward cell over the reversed inputs from the end to [t] *)
Lemma run_nth (f : cell TS X) s h xs t : t < length xs -> nth t (fst (fst (run f s h xs))) [] = last (fst (fst (run f s h (firstn (t + 1) xs)))) [].
Proof.
  intros L. rewrite <- (firstn_skipn (t + 1) xs) at 1. rewrite run_app. pose proof (run_length f s h (firstn (t + 1) xs)) as Lo. destruct (run f s h (firstn (t + 1) xs)) as [[o1 h1] s1]. destruct (run f s1 h1 (skipn (t + 1) xs)) as [[o2 h2] s2]. cbn [fst] in *.
  rewrite firstn_length_le in Lo by lia. rewrite app_nth1 by lia. destruct (exists_last (l := o1)) as (q & z & ->); [intros ->; cbn in Lo; lia|]. rewrite app_length in Lo. cbn in Lo. rewrite last_last, app_nth2 by lia. replace (t - length q) with 0 by lia. reflexivity.
Qed.
Theorem C132_bidirectional (f g : cell TS X) ts h k rest xs t : t < length xs -> 
  exists os st ts', run_layer (Bi f g) ts (Many (h :: k :: rest)) xs = Ok (os, st, ts')
  /\ nth t os [] = map2 (@app R) (last (fst (fst (run f (fst ts) h (firstn (t + 1) xs)))) []) (last (fst (fst (run g (snd ts) k (rev (skipn t xs))))) []).
Proof.
  intros L. cbn [run_layer]. pose proof (run_nth f (fst ts) h xs t L) as N1. pose proof (run_length f (fst ts) h xs) as L1.
  destruct (run f (fst ts) h xs) as [[os h1] s1]. unfold run_reverse.
  pose proof (run_nth g (snd ts) k (rev xs) (length xs - 1 - t)) as N2. rewrite rev_length in N2. specialize (N2 ltac:(lia)). pose proof (run_length g (snd ts) k (rev xs)) as L2. rewrite rev_length in L2.
  replace (length xs - 1 - t + 1) with (length xs - t) in N2 by lia. rewrite firstn_rev in N2. replace (length xs - (length xs - t)) with t in N2 by lia.
  destruct (run g (snd ts) k (rev xs)) as [[ps k1] s2]. cbn [fst] in *. eexists _, _, _. split; [reflexivity|].
  rewrite <- N1. rewrite <- N2.
  assert (G : forall (a b : list mat) t, t < length a -> t < length b -> nth t (map2 (map2 (@app R)) a b) [] = map2 (@app R) (nth t a []) (nth t b [])).
  { clear. induction a as [|x a IH]; intros [|y b] t H1 H2; cbn in *; try lia. destruct t; [reflexivity|]. apply IH; lia. }
  rewrite G by (rewrite ?rev_length; lia). f_equal. rewrite rev_nth by lia. rewrite L2. f_equal. lia.
Qed.
End Pieces.

(** ** C133: the samples of a batch do not influence each other *)
Definition pick (idx : list nat) (m : mat) : mat := map (fun b => nth b m []) idx.
Definition rowwise {TS} (l : lin TS) : Prop := exists f, forall s m, l s m = (map f m, s).
Lemma pick_map idx f (m : mat) : (forall b, List.In b idx -> b < length m) -> pick idx (map f m) = map f (pick idx m).
Proof. intros L. unfold pick. rewrite map_map. apply map_ext_in. intros b Hb. rewrite (nth_indep _ [] (f [])) by (rewrite map_length; apply L; exact Hb). apply map_nth. Qed.
Lemma pick_map2 idx f (m k : mat) : (forall b, List.In b idx -> b < length m) -> (forall b, List.In b idx -> b < length k) -> pick idx (map2 f m k) = map2 f (pick idx m) (pick idx k).
Proof.
  intros L1 L2. unfold pick. rewrite map2_map_same. apply map_ext_in. intros b Hb. specialize (L1 b Hb). specialize (L2 b Hb). clear - L1 L2. revert k b L1 L2. induction m as [|x m IH]; intros [|y k] b L1 L2; cbn in *; try lia. destruct b; [reflexivity|]. apply IH; lia.
Qed.
Section Batch.
Context {TS : Type} (B H : nat) (idx : list nat) (Hidx : forall b, List.In b idx -> b < B).
Definition pick2 (p : mat * mat) : mat * mat := (pick idx (fst p), pick idx (snd p)).
Lemma run_pick {X} (f : cell TS X) (ok : X -> Prop) (pk : X -> X) s h xs : ok h -> Forall (fun x => length x = B) xs ->
  (forall s h x, ok h -> length x = B -> let '(o, h1, s1) := f s h x in ok h1 /\ f s (pk h) (pick idx x) = (pick idx o, pk h1, s1)) ->
  let '(os, hT, s1) := run f s h xs in run f s (pk h) (map (pick idx) xs) = (map (pick idx) os, pk hT, s1).
Proof.
  intros Ok F St. revert s h Ok. induction F as [|x r Lx Fr IH]; intros s h Ok; cbn; [reflexivity|]. specialize (St s h x Ok Lx) as K. destruct (f s h x) as [[o h1] s1]. destruct K as [K1 K2]. rewrite K2.
  specialize (IH s1 h1 K1). destruct (run f s1 h1 r) as [[os hT] s2]. rewrite IH. reflexivity.
Qed.
Ltac len := unfold mat, vec, vadd, vmul in *; repeat rewrite ?map_length, ?map2_length; lia.
Ltac pk := repeat first [rewrite pick_map by (let b := fresh in let h := fresh in intros b h; apply Hidx in h; len) | rewrite pick_map2 by (let b := fresh in let h := fresh in intros b h; apply Hidx in h; len)].
Lemma gates_pick (g c : mat) : length g = B -> length c = B -> 
  lstm_gates H (pick idx g) (pick idx c) = pick2 (lstm_gates H g c) /\ length (fst (lstm_gates H g c)) = B /\ length (snd (lstm_gates H g c)) = B.
Proof.
  intros Lg Lc. unfold lstm_gates, pick2, madd, mmul, mmap, chunk. cbn [fst snd]. split; [|split; len].
  f_equal; symmetry; pk; reflexivity.
Qed.
(** running any selection of the samples (in any order, also repeated) gives the selection of the results *)
Theorem C133_lstm (wih whh : lin TS) s h c xs : rowwise wih -> rowwise whh -> length h = B -> length c = B -> Forall (fun x => length x = B) xs ->
  let '(os, hc, s1) := run (lstm_cell H wih whh) s (h, c) xs in run (lstm_cell H wih whh) s (pick idx h, pick idx c) (map (pick idx) xs) = (map (pick idx) os, pick2 hc, s1).
Proof.
  intros [fi Ei] [fh Eh] Lh Lc F. change (pick idx h, pick idx c) with (pick2 (h, c)). apply (run_pick (lstm_cell H wih whh) (fun p => length (fst p) = B /\ length (snd p) = B)); [auto|exact F|].
  intros s' [h' c'] x [L1 L2] Lx. cbn [fst snd] in *. unfold lstm_cell, pick2. cbn [fst snd]. rewrite !Ei, !Eh.
  destruct (gates_pick (madd (map fi x) (map fh h')) c') as (G1 & G2 & G3); [unfold madd; rewrite map2_length, !map_length; lia|exact L2|].
  assert (Eg : madd (map fi (pick idx x)) (map fh (pick idx h')) = pick idx (madd (map fi x) (map fh h'))).
  { unfold madd. rewrite pick_map2 by (intros; rewrite map_length; rewrite ?L1, ?Lx; auto). rewrite !pick_map by (intros; rewrite ?L1, ?Lx; auto). reflexivity. }
  rewrite Eg, G1. destruct (lstm_gates H (madd (map fi x) (map fh h')) c') as [hy cy]. cbn in *. auto.
Qed.
Theorem C133_gru (wih whh : lin TS) s h xs : rowwise wih -> rowwise whh -> length h = B -> Forall (fun x => length x = B) xs ->
  let '(os, hT, s1) := run (gru_cell H wih whh) s h xs in run (gru_cell H wih whh) s (pick idx h) (map (pick idx) xs) = (map (pick idx) os, pick idx hT, s1).
Proof.
  intros [fi Ei] [fh Eh] Lh F. apply (run_pick (gru_cell H wih whh) (fun p => length p = B)); [exact Lh|exact F|].
  intros s' h' x L1 Lx. unfold gru_cell. rewrite !Ei, !Eh. unfold madd, mmul, msub, mmap, chunk. split; [len|].
  assert (Ex : map fi (pick idx x) = pick idx (map fi x)) by (symmetry; apply pick_map; intros; rewrite Lx; auto).
  assert (Eh' : map fh (pick idx h') = pick idx (map fh h')) by (symmetry; apply pick_map; intros; rewrite L1; auto).
  rewrite Ex, Eh'. assert (Lx' : length (map fi x) = B) by (rewrite map_length; exact Lx). assert (Lh' : length (map fh h') = B) by (rewrite map_length; exact L1).
  f_equal; f_equal; symmetry; pk; reflexivity.
Qed.
Theorem C133_rnn (wih whh : lin TS) s h xs : rowwise wih -> rowwise whh -> length h = B -> Forall (fun x => length x = B) xs ->
  let '(os, hT, s1) := run (rnn_cell wih whh) s h xs in run (rnn_cell wih whh) s (pick idx h) (map (pick idx) xs) = (map (pick idx) os, pick idx hT, s1).
Proof.
  intros [fi Ei] [fh Eh] Lh F. apply (run_pick (rnn_cell wih whh) (fun p => length p = B)); [exact Lh|exact F|].
  intros s' h' x L1 Lx. unfold rnn_cell. rewrite !Ei, !Eh. unfold madd, mmap. split; [len|].
  f_equal; f_equal; symmetry; pk; reflexivity.
Qed.
End Batch.

(** ** C134: the states stay bounded, whatever the tiles return *)
Definition entries (P : R -> Prop) (m : mat) : Prop := Forall (Forall P) m.
Lemma entries_map f (P Q : R -> Prop) m : entries P m -> (forall x, P x -> Q (f x)) -> entries Q (mmap f m).
Proof. intros F E. unfold entries, mmap. apply Forall_map. eapply Forall_impl; [|exact F]. intros r Fr. apply Forall_map. eapply Forall_impl; [|exact Fr]. exact E. Qed.
Lemma Forall_map2 {A B C} (f : A -> B -> C) (P : A -> Prop) (Q : B -> Prop) (S : C -> Prop) a b : Forall P a -> Forall Q b -> (forall x y, P x -> Q y -> S (f x y)) -> Forall S (map2 f a b).
Proof. intros Fa. revert b. induction Fa as [|x a Px Fa IH]; intros b Fb E; [constructor|]. destruct Fb as [|y b Qy Fb]; [constructor|]. cbn. constructor; [auto|]. apply IH; auto. Qed.
Lemma entries_map2 f (P Q S : R -> Prop) m k : entries P m -> entries Q k -> (forall x y, P x -> Q y -> S (f x y)) -> entries S (map2 (map2 f) m k).
Proof. intros F1 F2 E. unfold entries in *. eapply Forall_map2; [exact F1|exact F2|]. intros r q Fr Fq. eapply Forall_map2; [exact Fr|exact Fq|exact E]. Qed.
Lemma entries_any m : entries (fun _ => True) m.
Proof. unfold entries. apply Forall_forall. intros r _. apply Forall_forall. auto. Qed.
Local Open Scope R_scope.
Lemma sigmoid_range x : 0 < sigmoid x < 1.
Proof.
  unfold sigmoid. pose proof (exp_pos (- x)) as E. split.
  - apply Rdiv_lt_0_compat; lra.
  - apply (Rmult_lt_reg_r (1 + exp (- x))); [lra|]. unfold Rdiv. rewrite Rmult_assoc, Rinv_l by lra. lra.
Qed.
Lemma tanh_range x : Rabs (tanh x) < 1.
Proof.
  unfold tanh, sinh, cosh. pose proof (exp_pos x) as E1. pose proof (exp_pos (- x)) as E2. apply Rabs_def1.
  - apply (Rmult_lt_reg_r ((exp x + exp (- x)) / 2)); [lra|]. unfold Rdiv. rewrite (Rmult_assoc _ (/ ((exp x + exp (- x)) * / 2))), Rinv_l by lra. lra.
  - apply (Rmult_lt_reg_r ((exp x + exp (- x)) / 2)); [lra|]. unfold Rdiv. rewrite (Rmult_assoc _ (/ ((exp x + exp (- x)) * / 2))), Rinv_l by lra. lra.
Qed.
Definition below (c : R) (m : mat) : Prop := entries (fun v => Rabs v <= c) m.
Definition strictly_below (c : R) (m : mat) : Prop := entries (fun v => Rabs v < c) m.
Lemma mult_lt_1 a b : 0 < a < 1 -> Rabs b < 1 -> Rabs (a * b) < 1.
Proof. intros A Hb. rewrite Rabs_mult, (Rabs_right a) by lra. pose proof (Rabs_pos b). nra. Qed.
(** LSTM: outputs are below 1 and the cell state grows by at most 1 in each step *)
Theorem C134_lstm {TS} (H : nat) (wih whh : lin TS) s h c xs c0 : below c0 c ->
  let '(os, (hT, cT), _) := run (lstm_cell H wih whh) s (h, c) xs in
  Forall (strictly_below 1) os /\ below (c0 + INR (length xs)) cT /\ (strictly_below 1 h \/ xs <> [] -> strictly_below 1 hT).
Proof.
  assert (G : forall g c c0, below c0 c -> strictly_below 1 (fst (lstm_gates H g c)) /\ below (c0 + 1) (snd (lstm_gates H g c))).
  { intros g c' c1 Hc. unfold lstm_gates. cbn [fst snd].
    assert (Sg : forall k, entries (fun v => 0 < v < 1) (mmap sigmoid (chunk H k g))) by (intros k; eapply entries_map; [apply entries_any|]; intros v _; apply sigmoid_range).
    assert (Tg : forall m, strictly_below 1 (mmap tanh m)) by (intros m; eapply entries_map; [apply entries_any|]; intros v _; apply tanh_range).
    split.
    - eapply (entries_map2 Rmult); [apply Sg|apply Tg|]. cbn. apply mult_lt_1.
    - eapply (entries_map2 Rplus (fun v => Rabs v <= c1) (fun v => Rabs v < 1)); [eapply (entries_map2 Rmult); [apply Sg|exact Hc|]| |].
      + cbn. intros a b Ha Hb. assert (Q : Rabs (a * b) <= c1); [|exact Q]. rewrite Rabs_mult, (Rabs_right a) by lra. pose proof (Rabs_pos b). nra.
      + eapply (entries_map2 Rmult (fun v => 0 < v < 1) (fun v => Rabs v < 1) (fun v => Rabs v < 1)); [apply Sg|apply Tg|apply mult_lt_1].
      + cbn. intros a b Ha Hb. eapply Rle_trans; [apply Rabs_triang|]. lra. }
  revert s h c c0. induction xs as [|x r IH]; intros s h c c0 Hc; cbn [run length].
  - split; [constructor|]. rewrite Rplus_0_r. split; [exact Hc|]. intros [K|K]; [exact K|congruence].
  - unfold lstm_cell at 1. destruct (wih s x) as [a s1]. destruct (whh s1 h) as [b s2]. specialize (G (madd a b) c c0 Hc). destruct (lstm_gates H (madd a b) c) as [hy cy]. cbn [fst snd] in G. destruct G as [G1 G2].
    specialize (IH s2 hy cy (c0 + 1) G2). destruct (run (lstm_cell H wih whh) s2 (hy, cy) r) as [[os [hT cT]] s3]. destruct IH as (I1 & I2 & I3). split; [constructor; assumption|]. rewrite S_INR.
    split; [|intros _; apply I3; left; exact G1]. replace (c0 + (INR (length r) + 1)) with (c0 + 1 + INR (length r)) by ring. exact I2.
Qed.
(** GRU: a bound of at least 1 on the initial state holds for all outputs and states *)
Theorem C134_gru {TS} (H : nat) (wih whh : lin TS) s h xs c0 : 1 <= c0 -> below c0 h ->
  let '(os, hT, _) := run (gru_cell H wih whh) s h xs in Forall (below c0) os /\ below c0 hT.
Proof.
  intros L. revert s h. induction xs as [|x r IH]; intros s h Hh; cbn [run]; [split; [constructor|exact Hh]|].
  unfold gru_cell at 1. destruct (wih s x) as [gi s1]. destruct (whh s1 h) as [gh s2]. set (n := mmap tanh _). set (z := mmap sigmoid (madd (chunk H 1 gi) (chunk H 1 gh))).
  assert (Hn : strictly_below 1 n) by (eapply entries_map; [apply entries_any|]; intros v _; apply tanh_range).
  assert (Hz : entries (fun v => 0 < v < 1) z) by (eapply entries_map; [apply entries_any|]; intros v _; apply sigmoid_range).
  assert (K : below c0 (madd n (mmul z (msub h n)))).
  { clearbody n z. clear - Hh Hn Hz L. unfold below, strictly_below, entries, madd, mmul, msub in *. revert z h Hz Hh. induction Hn as [|nr n Hnr Hn IHm]; intros z h Hz Hh; [constructor|].
    destruct Hh as [|hr h Hhr Hh]; [destruct Hz; cbn; constructor|]. destruct Hz as [|zr z Hzr Hz]; [cbn; constructor|]. cbn [map2]. constructor; [|apply IHm; assumption].
    clear - Hnr Hhr Hzr L. unfold vadd, vmul. revert zr hr Hzr Hhr. induction Hnr as [|v nr Hv Hnr IHr]; intros zr hr Hzr Hhr; [constructor|]. destruct Hhr as [|u hr Hu Hhr]; [destruct Hzr; cbn; constructor|]. destruct Hzr as [|w zr Hw Hzr]; [cbn; constructor|]. cbn. constructor; [|apply IHr; assumption].
    apply Rabs_def2 in Hv. assert (Hu' : - c0 <= u <= c0) by (revert Hu; unfold Rabs; destruct (Rcase_abs u); intros; lra). apply Rabs_le. split; nra. }
  specialize (IH s2 _ K). destruct (run (gru_cell H wih whh) s2 (madd n (mmul z (msub h n))) r) as [[os hT] s3]. destruct IH as [I1 I2]. split; [constructor; assumption|exact I2].
Qed.
Theorem C134_rnn {TS} (wih whh : lin TS) s h xs : let '(os, hT, _) := run (rnn_cell wih whh) s h xs in Forall (strictly_below 1) os /\ (xs <> [] -> strictly_below 1 hT).
Proof.
  revert s h. induction xs as [|x r IH]; intros s h; cbn [run]; [split; [constructor|congruence]|]. unfold rnn_cell at 1. destruct (wih s x) as [gi s1]. destruct (whh s1 h) as [gh s2]. set (o := mmap tanh _).
  assert (Ho : strictly_below 1 o) by (eapply entries_map; [apply entries_any|]; intros v _; apply tanh_range). specialize (IH s2 o).
  destruct r as [|y r]; [cbn; split; [constructor; [exact Ho|constructor]|intros _; exact Ho]|]. destruct (run (rnn_cell wih whh) s2 o (y :: r)) as [[os hT] s3]. destruct IH as [I1 I2]. split; [constructor; assumption|]. intros _. apply I2. discriminate.
Qed.

Print Assumptions C131_pieces.
Print Assumptions C132_causal.
Print Assumptions C132_bidirectional.
Print Assumptions C133_lstm.
Print Assumptions C133_gru.
Print Assumptions C133_rnn.
Print Assumptions C134_lstm.
Print Assumptions C134_gru.
Print Assumptions C134_rnn.
