(** * Offsets of the fast crossbar in dynamic transfer (C158) and checkpoints (C159) *)
From Verif Require Import Prelude Rand DevModel PulseModel CompModel TransModel TransSpec TransProofs AgdModel AgdSpec AgdProofs AgdProps AgdProps2 AgdProps3.
Local Open Scope R_scope.

Lemma step_schedule c s e : g_upd (a_step c s e) = match e with AUp _ _ _ _ _ => S (g_upd s) | ASet => 0%nat end /\
  g_idx (a_step c s e) = match e with AUp _ _ ev _ _ => if (Nat.ltb 0 ev && (S (g_upd s) mod ev =? 0)%nat)%bool then ((g_idx s + 1) mod a_in c)%nat else g_idx s | ASet => 0%nat end.
Proof. destruct e as [lr cl ev val coin|]; [|split; reflexivity]. cbn [a_step]. change (g_upd (a_count s)) with (S (g_upd s)). destruct (_ && _)%bool; [|split; reflexivity]. unfold a_transfer, a_read. destruct (Reqb lr 0); split; reflexivity. Qed.
Lemma existsb_seq_ext n f g : (forall j, (j < n)%nat -> f j = g j) -> existsb f (seq 0 n) = existsb g (seq 0 n).
Proof.
  intros H. assert (X : forall l, (forall j, List.In j l -> (j < n)%nat) -> existsb f l = existsb g l). { induction l as [|a l IH]; intros Hl; [reflexivity|]. cbn [existsb]. rewrite H by (apply Hl; now left). rewrite IH; [reflexivity|]. intros. apply Hl. now right. }
  apply X. intros j Hj. apply in_seq in Hj. lia.
Qed.
Lemma shift_step c O s s' e e' : (0 < a_in c)%nat -> g_shifted c O s s' -> g_related c O s [e] [e'] ->
  g_shifted c O (a_step c s e) (a_step c s' e') /\ exists l l', g_log (a_step c s e) = l ++ g_log s /\ g_log (a_step c s' e') = l' ++ g_log s' /\ Forall2 (same_decisions c) l l'.
Proof.
  intros P (Sh & Si & So & Sw & Sc & Sx & Su & Lx) [Rl _]. destruct (step_schedule c s e) as [U1 X1]. destruct (step_schedule c s' e') as [U2 X2].
  assert (Sch : g_idx (a_step c s' e') = g_idx (a_step c s e) /\ g_upd (a_step c s' e') = g_upd (a_step c s e) /\ (g_idx (a_step c s e) < a_in c)%nat).
  { rewrite U1, U2, X1, X2. destruct e as [lr cl ev val coin|], e' as [lr' cl' ev' val' coin'|]; try contradiction; [|repeat split; lia]. destruct Rl as (-> & -> & -> & -> & _). rewrite Su, Sx. destruct (_ && _)%bool; repeat split; try lia. apply Nat.mod_upper_bound. lia. }
  destruct Sch as (Sc1 & Sc2 & Sc3).
  assert (Quiet : same_core s (a_step c s e) -> same_core s' (a_step c s' e') -> g_shifted c O (a_step c s e) (a_step c s' e') /\ exists l l', g_log (a_step c s e) = l ++ g_log s /\ g_log (a_step c s' e') = l' ++ g_log s' /\ Forall2 (same_decisions c) l l').
  { intros (A1 & A2 & A3 & A4 & A5 & A6 & A7 & A8) (B1 & B2 & B3 & B4 & B5 & B6 & B7 & B8). split; [|exists (@nil ard), (@nil ard); rewrite A8, B8; repeat split; constructor]. unfold g_shifted. rewrite A1, A2, A3, A4, A5, A6, A7, B1, B2, B3, B4, B5, B6, B7. repeat split; auto; apply Sh; assumption. }
  destruct e as [lr cl ev val coin|], e' as [lr' cl' ev' val' coin'|]; try contradiction; [|apply Quiet; repeat split]. destruct Rl as (-> & -> & -> & -> & Rv).
  set (due := (Nat.ltb 0 ev && (S (g_upd s) mod ev =? 0)%nat)%bool). assert (Dn : due = false \/ lr = 0 -> same_core s (a_step c s (AUp lr cl ev val coin)) /\ same_core s' (a_step c s' (AUp lr cl ev val' coin))).
  { intros D. cbn [a_step]. change (g_upd (a_count s')) with (S (g_upd s')). change (g_upd (a_count s)) with (S (g_upd s)). rewrite Su. fold due. destruct D as [-> | ->]; [split; repeat split|]. destruct due; [|split; repeat split]. unfold a_transfer, a_read. rewrite (proj2 (Reqb_true 0 0) eq_refl). split; repeat split. }
  destruct (Req_EM_T lr 0) as [Z|N]; [destruct Dn as [D1 D2]; [now right | now apply Quiet]|]. destruct due eqn:Du; [|destruct Dn as [D1 D2]; [now left | now apply Quiet]]. clear Quiet Dn.
  assert (Rs : same_core (a_read c lr cl (g_idx s) val coin s) (a_step c s (AUp lr cl ev val coin)) /\ same_core (a_read c lr cl (g_idx s') val' coin s') (a_step c s' (AUp lr cl ev val' coin))).
  { cbn [a_step]. change (g_upd (a_count s')) with (S (g_upd s')). change (g_upd (a_count s)) with (S (g_upd s)). rewrite Su. fold due. rewrite Du. unfold a_transfer, a_read. rewrite (proj2 (Reqb_false lr 0) N). split; repeat split. }
  destruct Rs as [(A1 & A2 & A3 & A4 & A5 & A6 & A7 & A8) (B1 & B2 & B3 & B4 & B5 & B6 & B7 & B8)].
  destruct (a_read_fields c lr cl (g_idx s) val coin s N) as (F1 & F2 & F3 & F4 & F5 & F6 & F7 & F8). destruct (a_read_fields c lr cl (g_idx s') val' coin s' N) as (G1 & G2 & G3 & G4 & G5 & G6 & G7 & G8).
  rewrite F1 in A1. rewrite F2 in A2. rewrite F3 in A3. rewrite F4 in A4. rewrite F5 in A5. rewrite F6 in A6. rewrite F7 in A7. rewrite F8 in A8. rewrite G1 in B1. rewrite G2 in B2. rewrite G3 in B3. rewrite G4 in B4. rewrite G5 in B5. rewrite G6 in B6. rewrite G7 in B7. rewrite G8 in B8. clear F1 F2 F3 F4 F5 F6 F7 F8 G1 G2 G3 G4 G5 G6 G7 G8.
  rewrite Sx in *. set (k0 := g_idx s) in *.
  assert (Re : forall j, (j < a_out c)%nat -> ref_at s' k0 j = ref_at s k0 j + O k0 j). { intros j Lj. unfold ref_at. rewrite Sw. destruct (Sh k0 j Lx Lj) as (_ & H1 & H2). destruct (g_sw s k0); [exact H1 | exact H2]. }
  assert (Sg : forall j, sign_of s' k0 j = sign_of s k0 j) by (intros j; unfold sign_of; now rewrite Si, So).
  assert (Om : forall j, (j < a_out c)%nat -> omega_of c lr cl k0 val' s' j = omega_of c lr cl k0 val s j). { intros j Lj. unfold omega_of. rewrite Sg, Sc, (Re j Lj), (Rv j Lj), (proj1 (Sh k0 j Lx Lj)). fold k0. replace (val j + O k0 j - (ref_at s k0 j + O k0 j)) with (val j - ref_at s k0 j) by ring. reflexivity. }
  assert (Sm : switch_of c coin s' = switch_of c coin s) by (unfold switch_of; now rewrite Sc).
  split.
  - split; [|split; [|split; [|split; [|split; [|split; [|split]]]]]].
    + intros k j Lk Lj. rewrite A1, A2, A3, B1, B2, B3. destruct (Sh k j Lk Lj) as (H1 & H2 & H3). destruct (Nat.eq_dec k k0) as [->|Nk]; [|rewrite !gput_other by exact Nk; auto]. rewrite !gput_at. rewrite (Om j Lj). split; [reflexivity|]. split; [rewrite H2, (Rv j Lj); fold k0; ring | exact (Re j Lj)].
    + intros k. rewrite A4, B4, Sm. destruct (switch_of c coin s); [|apply Si]. unfold gput. rewrite Si. destruct (k =? k0)%nat; [reflexivity | apply Si].
    + intros j. rewrite A5, B5. apply So.
    + intros k. rewrite A6, B6, Sm. unfold gput. destruct (k =? k0)%nat; [reflexivity | apply Sw].
    + rewrite A7, B7, Sc. reflexivity.
    + exact Sc1.
    + exact Sc2.
    + exact Sc3.
  - exists [ard_of c lr cl k0 val coin s], [ard_of c lr cl k0 val' coin s']. rewrite A8, B8. split; [reflexivity|]. split; [reflexivity|]. constructor; [|constructor]. unfold same_decisions. cbn [ard_of q_k q_lr q_sent q_sw q_sign q_steps]. rewrite Sc, Sm. split; [reflexivity|]. split; [reflexivity|]. split; [|split; [reflexivity|]].
    + f_equal. apply existsb_seq_ext. intros j Lj. now rewrite Om.
    + intros j Lj. split; [apply Sg | now rewrite Om].
Qed.
(** A constant offset of the fast crossbar has no influence: if all reads, and the means and references
    at the beginning, are shifted by any matrix, then the same steps are made and sent in every
    history, and the buffers and choppers are the same. *)
Theorem C158_offset : forall c O h h' s s', (0 < a_in c)%nat -> g_shifted c O s s' -> g_related c O s h h' -> let t := a_run c s h in let t' := a_run c s' h' in
  g_shifted c O t t' /\ exists l l', g_log t = l ++ g_log s /\ g_log t' = l' ++ g_log s' /\ Forall2 (same_decisions c) l l'.
Proof.
  intros c O h. induction h as [|e h IH]; intros h' s s' P Sh Rl; destruct h' as [|e' h']; try contradiction.
  - split; [exact Sh|]. exists (@nil ard), (@nil ard). repeat split; constructor.
  - destruct Rl as [R1 R2]. assert (R0 : g_related c O s [e] [e']) by (split; [exact R1 | exact I]). destruct (shift_step c O s s' e e' P Sh R0) as [S1 (l1 & l1' & E1 & E1' & F1)]. destruct (IH h' _ _ P S1 R2) as [S2 (l2 & l2' & E2 & E2' & F2)]. split; [exact S2|].
    exists (l2 ++ l1), (l2' ++ l1'). unfold a_run in *. cbn [fold_left]. rewrite E2, E2', E1, E1', !app_assoc. repeat split. now apply Forall2_app.
Qed.
(** [C159]: hidden weights and the extra state *)
Lemma flat_roundtrip (cols : bool) (xs ds : nat) (m : gmat) (k j : nat) : (k < (if cols then xs else ds))%nat -> (j < (if cols then ds else xs))%nat -> of_flat cols xs (to_flat cols xs ds m) k j = m k j.
Proof.
  intros Lk Lj. unfold of_flat, to_flat, w_index. set (p := if cols then (j * xs + k)%nat else (k * xs + j)%nat). assert (X : (0 < xs)%nat) by (destruct cols; lia).
  assert (Lp : (p < xs * ds)%nat) by (unfold p; destruct cols; nia). assert (Pd : (p / xs = if cols then j else k)%nat) by (unfold p; destruct cols; symmetry; [apply Nat.div_unique with k | apply Nat.div_unique with j]; lia). assert (Pm : (p mod xs = if cols then k else j)%nat) by (unfold p; destruct cols; symmetry; [apply Nat.mod_unique with j | apply Nat.mod_unique with k]; lia).
  set (f := fun p : nat => if cols then m (p mod xs)%nat (p / xs)%nat else m (p / xs)%nat (p mod xs)%nat).
  rewrite (nth_indep _ 0 (f 0%nat)) by (rewrite map_length, seq_length; exact Lp). rewrite map_nth, seq_nth by exact Lp. unfold f. rewrite Nat.add_0_l, Pd, Pm. destruct cols; reflexivity.
Qed.
Lemma to_flat_length cols xs ds m : length (to_flat cols xs ds m) = (xs * ds)%nat.
Proof. unfold to_flat. now rewrite map_length, seq_length. Qed.
(** the state of a device that gets the hidden weights and the extra state of another one *)
Definition loaded (cols : bool) (xs ds : nat) (base : list vec) (s s2 : ast) : ast := a_load (a_dump s) (a_set_hidden cols xs (length base) (a_hidden cols xs ds base s) s2).
Lemma loaded_shifted (c : acfg) (cols : bool) (xs ds : nat) (base : list vec) (s s2 : ast) : a_in c = (if cols then xs else ds) -> a_out c = (if cols then ds else xs) -> (g_idx s < a_in c)%nat -> g_shifted c (fun _ _ => 0) s (loaded cols xs ds base s s2).
Proof.
  intros Ei Eo Lx. unfold g_shifted, loaded. cbn [a_load a_dump a_set_hidden g_H g_mean g_past g_in g_out g_sw g_cnt g_idx g_upd x_in x_out x_sw x_cnt x_idx x_upd]. repeat split; auto; unfold a_hidden;
  rewrite app_nth2 by lia; try (replace (length base + 1 - length base)%nat with 1%nat by lia); try (replace (length base + 2 - length base)%nat with 2%nat by lia); rewrite ?Nat.sub_diag; cbn [nth]; rewrite flat_roundtrip by congruence; lra.
Qed.
Lemma related_refl c : forall h s, g_related c (fun _ _ => 0) s h h.
Proof. induction h as [|e h IH]; intros s; [exact I|]. cbn [g_related]. split; [|apply IH]. destruct e; [|exact I]. repeat split. intros. lra. Qed.
(** Saving a device and loading it (hidden weights and extra state) into another one of the same
    size: training goes on as if nothing had happened, for every further history. *)
Theorem C159_resume : forall (c : acfg) (cols : bool) (xs ds : nat) (base : list vec) (h0 : list aev) (s2 : ast) (h : list aev), a_in c = (if cols then xs else ds) -> a_out c = (if cols then ds else xs) -> (0 < a_in c)%nat ->
  let s := a_run c a_init h0 in let t := a_run c s h in let t' := a_run c (loaded cols xs ds base s s2) h in
  (forall k j, (k < a_in c)%nat -> (j < a_out c)%nat -> g_H t' k j = g_H t k j /\ g_mean t' k j = g_mean t k j /\ g_past t' k j = g_past t k j) /\
  (forall k, g_in t' k = g_in t k) /\ g_cnt t' = g_cnt t /\ g_idx t' = g_idx t /\
  exists l l', g_log t = l ++ g_log s /\ g_log t' = l' ++ g_log s2 /\ Forall2 (same_decisions c) l l'.
Proof.
  intros c cols xs ds base h0 s2 h Ei Eo P s t t'. assert (Lx : (g_idx s < a_in c)%nat). { unfold s. clear - P. induction h0 as [|e h IH] using rev_ind; [exact P|]. rewrite a_run_snoc. rewrite (proj2 (step_schedule c _ e)). destruct e; [|exact P]. destruct (_ && _)%bool; [apply Nat.mod_upper_bound; lia | exact IH]. }
  destruct (C158_offset c (fun _ _ => 0) h h s (loaded cols xs ds base s s2) P (loaded_shifted c cols xs ds base s s2 Ei Eo Lx) (related_refl c h s)) as [(Sh & Si & _ & _ & Sc & Sx & _ & _) X]. fold t t' in Sh, Si, Sc, Sx, X. change (g_log (loaded cols xs ds base s s2)) with (g_log s2) in X.
  split; [|repeat split; auto]. intros k j Lk Lj. destruct (Sh k j Lk Lj) as (H1 & H2 & H3). rewrite Rplus_0_r in H2, H3. auto.
Qed.
Lemma skipn_concat_base (base : list vec) sz rest : Forall (fun v => length v = sz) base -> skipn (length base * sz) (concat base ++ rest) = rest.
Proof.
  intros F. assert (L : length (concat base) = (length base * sz)%nat). { induction base as [|v base IH]; [reflexivity|]. inversion F; subst. cbn [concat length]. rewrite app_length, IH by assumption. lia. }
  rewrite skipn_app, <- L, skipn_all, Nat.sub_diag. reflexivity.
Qed.
(** setting the hidden weights from one array is the same *)
Theorem C159_flat : forall cols xs ds base s s2, Forall (fun v => length v = (xs * ds)%nat) base ->
  a_set_flat cols xs ds (length base) (concat (a_hidden cols xs ds base s)) s2 = a_set_hidden cols xs (length base) (a_hidden cols xs ds base s) s2.
Proof.
  intros cols xs ds base s s2 F. unfold a_set_flat, a_set_hidden, a_hidden. rewrite concat_app. cbn [concat]. rewrite app_nil_r. set (A := to_flat cols xs ds (g_H s)). set (B := to_flat cols xs ds (g_mean s)). set (C := to_flat cols xs ds (g_past s)). set (sz := (xs * ds)%nat) in *. set (off := (length base * sz)%nat).
  assert (LA : length A = sz) by apply to_flat_length. assert (LB : length B = sz) by apply to_flat_length. assert (LC : length C = sz) by apply to_flat_length.
  assert (Sk : forall n, skipn (off + n) (concat base ++ A ++ B ++ C) = skipn n (A ++ B ++ C)). { intros n. rewrite <- skipn_skipn. exact (f_equal (skipn n) (skipn_concat_base base sz (A ++ B ++ C) F)). }
  assert (EA : slice off (off + sz) (concat base ++ A ++ B ++ C) = A). { unfold slice. replace (off + sz - off)%nat with sz by lia. replace off with (off + 0)%nat at 1 by lia. rewrite Sk. cbn [skipn]. rewrite <- LA, firstn_app, firstn_all, Nat.sub_diag, firstn_O. apply app_nil_r. }
  assert (EB : slice (off + sz) (off + 2 * sz) (concat base ++ A ++ B ++ C) = B). { unfold slice. replace (off + 2 * sz - (off + sz))%nat with sz by lia. rewrite Sk, skipn_app, LA, Nat.sub_diag. rewrite (skipn_all2 A) by lia. cbn [app skipn]. rewrite <- LB, firstn_app, firstn_all, Nat.sub_diag, firstn_O. apply app_nil_r. }
  assert (EC : slice (off + 2 * sz) (off + 3 * sz) (concat base ++ A ++ B ++ C) = C). { unfold slice. replace (off + 3 * sz - (off + 2 * sz))%nat with sz by lia. rewrite Sk, app_assoc, skipn_app. replace (length (A ++ B)) with (2 * sz)%nat by (rewrite app_length; lia). rewrite Nat.sub_diag. rewrite skipn_all2 by (rewrite app_length; lia). cbn [app skipn]. rewrite <- LC. apply firstn_all. }
  rewrite EA, EB, EC. unfold vec in *. rewrite !app_nth2 by lia. replace (length base + 1 - length base)%nat with 1%nat by lia. replace (length base + 2 - length base)%nat with 2%nat by lia. rewrite Nat.sub_diag. reflexivity.
Qed.
(** a device saved after five reads of a tile with two columns and one row *)
Example C159_nontrivial : let c := acfg1 2 1 0 true in let s := a_run c a_init (repeat up0 5) in a_in c = 2%nat /\ a_out c = 1%nat /\ g_idx (loaded true 2 1 [] s a_init) = 1%nat /\ g_in (loaded true 2 1 [] s a_init) 0%nat = true.
Proof.
  intros c s. split; [reflexivity|]. split; [reflexivity|]. change (g_idx (loaded true 2 1 [] s a_init)) with (g_idx s). change (g_in (loaded true 2 1 [] s a_init) 0%nat) with (g_in s 0%nat).
  destruct (run_turn c ltac:(cbn; lia) (repeat up0 5) (up0_no_set 5) (up0_nonzero 5)) as (I1 & _ & I3). fold s in I1, I3.
  assert (L : forall s, length (g_log (a_step c s up0)) = S (length (g_log s))). { intros s0. unfold up0. cbn [a_step Nat.ltb Nat.leb andb]. rewrite Nat.mod_1_r. cbn [Nat.eqb]. unfold a_transfer, a_read. rewrite (proj2 (Reqb_false 1 0)) by lra. reflexivity. }
  assert (Ls : length (g_log s) = 5%nat). { unfold s, a_run. cbn [repeat fold_left]. now rewrite !L. } rewrite Ls in I1, I3. split; [exact I1|].
  destruct (C156_regular c (repeat up0 5) 0 eq_refl ltac:(cbn; lia) (up0_no_set 5) (up0_nonzero 5)) as [_ X]. fold s in X. rewrite X, (I3 0%nat ltac:(cbn; lia)). unfold c. rewrite acfg1_ns. reflexivity.
Qed.

Print Assumptions C158_offset.
Print Assumptions C159_resume.
Print Assumptions C159_flat.
