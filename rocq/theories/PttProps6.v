(** * Hidden parameters and checkpoints of the Python transfer tile (C153) *)
From Verif Require Import Prelude PulseModel PulseProofs PttModel PttSpec PttProofs PttProps PttProps2 PttProps3.
Local Open Scope R_scope.

(** Setting the hidden parameters that were read from a tile gives its weights, buffers, past means
    and references (and the parameters of the devices) to any other tile of the same configuration *)
Theorem C153_hidden : forall c p0 p1 s s2 q0 q1 t, set_hidden c (length p0) (length p1) (get_hidden c p0 p1 s) s2 = (q0, q1, t) ->
  q0 = p0 /\ q1 = p1 /\ s_A t = s_A s /\ s_W t = s_W s /\ (forall k o, s_H t k o = s_H s k o) /\ (c_tail c <> None -> forall k o, s_P t k o = s_P s k o /\ s_F t k o = s_F s k o) /\ s_c t = s_c s2.
Proof.
  intros c p0 p1 s s2 q0 q1 t E. unfold set_hidden, get_hidden in E. set (n0 := length p0) in *. set (n1 := length p1) in *. set (r := [s_A s; s_W s] ++ map (orient c) (buffers c s)) in *.
  injection E as <- <- <-. cbn [s_A s_W s_H s_P s_F s_c].
  assert (N : forall k, nth (n0 + n1 + k) (p0 ++ p1 ++ r) (fun _ _ => 0) = nth k r (fun _ _ => 0)). { intros k. rewrite app_nth2 by (unfold n0; lia). fold n0. replace (n0 + n1 + k - n0)%nat with (n1 + k)%nat by lia. rewrite app_nth2 by (unfold n1; lia). fold n1. f_equal. lia. }
  replace (nth (n0 + n1) (p0 ++ p1 ++ r) (fun _ _ => 0)) with (s_A s) by (rewrite <- (Nat.add_0_r (n0 + n1)), N; reflexivity). rewrite !N.
  split; [rewrite firstn_app; unfold n0; rewrite firstn_all, Nat.sub_diag, firstn_O, app_nil_r; reflexivity|].
  split; [rewrite skipn_app; unfold n0; rewrite skipn_all, Nat.sub_diag; cbn [app skipn]; rewrite firstn_app; unfold n1; rewrite firstn_all, Nat.sub_diag, firstn_O, app_nil_r; reflexivity|].
  split; [reflexivity|]. split; [reflexivity|]. unfold r, buffers. cbn [app nth map]. split; [intros k o; unfold orient; destruct (c_cols c); reflexivity|].
  split; [|reflexivity]. intros Tl k o. destruct (c_tail c); [|congruence]. cbn [map nth]. unfold orient. destruct (c_cols c); split; reflexivity.
Qed.

(** ** Going on after loading a state dictionary *)
Definition patch (f s : pst) : pst :=
  {| s_A := s_A s; s_W := s_W s; s_H := s_H s; s_P := s_P s; s_F := s_F s; s_c := s_c s;
     s_cnt := s_cnt f; s_idx := s_idx s; s_chop := s_chop f; s_mx := s_mx f; s_md := s_md f; s_lr := s_lr s;
     s_clk := s_clk s; s_log := s_log s |}.
Lemma transfer_patch c v te lra f s : c_prob c = 0 \/ c_random c = true -> transfer c v te lra (patch f s) = (patch f (fst (transfer c v te lra s)), snd (transfer c v te lra s)).
Proof.
  intros H. unfold transfer. change (s_lr (patch f s)) with (s_lr s). destruct (read_rate c te (s_lr s) lra); [|reflexivity]. cbv zeta. change (s_idx (patch f s)) with (s_idx s).
  destruct (c_x c <=? _)%nat; [reflexivity|]. cbn [fst snd]. unfold patch. cbn [s_A s_W s_H s_P s_F s_c s_cnt s_idx s_chop s_mx s_md s_lr s_clk s_log].
  destruct H as [H|H]; [rewrite H, (proj2 (Reqb_true 0 0) eq_refl); reflexivity|]. rewrite H. cbn [negb andb]. rewrite Bool.andb_false_r. cbn [andb]. reflexivity.
Qed.
Definition same_training (s s' : pst) : Prop :=
  s_A s' = s_A s /\ s_W s' = s_W s /\ s_H s' = s_H s /\ s_P s' = s_P s /\ s_F s' = s_F s /\ s_c s' = s_c s /\ s_log s' = s_log s.
Lemma same_patch f s : same_training s (patch f s).
Proof. repeat split. Qed.
(** A tile that has been trained for a whole number of passes over its columns (rows), then saved
    in a state dictionary and loaded into a new tile, goes on exactly as if nothing had happened,
    for every further history, if the automatic scale is off, if the choppers are off or random,
    and if the learning rate is set again. *)
Theorem C153_resume : forall c v T s h, supported c -> c_auto c = false -> c_prob c = 0 \/ c_random c = true -> (0 < T)%nat -> batches (fun m => t_every c m = T) h -> (s_cnt s mod T = 0)%nat -> s_idx s = 0%nat ->
  match run c v s h, run c v (set_lr (Some (s_lr s)) (restore p_init s)) h with
  | Ok t, Ok t' => same_training t t'
  | Raise e, Raise e' => e = e'
  | _, _ => False
  end.
Proof.
  intros c v T s h Sp Au Ch T0 Hb Cn Ix.
  assert (X : forall h s f, batches (fun m => t_every c m = T) h -> (s_cnt s mod T = s_cnt f mod T)%nat -> match run c v s h, run c v (patch f s) h with Ok t, Ok t' => same_training t t' | Raise e, Raise e' => e = e' | _, _ => False end).
  { clear h s Hb Cn Ix. induction h as [|e h IH]; intros s f Hb Hm; [apply same_patch|]. inversion Hb as [|? ? He Hb']; subst. cbn [run].
    assert (St : match step c v s e, step c v (patch f s) e with Ok t, Ok t' => exists f', t' = patch f' t /\ (s_cnt t mod T = s_cnt f' mod T)%nat | Raise e, Raise e' => e = e' | _, _ => False end).
    { destruct e as [xs ds | l].
      - cbn [step]. rewrite (update_eq c v s xs ds Sp), (update_eq c v (patch f s) xs ds Sp). cbv zeta. rewrite He. replace (T =? 0)%nat with false by (symmetry; apply Nat.eqb_neq; lia).
        set (m := length xs). unfold rest_of. change (s_cnt (patch f s)) with (s_cnt f). rewrite <- Hm.
        set (f1 := acc c v (patch f s) xs ds). assert (Ea : acc c v (patch f s) xs ds = patch f1 (acc c v s xs ds)). { unfold f1, patch, acc, accumulate, lra_of, new_mx, new_md, fast_rate. rewrite Au. cbn [s_A s_W s_H s_P s_F s_c s_cnt s_idx s_chop s_mx s_md s_lr s_clk s_log]. reflexivity. }
        assert (Mm : (s_cnt (acc c v s xs ds) mod T = s_cnt f1 mod T)%nat). { unfold f1. cbn [acc accumulate s_cnt]. rewrite !chop_length. change (s_cnt (patch f s)) with (s_cnt f). rewrite <- (Nat.add_mod_idemp_l (s_cnt s)) by lia. rewrite Hm. rewrite Nat.add_mod_idemp_l by lia. reflexivity. }
        destruct (_ <? _)%nat; [cbn [o_e o_s]; exists f1; split; [exact Ea | exact Mm]|]. destruct (2 * T <=? _)%nat; [reflexivity|].
        assert (La : lra_of c (patch f s) xs ds = lra_of c s xs ds) by (unfold lra_of, new_mx, new_md, fast_rate; rewrite Au; reflexivity).
        assert (Ef : f1 = patch f1 (acc c v s xs ds)) by exact Ea. rewrite La. rewrite Ef. rewrite transfer_patch by exact Ch. destruct (transfer c v T (lra_of c s xs ds) (acc c v s xs ds)) as [t [e|]] eqn:Et; cbn [fst snd o_e o_s]; [reflexivity|]. exists f1. split; [reflexivity|].
        destruct (transfer_fields _ _ _ _ _ _ Et) as (_ & _ & Ct & _). rewrite Ct. exact Mm.
      - cbn [step]. destruct l as [l|]; [exists f; split; [reflexivity | exact Hm] | exists f; split; [reflexivity | exact Hm]]. }
    destruct (step c v s e) as [t|e1]; destruct (step c v (patch f s) e) as [t'|e2]; cbn [bind]; try exact St; try contradiction. destruct St as (f' & -> & M'). apply IH; assumption. }
  specialize (X h s p_init Hb). assert (Ep : set_lr (Some (s_lr s)) (restore p_init s) = patch p_init s). { unfold set_lr, restore, patch. cbn [s_A s_W s_H s_P s_F s_c s_cnt s_idx s_chop s_mx s_md s_lr s_clk s_log]. rewrite Ix. reflexivity. }
  rewrite Ep. apply X. rewrite Cn. symmetry. apply Nat.mod_0_l. lia.
Qed.
(** Otherwise the counters are lost: the next column read after loading is number 1 again, whatever
    was read last *)
Theorem C153_counter_refuted : forall c v s xs ds r r', supported c -> (2 <= t_in c)%nat -> s_idx s = 1%nat ->
  let o := update c v s xs ds in let s2 := restore p_init s in let o2 := update c v s2 xs ds in
  s_log (o_s o) = r :: s_log s -> s_log (o_s o2) = r' :: s_log s2 -> r_k r = (2 mod t_in c)%nat /\ r_k r' = 1%nat.
Proof.
  intros c v s xs ds r r' Sp T2 I1 o s2 o2 E E'.
  assert (G : forall s r, s_log (o_s (update c v s xs ds)) = r :: s_log s -> r_k r = ((s_idx s + 1) mod t_in c)%nat).
  { clear. intros s r E. destruct (transfer c v (t_every c (length xs)) (lra_of c s xs ds) (acc c v s xs ds)) as [s3 e] eqn:Et.
    assert (Nl : forall l, l = r :: l -> False) by (intros l H; apply (f_equal (@length rd)) in H; cbn in H; lia).
    unfold update in E. destruct (negb _); [now apply Nl in E|]. destruct (Rltb _ _); [now apply Nl in E|]. destruct (match c_tail c with Some _ => _ | None => _ end); [now apply Nl in E|]. cbv zeta in E.
    fold (new_mx c s xs) (new_md c s (length xs) ds) in E. fold (lra_of c s xs ds) in E. fold (acc c v s xs ds) in E. destruct (_ =? 0)%nat; [now apply Nl in E|]. destruct (_ <? _)%nat; [now apply Nl in E|]. destruct (_ <=? _)%nat; [now apply Nl in E|]. rewrite Et in E. cbn [o_s] in E.
    unfold transfer in Et. destruct (read_rate _ _ _ _); [|injection Et as <- _; now apply Nl in E]. cbv zeta in Et. destruct (c_x c <=? _)%nat; injection Et as <- _; [now apply Nl in E|]. cbn [s_log] in E. injection E as <-. reflexivity. }
  rewrite (G _ _ E), (G _ _ E'), I1. split; [reflexivity|]. change (s_idx s2) with 0%nat. apply Nat.mod_small. lia.
Qed.
(** one pass over three columns, then two more updates: as without the checkpoint *)
Example C153_nontrivial : let v := ideal cfg0 (fun _ => 0) in exists s, run cfg0 v p_init (repeat (Up [fun _ => 1] [fun _ => 1]) 6) = Ok s /\ (s_cnt s mod 2 = 0)%nat /\ s_idx s = 0%nat /\ length (reads s) = 3%nat.
Proof.
  intros v. destruct (C148_schedule cfg0 v 2 (repeat (Up [fun _ => 1] [fun _ => 1]) 6) cfg0_supported cfg0_regular) as (s & E & C & L & K); [cbn; lia | lia | |].
  { apply Forall_forall. intros e He. apply repeat_spec in He. subst e. cbn [length]. rewrite cfg0_every. lia. }
  exists s. split; [exact E|]. split; [rewrite C; reflexivity|]. split; [|rewrite L; reflexivity].
  assert (I : s_idx s = (length (s_log s) mod 3)%nat).
  { revert E. generalize (repeat (Up [fun _ => 1] [fun _ => 1]) 6). intros h. revert h s C L K. intros h s _ _ _. revert h s. apply (run_ind cfg0 v p_init (fun _ s => s_idx s = (length (s_log s) mod 3)%nat)); [reflexivity|].
    intros h s e s' _ I E. destruct (step_cases _ _ _ _ _ cfg0_supported E) as [(l & _ & ->) | (xs & ds & _ & _ & [[_ ->] | [_ Et]])]; [destruct l; exact I | exact I|].
    destruct (transfer_fields _ _ _ _ _ _ Et) as (_ & _ & _ & Ik & _ & _ & _ & _ & Lg & _). rewrite Ik, Lg. unfold next_k. change (t_in cfg0) with 3%nat. change (s_idx (acc cfg0 v s xs ds)) with (s_idx s). change (s_log (acc cfg0 v s xs ds)) with (s_log s). rewrite I. cbn [length]. rewrite Nat.add_mod_idemp_l by lia. f_equal. lia. }
  rewrite I. unfold reads in L. rewrite rev_length in L. rewrite L. reflexivity.
Qed.

Print Assumptions C153_hidden.
Print Assumptions C153_resume.
Print Assumptions C153_counter_refuted.
(** The hidden parameters have the layout of the weights: entry ([i], [j]) of the matrices is that of
    weight ([i], [j]) *)
Theorem C153_layout : forall c p0 p1 s i j, let m k := nth (length p0 + length p1 + k) (get_hidden c p0 p1 s) (fun _ _ => 0) in
  m 0%nat i j = s_A s i j /\ m 1%nat i j = s_W s i j /\ m 2%nat i j = s_H s (slice_of c i j) (entry_of c i j) /\
  (c_tail c <> None -> m 3%nat i j = s_P s (slice_of c i j) (entry_of c i j) /\ m 4%nat i j = s_F s (slice_of c i j) (entry_of c i j)).
Proof.
  intros c p0 p1 s i j m. set (r := [s_A s; s_W s] ++ map (orient c) (buffers c s)).
  assert (N : forall k, m k = nth k r (fun _ _ => 0)). { intros k. unfold m, get_hidden. fold r. rewrite app_nth2 by lia. replace (length p0 + length p1 + k - length p0)%nat with (length p1 + k)%nat by lia. rewrite app_nth2 by lia. f_equal. lia. }
  rewrite !N. unfold r, buffers, orient, slice_of, entry_of. cbn [app map nth]. repeat split; try (destruct (c_cols c); reflexivity); destruct (c_tail c); try congruence; cbn [map nth]; destruct (c_cols c); reflexivity.
Qed.

Print Assumptions C153_layout.
