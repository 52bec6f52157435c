(** * C139-C142: what a calibration leaves behind *)
From Coq Require Import Permutation.
From Verif Require Import Prelude CalModel CalSpec CalProofs PeriModel CalProps CalProps2 CalProps3.
Local Open Scope nat_scope.

(** ** C139: the configuration afterwards *)
Lemma hook_fine (ct : ctype) q ms perm t e x : ct <> NoCal -> l_range t <> None -> (needs_data ct -> has_data x) -> exists t1 e1, hook ct q ms perm t e x = Ok (t1, e1).
Proof.
  intros Nc Nr Nd. unfold hook. cbv zeta. destruct (l_range t) as [r0|]; [|contradiction]. destruct ct; [contradiction| | | |].
  - destruct (Rltb 0 _); eexists _, _; reflexivity.
  - pose proof (data_flat x (Nd (or_intror eq_refl))) as D. destruct (flat (nonzero x)); [contradiction|]. destruct (Rltb 0 _); eexists _, _; reflexivity.
  - eexists _, _; reflexivity.
  - pose proof (data_flat x (Nd (or_introl eq_refl))) as D. destruct (flat (nonzero x)); [contradiction|]. eexists _, _; reflexivity.
Qed.
Lemma hook_run_fine (ct : ctype) q ms xs : forall t e, ct <> NoCal -> l_range t <> None -> (forall x perm, List.In (x, perm) xs -> needs_data ct -> has_data x) -> exists t1 e1, hook_run ct q ms t e xs = Ok (t1, e1).
Proof.
  induction xs as [|[x perm] r IH]; intros t e Nc Nr Nd; [eexists _, _; reflexivity|]. cbn [hook_run]. destruct (hook_fine ct q ms perm t e x Nc Nr) as (t1 & e1 & E); [apply (Nd x perm); left; reflexivity|]. rewrite E. cbn [bind fst snd].
  apply IH; [exact Nc| |intros; eapply Nd; [right; eassumption|assumption]]. apply hook_frame in E. tauto.
Qed.
(** rows in the cache have a value other than zero *)
Definition full_rows (e : entry) : Prop := Forall (fun r => exists v, List.In v r /\ v <> 0%R) (e_rows e).
Lemma cache_state (ct : ctype) q ms xs : 0 < ms -> caching ct = true -> (forall x perm, List.In (x, perm) xs -> (needs_data ct -> has_data x) /\ forall l, Permutation (perm l) l) -> forall t e t1 e1, full_rows e ->
  hook_run ct q ms t e xs = Ok (t1, e1) -> (e_rows e <> [] \/ e_max e <> None \/ exists x perm, List.In (x, perm) xs /\ has_data x) -> full_rows e1 /\ (e_rows e1 <> [] \/ e_max e1 <> None).
Proof.
  intros Pm C. induction xs as [|[x perm] r IH]; intros Sh t e t1 e1 Fr E K; cbn [hook_run] in E.
  - injection E as <- <-. split; [exact Fr|]. destruct K as [K|[K|(x & p & [] & _)]]; auto.
  - destruct (hook ct q ms perm t e x) as [[t2 e2]|er] eqn:Eh; [|discriminate]. cbn [bind fst snd] in E. destruct (Sh x perm (or_introl eq_refl)) as [Dx Px].
    assert (G : full_rows e2 /\ ((e_rows e <> [] \/ e_max e <> None \/ has_data x) -> e_rows e2 <> [] \/ e_max e2 <> None)).
    { unfold hook in Eh. cbv zeta in Eh. destruct ct; try discriminate C.
      - injection Eh as <- <-. unfold full_rows in *. cbn [e_rows e_max]. assert (Fa : Forall (fun r => exists v, List.In v r /\ v <> 0%R) (e_rows e ++ nonzero x)) by (apply Forall_app; split; [exact Fr|]; apply Forall_forall; intros row Hr; apply nonzero_in in Hr; tauto). split.
        + apply Forall_firstn. eapply Permutation_Forall; [apply Permutation_sym, Px|exact Fa].
        + intros [H|[H|H]].
          * left. assert (L : length (perm (e_rows e ++ nonzero x)) = length (e_rows e ++ nonzero x)) by (apply Permutation_length, Px). destruct (perm (e_rows e ++ nonzero x)); [|destruct ms; [lia|discriminate]]. rewrite app_length in L. destruct (e_rows e); [contradiction|discriminate].
          * right. exact H.
          * left. assert (L : length (perm (e_rows e ++ nonzero x)) = length (e_rows e ++ nonzero x)) by (apply Permutation_length, Px). destruct (perm (e_rows e ++ nonzero x)); [|destruct ms; [lia|discriminate]]. apply data_flat in H. rewrite app_length in L. destruct (nonzero x); [contradiction|cbn in L; lia].
      - destruct (flat (nonzero x)); [discriminate|]. injection Eh as <- <-. unfold full_rows in *. cbn [e_rows e_max]. split; [exact Fr|]. intros _. right. discriminate. }
    destruct G as [G1 G2]. eapply IH; [intros; apply Sh; right; assumption|exact G1|exact E|]. destruct K as [K|[K|(y & p & [[= <- <-]|Hy] & Dy)]].
    + destruct G2 as [G2|G2]; auto.
    + destruct G2 as [G2|G2]; auto.
    + destruct G2 as [G2|G2]; auto.
    + right. right. exists y, p. auto.
Qed.
Lemma full_flat e : full_rows e -> e_rows e <> [] -> flat (e_rows e) <> [].
Proof. intros F N. unfold flat. destruct (e_rows e) as [|r l] eqn:E; [contradiction|]. unfold full_rows in F. rewrite E in F. inversion F as [|? ? (v & Hv & _) _]; subst. destruct r; [destruct Hv|discriminate]. Qed.

Theorem C139_afterwards (ct : ctype) q ms alpha force n calls s : ct <> NoCal -> 0 < ms -> (forall i, i < n -> ready force (s_tile s i)) -> shuffles calls ->
  (needs_data ct -> forall i x perm, List.In (i, x, perm) calls -> has_data x) ->
  exists s', calibrate ct q ms alpha force true n calls s = (s', None) /\ s_train s' = s_train s /\ (forall i, n <= i -> s_tile s' i = s_tile s i)
  /\ forall i, i < n -> let t := s_tile s i in let t' := s_tile s' i in let c := l_cfg t in let c' := l_cfg t' in
     l_hooks t' = l_hooks t /\ k_enable c' = true /\ k_learn c' = (k_enable c && k_learn c) /\ k_from_data c' = 0%Z /\ k_alpha c' = match alpha with Some a => a | None => k_alpha c end
     /\ k_nm c' = false /\ k_prepost c' = k_prepost c /\ k_forward c' = k_forward c
     /\ ((caching ct = false \/ exists x perm, List.In (i, x, perm) calls /\ has_data x) -> k_perfect c' = k_perfect c)
     /\ ((forall x perm, ~ List.In (i, x, perm) calls) -> k_perfect c' = caching ct || k_perfect c)
     /\ (l_sim t = (k_perfect c, k_nm c) -> l_sim t' = (k_perfect c', k_nm c')).
Proof.
  intros Nc Pm Rd Sh Nd.
  assert (Hr : forall i, i < n -> exists t1 e1, hook_run ct q ms (prep ct alpha (s_tile s i)) (entry0 (s_tile s i)) (mine i calls) = Ok (t1, e1)).
  { intros i Hi. destruct (ready_wf _ _ (Rd i Hi)) as [W _]. apply hook_run_fine; [exact Nc|apply prep_facts; exact W|]. intros x perm Hx. apply mine_in in Hx. intros K. eapply Nd; eassumption. }
  destruct (calibrate_ok ct q ms alpha force n calls s Nc) as (s' & E & T & L & O).
  - intros i Hi. apply ready_wf. apply Rd. exact Hi.
  - intros i Hi. destruct (Hr i Hi) as (t1 & e1 & A). eexists. exact A.
  - exists s'. split; [exact E|]. split; [exact T|]. split; [exact O|]. intros i Hi. cbv zeta. destruct (L i Hi) as (t1 & e1 & A & B). destruct (ready_wf _ _ (Rd i Hi)) as [W _].
    destruct (hook_run_frame _ _ _ _ _ _ _ _ A) as (F1 & F2 & F3 & F4 & F5 & F6). destruct (prep_facts ct alpha _ W) as (_ & Pe & Pr & Ph). cbn [entry0 e_perfect] in F4.
    (* the cache of a tile with data is not empty *)
    assert (Ca : caching ct = true -> (exists x perm, List.In (i, x, perm) calls /\ has_data x) -> flat (e_rows e1) <> [] \/ e_max e1 <> None).
    { intros C (x & perm & Hx & D). destruct (cache_state ct q ms (mine i calls) Pm C) with (t := prep ct alpha (s_tile s i)) (e := entry0 (s_tile s i)) (t1 := t1) (e1 := e1) as [G1 G2].
      - intros y p Hy. apply mine_in in Hy. split; [intros K; eapply Nd; eassumption|eapply Sh; exact Hy].
      - constructor.
      - exact A.
      - right. right. exists x, perm. split; [apply mine_in; exact Hx|exact D].
      - destruct G2 as [G2|G2]; [left; apply full_flat; assumption|right; exact G2]. }
    assert (Cn : (forall x perm, ~ List.In (i, x, perm) calls) -> e1 = entry0 (s_tile s i)).
    { intros N. assert (Em : mine i calls = []) by (destruct (mine i calls) as [|[x p] l] eqn:Em; [reflexivity|]; exfalso; apply (N x p); apply mine_in; rewrite Em; left; reflexivity). rewrite Em in A. cbn in A. apply Ok_pair in A. destruct A as [_ <-]. reflexivity. }
    rewrite B. clear B L O A Hr. unfold fin. rewrite F4. cbn [unhook with_hooks l_range].
    assert (Pp : k_perfect (l_cfg (prep ct alpha (s_tile s i))) = caching ct || k_perfect (l_cfg (s_tile s i)) /\ k_nm (l_cfg (prep ct alpha (s_tile s i))) = false
      /\ k_learn (l_cfg (prep ct alpha (s_tile s i))) = (k_enable (l_cfg (s_tile s i)) && k_learn (l_cfg (s_tile s i))) /\ k_from_data (l_cfg (prep ct alpha (s_tile s i))) = 0%Z
      /\ k_prepost (l_cfg (prep ct alpha (s_tile s i))) = k_prepost (l_cfg (s_tile s i)) /\ k_forward (l_cfg (prep ct alpha (s_tile s i))) = k_forward (l_cfg (s_tile s i))
      /\ (l_sim (s_tile s i) = (k_perfect (l_cfg (s_tile s i)), k_nm (l_cfg (s_tile s i))) -> l_sim (prep ct alpha (s_tile s i)) = (k_perfect (l_cfg (prep ct alpha (s_tile s i))), k_nm (l_cfg (prep ct alpha (s_tile s i)))))).
    { clear. unfold prep. destruct (s_tile s i) as [[a b c d f g h j k l] sm r ix hk]. destruct c, k, (caching ct), l; cbn; repeat split; auto. }
    destruct Pp as (P1 & P2 & P3 & P4 & P5 & P6 & P7). pose proof (proj2 (proj2 (prep_start ct alpha _ W))) as P8.
    destruct (flat (e_rows e1)) as [|v l] eqn:Ef; [destruct (e_max e1) as [m|] eqn:Em|].
    1,3: destruct (l_range t1) as [r0|] eqn:Er; [|exfalso; apply F5; [exact Pr|reflexivity]].
    1,2: set (b := Bool.eqb _ _); assert (Eb : b = Bool.eqb (caching ct || k_perfect (l_cfg (s_tile s i))) (k_perfect (l_cfg (s_tile s i)))) by (unfold b; cbn [unhook with_hooks l_cfg]; rewrite F1, P1; reflexivity).
    1,2: assert (Cn' : (forall x perm, ~ List.In (i, x, perm) calls) -> False) by (intros N; apply Cn in N; rewrite N in *; cbn in Ef, Em || cbn in Ef; discriminate).
    1,2: destruct b; cbn [with_cfg set_range with_range recreate set_info set_perfect unhook with_hooks l_cfg l_sim l_hooks k_enable k_learn k_from_data k_alpha k_nm k_prepost k_forward k_perfect];
       rewrite ?F1, ?F2, ?F3, ?Ph, ?Pe, ?P2, ?P3, ?P4, ?P5, ?P6, ?P8, ?P1 in *; repeat split; try (rewrite Nat.add_sub; reflexivity); try tauto; try (intros; exfalso; tauto).
    all: cbn [unhook with_hooks l_cfg l_sim l_hooks]; rewrite ?F1, ?F2, ?F3, ?Ph, ?Pe, ?P2, ?P3, ?P4, ?P5, ?P6, ?P8, ?P1 in *; repeat split; try (rewrite Nat.add_sub; reflexivity); try exact P7; try reflexivity.
    1,2: intros _; symmetry in Eb; apply eqb_prop in Eb; exact Eb.
    intros [C|K]; [rewrite C; reflexivity|]. destruct (caching ct) eqn:C; [|reflexivity]. destruct (Ca eq_refl K); congruence.
Qed.
(** under MAX and CACHE_QUANTILE a tile that was given no data stays perfect, whatever its configuration said (case of C139) *)
Theorem C139_no_data_refuted : exists n calls s s', (forall i, i < n -> ready true (s_tile s i)) /\ calibrate MaxAbs 1 1000 None true true n calls s = (s', None)
  /\ k_perfect (l_cfg (s_tile s 1)) = false /\ k_perfect (l_cfg (s_tile s' 1)) = true /\ l_sim (s_tile s' 1) = (true, false).
Proof.
  assert (Dt : has_data [[1%R]]) by (exists [1%R], 1%R; repeat split; [left; reflexivity|left; reflexivity|lra]).
  destruct (C139_afterwards MaxAbs 1 1000 None true 2 [(0, [[1%R]], fun l => l)] base_state) as (s' & E & _ & _ & H).
  - discriminate.
  - lia.
  - intros i Hi. eapply base_ready. exact Hi.
  - intros i x perm [[= <- <- <-]|[]] l. reflexivity.
  - intros _ i x perm [[= <- <- <-]|[]]. exact Dt.
  - exists 2, [(0, [[1%R]], fun l => l)], base_state, s'. split; [intros i Hi; eapply base_ready; exact Hi|]. split; [exact E|]. split; [reflexivity|]. specialize (H 1 ltac:(lia)). cbv zeta in H. destruct H as (_ & _ & _ & _ & _ & H6 & _ & _ & _ & H10 & H11).
    assert (K : k_perfect (l_cfg (s_tile s' 1)) = true) by (rewrite H10; [reflexivity|]; intros x perm [[=]|[]]). split; [exact K|]. rewrite H11 by reflexivity. rewrite K, H6. reflexivity.
Qed.

(** ** C140: failures *)
Lemma loop_app {A} (f : A -> cstate -> cstate * option exn) l m s : loop f (l ++ m) s = match loop f l s with (s1, None) => loop f m s1 | p => p end.
Proof. revert s. induction l as [|a l IH]; intros s; cbn; [reflexivity|]. destruct (f a s) as [s1 [e|]]; [reflexivity|apply IH]. Qed.
Lemma prepare_all (ct : ctype) alpha force n s : (forall i, i < n -> ready force (s_tile s i)) -> exists s1, loop (prepare ct alpha force) (seq 0 n) {| s_tile := s_tile s; s_entry := fun _ => None; s_train := false |} = (s1, None)
  /\ s_train s1 = false /\ (forall i, i < n -> loc s1 i = (prep ct alpha (s_tile s i), Some (entry0 (s_tile s i)))) /\ (forall i, n <= i -> s_entry s1 i = None).
Proof.
  intros Rd. set (s0 := {| s_tile := s_tile s; s_entry := fun _ => None; s_train := false |}).
  destruct (loop_local (prepare ct alpha force) (fun i p => ready force (fst p)) (fun p => (prep ct alpha (fst p), Some (entry0 (fst p)))) n 0 s0) as (s1 & E1 & T1 & L1 & O1).
  { intros i s1 Hi (W1 & W2 & Fo). cbn [loc fst] in *. unfold prepare. rewrite W1. cbn [negb]. replace (negb force && negb (k_enable (l_cfg (s_tile s1 i)))) with false by (destruct Fo as [->|[-> _]]; [reflexivity|rewrite andb_false_r; reflexivity]).
    set (t0 := if k_enable (l_cfg (s_tile s1 i)) then s_tile s1 i else _). cbn zeta. cbn [with_cfg l_cfg]. assert (Kn : k_nm (set_data (l_cfg t0) alpha) = k_nm (l_cfg (s_tile s1 i))) by (unfold t0; destruct (k_enable (l_cfg (s_tile s1 i))); reflexivity).
    replace (k_nm (set_data (l_cfg t0) alpha) && negb force) with false by (rewrite Kn; destruct Fo as [->|[_ ->]]; [rewrite andb_false_r|]; reflexivity).
    eexists. split; [reflexivity|]. split; [reflexivity|]. split; [|intros j Nj; apply loc_put_other; exact Nj]. rewrite loc_put. cbn [loc fst]. f_equal. f_equal. unfold entry0. f_equal.
    unfold t0. generalize (s_tile s1 i). intros [[a b c d f g h i' j k] si r ix hk]. cbn. destruct c, j; reflexivity. }
  { intros i Hi. apply Rd. lia. }
  exists s1. split; [exact E1|]. split; [exact T1|]. split; [intros i Hi; rewrite L1 by lia; reflexivity|]. intros i Hi. specialize (O1 i ltac:(lia)). unfold loc in O1. injection O1 as _ ->. reflexivity.
Qed.
(** with MAX and MOVING_QUANTILE one batch of zeros for one tile ends the calibration with an exception; all tiles are left with the
    hook of the calibration, the model in evaluation mode and, with MAX, all tiles perfect *)
Theorem C140_zero_batch_refuted (ct : ctype) q ms alpha force n before after i x perm s : needs_data ct -> (forall i, i < n -> ready force (s_tile s i)) ->
  (forall j y p, List.In (j, y, p) before -> has_data y) -> i < n -> ~ has_data x ->
  exists s', calibrate ct q ms alpha force true n (before ++ (i, x, perm) :: after) s = (s', Some RuntimeError) /\ s_train s' = false
  /\ forall j, j < n -> l_hooks (s_tile s' j) = l_hooks (s_tile s j) + 1 /\ (ct = MaxAbs -> k_perfect (l_cfg (s_tile s' j)) = true).
Proof.
  intros Nd Rd Db Hi Nx. assert (Nc : ct <> NoCal) by (destruct Nd; congruence).
  unfold calibrate. replace (match ct with NoCal => true | _ => false end) with false by (destruct ct; congruence). cbn [negb].
  destruct (prepare_all ct alpha force n s Rd) as (s1 & E1 & T1 & L1 & O1). rewrite E1. cbn [then_].
  assert (Q : forall j, j < n -> s_tile s1 j = prep ct alpha (s_tile s j) /\ s_entry s1 j = Some (entry0 (s_tile s j))) by (intros j Hj; specialize (L1 j Hj); unfold loc in L1; apply pair_equal_spec in L1; exact L1).
  destruct (calls_local ct q ms before s1) as (s2 & E2 & T2 & L2).
  { intros j e Ej. destruct (Nat.lt_ge_cases j n) as [Lj|Gj]; [|rewrite O1 in Ej by exact Gj; discriminate]. destruct (Q j Lj) as [Q1 Q2]. rewrite Q1. destruct (hook_run_fine ct q ms (mine j before) (prep ct alpha (s_tile s j)) e Nc) as (t1 & e1 & A).
    - apply prep_facts. apply ready_wf with force. apply Rd. exact Lj.
    - intros y p Hy _. apply mine_in in Hy. eapply Db. exact Hy.
    - eexists. exact A. }
  assert (Q2 : forall j, j < n -> exists e2, s_entry s2 j = Some e2 /\ l_cfg (s_tile s2 j) = l_cfg (prep ct alpha (s_tile s j)) /\ l_hooks (s_tile s2 j) = l_hooks (prep ct alpha (s_tile s j))).
  { intros j Hj. specialize (L2 j). destruct (Q j Hj) as [Qa Qb]. rewrite Qb, Qa in L2. destruct L2 as (t1 & e1 & A & B). apply hook_run_frame in A. destruct A as (A1 & _ & A3 & _). unfold loc in B. apply pair_equal_spec in B. destruct B as [-> ->]. exists e1. auto. }
  rewrite loop_app, E2. cbn [loop]. destruct (Q2 i Hi) as (e2 & Ee & _).
  assert (Ef : flat (nonzero x) = []).
  { destruct (flat (nonzero x)) as [|v l] eqn:Ef; [reflexivity|]. exfalso. apply Nx. assert (Hv : List.In v (flat (nonzero x))) by (rewrite Ef; left; reflexivity). apply flat_in in Hv. destruct Hv as (row & Hr & _). apply nonzero_in in Hr. destruct Hr as [Hr (w & Hw & N)]. exists row, w. auto. }
  assert (Eh : hook ct q ms perm (s_tile s2 i) e2 x = Raise RuntimeError) by (unfold hook; rewrite Ef; destruct Nd as [->| ->]; reflexivity).
  assert (Efc : forward_call ct q ms (i, x, perm) s2 = (s2, Some RuntimeError)) by (unfold forward_call; rewrite Ee, Eh; reflexivity).
  rewrite Efc. cbn [then_]. exists s2. split; [reflexivity|]. split; [congruence|]. intros j Hj. destruct (Q2 j Hj) as (e & _ & C1 & C2). destruct (ready_wf _ _ (Rd j Hj)) as [W _]. split; [rewrite C2; apply prep_facts; exact W|].
  intros ->. rewrite C1. clear. unfold prep. destruct (s_tile s j) as [[a b c d f g h k l m] sm r ix hk]. destruct c, l, m; reflexivity.
Qed.

(** ** C141: without force_all_layers *)
(** noise management is refused *)
Theorem C141_noise_management (ct : ctype) q ms alpha n calls s : ct <> NoCal -> (exists i, i < n /\ supported (l_cfg (s_tile s i)) = true /\ k_enable (l_cfg (s_tile s i)) = true /\ k_nm (l_cfg (s_tile s i)) = true) ->
  exists s', calibrate ct q ms alpha false true n calls s = (s', Some ConfigError) /\ s_train s' = false.
Proof.
  intros Nc (i & Hi & B1 & B2 & B3). unfold calibrate. replace (match ct with NoCal => true | _ => false end) with false by (destruct ct; congruence). cbn [negb].
  set (same := fun a b : tile => supported (l_cfg a) = supported (l_cfg b) /\ k_enable (l_cfg a) = k_enable (l_cfg b) /\ k_nm (l_cfg a) = k_nm (l_cfg b)).
  destruct (loop_raise (prepare ct alpha false) (fun s1 => s_train s1 = false /\ forall j, same (s_tile s1 j) (s_tile s j))
    (fun j => supported (l_cfg (s_tile s j)) = true /\ k_enable (l_cfg (s_tile s j)) = true /\ k_nm (l_cfg (s_tile s j)) = true) ConfigError (seq 0 n) {| s_tile := s_tile s; s_entry := fun _ => None; s_train := false |}) as (s1 & E1 & I1 & _).
  - intros j s1 Hj [T1 Sm]. destruct (Sm j) as (S1 & S2 & S3).
    assert (Up : forall t e, same t (s_tile s j) -> s_train (put s1 j t e) = false /\ forall k, same (s_tile (put s1 j t e) k) (s_tile s k)).
    { intros t e K. split; [exact T1|]. intros k. unfold put. cbn [s_tile]. destruct (Nat.eq_dec k j) as [->|N]; [rewrite fupd_same; exact K|rewrite fupd_other by exact N; apply Sm]. }
    unfold prepare. rewrite S1, S2. split.
    + intros (C1 & C2 & C3). rewrite C1, C2. cbn [negb andb with_cfg l_cfg]. change (k_nm (set_data (l_cfg (s_tile s1 j)) alpha)) with (k_nm (l_cfg (s_tile s1 j))). rewrite S3, C3. cbn [andb negb]. eexists. split; [reflexivity|]. apply Up. unfold same. cbn. unfold supported in *. cbn. tauto.
    + intros N. destruct (supported (l_cfg (s_tile s j))) eqn:C1; cbn [negb]; [|eexists; split; [reflexivity|split; [exact T1|exact Sm]]]. destruct (k_enable (l_cfg (s_tile s j))) eqn:C2; cbn [negb andb]; [|eexists; split; [reflexivity|split; [exact T1|exact Sm]]].
      destruct (k_nm (l_cfg (s_tile s j))) eqn:C3; [exfalso; tauto|]. cbn [with_cfg l_cfg]. change (k_nm (set_data (l_cfg (s_tile s1 j)) alpha)) with (k_nm (l_cfg (s_tile s1 j))). rewrite S3. cbn [andb orb]. eexists. split; [reflexivity|]. apply Up.
      unfold same, supported in *. destruct (caching ct && _); cbn; rewrite ?C1, ?C2, ?C3, ?S1, ?S2, ?S3; auto.
  - intros j. destruct (supported (l_cfg (s_tile s j))), (k_enable (l_cfg (s_tile s j))), (k_nm (l_cfg (s_tile s j))); (left; tauto) || (right; intros (? & ? & ?); discriminate).
  - split; [reflexivity|]. intros j. unfold same. auto.
  - exists i. split; [apply in_seq; lia|tauto].
  - rewrite E1. cbn. exists s1. auto.
Qed.
(** ... and if an input range is not enabled everywhere, the calibration ends in a KeyError, with the input ranges enabled everywhere *)
Theorem C141_not_all_enabled_refuted (ct : ctype) q ms alpha n calls s : ct <> NoCal -> (forall i, i < n -> supported (l_cfg (s_tile s i)) = true /\ (k_enable (l_cfg (s_tile s i)) = true -> l_range (s_tile s i) <> None /\ k_nm (l_cfg (s_tile s i)) = false)) ->
  (needs_data ct -> forall i x perm, List.In (i, x, perm) calls -> has_data x) -> (exists i, i < n /\ k_enable (l_cfg (s_tile s i)) = false) ->
  exists s', calibrate ct q ms alpha false true n calls s = (s', Some KeyError) /\ s_train s' = false /\ forall i, i < n -> k_enable (l_cfg (s_tile s' i)) = true.
Proof.
  intros Nc Rd Nd (i0 & Hi0 & B0). unfold calibrate. replace (match ct with NoCal => true | _ => false end) with false by (destruct ct; congruence). cbn [negb]. set (s0 := {| s_tile := s_tile s; s_entry := fun _ => None; s_train := false |}).
  destruct (loop_local (prepare ct alpha false) (fun i p => supported (l_cfg (fst p)) = true /\ (k_enable (l_cfg (fst p)) = true -> k_nm (l_cfg (fst p)) = false)) (fun p => if k_enable (l_cfg (fst p)) then (prep ct alpha (fst p), Some (entry0 (fst p))) else p) n 0 s0) as (s1 & E1 & T1 & L1 & O1).
  { intros i s1 Hi (W1 & W2). cbn [loc fst] in *. unfold prepare. rewrite W1. cbn [negb]. destruct (k_enable (l_cfg (s_tile s1 i))) eqn:Ke; cbn [negb andb]; [|exists s1; repeat split; reflexivity].
    specialize (W2 eq_refl). cbn zeta. cbn [with_cfg l_cfg]. change (k_nm (set_data (l_cfg (s_tile s1 i)) alpha)) with (k_nm (l_cfg (s_tile s1 i))). rewrite W2. cbn [andb orb].
    eexists. split; [reflexivity|]. split; [reflexivity|]. split; [|intros j Nj; apply loc_put_other; exact Nj]. rewrite loc_put. f_equal. unfold prep. rewrite Ke. cbn [with_cfg l_cfg]. change (k_nm (set_data (l_cfg (s_tile s1 i)) alpha)) with (k_nm (l_cfg (s_tile s1 i))). rewrite W2. reflexivity. }
  { intros i Hi. destruct (Rd i ltac:(lia)) as [R1 R2]. split; [exact R1|]. intros K. apply R2. exact K. }
  rewrite E1. cbn [then_].
  assert (Wf : forall i, i < n -> wf (s_tile s i)) by (intros i Hi; destruct (Rd i Hi) as [R1 R2]; split; [exact R1|intros K; apply R2; exact K]).
  assert (Q1 : forall i, i < n -> if k_enable (l_cfg (s_tile s i)) then s_tile s1 i = prep ct alpha (s_tile s i) /\ s_entry s1 i = Some (entry0 (s_tile s i)) else s_tile s1 i = s_tile s i /\ s_entry s1 i = None).
  { intros i Hi. specialize (L1 i ltac:(lia)). unfold loc in L1. cbn [fst s_tile s0 s_entry] in L1. destruct (k_enable (l_cfg (s_tile s i))); apply pair_equal_spec in L1; exact L1. }
  destruct (calls_local ct q ms calls s1) as (s2 & E2 & T2 & L2).
  { intros j e Ej. destruct (Nat.lt_ge_cases j n) as [Lj|Gj].
    - specialize (Q1 j Lj). destruct (k_enable (l_cfg (s_tile s j))); destruct Q1 as [Qa Qb]; [|congruence]. rewrite Qa. destruct (hook_run_fine ct q ms (mine j calls) (prep ct alpha (s_tile s j)) e Nc) as (t1 & e1 & A).
      + apply prep_facts. apply Wf. exact Lj.
      + intros y p Hy K. apply mine_in in Hy. eapply Nd; eassumption.
      + eexists. exact A.
    - specialize (O1 j ltac:(lia)). unfold loc in O1. apply pair_equal_spec in O1. destruct O1 as [_ O1]. cbn in O1. congruence. }
  rewrite E2. cbn [then_].
  assert (Q2 : forall i, i < n -> supported (l_cfg (s_tile s2 i)) = true /\ if k_enable (l_cfg (s_tile s i)) then k_enable (l_cfg (s_tile s2 i)) = true /\ l_range (s_tile s2 i) <> None /\ s_entry s2 i <> None else k_enable (l_cfg (s_tile s2 i)) = false /\ s_entry s2 i = None).
  { intros i Hi. specialize (Q1 i Hi). specialize (L2 i). destruct (Rd i Hi) as [R1 R2]. destruct (k_enable (l_cfg (s_tile s i))) eqn:Ke; destruct Q1 as [Qa Qb]; rewrite Qb, ?Qa in L2.
    - destruct L2 as (t1 & e1 & A & B). apply hook_run_frame in A. destruct A as (A1 & _ & _ & _ & A5 & _). unfold loc in B. apply pair_equal_spec in B. destruct B as [-> ->]. destruct (prep_facts ct alpha _ (Wf i Hi)) as (P1 & P2 & P3 & _). rewrite A1. repeat split; auto. discriminate.
    - unfold loc in L2. apply pair_equal_spec in L2. destruct L2 as [-> ->]. rewrite Qa, Qb. auto. }
  destruct (loop_local remove_hook (fun i p => True) (fun p => (match snd p with Some _ => unhook (fst p) | None => fst p end, snd p)) n 0 s2) as (s3 & E3 & T3 & L3 & O3).
  { intros i s' Hi _. unfold remove_hook. destruct (s_entry s' i) as [e|] eqn:Ee; [eexists; split; [reflexivity|]; split; [reflexivity|]; split; [|intros j Nj; apply loc_put_other; exact Nj]; rewrite loc_put; unfold loc; rewrite Ee; reflexivity|]. exists s'. split; [reflexivity|]. split; [reflexivity|]. split; [|reflexivity]. unfold loc. rewrite Ee. reflexivity. }
  { auto. }
  rewrite E3. cbn [then_].
  assert (Q3 : forall i, i < n -> supported (l_cfg (s_tile s3 i)) = true /\ if k_enable (l_cfg (s_tile s i)) then k_enable (l_cfg (s_tile s3 i)) = true /\ l_range (s_tile s3 i) <> None /\ s_entry s3 i <> None else k_enable (l_cfg (s_tile s3 i)) = false /\ s_entry s3 i = None).
  { intros i Hi. specialize (Q2 i Hi). specialize (L3 i ltac:(lia)). unfold loc in L3. cbn [fst snd] in L3. apply pair_equal_spec in L3. destruct L3 as [-> ->]. destruct (s_entry s2 i); exact Q2. }
  destruct (loop_local enable_range (fun i p => k_prepost (l_cfg (fst p)) = true) (fun p => (if k_enable (l_cfg (fst p)) then fst p else init_input_processing (with_cfg (fst p) (set_enable (l_cfg (fst p)))), snd p)) n 0 s3) as (s4 & E4 & T4 & L4 & O4).
  { intros i s' Hi K1. cbn [loc fst snd] in *. unfold enable_range. rewrite K1. cbn [negb]. destruct (k_enable (l_cfg (s_tile s' i))) eqn:Ke; [exists s'; repeat split; reflexivity|]. eexists. split; [reflexivity|]. split; [reflexivity|]. split; [apply loc_put|]. intros j Nj. apply loc_put_other. exact Nj. }
  { intros i Hi. destruct (Q3 i ltac:(lia)) as [K _]. unfold supported in K. apply andb_true_iff in K. apply K. }
  rewrite E4. cbn [then_].
  assert (Q4 : forall i, i < n -> supported (l_cfg (s_tile s4 i)) = true /\ k_enable (l_cfg (s_tile s4 i)) = true /\ l_range (s_tile s4 i) <> None /\ (s_entry s4 i = None <-> k_enable (l_cfg (s_tile s i)) = false)).
  { intros i Hi. destruct (Q3 i Hi) as [K1 K2]. specialize (L4 i ltac:(lia)). unfold loc in L4. cbn [fst snd] in L4. apply pair_equal_spec in L4. destruct L4 as [-> ->]. destruct (k_enable (l_cfg (s_tile s i))).
    - destruct K2 as (K2 & K3 & K4). rewrite K2. repeat split; auto; [congruence|discriminate].
    - destruct K2 as (K2 & K3). rewrite K2. cbn. repeat split; auto. discriminate. }
  destruct (loop_raise (finish ct q false) (fun u => s_train u = false /\ forall i, i < n -> supported (l_cfg (s_tile u i)) = true /\ k_enable (l_cfg (s_tile u i)) = true /\ l_range (s_tile u i) <> None /\ (s_entry u i = None <-> k_enable (l_cfg (s_tile s i)) = false))
     (fun i => k_enable (l_cfg (s_tile s i)) = false) KeyError (seq 0 n) s4) as (s5 & E5 & T5 & Q5).
  - intros i u Hi [Tu Qu]. apply in_seq in Hi. destruct (Qu i ltac:(lia)) as (U1 & U2 & U3 & U4). unfold finish. rewrite U1, U2. cbn [negb andb]. split.
    + intros K. rewrite (proj2 U4 K). eexists. split; [reflexivity|]. split; assumption.
    + intros K. destruct (s_entry u i) as [e|] eqn:Ee; [|exfalso; apply K; apply U4; reflexivity].
      assert (Up : forall t, supported (l_cfg t) = true -> k_enable (l_cfg t) = true -> l_range t <> None -> s_train (put u i t (Some e)) = false /\ forall j, j < n -> supported (l_cfg (s_tile (put u i t (Some e)) j)) = true /\ k_enable (l_cfg (s_tile (put u i t (Some e)) j)) = true /\ l_range (s_tile (put u i t (Some e)) j) <> None /\ (s_entry (put u i t (Some e)) j = None <-> k_enable (l_cfg (s_tile s j)) = false)).
      { intros t V1 V2 V3. split; [exact Tu|]. intros j Hj. unfold put. cbn [s_tile s_entry]. destruct (Nat.eq_dec j i) as [->|N]; [rewrite !fupd_same; repeat split; auto; [discriminate|intros; exfalso; auto]|rewrite !fupd_other by exact N; apply Qu; exact Hj]. }
      destruct (l_range (s_tile u i)) as [r0|] eqn:Er; [|contradiction].
      destruct (flat (e_rows e)) as [|v l]; [destruct (e_max e) as [m|]; [|eexists; split; [reflexivity|split; assumption]]|].
      all: eexists; split; [reflexivity|]; apply Up; unfold supported in *; destruct (Bool.eqb _ _); cbn; auto; discriminate.
  - intros i. destruct (k_enable (l_cfg (s_tile s i))); [right; discriminate|left; reflexivity].
  - split; [rewrite T4, T3, T2, T1; reflexivity|exact Q4].
  - exists i0. split; [apply in_seq; lia|exact B0].
  - rewrite E5. exists s5. split; [reflexivity|]. split; [exact T5|]. intros i Hi. apply Q5. exact Hi.
Qed.

(** ** C142: deeper layers *)
(** two layers, one after the other, with weights 1: the input of the second is the clipped input of the first *)
Definition second_input (t : tile) (x : vec) : vec := match l_range t with Some r => clip_input r x | None => x end.
(** MAX calibration of such a model with the data x = 10: the input range of the first layer starts at 3, hence the second layer is calibrated
    to 3 although with the new ranges the same data gives 10 *)
Theorem C142_deeper_layers_refuted : exists s', let x := [10%R] in
  calibrate MaxAbs 1 1000 None true true 2 [(0, [x], fun l => l); (1, [second_input (prep MaxAbs None base_tile) x], fun l => l)] base_state = (s', None)
  /\ l_range (s_tile s' 0) = Some 10%R /\ second_input (s_tile s' 0) x = [10%R] /\ l_range (s_tile s' 1) = Some 3%R /\ second_input (s_tile s' 1) (second_input (s_tile s' 0) x) = [3%R].
Proof.
  assert (S1 : second_input (prep MaxAbs None base_tile) [10%R] = [3%R]) by (unfold second_input; cbn; unfold clampR; f_equal; mm).
  destruct (C136_max 1 1000 None true 2 [(0, [[10%R]], fun l => l); (1, [[3%R]], fun l => l)] base_state) as (s' & E & H).
  - intros i Hi. eapply base_ready. exact Hi.
  - intros i x perm [[= <- <- <-]|[[= <- <- <-]|[]]]; [exists [10%R], 10%R|exists [3%R], 3%R]; repeat split; try (left; reflexivity); lra.
  - exists s'. cbv zeta. rewrite S1. split; [exact E|].
    pose proof (H 0 ltac:(lia)) as H0. pose proof (H 1 ltac:(lia)) as H1. cbn [existsb fst Nat.eqb orb] in H0, H1. destruct H0 as (r & R1 & _ & (v & V1 & V2) & _). destruct H1 as (r' & R1' & _ & (v' & V1' & V2') & _).
    destruct V1 as [<-|[]]. destruct V1' as [<-|[]]. rewrite (Rabs_right 10) in V2 by lra. rewrite (Rabs_right 3) in V2' by lra. subst r r'. unfold second_input. rewrite R1, R1'. split; [reflexivity|].
    assert (C10 : clip_input 10 [10%R] = [10%R]) by (cbn; unfold clampR; f_equal; mm). rewrite C10. split; [reflexivity|]. split; [reflexivity|]. cbn. unfold clampR. f_equal. mm.
Qed.

Print Assumptions C139_afterwards.
Print Assumptions C139_no_data_refuted.
Print Assumptions C140_zero_batch_refuted.
Print Assumptions C141_noise_management.
Print Assumptions C141_not_all_enabled_refuted.
Print Assumptions C142_deeper_layers_refuted.
