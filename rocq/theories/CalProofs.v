(** * Calibration: lemmas *)
From Verif Require Import Prelude CalModel.
Local Open Scope nat_scope.

Lemma fupd_same {A} (f : nat -> A) i v : fupd f i v i = v.
Proof. unfold fupd. rewrite Nat.eqb_refl. reflexivity. Qed.
Lemma fupd_other {A} (f : nat -> A) i v j : j <> i -> fupd f i v j = f j.
Proof. unfold fupd. destruct (Nat.eqb_spec j i); [contradiction|reflexivity]. Qed.
(** what the state holds for tile [i] *)
Definition loc (s : cstate) (i : nat) : tile * option entry := (s_tile s i, s_entry s i).
Lemma loc_put s i t e : loc (put s i t e) i = (t, e).
Proof. unfold loc, put. cbn. rewrite !fupd_same. reflexivity. Qed.
Lemma loc_put_other s i t e j : j <> i -> loc (put s i t e) j = loc s j.
Proof. intros N. unfold loc, put. cbn. rewrite !fupd_other by exact N. reflexivity. Qed.

(** loops over all tiles whose body only concerns the tile *)
Lemma loop_local (f : nat -> cstate -> cstate * option exn) (ok : nat -> tile * option entry -> Prop) (F : tile * option entry -> tile * option entry) k : forall a s,
  (forall i s, a <= i < a + k -> ok i (loc s i) -> exists s1, f i s = (s1, None) /\ s_train s1 = s_train s /\ loc s1 i = F (loc s i) /\ forall j, j <> i -> loc s1 j = loc s j) ->
  (forall i, a <= i < a + k -> ok i (loc s i)) ->
  exists s', loop f (seq a k) s = (s', None) /\ s_train s' = s_train s /\ (forall i, a <= i < a + k -> loc s' i = F (loc s i)) /\ (forall i, ~ (a <= i < a + k) -> loc s' i = loc s i).
Proof.
  induction k as [|k IH]; intros a s B H; cbn [seq loop].
  - exists s. repeat split; intros; lia || reflexivity.
  - destruct (B a s) as (s1 & E & T & L & O); [lia|apply H; lia|]. rewrite E.
    destruct (IH (S a) s1) as (s2 & E2 & T2 & L2 & O2).
    + intros i s0 Hi. apply B. lia.
    + intros i Hi. rewrite O by lia. apply H. lia.
    + exists s2. split; [exact E2|]. split; [congruence|]. split.
      * intros i Hi. destruct (Nat.eq_dec i a) as [->|N]; [rewrite O2 by lia; exact L|]. rewrite L2 by lia. rewrite O by exact N. reflexivity.
      * intros i Hi. rewrite O2 by lia. apply O. lia.
Qed.
(** loops that end in an exception: good tiles keep the invariant, a bad one raises *)
Lemma loop_raise (f : nat -> cstate -> cstate * option exn) (Inv : cstate -> Prop) (bad : nat -> Prop) e l : forall s,
  (forall i s, List.In i l -> Inv s -> (bad i -> exists s1, f i s = (s1, Some e) /\ Inv s1) /\ (~ bad i -> exists s1, f i s = (s1, None) /\ Inv s1)) ->
  (forall i, bad i \/ ~ bad i) -> Inv s -> (exists i, List.In i l /\ bad i) -> exists s', loop f l s = (s', Some e) /\ Inv s'.
Proof.
  induction l as [|a l IH]; intros s B D I (i & Hi & Hb); [destruct Hi|]. cbn [loop]. destruct (B a s (or_introl eq_refl) I) as [B1 B2].
  destruct (D a) as [Ba|Na].
  - destruct (B1 Ba) as (s1 & E & I1). rewrite E. exists s1. auto.
  - destruct (B2 Na) as (s1 & E & I1). rewrite E. apply IH; [intros j s0 Hj; apply B; right; exact Hj|exact D|exact I1|]. exists i. split; [|exact Hb]. destruct Hi as [->|Hi]; [contradiction|exact Hi].
Qed.
Lemma loop_inv {A} (f : A -> cstate -> cstate * option exn) (Inv : cstate -> Prop) l : (forall a s s1 o, List.In a l -> Inv s -> f a s = (s1, o) -> Inv s1) -> forall s s1 o, Inv s -> loop f l s = (s1, o) -> Inv s1.
Proof.
  induction l as [|a l IH]; intros B s s1 o I E; cbn in E; [injection E as <- _; exact I|]. destruct (f a s) as [s2 [er|]] eqn:Ef.
  - injection E as <- _. eapply B; [left; reflexivity|exact I|exact Ef].
  - eapply IH; [intros; eapply B; [right; eassumption|eassumption|eassumption]| |exact E]. eapply B; [left; reflexivity|exact I|exact Ef].
Qed.

Section Cal.
Context (ct : ctype) (q : R) (ms : nat) (alpha : option R) (force : bool).
(** the preparation of a tile, as a function *)
Definition prep (t : tile) : tile :=
  let c := l_cfg t in
  let t := if k_enable c then t else init_input_processing (with_cfg t (set_enable c)) in
  let t := with_cfg t (set_data (l_cfg t) alpha) in
  let b1 := k_nm (l_cfg t) in
  let t := if b1 then with_cfg t (set_nm (l_cfg t)) else t in
  let b2 := caching ct && negb (k_perfect (l_cfg t)) in
  let t := if b2 then with_cfg t (set_perfect (l_cfg t) true) else t in
  let t := if b1 || b2 then recreate t else t in
  with_hooks t (l_hooks t + 1).
Definition entry0 (t : tile) : entry := {| e_perfect := k_perfect (l_cfg t); e_rows := []; e_max := None |}.
(** the calls of tile [i] *)
Definition mine (i : nat) (calls : list call) : list (mat * (mat -> mat)) := map (fun a : call => (snd (fst a), snd a)) (filter (fun a : call => fst (fst a) =? i) calls).
Fixpoint hook_run (t : tile) (e : entry) (xs : list (mat * (mat -> mat))) : res (tile * entry) :=
  match xs with [] => Ok (t, e) | (x, perm) :: r => p <- hook ct q ms perm t e x ;; hook_run (fst p) (snd p) r end.
Lemma hook_run_app t e xs ys : hook_run t e (xs ++ ys) = (p <- hook_run t e xs ;; hook_run (fst p) (snd p) ys).
Proof. revert t e. induction xs as [|[x perm] r IH]; intros t e; cbn; [reflexivity|]. destruct (hook ct q ms perm t e x) as [p|er]; cbn; [apply IH|reflexivity]. Qed.

(** the calls of different tiles do not interfere *)
Lemma calls_local calls : forall s, (forall i e, s_entry s i = Some e -> is_ok (hook_run (s_tile s i) e (mine i calls))) ->
  exists s', loop (forward_call ct q ms) calls s = (s', None) /\ s_train s' = s_train s
  /\ forall i, match s_entry s i with None => loc s' i = loc s i | Some e => exists t1 e1, hook_run (s_tile s i) e (mine i calls) = Ok (t1, e1) /\ loc s' i = (t1, Some e1) end.
Proof.
  induction calls as [|[[j x] perm] r IH]; intros s H; cbn [loop].
  - exists s. repeat split; intros. unfold loc. destruct (s_entry s i); [eexists _, _; split; reflexivity|reflexivity].
  - unfold forward_call at 1. destruct (s_entry s j) as [e|] eqn:Ej.
    + assert (Hj := H j e Ej). unfold mine in Hj. cbn [filter fst snd] in Hj. rewrite Nat.eqb_refl in Hj. cbn [map hook_run fst snd] in Hj.
      destruct (hook ct q ms perm (s_tile s j) e x) as [[t1 e1]|er] eqn:Eh; [|destruct Hj as [? Hj]; discriminate Hj]. cbn [bind fst snd] in Hj.
      destruct (IH (put s j t1 (Some e1))) as (s2 & E2 & T2 & L2).
      { intros i e' Ei. destruct (Nat.eq_dec i j) as [->|N].
        - unfold put in *. cbn [s_tile s_entry] in *. rewrite fupd_same in Ei. injection Ei as <-. rewrite fupd_same. exact Hj.
        - unfold put in *. cbn [s_tile s_entry] in *. rewrite fupd_other in Ei by exact N. rewrite fupd_other by exact N. specialize (H i e' Ei). unfold mine in H. cbn [filter fst snd] in H. destruct (Nat.eqb_spec j i); [congruence|]. exact H. }
      exists s2. split; [exact E2|]. split; [exact T2|]. intros i. specialize (L2 i). destruct (Nat.eq_dec i j) as [->|N].
      * unfold put in L2. cbn [s_tile s_entry] in L2. rewrite !fupd_same in L2. rewrite Ej. destruct L2 as (t2 & e2 & A1 & A2). exists t2, e2. split; [|exact A2]. unfold mine. cbn [filter fst snd]. rewrite Nat.eqb_refl. cbn [map hook_run fst snd]. rewrite Eh. exact A1.
      * unfold put in L2. cbn [s_tile s_entry] in L2. rewrite !fupd_other in L2 by exact N. unfold mine in *. cbn [filter fst snd]. destruct (Nat.eqb_spec j i); [congruence|]. destruct (s_entry s i) eqn:Ei; [exact L2|]. rewrite L2. apply loc_put_other. exact N.
    + destruct (IH s) as (s2 & E2 & T2 & L2).
      { intros i e' Ei. specialize (H i e' Ei). unfold mine in H. cbn [filter fst snd] in H. destruct (Nat.eqb_spec j i); [congruence|]. exact H. }
      exists s2. split; [exact E2|]. split; [exact T2|]. intros i. specialize (L2 i). destruct (s_entry s i) as [e'|] eqn:Ei; [|exact L2]. unfold mine in *. cbn [filter fst snd]. destruct (Nat.eqb_spec j i); [congruence|]. exact L2.
Qed.

(** hooks only change input range and update index *)
Lemma hook_frame perm t e x t1 e1 : hook ct q ms perm t e x = Ok (t1, e1) ->
  l_cfg t1 = l_cfg t /\ l_sim t1 = l_sim t /\ l_hooks t1 = l_hooks t /\ e_perfect e1 = e_perfect e /\ (l_range t <> None -> l_range t1 <> None) /\ (caching ct = true -> t1 = t).
Proof.
  unfold hook. cbv zeta. destruct ct; cbn [caching]; try discriminate.
  - destruct (Rltb 0 _); [destruct (l_range t) eqn:Er; [|discriminate]|]; intros [= <- <-]; cbn; repeat split; try discriminate; auto.
  - destruct (flat (nonzero x)); [discriminate|]. destruct (Rltb 0 _); [destruct (l_range t) eqn:Er; [|discriminate]|]; intros [= <- <-]; cbn; repeat split; try discriminate; auto.
  - intros [= <- <-]; cbn; auto 10.
  - destruct (flat (nonzero x)); [discriminate|]. intros [= <- <-]; cbn; auto 10.
Qed.
Lemma hook_run_frame xs : forall t e t1 e1, hook_run t e xs = Ok (t1, e1) ->
  l_cfg t1 = l_cfg t /\ l_sim t1 = l_sim t /\ l_hooks t1 = l_hooks t /\ e_perfect e1 = e_perfect e /\ (l_range t <> None -> l_range t1 <> None) /\ (caching ct = true -> t1 = t).
Proof.
  induction xs as [|[x perm] r IH]; intros t e t1 e1 E; cbn in E; [injection E as <- <-; auto 10|]. destruct (hook ct q ms perm t e x) as [[t2 e2]|er] eqn:Eh; [|discriminate]. cbn in E.
  apply hook_frame in Eh. apply IH in E. destruct Eh as (H1 & H2 & H3 & H4 & H5 & H6), E as (E1 & E2 & E3 & E4 & E5 & E6). repeat split; try congruence; [auto|]. intros C. rewrite E6, H6 by exact C. reflexivity.
Qed.

(** the end of the calibration of a tile, as a function *)
Definition unhook (t : tile) : tile := with_hooks t (l_hooks t - 1).
Definition fin (t : tile) (e : entry) : tile :=
  match flat (e_rows e), e_max e, l_range t with
  | [], None, _ => t
  | _, _, None => t
  | _, _, Some r0 =>
      let r := match ct with CacheQuantile => quantile q (flat (e_rows e)) | MaxAbs => match e_max e with Some m => m | None => r0 end | _ => r0 end in
      let t := if Bool.eqb (k_perfect (l_cfg t)) (e_perfect e) then t else recreate (with_cfg t (set_perfect (l_cfg t) (e_perfect e))) in
      let t := set_range t r in
      with_cfg t (set_info (l_cfg t) (Rabs r) ct)
  end.
(** enabled tiles have an input range *)
Definition wf (t : tile) : Prop := supported (l_cfg t) = true /\ (k_enable (l_cfg t) = true -> l_range t <> None).
Lemma prep_facts t : wf t -> supported (l_cfg (prep t)) = true /\ k_enable (l_cfg (prep t)) = true /\ l_range (prep t) <> None /\ l_hooks (prep t) = l_hooks t + 1.
Proof.
  intros [W1 W2]. unfold prep, supported in *. destruct t as [[a b c d f g h i j k] s r ix hk]. cbn in *. apply andb_true_iff in W1. destruct W1 as [-> ->].
  destruct c, j, (caching ct), k; cbn; repeat split; try discriminate; auto.
Qed.
Theorem calibrate_ok n calls s : ct <> NoCal -> (forall i, i < n -> wf (s_tile s i) /\ (force = true \/ k_enable (l_cfg (s_tile s i)) = true /\ k_nm (l_cfg (s_tile s i)) = false)) ->
  (forall i, i < n -> is_ok (hook_run (prep (s_tile s i)) (entry0 (s_tile s i)) (mine i calls))) ->
  exists s', calibrate ct q ms alpha force true n calls s = (s', None) /\ s_train s' = s_train s
  /\ (forall i, i < n -> exists t1 e1, hook_run (prep (s_tile s i)) (entry0 (s_tile s i)) (mine i calls) = Ok (t1, e1) /\ s_tile s' i = fin (unhook t1) e1)
  /\ (forall i, n <= i -> s_tile s' i = s_tile s i).
Proof.
  intros Nc W H. unfold calibrate. replace (match ct with NoCal => true | _ => false end) with false by (destruct ct; congruence). cbn [negb].
  set (s0 := {| s_tile := s_tile s; s_entry := fun _ => None; s_train := false |}).
  destruct (loop_local (prepare ct alpha force) (fun i p => wf (fst p) /\ (force = true \/ k_enable (l_cfg (fst p)) = true /\ k_nm (l_cfg (fst p)) = false)) (fun p => (prep (fst p), Some (entry0 (fst p)))) n 0 s0) as (s1 & E1 & T1 & L1 & O1).
  { intros i s1 Hi [[W1 W2] Fo]. cbn [loc fst] in *. unfold prepare. rewrite W1. cbn [negb]. replace (negb force && negb (k_enable (l_cfg (s_tile s1 i)))) with false by (destruct Fo as [->|[-> _]]; [reflexivity|rewrite andb_false_r; reflexivity]).
    set (t0 := if k_enable (l_cfg (s_tile s1 i)) then s_tile s1 i else _). cbn zeta. cbn [with_cfg l_cfg]. assert (Kn : k_nm (set_data (l_cfg t0) alpha) = k_nm (l_cfg (s_tile s1 i))) by (unfold t0; destruct (k_enable (l_cfg (s_tile s1 i))); reflexivity).
    replace (k_nm (set_data (l_cfg t0) alpha) && negb force) with false by (rewrite Kn; destruct Fo as [->|[_ ->]]; [rewrite andb_false_r|]; reflexivity).
    eexists. split; [reflexivity|]. split; [reflexivity|]. split; [|intros j Nj; apply loc_put_other; exact Nj]. rewrite loc_put. cbn [loc fst]. f_equal. f_equal. unfold entry0. f_equal.
    unfold t0. generalize (s_tile s1 i). intros [[a b c d f g h i' j k] si r ix hk]. cbn. destruct c, j; reflexivity. }
  { intros i Hi. apply W. lia. }
  rewrite E1. cbn [then_].
  destruct (calls_local calls s1) as (s2 & E2 & T2 & L2).
  { intros i e Ei. destruct (Nat.lt_ge_cases i n) as [Li|Gi].
    - specialize (L1 i ltac:(lia)). unfold loc in L1. injection L1 as Ht He. rewrite Ht. rewrite He in Ei. injection Ei as <-. apply H. exact Li.
    - specialize (O1 i ltac:(lia)). unfold loc in O1. injection O1 as _ He. cbn in He. congruence. }
  rewrite E2. cbn [then_].
  destruct (loop_local remove_hook (fun i p => snd p <> None) (fun p => (unhook (fst p), snd p)) n 0 s2) as (s3 & E3 & T3 & L3 & O3).
  { intros i s' Hi N. cbn [loc snd] in N. unfold remove_hook. destruct (s_entry s' i) as [e|] eqn:Ee; [|contradiction]. eexists. split; [reflexivity|]. split; [reflexivity|]. split; [|intros j Nj; apply loc_put_other; exact Nj]. rewrite loc_put. unfold loc. rewrite Ee. reflexivity. }
  { intros i Hi. specialize (L2 i). specialize (L1 i Hi). unfold loc in L1. injection L1 as Ht He. rewrite He in L2. destruct L2 as (t1 & e1 & _ & ->). discriminate. }
  rewrite E3. cbn [then_].
  assert (P3 : forall i, i < n -> exists t1 e1, hook_run (prep (s_tile s i)) (entry0 (s_tile s i)) (mine i calls) = Ok (t1, e1) /\ loc s3 i = (unhook t1, Some e1)
    /\ supported (l_cfg t1) = true /\ k_enable (l_cfg t1) = true /\ l_range t1 <> None).
  { intros i Hi. specialize (L3 i ltac:(lia)). specialize (L2 i). specialize (L1 i ltac:(lia)). unfold loc in L1. injection L1 as Ht He. rewrite He, Ht in L2. cbn [s0 s_tile] in L2. destruct L2 as (t1 & e1 & A & B). exists t1, e1. split; [exact A|]. rewrite L3, B. split; [reflexivity|].
    destruct (prep_facts (s_tile s i)) as (F1 & F2 & F3 & _); [apply W; exact Hi|]. apply hook_run_frame in A. destruct A as (-> & _ & _ & _ & A5 & _). auto. }
  destruct (loop_local enable_range (fun i p => k_prepost (l_cfg (fst p)) = true /\ k_enable (l_cfg (fst p)) = true) (fun p => p) n 0 s3) as (s4 & E4 & T4 & L4 & O4).
  { intros i s' Hi [K1 K2]. cbn [loc fst] in *. unfold enable_range. rewrite K1, K2. cbn. eexists. split; [reflexivity|]. repeat split; reflexivity. }
  { intros i Hi. destruct (P3 i) as (t1 & e1 & _ & -> & P1 & P2 & _); [lia|]. cbn. unfold supported in P1. apply andb_true_iff in P1. tauto. }
  rewrite E4. cbn [then_].
  destruct (loop_local (finish ct q force) (fun i p => supported (l_cfg (fst p)) = true /\ k_enable (l_cfg (fst p)) = true /\ snd p <> None /\ l_range (fst p) <> None)
     (fun p => (match snd p with Some e => fin (fst p) e | None => fst p end, snd p)) n 0 s4) as (s5 & E5 & T5 & L5 & O5).
  { intros i s' Hi (K1 & K2 & K3 & K4). cbn [loc fst snd] in *. unfold finish. rewrite K1, K2. cbn [negb]. rewrite andb_false_r. destruct (s_entry s' i) as [e|] eqn:Ee; [|contradiction]. cbn [fst snd]. unfold fin.
    destruct (l_range (s_tile s' i)) as [r0|] eqn:Er; [|contradiction].
    destruct (flat (e_rows e)) as [|v vs]; [destruct (e_max e) as [m|]|].
    - eexists. split; [reflexivity|]. split; [reflexivity|]. split; [rewrite (loc_put); unfold loc; cbn; rewrite ?fupd_same; reflexivity|]. intros j Nj. apply (loc_put_other _ _ _ _ _ Nj).
    - exists s'. split; [reflexivity|]. split; [reflexivity|]. split; [|intros; reflexivity]. unfold loc. rewrite ?Ee. cbn. reflexivity.
    - eexists. split; [reflexivity|]. split; [reflexivity|]. split; [unfold loc; cbn; rewrite ?fupd_same; reflexivity|]. intros j Nj. apply (loc_put_other _ _ _ _ _ Nj). }
  { intros i Hi. rewrite L4 by exact Hi. destruct (P3 i) as (t1 & e1 & _ & -> & P1 & P2 & P4); [lia|]. cbn. repeat split; auto. discriminate. }
  rewrite E5. eexists. split; [reflexivity|]. cbn [s_train s_tile]. split; [reflexivity|]. split.
  - intros i Hi. destruct (P3 i Hi) as (t1 & e1 & A & B & _). exists t1, e1. split; [exact A|]. specialize (L5 i ltac:(lia)). rewrite L4, B in L5 by lia. cbn in L5. unfold loc in L5. injection L5 as -> _. reflexivity.
  - intros i Hi. specialize (O5 i ltac:(lia)). specialize (O4 i ltac:(lia)). specialize (O3 i ltac:(lia)). specialize (O1 i ltac:(lia)). specialize (L2 i).
    unfold loc in O1. injection O1 as Ht He. rewrite He in L2. cbn in L2. unfold loc in *. rewrite O4, O3, L2 in O5. injection O5 as -> _. exact Ht.
Qed.
End Cal.
