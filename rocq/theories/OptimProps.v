(** * The analog optimizer: the theorems *)
From Verif Require Import Prelude PeriModel PeriSpec PeriProofs PeriProofs4 OptimModel OptimSpec OptimProofs.
From Coq Require Import Permutation.

(** C17: [regroup_param_groups] loses and duplicates no parameter, leaves every analog
    parameter alone in a group, never leaves an empty group, and changes neither the
    order nor the learning rates of the other parameters. *)
Theorem C17_regroup : forall o, NoDup (all_params o) ->
  exists o' ev, regroup o = Ok (o', ev)
    /\ Permutation (all_params o') (all_params o)
    /\ (forall g, In g (o_groups o') -> g_params g <> [] /\
          ((forall p, In p (g_params g) -> is_analog p = false) \/ (exists n, g_params g = [PAna n])))
    /\ digital_view o' = digital_view o.
Proof.
  intros o ND. destruct (regroup_lemma o ND) as (o' & ev & E & P & G & D & _). exists o', ev. repeat (split; auto).
  - apply (G g H).
  - destruct (G g H) as [_ [X|(n & X & _)]]; eauto.
Qed.
(** Each analog tile gets the optimizer's default learning rate exactly once. *)
Theorem C17_regroup_tile_lr : forall o o' ev n, NoDup (all_params o) -> regroup o = Ok (o', ev) ->
  events_of n ev = (if existsb (param_eqb (PAna n)) (all_params o) then [ESetLR n (o_default_lr o)] else [])
  /\ (In (PAna n) (all_params o) -> In (Some (o_default_lr o), PAna n) (flat o')).
Proof.
  intros o o' ev n ND E. destruct (regroup_lemma o ND) as (o1 & ev1 & E1 & P & G & _ & _ & H1 & H2).
  rewrite E in E1. injection E1 as -> ->. split.
  - destruct (existsb (param_eqb (PAna n)) (all_params o)) eqn:X.
    + apply H1. apply existsb_exists in X as [q [Hq X]]. apply param_eqb_eq in X. now subst.
    + apply H2. intros Hin. assert (Y : existsb (param_eqb (PAna n)) (all_params o) = true).
      { apply existsb_exists. exists (PAna n). split; auto. now apply param_eqb_eq. } congruence.
  - intros Hin.
    assert (Hin' : In (PAna n) (all_params o1)) by (eapply Permutation_in; [symmetry; exact P|exact Hin]).
    unfold all_params in Hin'. apply in_concat in Hin' as [ps [Hps Hn]]. apply in_map_iff in Hps as [g [<- Hg]].
    destruct (G g Hg) as [_ [X|(m & X & Y)]].
    + specialize (X _ Hn). discriminate.
    + rewrite X in Hn. destruct Hn as [Hn|[]]. injection Hn as ->.
      unfold flat. apply in_concat. exists (map (pair (g_lr g)) (g_params g)). split.
      * apply in_map_iff. eauto.
      * rewrite X, Y. simpl; auto.
Qed.
(** ... so a learning rate given to the user's own parameter group is lost for analog
    parameters. *)
Definition opt_two : optim :=
  {| o_groups := [{| g_params := [PDig 0; PAna 0]; g_lr := Some 2 |}]; o_default_lr := 1 |}.
Theorem C17_group_lr_refuted :
  ~ (forall o o' ev lr n, NoDup (all_params o) -> regroup o = Ok (o', ev) ->
       In (Some lr, PAna n) (flat o) -> In (Some lr, PAna n) (flat o')).
Proof.
  intros H. specialize (H opt_two {| o_groups := [{| g_params := [PDig 0]; g_lr := Some 2 |}; {| g_params := [PAna 0]; g_lr := Some 1 |}];
     o_default_lr := 1 |} [ESetLR 0 1] 2 0%nat).
  assert (X : In (Some 2, PAna 0) (flat {| o_groups := [{| g_params := [PDig 0]; g_lr := Some 2 |}; {| g_params := [PAna 0]; g_lr := Some 1 |}];
     o_default_lr := 1 |})).
  { apply H; [|reflexivity|simpl; auto]. unfold all_params; simpl. repeat constructor; simpl; intuition discriminate. }
  simpl in X. destruct X as [X|[X|[]]]; [discriminate|]. injection X. lra.
Qed.
Example C17_nonvacuous : NoDup (all_params opt_two).
Proof. unfold all_params; simpl. repeat constructor; simpl; intuition discriminate. Qed.

(** C18: one optimizer step.  The calls made on each tile are, in order: set the
    group's learning rate, update with everything recorded since the last step, and
    the post-update step; all post-update steps come after all updates. *)
Theorem C18_step : forall o cs cs' ev, NoDup (all_params o) -> step o cs = (cs', ev) ->
  (exists u p, ev = u ++ p /\ (forall e n, In e u -> e <> EPost n) /\ (forall e, In e p -> exists n, e = EPost n))
  /\ (forall n lr, In (Some lr, PAna n) (flat o) -> a_torch (cs n) = false -> a_in (cs n) <> [] -> lr <> 0 ->
        cs' n = actx_reset (cs n)
        /\ (a_indexed (cs n) = false ->
              events_of n ev = [ESetLR n lr; EUpdate n (concat (a_in (cs n))) (concat (a_gr (cs n))); EPost n])
        /\ (a_indexed (cs n) = true ->
              events_of n ev = [ESetLR n lr] ++ map2 (EUpdateIndexed n) (a_in (cs n)) (a_gr (cs n)) ++ [EPost n]))
  /\ (forall n lr, In (lr, PAna n) (flat o) -> a_torch (cs n) = true \/ a_in (cs n) = [] ->
        events_of n ev = [EPost n] /\ cs' n = cs n)
  /\ (forall n, In (Some 0, PAna n) (flat o) -> a_torch (cs n) = false -> a_in (cs n) <> [] ->
        events_of n ev = [EPost n] /\ cs' n = actx_reset (cs n))
  /\ (forall n, ~ In (PAna n) (all_params o) -> events_of n ev = [] /\ cs' n = cs n).
Proof.
  intros o cs cs' ev ND E. destruct (step_lemma o cs ND) as (cs1 & u & E1 & H1 & H2 & H3 & H4).
  rewrite E in E1. injection E1 as -> ->. split; [|split; [|split; [|split]]].
  - exists u, (posts o). split; [reflexivity|]. split; [|exact H4]. intros e n He. now apply H3.
  - intros n lr Hin T A L. destruct (H1 n (Some lr) Hin) as (Q1 & Q2 & Q3). rewrite Q3. unfold after, expected in *.
    rewrite T in *. assert (Z : Nat.eqb (length (a_in (cs n))) 0 = false) by (destruct (a_in (cs n)); simpl; congruence).
    rewrite Z in *. assert (Rq : Reqb lr 0 = false) by (apply Reqb_false; auto). rewrite Rq in Q1.
    split; auto. split; intros X; rewrite X in Q1; rewrite events_app, Q1, Q2; simpl; rewrite ?app_assoc; reflexivity.
  - intros n lr Hin A. destruct (H1 n lr Hin) as (Q1 & Q2 & Q3). rewrite events_app, Q1, Q2, Q3. unfold expected, after.
    destruct (a_torch (cs n)) eqn:T; [auto|]. destruct A as [A|A]; [discriminate|]. rewrite A. simpl. auto.
  - intros n Hin T A. destruct (H1 n (Some 0) Hin) as (Q1 & Q2 & Q3). rewrite events_app, Q1, Q2, Q3. unfold expected, after.
    rewrite T. assert (Z : Nat.eqb (length (a_in (cs n))) 0 = false) by (destruct (a_in (cs n)); simpl; congruence).
    rewrite Z. assert (Rq : Reqb 0 0 = true) by (apply Reqb_true; auto). rewrite Rq. auto.
  - intros n Hn. auto.
Qed.
(** A second step without a backward pass in between updates nothing. *)
Theorem C18_second_step_idle : forall o cs cs1 ev1 cs2 ev2, NoDup (all_params o) ->
  step o cs = (cs1, ev1) -> step o cs1 = (cs2, ev2) ->
  (forall n, cs2 n = cs1 n) /\ (forall e, In e ev2 -> exists n, e = EPost n).
Proof.
  intros o cs cs1 ev1 cs2 ev2 ND E1 E2.
  destruct (C18_step o cs cs1 ev1 ND E1) as (_ & A1 & A2 & A3 & A4).
  destruct (step_lemma o cs1 ND) as (csx & u & Ex & H1 & H2 & H3 & H4). rewrite E2 in Ex. injection Ex as -> ->.
  destruct (step_lemma o cs ND) as (csy & v & Ey & K1 & _). rewrite E1 in Ey. injection Ey as -> ->.
  assert (Q : forall n lr, In (lr, PAna n) (flat o) -> expected lr n (csy n) = [] /\ after (csy n) = csy n).
  { intros n lr Hin. destruct (K1 n lr Hin) as (_ & _ & K). rewrite K. unfold expected, after.
    destruct (a_torch (cs n)) eqn:T; [rewrite T; auto|].
    destruct (Nat.eqb (length (a_in (cs n))) 0) eqn:Z; [rewrite T, Z; auto|]. simpl. rewrite T. auto. }
  assert (D : forall n, In (PAna n) (all_params o) -> exists lr, In (lr, PAna n) (flat o)).
  { intros n Hn. rewrite <- flat_params in Hn. apply in_map_iff in Hn as [[lr p] [Hp Hn]]. simpl in Hp. subst. eauto. }
  assert (Dec : forall n, In (PAna n) (all_params o) \/ ~ In (PAna n) (all_params o)).
  { intros n. destruct (existsb (param_eqb (PAna n)) (all_params o)) eqn:X.
    - left. apply existsb_exists in X as [q [Hq X]]. apply param_eqb_eq in X. now subst.
    - right. intros Hin. assert (Y : existsb (param_eqb (PAna n)) (all_params o) = true).
      { apply existsb_exists. exists (PAna n). split; auto. now apply param_eqb_eq. } congruence. }
  split.
  - intros n. destruct (Dec n) as [Hn|Hn]; [|apply H2; auto].
    destruct (D n Hn) as [lr Hl]. destruct (H1 n lr Hl) as (_ & _ & X). destruct (Q n lr Hl). congruence.
  - intros e He. apply in_app_or in He as [He|He]; [|auto]. exfalso.
    assert (X : In e (events_of (tile_of e) u)) by (apply filter_In; split; auto; apply Nat.eqb_refl).
    destruct (Dec (tile_of e)) as [Hn|Hn].
    + destruct (D _ Hn) as [lr Hl]. destruct (H1 _ lr Hl) as (Y & _). rewrite Y, (proj1 (Q _ lr Hl)) in X. contradiction.
    + destruct (H2 _ Hn) as [Y _]. rewrite events_app in Y. apply app_eq_nil in Y as [Y _]. rewrite Y in X. contradiction.
Qed.
(** Whatever backward passes (through any tiles, any number of times, in any order)
    and optimizer steps happen, at a step the weights of an ideal tile are those plain
    SGD gives on all samples seen so far: no sample is lost, repeated or given to
    another tile. *)
Theorem C18_history_is_sgd : forall o cf n lr ts0 cs0 h,
  NoDup (all_params o) -> In (Some lr, PAna n) (flat o) -> lr <> 0 ->
  reachable (cf n) (ts0 n) -> t_los (ts0 n) = None -> t_ir (ts0 n) = None ->
  cs0 n = {| a_torch := false; a_indexed := false; a_in := []; a_gr := [] |} ->
  Forall (shaped cf) h ->
  fst (logical (cf n) (fst (hrun o cf (ts0, cs0) (h ++ [HStep])) n))
  = fold_left (fun W p => sgd lr W (fst p) (snd p)) (samples n h) (fst (logical (cf n) (ts0 n))).
Proof. intros. eapply history_lemma; eauto. Qed.

Definition cf1 : nat -> pcfg := fun _ =>
  {| c_out := 1; c_in := 2; c_mapping := true; c_omega := 1; c_colwise := false; c_lrcomp := false;
     c_learn_out := false; c_out_colwise := false; c_bias := false; c_digital := true |}.
Example C18_nonvacuous :
  reachable (cf1 0%nat) (ptile_new (cf1 0%nat) [[0; 0]] None 1)
  /\ Forall (shaped cf1) [HBack 0 [[1; 2]] [[1]]; HStep; HBack 0 [[1; 1]; [0; 1]] [[1]; [2]]; HBack 1 [] []]
  /\ samples 0 [HBack 0 [[1; 2]] [[1]]; HStep; HBack 0 [[1; 1]; [0; 1]] [[1]; [2]]; HBack 1 [] []]
     = [([1; 2], [1]); ([1; 1], [1]); ([0; 1], [2])].
Proof.
  split; [|split].
  - exists [[0; 0]], None, 1, []. simpl. repeat split; auto.
  - repeat constructor.
  - reflexivity.
Qed.

(** C19: [set_learning_rate] reaches every group and every analog tile, once. *)
Theorem C19_set_lr : forall o lr o' ev, NoDup (all_params o) -> set_lr o lr = (o', ev) ->
  map g_params (o_groups o') = map g_params (o_groups o)
  /\ (forall p q, In (q, p) (flat o') -> q = Some lr)
  /\ (forall n, In (PAna n) (all_params o) -> events_of n ev = [ESetLR n lr])
  /\ (forall e, In e ev -> exists n, In (PAna n) (all_params o) /\ e = ESetLR n lr).
Proof.
  intros o lr o' ev ND E. unfold set_lr in E. injection E as <- <-. cbn [o_groups]. split; [|split].
  - rewrite map_map. apply map_ext. reflexivity.
  - intros p q H. unfold flat in H. cbn [o_groups] in H. apply in_concat in H as [l [Hl H]]. rewrite map_map in Hl.
    apply in_map_iff in Hl as [g [<- _]]. simpl in H. apply in_map_iff in H as [x [X _]]. congruence.
  - assert (E : concat (map (fun g => concat (map (fun p => match p with PAna n => [ESetLR n lr] | PDig _ => [] end) (g_params g))) (o_groups o))
     = concat (map (fun p => match p with PAna n => [ESetLR n lr] | PDig _ => [] end) (all_params o))).
    { unfold all_params. generalize (o_groups o). clear. intros gs. induction gs as [|g gs IH]; simpl; auto.
      rewrite map_app, concat_app, IH. reflexivity. }
    rewrite E. clear E. revert ND. generalize (all_params o) as l. clear o. intros l ND. split.
    + intros n Hn. induction ND as [|p l Hp ND IH]; [contradiction|].
      assert (Z : forall k, ~ In (PAna n) k -> events_of n (concat (map (fun p => match p with PAna n => [ESetLR n lr] | PDig _ => [] end) k)) = []).
      { clear. induction k as [|q k IH]; simpl; auto. intros H. destruct q as [m|m]; simpl; auto.
        destruct (Nat.eqb_spec m n) as [X|X]; [subst; exfalso; auto|auto]. }
      destruct Hn as [X|Hn].
      * subst p. simpl. rewrite Nat.eqb_refl. now rewrite Z.
      * destruct p as [m|m]; simpl; auto. destruct (Nat.eqb_spec m n) as [X|X]; [subst; contradiction|auto].
    + intros e He. apply in_concat in He as [k [Hk He]]. apply in_map_iff in Hk as [p [<- Hp]].
      destruct p as [m|m]; [contradiction|]. destruct He as [<-|[]]. eauto.
Qed.

(** C20: [AnalogOptimizer(Cls, ...)] builds on [Cls].  True as long as no two wrapped
    classes share a name ... *)
Theorem C20_wrapped_class : forall (cls : list pyclass) r0 c,
  (forall a b, In a (c :: cls) -> In b (c :: cls) -> fst a = fst b -> a = b) ->
  r0 = fold_left (fun r k => fst (optimizer_new r k)) cls [] ->
  snd (optimizer_new r0 c) = c.
Proof.
  intros cls r0 c Inj ->.
  assert (G : forall l r, (forall k v, lookup r k = Some v -> fst v = k /\ In v (c :: cls)) ->
      (forall x, In x l -> In x cls) ->
      forall k v, lookup (fold_left (fun r k => fst (optimizer_new r k)) l r) k = Some v -> fst v = k /\ In v (c :: cls)).
  { induction l as [|a l IH]; simpl; intros r Hr Hl; auto. apply IH; [|auto].
    intros k v. unfold optimizer_new. destruct (lookup r (fst a)) eqn:E; simpl; auto.
    destruct (String.eqb_spec k (fst a)) as [X|X]; auto. intros Y. injection Y as <-. split; [congruence|right; auto]. }
  specialize (G cls [] ltac:(simpl; discriminate) ltac:(auto)).
  unfold optimizer_new. destruct (lookup _ (fst c)) eqn:E; simpl; auto.
  apply G in E as [E1 E2]. apply Inj; simpl; auto.
Qed.
(** ... but a second class with the same name silently gets the first one's code. *)
Theorem C20_same_name_refuted :
  ~ (forall (cls : list pyclass) c,
       snd (optimizer_new (fold_left (fun r k => fst (optimizer_new r k)) cls []) c) = c).
Proof.
  intros H. specialize (H [("Adam"%string, 0%nat)] ("Adam"%string, 1%nat)). vm_compute in H. discriminate.
Qed.
Example C20_nonvacuous : forall a b, In a [("SGD"%string, 0%nat); ("Adam"%string, 1%nat)] ->
  In b [("SGD"%string, 0%nat); ("Adam"%string, 1%nat)] -> fst a = fst b -> a = b.
Proof. simpl. intros a b [<-|[<-|[]]] [<-|[<-|[]]]; simpl; auto; discriminate. Qed.

Print Assumptions C17_regroup.
Print Assumptions C17_regroup_tile_lr.
Print Assumptions C17_group_lr_refuted.
Print Assumptions C18_step.
Print Assumptions C18_second_step_idle.
Print Assumptions C18_history_is_sgd.
Print Assumptions C19_set_lr.
Print Assumptions C20_wrapped_class.
Print Assumptions C20_same_name_refuted.
