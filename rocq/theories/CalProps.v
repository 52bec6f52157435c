(** * C136-C138: the ranges found *)
From Coq Require Import Permutation Sorted.
From Verif Require Import Prelude CalModel CalSpec CalProofs PeriModel.
Local Open Scope nat_scope.

Lemma ready_wf force t : ready force t -> wf t /\ (force = true \/ k_enable (l_cfg t) = true /\ k_nm (l_cfg t) = false).
Proof. intros (A & B & C). split; [split; assumption|exact C]. Qed.
Lemma mine_rows i calls : rows_of i calls = concat (map fst (mine i calls)).
Proof. induction calls as [|[[j x] p] r IH]; [reflexivity|]. unfold rows_of, mine in *. cbn. destruct (j =? i); cbn; [f_equal; exact IH|exact IH]. Qed.
Lemma mine_in i x p calls : List.In (x, p) (mine i calls) <-> List.In (i, x, p) calls.
Proof.
  unfold mine. rewrite in_map_iff. split.
  - intros ([[j y] p'] & E & H). cbn in E. injection E as -> ->. apply filter_In in H. destruct H as [H1 H2]. cbn in H2. apply Nat.eqb_eq in H2. subst j. exact H1.
  - intros H. exists (i, x, p). split; [reflexivity|]. apply filter_In. split; [exact H|]. cbn. apply Nat.eqb_refl.
Qed.
Lemma nonzero_in r x : List.In r (nonzero x) <-> List.In r x /\ exists v, List.In v r /\ v <> 0%R.
Proof.
  unfold nonzero. rewrite filter_In. apply and_iff_compat_l. split.
  - intros H. apply negb_true_iff in H. induction r as [|a r IH]; [discriminate|]. cbn in H. apply andb_false_iff in H. destruct H as [H|H]; [apply Reqb_false in H; exists a; split; [left; reflexivity|exact H]|]. destruct (IH H) as (v & Hv & N). exists v. split; [right; exact Hv|exact N].
  - intros (v & Hv & N). apply negb_true_iff. destruct (forallb _ r) eqn:E; [|reflexivity]. rewrite forallb_forall in E. specialize (E v Hv). apply Reqb_true in E. contradiction.
Qed.
Lemma flat_in v x : List.In v (flat x) <-> exists r, List.In r x /\ List.In v r.
Proof. unfold flat. rewrite in_concat. reflexivity. Qed.
Lemma maxabs_flat_nonzero x : maxabs (flat (nonzero x)) = maxabs (flat x).
Proof.
  apply Rle_antisym.
  - destruct (flat (nonzero x)) as [|a l] eqn:E; [apply maxabs_nonneg|]. rewrite <- E. destruct (maxabs_attained (flat (nonzero x))) as (v & Hv & <-); [rewrite E; discriminate|]. apply maxabs_ub. apply flat_in in Hv. destruct Hv as (r & Hr & Hv). apply nonzero_in in Hr. apply flat_in. exists r. tauto.
  - destruct (flat x) as [|a l] eqn:E; [apply maxabs_nonneg|]. rewrite <- E. destruct (maxabs_attained (flat x)) as (v & Hv & <-); [rewrite E; discriminate|]. destruct (Req_dec v 0) as [->|N]; [rewrite Rabs_R0; apply maxabs_nonneg|]. apply maxabs_ub. apply flat_in in Hv. destruct Hv as (r & Hr & Hv). apply flat_in. exists r. split; [|exact Hv]. apply nonzero_in. split; [exact Hr|]. exists v. auto.
Qed.
Lemma maxabs_app a b : maxabs (a ++ b) = Rmax (maxabs a) (maxabs b).
Proof. induction a as [|x a IH]; [symmetry; apply Rmax_right; apply maxabs_nonneg|]. change (Rmax (Rabs x) (maxabs (a ++ b)) = Rmax (Rmax (Rabs x) (maxabs a)) (maxabs b)). rewrite IH. apply Rmax_assoc. Qed.
Lemma prep_start ct alpha t : wf t -> l_range (prep ct alpha t) = start_range t /\ l_idx (prep ct alpha t) = start_idx t /\ k_alpha (l_cfg (prep ct alpha t)) = match alpha with Some a => a | None => k_alpha (l_cfg t) end.
Proof.
  intros [W1 W2]. unfold prep, start_range, start_idx. destruct t as [[a b c d f g h i j k] s r ix hk]. cbn in *. destruct c, j, (caching ct), k; cbn; auto.
Qed.

(** ** C136: MAX *)
Lemma max_run q ms xs : forall t e, Forall (fun p : mat * (mat -> mat) => flat (nonzero (fst p)) <> []) xs ->
  hook_run MaxAbs q ms t e xs = Ok (t, {| e_perfect := e_perfect e; e_rows := e_rows e; e_max := match xs with [] => e_max e | _ => Some (match e_max e with None => maxabs (flat (concat (map fst xs))) | Some m => Rmax m (maxabs (flat (concat (map fst xs)))) end) end |}).
Proof.
  induction xs as [|[x perm] r IH]; intros t e F; [destruct e; reflexivity|]. inversion F as [|? ? Hx Fr]; subst. cbn [hook_run hook fst] in *.
  destruct (flat (nonzero x)) as [|a l] eqn:Ef; [contradiction|]. rewrite <- Ef. cbn [bind fst snd]. rewrite IH by exact Fr. f_equal. f_equal. cbn [e_perfect e_rows e_max]. f_equal.
  rewrite maxabs_flat_nonzero. assert (E : maxabs (flat (concat (map fst ((x, perm) :: r)))) = Rmax (maxabs (flat x)) (maxabs (flat (concat (map fst r))))) by (cbn; unfold flat; rewrite concat_app; apply maxabs_app).
  destruct r as [|p r]; [cbn [map concat] in *; rewrite E; cbn; rewrite (Rmax_left (maxabs (flat x)) 0) by apply maxabs_nonneg; destruct (e_max e); reflexivity|].
  rewrite E. f_equal. destruct (e_max e); [rewrite Rmax_assoc|]; reflexivity.
Qed.
Theorem C136_max q ms alpha force n calls s : (forall i, i < n -> ready force (s_tile s i)) ->
  (forall i x perm, List.In (i, x, perm) calls -> exists row v, List.In row x /\ List.In v row /\ v <> 0%R) ->
  exists s', calibrate MaxAbs q ms alpha force true n calls s = (s', None) /\
  forall i, i < n ->
    if existsb (fun a : call => fst (fst a) =? i) calls then
      exists r, l_range (s_tile s' i) = Some r
      /\ (forall v, List.In v (values_of i calls) -> Rabs v <= r)%R /\ (exists v, List.In v (values_of i calls) /\ Rabs v = r)
      /\ (forall row, List.In row (rows_of i calls) -> clip_input r row = row)
      /\ k_init (l_cfg (s_tile s' i)) = r /\ k_info (l_cfg (s_tile s' i)) = Some MaxAbs
    else l_range (s_tile s' i) = start_range (s_tile s i).
Proof.
  intros Rd Nz.
  assert (Nm : forall i, Forall (fun p : mat * (mat -> mat) => flat (nonzero (fst p)) <> []) (mine i calls)).
  { intros i. apply Forall_forall. intros [x p] Hx. apply mine_in in Hx. destruct (Nz _ _ _ Hx) as (row & v & H1 & H2 & H3). cbn [fst]. intros E. assert (K : List.In v (flat (nonzero x))) by (apply flat_in; exists row; split; [apply nonzero_in; split; [exact H1|exists v; auto]|exact H2]). rewrite E in K. destruct K. }
  destruct (calibrate_ok MaxAbs q ms alpha force n calls s) as (s' & E & _ & L & _).
  - discriminate.
  - intros i Hi. apply ready_wf. apply Rd. exact Hi.
  - intros i Hi. eexists. apply max_run. apply Nm.
  - exists s'. split; [exact E|]. intros i Hi. destruct (L i Hi) as (t1 & e1 & A & B). rewrite max_run in A by apply Nm. injection A as <- <-.
    destruct (ready_wf _ _ (Rd i Hi)) as [W _]. destruct (prep_start MaxAbs alpha _ W) as (P1 & _ & _). destruct (prep_facts MaxAbs alpha _ W) as (_ & _ & P2 & _).
    assert (Ex : existsb (fun a : call => fst (fst a) =? i) calls = match mine i calls with [] => false | _ => true end).
    { clear. unfold mine. induction calls as [|[[j x] p] r IH]; [reflexivity|]. cbn. destruct (j =? i); [reflexivity|]. exact IH. }
    rewrite Ex. rewrite B. unfold fin. cbn [e_rows flat concat entry0 e_max e_perfect unhook with_hooks l_range]. destruct (mine i calls) as [|p0 r0] eqn:Em.
    + cbn [l_range unhook with_hooks]. exact P1.
    + rewrite <- Em. destruct (l_range (prep MaxAbs alpha (s_tile s i))) as [r1|] eqn:Er; [|contradiction].
      set (m := maxabs (flat (concat (map fst (mine i calls))))). assert (Pm : (0 <= m)%R) by apply maxabs_nonneg.
      assert (Mv : m = maxabs (values_of i calls)) by (unfold m, values_of, flat; rewrite mine_rows; reflexivity).
      exists m. cbn [set_range with_range with_cfg l_range l_cfg set_info k_init k_info]. rewrite (Rabs_right m) by lra. split; [reflexivity|].
      assert (Ub : forall v, List.In v (values_of i calls) -> (Rabs v <= m)%R) by (intros v Hv; rewrite Mv; apply maxabs_ub; exact Hv).
      split; [exact Ub|]. split; [|split; [|split; reflexivity]].
      * rewrite Mv. apply maxabs_attained. unfold values_of. rewrite mine_rows, Em. intros K. specialize (Nm i). rewrite Em in Nm. inversion Nm as [|? ? N1 _]; subst. destruct p0 as [x p]. cbn in *.
        destruct (flat (nonzero x)) as [|v l] eqn:Ef; [contradiction|]. assert (Hv : List.In v (flat (nonzero x))) by (rewrite Ef; left; reflexivity). apply flat_in in Hv. destruct Hv as (row & Hr & Hv). apply nonzero_in in Hr. rewrite concat_app in K. apply app_eq_nil in K. destruct K as [K _].
        assert (Hw : List.In v (flat x)) by (apply flat_in; exists row; tauto). unfold flat in Hw. rewrite K in Hw. destruct Hw.
      * intros row Hr. unfold clip_input. rewrite <- (map_id row) at 2. apply map_ext_in. intros v Hv. assert (Rabs v <= m)%R by (apply Ub; unfold values_of; apply in_concat; exists row; auto). rewrite (Rabs_right m) by lra. unfold clampR. revert H. mm.
Qed.

Print Assumptions C136_max.
