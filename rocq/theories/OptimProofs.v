From Verif Require Import Prelude PeriModel PeriSpec PeriProofs PeriProofs4 OptimModel OptimSpec.
From Coq Require Import Permutation.

Lemma param_eqb_eq p q : param_eqb p q = true <-> p = q.
Proof. destruct p, q; simpl; rewrite ?Nat.eqb_eq; split; intros; try discriminate; congruence. Qed.

Lemma flat_params o : map snd (flat o) = all_params o.
Proof.
  unfold flat, all_params. rewrite concat_map, map_map. f_equal. apply map_ext. intros g.
  rewrite map_map. apply map_id.
Qed.

(** ** regroup *)
Definition single (d : R) (p : param) : group := {| g_params := [p]; g_lr := Some d |}.
Lemma add_groups_ok d : forall analog gs,
  NoDup (concat (map g_params gs) ++ analog) ->
  fold_left (fun r p => r1 <- r ;; add_param_group r1 [p]) analog
    (Ok {| o_groups := gs; o_default_lr := d |})
  = Ok {| o_groups := gs ++ map (single d) analog; o_default_lr := d |}.
Proof.
  induction analog as [|p l IH]; intros gs ND; simpl; [now rewrite app_nil_r|].
  unfold add_param_group at 2. cbn [existsb o_groups].
  assert (E : existsb (fun g => existsb (param_eqb p) (g_params g)) gs = false).
  { destruct (existsb _ gs) eqn:E; auto. apply existsb_exists in E as [g [Hg E]]. apply existsb_exists in E as [q [Hq E]].
    apply param_eqb_eq in E; subst q. exfalso. apply NoDup_remove_2 in ND. apply ND. apply in_or_app; left.
    apply in_concat. exists (g_params g); split; auto. now apply in_map. }
  rewrite E. simpl orb. cbv iota.
  rewrite IH.
  - simpl. now rewrite <- app_assoc.
  - rewrite map_app, concat_app. simpl. rewrite <- app_assoc. exact ND.
Qed.

Lemma perm_filter {A} (f : A -> bool) l : Permutation (filter (fun x => negb (f x)) l ++ filter f l) l.
Proof.
  induction l as [|a l IH]; simpl; auto. destruct (f a); simpl.
  - apply Permutation_sym, Permutation_cons_app, Permutation_sym, IH.
  - now constructor.
Qed.
Lemma concat_filter_ne (gs : list group) :
  concat (map g_params (filter (fun g => negb (Nat.eqb (length (g_params g)) 0)) gs)) = concat (map g_params gs).
Proof.
  induction gs as [|g gs IH]; simpl; auto. destruct (g_params g) eqn:E; simpl; auto. now rewrite E, <- IH.
Qed.
Lemma perm_split (gs : list group) :
  Permutation (concat (map (fun g => filter (fun p => negb (is_analog p)) (g_params g)) gs)
               ++ concat (map (fun g => filter is_analog (g_params g)) gs)) (concat (map g_params gs)).
Proof.
  induction gs as [|g gs IH]; simpl; auto.
  rewrite <- (perm_filter is_analog (g_params g)) at 3.
  rewrite <- app_assoc. rewrite (Permutation_app_swap_app (concat _) _ _). rewrite !app_assoc. rewrite <- app_assoc.
  apply Permutation_app; auto. 
Qed.

Lemma regroup_lemma o : NoDup (all_params o) ->
  exists o' ev, regroup o = Ok (o', ev)
    /\ Permutation (all_params o') (all_params o)
    /\ (forall g, In g (o_groups o') -> g_params g <> [] /\
          ((forall p, In p (g_params g) -> is_analog p = false) \/
           (exists n, g_params g = [PAna n] /\ g_lr g = Some (o_default_lr o))))
    /\ digital_view o' = digital_view o
    /\ o_default_lr o' = o_default_lr o
    /\ (forall n, In (PAna n) (all_params o) -> events_of n ev = [ESetLR n (o_default_lr o)])
    /\ (forall n, ~ In (PAna n) (all_params o) -> events_of n ev = []).
Proof.
  intros ND. unfold regroup.
  set (analog := concat (map (fun g => filter is_analog (g_params g)) (o_groups o))).
  set (dg := map (fun g => {| g_params := filter (fun p => negb (is_analog p)) (g_params g); g_lr := g_lr g |}) (o_groups o)).
  set (dg' := filter (fun g => negb (Nat.eqb (length (g_params g)) 0)) dg).
  assert (Edg : concat (map g_params dg') = concat (map (fun g => filter (fun p => negb (is_analog p)) (g_params g)) (o_groups o))).
  { unfold dg'. rewrite concat_filter_ne. unfold dg. now rewrite map_map. }
  assert (PS : Permutation (concat (map g_params dg') ++ analog) (all_params o)).
  { rewrite Edg. apply perm_split. }
  assert (ND' : NoDup (concat (map g_params dg') ++ analog)) by (eapply Permutation_NoDup; [symmetry; exact PS|exact ND]).
  rewrite (add_groups_ok (o_default_lr o) analog dg' ND'). cbn [bind].
  eexists _, _; split; [reflexivity|].
  assert (Ana : forall p, In p analog -> is_analog p = true).
  { intros p Hp. unfold analog in Hp. apply in_concat in Hp as [l [Hl Hp]]. apply in_map_iff in Hl as [g [<- _]].
    now apply filter_In in Hp as [_ Hp]. }
  assert (Cs : concat (map g_params (map (single (o_default_lr o)) analog)) = analog).
  { clear. induction analog; simpl; congruence. }
  split; [|split; [|split; [|split]]].
  - unfold all_params at 1. simpl. rewrite map_app, concat_app, Cs. exact PS.
  - simpl. intros g Hg. apply in_app_or in Hg as [Hg|Hg].
    + unfold dg' in Hg. apply filter_In in Hg as [Hg Hne]. split; [destruct (g_params g); simpl in *; congruence|].
      left. unfold dg in Hg. apply in_map_iff in Hg as [g0 [<- _]]. simpl. intros p Hp.
      apply filter_In in Hp as [_ Hp]. now apply negb_true_iff in Hp.
    + apply in_map_iff in Hg as [p [<- Hp]]. simpl. split; [discriminate|]. right.
      specialize (Ana p Hp). destruct p as [|n]; [discriminate|]. eauto.
  - unfold digital_view, flat. simpl. rewrite map_app, concat_app, filter_app.
    assert (Z : filter (fun x => negb (is_analog (snd x))) (concat (map (fun g => map (pair (g_lr g)) (g_params g)) (map (single (o_default_lr o)) analog))) = []).
    { clear -Ana. induction analog as [|p l IH]; simpl; auto. rewrite (Ana p) by (simpl; auto). simpl. apply IH.
      intros; apply Ana; simpl; auto. }
    rewrite Z, app_nil_r. unfold dg', dg. clear. induction (o_groups o) as [|g gs IH]; simpl; auto.
    assert (F : filter (fun x => negb (is_analog (snd x))) (map (pair (g_lr g)) (g_params g))
              = map (pair (g_lr g)) (filter (fun p => negb (is_analog p)) (g_params g))).
    { clear. induction (g_params g) as [|p l IH]; simpl; auto. destruct (negb (is_analog p)); simpl; congruence. }
    assert (F2 : filter (fun x => negb (is_analog (snd x))) (map (pair (g_lr g)) (filter (fun p => negb (is_analog p)) (g_params g)))
              = map (pair (g_lr g)) (filter (fun p => negb (is_analog p)) (g_params g))).
    { clear. induction (g_params g) as [|p l IH]; simpl; auto. destruct (negb (is_analog p)) eqn:E; simpl; rewrite ?E; congruence. }
    rewrite filter_app, F, <- IH, <- F2 at 1. cbn [g_params].
    destruct (filter (fun p => negb (is_analog p)) (g_params g)) eqn:Eg; [reflexivity|].
    cbn [length Nat.eqb negb map concat g_params g_lr]. rewrite filter_app. reflexivity.
  - reflexivity.
  - assert (Eev : forall n l, (forall p, In p l -> is_analog p = true) ->
      events_of n (concat (map (fun p => match p with PAna n => [ESetLR n (o_default_lr o)] | PDig _ => [] end) l))
      = map (fun _ => ESetLR n (o_default_lr o)) (filter (param_eqb (PAna n)) l)).
    { intros n l. clear. induction l as [|p l IH]; simpl; auto. intros H.
      destruct p as [m|m]; [specialize (H (PDig m) (or_introl eq_refl)); discriminate|].
      simpl. rewrite (Nat.eqb_sym n m). destruct (Nat.eqb_spec m n) as [->|]; simpl; rewrite IH by (intros; apply H; auto); auto. }
    assert (Inan : forall n, In (PAna n) (all_params o) <-> In (PAna n) analog).
    { intros n. unfold analog, all_params. rewrite !in_concat. split; intros [l [Hl Hn]].
      - apply in_map_iff in Hl as [g [<- Hg]]. exists (filter is_analog (g_params g)). split; [apply in_map_iff; eauto|].
        apply filter_In; auto.
      - apply in_map_iff in Hl as [g [<- Hg]]. apply filter_In in Hn as [Hn _]. exists (g_params g). split; auto. apply in_map; auto. }
    assert (NDa : NoDup analog) by (clear -ND'; induction (concat (map g_params dg')) as [|a l IH]; simpl in ND'; auto; apply IH; now inversion ND').
    split; intros n Hn; rewrite Eev by auto.
    + apply Inan in Hn. clear -Hn NDa.
      induction NDa as [|p l Hp ND IH]; [contradiction|]. cbn [filter]; cbn [In] in Hn. destruct Hn as [->|Hn].
      * rewrite (proj2 (param_eqb_eq (PAna n) (PAna n)) eq_refl). simpl map. f_equal.
        assert (Q : filter (param_eqb (PAna n)) l = []).
        { clear -Hp. induction l as [|q l IH]; cbn [filter]; auto. destruct (param_eqb (PAna n) q) eqn:E.
          - apply param_eqb_eq in E. subst. exfalso. apply Hp; simpl; auto.
          - apply IH. intros H; apply Hp; simpl; auto. }
        now rewrite Q.
      * destruct (param_eqb (PAna n) p) eqn:E; auto. apply param_eqb_eq in E; subst. contradiction.
    + assert (Q : filter (param_eqb (PAna n)) analog = []).
      { assert (Hn' : ~ In (PAna n) analog) by (rewrite <- Inan; auto). clear -Hn'.
        induction analog as [|q l IH]; cbn [filter]; auto. destruct (param_eqb (PAna n) q) eqn:E.
        - apply param_eqb_eq in E. subst. exfalso. apply Hn'; simpl; auto.
        - apply IH. intros H; apply Hn'; simpl; auto. }
      now rewrite Q.
Qed.

(** ** step *)
Definition step_flat (l : list (option R * param)) (s : (nat -> actx) * list event) :=
  fold_left (fun s x => step_param (fst x) (snd x) s) l s.
Lemma step_flatten o s :
  fold_left (fun s g => fold_left (fun s p => step_param (g_lr g) p s) (g_params g) s) (o_groups o) s = step_flat (flat o) s.
Proof.
  unfold step_flat, flat. revert s. induction (o_groups o) as [|g gs IH]; intros s; simpl; auto.
  rewrite fold_left_app, IH. f_equal. generalize (g_params g) as ps. intros ps; revert s.
  induction ps as [|p ps IH2]; intros s; simpl; auto.
Qed.

(** the calls one context needs *)
Definition expected (lr : option R) (n : nat) (a : actx) : list event :=
  if a_torch a then []
  else if Nat.eqb (length (a_in a)) 0 then []
  else if match lr with Some r => Reqb r 0 | None => false end then []
  else match lr with Some r => [ESetLR n r] | None => [] end
       ++ (if a_indexed a then map2 (EUpdateIndexed n) (a_in a) (a_gr a)
           else [EUpdate n (concat (a_in a)) (concat (a_gr a))]).
Definition after (a : actx) : actx :=
  if a_torch a then a else if Nat.eqb (length (a_in a)) 0 then a else actx_reset a.

Lemma events_app n a b : events_of n (a ++ b) = events_of n a ++ events_of n b.
Proof. apply filter_app. Qed.
Lemma events_map2_idx n m (a b : list (list vec)) :
  events_of n (map2 (EUpdateIndexed m) a b) = if Nat.eqb m n then map2 (EUpdateIndexed m) a b else [].
Proof. revert b; induction a as [|x a IH]; destruct b; simpl; destruct (Nat.eqb m n) eqn:E; auto; rewrite IH; auto. Qed.
Lemma expected_of n lr a : events_of n (expected lr n a) = expected lr n a.
Proof.
  unfold expected. destruct (a_torch a); auto. destruct (Nat.eqb _ 0); auto.
  destruct (match lr with Some r => Reqb r 0 | None => false end); auto. rewrite events_app. f_equal.
  - destruct lr; simpl; rewrite ?Nat.eqb_refl; auto.
  - destruct (a_indexed a); [rewrite events_map2_idx|simpl]; now rewrite Nat.eqb_refl.
Qed.
Lemma expected_other n m lr a : m <> n -> events_of n (expected lr m a) = [].
Proof.
  intros N. assert (E : Nat.eqb m n = false) by now apply Nat.eqb_neq.
  unfold expected. destruct (a_torch a); auto. destruct (Nat.eqb (length _) 0); auto.
  destruct (match lr with Some r => Reqb r 0 | None => false end); auto. rewrite events_app.
  destruct lr; simpl; rewrite ?E; destruct (a_indexed a); rewrite ?events_map2_idx; simpl; rewrite ?E; auto.
Qed.
Lemma step_param_spec lr p cs ev : exists cs', step_param lr p (cs, ev) =
  (cs', ev ++ match p with PAna n => expected lr n (cs n) | PDig _ => [] end)
  /\ (forall m, cs' m = match p with PAna n => if Nat.eqb m n then after (cs n) else cs m | PDig _ => cs m end).
Proof.
  destruct p as [n|n]; simpl; [exists cs; rewrite app_nil_r; auto|].
  unfold expected, after. destruct (a_torch (cs n)).
  { exists cs; rewrite app_nil_r; split; auto. intros m. destruct (Nat.eqb_spec m n) as [->|]; auto. }
  destruct (Nat.eqb (length (a_in (cs n))) 0).
  { exists cs; rewrite app_nil_r; split; auto. intros m. destruct (Nat.eqb_spec m n) as [->|]; auto. }
  destruct (match lr with Some r => Reqb r 0 | None => false end).
  { exists (fupd cs n (actx_reset (cs n))); rewrite app_nil_r; split; auto. }
  exists (fupd cs n (actx_reset (cs n))). split; auto.
  destruct lr; destruct (a_indexed (cs n)); rewrite ?app_assoc, ?app_nil_r; reflexivity.
Qed.

Lemma step_flat_spec : forall l cs ev, NoDup (map snd l) ->
  exists cs' u, step_flat l (cs, ev) = (cs', ev ++ u)
  /\ (forall n lr, In (lr, PAna n) l -> events_of n u = expected lr n (cs n) /\ cs' n = after (cs n))
  /\ (forall n, ~ In (PAna n) (map snd l) -> events_of n u = [] /\ cs' n = cs n)
  /\ (forall e, In e u -> forall n, e <> EPost n).
Proof.
  induction l as [|[lr p] l IH]; intros cs ev ND; cbn [In map snd].
  - exists cs, []. simpl. rewrite app_nil_r. repeat split; auto; contradiction.
  - inversion ND as [|? ? Hp ND']; subst.
    destruct (step_param_spec lr p cs ev) as (cs1 & E1 & F1). cbn [fst snd] in *.
    unfold step_flat in *. cbn [fold_left fst snd]. rewrite E1.
    destruct (IH cs1 (ev ++ match p with PAna n => expected lr n (cs n) | PDig _ => [] end) ND') as (cs' & u & E & H1 & H2 & H3).
    cbn [fst snd] in *. rewrite E. exists cs', (match p with PAna n => expected lr n (cs n) | PDig _ => [] end ++ u).
    split; [now rewrite app_assoc|]. split; [|split].
    + intros n lr' [Q|Hin].
      * injection Q as -> ->. rewrite events_app, expected_of. destruct (H2 n Hp) as [Q1 Q2]. rewrite Q1, Q2, app_nil_r, F1, Nat.eqb_refl. auto.
      * destruct (H1 n lr' Hin) as [Q1 Q2]. rewrite events_app, Q1, Q2.
        assert (Hne : p <> PAna n) by (intros ->; apply Hp; change (PAna n) with (snd (lr', PAna n)); now apply in_map).
        rewrite F1. destruct p as [m|m]; simpl; auto.
        assert (m <> n) by congruence. rewrite expected_other by auto. simpl.
        assert (Nat.eqb n m = false) by (apply Nat.eqb_neq; auto). rewrite H0. auto.
    + intros n Hn. assert (Hne : p <> PAna n) by (intros ->; apply Hn; auto).
      destruct (H2 n) as [Q1 Q2]; [intros X; apply Hn; auto|]. rewrite events_app, Q1, Q2, F1.
      destruct p as [m|m]; simpl; auto. assert (m <> n) by congruence. rewrite expected_other by auto. simpl.
      assert (Nat.eqb n m = false) by (apply Nat.eqb_neq; auto). rewrite H0. auto.
    + intros e He n. apply in_app_or in He as [He|He]; [|now apply H3].
      destruct p as [m|m]; [contradiction|]. unfold expected in He. destruct (a_torch (cs m)); [contradiction|].
      destruct (Nat.eqb _ 0); [contradiction|]. destruct (match lr with Some r => Reqb r 0 | None => false end); [contradiction|].
      apply in_app_or in He as [He|He].
      * destruct lr; [destruct He as [<-|[]]; discriminate|contradiction].
      * destruct (a_indexed (cs m)).
        -- revert He. generalize (a_gr (cs m)) as bs. generalize (a_in (cs m)) as as_.
           induction as_ as [|x as_ IHl]; intros [|y bs]; simpl; try tauto.
           intros [<-|He]; [discriminate|]. eapply IHl; eauto.
        -- destruct He as [<-|[]]; discriminate.
Qed.

Definition posts (o : optim) : list event :=
  concat (map (fun g => concat (map (fun p => match p with PAna n => [EPost n] | PDig _ => [] end) (g_params g))) (o_groups o)).
Lemma posts_spec n o : NoDup (all_params o) ->
  (In (PAna n) (all_params o) -> events_of n (posts o) = [EPost n])
  /\ (~ In (PAna n) (all_params o) -> events_of n (posts o) = [])
  /\ (forall e, In e (posts o) -> exists m, e = EPost m).
Proof.
  unfold posts, all_params. intros ND.
  assert (E : concat (map (fun g => concat (map (fun p => match p with PAna n => [EPost n] | PDig _ => [] end) (g_params g))) (o_groups o))
     = concat (map (fun p => match p with PAna n => [EPost n] | PDig _ => [] end) (concat (map g_params (o_groups o))))).
  { generalize (o_groups o). clear. intros gs. induction gs as [|g gs IH]; simpl; auto.
    rewrite map_app, concat_app, IH. reflexivity. }
  rewrite E. clear E. revert ND. generalize (concat (map g_params (o_groups o))) as l. clear o.
  induction l as [|p l IH]; intros ND; simpl.
  - repeat split; auto; contradiction.
  - inversion ND as [|? ? Hp ND']; subst. destruct (IH ND') as (A & B & C).
    split; [|split].
    + intros [->|Hin].
      * simpl. rewrite Nat.eqb_refl. now rewrite B.
      * destruct p as [m|m]; simpl; auto. destruct (Nat.eqb_spec m n) as [->|]; auto. contradiction.
    + intros Hn. destruct p as [m|m]; simpl; auto. destruct (Nat.eqb_spec m n) as [->|]; auto. exfalso; auto.
    + intros e He. destruct p as [m|m]; simpl in He; auto. destruct He as [<-|He]; eauto.
Qed.

Lemma step_lemma o cs : NoDup (all_params o) ->
  exists cs' u, step o cs = (cs', u ++ posts o)
  /\ (forall n lr, In (lr, PAna n) (flat o) ->
        events_of n u = expected lr n (cs n) /\ events_of n (posts o) = [EPost n] /\ cs' n = after (cs n))
  /\ (forall n, ~ In (PAna n) (all_params o) -> events_of n (u ++ posts o) = [] /\ cs' n = cs n)
  /\ (forall e, In e u -> forall n, e <> EPost n)
  /\ (forall e, In e (posts o) -> exists n, e = EPost n).
Proof.
  intros ND. unfold step. rewrite step_flatten.
  destruct (step_flat_spec (flat o) cs []) as (cs' & u & E & H1 & H2 & H3); [rewrite flat_params; auto|].
  rewrite E. simpl app. exists cs', u. split; [reflexivity|]. split; [|split; [|split]]; auto.
  - intros n lr Hin. destruct (H1 n lr Hin). split; auto. split; auto. apply posts_spec; auto.
    rewrite <- flat_params. change (PAna n) with (snd (lr, PAna n)). now apply in_map.
  - intros n Hn. destruct (posts_spec n o ND) as (_ & B & _). rewrite <- flat_params in Hn. destruct (H2 n Hn) as [Q1 Q2].
    split; auto. rewrite events_app, Q1. apply B. rewrite <- flat_params; auto.
  - intros e He. now apply (posts_spec 0 o ND).
Qed.

(** ** Histories of backward passes and optimizer steps *)
Definition apply1 (c : pcfg) (t : ptile) (e : event) : ptile :=
  match e with
  | ESetLR _ lr => set_learning_rate (Some lr) t
  | EUpdate _ x d | EUpdateIndexed _ x d => update_batch c t (combine x d)
  | EPost _ => t
  end.
Lemma apply_events_at cf n : forall ev ts, (fold_left (apply_event cf) ev ts) n = fold_left (apply1 (cf n)) (events_of n ev) (ts n).
Proof.
  induction ev as [|e ev IH]; intros ts; simpl; auto. rewrite IH.
  destruct e as [m lr|m x d|m x d|m]; simpl; destruct (Nat.eqb_spec m n) as [->|N]; simpl; auto;
  unfold fupd; rewrite ?Nat.eqb_refl; auto; destruct (Nat.eqb_spec n m); auto; congruence.
Qed.

Lemma reachable_run c t o : reachable c t -> valid c o -> reachable c (run c t o).
Proof.
  intros (w0 & ir & lr & ops & Ho & S & I & F & ->) V.
  exists w0, ir, lr, (ops ++ [o]). split; auto. split; auto. split; auto. split.
  - apply Forall_app; auto.
  - now rewrite fold_left_app.
Qed.
Lemma update_keeps c t x d : t_los (update c t x d) = t_los t /\ t_ir (update c t x d) = t_ir t.
Proof. unfold update. destruct (pre_update t x d). auto. Qed.
Lemma update_batch_reach c xd : forall t, Forall (fun p => length (fst p) = c_in c /\ length (snd p) = c_out c) xd ->
  reachable c t -> reachable c (update_batch c t xd) /\ t_los (update_batch c t xd) = t_los t /\ t_ir (update_batch c t xd) = t_ir t.
Proof.
  unfold update_batch. induction xd as [|[x d] xd IH]; intros t F R; simpl; auto.
  inversion F as [|? ? [Fx Fd] F']; subst. simpl in *.
  pose proof (reachable_run c t (OpUpdate x d) R (conj Fx Fd)) as R'. simpl in R'.
  destruct (IH (update c t x d) F' R') as (A & B & C). destruct (update_keeps c t x d) as [K1 K2].
  split; auto; split; congruence.
Qed.

Lemma combine_app {A B} (a a' : list A) (b b' : list B) : length a = length b ->
  combine (a ++ a') (b ++ b') = combine a b ++ combine a' b'.
Proof. revert b; induction a as [|x a IH]; intros [|y b]; simpl; intros; try discriminate; auto. rewrite IH; auto. Qed.
Lemma concat_snoc {A} (l : list (list A)) x : concat (l ++ [x]) = concat l ++ x.
Proof. rewrite concat_app. simpl. now rewrite app_nil_r. Qed.

Section History.
  Variables (o : optim) (cf : nat -> pcfg) (n : nat) (lr : R).
  Hypothesis ND : NoDup (all_params o).
  Hypothesis Hin : In (Some lr, PAna n) (flat o).
  Hypothesis Hlr : lr <> 0.
  Let good (a : actx) (pend : list (vec * vec)) : Prop :=
    a_torch a = false /\ a_indexed a = false /\ length (concat (a_in a)) = length (concat (a_gr a))
    /\ combine (concat (a_in a)) (concat (a_gr a)) = pend /\ (a_in a = [] -> pend = [])
    /\ Forall (fun p => length (fst p) = c_in (cf n) /\ length (snd p) = c_out (cf n)) pend.
  Let sgdl (W : mat) (l : list (vec * vec)) := fold_left (fun W p => sgd lr W (fst p) (snd p)) l W.

  Lemma shaped_combine x d : length x = length d -> Forall (fun v : vec => length v = c_in (cf n)) x ->
    Forall (fun v : vec => length v = c_out (cf n)) d ->
    Forall (fun p => length (fst p) = c_in (cf n) /\ length (snd p) = c_out (cf n)) (combine x d).
  Proof.
    intros L Fx Fd. apply Forall_forall. intros [a b] H. pose proof (in_combine_l _ _ _ _ H). pose proof (in_combine_r _ _ _ _ H).
    rewrite Forall_forall in Fx, Fd. simpl; auto.
  Qed.

  Lemma history_inv ts0 cs0 : reachable (cf n) (ts0 n) -> t_los (ts0 n) = None -> t_ir (ts0 n) = None ->
    good (cs0 n) [] ->
    forall h, Forall (shaped cf) h -> exists done pend,
      let s := hrun o cf (ts0, cs0) h in
      samples n h = done ++ pend
      /\ reachable (cf n) (fst s n) /\ t_los (fst s n) = None /\ t_ir (fst s n) = None
      /\ fst (logical (cf n) (fst s n)) = sgdl (fst (logical (cf n) (ts0 n))) done
      /\ good (snd s n) pend
      /\ (forall h', h = h' ++ [HStep] -> pend = []).
  Proof.
    intros R0 L0 I0 G0 h. induction h as [|x h IH] using rev_ind; intros F.
    - exists [], []. simpl. repeat split; auto; try (apply G0). all: intros; try (destruct h'; discriminate).
    - apply Forall_app in F as [F Fx]. destruct (IH F) as (done & pend & S & R & L & I & W & G & _). clear IH.
      apply Forall_inv in Fx. unfold hrun in *. rewrite fold_left_app. cbn [fold_left].
      set (s := fold_left (hstep o cf) h (ts0, cs0)) in *. clearbody s. destruct s as [ts cs]. cbn [fst snd] in *.
      assert (Ssn : samples n (h ++ [x]) = samples n h ++ match x with HBack m a b => if Nat.eqb m n then combine a b else [] | HStep => [] end).
      { unfold samples. rewrite map_app, concat_app. simpl. now rewrite app_nil_r. }
      destruct x as [m x d|].
      + destruct Fx as (Lx & Fx & Fd). cbn [hstep fst snd]. destruct (Nat.eqb_spec m n) as [->|N].
        * destruct G as (T & X & Lg & Cg & Eg & Fg).
          exists done, (pend ++ combine x d). rewrite Ssn, S, app_assoc. split; [reflexivity|]. split; [exact R|]. split; [exact L|]. split; [exact I|]. split; [exact W|]. split.
          -- unfold fupd. rewrite Nat.eqb_refl. unfold record_grad. rewrite T. unfold good. simpl. rewrite !concat_snoc, !app_length.
             rewrite combine_app by auto. rewrite Cg. repeat split; auto; try lia.
             ++ intros Q. destruct (a_in (cs n)); discriminate.
             ++ apply Forall_app; split; auto. now apply shaped_combine.
          -- intros h' Q. apply app_inj_tail in Q as [_ Q]. discriminate.
        * exists done, pend. rewrite Ssn, S, app_nil_r. split; [reflexivity|]. split; [exact R|]. split; [exact L|]. split; [exact I|]. split; [exact W|]. split.
          -- unfold fupd. destruct (Nat.eqb_spec n m); [congruence|]. exact G.
          -- intros h' Q. apply app_inj_tail in Q as [_ Q]. discriminate.
      + cbn [hstep fst snd]. destruct (step_lemma o cs ND) as (cs' & u & E & H1 & _). rewrite E. cbn [fst snd].
        rewrite apply_events_at, events_app. destruct (H1 n (Some lr) Hin) as (Q1 & Q2 & Q3). rewrite Q1, Q2, Q3.
        destruct G as (T & X & Lg & Cg & Eg & Fg).
        exists (done ++ pend), []. rewrite Ssn, S, !app_nil_r. split; auto.
        unfold expected, after. rewrite T, X.
        destruct (Nat.eqb_spec (length (a_in (cs n))) 0) as [Z|Z].
        * assert (Zi : a_in (cs n) = []) by (destruct (a_in (cs n)); simpl in *; auto; discriminate).
          simpl. rewrite (Eg Zi), app_nil_r. repeat (split; auto).
          rewrite Cg. auto.
        * assert (Rq : Reqb lr 0 = false) by (unfold Reqb; destruct (Req_EM_T lr 0); auto; contradiction). rewrite Rq.
          simpl. rewrite Cg.
          pose proof (reachable_run (cf n) (ts n) (OpLR lr) R Logic.I) as Rl. 
          destruct (update_batch_reach (cf n) pend (set_learning_rate (Some lr) (ts n)) Fg Rl) as (A & B & C).
          split; [exact A|]. split; [exact (eq_trans B L)|]. split; [exact (eq_trans C I)|]. split.
          -- refine (eq_trans (P_update (cf n) (ts n) lr pend R L I Fg) _). rewrite W. unfold sgdl. now rewrite fold_left_app.
          -- split; auto. unfold good. simpl. repeat split; auto.
  Qed.

  Lemma history_lemma ts0 cs0 h : reachable (cf n) (ts0 n) -> t_los (ts0 n) = None -> t_ir (ts0 n) = None ->
    cs0 n = {| a_torch := false; a_indexed := false; a_in := []; a_gr := [] |} ->
    Forall (shaped cf) h ->
    fst (logical (cf n) (fst (hrun o cf (ts0, cs0) (h ++ [HStep])) n))
    = fold_left (fun W p => sgd lr W (fst p) (snd p)) (samples n h) (fst (logical (cf n) (ts0 n))).
  Proof.
    intros R L I C F.
    destruct (history_inv ts0 cs0 R L I) with (h := h ++ [HStep]) as (done & pend & S & _ & _ & _ & W & _ & E).
    - rewrite C. unfold good. simpl. repeat split; auto.
    - apply Forall_app; split; auto. repeat constructor.
    - rewrite W. specialize (E h eq_refl). subst pend. rewrite app_nil_r in S. unfold sgdl. rewrite <- S.
      unfold samples. rewrite map_app, concat_app. simpl. now rewrite app_nil_r.
  Qed.
End History.
