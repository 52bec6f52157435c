(** * Random programs
    The C++ core draws random numbers from two generators, [RNG] (rng.h:67-122) and
    [RealWorldRNG] (rng.h:27-61).  A piece of code that draws is modelled as a tree: a
    result, a C++ exception ([RPU_FATAL]), or a draw followed by the rest of the program.
    [Unif] is [sampleUniform()], [Gauss] is [sampleGauss()]; [WNoise] is also
    [sampleGauss()], kept apart where the sample is the write noise of a device, so that
    one can speak about its influence alone.  No distribution is built in: [yields m a]
    says that some draws make [m] return [a].  [expect] gives the expectation when the
    uniform generator takes the values 0/N, 1/N .. N/N with equal probability
    (rng.h:91 [RANDFUN() / RPU_MAX_RAND_RANGE]) and the normal generator is a table of numbers
    (rng.h:101-115). *)
From Verif Require Import Prelude.

Inductive M (A : Type) : Type :=
| Ret (a : A)
| Unif (k : R -> M A)
| Gauss (k : R -> M A)
| WNoise (k : R -> M A)
| Throw (e : exn).
Arguments Ret {A}. Arguments Unif {A}. Arguments Gauss {A}. Arguments WNoise {A}. Arguments Throw {A}.

Fixpoint bindM {A B} (m : M A) (f : A -> M B) : M B :=
  match m with
  | Ret a => f a
  | Unif k => Unif (fun u => bindM (k u) f)
  | Gauss k => Gauss (fun g => bindM (k g) f)
  | WNoise k => WNoise (fun g => bindM (k g) f)
  | Throw e => Throw e
  end.
Notation "x <~ m ;; k" := (bindM m (fun x => k)) (at level 61, m at next level, right associativity).

Fixpoint mapMM {A B} (f : A -> M B) (l : list A) : M (list B) :=
  match l with
  | [] => Ret []
  | a :: r => b <~ f a ;; bs <~ mapMM f r ;; Ret (b :: bs)
  end.
Fixpoint foldMM {A B} (f : B -> A -> M B) (l : list A) (b : B) : M B :=
  match l with
  | [] => Ret b
  | a :: r => b' <~ f b a ;; foldMM f r b'
  end.

(** Some draws (uniform ones between 0 and 1) make the program return [a]. *)
Inductive yields {A} : M A -> A -> Prop :=
| y_ret a : yields (Ret a) a
| y_unif k u a : 0 <= u <= 1 -> yields (k u) a -> yields (Unif k) a
| y_gauss k g a : yields (k g) a -> yields (Gauss k) a
| y_wnoise k g a : yields (k g) a -> yields (WNoise k) a.
(** Some draws make the program throw. *)
Inductive throws {A} : M A -> exn -> Prop :=
| t_throw e : throws (Throw e) e
| t_unif k u e : 0 <= u <= 1 -> throws (k u) e -> throws (Unif k) e
| t_gauss k g e : throws (k g) e -> throws (Gauss k) e
| t_wnoise k g e : throws (k g) e -> throws (WNoise k) e.

(** Running a program on given streams of draws *)
Record streams : Type := { s_u : nat -> R; s_g : nat -> R; s_w : nat -> R }.
Fixpoint run {A} (s : streams) (nu ng nw : nat) (m : M A) : res (A * (nat * nat * nat)) :=
  match m with
  | Ret a => Ok (a, (nu, ng, nw))
  | Unif k => run s (S nu) ng nw (k (s_u s nu))
  | Gauss k => run s nu (S ng) nw (k (s_g s ng))
  | WNoise k => run s nu ng (S nw) (k (s_w s nw))
  | Throw e => Raise e
  end.

(** ** Expectation *)
Definition avg (l : vec) (f : R -> R) : R := sumR (map f l) / INR (length l).
Definition grid (N : nat) : vec := map (fun k => INR k / INR N) (seq 0 (S N)).
(** [expect N G m f]: expectation of [f] of the result; [f] counts 0 on an exception. *)
Fixpoint expect {A} (N : nat) (G : vec) (m : M A) (f : A -> R) : R :=
  match m with
  | Ret a => f a
  | Unif k => avg (grid N) (fun u => expect N G (k u) f)
  | Gauss k => avg G (fun g => expect N G (k g) f)
  | WNoise k => avg G (fun g => expect N G (k g) f)
  | Throw _ => 0
  end.

(** ** Facts *)
Lemma yields_ret {A} (a b : A) : yields (Ret a) b <-> b = a.
Proof. split; [inversion 1; auto | intros ->; constructor]. Qed.
Lemma yields_unif {A} (k : R -> M A) a : yields (Unif k) a <-> exists u, 0 <= u <= 1 /\ yields (k u) a.
Proof. split; [inversion 1; subst; eauto | intros [u [? ?]]; econstructor; eauto]. Qed.
Lemma yields_gauss {A} (k : R -> M A) a : yields (Gauss k) a <-> exists g, yields (k g) a.
Proof. split; [inversion 1; subst; eauto | intros [u ?]; econstructor; eauto]. Qed.
Lemma yields_wnoise {A} (k : R -> M A) a : yields (WNoise k) a <-> exists g, yields (k g) a.
Proof. split; [inversion 1; subst; eauto | intros [u ?]; econstructor; eauto]. Qed.
Lemma yields_throw {A} e (a : A) : yields (Throw e) a <-> False.
Proof. split; [inversion 1 | contradiction]. Qed.
Lemma yields_bind {A B} (m : M A) (f : A -> M B) b : yields (bindM m f) b <-> exists a, yields m a /\ yields (f a) b.
Proof.
  split.
  - induction m as [a|k IH|k IH|k IH|e]; simpl; intros H.
    + exists a; split; [constructor | auto].
    + apply yields_unif in H as [u [Hu H]]. destruct (IH _ H) as [a [Y1 Y2]]. exists a; split; [econstructor; eauto | auto].
    + apply yields_gauss in H as [u H]. destruct (IH _ H) as [a [Y1 Y2]]. exists a; split; [econstructor; eauto | auto].
    + apply yields_wnoise in H as [u H]. destruct (IH _ H) as [a [Y1 Y2]]. exists a; split; [econstructor; eauto | auto].
    + inversion H.
  - intros [a [Y1 Y2]]. induction Y1; simpl; auto; econstructor; eauto.
Qed.
(** simplify all [yields] facts *)
Ltac ysimp :=
  repeat match goal with
  | H : yields (Ret _) _ |- _ => apply yields_ret in H; subst
  | H : yields (bindM _ _) _ |- _ => let a := fresh "a" in let Y := fresh "Y" in apply yields_bind in H; destruct H as [a [Y H]]; cbn beta in *
  | H : yields (Unif _) _ |- _ => let u := fresh "u" in let Y := fresh "Hu" in apply yields_unif in H; destruct H as [u [Y H]]; cbn beta in *
  | H : yields (Gauss _) _ |- _ => let u := fresh "g" in apply yields_gauss in H; destruct H as [u H]; cbn beta in *
  | H : yields (WNoise _) _ |- _ => let u := fresh "n" in apply yields_wnoise in H; destruct H as [u H]; cbn beta in *
  | H : yields (Throw _) _ |- _ => apply yields_throw in H; contradiction
  end.

Lemma yields_mapMM {A B} (f : A -> M B) : forall l r, yields (mapMM f l) r <-> Forall2 (fun a b => yields (f a) b) l r.
Proof.
  induction l as [|a l IH]; intros r; simpl; split; intros H.
  - ysimp. constructor.
  - inversion H; constructor.
  - ysimp. constructor; auto. now apply IH.
  - inversion H; subst. apply yields_bind. exists y; split; auto. apply yields_bind. exists l'; split; [now apply IH | constructor].
Qed.
Lemma mapMM_length {A B} (f : A -> M B) l r : yields (mapMM f l) r -> length r = length l.
Proof. intros H. apply yields_mapMM in H. induction H; simpl; auto. Qed.
Lemma yields_foldMM_inv {A B} (f : B -> A -> M B) (P : B -> Prop) (l : list A) :
  (forall b a b', In a l -> P b -> yields (f b a) b' -> P b') -> forall b b', P b -> yields (foldMM f l b) b' -> P b'.
Proof.
  induction l as [|a l IH]; simpl; intros S b b' Pb Y; ysimp; auto.
  eapply IH; [| |exact Y]; [intros; eapply S; eauto | eapply (S b a); eauto].
Qed.

Lemma run_yields {A} (m : M A) : forall s i j k a c, (forall n, 0 <= s_u s n <= 1) -> run s i j k m = Ok (a, c) -> yields m a.
Proof.
  induction m as [a|f IH|f IH|f IH|e]; intros s i j k b c Hs; simpl; intros H; try discriminate.
  - injection H as -> _. constructor.
  - econstructor; eauto.
  - econstructor; eauto.
  - econstructor; eauto.
Qed.
Lemma run_bind {A B} (m : M A) (f : A -> M B) : forall s i j k,
  run s i j k (bindM m f) = match run s i j k m with Ok (a, (i', j', k')) => run s i' j' k' (f a) | Raise e => Raise e end.
Proof. induction m as [a|g IH|g IH|g IH|e]; intros; simpl; auto. Qed.

(** expectation *)
Lemma sumR_plus {A} (f g : A -> R) l : sumR (map (fun x => f x + g x) l) = sumR (map f l) + sumR (map g l).
Proof. induction l; simpl; lra. Qed.
Lemma sumR_scal {A} (f : A -> R) c l : sumR (map (fun x => c * f x) l) = c * sumR (map f l).
Proof. induction l; simpl; lra. Qed.
Lemma sumR_const {A} c (l : list A) : sumR (map (fun _ => c) l) = INR (length l) * c.
Proof. induction l; [simpl; lra|]. rewrite map_cons. cbn [sumR]. rewrite IHl, (S_INR (length l) : INR (length (a :: l)) = _). lra. Qed.
Lemma avg_ext l f g : (forall x, In x l -> f x = g x) -> avg l f = avg l g.
Proof. intros H. unfold avg. f_equal. f_equal. now apply map_ext_in. Qed.
Lemma avg_plus l f g : avg l (fun x => f x + g x) = avg l f + avg l g.
Proof. unfold avg. rewrite sumR_plus. lra. Qed.
Lemma avg_scal l c f : avg l (fun x => c * f x) = c * avg l f.
Proof. unfold avg. rewrite sumR_scal. lra. Qed.
Lemma avg_const l c : l <> [] -> avg l (fun _ => c) = c.
Proof.
  intros H. unfold avg. rewrite sumR_const. assert (0 < INR (length l)) by (apply lt_0_INR; destruct l; [congruence | simpl; lia]). field. lra.
Qed.
Lemma grid_length N : length (grid N) = S N.
Proof. unfold grid. now rewrite map_length, seq_length. Qed.
Lemma grid_range N u : In u (grid N) -> 0 <= u <= 1.
Proof.
  unfold grid. intros H. apply in_map_iff in H as [k [<- H]]. apply in_seq in H. destruct (Nat.eq_dec N 0) as [-> | NN].
  - unfold Rdiv. assert (k = 0)%nat by lia. subst. rewrite Rmult_0_l. lra.
  - assert (0 < INR N) by (apply lt_0_INR; lia). split.
    + apply Rmult_le_pos; [apply pos_INR | left; now apply Rinv_0_lt_compat].
    + apply (Rmult_le_reg_r (INR N)); auto. unfold Rdiv. rewrite Rmult_assoc, Rinv_l, Rmult_1_r, Rmult_1_l by lra. apply le_INR; lia.
Qed.
Lemma grid_nonempty N : grid N <> [].
Proof. intros E. apply (f_equal (@length R)) in E. rewrite grid_length in E. discriminate. Qed.
Lemma expect_bind {A B} N G (m : M A) (g : A -> M B) f : expect N G (bindM m g) f = expect N G m (fun a => expect N G (g a) f).
Proof. induction m as [a|k IH|k IH|k IH|e]; simpl; auto; apply avg_ext; auto. Qed.
Lemma expect_ext {A} N G (m : M A) f g : (forall a, yields m a -> f a = g a) -> expect N G m f = expect N G m g.
Proof.
  induction m as [a|k IH|k IH|k IH|e]; simpl; intros H; auto.
  - apply H; constructor.
  - apply avg_ext. intros u Hu. apply IH. intros a Y. apply H. econstructor; eauto. pose proof (grid_range N u Hu); lra.
  - apply avg_ext. intros u Hu. apply IH. intros a Y. apply H. econstructor; eauto.
  - apply avg_ext. intros u Hu. apply IH. intros a Y. apply H. econstructor; eauto.
Qed.
Lemma expect_plus {A} N G (m : M A) f g : expect N G m (fun a => f a + g a) = expect N G m f + expect N G m g.
Proof.
  induction m as [a|k IH|k IH|k IH|e]; simpl; auto; try lra; rewrite <- avg_plus; apply avg_ext; auto.
Qed.
Lemma expect_scal {A} N G (m : M A) c f : expect N G m (fun a => c * f a) = c * expect N G m f.
Proof. induction m as [a|k IH|k IH|k IH|e]; simpl; auto; try lra; rewrite <- avg_scal; apply avg_ext; auto. Qed.
(** programs that cannot throw *)
Definition total {A} (m : M A) : Prop := forall e, ~ throws m e.
Lemma expect_const {A} N G (m : M A) c : G <> [] -> total m -> expect N G m (fun _ => c) = c.
Proof.
  intros HG. unfold total. induction m as [a|k IH|k IH|k IH|e]; simpl; intros T; auto.
  - rewrite (avg_ext _ _ (fun _ => c)); [apply avg_const, grid_nonempty|]. intros u Hu. apply IH. intros e Te. apply (T e). econstructor; eauto. pose proof (grid_range N u Hu); lra.
  - rewrite (avg_ext _ _ (fun _ => c)); [apply avg_const, HG|]. intros u Hu. apply IH. intros e Te. apply (T e). econstructor; eauto.
  - rewrite (avg_ext _ _ (fun _ => c)); [apply avg_const, HG|]. intros u Hu. apply IH. intros e Te. apply (T e). econstructor; eauto.
  - exfalso. apply (T e). constructor.
Qed.
Lemma throws_unif {A} (k : R -> M A) e : throws (Unif k) e <-> exists u, 0 <= u <= 1 /\ throws (k u) e.
Proof. split; [inversion 1; subst; eauto | intros [u [? ?]]; econstructor; eauto]. Qed.
Lemma throws_gauss {A} (k : R -> M A) e : throws (Gauss k) e <-> exists g, throws (k g) e.
Proof. split; [inversion 1; subst; eauto | intros [u ?]; econstructor; eauto]. Qed.
Lemma throws_wnoise {A} (k : R -> M A) e : throws (WNoise k) e <-> exists g, throws (k g) e.
Proof. split; [inversion 1; subst; eauto | intros [u ?]; econstructor; eauto]. Qed.
Lemma throws_bind {A B} (m : M A) (f : A -> M B) e : throws (bindM m f) e <-> throws m e \/ exists a, yields m a /\ throws (f a) e.
Proof.
  split.
  - induction m as [a|k IH|k IH|k IH|e']; simpl; intros H.
    + right. exists a. split; [constructor | auto].
    + apply throws_unif in H as [u [Hu H]]. destruct (IH _ H) as [T | [a [Y T]]]; [left; econstructor; eauto | right; exists a; split; auto; econstructor; eauto].
    + apply throws_gauss in H as [u H]. destruct (IH _ H) as [T | [a [Y T]]]; [left; econstructor; eauto | right; exists a; split; auto; econstructor; eauto].
    + apply throws_wnoise in H as [u H]. destruct (IH _ H) as [T | [a [Y T]]]; [left; econstructor; eauto | right; exists a; split; auto; econstructor; eauto].
    + left. inversion H; subst; constructor.
  - intros [T | [a [Y T]]].
    + induction T; simpl; econstructor; eauto.
    + induction Y; simpl; auto; econstructor; eauto.
Qed.
Lemma total_bind {A B} (m : M A) (f : A -> M B) : total m -> (forall a, yields m a -> total (f a)) -> total (bindM m f).
Proof. intros T1 T2 e H. apply throws_bind in H as [H | [a [Y H]]]; [eapply T1; eauto | eapply T2; eauto]. Qed.
Lemma total_ret {A} (a : A) : total (Ret a).
Proof. intros e H; inversion H. Qed.
Lemma total_unif {A} (k : R -> M A) : (forall u, total (k u)) -> total (Unif k).
Proof. intros H e T; inversion T; subst; eapply H; eauto. Qed.
Lemma total_gauss {A} (k : R -> M A) : (forall u, total (k u)) -> total (Gauss k).
Proof. intros H e T; inversion T; subst; eapply H; eauto. Qed.
Lemma total_mapMM {A B} (f : A -> M B) l : (forall a, In a l -> total (f a)) -> total (mapMM f l).
Proof.
  induction l as [|a l IH]; simpl; intros H; [apply total_ret|].
  apply total_bind; [apply H; auto|]. intros b _. apply total_bind; [apply IH; auto|]. intros; apply total_ret.
Qed.
Lemma total_foldMM {A B} (f : B -> A -> M B) l : (forall b a, In a l -> total (f b a)) -> forall b, total (foldMM f l b).
Proof.
  induction l as [|a l IH]; simpl; intros H b; [apply total_ret|].
  apply total_bind; [apply H; auto|]. intros; apply IH. intros; apply H; auto.
Qed.
(** every total program returns something *)
Lemma total_yields {A} (m : M A) : total m -> exists a, yields m a.
Proof.
  induction m as [a|k IH|k IH|k IH|e]; intros T.
  - exists a; constructor.
  - destruct (IH 0) as [a Y]; [intros e H; apply (T e); econstructor; eauto; lra | exists a; econstructor; eauto; lra].
  - destruct (IH 0) as [a Y]; [intros e H; apply (T e); econstructor; eauto | exists a; econstructor; eauto].
  - destruct (IH 0) as [a Y]; [intros e H; apply (T e); econstructor; eauto | exists a; econstructor; eauto].
  - exfalso. apply (T e). constructor.
Qed.
