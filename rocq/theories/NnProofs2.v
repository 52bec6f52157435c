(** * Iteration over the modules of a model: lemmas *)
From Verif Require Import Prelude NnModel NnSpec NnProofs NnModel2.
From Coq Require Import Ascii.
Local Open Scope nat_scope.

(** ** full names *)
Definition nodot (s : string) : Prop := ~ List.In "."%char (list_ascii_of_string s).
Lemma app_assoc_s a b c : ((a ++ b) ++ c)%string = (a ++ (b ++ c))%string.
Proof. induction a; cbn; [reflexivity|now rewrite IHa]. Qed.
Lemma app_nil_s a : (a ++ "")%string = a.
Proof. induction a; cbn; [reflexivity|now rewrite IHa]. Qed.
Fixpoint tail (q : list string) : string := match q with [] => "" | n :: r => "." ++ n ++ tail r end.
Lemma dotted_ne p q : p <> ""%string -> dotted p q = (p ++ tail q)%string.
Proof.
  revert p; induction q as [|n r IH]; intros p Hp; cbn [dotted tail]; [symmetry; apply app_nil_s|].
  unfold join. destruct (String.eqb_spec p ""); [contradiction|]. rewrite IH by (destruct p; [contradiction|discriminate]). rewrite app_assoc_s. cbn. rewrite ?app_assoc_s. reflexivity.
Qed.
Lemma split_tail n n' q q' : nodot n -> nodot n' -> (n ++ tail q)%string = (n' ++ tail q')%string -> n = n' /\ tail q = tail q'.
Proof.
  revert n'; induction n as [|a n IH]; intros n' H H' E.
  - destruct n' as [|b n']; [auto|]. destruct q as [|x q]; cbn in E; [discriminate|]. injection E as E _. exfalso. apply H'. cbn. left. auto.
  - destruct n' as [|b n']; [destruct q' as [|x q']; cbn in E; [discriminate|]; injection E as E _; exfalso; apply H; cbn; left; auto|].
    cbn in E. injection E as -> E. destruct (IH n') as [-> Et]; auto; [intros Hin; apply H; right; exact Hin|intros Hin; apply H'; right; exact Hin].
Qed.
Lemma tail_inj q q' : Forall nodot q -> Forall nodot q' -> tail q = tail q' -> q = q'.
Proof.
  revert q'; induction q as [|n r IH]; intros [|n' r'] F F' E; cbn in E; [reflexivity|discriminate|discriminate|].
  injection E as E. inversion F; inversion F'; subst. apply split_tail in E; auto. destruct E as [-> E]. f_equal. auto.
Qed.
Lemma dotted_inj q q' : Forall nodot q -> Forall nodot q' -> ~ List.In ""%string q -> ~ List.In ""%string q' -> dotted "" q = dotted "" q' -> q = q'.
Proof.
  destruct q as [|n r], q' as [|n' r']; cbn [dotted]; unfold join; cbn [String.eqb]; intros F F' N N' E; [reflexivity| | |].
  - exfalso. apply N'. left. rewrite dotted_ne in E by (intros ->; apply N'; left; reflexivity). destruct n'; [reflexivity|discriminate].
  - exfalso. apply N. left. rewrite dotted_ne in E by (intros ->; apply N; left; reflexivity). destruct n; [reflexivity|discriminate].
  - rewrite !dotted_ne in E by (intros ->; first [apply N; left; reflexivity|apply N'; left; reflexivity]).
    inversion F; inversion F'; subst. apply split_tail in E; auto. destruct E as [-> E]. f_equal. apply tail_inj; auto.
Qed.

Section Proofs.
Context {W C : Type}.
Notation md := (md W C).
Implicit Types (m x y z : md) (l : list (string * md)).

(** submodules *)
Inductive sub (x : md) : md -> Prop :=
| sub_refl : sub x x
| sub_kid i k t kids n c : List.In (n, c) kids -> sub x c -> sub x (Md i k t kids).
(** one object is one module *)
Definition coherent (m : md) : Prop := forall x y, sub x m -> sub y m -> id_of x = id_of y -> x = y.
Lemma sub_trans x y z : sub x y -> sub y z -> sub x z.
Proof. intros H1 H2. induction H2; [exact H1|]. econstructor; eauto. Qed.

(** the loop over the children *)
Fixpoint walk (l : list (string * md)) (path : string) (memo : list ident) : list (string * md) * list ident :=
  match l with
  | [] => ([], memo)
  | (n, c) :: r =>
      let '(xs, memo1) := named_modules c memo (join path n) in let '(ys, memo2) := walk r path memo1 in (xs ++ ys, memo2)
  end.
Lemma named_modules_eq i k t l memo path :
  named_modules (Md i k t l) memo path =
  if mem i memo then ([], memo) else ((path, Md i k t l) :: fst (walk l path (i :: memo)), snd (walk l path (i :: memo))).
Proof.
  cbn [named_modules]. destruct (mem i memo); [reflexivity|].
  match goal with |- (let '(xs, memo') := ?G l ?M in _) = _ => assert (E : forall r mm, G r mm = walk r path mm) end.
  { induction r as [|[n c] r IH]; intros mm; cbn [walk]; [reflexivity|]. destruct (named_modules c mm (join path n)). rewrite IH. reflexivity. }
  rewrite E. destruct (walk l path (i :: memo)). reflexivity.
Qed.
Lemma walk_cons n c r path memo :
  walk ((n, c) :: r) path memo =
  let a := named_modules c memo (join path n) in
  (fst a ++ fst (walk r path (snd a)), snd (walk r path (snd a))).
Proof. cbn [walk]. destruct (named_modules c memo (join path n)) as [xs m1]. cbn. destruct (walk r path m1). reflexivity. Qed.

(** the memo contains what was there and what was visited; nothing is visited twice *)
Definition good (memo : list ident) (res : list (string * md) * list ident) : Prop :=
  (forall i, List.In i (snd res) <-> List.In i memo \/ List.In i (map (fun p => id_of (snd p)) (fst res)))
  /\ NoDup (map (fun p => id_of (snd p)) (fst res)) /\ (forall i, List.In i (map (fun p => id_of (snd p)) (fst res)) -> ~ List.In i memo).
Lemma nodup_app {A} (l1 l2 : list A) : NoDup l1 -> NoDup l2 -> (forall e, List.In e l1 -> ~ List.In e l2) -> NoDup (l1 ++ l2).
Proof.
  induction l1 as [|e r IH]; intros H1 H2 H; [exact H2|]. inversion H1; subst. cbn. constructor.
  - rewrite in_app_iff. intros [Hi|Hi]; [contradiction|]. eapply H; [left; reflexivity|exact Hi].
  - apply IH; auto. intros e' Hy. apply H. right. exact Hy.
Qed.
Lemma walk_good l path memo : (forall n c, List.In (n, c) l -> forall memo p, good memo (named_modules c memo p)) -> good memo (walk l path memo).
Proof.
  revert memo; induction l as [|[n c] r IH]; intros memo H.
  - cbn. split; [cbn; tauto|]. split; [constructor|intros i []].
  - rewrite walk_cons. cbv zeta. assert (H1 := H n c (or_introl eq_refl) memo (join path n)). destruct (named_modules c memo (join path n)) as [xs m1]. cbn [fst snd].
    assert (H2 := IH m1 (fun n' c' Hin => H n' c' (or_intror Hin))). destruct (walk r path m1) as [ys m2]. unfold good in *. cbn [fst snd] in *.
    destruct H1 as (A1 & A2 & A3), H2 as (B1 & B2 & B3). rewrite map_app. split; [|split].
    + intros i. rewrite B1, A1, in_app_iff. tauto.
    + apply nodup_app; auto. intros i Hi Hi'. apply (B3 i Hi'). apply A1. right. exact Hi.
    + intros i Hi Hm. apply in_app_iff in Hi. destruct Hi as [Hi|Hi]; [exact (A3 i Hi Hm)|]. apply (B3 i Hi). apply A1. left. exact Hm.
Qed.
Lemma named_modules_good m : forall memo path, good memo (named_modules m memo path).
Proof.
  induction m as [i k t l IH] using md_induction. intros memo path. rewrite named_modules_eq. destruct (mem i memo) eqn:E.
  - split; [cbn; tauto|]. split; [constructor|intros j []].
  - assert (G := walk_good l path (i :: memo) IH). destruct (walk l path (i :: memo)) as [xs m']. unfold good in *. cbn [fst snd map id_of] in *.
    destruct G as (A1 & A2 & A3). apply mem_false in E. split; [|split].
    + intros j. rewrite A1. cbn. tauto.
    + constructor; [|exact A2]. intros Hin. apply (A3 i Hin). left. reflexivity.
    + intros j [<-|Hj]; [exact E|]. intros Hm. apply (A3 j Hj). right. exact Hm.
Qed.

(** every visited module is at the path of its name *)
Definition uniq (m : md) : Prop := every (fun x => NoDup (map fst (kids_of x))) m.
Lemma named_modules_at m : uniq m -> forall memo path n x, List.In (n, x) (fst (named_modules m memo path)) ->
  exists q, at_path m q = Some x /\ n = dotted path q.
Proof.
  induction m as [i k t l IH] using md_induction. intros U memo path n x. apply every_inv in U. destruct U as [U1 U2]. cbn [kids_of] in U1.
  rewrite named_modules_eq. destruct (mem i memo); [intros []|]. cbn [fst]. intros [[= <- <-]|Hin]; [exists []; auto|].
  assert (G : forall l' mm, (forall n c, List.In (n, c) l' -> List.In (n, c) l) -> List.In (n, x) (fst (walk l' path mm)) ->
    exists n' c q, List.In (n', c) l /\ at_path c q = Some x /\ n = dotted (join path n') q).
  { induction l' as [|[n' c] r IHr]; intros mm Hs Hi; [destruct Hi|]. rewrite walk_cons in Hi. cbn [fst] in Hi. apply in_app_iff in Hi. destruct Hi as [Hi|Hi].
    - assert (Hl : List.In (n', c) l) by (apply Hs; left; reflexivity). destruct (IH n' c Hl (U2 _ _ Hl) _ _ _ _ Hi) as (q & Hq). exists n', c, q. auto.
    - eapply IHr; [|exact Hi]. intros; apply Hs; right; auto. }
  destruct (G l _ (fun _ _ H => H) Hin) as (n' & c & q & H1 & H2 & H3). exists (n' :: q). cbn. rewrite (in_lookup _ _ _ U1 H1). auto.
Qed.
Lemma at_path_sub m q x : at_path m q = Some x -> sub x m.
Proof.
  revert m; induction q as [|n q IH]; intros m E; cbn in E; [injection E as <-; constructor|]. destruct (lookup n (kids_of m)) as [c|] eqn:L; [|discriminate].
  destruct m as [i k t l]. econstructor; [apply lookup_in; exact L|]. apply IH. exact E.
Qed.

(** everything is visited *)
Fixpoint size (m : md) : nat := match m with Md _ _ _ l => Datatypes.S (fold_right (fun p s => size (snd p) + s) 0 l) end.
Lemma size_kid i k t l n c : List.In (n, c) l -> size c < size (@Md W C i k t l).
Proof.
  intros H. cbn [size]. apply Nat.lt_succ_r. induction l as [|[n' c'] r IH]; [destruct H|]. cbn [fold_right snd]. destruct H as [[= <- <-]|H]; [lia|]. specialize (IH H). lia.
Qed.
Section Cover.
Context (root : md) (CO : coherent root).
(** all submodules of the visited modules of size at most [s] are visited *)
Definition closed (s : nat) (memo : list ident) : Prop :=
  forall y, sub y root -> size y <= s -> List.In (id_of y) memo -> forall z, sub z y -> List.In (id_of z) memo.
Lemma named_modules_incl m memo path i : List.In i memo -> List.In i (snd (named_modules m memo path)).
Proof. intros H. apply (proj1 (named_modules_good m memo path)). left. exact H. Qed.
Lemma walk_incl l path memo i : List.In i memo -> List.In i (snd (walk l path memo)).
Proof.
  intros H. apply (proj1 (walk_good l path memo (fun n c _ mm p => named_modules_good c mm p))). left. exact H.
Qed.
Lemma cover m : sub m root -> forall memo path, closed (size m) memo ->
  let memo' := snd (named_modules m memo path) in
  (forall z, sub z m -> List.In (id_of z) memo')
  /\ (forall y, sub y root -> List.In (id_of y) memo' -> ~ List.In (id_of y) memo -> forall z, sub z y -> List.In (id_of z) memo').
Proof.
  induction m as [i k t l IH] using md_induction. intros Hm memo path Hc. cbv zeta. rewrite named_modules_eq. destruct (mem i memo) eqn:E.
  - apply mem_true in E. cbn [snd]. split; [|intros y _ H1 H2; contradiction]. intros z Hz. eapply (Hc (Md i k t l)); auto.
  - apply mem_false in E. cbn [snd].
    assert (G : forall l' mm, (forall n c, List.In (n, c) l' -> List.In (n, c) l) -> (forall s, s < size (Md i k t l) -> closed s mm) ->
      (forall n c, List.In (n, c) l' -> forall z, sub z c -> List.In (id_of z) (snd (walk l' path mm)))
      /\ (forall y, sub y root -> List.In (id_of y) (snd (walk l' path mm)) -> ~ List.In (id_of y) mm -> forall z, sub z y -> List.In (id_of z) (snd (walk l' path mm)))).
    { induction l' as [|[n c] r IHr]; intros mm Hs Hcl; [split; [intros n c []|intros y _ H1 H2; contradiction]|].
      assert (Hl : List.In (n, c) l) by (apply Hs; left; reflexivity).
      assert (Hsz : size c < size (Md i k t l)) by (eapply size_kid; exact Hl).
      assert (Hcr : sub c root) by (eapply sub_trans; [|exact Hm]; econstructor; [exact Hl|constructor]).
      destruct (IH n c Hl Hcr mm (join path n) (Hcl _ Hsz)) as [G1 G2]. rewrite walk_cons. cbv zeta. cbn [snd].
      set (m1 := snd (named_modules c mm (join path n))) in *.
      assert (Hm1 : forall s, s < size (Md i k t l) -> closed s m1).
      { intros s Hlt y Hy Hys Hin z Hz. destruct (mem (id_of y) mm) eqn:Hold; [apply mem_true in Hold|apply mem_false in Hold].
        - apply named_modules_incl. eapply (Hcl s Hlt y); auto.
        - eapply (G2 y); auto. }
      destruct (IHr m1 (fun _ _ H => Hs _ _ (or_intror H)) Hm1) as [K1 K2]. split.
      - intros n' c' [[= <- <-]|Hin] z Hz; [apply walk_incl; apply G1; exact Hz|eapply K1; eauto].
      - intros y Hy Hin Hnew z Hz. destruct (mem (id_of y) m1) eqn:Em.
        + apply mem_true in Em. apply walk_incl. eapply (G2 y); auto.
        + apply mem_false in Em. eapply (K2 y); auto. }
    assert (Hcl : forall s, s < size (Md i k t l) -> closed s (i :: memo)).
    { intros s Hlt y Hy Hys Hin z Hz. destruct Hin as [Ei|Hin].
      - exfalso. assert (y = Md i k t l) by (apply CO; auto). subst y. lia.
      - right. eapply (Hc y); auto. lia. }
    destruct (G l (i :: memo) (fun _ _ H => H) Hcl) as [G1 G2].
    assert (Hall : forall z, sub z (Md i k t l) -> List.In (id_of z) (snd (walk l path (i :: memo)))).
    { intros z Hz. inversion Hz; subst; [apply walk_incl; left; reflexivity|]. eapply G1; eauto. }
    split; [exact Hall|]. intros y Hy Hin Hnew z Hz. destruct (mem (id_of y) (i :: memo)) eqn:Em.
    + apply mem_true in Em. destruct Em as [Ei|Em]; [|contradiction]. assert (y = Md i k t l) by (apply CO; auto). subst y. apply Hall. exact Hz.
    + apply mem_false in Em. eapply (G2 y); auto.
Qed.
Lemma all_visited x : sub x root -> List.In (id_of x) (map (fun p => id_of (snd p)) (fst (named_modules root [] ""))).
Proof.
  intros H. destruct (cover root (sub_refl root) [] "" (fun y _ _ H => match H with end)) as [G _].
  specialize (G x H). apply (proj1 (named_modules_good root [] "")) in G. destruct G as [[]|G]. exact G.
Qed.
End Cover.
End Proofs.
