(** * C115-C116: which modules are converted, what the configuration function receives *)
From Verif Require Import Prelude NnModel NnSpec NnProofs NnProps.
Local Open Scope nat_scope.

Section Props.
Context {W C : Type}.
Notation md := (md W C).

(** a model whose layers have no children, with dictionaries of children *)
Definition plain (a : cargs W C) (m : md) : Prop := every (fun x => unrepeated x /\ layers_are_leaves a x) m.
Lemma plain_kid a i k t (l : list (string * md)) n c : plain a (Md i k t l) -> List.In (n, c) l -> plain a c.
Proof. intros H Hin. apply every_inv in H. destruct H as [_ H]. exact (H n c Hin). Qed.
Lemma plain_nodup a i k t (l : list (string * md)) : plain a (Md i k t l) -> NoDup (map (fun p => id_of (snd p)) l).
Proof. intros H. apply every_inv in H. destruct H as [[U _] _]. exact U. Qed.
Lemma plain_leaf a i c w t (l : list (string * md)) : plain a (Md i (Dig c w) t l) -> klass_eqb c Sequential = false -> a_map a c = true -> l = [].
Proof. intros H. apply every_inv in H. destruct H as [[_ U] _]. exact U. Qed.

(** below the root *)
Lemma at_convert_cons a path (m : md) n r c : plain a m -> lookup n (kids_of m) = Some c ->
  at_path (convert a path m) (n :: r) = at_path (kid_conv a path n c) r.
Proof.
  destruct m as [i k t l]. cbn [kids_of]. intros P L. pose proof (plain_nodup _ _ _ _ _ P) as ND. rewrite (convert_unfold a path i k t l ND). cbv zeta.
  set (kids := map _ l).
  assert (E : lookup n kids = Some (kid_conv a path n c)). { unfold kids. rewrite (lookup_map (fun s x => kid_conv a path s x)), L. reflexivity. }
  assert (G : forall i' k' t', at_path (Md i' k' t' kids) (n :: r) = at_path (kid_conv a path n c) r). { intros. cbn [at_path kids_of]. rewrite E. reflexivity. }
  destruct (mems path (a_ex a)); [apply G|]. destruct k; try apply G.
  destruct (klass_eqb c0 Sequential) eqn:Es; [destruct (a_seq a); apply G|]. destruct (a_map a c0) eqn:Em; [|apply G].
  rewrite (plain_leaf _ _ _ _ _ _ P Es Em) in L. discriminate.
Qed.
Lemma convert_root a path (m : md) : plain a m -> ~ List.In path (a_ex a) ->
  kind_of (convert a path m) = converted a (kind_of m)
  /\ (mode_of (convert a path m) = mode_of m /\ id_of (convert a path m) = id_of m /\ kind_of (convert a path m) = kind_of m
      \/ mode_of (convert a path m) = true /\ (exists c w, kind_of m = Dig c w) /\ exists c, kind_of (convert a path m) = ASeq \/ kind_of (convert a path m) = ALayer c).
Proof.
  destruct m as [i k t l]. intros P Ex. rewrite (convert_unfold a path i k t l (plain_nodup _ _ _ _ _ P)). cbv zeta.
  rewrite <- mems_true in Ex. destruct (mems path (a_ex a)); [congruence|]. cbn [kind_of mode_of id_of].
  destruct k as [c w|c| |c w|cfg w]; cbn [converted]; try (split; [reflexivity|left; auto]; fail).
  destruct (klass_eqb c Sequential); [destruct (a_seq a)|destruct (a_map a c)]; cbn [kind_of mode_of id_of]; (split; [reflexivity|]);
    first [left; repeat split; reflexivity | right; split; [reflexivity|]; split; [exists c, w; reflexivity|exists c; auto]].
Qed.
Lemma at_excluded_root a path (m : md) : plain a m -> List.In path (a_ex a) ->
  id_of (convert a path m) = id_of m /\ kind_of (convert a path m) = kind_of m /\ mode_of (convert a path m) = mode_of m.
Proof.
  destruct m as [i k t l]. intros P Ex. rewrite (convert_unfold a path i k t l (plain_nodup _ _ _ _ _ P)). cbv zeta.
  rewrite (proj2 (mems_true _ _) Ex). auto.
Qed.

(** ** C115: the class of every submodule after the conversion.  The name of a submodule is the dotted path from the root. *)
(** [q] is converted: neither its name nor the name of a module on the way (other than the root) is excluded *)
Definition wanted (a : cargs W C) (root : string) (q : list string) : Prop :=
  forall p r, q = p ++ r -> p <> [] \/ q = [] -> ~ List.In (dotted root p) (a_ex a).
Lemma wanted_cons a root n q : wanted a root (n :: q) -> wanted a (join root n) q.
Proof.
  intros H p r E Hp. apply (H (n :: p) r); [cbn; rewrite E; reflexivity|left; discriminate].
Qed.
Lemma wanted_head a root n q : wanted a root (n :: q) -> ~ List.In (join root n) (a_ex a).
Proof. intros H. apply (H [n] q); [reflexivity|left; discriminate]. Qed.

Theorem C115_converted a root (m : md) q x : plain a m -> at_path m q = Some x -> wanted a root q ->
  exists y, at_path (convert a root m) q = Some y /\ kind_of y = converted a (kind_of x)
  /\ (kind_of y = kind_of x -> id_of y = id_of x /\ mode_of y = mode_of x).
Proof.
  revert root m. induction q as [|n q IH]; intros root m P E Wt.
  - cbn in E. injection E as <-. exists (convert a root m). split; [reflexivity|].
    assert (Ne : ~ List.In root (a_ex a)) by (apply (Wt [] []); [reflexivity|right; reflexivity]).
    destruct (convert_root a root m P Ne) as [H1 H2]. split; [exact H1|]. intros Es. destruct H2 as [(A & B & _)|(_ & (c & w & E1) & c' & [E2|E2])]; [auto| |]; rewrite E1, E2 in Es; discriminate.
  - destruct (lookup n (kids_of m)) as [c|] eqn:L; [|cbn in E; rewrite L in E; discriminate].
    assert (E' : at_path c q = Some x) by (cbn in E; rewrite L in E; exact E).
    rewrite (at_convert_cons a root m n q c P L). unfold kid_conv.
    assert (Ne := wanted_head _ _ _ _ Wt). rewrite <- mems_true in Ne. destruct (mems (join root n) (a_ex a)); [congruence|].
    apply IH; [|exact E'|apply wanted_cons; exact Wt]. destruct m as [i k t l]. eapply plain_kid; [exact P|]. apply lookup_in. exact L.
Qed.
(** an excluded submodule and everything below it is left alone *)
Lemma dotted_app root p r : dotted root (p ++ r) = dotted (dotted root p) r.
Proof. revert root; induction p; intros root; cbn; auto. Qed.
Lemma at_path_app (m : md) p r : at_path m (p ++ r) = match at_path m p with Some x => at_path x r | None => None end.
Proof. revert m; induction p as [|n p IH]; intros m; cbn; [reflexivity|]. destruct (lookup n (kids_of m)); auto. Qed.
Theorem C115_excluded a root (m : md) p r x : plain a m -> at_path m (p ++ r) = Some x -> p <> [] -> List.In (dotted root p) (a_ex a) ->
  at_path (convert a root m) (p ++ r) = Some x.
Proof.
  revert root m. induction p as [|n p IH]; intros root m P E Np Ex; [congruence|].
  destruct (lookup n (kids_of m)) as [c|] eqn:L; [|cbn in E; rewrite L in E; discriminate].
  assert (E' : at_path c (p ++ r) = Some x) by (cbn in E; rewrite L in E; exact E).
  cbn [app]. rewrite (at_convert_cons a root m n _ c P L). unfold kid_conv. destruct (mems (join root n) (a_ex a)) eqn:Em; [exact E'|].
  destruct p as [|n' p].
  - exfalso. cbn in Ex. apply mems_true in Ex. congruence.
  - apply IH; [|exact E'|discriminate|exact Ex]. destruct m as [i k t l]. eapply plain_kid; [exact P|]. apply lookup_in. exact L.
Qed.
(** nothing is added except tiles in converted layers; the tile has the weights of the layer and the configuration that
    the user's function returned for the name and the module (C116) *)
Theorem C115_nothing_else a root (m : md) q y : plain a m -> at_path (convert a root m) q = Some y ->
  (exists x, at_path m q = Some x)
  \/ exists p x c w, q = p ++ ["analog_module"%string] /\ at_path m p = Some x /\ kind_of x = Dig c w /\ a_map a c = true
       /\ kind_of y = TileM (a_fun a (dotted root p) x (a_cfg a)) w.
Proof.
  revert root m. induction q as [|n q IH]; intros root m P E; [left; eexists; reflexivity|].
  destruct (lookup n (kids_of m)) as [c|] eqn:L.
  - rewrite (at_convert_cons a root m n _ c P L) in E. unfold kid_conv in E. destruct (mems (join root n) (a_ex a)).
    + left. exists y. cbn. rewrite L. exact E.
    + assert (Pc : plain a c). { destruct m as [i k t l]. eapply plain_kid; [exact P|]. apply lookup_in. exact L. }
      destruct (IH _ _ Pc E) as [[x Ex]|(p & x & c' & w & E1 & E2 & E3 & E4 & E5)].
      * left. exists x. cbn. rewrite L. exact Ex.
      * right. exists (n :: p), x, c', w. split; [cbn; rewrite E1; reflexivity|]. split; [cbn; rewrite L; exact E2|]. auto.
  - destruct m as [i k t l]. cbn [kids_of] in L. rewrite (convert_unfold a root i k t l (plain_nodup _ _ _ _ _ P)) in E. cbv zeta in E.
    set (kids := map _ l) in E.
    assert (G : forall i' k' t', at_path (Md i' k' t' kids) (n :: q) = None).
    { intros. cbn [at_path kids_of]. unfold kids. rewrite (lookup_map (fun s x => kid_conv a root s x)), L. reflexivity. }
    destruct (mems root (a_ex a)); [rewrite G in E; discriminate|]. destruct k as [c w|c| |c w|cfg w]; try (rewrite G in E; discriminate).
    destruct (klass_eqb c Sequential); [destruct (a_seq a); rewrite G in E; discriminate|]. destruct (a_map a c) eqn:Em; [|rewrite G in E; discriminate].
    right. cbn [at_path kids_of] in E. cbn [lookup] in E. destruct (String.eqb_spec n "analog_module"); [|discriminate]. subst n.
    exists [], (Md i (Dig c w) t l), c, w. destruct q as [|n' q].
    + cbn in E. injection E as <-. split; [reflexivity|]. split; [reflexivity|]. split; [reflexivity|]. split; [exact Em|]. reflexivity.
    + cbn in E. discriminate.
Qed.

(** ** C116: every converted layer gets the configuration the user's function returns for its full name, the original
    layer and the given configuration; the tile has its weights *)
Theorem C116_specific_config a root (m : md) q x c w : plain a m -> at_path m q = Some x -> wanted a root q ->
  kind_of x = Dig c w -> c <> Sequential -> a_map a c = true ->
  exists y, at_path (convert a root m) (q ++ ["analog_module"%string]) = Some y
  /\ kind_of y = TileM (a_fun a (dotted root q) x (a_cfg a)) w.
Proof.
  revert root m. induction q as [|n q IH]; intros root m P E Wt Kx Nc Em.
  - cbn in E. injection E as <-. destruct m as [i k t l]. cbn in Kx. subst k. cbn [app].
    rewrite (convert_unfold a root i _ t l (plain_nodup _ _ _ _ _ P)). cbv zeta.
    assert (Ne : ~ List.In root (a_ex a)) by (apply (Wt [] []); [reflexivity|right; reflexivity]). rewrite <- mems_true in Ne. destruct (mems root (a_ex a)); [congruence|].
    destruct (klass_eqb c Sequential) eqn:Es; [apply klass_eqb_true in Es; congruence|]. rewrite Em. eexists. split; reflexivity.
  - destruct (lookup n (kids_of m)) as [d|] eqn:L; [|cbn in E; rewrite L in E; discriminate].
    assert (E' : at_path d q = Some x) by (cbn in E; rewrite L in E; exact E).
    cbn [app]. rewrite (at_convert_cons a root m n _ d P L). unfold kid_conv.
    assert (Ne := wanted_head _ _ _ _ Wt). rewrite <- mems_true in Ne. destruct (mems (join root n) (a_ex a)); [congruence|].
    apply IH; auto. 2:apply wanted_cons; exact Wt. destruct m as [i k t l]. eapply plain_kid; [exact P|]. apply lookup_in. exact L.
Qed.

(** the root and its wrapper: below the root convert_to_analog is the conversion above; the root is analog afterwards
    unless a name was given for it, and a wrapped root keeps parameters, children and mode *)
Theorem C115_root a ensure reg name (m : md) : model a m ->
  let m' := fst (convert_to_analog a ensure reg name m) in
  (forall n q, at_path m' (n :: q) = at_path (convert a name m) (n :: q))
  /\ (ensure = true -> name = ""%string -> is_analog_layer (kind_of m') = true)
  /\ (name <> ""%string \/ ensure = false -> m' = convert a name m)
  /\ mode_of m' = mode_of (convert a name m).
Proof.
  intros M. cbv zeta. unfold convert_to_analog. cbv zeta.
  destruct (ensure && _ && _) eqn:B.
  - apply andb_true_iff in B. destruct B as [B B3]. apply andb_true_iff in B. destruct B as [B1 B2]. apply String.eqb_eq in B2. subst.
    unfold wrap. destruct (convert a "" m) as [i k t l] eqn:Ec. cbn [kind_of kids_of mode_of] in *.
    assert (D : exists c w, k = Dig c w).
    { destruct m as [i0 k0 t0 l0]. apply every_inv in M. destruct M as [(Nm & U & Us & (c & w & Ek) & Lv) M]. cbn [kind_of] in Ek. subst k0.
      unfold unrepeated in U; cbn [kids_of] in U. rewrite (convert_unfold a "" i0 _ t0 l0 U) in Ec. cbv zeta in Ec.
      destruct (mems "" (a_ex a)); [|destruct (klass_eqb c Sequential); [destruct (a_seq a)|destruct (a_map a c)]]; injection Ec as <- <- <- <-; try discriminate B3; eauto. }
    destruct D as (c & w & ->). destruct (lookup (k_name c) reg); cbn; (split; [reflexivity|]); (split; [reflexivity|]); (split; [intros [H|H]; congruence|reflexivity]).
  - cbn [fst]. split; [reflexivity|]. split; [|split; reflexivity]. intros -> ->. rewrite String.eqb_refl in B. cbn in B. apply negb_false_iff in B. exact B.
Qed.
End Props.

Lemma two_layers_plain : plain default_args two_layers.
Proof. eapply every_impl; [|exact two_layers_model]. intros x (_ & H1 & _ & _ & H2). auto. Qed.
Definition excl_args : cargs nat unit :=
  {| a_map := fun c => klass_eqb c linear; a_seq := true; a_cfg := tt; a_fun := fun _ _ c => c; a_ex := ["blk"]%string |}.
Example C115_nontrivial : plain default_args two_layers /\ wanted default_args "" ["blk"; "fc"]%string
  /\ (exists x y, at_path two_layers ["blk"; "fc"]%string = Some x /\ kind_of x = Dig linear 6
       /\ at_path (convert default_args "" two_layers) ["blk"; "fc"]%string = Some y /\ kind_of y = ALayer linear
       /\ at_path (convert excl_args "" two_layers) ["blk"; "fc"]%string = Some x)
  /\ dotted "" ["blk"; "fc"]%string = "blk.fc"%string.
Proof.
  split; [exact two_layers_plain|]. split; [intros p r _ _ []|]. split; [|reflexivity]. do 2 eexists. split; [reflexivity|]. repeat split; reflexivity.
Qed.

Print Assumptions C115_converted.
Print Assumptions C115_excluded.
Print Assumptions C115_nothing_else.
Print Assumptions C116_specific_config.
Print Assumptions C115_root.
