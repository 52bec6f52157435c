(** * C121-C122: iteration over tiles, weights of containers, programming and drift *)
From Verif Require Import Prelude NnModel NnSpec NnProofs NnProps NnProps2 NnProps3 NnModel2 NnProofs2.
Local Open Scope nat_scope.

Section Props.
Context {W C : Type}.
Notation md := (md W C).

(** torch's rules for the names of children: unique, not empty, no dots *)
Definition tidy (m : md) : Prop :=
  every (fun x => NoDup (map fst (kids_of x)) /\ forall n, List.In n (map fst (kids_of x)) -> n <> ""%string /\ nodot n) m.
Lemma tidy_uniq m : tidy m -> uniq m.
Proof. apply every_impl. tauto. Qed.
Lemma tidy_path m q x : tidy m -> at_path m q = Some x -> Forall nodot q /\ ~ List.In ""%string q.
Proof.
  revert m; induction q as [|n q IH]; intros m T E; [split; [constructor|tauto]|]. cbn in E. destruct (lookup n (kids_of m)) as [c|] eqn:L; [|discriminate].
  destruct m as [i k t l]. apply every_inv in T. destruct T as [[_ T1] T2]. cbn [kids_of] in *. assert (Hin := lookup_in _ _ _ L).
  destruct (T1 n (in_map fst _ _ Hin)) as [N1 N2]. destruct (IH c (T2 _ _ Hin) E) as [A B]. split; [constructor; auto|]. intros [H|H]; [congruence|auto].
Qed.
Lemma nodup_filter_map {A B} (f : A -> B) p (l : list A) : NoDup (map f l) -> NoDup (map f (filter p l)).
Proof.
  induction l as [|x r IH]; intros H; [constructor|]. inversion H as [|? ? N1 N2]; subst. cbn. destruct (p x); [|auto]. cbn. constructor; [|auto].
  intros Hin. apply N1. apply in_map_iff in Hin. destruct Hin as (y & E & Hy). apply filter_In in Hy. apply in_map_iff. exists y. tauto.
Qed.

(** ** C121: every tile of the model is visited once, under its full name, also when modules are shared *)
Theorem C121_every_tile_once (m : md) : tidy m -> coherent m ->
  NoDup (map (fun p => id_of (snd p)) (named_analog_tiles m)) /\ NoDup (map fst (named_analog_tiles m))
  /\ (forall n x, List.In (n, x) (named_analog_tiles m) -> (exists q, at_path m q = Some x /\ n = dotted "" q) /\ exists cfg w, kind_of x = TileM cfg w)
  /\ (forall x cfg w, sub x m -> kind_of x = TileM cfg w -> exists n, List.In (n, x) (named_analog_tiles m)).
Proof.
  intros T CO. assert (G := named_modules_good m [] ""). destruct G as (G1 & G2 & _).
  assert (N1 : NoDup (map (fun p => id_of (snd p)) (named_analog_tiles m))) by (apply nodup_filter_map; exact G2).
  assert (At : forall n x, List.In (n, x) (named_analog_tiles m) -> exists q, at_path m q = Some x /\ n = dotted "" q).
  { intros n x Hin. unfold named_analog_tiles in Hin. apply filter_In in Hin. destruct Hin as [Hin _]. exact (named_modules_at m (tidy_uniq m T) _ _ _ _ Hin). }
  split; [exact N1|]. split; [|split].
  - apply (NoDup_map_inj (fun p : string * md => id_of (snd p)) _ _ N1). intros [n x] [n' x'] H1 H2 E. cbn [fst snd] in *. subst n'.
    destruct (At _ _ H1) as (q & Eq & En), (At _ _ H2) as (q' & Eq' & En'). destruct (tidy_path _ _ _ T Eq), (tidy_path _ _ _ T Eq').
    assert (q = q') by (apply dotted_inj; auto; congruence). congruence.
  - intros n x Hin. split; [apply At; exact Hin|]. apply filter_In in Hin. destruct Hin as [_ Hk]. cbn [snd] in Hk. destruct (kind_of x); try discriminate. eauto.
  - intros x cfg w Hs Ek. assert (V := all_visited m CO x Hs). apply in_map_iff in V. destruct V as ([n y] & E & Hin). cbn [snd] in E.
    destruct (named_modules_at m (tidy_uniq m T) _ _ _ _ Hin) as (q & Eq & _). assert (y = x) by (apply CO; auto; eapply at_path_sub; eauto). subst y.
    exists n. apply filter_In. split; [exact Hin|]. cbn [snd]. rewrite Ek. reflexivity.
Qed.

(** likewise for the analog layers; the containers are not among them *)
Theorem C121_every_layer_once (m : md) : tidy m -> coherent m ->
  NoDup (map (fun p => id_of (snd p)) (named_analog_layers m))
  /\ (forall n x, List.In (n, x) (named_analog_layers m) -> (exists q, at_path m q = Some x /\ n = dotted "" q) /\ exists c, kind_of x = ALayer c)
  /\ (forall x c, sub x m -> kind_of x = ALayer c -> exists n, List.In (n, x) (named_analog_layers m)).
Proof.
  intros T CO. assert (G := named_modules_good m [] ""). destruct G as (G1 & G2 & _). split; [|split].
  - apply nodup_filter_map; exact G2.
  - intros n x Hin. unfold named_analog_layers in Hin. apply filter_In in Hin. destruct Hin as [Hin Hk]. split; [exact (named_modules_at m (tidy_uniq m T) _ _ _ _ Hin)|].
    cbn [snd] in Hk. destruct (kind_of x); try discriminate. eauto.
  - intros x c Hs Ek. assert (V := all_visited m CO x Hs). apply in_map_iff in V. destruct V as ([n y] & E & Hin). cbn [snd] in E.
    destruct (named_modules_at m (tidy_uniq m T) _ _ _ _ Hin) as (q & Eq & _). assert (y = x) by (apply CO; auto; eapply at_path_sub; eauto). subst y.
    exists n. apply filter_In. split; [exact Hin|]. cbn [snd]. rewrite Ek. reflexivity.
Qed.

(** the loop of set_weights *)
Lemma put_same (s : store) i w : @put W s i w i = w.
Proof. unfold put. rewrite (proj2 (ident_eqb_true i i) eq_refl). reflexivity. Qed.
Lemma put_other (s : store) i j w : j <> i -> @put W s i w j = s j.
Proof. unfold put. intros H. destruct (ident_eqb j i) eqn:E; [apply ident_eqb_true in E; contradiction|reflexivity]. Qed.
Lemma set_tiles_ok (l : list (string * md)) d s s' : NoDup (map (fun p => id_of (snd p)) l) -> set_tiles l d s = inr s' ->
  (forall n x, List.In (n, x) l -> lookup n d = Some (s' (id_of x)))
  /\ (forall i, ~ List.In i (map (fun p => id_of (snd p)) l) -> s' i = s i).
Proof.
  revert s; induction l as [|[n x] r IH]; intros s ND E; cbn [set_tiles] in E.
  - injection E as <-. split; [intros n x []|reflexivity].
  - destruct (lookup n d) as [w|] eqn:L; [|discriminate]. inversion ND as [|? ? N1 N2]; subst. cbn [snd] in N1. destruct (IH _ N2 E) as [A B]. split.
    + intros n' x' [[= <- <-]|Hin]; [|apply A; exact Hin]. rewrite L. f_equal. rewrite (B _ N1). symmetry. apply put_same.
    + intros i Hi. cbn in Hi. rewrite B by tauto. apply put_other. intros ->. tauto.
Qed.
Lemma set_tiles_total (l : list (string * md)) d s : (forall n x, List.In (n, x) l -> lookup n d <> None) -> exists s', set_tiles l d s = inr s'.
Proof.
  revert s; induction l as [|[n x] r IH]; intros s H; [eexists; reflexivity|]. cbn. destruct (lookup n d) eqn:L; [|exfalso; exact (H n x (or_introl eq_refl) L)].
  apply IH. intros; eapply H; right; eauto.
Qed.
(** the dictionary of get_weights *)
Lemma get_weights_lookup (m : md) (s : store) : NoDup (map fst (named_analog_tiles m)) ->
  (forall n x, List.In (n, x) (named_analog_tiles m) -> lookup n (get_weights m s) = Some (s (id_of x)))
  /\ (forall n, ~ List.In n (map fst (named_analog_tiles m)) -> lookup n (get_weights m s) = None).
Proof.
  intros ND. unfold get_weights.
  assert (G : forall l (d : list (string * W)), NoDup (map fst l) ->
    (forall n x, List.In (n, x) l -> lookup n (fold_left (fun d p => (fst p, s (id_of (snd p))) :: d) l d) = Some (s (id_of (x : md))))
    /\ (forall n, ~ List.In n (map fst l) -> lookup n (fold_left (fun d p => (fst p, s (id_of (snd p))) :: d) l d) = lookup n d)).
  { induction l as [|[n x] r IH]; intros d N; [split; [intros ? ? []|reflexivity]|]. inversion N as [|? ? N1 N2]; subst. cbn [fst] in N1. destruct (IH ((n, s (id_of x)) :: d) N2) as [A B].
    cbn [fold_left fst snd]. split.
    - intros n' x' [[= <- <-]|Hin]; [|apply A; exact Hin]. rewrite B by exact N1. cbn. rewrite String.eqb_refl. reflexivity.
    - intros n' Hn. cbn in Hn. rewrite B by tauto. cbn. destruct (String.eqb_spec n' n); [subst; tauto|reflexivity]. }
  apply (G _ [] ND).
Qed.
(** the weights read from the model can be set again, whatever happened in between; other objects are not touched *)
Theorem C121_get_set (m : md) (s s1 : store) : tidy m -> coherent m ->
  exists s2, set_weights m (get_weights m s) s1 = inr s2
  /\ (forall x cfg w, sub x m -> kind_of x = TileM cfg w -> s2 (id_of x) = s (id_of x))
  /\ (forall i, (forall x cfg w, sub x m -> kind_of x = TileM cfg w -> id_of x <> i) -> s2 i = s1 i).
Proof.
  intros T CO. destruct (C121_every_tile_once m T CO) as (N1 & N2 & At & All). destruct (get_weights_lookup m s N2) as [G1 G2].
  destruct (set_tiles_total (named_analog_tiles m) (get_weights m s) s1) as [s2 E]; [intros n x Hin; rewrite (G1 _ _ Hin); discriminate|].
  exists s2. split; [exact E|]. destruct (set_tiles_ok _ _ _ _ N1 E) as [A B]. split.
  - intros x cfg w Hs Ek. destruct (All x cfg w Hs Ek) as [n Hin]. assert (H := A _ _ Hin). rewrite (G1 _ _ Hin) in H. congruence.
  - intros i Hi. apply B. intros Hin. apply in_map_iff in Hin. destruct Hin as ([n x] & E1 & Hin). destruct (At _ _ Hin) as ((q & Eq & _) & cfg & w & Ek).
    eapply Hi; eauto using at_path_sub.
Qed.
(** setting the weights needs an entry for the full name of every tile and then sets exactly these; other entries of the
    dictionary are ignored; without an entry ModuleError is raised *)
Theorem C121_set_weights (m : md) (d : list (string * W)) (s : store) : tidy m -> coherent m ->
  match set_weights m d s with
  | inr s' => (forall q x cfg w, at_path m q = Some x -> kind_of x = TileM cfg w -> List.In (dotted "" q, x) (named_analog_tiles m) -> lookup (dotted "" q) d = Some (s' (id_of x)))
              /\ (forall n x, List.In (n, x) (named_analog_tiles m) -> lookup n (get_weights m s') = lookup n d)
              /\ (forall i, (forall x cfg w, sub x m -> kind_of x = TileM cfg w -> id_of x <> i) -> s' i = s i)
  | inl _ => exists n x, List.In (n, x) (named_analog_tiles m) /\ lookup n d = None
  end.
Proof.
  intros T CO. destruct (C121_every_tile_once m T CO) as (N1 & N2 & At & All). unfold set_weights. destruct (set_tiles (named_analog_tiles m) d s) as [s'|s'] eqn:E.
  - revert E. generalize (named_analog_tiles m). intros l. revert s; induction l as [|[n x] r IH]; intros s E; cbn in E; [discriminate|].
    destruct (lookup n d) eqn:L; [|exists n, x; split; [left; reflexivity|exact L]]. destruct (IH _ E) as (n' & x' & Hin & Hl). exists n', x'. split; [right; exact Hin|exact Hl].
  - destruct (set_tiles_ok _ _ _ _ N1 E) as [A B]. split; [intros q x cfg w _ _ Hin; exact (A _ _ Hin)|]. split.
    + intros n x Hin. rewrite (proj1 (get_weights_lookup m s' N2) _ _ Hin). symmetry. exact (A _ _ Hin).
    + intros i Hi. apply B. intros Hin. apply in_map_iff in Hin. destruct Hin as ([n x] & E1 & Hin). destruct (At _ _ Hin) as ((q & Eq & _) & cfg & w & Ek).
      eapply Hi; eauto using at_path_sub.
Qed.

(** ** C122: program_analog_weights and drift_analog_weights are refused in training mode; otherwise every tile (for
    inference) is handled exactly once, also when it is shared, and nothing else is changed *)
Lemma fold_put (inf : md -> bool) f (l : list (string * md)) (s : store) : NoDup (map (fun p => id_of (snd p)) l) ->
  let s' := fold_left (fun s p => if inf (snd p) then @put W s (id_of (snd p)) (f (s (id_of (snd p)))) else s) l s in
  (forall n x, List.In (n, x) l -> s' (id_of x) = if inf x then f (s (id_of x)) else s (id_of x))
  /\ (forall i, ~ List.In i (map (fun p => id_of (snd p)) l) -> s' i = s i).
Proof.
  revert s; induction l as [|[n x] r IH]; intros s ND; cbv zeta; [split; [intros ? ? []|reflexivity]|]. inversion ND as [|? ? N1 N2]; subst. cbn [snd] in N1.
  cbn [fold_left snd]. set (s1 := if inf x then _ else _). destruct (IH s1 N2) as [A B]. cbv zeta in A, B.
  assert (Ho : forall i, i <> id_of x -> s1 i = s i). { intros i Hi. unfold s1. destruct (inf x); [apply put_other; exact Hi|reflexivity]. }
  split.
  - intros n' x' [[= <- <-]|Hin].
    + rewrite B by exact N1. unfold s1. destruct (inf x); [apply put_same|reflexivity].
    + rewrite (A _ _ Hin). assert (id_of x' <> id_of x). { intros E. apply N1. rewrite <- E. apply in_map_iff. exists (n', x'). auto. } rewrite Ho by assumption. reflexivity.
  - intros i Hi. cbn in Hi. rewrite B by tauto. apply Ho. intros ->. tauto.
Qed.
Theorem C122_each_tile_once inf f (m : md) (s : store) : tidy m -> coherent m ->
  match on_inference_tiles inf f m s with
  | None => mode_of m = true
  | Some s' => mode_of m = false
      /\ (forall x cfg w, sub x m -> kind_of x = TileM cfg w -> s' (id_of x) = if inf x then f (s (id_of x)) else s (id_of x))
      /\ (forall i, (forall x cfg w, sub x m -> kind_of x = TileM cfg w -> id_of x <> i) -> s' i = s i)
  end.
Proof.
  intros T CO. destruct (C121_every_tile_once m T CO) as (N1 & N2 & At & All). unfold on_inference_tiles. destruct (mode_of m); [reflexivity|]. split; [reflexivity|].
  destruct (fold_put inf f _ s N1) as [A B]. cbv zeta in A, B. split.
  - intros x cfg w Hs Ek. destruct (All x cfg w Hs Ek) as [n Hin]. exact (A _ _ Hin).
  - intros i Hi. apply B. intros Hin. apply in_map_iff in Hin. destruct Hin as ([n x] & E1 & Hin). destruct (At _ _ Hin) as ((q & Eq & _) & cfg & w & Ek).
    eapply Hi; eauto using at_path_sub.
Qed.
End Props.

(** a container with a block that is used twice: the tile of the block occurs once *)
Definition tile5 : md nat unit := Md (Obj 6) (TileM tt 5) true [].
Definition fc5 : md nat unit := Md (Obj 5) (ALayer linear) true [("analog_module"%string, tile5)].
Definition fc8 : md nat unit := Md (Obj 8) (ALayer linear) true [("analog_module"%string, Md (Obj 9) (TileM tt 8) true [])].
Definition shared_block : md nat unit := Md (Obj 0) ASeq false [("a"%string, fc5); ("b"%string, fc5); ("c"%string, fc8)].
Lemma shared_tidy : tidy shared_block.
Proof.
  unfold tidy, shared_block, fc5, fc8, tile5.
  repeat (constructor; [cbn; split; [repeat constructor; cbn; intuition discriminate|intros n Hn; unfold nodot; cbn in *; intuition (subst; try discriminate; cbn in *; intuition discriminate)]|];
    let n := fresh in let c := fresh in let H := fresh in intros n c H; cbn in H; repeat (destruct H as [H|H]; [injection H as <- <-|]); try contradiction).
Qed.
Lemma shared_subs x : sub x shared_block -> x = shared_block \/ x = fc5 \/ x = tile5 \/ x = fc8 \/ x = Md (Obj 9) (TileM tt 8) true [].
Proof.
  intros H. inversion H; subst; [auto|]. cbn in *.
  repeat match goal with
  | H : _ \/ _ |- _ => destruct H
  | H : (_, _) = (_, _) |- _ => injection H as <- <-
  | H : False |- _ => destruct H
  | H : sub _ _ |- _ => inversion H; clear H; subst; cbn in *
  end; auto 8.
Qed.
Lemma shared_coherent : coherent shared_block.
Proof.
  intros x y Hx Hy E. apply shared_subs in Hx, Hy.
  destruct Hx as [->|[->|[->|[->| ->]]]], Hy as [->|[->|[->|[->| ->]]]]; cbn in E; try discriminate; reflexivity.
Qed.
Definition w_of (i : ident) : nat := match i with Obj n => 10 * n | _ => 0 end.
Example C121_nontrivial : tidy shared_block /\ coherent shared_block
  /\ map fst (named_analog_tiles shared_block) = ["a.analog_module"; "c.analog_module"]%string
  /\ get_weights shared_block w_of = [("c.analog_module", 90); ("a.analog_module", 60)]%string.
Proof. split; [exact shared_tidy|]. split; [exact shared_coherent|]. split; reflexivity. Qed.
(** refuted: a failing set_weights leaves the model unchanged.  Tiles before the missing one have their new weights *)
Theorem C121_not_atomic_refuted : exists s, set_weights shared_block [("a.analog_module", 1)]%string w_of = inl s /\ w_of (Obj 6) = 60 /\ s (Obj 6) = 1.
Proof. eexists. split; [reflexivity|]. split; reflexivity. Qed.
(** refuted: programming is refused when a layer is in training mode; only the flag of the container is looked at.  This is the
    state right after the conversion of a model in evaluation mode (C120) *)
Theorem C122_only_root_mode_refuted :
  let m := fst (convert_to_analog default_args true [] "" net_eval) in
  option_map mode_of (at_path m ["fc"; "analog_module"]%string) = Some true
  /\ exists s, on_inference_tiles (fun _ => true) (fun w => w + 1) m (fun _ => 0) = Some s /\ s (Made "fc" 1) = 1.
Proof. cbv zeta. split; [reflexivity|]. eexists. split; reflexivity. Qed.

Print Assumptions C121_every_tile_once.
Print Assumptions C121_get_set.
Print Assumptions C121_set_weights.
Print Assumptions C122_each_tile_once.
Print Assumptions C121_not_atomic_refuted.
Print Assumptions C122_only_root_mode_refuted.

Print Assumptions C121_every_layer_once.
