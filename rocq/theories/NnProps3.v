(** * C117-C120: converting twice, converting back, the registry of wrapped classes, training mode *)
From Verif Require Import Prelude NnModel NnSpec NnProofs NnProps NnProps2.
Local Open Scope nat_scope.

Lemma append_cancel p a b : (p ++ a)%string = (p ++ b)%string -> a = b.
Proof. induction p; cbn; [auto|]. intros [= H]. auto. Qed.
Lemma join_inj p a b : join p a = join p b -> a = b.
Proof.
  unfold join. destruct (String.eqb p ""); [auto|]. intros H. apply append_cancel in H. cbn in H. injection H. auto.
Qed.
Lemma NoDup_map_inj {A B D} (f : A -> B) (g : A -> D) (l : list A) :
  NoDup (map f l) -> (forall x y, List.In x l -> List.In y l -> g x = g y -> f x = f y) -> NoDup (map g l).
Proof.
  induction l as [|x r IH]; intros ND H; [constructor|]. inversion ND as [|? ? N1 N2]; subst. cbn. constructor.
  - intros Hin. apply in_map_iff in Hin. destruct Hin as (y & E & Hy). apply N1. apply in_map_iff. exists y. split; [|exact Hy].
    apply H; [right; exact Hy|left; reflexivity|exact E].
  - apply IH; [exact N2|]. intros; apply H; auto; right; auto.
Qed.

Section Props.
Context {W C : Type}.
Notation md := (md W C).

Lemma model_plain a (m : md) : model a m -> plain a m.
Proof. apply every_impl. intros x (_ & H1 & _ & _ & H2). auto. Qed.
Lemma model_inv a i k t (l : list (string * md)) : model a (Md i k t l) ->
  NoDup (map fst l) /\ NoDup (map (fun p => id_of (snd p)) l) /\ (exists n, i = Obj n) /\ (exists c w, k = Dig c w) /\
  (forall c w, k = Dig c w -> klass_eqb c Sequential = false -> a_map a c = true -> l = []) /\ forall n c, List.In (n, c) l -> model a c.
Proof.
  intros M. apply every_inv in M. destruct M as [((N1 & _) & U & Us & D & Lv) M]. split; [exact N1|]. split; [exact U|]. split; [exact Us|]. split; [exact D|].
  split; [|exact M]. intros c w -> . exact Lv.
Qed.

(** the objects after a conversion: the user's, or new ones *)
Lemma convert_id a path (m : md) : model a m -> id_of (convert a path m) = id_of m \/ id_of (convert a path m) = Made path 0.
Proof.
  destruct m as [i k t l]. intros M. destruct (model_inv _ _ _ _ _ M) as (_ & U & _). rewrite (convert_unfold a path i k t l U). cbv zeta.
  destruct (mems path (a_ex a)); [left; reflexivity|]. destruct k as [c w|c| |c w|cfg w]; try (left; reflexivity).
  destruct (klass_eqb c Sequential); [destruct (a_seq a)|destruct (a_map a c)]; cbn; auto.
Qed.
Lemma kid_conv_id a path n (c : md) : model a c -> id_of (kid_conv a path n c) = id_of c \/ id_of (kid_conv a path n c) = Made (join path n) 0.
Proof. intros M. unfold kid_conv. destruct (mems _ _); [left; reflexivity|]. apply convert_id. exact M. Qed.
Lemma kids_nodup a path i k t (l : list (string * md)) : model a (Md i k t l) ->
  NoDup (map (fun p => id_of (snd p)) (map (fun p => (fst p, kid_conv a path (fst p) (snd p))) l)).
Proof.
  intros M. destruct (model_inv _ _ _ _ _ M) as (N & U & _ & _ & _ & Mk). rewrite map_map. cbn [fst snd].
  apply (NoDup_map_inj (fun p : string * md => id_of (snd p)) _ l U). intros [n c] [n' c'] H1 H2 E. cbn [fst snd] in *.
  destruct (kid_conv_id a path n c (Mk _ _ H1)) as [E1|E1], (kid_conv_id a path n' c' (Mk _ _ H2)) as [E2|E2]; rewrite E1, E2 in E.
  - exact E.
  - destruct c as [i1 k1 t1 l1]. destruct (model_inv _ _ _ _ _ (Mk _ _ H1)) as (_ & _ & (z & ->) & _). discriminate.
  - destruct c' as [i1 k1 t1 l1]. destruct (model_inv _ _ _ _ _ (Mk _ _ H2)) as (_ & _ & (z & ->) & _). discriminate.
  - injection E as E. apply join_inj in E. subst n'.
    assert (S1 := in_lookup _ _ _ N H1). assert (S2 := in_lookup _ _ _ N H2). congruence.
Qed.

(** ** C117: converting a converted model changes nothing *)
Lemma convert_tile a path i cfg w t : convert a path (@Md W C i (TileM cfg w) t []) = Md i (TileM cfg w) t [].
Proof. cbn. destruct (mems path (a_ex a)); reflexivity. Qed.
Lemma convert_layer_again a path i c t j cfg w u :
  convert a path (@Md W C i (ALayer c) t [("analog_module"%string, Md j (TileM cfg w) u [])]) = Md i (ALayer c) t [("analog_module"%string, Md j (TileM cfg w) u [])].
Proof.
  cbn [convert map_kids mem existsb id_of]. cbv zeta. destruct (mems (join path "analog_module") (a_ex a)), (mems path (a_ex a)); try reflexivity.
Qed.
Lemma convert_twice a (m : md) : model a m -> forall path, convert a path (convert a path m) = convert a path m.
Proof.
  induction m as [i k t l IH] using md_induction. intros M path. destruct (model_inv _ _ _ _ _ M) as (N & U & _ & (c & w & ->) & Lv & Mk).
  pose proof (kids_nodup a path _ _ _ _ M) as ND.
  rewrite (convert_unfold a path i _ t l U). cbv zeta. set (kids := map (fun p => (fst p, kid_conv a path (fst p) (snd p))) l) in *.
  assert (Ek : map (fun p => (fst p, kid_conv a path (fst p) (snd p))) kids = kids).
  { unfold kids. rewrite map_map. apply map_ext_in. intros [n x] Hin. cbn [fst snd]. f_equal. unfold kid_conv.
    destruct (mems (join path n) (a_ex a)); [reflexivity|]. apply (IH n x Hin). exact (Mk _ _ Hin). }
  destruct (mems path (a_ex a)) eqn:Ex; [rewrite (convert_unfold a path i _ t kids ND); cbv zeta; rewrite Ex, Ek; reflexivity|].
  destruct (klass_eqb c Sequential) eqn:Es.
  - destruct (a_seq a) eqn:Eq; rewrite (convert_unfold a path _ _ _ kids ND); cbv zeta; rewrite Ex, Ek; [reflexivity|]. rewrite Es, Eq. reflexivity.
  - destruct (a_map a c) eqn:Em; [apply convert_layer_again|]. rewrite (convert_unfold a path _ _ _ kids ND); cbv zeta; rewrite Ex, Ek, Es, Em. reflexivity.
Qed.
Theorem C117_idempotent a ensure reg reg' name (m : md) : model a m ->
  let m' := fst (convert_to_analog a ensure reg name m) in fst (convert_to_analog a ensure reg' name m') = m'.
Proof.
  intros M. cbv zeta. pose proof (convert_twice a m M name) as T. unfold convert_to_analog. cbv zeta.
  destruct (ensure && String.eqb name "" && negb (is_analog_layer (kind_of (convert a name m)))) eqn:B; cbn [fst].
  2:{ rewrite T, B. reflexivity. }
  apply andb_true_iff in B. destruct B as [B B3]. rewrite B. cbn [andb]. apply andb_true_iff in B. destruct B as [_ B2]. apply String.eqb_eq in B2. subst name.
  destruct m as [i k t l]. destruct (model_inv _ _ _ _ _ M) as (N & U & _ & (c & w & ->) & Lv & Mk). pose proof (kids_nodup a "" _ _ _ _ M) as ND.
  rewrite (convert_unfold a "" i _ t l U) in *. cbv zeta in *. set (kids := map (fun p => (fst p, kid_conv a "" (fst p) (snd p))) l) in *.
  assert (Ek : map (fun p => (fst p, kid_conv a "" (fst p) (snd p))) kids = kids).
  { unfold kids. rewrite map_map. apply map_ext_in. intros [n x] Hin. cbn [fst snd]. f_equal. unfold kid_conv.
    destruct (mems (join "" n) (a_ex a)); [reflexivity|]. apply convert_twice. exact (Mk _ _ Hin). }
  assert (G : forall cc : klass, convert a "" (Md (Made "" 0) (Wrapped cc w) t kids) = Md (Made "" 0) (Wrapped cc w) t kids).
  { intros cc. rewrite (convert_unfold a "" _ _ _ kids ND); cbv zeta; rewrite Ek. destruct (mems "" (a_ex a)); reflexivity. }
  destruct (mems "" (a_ex a)); [|destruct (klass_eqb c Sequential); [destruct (a_seq a); [discriminate|]|destruct (a_map a c); [discriminate|]]];
    unfold wrap; cbn [kind_of kids_of mode_of]; destruct (lookup (k_name c) reg); cbn [fst]; rewrite G; reflexivity.
Qed.

(** ** C118: converting back gives the digital model *)
Lemma same_refl (m : md) : same m m.
Proof.
  induction m as [i k t l IH] using md_induction. constructor. induction l as [|[n c] r IHl]; constructor; [split; [reflexivity|apply (IH n c); left; reflexivity]|].
  apply IHl. intros; eapply IH; right; eauto.
Qed.
(** a digital model is left alone *)
Lemma to_digital_digital w0 s q (m : md) : every (fun x => unrepeated x /\ digital x) m -> forall path, to_digital w0 s q path m = m.
Proof.
  induction m as [i k t l IH] using md_induction. intros E path. apply every_inv in E. destruct E as [[U (c & w & Ek)] E]. cbn [kind_of] in Ek. subst k.
  cbn [to_digital]. cbv zeta. f_equal. unfold unrepeated in U; cbn [kids_of] in U. rewrite map_kids_nil by exact U. rewrite <- (map_id l) at 2. apply map_ext_in.
  intros [n x] Hin. cbn [fst snd]. f_equal. rewrite (IH n x Hin (E n x Hin)). destruct x as [ix kx tx lx]. destruct (E n _ Hin) as [? ? ? ? [_ (c' & w' & Ec)] _]. cbn in *. subst.
  destruct kids; reflexivity.
Qed.
Definition dig_kid (w0 : W) (s : klass -> bool) (q : bool) (path n : string) (c : md) : md :=
  match kids_of c, kind_of c with [], Wrapped _ _ => c | _, _ => to_digital w0 s q (join path n) c end.
Definition no_params (w0 : W) (x : md) : Prop := forall w, kind_of x = Dig Sequential w -> w = w0.
Lemma convert_not_wrapped a path (m : md) : model a m -> forall c w, kind_of (convert a path m) <> Wrapped c w.
Proof.
  destruct m as [i k t l]. intros M c w. destruct (model_inv _ _ _ _ _ M) as (N & U & _ & (c' & w' & ->) & Lv & Mk). rewrite (convert_unfold a path i _ t l U). cbv zeta.
  destruct (mems path (a_ex a)); [discriminate|]. destruct (klass_eqb c' Sequential); [destruct (a_seq a); discriminate|destruct (a_map a c'); discriminate].
Qed.
Lemma round_trip a w0 s q (m : md) : (forall c, a_map a c = true -> s c = true) -> (a_seq a = true -> q = true) ->
  model a m -> every (no_params w0) m -> forall path path', same (to_digital w0 s q path' (convert a path m)) m.
Proof.
  intros Hs Hq. induction m as [i k t l IH] using md_induction. intros M Np path path'. destruct (model_inv _ _ _ _ _ M) as (N & U & _ & (c & w & ->) & Lv & Mk).
  pose proof (kids_nodup a path _ _ _ _ M) as ND. rewrite (convert_unfold a path i _ t l U). cbv zeta. set (kids := map (fun p => (fst p, kid_conv a path (fst p) (snd p))) l) in *. apply every_inv in Np. destruct Np as [Np1 Np2].
  assert (Ek : forall d, Forall2 (fun p r : string * md => fst p = fst r /\ same (snd p) (snd r)) (map_kids (fun n x => dig_kid w0 s q path' n x) d [] kids) l).
  { intros d. rewrite map_kids_nil by exact ND. unfold kids. rewrite map_map. cbn [fst snd]. clear - IH Mk Np2. induction l as [|[n x] r IHl]; [constructor|]. constructor.
    - cbn [fst snd]. split; [reflexivity|]. unfold kid_conv, dig_kid. assert (Hin : List.In (n, x) ((n, x) :: r)) by (left; reflexivity). destruct (mems (join path n) (a_ex a)).
      + assert (F : to_digital w0 s q (join path' n) x = x).
        { apply to_digital_digital. eapply every_impl; [|exact (Mk _ _ Hin)]. intros y (_ & Hu & _ & Hd & _). auto. }
        rewrite F. destruct (kids_of x); [destruct (kind_of x)|]; apply same_refl.
      + pose proof (convert_not_wrapped a (join path n) x (Mk _ _ Hin)) as Nw. pose proof (IH n x Hin (Mk _ _ Hin) (Np2 _ _ Hin) (join path n) (join path' n)) as R.
        destruct (kids_of (convert a (join path n) x)); [destruct (kind_of (convert a (join path n) x)) eqn:E; try exact R; exfalso; eapply Nw; reflexivity|exact R].
    - apply IHl; [intros n0 c0 H0; exact (IH n0 c0 (or_intror H0))|intros n0 c0 H0; exact (Np2 n0 c0 (or_intror H0))|intros n0 c0 H0; exact (Mk n0 c0 (or_intror H0))]. }
  fold (dig_kid w0 s q) in *.
  assert (Gd : forall i' t', same (to_digital w0 s q path' (Md i' (Dig c w) t' kids)) (Md i (Dig c w) t l)).
  { intros. cbn [to_digital]. cbv zeta. constructor. exact (Ek false). }
  destruct (mems path (a_ex a)); [apply Gd|]. destruct (klass_eqb c Sequential) eqn:Es.
  - destruct (a_seq a) eqn:Eq; [|apply Gd]. specialize (Hq eq_refl). subst q. cbn [to_digital]. apply klass_eqb_true in Es. subst c.
    rewrite (Np1 w eq_refl). constructor. exact (Ek true).
  - destruct (a_map a c) eqn:Em; [|apply Gd]. cbn [to_digital tile_weights lookup]. rewrite (Hs c Em). cbn.
    rewrite (Lv c w eq_refl Es Em). constructor. constructor.
Qed.
(** the model is the same again: classes, parameters (the weights come back from the tiles) and names of all submodules;
    objects and training flags may differ *)
Theorem C118_round_trip a w0 s q ensure reg name path' (m : md) :
  (forall c, a_map a c = true -> s c = true) -> (a_seq a = true -> q = true) -> model a m -> every (no_params w0) m -> agrees reg m ->
  same (to_digital w0 s q path' (fst (convert_to_analog a ensure reg name m))) m.
Proof.
  intros Hs Hq M Np Ag. pose proof (round_trip a w0 s q m Hs Hq M Np name path') as R. unfold convert_to_analog. cbv zeta. destruct (ensure && _ && _) eqn:B; cbn [fst]; [|exact R].
  apply andb_true_iff in B. destruct B as [B B3]. destruct m as [i k t l]. destruct (model_inv _ _ _ _ _ M) as (N & U & _ & (c & w & ->) & Lv & Mk).
  unfold agrees in Ag; cbn [kind_of] in Ag. rewrite (convert_unfold a name i _ t l U) in *. cbv zeta in *. set (kids := map (fun p => (fst p, kid_conv a name (fst p) (snd p))) l) in *.
  assert (G : same (to_digital w0 s q path' (Md i (Dig c w) t kids)) (Md i (Dig c w) t l) ->
    same (to_digital w0 s q path' (fst (wrap reg (Md i (Dig c w) t kids)))) (Md i (Dig c w) t l)).
  { intros H. unfold wrap. cbn [kind_of kids_of mode_of]. cbn [to_digital] in H. cbv zeta in H. inversion H; subst. destruct Ag as [-> | ->]; cbn [fst to_digital]; constructor; assumption. }
  destruct (mems name (a_ex a)); [apply G; exact R|]. destruct (klass_eqb c Sequential); [destruct (a_seq a); [discriminate|apply G; exact R]|]. destruct (a_map a c); [discriminate|apply G; exact R].
Qed.

(** ** C119: the classes of wrapped models, for any history of conversions *)
Fixpoint wrap_all (reg : registry) (ms : list md) : list md * registry :=
  match ms with
  | [] => ([], reg)
  | m :: r => let '(m', reg') := wrap reg m in let '(r', reg'') := wrap_all reg' r in (m' :: r', reg'')
  end.
Theorem C119_class_kept (ms : list md) :
  (forall x, List.In x ms -> digital x) ->
  (forall x y c d w v, List.In x ms -> List.In y ms -> kind_of x = Dig c w -> kind_of y = Dig d v -> k_name c = k_name d -> c = d) ->
  Forall2 (fun x y => forall c w, kind_of x = Dig c w -> kind_of y = Wrapped c w /\ kids_of y = kids_of x /\ mode_of y = mode_of x) ms (fst (wrap_all [] ms)).
Proof.
  intros Hd Hn.
  assert (G : forall pre reg, (forall n c, lookup n reg = Some c -> exists x w, List.In x pre /\ kind_of x = Dig c w /\ k_name c = n) ->
    (forall x y c d w v, List.In x (pre ++ ms) -> List.In y (pre ++ ms) -> kind_of x = Dig c w -> kind_of y = Dig d v -> k_name c = k_name d -> c = d) ->
    Forall2 (fun x y => forall c w, kind_of x = Dig c w -> kind_of y = Wrapped c w /\ kids_of y = kids_of x /\ mode_of y = mode_of x) ms (fst (wrap_all reg ms))).
  2:{ apply (G []); [cbn; discriminate|exact Hn]. }
  clear Hn. induction ms as [|m ms IH]; intros pre reg Hr Hn; [constructor|]. cbn [wrap_all].
  destruct (Hd m (or_introl eq_refl)) as (c & w & Ek).
  assert (Hd' : forall x, List.In x ms -> digital x) by (intros; apply Hd; right; auto).
  unfold wrap. rewrite Ek. destruct (lookup (k_name c) reg) as [c'|] eqn:L.
  - assert (c' = c). { destruct (Hr _ _ L) as (x & v & Hx & Ex & En). eapply (Hn x m); eauto; apply in_or_app; [left; exact Hx|right; left; reflexivity]. } subst c'.
    specialize (IH Hd' (pre ++ [m]) reg). destruct (wrap_all reg ms) as [r' reg'']. cbn [fst] in *. constructor.
    + intros c1 w1 E1. rewrite Ek in E1. injection E1 as <- <-. cbn. auto.
    + apply IH; [intros n d Hl; destruct (Hr _ _ Hl) as (x & v & Hx & H'); exists x, v; split; [apply in_or_app; auto|exact H']|]. rewrite <- app_assoc. exact Hn.
  - specialize (IH Hd' (pre ++ [m]) ((k_name c, c) :: reg)). destruct (wrap_all ((k_name c, c) :: reg) ms) as [r' reg'']. cbn [fst] in *. constructor.
    + intros c1 w1 E1. rewrite Ek in E1. injection E1 as <- <-. cbn. auto.
    + apply IH; [|rewrite <- app_assoc; exact Hn]. intros n d. cbn [lookup]. destruct (String.eqb_spec n (k_name c)).
      * intros [= <-]. exists m, w. split; [apply in_or_app; right; left; reflexivity|]. auto.
      * intros Hl. destruct (Hr _ _ Hl) as (x & v & Hx & H'); exists x, v; split; [apply in_or_app; auto|exact H'].
Qed.

(** ** C120: training mode.  A model in training mode stays in training mode. *)
Theorem C120_training a (m : md) : plain a m -> every (fun x => mode_of x = true) m -> forall path, every (fun x => mode_of x = true) (convert a path m).
Proof.
  induction m as [i k t l IH] using md_induction. intros P E path. apply every_inv in E. destruct E as [Et E]. cbn in Et. subst t.
  rewrite (convert_unfold a path i k true l (plain_nodup _ _ _ _ _ P)). cbv zeta. set (kids := map (fun p => (fst p, kid_conv a path (fst p) (snd p))) l).
  assert (Ek : forall n c, List.In (n, c) kids -> every (fun x => mode_of x = true) c).
  { intros n c Hin. unfold kids in Hin. apply in_map_iff in Hin. destruct Hin as ([n' c'] & [= <- <-] & Hin). unfold kid_conv. destruct (mems _ _); [exact (E _ _ Hin)|].
    apply (IH n' c' Hin); [exact (plain_kid _ _ _ _ _ _ _ P Hin)|exact (E _ _ Hin)]. }
  destruct (mems path (a_ex a)); [constructor; [reflexivity|exact Ek]|]. destruct k as [c w|c| |c w|cfg w]; try (constructor; [reflexivity|exact Ek]).
  destruct (klass_eqb c Sequential); [destruct (a_seq a); (constructor; [reflexivity|exact Ek])|]. destruct (a_map a c); [|constructor; [reflexivity|exact Ek]].
  constructor; [reflexivity|]. intros n x [[= <- <-]|[]]. apply every_leaf. reflexivity.
Qed.
End Props.

(** refuted: converting a converted model changes nothing, for a layer that is used twice in one parent.  The second use
    stays digital in the first run and gets a tile of its own in the second. *)
Definition tied : md nat unit :=
  Md (Obj 0) (Dig {| k_name := "Net"; k_id := 9 |} 0) true
    [("fc1"%string, Md (Obj 1) (Dig linear 5) true []); ("fc2"%string, Md (Obj 1) (Dig linear 5) true [])].
Theorem C117_repeated_child_refuted :
  let once := fst (convert_to_analog default_args true [] "" tied) in
  let twice := fst (convert_to_analog default_args true [] "" once) in
  option_map kind_of (at_path once ["fc2"%string]) = Some (Dig linear 5)
  /\ option_map kind_of (at_path twice ["fc2"%string]) = Some (ALayer linear).
Proof. split; reflexivity. Qed.
(** refuted: a layer used by two parents stays one layer.  It becomes two analog layers with different tiles: training no
    longer keeps their weights equal *)
Definition tied2 : md nat unit :=
  Md (Obj 0) (Dig {| k_name := "Net"; k_id := 9 |} 0) true
    [("a"%string, Md (Obj 2) (Dig Sequential 0) true [("0"%string, Md (Obj 1) (Dig linear 5) true [])]);
     ("b"%string, Md (Obj 3) (Dig Sequential 0) true [("0"%string, Md (Obj 1) (Dig linear 5) true [])])].
Theorem C120_tying_refuted :
  let t n := option_map id_of (at_path (fst (convert_to_analog default_args true [] "" tied2)) [n; "0"; "analog_module"]%string) in
  option_map id_of (at_path tied2 ["a"; "0"]%string) = option_map id_of (at_path tied2 ["b"; "0"]%string)
  /\ t "a"%string = Some (Made "a.0" 1) /\ t "b"%string = Some (Made "b.0" 1) /\ t "a"%string <> t "b"%string.
Proof. repeat split; try reflexivity. discriminate. Qed.
(** refuted: a model in evaluation mode stays in evaluation mode.  The new layers and tiles are in training mode, the wrapped
    root is not. *)
Definition net_eval : md nat unit :=
  Md (Obj 0) (Dig {| k_name := "Net"; k_id := 9 |} 0) false [("fc"%string, Md (Obj 1) (Dig linear 5) false [])].
Theorem C120_eval_refuted :
  let m := fst (convert_to_analog default_args true [] "" net_eval) in
  every (fun x => mode_of x = false) net_eval /\ mode_of m = false
  /\ option_map mode_of (at_path m ["fc"%string]) = Some true /\ option_map mode_of (at_path m ["fc"; "analog_module"]%string) = Some true.
Proof.
  cbv zeta. split; [|repeat split; reflexivity]. constructor; [reflexivity|]. intros n c [[= <- <-]|[]]. apply every_leaf. reflexivity.
Qed.
(** refuted: the class of a wrapped model is kept, whatever was wrapped before.  A model whose class has the name of an
    earlier one computes with the forward of the earlier class *)
Definition net1 : klass := {| k_name := "Net"; k_id := 20 |}.
Definition net2 : klass := {| k_name := "Net"; k_id := 21 |}.
Definition beh2 (c : klass) (w : nat) (fs : list (string * (nat -> nat))) (x : nat) : nat := if klass_eqb c net1 then x + 1 else x + 2.
Theorem C119_same_name_refuted :
  let m1 : md nat unit := Md (Obj 0) (Dig net1 0) true [] in let m2 : md nat unit := Md (Obj 1) (Dig net2 0) true [] in
  let '(_, reg) := convert_to_analog default_args true [] "" m1 in
  run beh2 m2 0 = 2 /\ run beh2 (fst (convert_to_analog default_args true reg "" m2)) 0 = 1.
Proof. split; reflexivity. Qed.

Example C118_nontrivial : model default_args two_layers /\ every (no_params 0) two_layers /\ agrees (W := nat) (C := unit) [] two_layers
  /\ same (to_digital 0 (fun c => klass_eqb c linear) true "" (fst (convert_to_analog default_args true [] "" two_layers))) two_layers.
Proof.
  assert (Np : every (no_params 0) two_layers).
  { unfold two_layers, no_params. constructor; [intros w [= <-]; reflexivity|]. intros n c [[= <- <-]|[[= <- <-]|[[= <- <-]|[]]]].
    - apply every_leaf. intros w [=].
    - apply every_leaf. intros w [=].
    - constructor; [intros w [=]|]. intros n c [[= <- <-]|[]]. apply every_leaf. intros w [=]. }
  split; [exact two_layers_model|]. split; [exact Np|]. split; [left; reflexivity|].
  apply C118_round_trip; auto using two_layers_model. left; reflexivity.
Qed.

Print Assumptions C117_idempotent.
Print Assumptions C118_round_trip.
Print Assumptions C119_class_kept.
Print Assumptions C120_training.
Print Assumptions C117_repeated_child_refuted.
Print Assumptions C120_tying_refuted.
Print Assumptions C120_eval_refuted.
Print Assumptions C119_same_name_refuted.
