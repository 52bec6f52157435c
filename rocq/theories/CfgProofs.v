(** * Lemmas on the conversion of devices *)
From Verif Require Import Prelude CfgModel CfgSpec CfgProps.
Local Open Scope string_scope.

Fixpoint dev_ind' (P : dev -> Prop) (HP : forall c o f t, P (Pulsed c o f t)) (HS : forall o f t, P (Simple o f t)) (HN : forall q o, P (Cell q o None))
  (HC : forall q o l, Forall P l -> P (Cell q o (Some l))) (HM : forall o d, P d -> P (Mixed o d)) (d : dev) : P d :=
  match d with
  | Pulsed c o f t => HP c o f t
  | Simple o f t => HS o f t
  | Cell q o None => HN q o
  | Cell q o (Some l) => HC q o l ((fix go (l : list dev) : Forall P l := match l with [] => Forall_nil _ | x :: r => @Forall_cons _ P x r (dev_ind' P HP HS HN HC HM x) (go r) end) l)
  | Mixed o x => HM o x (dev_ind' P HP HS HN HC HM x)
  end.
Section L.
  Context (k : core).
  Notation ab := (as_bindings k).
  Fixpoint seq (b : bval) (acc : list dbind) (l : list dev) : res (list dbind * list dev) :=
    match l with
    | [] => Ok (acc, [])
    | x :: r => y <- ab x ;; a <- append1 b any_pulsed acc (fst y) ;; z <- seq b a r ;; Ok (fst z, snd y :: snd z)
    end.
  Lemma ab_vector o l : ab (Cell KVector o (Some l)) = (b <- to_bindings k o ;; z <- seq b [] l ;; Ok (DCell KVector b (fst z), Cell KVector o (Some (snd z)))).
  Proof. reflexivity. Qed.
  Definition fits (b : bval) (z : dbind) : Prop := is_core b = true /\ is_core (own z) = true /\ pulsed_base z = true.
  Definition pair_ok (z z' : dbind) : Prop := match z, z' with DPulsed a _, DPulsed b _ => a = b | _, _ => False end.
  Lemma append1_inv b acc z a : append1 b any_pulsed acc z = Ok a <-> a = (acc ++ [z])%list /\ fits b z.
  Proof. unfold append1, fits, any_pulsed. destruct (is_core b); cbn [negb]; [|split; [discriminate | intuition congruence]]. destruct (is_core (own z)); cbn [negb]; [|split; [discriminate | intuition congruence]]. destruct (pulsed_base z); split; intros H; try discriminate; [injection H as <-; auto | destruct H as (-> & _); reflexivity | intuition congruence]. Qed.
  Lemma append_inv b l : forall acc a, append b any_pulsed acc l = Ok a <-> a = (acc ++ l)%list /\ Forall (fits b) l.
  Proof.
    induction l as [|z l IH]; intros acc a; cbn [append]; [rewrite app_nil_r; split; [intros H; injection H as <-; auto | intros (-> & _); reflexivity]|].
    destruct (append1 b any_pulsed acc z) as [a'|] eqn:E.
    - apply append1_inv in E as (-> & F). cbn [bind]. rewrite IH, <- app_assoc. cbn [app]. split; intros (E & G); (split; [exact E|]); [now constructor | now inversion G].
    - cbn [bind]. split; [discriminate|]. intros (_ & G). inversion G; subst. assert (X : append1 b any_pulsed acc z = Ok (acc ++ [z])%list) by (apply append1_inv; auto). congruence.
  Qed.
  Lemma one_sided_inv b z z' a : append b one_sided_takes [] [z; z'] = Ok a <-> a = [z; z'] /\ fits b z /\ fits b z' /\ pair_ok z z'.
  Proof.
    cbn [append]. unfold append1, fits. destruct (is_core b); cbn [negb]; [|split; [discriminate | intuition congruence]]. destruct (is_core (own z)); cbn [negb]; [|split; [discriminate | intuition congruence]]. destruct z as [c x|x|q x l|x d]; cbn [one_sided_takes bind app]; try (split; [discriminate | intros (_ & _ & _ & H); destruct z'; contradiction]).
    destruct (is_core (own z')); cbn [negb]; [|split; [discriminate | intuition congruence]]. destruct z' as [c' x'|x'|q' x' l'|x' d']; cbn [one_sided_takes bind app pair_ok pulsed_base]; try (split; [discriminate | intuition congruence]). destruct (String.eqb c' c) eqn:E.
    - apply String.eqb_eq in E. split; [intros H; injection H as <-; intuition | intros (-> & _); reflexivity].
    - apply String.eqb_neq in E. split; [discriminate | intuition congruence].
  Qed.
  Definition conv (l : list dev) (us : list (dbind * dev)) : Prop := Forall2 (fun x y => ab x = Ok y) l us.
  Lemma seq_inv b l : forall acc bs ds, seq b acc l = Ok (bs, ds) <-> exists us, conv l us /\ Forall (fits b) (map fst us) /\ bs = (acc ++ map fst us)%list /\ ds = map snd us.
  Proof.
    induction l as [|x l IH]; intros acc bs ds; cbn [seq].
    - split; [intros H; injection H as <- <-; exists []; repeat split; [constructor | constructor | now rewrite app_nil_r] | intros (us & C & _ & -> & ->); inversion C; subst; cbn [map]; now rewrite app_nil_r].
    - split.
      + intros H. destruct (ab x) as [y|] eqn:Ey; [|discriminate]. cbn [bind] in H. destruct (append1 b any_pulsed acc (fst y)) as [a|] eqn:Ea; [|discriminate]. cbn [bind] in H. apply append1_inv in Ea as (-> & F). destruct (seq b (acc ++ [fst y]) l) as [[bs' ds']|] eqn:Es; [|discriminate]. cbn [bind fst snd] in H. injection H as <- <-. apply IH in Es as (us & C & Fu & -> & ->). exists (y :: us). repeat split; [constructor; auto | constructor; auto | now rewrite <- app_assoc].
      + intros (us & C & F & -> & ->). inversion C as [|? y ? us' Hy C']; subst. inversion F; subst. rewrite Hy. cbn [bind]. assert (X : append1 b any_pulsed acc (fst y) = Ok (acc ++ [fst y])%list) by (apply append1_inv; auto). rewrite X. cbn [bind]. assert (Y : seq b (acc ++ [fst y]) l = Ok ((acc ++ [fst y]) ++ map fst us', map snd us')%list) by (apply IH; exists us'; auto). rewrite Y. cbn [bind fst snd map]. now rewrite <- app_assoc.
  Qed.
  (** the list of devices of the cell afterwards *)
  Definition after (q : kind) (l : list dev) (us : list (dbind * dev)) : list dev :=
    match q with KOneSided => firstn (length l) (map snd us) | KTransfer => (firstn 2 (map snd us) ++ skipn 2 l)%list | _ => map snd us end.
  Lemma conv_map_const y q (r : list dev) : ab y = Ok q -> conv (map (fun _ => y) r) (map (fun _ => q) r).
  Proof. intros H. induction r; cbn [map]; constructor; auto. Qed.
  Lemma conv_const_inv y q (r : list dev) us : ab y = Ok q -> conv (map (fun _ => y) r) us -> us = map (fun _ => q) r.
  Proof. intros H. revert us. induction r as [|z r IH]; intros us C; inversion C; subst; cbn [map]; [reflexivity|]. f_equal; [congruence | auto]. Qed.
  Lemma repeat_const {A B} (a : A) (r : list B) : repeat a (length r) = map (fun _ => a) r.
  Proof. induction r; cbn; congruence. Qed.
  Theorem cell_iff q o l z d' : ab (Cell q o (Some l)) = Ok (z, d') <->
    exists b u us, to_bindings k o = Ok b /\ used q l = Some u /\ conv u us /\ Forall (fits b) (map fst us) /\ (q = KOneSided -> forall a c, map fst us = [a; c] -> pair_ok a c) /\
      z = DCell q b (map fst us) /\ d' = Cell q o (Some (after q l us)).
  Proof.
    split.
    - intros H. destruct q.
      + rewrite ab_vector in H. destruct (to_bindings k o) as [b|] eqn:Eb; [|discriminate]. cbn [bind] in H. destruct (seq b [] l) as [[bs ds]|] eqn:Es; [|discriminate]. cbn [bind fst snd] in H. injection H as <- <-. apply seq_inv in Es as (us & C & F & -> & ->). exists b, l, us. repeat split; auto; discriminate.
      + destruct l as [|x [|y r]]; cbn [as_bindings] in H; (destruct (to_bindings k o) as [b|] eqn:Eb; [|discriminate]); cbn [bind] in H; [discriminate| |].
        * destruct (ab x) as [p|] eqn:Ex; [|discriminate]. cbn [bind] in H. destruct (append b any_pulsed [] [fst p; fst p]) as [bs|] eqn:Ea; [|discriminate]. cbn [bind] in H. injection H as <- <-. apply append_inv in Ea as (-> & F). exists b, [x; x], [p; p]. repeat split; auto; try discriminate. repeat constructor; auto.
        * destruct (ab x) as [p|] eqn:Ex; [|discriminate]. cbn [bind] in H. destruct (append1 b any_pulsed [] (fst p)) as [a|] eqn:Ea; [|discriminate]. cbn [bind] in H. destruct (ab y) as [p'|] eqn:Ey; [|discriminate]. cbn [bind] in H. destruct (append1 b any_pulsed a (fst p')) as [a'|] eqn:Ea'; [|discriminate]. cbn [bind] in H. injection H as <- <-. apply append1_inv in Ea as (-> & F). apply append1_inv in Ea' as (-> & F'). exists b, [x; y], [p; p']. repeat split; auto; try discriminate; repeat constructor; auto; first [apply F | apply F'].
      + destruct l as [|x [|y [|w r]]]; cbn [as_bindings] in H; (destruct (to_bindings k o) as [b|] eqn:Eb; [|discriminate]); cbn [bind] in H; [discriminate|..]; (destruct (ab x) as [p|] eqn:Ex; [|discriminate]); cbn [bind] in H; [| |discriminate].
        * destruct (append b one_sided_takes [] [fst p; fst p]) as [bs|] eqn:Ea; [|discriminate]. cbn [bind] in H. injection H as <- <-. apply one_sided_inv in Ea as (-> & F & _ & Q). exists b, [x; x], [p; p]. repeat split; auto; [repeat constructor; auto | repeat constructor; auto; apply F |]. intros _ a c E. injection E as <- <-. exact Q.
        * destruct (ab y) as [p'|] eqn:Ey; [|discriminate]. cbn [bind] in H. destruct (append b one_sided_takes [] [fst p; fst p']) as [bs|] eqn:Ea; [|discriminate]. cbn [bind] in H. injection H as <- <-. apply one_sided_inv in Ea as (-> & F & F' & Q). exists b, [x; y], [p; p']. repeat split; auto; [repeat constructor; auto | repeat constructor; auto; first [apply F | apply F'] |]. intros _ a c E. injection E as <- <-. exact Q.
      + destruct l as [|x [|y r]]; cbn [as_bindings] in H; (destruct (to_bindings k o) as [b|] eqn:Eb; [|discriminate]); cbn [bind] in H; [discriminate| |]; (destruct (ab x) as [p|] eqn:Ex; [|discriminate]); cbn [bind] in H; [discriminate|]. destruct (ab y) as [p'|] eqn:Ey; [|discriminate]. cbn [bind] in H. destruct (append b any_pulsed [] (fst p :: repeat (fst p') (length (x :: y :: r) - 1))) as [bs|] eqn:Ea; [|discriminate]. cbn [bind] in H. injection H as <- <-. apply append_inv in Ea as (-> & F). replace (length (x :: y :: r) - 1)%nat with (S (length r)) in * by (cbn [length]; lia). cbn [repeat] in *. rewrite repeat_const in *.
        exists b, (x :: y :: map (fun _ => y) r), (p :: p' :: map (fun _ => p') r). cbn [map]. rewrite map_map. repeat split; auto; [|discriminate]. constructor; auto. constructor; auto. now apply conv_map_const.
      + destruct l as [|x [|y [|w r]]]; cbn [as_bindings] in H; try discriminate. destruct (to_bindings k o) as [b|] eqn:Eb; [|discriminate]. cbn [bind] in H. destruct (ab x) as [p|] eqn:Ex; [|discriminate]. cbn [bind] in H. destruct (ab y) as [p'|] eqn:Ey; [|discriminate]. cbn [bind] in H. destruct (append b any_pulsed [] [fst p; fst p']) as [bs|] eqn:Ea; [|discriminate]. cbn [bind] in H. injection H as <- <-. apply append_inv in Ea as (-> & F). exists b, [x; y], [p; p']. repeat split; auto; [repeat constructor; auto | discriminate].
    - intros (b & u & us & Eb & Eu & C & F & Q & -> & ->). destruct q.
      + injection Eu as <-. rewrite ab_vector, Eb. cbn [bind]. assert (X : seq b [] l = Ok (map fst us, map snd us)) by (apply seq_inv; exists us; auto). rewrite X. reflexivity.
      + destruct l as [|x [|y r]]; cbn [used] in Eu; [discriminate|..]; injection Eu as <-; inversion C as [|? p ? us' Hp C']; subst; inversion C' as [|? p' ? us'' Hp' C'']; subst; inversion C''; subst; cbn [as_bindings]; rewrite Eb; cbn [bind]; rewrite Hp; cbn [bind].
        * assert (p' = p) by congruence; subst p'. cbn [map] in F. assert (X : append b any_pulsed [] [fst p; fst p] = Ok [fst p; fst p]) by (apply append_inv; auto). rewrite X. reflexivity.
        * cbn [map] in F. inversion F as [|? ? F1 F2]; subst. inversion F2 as [|? ? F3 _]; subst. assert (X : append1 b any_pulsed [] (fst p) = Ok [fst p]) by (apply append1_inv; auto). rewrite X. cbn [bind]. rewrite Hp'. cbn [bind]. assert (Y : append1 b any_pulsed [fst p] (fst p') = Ok [fst p; fst p']) by (apply append1_inv; auto). rewrite Y. reflexivity.
      + destruct l as [|x [|y [|w r]]]; cbn [used] in Eu; try discriminate; injection Eu as <-; inversion C as [|? p ? us' Hp C']; subst; inversion C' as [|? p' ? us'' Hp' C'']; subst; inversion C''; subst; cbn [as_bindings]; rewrite Eb; cbn [bind]; rewrite Hp; cbn [bind]; specialize (Q eq_refl _ _ eq_refl); cbn [map] in F; inversion F as [|? ? F1 F2]; subst; inversion F2 as [|? ? F3 _]; subst.
        * assert (p' = p) by congruence; subst p'. assert (X : append b one_sided_takes [] [fst p; fst p] = Ok [fst p; fst p]) by (apply one_sided_inv; auto). rewrite X. reflexivity.
        * rewrite Hp'. cbn [bind]. assert (X : append b one_sided_takes [] [fst p; fst p'] = Ok [fst p; fst p']) by (apply one_sided_inv; auto). rewrite X. reflexivity.
      + destruct l as [|x [|y r]]; cbn [used] in Eu; try discriminate. injection Eu as <-. inversion C as [|? p ? us' Hp C']; subst. inversion C' as [|? p' ? us'' Hp' C'']; subst. apply (conv_const_inv _ _ _ _ Hp') in C''. subst us''. cbn [as_bindings]. rewrite Eb. cbn [bind]. rewrite Hp. cbn [bind]. rewrite Hp'. cbn [bind]. replace (length (x :: y :: r) - 1)%nat with (S (length r)) by (cbn [length]; lia). cbn [repeat]. rewrite repeat_const. cbn [map] in F |- *. rewrite map_map in F |- *. assert (X : append b any_pulsed [] (fst p :: fst p' :: map (fun _ => fst p') r) = Ok (fst p :: fst p' :: map (fun _ => fst p') r)) by (apply append_inv; auto). rewrite X. reflexivity.
      + destruct l as [|x [|y [|w r]]]; cbn [used] in Eu; try discriminate. injection Eu as <-. inversion C as [|? p ? us' Hp C']; subst. inversion C' as [|? p' ? us'' Hp' C'']; subst. inversion C''; subst. cbn [as_bindings]. rewrite Eb. cbn [bind]. rewrite Hp. cbn [bind]. rewrite Hp'. cbn [bind]. assert (X : append b any_pulsed [] [fst p; fst p'] = Ok [fst p; fst p']) by (apply append_inv; auto). rewrite X. reflexivity.
  Qed.
  Definition pars (d : dev) : obj := match d with Pulsed _ o _ _ | Simple o _ _ | Cell _ o _ | Mixed o _ => o end.
  Lemma ab_shape d z d' : ab d = Ok (z, d') -> to_bindings k (pars d) = Ok (own z) /\ (pulsed_base z = true <-> pulsed d) /\
    (match z with DPulsed c _ => match d with Pulsed c' _ _ _ => c = c' | _ => False end | _ => ~ single d end).
  Proof.
    destruct d as [c o f t|o f t|q o [l|]|o x]; intros H.
    - cbn [as_bindings] in H. destruct (to_bindings k o) as [b|] eqn:Eb; [|discriminate]. injection H as <- <-. cbn. tauto.
    - cbn [as_bindings] in H. destruct (to_bindings k o) as [b|] eqn:Eb; [|discriminate]. injection H as <- <-. cbn. intuition congruence.
    - apply cell_iff in H as (b & u & us & Eb & _ & _ & _ & _ & -> & _). cbn. tauto.
    - destruct q; cbn [as_bindings] in H; try discriminate; destruct (to_bindings k o); discriminate.
    - cbn [as_bindings] in H. destruct (to_bindings k o) as [b|] eqn:Eb; [|discriminate]. cbn [bind] in H. destruct (ab x) as [p|]; [|discriminate]. cbn [bind] in H. destruct (append1 _ _ _ _); [|discriminate]. injection H as <- <-. cbn. intuition congruence.
  Qed.
  Lemma tb_shape o b : to_bindings k o = Ok b -> (exists c a, b = BObj c a) \/ b = BParams o.
  Proof. destruct o as [c fs ex]. rewrite to_bindings_eq. destruct (pc_bind c) as [b'|]; [|intros H; injection H as <-; now right]. destruct (negb (co_class k b')); [intros H; injection H as <-; now right|]. destruct (negb _); [discriminate|]. destruct (conv_fields k c b' fs); [|discriminate]. intros H. injection H as <-. left. eauto. Qed.
  Lemma known_iff d b : to_bindings k (pars d) = Ok b -> (is_core b = true <-> known k d).
  Proof. intros E. assert (K : known k d <-> exists cls attrs, to_bindings k (pars d) = Ok (BObj cls attrs)) by (destruct d; reflexivity). rewrite K. destruct (tb_shape _ _ E) as [(c & a & ->)| ->]; cbn; split; eauto; [discriminate|]. intros (c & a & E'). rewrite E in E'. discriminate. Qed.
End L.
