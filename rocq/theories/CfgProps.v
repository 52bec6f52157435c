(** * Conversion of configurations (C185, C186) *)
From Verif Require Import Prelude CfgModel CfgSpec.
Local Open Scope string_scope.

Lemma mem_In s l : mem s l = true <-> In s l.
Proof. unfold mem. rewrite existsb_exists. split; [intros (x & Hx & E); apply String.eqb_eq in E; now subst | intros H; exists s; split; [exact H | apply String.eqb_refl]]. Qed.
Lemma skipped_iff c n : skipped c n = true <-> ignored c n.
Proof. unfold skipped, ignored. rewrite !orb_true_iff, !String.eqb_eq, mem_In. tauto. Qed.
Lemma skipped_no c n : skipped c n = false <-> ~ ignored c n.
Proof. rewrite <- skipped_iff. destruct (skipped c n); intuition congruence. Qed.
Definition under (P : obj -> Prop) (f : string * pty * pval) : Prop := match snd f with VObj o => P o | _ => True end.
Fixpoint obj_ind' (P : obj -> Prop) (H : forall c fs ex, Forall (under P) fs -> P (Obj c fs ex)) (o : obj) : P o :=
  match o with
  | Obj c fs ex => H c fs ex ((fix go (fs : list (string * pty * pval)) : Forall (under P) fs :=
      match fs with
      | [] => Forall_nil _
      | (n, t, v) :: r => @Forall_cons _ (under P) (n, t, v) r (match v as v return under P (n, t, v) with VObj o' => obj_ind' P H o' | _ => I end) (go r)
      end) fs)
  end.
(** one field *)
Definition conv_field (k : core) (b n : string) (t : pty) (v : pval) : res (list (string * bval)) :=
  match v with
  | VEnum e m => if co_enum k e m then y <- set_attr k b n (BEnum e m) ;; Ok [y] else Raise AttributeError
  | VObj (Obj c' _ _ as o') => match pc_bind c' with None => Ok [] | Some _ => z <- to_bindings k o' ;; y <- set_attr k b n z ;; Ok [y] end
  | _ => match has_type t v with None => Raise TypeError | Some false => Raise ConfigError | Some true => y <- set_attr k b n (BPlain v) ;; Ok [y] end
  end.
Fixpoint conv_fields (k : core) (c : pclass) (b : string) (fs : list (string * pty * pval)) : res (list (string * bval)) :=
  match fs with
  | [] => Ok []
  | (n, t, v) :: r => if skipped c n then conv_fields k c b r else x <- conv_field k b n t v ;; l <- conv_fields k c b r ;; Ok (x ++ l)%list
  end.
Lemma to_bindings_eq k c fs ex : to_bindings k (Obj c fs ex) =
  match pc_bind c with
  | None => Ok (BParams (Obj c fs ex))
  | Some b => if negb (co_class k b) then Ok (BParams (Obj c fs ex)) else if negb (forallb (fun n => mem n (pc_ignore c)) ex) then Raise ConfigError
              else a <- conv_fields k c b fs ;; Ok (BObj b a)
  end.
Proof.
  cbn [to_bindings]. destruct (pc_bind c) as [b|]; [|reflexivity]. destruct (negb (co_class k b)); [reflexivity|]. destruct (negb _); [reflexivity|]. f_equal.
  induction fs as [|[[n t] v] r IH]; [reflexivity|]. cbn [conv_fields]. destruct (skipped c n); [exact IH|]. rewrite IH. destruct v; try reflexivity.
Qed.
Lemma type_ok t v : has_type t v = Some true <-> typed t v.
Proof. split; [destruct t, v; cbn; intros H; try discriminate; constructor | intros []; reflexivity]. Qed.
Lemma set_attr_ok k b n v p : set_attr k b n v = Ok p -> p = (n, v) /\ co_attr k b n = true /\ co_takes k b n v = true.
Proof. unfold set_attr. destruct (co_attr k b n); [|discriminate]. destruct (co_takes k b n v); [|discriminate]. intros H. injection H as <-. auto. Qed.
Lemma conv_field_inv k b n t v x : typed_core k -> conv_field k b n t v = Ok x ->
  (x = [] /\ no_core_class v) \/
  (exists z, x = [(n, z)] /\ co_attr k b n = true /\ co_takes k b n z = true /\
     ((~ not_plain v /\ typed t v /\ z = BPlain v) \/ (exists e m, v = VEnum e m /\ z = BEnum e m /\ co_enum k e m = true) \/
      (exists o cls l, v = VObj o /\ to_bindings k o = Ok z /\ z = BObj cls l))).
Proof.
  intros Tc H. assert (Pl : forall w, ~ not_plain w -> match has_type t w with None => Raise TypeError | Some false => Raise ConfigError | Some true => y <- set_attr k b n (BPlain w) ;; Ok [y] end = Ok x ->
    exists z, x = [(n, z)] /\ co_attr k b n = true /\ co_takes k b n z = true /\ (~ not_plain w /\ typed t w /\ z = BPlain w)).
  { intros w Hw E. destruct (has_type t w) as [[|]|] eqn:Ht; [|discriminate|discriminate]. destruct (set_attr k b n (BPlain w)) as [y|] eqn:Es; [|discriminate]. cbn [bind] in E. injection E as <-. apply set_attr_ok in Es as (-> & A1 & A2). exists (BPlain w). repeat split; auto. now apply type_ok. }
  destruct v as [z|b0|r|s| |l|e m|o]; try (match type of H with conv_field _ _ _ _ ?w = _ => destruct (Pl w (fun f : False => f) H) as (z' & Hz) end; right; exists z'; tauto).
  - cbn [conv_field] in H. destruct (co_enum k e m) eqn:Ee; [|discriminate]. destruct (set_attr k b n (BEnum e m)) as [y|] eqn:Es; [|discriminate]. cbn [bind] in H. injection H as <-. apply set_attr_ok in Es as (-> & A1 & A2). right. exists (BEnum e m). repeat split; auto. right. left. eauto.
  - destruct o as [c' fs' ex']. unfold conv_field in H. destruct (pc_bind c') as [b'|] eqn:Eb; [|injection H as <-; left; split; [reflexivity | exact Eb]]. fold (to_bindings k (Obj c' fs' ex')) in H. destruct (to_bindings k (Obj c' fs' ex')) as [z|] eqn:Et; [|discriminate H]. cbn [bind] in H. destruct (set_attr k b n z) as [y|] eqn:Es; [|discriminate]. cbn [bind] in H. injection H as <-. apply set_attr_ok in Es as (-> & A1 & A2). right. exists z. repeat split; auto. right. right.
    rewrite to_bindings_eq, Eb in Et. destruct (negb (co_class k b')) eqn:Ec; [injection Et as <-; rewrite Tc in A2; discriminate|]. destruct (negb (forallb (fun n0 => mem n0 (pc_ignore c')) ex')) eqn:Ef; [discriminate Et|]. destruct (conv_fields k c' b' fs') as [a|] eqn:Ea; [|cbn [bind] in Et; discriminate Et]. cbn [bind] in Et. injection Et as <-. exists (Obj c' fs' ex'), b', a. split; [reflexivity|]. split; [|reflexivity]. rewrite to_bindings_eq, Eb, Ec, Ef, Ea. reflexivity.
Qed.

(** C185: whatever is handed to the core is the image of the parameters, no attribute is misspelled, and all values are of
    the declared types *)
Theorem C185_faithful k o cls attrs : typed_core k -> to_bindings k o = Ok (BObj cls attrs) -> image o (BObj cls attrs) /\ clean o /\ supported k (BObj cls attrs).
Proof.
  intros Tc. revert cls attrs. induction o as [c fs ex IH] using obj_ind'. intros cls attrs H. rewrite to_bindings_eq in H. destruct (pc_bind c) as [b|] eqn:Eb; [|discriminate]. destruct (negb (co_class k b)) eqn:Ec; [discriminate|]. apply negb_false_iff in Ec. destruct (negb _) eqn:Ef; [discriminate|]. apply negb_false_iff in Ef. destruct (conv_fields k c b fs) as [a|] eqn:Ea; [|discriminate]. cbn [bind] in H. injection H as <- <-.
  assert (G : images c fs a /\ (forall n t o, In (n, t, VObj o) fs -> ~ ignored c n -> ~ no_core_class (VObj o) -> clean o) /\ (forall n v, In (n, v) a -> co_attr k b n = true /\ co_takes k b n v = true /\ supported k v)).
  { clear Ef. revert a Ea. induction fs as [|[[n t] v] r IHr]; intros a Ea; [injection Ea as <-; repeat split; [constructor | intros ? ? ? [] | contradiction..]|]. inversion IH as [|? ? Hv Hr]; subst. unfold under in Hv. cbn [snd] in Hv. cbn [conv_fields] in Ea. destruct (skipped c n) eqn:Es.
    - apply skipped_iff in Es. destruct (IHr Hr a Ea) as (I1 & I2 & I3). split; [apply im_skip; auto|]. split; [|exact I3]. intros n' t' o' [E|Hin] Ni; [injection E as -> -> ->; contradiction | eauto].
    - apply skipped_no in Es. destruct (conv_field k b n t v) as [x|] eqn:Ex; [|discriminate]. cbn [bind] in Ea. destruct (conv_fields k c b r) as [l|] eqn:El; [|discriminate]. cbn [bind] in Ea. injection Ea as <-. destruct (IHr Hr l eq_refl) as (I1 & I2 & I3). apply conv_field_inv in Ex; [|exact Tc]. destruct Ex as [(-> & Nc)|(z & -> & A1 & A2 & Q)].
      + cbn [app]. split; [apply im_skip; auto|]. split; [|exact I3]. intros n' t' o' [E|Hin] Ni Nn; [injection E as -> -> ->; contradiction | eauto].
      + cbn [app]. destruct Q as [(Np & Ty & ->)|[(e & m & -> & -> & Ee)|(o' & cl & l' & -> & Et & ->)]].
        * split; [apply im_plain; auto|]. split; [intros n' t' o' [E|Hin]; [injection E as -> -> ->; exfalso; apply Np; exact I | eauto]|]. intros n' v' [E|Hin]; [injection E as <- <-; repeat split; auto; constructor | eauto].
        * split; [apply im_enum; auto|]. split; [intros n' t' o' [E|Hin]; [discriminate | eauto]|]. intros n' v' [E|Hin]; [injection E as <- <-; repeat split; auto; constructor; auto | eauto].
        * destruct (Hv _ _ Et) as (J1 & J2 & J3). split; [apply im_obj; auto|]. split; [intros n' t' o'' [E|Hin]; [injection E as -> -> ->; intros; exact J2 | eauto]|]. intros n' v' [E|Hin]; [injection E as <- <-; auto | eauto]. }
  destruct G as (G1 & G2 & G3). split; [now apply image_obj|]. split; [|constructor; auto]. constructor; [|exact G2]. intros n Hn. rewrite forallb_forall in Ef. specialize (Ef n Hn). now apply mem_In.
Qed.
(** ... and everything that has an image that the core supports, and no misspelled attribute, is converted to it *)
Theorem C185_complete k o z : image o z -> clean o -> supported k z -> to_bindings k o = Ok z.
Proof.
  intros H. revert H. apply (image_mut (fun o z _ => clean o -> supported k z -> to_bindings k o = Ok z)
    (fun c fs l _ => forall b, (forall n t o, In (n, t, VObj o) fs -> ~ ignored c n -> ~ no_core_class (VObj o) -> clean o) -> (forall n v, In (n, v) l -> co_attr k b n = true /\ co_takes k b n v = true /\ supported k v) -> conv_fields k c b fs = Ok l)).
  - intros c b fs ex attrs Eb I IH Cl Su. inversion Cl as [? ? ? C1 C2]; subst. inversion Su as [| |? ? S1 S2]; subst. rewrite to_bindings_eq, Eb, S1. cbn [negb]. replace (forallb (fun n => mem n (pc_ignore c)) ex) with true; [cbn [negb]; rewrite (IH b C2 S2); reflexivity|]. symmetry. apply forallb_forall. intros n Hn. apply mem_In. auto.
  - intros. reflexivity.
  - intros c n t v r l [Hi|Hn] I IH b C S; cbn [conv_fields].
    + apply skipped_iff in Hi. rewrite Hi. apply IH; [|exact S]. intros n' t' o' Hin. apply (C n' t' o'). now right.
    + destruct (skipped c n) eqn:Es; [apply IH; [|exact S]; intros n' t' o' Hin; apply (C n' t' o'); now right|]. destruct v as [| | | | | | |[c' fs' ex']]; try contradiction. cbn [no_core_class] in Hn. cbn [conv_field]. rewrite Hn. cbn [bind]. rewrite (IH b); [reflexivity| |exact S]. intros n' t' o' Hin. apply (C n' t' o'). now right.
  - intros c n t v r l Ni Np Ty I IH b C S; cbn [conv_fields]. apply skipped_no in Ni. rewrite Ni. destruct (S n (BPlain v)) as (A1 & A2 & _); [now left|]. assert (E : conv_field k b n t v = Ok [(n, BPlain v)]). { apply type_ok in Ty. destruct v; cbn [conv_field]; try (rewrite Ty; unfold set_attr; rewrite A1, A2; reflexivity); exfalso; apply Np; exact Logic.I. } rewrite E. cbn [bind]. rewrite (IH b); [reflexivity | intros n' t' o' Hin; apply (C n' t' o'); now right | intros n' v' Hin; apply S; now right].
  - intros c n t e m r l Ni I IH b C S; cbn [conv_fields]. apply skipped_no in Ni. rewrite Ni. destruct (S n (BEnum e m)) as (A1 & A2 & A3); [now left|]. inversion A3; subst. cbn [conv_field]. rewrite H0. unfold set_attr. rewrite A1, A2. cbn [bind]. rewrite (IH b); [reflexivity | intros n' t' o' Hin; apply (C n' t' o'); now right | intros n' v' Hin; apply S; now right].
  - intros c n t o' z' r l Ni Im IHo I IH b C S; cbn [conv_fields]. assert (Ni' := Ni). apply skipped_no in Ni. rewrite Ni. destruct (S n z') as (A1 & A2 & A3); [now left|]. inversion Im as [c' b' fs' ex' attrs' Eb' Ims]; subst. assert (Cl : clean (Obj c' fs' ex')). { apply (C n t); [now left | exact Ni' | cbn [no_core_class]; congruence]. } cbn [conv_field]. rewrite Eb'. rewrite (IHo Cl A3). cbn [bind]. unfold set_attr. rewrite A1, A2. cbn [bind]. rewrite (IH b); [reflexivity | intros n' t' o'' Hin; apply (C n' t' o''); now right | intros n' v' Hin; apply S; now right].
Qed.
(** Refuted: that a misspelled attribute is always detected.  Not in parameters whose class the core does not have (the
    error for the missing class itself is not raised either), not in parameters that the core does not read, and not on the
    configuration itself *)
Theorem C185_class_refuted k c fs ex b : pc_bind c = Some b -> co_class k b = false -> to_bindings k (Obj c fs ex) = Ok (BParams (Obj c fs ex)).
Proof. intros E C. rewrite to_bindings_eq, E, C. reflexivity. Qed.
Theorem C185_unread_refuted k c n t c' fs' ex ex' r b : pc_bind c = Some b -> pc_bind c' = None ->
  to_bindings k (Obj c ((n, t, VObj (Obj c' fs' ex)) :: r) []) = to_bindings k (Obj c ((n, t, VObj (Obj c' fs' ex')) :: r) []) \/ co_class k b = false.
Proof. intros E E'. rewrite !to_bindings_eq, E. destruct (co_class k b); [left | now right]. cbn [negb forallb conv_fields conv_field]. rewrite E'. reflexivity. Qed.
Theorem C185_tile_refuted k c fs ex ex' : tile_to_bindings k c fs ex = tile_to_bindings k c fs ex'.
Proof. reflexivity. Qed.
(** the configuration hands over forward, backward and update, and the fields that say so *)
Theorem C185_tile k c b n incl o z fs : pc_bind c = Some b -> co_class k b = true -> In (n, incl, VObj o) fs -> n = "forward" \/ n = "backward" \/ n = "update" \/ incl = true -> ~ no_core_class (VObj o) ->
  forall r, tile_to_bindings k c fs [] = Ok (Some r) -> to_bindings k o = Ok z ->
  exists attrs, r = BObj b attrs /\ In (match n with "forward" => "forward_io" | "backward" => "backward_io" | _ => n end, z) attrs.
Proof.
  intros Eb Ec Hin Hn Nc r H Ez. unfold tile_to_bindings in H. rewrite Eb, Ec in H. cbn [negb] in H. match type of H with context [mapM ?g fs] => set (f := g) in H end. destruct (mapM f fs) as [a|] eqn:Ea; [|discriminate]. cbn [bind] in H. injection H as <-. exists (concat a). split; [reflexivity|]. clear Ec Eb. revert a Ea. induction fs as [|p fs IH]; intros a Ea; [destruct Hin|]. cbn [mapM] in Ea. destruct (f p) as [x|] eqn:Ex; [|discriminate]. cbn [bind] in Ea. destruct (mapM f fs) as [ys|] eqn:Ey; [|discriminate]. cbn [bind] in Ea. injection Ea as <-. cbn [concat]. apply in_or_app. destruct Hin as [->|Hin]; [left | right; now apply IH]. unfold f in Ex.
  assert (Al : (negb (always n) && negb incl)%bool = false). { destruct Hn as [->|[->|[->| ->]]]; [reflexivity..|]. now rewrite andb_false_r. } rewrite Al in Ex. destruct o as [c' fs' ex']. cbn [no_core_class] in Nc. destruct (pc_bind c') as [b'|]; [|exfalso; apply Nc; reflexivity]. rewrite Ez in Ex. cbn [bind] in Ex. destruct (set_attr k b (field_name n) z) as [y|] eqn:Es; [|discriminate]. cbn [bind] in Ex. injection Ex as <-. apply set_attr_ok in Es as (-> & _). left. f_equal. unfold field_name.
  destruct (String.eqb n "forward") eqn:E1; [apply String.eqb_eq in E1; subst; reflexivity|]. destruct (String.eqb n "backward") eqn:E2; [apply String.eqb_eq in E2; subst; reflexivity|]. apply String.eqb_neq in E1, E2. clear -E1 E2. repeat (match goal with |- context [match ?x with _ => _ end] => destruct x end; try reflexivity); congruence.
Qed.
Definition demo_core : core := {| co_class := fun c => String.eqb c "IO"; co_attr := fun _ _ => true; co_takes := fun _ _ b => match b with BParams _ => false | _ => true end; co_enum := fun _ _ => true |}.
Definition demo (ex : list string) : obj := Obj {| pc_name := "IOParameters"; pc_bind := Some "IO"; pc_ignore := [] |} [("inp_res", TyFloat, VInt 1); ("mv_type", TyOther, VEnum "AnalogMVType" "Ideal")] ex.
Theorem C185_nontrivial : typed_core demo_core /\ to_bindings demo_core (demo []) = Ok (BObj "IO" [("inp_res", BPlain (VInt 1)); ("mv_type", BEnum "AnalogMVType" "Ideal")]) /\ to_bindings demo_core (demo ["inp_ress"]) = Raise ConfigError.
Proof. split; [intros cls n o; reflexivity|]. split; reflexivity. Qed.
Print Assumptions C185_faithful.
Print Assumptions C185_complete.
Print Assumptions C185_class_refuted.
Print Assumptions C185_unread_refuted.
Print Assumptions C185_tile_refuted.
Print Assumptions C185_tile.

Print Assumptions C185_nontrivial.
