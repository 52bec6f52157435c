(** * Devices of a configuration (C186) *)
From Verif Require Import Prelude CfgModel CfgSpec CfgProps CfgProofs.
Local Open Scope string_scope.

(** C186: a cell is built of the devices it uses, in order, each as it would be converted on its own *)
Theorem C186_parts k q o l z d' : as_bindings k (Cell q o (Some l)) = Ok (z, d') ->
  exists b bs u, z = DCell q b bs /\ to_bindings k o = Ok b /\ used q l = Some u /\ Forall2 (fun x y => exists x', as_bindings k x = Ok (y, x')) u bs.
Proof.
  intros H. apply cell_iff in H as (b & u & us & Eb & Eu & C & _ & _ & -> & _). exists b, (map fst us), u. repeat split; auto. clear Eu. induction C as [|x y u us Hy C IH]; cbn [map]; constructor; auto. exists (snd y). now destruct y.
Qed.
Lemma conv_In k l us : conv k l us -> (forall d, In d l -> exists y, In y us /\ as_bindings k d = Ok y) /\ (forall y, In y us -> exists d, In d l /\ as_bindings k d = Ok y).
Proof. induction 1 as [|x y l us H C (I1 & I2)]; split; [intros ? [] | intros ? [] | |]; [intros d [->|Hin]; [exists y; split; [now left | exact H]|]; destruct (I1 d Hin) as (y' & H1 & H2); exists y'; split; [now right | exact H2] | intros y' [->|Hin]; [exists x; split; [now left | exact H]|]; destruct (I2 y' Hin) as (d & H1 & H2); exists d; split; [now right | exact H2]]. Qed.
(** exactly the well-formed devices are accepted *)
Theorem C186_accepts k d : (exists r, as_bindings k d = Ok r) <-> wf k d.
Proof.
  induction d as [c o f t|o f t|q o|q o l IH|o x IH] using dev_ind'.
  - cbn [as_bindings]. split; [intros (r & H); destruct (to_bindings k o) as [b|] eqn:Eb; [|discriminate]; econstructor; eauto | intros H; inversion H; subst; match goal with E : to_bindings _ _ = _ |- _ => rewrite E end; cbn [bind]; eauto].
  - cbn [as_bindings]. split; [intros (r & H); destruct (to_bindings k o) as [b|] eqn:Eb; [|discriminate]; econstructor; eauto | intros H; inversion H; subst; match goal with E : to_bindings _ _ = _ |- _ => rewrite E end; cbn [bind]; eauto].
  - split; [intros (r & H); destruct q; cbn [as_bindings] in H; try discriminate; destruct (to_bindings k o); discriminate | intros H; inversion H].
  - rewrite Forall_forall in IH. split.
    + intros ([z d'] & H). apply cell_iff in H as (b & u & us & Eb & Eu & C & F & Q & -> & ->). rewrite Forall_forall in F. destruct (conv_In _ _ _ C) as (I1 & I2).
      assert (Hsub : forall d, In d u -> In d l). { clear -Eu. intros d Hd. destruct q, l as [|x [|y [|w r]]]; cbn [used] in Eu; try discriminate; injection Eu as <-; cbn [In map] in *; try tauto. destruct Hd as [->|[->|[->|Hd]]]; auto. apply in_map_iff in Hd as (? & -> & _). auto. }
      eapply wf_cell; eauto.
      * intros Hu. destruct us as [|y us']; [inversion C; subst; contradiction|]. destruct (F (fst y)) as (F1 & _); [now left|]. apply (known_iff k (Cell q o (Some l)) b Eb). exact F1.
      * intros d Hd. destruct (I1 d Hd) as ([zd dd] & Hy & Ey). assert (Hf : fits b zd) by (apply F; apply in_map_iff; exists (zd, dd); auto). destruct Hf as (_ & F2 & F3). apply ab_shape in Ey as Sh. destruct Sh as (S1 & S2 & _). split; [now apply S2|]. split; [apply (known_iff k d _ S1); exact F2|]. apply IH; [auto | eauto].
      * intros -> d e Hd He. specialize (Q eq_refl). destruct l as [|x [|y [|w r]]]; cbn [used] in Eu; try discriminate; injection Eu as <-; inversion C as [|? [z1 x1] ? ? H1 C1]; subst; inversion C1 as [|? [z2 x2] ? ? H2 C2]; subst; inversion C2; subst; specialize (Q _ _ eq_refl); cbn [fst] in Q; apply ab_shape in H1 as (_ & _ & T1); apply ab_shape in H2 as (_ & _ & T2); destruct z1 as [c1 b1| | |]; try contradiction; destruct z2 as [c2 b2| | |]; try contradiction; cbn [pair_ok] in Q.
        -- destruct x as [cx ox fx tx| | |]; try contradiction. cbn [In] in Hd, He. destruct Hd as [<-|[<-|[]]], He as [<-|[<-|[]]]; cbn; auto.
        -- destruct x as [cx ox fx tx| | |]; try contradiction. destruct y as [cy oy fy ty| | |]; try contradiction. cbn [In] in Hd, He. destruct Hd as [<-|[<-|[]]], He as [<-|[<-|[]]]; cbn; split; auto; congruence.
    + intros H. inversion H as [| | |? ? ? u b Eb Eu Hk Hd Hs]; subst.
      assert (Hsub : forall d, In d u -> In d l). { clear -Eu. intros d Hd. destruct q, l as [|x [|y [|w r]]]; cbn [used] in Eu; try discriminate; injection Eu as <-; cbn [In map] in *; try tauto. destruct Hd as [->|[->|[->|Hd]]]; auto. apply in_map_iff in Hd as (? & -> & _). auto. }
      assert (C : exists us, conv k u us). { clear -Hd IH Hsub. induction u as [|x u IHu]; [exists []; constructor|]. destruct IHu as (us & C); [intros; apply Hd; now right | intros; apply Hsub; now right|]. destruct (proj2 (IH x (Hsub x (or_introl eq_refl)))) as (y & Hy); [apply Hd; now left|]. exists (y :: us). constructor; auto. }
      destruct C as (us & C). exists (DCell q b (map fst us), Cell q o (Some (after q l us))). apply cell_iff. exists b, u, us. repeat split; auto.
      * rewrite Forall_forall. intros z Hz. apply in_map_iff in Hz as ([z' d'] & <- & Hy). cbn [fst]. destruct (proj2 (conv_In _ _ _ C) _ Hy) as (d & Hdu & Ed). destruct (Hd d Hdu) as (P1 & P2 & _). apply ab_shape in Ed as (S1 & S2 & _). repeat split; [|apply (known_iff k d _ S1); exact P2 | now apply S2]. apply (known_iff k (Cell q o (Some l)) b Eb). apply Hk. intros ->. destruct Hdu.
      * intros -> a c E. specialize (Hs eq_refl). destruct us as [|[z1 x1] [|[z2 x2] [|]]]; try discriminate. injection E as <- <-. inversion C as [|d1 ? ? ? H1 C1]; subst. inversion C1 as [|d2 ? ? ? H2 C2]; subst. inversion C2; subst. destruct (Hs d1 d2) as (T1 & T2); [now left | right; now left|]. destruct (Hs d2 d1) as (T3 & _); [right; now left | now left|]. apply ab_shape in H1 as (_ & _ & A1). apply ab_shape in H2 as (_ & _ & A2). destruct z1; try contradiction. destruct z2; try contradiction. destruct d1; try contradiction. destruct d2; try contradiction. cbn in *. congruence.
  - cbn [as_bindings]. split.
    + intros ([z d'] & H). destruct (to_bindings k o) as [b|] eqn:Eb; [|discriminate]. cbn [bind] in H. destruct (as_bindings k x) as [[zx dx]|] eqn:Ex; [|discriminate]. cbn [bind fst snd] in H. destruct (append1 b any_pulsed [] zx) as [a|] eqn:Ea; [|discriminate]. apply append1_inv in Ea as (_ & F1 & F2 & F3). apply ab_shape in Ex as Sh. destruct Sh as (S1 & S2 & _). constructor; [apply (known_iff k (Mixed o x) b Eb); exact F1 | apply (known_iff k x _ S1); exact F2 | now apply S2 | apply IH; eauto].
    + intros H. inversion H as [| |? ? K1 K2 P W|]; subst. destruct K1 as (c & a & E). rewrite E. cbn [bind]. destruct (proj2 IH W) as ([zx dx] & Ex). rewrite Ex. cbn [bind fst snd]. apply ab_shape in Ex as (S1 & S2 & _). assert (X : append1 (BObj c a) any_pulsed [] zx = Ok [zx]). { apply append1_inv. split; [reflexivity|]. split; [reflexivity|]. split; [apply (known_iff k x _ S1); exact K2 | now apply S2]. } rewrite X. cbn [bind]. eauto.
Qed.
Lemma used_after q l u us k : used q l = Some u -> conv k u us -> used q (after q l us) = Some (map snd us).
Proof.
  intros Eu C. destruct q, l as [|x [|y [|w r]]]; cbn [used] in Eu; try discriminate; injection Eu as <-; repeat (match goal with H : conv _ (_ :: _) _ |- _ => inversion H; clear H; subst | H : Forall2 _ (_ :: _) _ |- _ => inversion H; clear H; subst | H : Forall2 _ [] _ |- _ => inversion H; clear H; subst | H : conv _ [] _ |- _ => inversion H; clear H; subst end); try reflexivity.
  - (* one sided, one device: twice the same *) unfold after. cbn [length map firstn used]. match goal with H1 : as_bindings k x = Ok ?a, H2 : as_bindings k x = Ok ?b |- _ => assert (a = b) by congruence; subst end. reflexivity.
  - unfold after. cbn [map firstn skipn app used]. match goal with H1 : as_bindings k y = Ok ?a, H2 : as_bindings k y = Ok ?b, H3 : Forall2 _ (map _ r) ?us |- _ => assert (a = b) by congruence; subst; apply (conv_const_inv k _ _ _ _ H1) in H3; subst end. rewrite map_map. reflexivity.
Qed.
(** converting again gives the same and changes nothing more *)
Theorem C186_idempotent k d z d' : as_bindings k d = Ok (z, d') -> as_bindings k d' = Ok (z, d').
Proof.
  revert z d'. induction d as [c o f t|o f t|q o|q o l IH|o x IH] using dev_ind'; intros z d' H.
  - assert (H' := H). cbn [as_bindings] in H. destruct (to_bindings k o); [|discriminate]. injection H as <- <-. exact H'.
  - assert (H' := H). cbn [as_bindings] in H. destruct (to_bindings k o); [|discriminate]. injection H as <- <-. exact H'.
  - destruct q; cbn [as_bindings] in H; try discriminate; destruct (to_bindings k o); discriminate.
  - apply cell_iff in H as (b & u & us & Eb & Eu & C & F & Q & -> & ->). rewrite Forall_forall in IH.
    assert (Hsub : forall d, In d u -> In d l). { clear -Eu. intros d Hd. destruct q, l as [|x [|y [|w r]]]; cbn [used] in Eu; try discriminate; injection Eu as <-; cbn [In map] in *; try tauto. destruct Hd as [->|[->|[->|Hd]]]; auto. apply in_map_iff in Hd as (? & -> & _). auto. }
    assert (C' : conv k (map snd us) us). { clear -C IH Hsub. induction C as [|x y u us Hy C IHc]; cbn [map]; constructor; [|apply IHc; intros; apply Hsub; now right]. destruct y as [z1 d1]. cbn [snd]. apply (IH x); [apply Hsub; now left | exact Hy]. }
    apply cell_iff. exists b, (map snd us), us. repeat split; auto; [eapply used_after; eauto|]. f_equal. f_equal.
    destruct q, l as [|x [|y [|w r]]]; cbn [used] in Eu; try discriminate; injection Eu as <-; repeat (match goal with H : conv _ (_ :: _) _ |- _ => inversion H; clear H; subst | H : Forall2 _ (_ :: _) _ |- _ => inversion H; clear H; subst | H : Forall2 _ [] _ |- _ => inversion H; clear H; subst | H : conv _ [] _ |- _ => inversion H; clear H; subst end); reflexivity.
  - cbn [as_bindings] in H. destruct (to_bindings k o) as [b|] eqn:Eb; [|discriminate]. cbn [bind] in H. destruct (as_bindings k x) as [[zx dx]|] eqn:Ex; [|discriminate]. cbn [bind fst snd] in H. destruct (append1 b any_pulsed [] zx) as [a|] eqn:Ea; [|discriminate]. injection H as <- <-. cbn [as_bindings]. rewrite Eb. cbn [bind]. rewrite (IH _ _ eq_refl). cbn [bind fst snd]. rewrite Ea. reflexivity.
Qed.
(** Refuted: that a cell refuses devices it has no use for (a ReferenceUnitCell drops them from the user's configuration, a
    TransferCompound builds copies of the second) *)
Theorem C186_dropped_refuted k o x y w r z d' : as_bindings k (Cell KReference o (Some (x :: y :: w :: r))) = Ok (z, d') -> exists x' y', d' = Cell KReference o (Some [x'; y']).
Proof. intros H. apply cell_iff in H as (b & u & us & _ & Eu & C & _ & _ & _ & ->). injection Eu as <-. inversion C as [|? a ? ? _ C1]; subst. inversion C1 as [|? c ? ? _ C2]; subst. inversion C2; subst. cbn. eauto. Qed.
Theorem C186_transfer_refuted k o x y r r' : length r = length r' -> forall z d', as_bindings k (Cell KTransfer o (Some (x :: y :: r))) = Ok (z, d') -> exists d'', as_bindings k (Cell KTransfer o (Some (x :: y :: r'))) = Ok (z, d'').
Proof.
  intros L z d' H. apply cell_iff in H as (b & u & us & Eb & Eu & C & F & Q & -> & ->). injection Eu as <-. exists (Cell KTransfer o (Some (after KTransfer (x :: y :: r') us))). apply cell_iff. exists b, (x :: y :: map (fun _ => y) r'), us. repeat split; auto; try discriminate. rewrite <- repeat_const, <- L, repeat_const. exact C.
Qed.
(** Refuted: that a missing device is a ConfigError *)
Theorem C186_missing_refuted k o b : to_bindings k o = Ok b ->
  as_bindings k (Cell KOneSided o (Some [])) = Raise IndexError /\ as_bindings k (Cell KTransfer o (Some [])) = Raise IndexError /\
  (forall x, wf k x -> as_bindings k (Cell KTransfer o (Some [x])) = Raise IndexError) /\ as_bindings k (Cell KReference o (Some [])) = Raise ConfigError /\ as_bindings k (Cell KChopped o (Some [])) = Raise ConfigError.
Proof. intros E. cbn [as_bindings]. rewrite E. cbn [bind]. repeat split. intros x W. apply C186_accepts in W as (p & ->). reflexivity. Qed.
(** decay is known of every device that decays; a device that is not used may report decay too *)
Theorem C186_decay d : decays d -> requires_decay d = true.
Proof.
  induction 1 as [c o f t H|o f t H|o d _ IH|q o l u d Eu Hd _ IH]; cbn [requires_decay]; [now apply Rltb_true | now apply Rltb_true | exact IH|]. apply existsb_exists. exists d. split; [|exact IH]. destruct q, l as [|x [|y [|w r]]]; cbn [used] in Eu; try discriminate; injection Eu as <-; cbn [In map] in *; try tauto. destruct Hd as [->|[->|[->|Hd]]]; auto. apply in_map_iff in Hd as (? & -> & _). auto.
Qed.
Theorem C186_decay_refuted : exists d, wf demo_core d /\ requires_decay d = true /\ ~ decays d.
Proof.
  set (dv t := Pulsed "ConstantStep" (demo []) 0 t). exists (Cell KTransfer (demo []) (Some [dv 0; dv 0; dv 1])). split; [|split].
  - apply C186_accepts. eexists. reflexivity.
  - cbn [requires_decay existsb dv]. assert (E : Rltb 0 0 = false) by (apply Rltb_false; lra). assert (E' : Rltb 0 1 = true) by (apply Rltb_true; lra). now rewrite E, E'.
  - intros H. inversion H as [| | |? ? ? u d Eu Hd Dd]; subst. injection Eu as <-. unfold dv in Hd. cbn [In map] in Hd. destruct Hd as [<-|[<-|[<-|[]]]]; inversion Dd; lra.
Qed.
Theorem C186_nontrivial : let d := Pulsed "ConstantStep" (demo []) 0 0 in
  wf demo_core (Cell KReference (demo []) (Some [d])) /\ wf demo_core (Mixed (demo []) (Cell KVector (demo []) (Some [d; Cell KOneSided (demo []) (Some [d])]))) /\
  ~ wf demo_core (Cell KOneSided (demo []) (Some [d; Pulsed "LinearStep" (demo []) 0 0])) /\ ~ wf demo_core (Cell KVector (demo []) (Some [Simple (demo []) 0 0])).
Proof.
  intros d. split; [apply C186_accepts; eexists; reflexivity|]. split; [apply C186_accepts; eexists; reflexivity|]. split; intros H; apply C186_accepts in H as (r & H); discriminate H.
Qed.
Print Assumptions C186_parts.
Print Assumptions C186_accepts.
Print Assumptions C186_idempotent.
Print Assumptions C186_dropped_refuted.
Print Assumptions C186_transfer_refuted.
Print Assumptions C186_missing_refuted.
Print Assumptions C186_decay.
Print Assumptions C186_decay_refuted.

Print Assumptions C186_nontrivial.
