(** * Proofs about the conversion to low precision modules *)
From Verif Require Import Prelude ConvModel QuantModel QuantSpec LpModel LpSpec.
Local Open Scope nat_scope.

(** the loop over the children *)
Definition children (q : qmap) (name : path) := fix go (memo : list (option nat * tree)) (l : list (nat * tree)) : res (list (nat * tree)) :=
  match l with
  | [] => Ok []
  | (n, m) :: r =>
      match seen (t_id m) memo with
      | Some m0 => r' <- go memo r ;; Ok ((n, m0) :: r')
      | None =>
          if excluded q (name ++ [n]) then r' <- go ((t_id m, m) :: memo) r ;; Ok ((n, m) :: r')
          else
            nm <- quantize q (name ++ [n]) m ;;
            match nm with
            | None => r' <- go ((t_id m, m) :: memo) r ;; Ok ((n, m) :: r')
            | Some m1 =>
                let self := match t_id m1 with Some _ => m1 | None => m end in
                r' <- go ((t_id m, self) :: memo) r ;; Ok ((n, wrap q (name ++ [n]) m1) :: r')
            end
      end
  end.
Lemma quantize_eq q name id ty tr d ch : quantize q name (Node id ty tr d ch) =
  if excluded q name then Ok None
  else match ty with
  | TLeaf => Ok None
  | _ => match selected q name ty with
         | Some c => if negb ((0 <? c_a c)%Z || (0 <? c_w c)%Z) then Ok (Some (Node id ty tr d ch)) else r <- convert c (Node id ty tr d ch) ;; Ok (Some r)
         | None => ch' <- children q name [] ch ;; Ok (Some (Node id ty tr d ch'))
         end
  end.
Proof. reflexivity. Qed.
Definition kid (q : qmap) (name : path) (x : nat * tree) : res (nat * tree) :=
  let '(n, m) := x in
  if excluded q (name ++ [n]) then Ok (n, m)
  else nm <- quantize q (name ++ [n]) m ;; Ok (n, match nm with None => m | Some m1 => wrap q (name ++ [n]) m1 end).
Lemma seen_none i memo : (forall t, ~ List.In (i, t) memo) -> seen i memo = None.
Proof.
  induction memo as [|[j t] r IH]; intros H; [reflexivity|]. cbn. assert (R : seen i r = None) by (apply IH; intros u Hu; apply (H u); right; exact Hu).
  destruct i as [a|]; [|exact R]. destruct j as [b|]; [|exact R]. destruct (a =? b) eqn:E; [|exact R]. apply Nat.eqb_eq in E. subst. exfalso. apply (H t). left. reflexivity.
Qed.
Lemma children_distinct q name l : forall memo, NoDup (map (fun x => t_id (snd x)) l) -> (forall i t, List.In (i, t) memo -> ~ List.In i (map (fun x : nat * tree => t_id (snd x)) l)) ->
  children q name memo l = mapM (kid q name) l.
Proof.
  induction l as [|[n m] r IH]; intros memo Nd Dj; [reflexivity|]. cbn [map snd] in *. inversion Nd as [|? ? Ni Nr]. subst. cbn [children]. fold (children q name). rewrite seen_none by (intros t Ht; apply (Dj _ _ Ht); left; reflexivity). cbn [mapM]. unfold kid at 1.
  assert (K : forall t, children q name ((t_id m, t) :: memo) r = mapM (kid q name) r).
  { intros t. apply IH; [exact Nr|]. intros i u [[= <- <-]|Hu]; [exact Ni|]. intros C. apply (Dj _ _ Hu). right. exact C. }
  destruct (excluded q (name ++ [n])); [rewrite K; reflexivity|]. destruct (quantize q (name ++ [n]) m) as [[m1|]|e]; cbn [bind]; rewrite ?K; reflexivity.
Qed.
Lemma mapM_child q name l : forall l', mapM (kid q name) l = Ok l' -> map fst l' = map fst l /\ forall n m, child n l = Some m -> exists m', child n l' = Some m' /\ kid q name (n, m) = Ok (n, m').
Proof.
  induction l as [|[k u] r IH]; intros l' H; cbn [mapM] in H; [injection H as <-; split; [reflexivity|discriminate]|].
  destruct (kid q name (k, u)) as [[k' u']|e] eqn:E; [|discriminate]. cbn [bind] in H. destruct (mapM (kid q name) r) as [r'|e] eqn:Er; [|discriminate]. injection H as <-. destruct (IH r' eq_refl) as [I1 I2].
  assert (k' = k) as -> by (unfold kid in E; destruct (excluded q (name ++ [k])); [congruence|destruct (quantize q (name ++ [k]) u); cbn in E; congruence]).
  split; [cbn; congruence|]. intros n m. cbn. destruct (k =? n) eqn:En; [intros [= <-]; apply Nat.eqb_eq in En; subst; exists u'; auto|apply I2].
Qed.
Lemma excluded_in q p : excluded q p = true <-> List.In p (q_excl q).
Proof.
  unfold excluded, path_eqb. rewrite existsb_exists. split.
  - intros (x & Hx & E). destruct (list_eq_dec Nat.eq_dec p x) as [->|]; [exact Hx|discriminate].
  - intros H. exists p. split; [exact H|]. destruct (list_eq_dec Nat.eq_dec p p); congruence.
Qed.
Lemma excluded_not q p : ~ List.In p (q_excl q) -> excluded q p = false.
Proof. intros H. destruct (excluded q p) eqn:E; [apply excluded_in in E; contradiction|reflexivity]. Qed.
Lemma child_in n l m : child n l = Some m -> List.In (n, m) l.
Proof. induction l as [|[k u] r IH]; cbn; [discriminate|]. destruct (k =? n) eqn:E; [intros [= <-]; apply Nat.eqb_eq in E; subst; left; reflexivity|right; auto]. Qed.
Lemma plain_unwrap t : plain t -> unwrap t = t.
Proof. intros H. inversion H as [id ty tr d ch Ni]. subst. unfold unwrap. destruct ty; try reflexivity. exfalso. eapply Ni. reflexivity. Qed.
Lemma plain_child t n m : plain t -> child n (t_ch t) = Some m -> plain m.
Proof. intros H C. inversion H as [id ty tr d ch _ _ _ _ Hc]. subst. apply child_in in C. eapply Hc. exact C. Qed.
Lemma transparent_step q name t t1 : plain t -> transparent q name t -> quantize q name t = Ok (Some t1) ->
  exists ch', mapM (kid q name) (t_ch t) = Ok ch' /\ t1 = Node (t_id t) (t_ty t) (t_train t) (t_pay t) ch'.
Proof.
  intros Pl (N1 & N2 & N3 & N4) E. destruct t as [id ty tr d ch]. inversion Pl as [? ? ? ? ? _ _ _ Nd _]. subst. rewrite quantize_eq, (excluded_not _ _ N1) in E. cbn [t_ty t_ch] in *. unfold selected in E. rewrite N3, N4 in E.
  assert (E' : (ch' <- children q name [] ch ;; Ok (Some (Node id ty tr d ch'))) = Ok (Some t1)) by (destruct ty; try exact E; contradiction).
  rewrite children_distinct in E'; [|exact Nd|intros i t []]. destruct (mapM (kid q name) ch) as [ch'|e]; [|discriminate]. injection E' as <-. exists ch'. auto.
Qed.
(** what becomes of a module *)
Lemma quantize_becomes q p m m1 : plain m -> ~ List.In p (q_excl q) -> quantize q p m = Ok (Some m1) -> becomes q p m m1.
Proof.
  intros Pl Ne E. unfold becomes. destruct m as [id ty tr d ch]. inversion Pl as [? ? ? ? ? _ _ _ Nd _]. subst. pose proof E as E0. rewrite quantize_eq, (excluded_not _ _ Ne) in E. cbn [t_ty] in *. unfold selected in E.
  destruct (match q_inst q p with Some c => Some c | None => q_type q ty end) as [c|] eqn:Es.
  - assert (E' : (if negb ((0 <? c_a c)%Z || (0 <? c_w c)%Z) then Ok (Some (Node id ty tr d ch)) else r <- convert c (Node id ty tr d ch) ;; Ok (Some r)) = Ok (Some m1)) by (destruct ty; try exact E; discriminate).
    replace ((c_w c <=? 0)%Z && (c_a c <=? 0)%Z) with (negb ((0 <? c_a c)%Z || (0 <? c_w c)%Z)) by (destruct (Z.ltb_spec 0 (c_a c)), (Z.ltb_spec 0 (c_w c)), (Z.leb_spec (c_w c) 0), (Z.leb_spec (c_a c) 0); try lia; reflexivity).
    destruct (negb _); [congruence|]. destruct (convert c (Node id ty tr d ch)) as [r|e] eqn:Ec; [|discriminate]. injection E' as <-. unfold convert in Ec. cbn [t_ty t_pay] in Ec.
    destruct ty; try (destruct (d_w d); [|discriminate]); try discriminate; injection Ec as <-; split; reflexivity.
  - assert (E' : (ch' <- children q p [] ch ;; Ok (Some (Node id ty tr d ch'))) = Ok (Some m1)) by (destruct ty; try exact E; discriminate).
    rewrite children_distinct in E'; [|exact Nd|intros i t []]. destruct (mapM (kid q p) ch) as [ch'|e] eqn:Em; [|discriminate]. injection E' as <-. apply mapM_child in Em. cbn. tauto.
Qed.
(** all modules below *)
Lemma quantize_at q p : forall name t t1 m, plain t -> quantize q name t = Ok (Some t1) -> p <> [] -> module_at t p = Some m -> reached q name t p ->
  exists m', module_at t1 p = Some m' /\ plain m /\ (List.In (name ++ p) (q_excl q) -> m' = m) /\ (t_ty m = TLeaf -> m' = m)
  /\ (~ List.In (name ++ p) (q_excl q) -> t_ty m <> TLeaf -> exists m1, input_wrapped (q_input q (name ++ p)) m1 m' /\ becomes q (name ++ p) m m1).
Proof.
  induction p as [|n r IH]; intros name t t1 m Pl E Np At Re; [contradiction|]. cbn [reached] in Re. destruct Re as (Tr & u & Cu & Re). cbn [module_at] in At. rewrite (plain_unwrap _ Pl), Cu in At.
  destruct (transparent_step _ _ _ _ Pl Tr E) as (ch' & Em & ->). destruct (mapM_child _ _ _ _ Em) as [_ Mc]. destruct (Mc n u Cu) as (u' & Cu' & K). assert (Pu : plain u) by (eapply plain_child; eassumption).
  cbn [module_at]. replace (unwrap (Node (t_id t) (t_ty t) (t_train t) (t_pay t) ch')) with (Node (t_id t) (t_ty t) (t_train t) (t_pay t) ch') by (symmetry; unfold unwrap; destruct (t_ty t) eqn:Et; try reflexivity; inversion Pl as [? ? ? ? ? Ni]; subst; exfalso; eapply Ni; exact Et).
  cbn [t_ch]. rewrite Cu'. unfold kid in K. destruct r as [|k r].
  - cbn [module_at] in At |- *. injection At as <-. exists u'. split; [reflexivity|]. split; [exact Pu|]. destruct (excluded q (name ++ [n])) eqn:Ex.
    + apply excluded_in in Ex. injection K as <-. split; [auto|]. split; [auto|]. intros C. contradiction.
    + assert (Nx : ~ List.In (name ++ [n]) (q_excl q)) by (intros C; apply excluded_in in C; congruence). destruct (quantize q (name ++ [n]) u) as [[u1|]|e] eqn:Eq; [| |discriminate]; injection K as <-.
      * split; [intros C; contradiction|]. split.
        -- intros Lf. destruct u as [a ty b d ch]. cbn in Lf. subst ty. rewrite quantize_eq, Ex in Eq. discriminate.
        -- intros _ _. exists u1. split; [unfold input_wrapped, wrap; destruct (q_input q (name ++ [n])); [split; reflexivity|reflexivity]|]. apply quantize_becomes; assumption.
      * split; [intros C; contradiction|]. split; [auto|]. intros _ Nl. exfalso. destruct u as [a ty b d ch]. cbn in Nl. rewrite quantize_eq, Ex in Eq. destruct (selected q (name ++ [n]) ty) as [c|].
        -- destruct ty; try contradiction; destruct (negb _); try discriminate; match type of Eq with context [convert c ?x] => destruct (convert c x) end; discriminate.
        -- destruct ty; try contradiction; destruct (children q (name ++ [n]) [] ch); discriminate.
  - assert (Tu : transparent q (name ++ [n]) u) by (cbn [reached] in Re; tauto). destruct Tu as (N1 & N2 & N3 & N4). rewrite (excluded_not _ _ N1) in K. destruct (quantize q (name ++ [n]) u) as [[u1|]|e] eqn:Eq; [| |discriminate]; injection K as <-.
    + destruct (IH (name ++ [n]) u u1 m Pu Eq ltac:(discriminate) At Re) as (m' & A1 & A2 & A3 & A4 & A5). rewrite <- app_assoc in A3, A5. cbn [app] in A3, A5. exists m'. split; [|auto].
      rewrite <- A1. unfold wrap. destruct (q_input q (name ++ [n])) as [b|]; [|reflexivity]. destruct (transparent_step _ _ _ _ Pu ltac:(repeat split; eassumption) Eq) as (ch2 & _ & ->).
      cbn [module_at]. replace (unwrap (Node (t_id u) (t_ty u) (t_train u) (t_pay u) ch2)) with (Node (t_id u) (t_ty u) (t_train u) (t_pay u) ch2) by (symmetry; unfold unwrap; destruct (t_ty u) eqn:Et; try reflexivity; inversion Pu as [? ? ? ? ? Ni]; subst; exfalso; eapply Ni; exact Et). reflexivity.
    + exfalso. destruct u as [a ty b d ch]. cbn in N2, N4. rewrite quantize_eq, (excluded_not _ _ N1) in Eq. unfold selected in Eq. rewrite N3, N4 in Eq. destruct ty; try contradiction; destruct (children q (name ++ [n]) [] ch); discriminate.
Qed.
(** ** Success *)
Section TreeInd.
  Context (P : tree -> Prop) (H : forall id ty tr d ch, (forall n m, List.In (n, m) ch -> P m) -> P (Node id ty tr d ch)).
  Fixpoint tree_ind2 (t : tree) : P t :=
    match t with
    | Node id ty tr d ch => H id ty tr d ch ((fix go (l : list (nat * tree)) : forall n m, List.In (n, m) l -> P m :=
        match l with
        | [] => fun n m i => False_ind _ i
        | (k, u) :: r => fun n m i => match i with or_introl e => eq_ind u P (tree_ind2 u) m (f_equal snd e) | or_intror i' => go r n m i' end
        end) ch)
    end.
End TreeInd.
Lemma mapM_total {A B} (f : A -> res B) l : (forall a, List.In a l -> exists b, f a = Ok b) -> exists l', mapM f l = Ok l'.
Proof. induction l as [|a r IH]; intros H; [eexists; reflexivity|]. cbn. destruct (H a (or_introl eq_refl)) as [b ->]. destruct IH as [r' ->]; [intros; apply H; right; assumption|]. cbn. eauto. Qed.
Lemma in_child n m l : NoDup (map fst l) -> List.In (n, m) l -> child n l = Some m.
Proof.
  induction l as [|[k u] r IH]; intros Nd []; cbn in *; inversion Nd as [|? ? Ni Nr]; subst.
  - injection H as -> ->. rewrite Nat.eqb_refl. reflexivity.
  - destruct (k =? n) eqn:E; [|auto]. apply Nat.eqb_eq in E. subst. exfalso. apply Ni. apply in_map_iff. exists (n, m). auto.
Qed.
Lemma mtype_eq_leaf ty : ty = TLeaf \/ ty <> TLeaf.
Proof. destruct ty; (left; reflexivity) || (right; discriminate). Qed.
Lemma quantize_total q t : forall name, plain t ->
  (forall p m, module_at t p = Some m -> reached q name t p -> ~ List.In (name ++ p) (q_excl q) -> (exists c, (match q_inst q (name ++ p) with Some c => Some c | None => q_type q (t_ty m) end) = Some c /\ (0 < c_w c \/ 0 < c_a c)%Z) -> convertible m) ->
  exists r, quantize q name t = Ok r /\ (List.In name (q_excl q) \/ t_ty t = TLeaf \/ exists t1, r = Some t1).
Proof.
  induction t as [id ty tr d ch IH] using tree_ind2. intros name Pl Cv. inversion Pl as [? ? ? ? ? Ni _ Nn Nd Pc]. subst. rewrite quantize_eq. destruct (excluded q name) eqn:Ex; [exists None; split; [reflexivity|]; left; apply excluded_in; exact Ex|].
  assert (Nx : ~ List.In name (q_excl q)) by (intros C; apply excluded_in in C; congruence).
  destruct (selected q name ty) as [c|] eqn:Es.
  - assert (G : ty = TLeaf \/ exists t1, (if negb ((0 <? c_a c)%Z || (0 <? c_w c)%Z) then Ok (Some (Node id ty tr d ch)) else r <- convert c (Node id ty tr d ch) ;; Ok (Some r)) = Ok (Some t1)).
    { destruct (negb _) eqn:Eb; [right; eauto|]. destruct (Cv [] _ eq_refl I) as [C1 C2].
      + rewrite app_nil_r. exact Nx.
      + exists c. rewrite app_nil_r. split; [exact Es|]. apply negb_false_iff, orb_true_iff in Eb. destruct Eb as [Eb|Eb]; apply Z.ltb_lt in Eb; auto.
      + cbn [t_ty t_pay] in C1, C2. unfold convert. cbn [t_ty t_pay].
        destruct ty; try contradiction; cbn [bind]; eauto; right; destruct (d_w d) as [w|]; cbn [bind]; eauto; exfalso; (apply C2; [cbn; tauto|reflexivity]). }
    destruct G as [->|[t1 G]]; [exists None; split; [reflexivity|]; right; left; reflexivity|]. destruct ty; try solve [exists (Some t1); split; [exact G|]; right; right; eauto]. exists None. split; [reflexivity|]. right; left; reflexivity.
  - assert (G : ty = TLeaf \/ exists ch', children q name [] ch = Ok ch').
    { destruct (mtype_eq_leaf ty) as [->|Nl]; [left; reflexivity|right]. rewrite children_distinct; [|exact Nd|intros i t []]. apply mapM_total. intros [n m] Hin. unfold kid. destruct (excluded q (name ++ [n])) eqn:Ek; [eauto|].
      destruct (IH n m Hin (name ++ [n]) (Pc n m Hin)) as (r & Er & _).
      - intros p u At Re Ne Sc. apply (Cv (n :: p) u).
        + cbn [module_at]. rewrite (plain_unwrap _ Pl). cbn [t_ch]. rewrite (in_child _ _ _ Nn Hin). exact At.
        + cbn [reached]. split; [|exists m; split; [apply in_child; assumption|exact Re]]. unfold selected in Es. unfold transparent. cbn [t_ty]. destruct (q_inst q name); [discriminate|]. auto.
        + rewrite <- app_assoc in Ne. exact Ne.
        + rewrite <- app_assoc in Sc. exact Sc.
      - rewrite Er. cbn. eauto. }
    destruct G as [->|[ch' G]]; [exists None; split; [reflexivity|]; right; left; reflexivity|]. rewrite G. cbn [bind]. destruct ty; try solve [eexists; split; [reflexivity|]; right; right; eauto]. exists None. split; [reflexivity|]. right; left; reflexivity.
Qed.
