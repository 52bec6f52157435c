From Verif Require Import Prelude PeriModel PeriProofs PeriProofs2 PeriSpec PeriProofs4 CtxModel CtxSpec.
From Coq Require Import Ascii.

Definition raw_of (w : world) : mat := t_w (w_tile w).
Definition not_raw (o : obj) : Prop := o <> OPlain MRaw.
Definition not_raw2 (o : obj) : Prop := o <> OPlain MRaw /\ o <> ORo MRaw.

(** everything of the tile except the raw weights is never written *)
Definition same_tile (w w' : world) : Prop := raw_of w' = raw_of w /\ get_scales (w_tile w') = get_scales (w_tile w).

Lemma write_obj_raw g w o : not_raw o -> raw_of (write_obj g w o) = raw_of w
  /\ get_scales (w_tile (write_obj g w o)) = get_scales (w_tile w)
  /\ w_mode (write_obj g w o) = w_mode w.
Proof. intros H. destruct o as [| | |m|]; auto. destruct m; auto. exfalso; apply H; reflexivity. Qed.

Lemma fold_write g l : forall w, Forall not_raw l ->
  raw_of (fold_left (write_obj g) l w) = raw_of w
  /\ get_scales (w_tile (fold_left (write_obj g) l w)) = get_scales (w_tile w)
  /\ w_mode (fold_left (write_obj g) l w) = w_mode w.
Proof.
  induction l as [|o l IH]; intros w F; simpl; auto. inversion F as [|? ? H1 H2]; subst.
  destruct (write_obj_raw g w o H1) as (A & B & C). destruct (IH (write_obj g w o) H2) as (A' & B' & C').
  rewrite A', B', C'. auto.
Qed.

Definition first_objs (args : list arg) : list obj := match args with a :: _ => objs_of a | [] => [] end.
(** targets a function writes to *)
Definition targets (f : fn) (args : list arg) (out : option obj) : list obj :=
  match out with
  | Some o => [o]
  | None => match f_kind f with FInplace _ => first_objs args | _ => [] end
  end.
Lemma exec_raw w f args out w' r : exec w f args out = (w', r) ->
  Forall not_raw (targets f args out) ->
  raw_of w' = raw_of w /\ get_scales (w_tile w') = get_scales (w_tile w) /\ w_mode w' = w_mode w.
Proof.
  unfold exec, targets. destruct out as [o|].
  - intros E F. injection E as <- _. apply write_obj_raw. inversion F; auto.
  - destruct (f_kind f); intros E F; injection E as <- _; auto. now apply fold_write.
Qed.
Lemma exec_result (P : obj -> Prop) w f args out w' r : exec w f args out = (w', r) ->
  P OMeta -> P (OPlain MCopy) -> P (OPlain MOther) ->
  (out = None -> forall o, In o (first_objs args) -> f_kind f <> FInfo -> (forall g, f_kind f <> FValue g) -> P o) ->
  (forall o, out = Some o -> P o) -> P r.
Proof.
  unfold exec. intros E M C O H1 H2. destruct out as [o|]; [injection E as _ <-; auto|].
  unfold first_objs in *. 
  destruct (f_kind f) eqn:K; injection E as _ <-; auto.
  - destruct args as [|a args]; simpl; auto. destruct (objs_of a) eqn:Ea; auto. apply H1; simpl; rewrite ?Ea; simpl; auto; discriminate.
  - destruct args as [|a args]; simpl; auto. destruct (objs_of a) eqn:Ea; auto. apply H1; simpl; rewrite ?Ea; simpl; auto; discriminate.
  - destruct args as [|a args]; simpl; auto. destruct (objs_of a) as [|o l]; auto. destruct o as [| | |[]|]; auto.
Qed.

(** A second presentation of the handlers: the objects are mapped *)
Definition all_objs (args : list arg) (out : option obj) : list obj :=
  (concat (map objs_of args) ++ match out with Some o => [o] | None => [] end)%list.

Definition umap (h : obj -> obj) (a : arg) : arg := match a with A1 o => A1 (h o) | AList l => AList (map h l) end.
Lemma objs_umap h a : objs_of (umap h a) = map h (objs_of a).
Proof. destruct a; reflexivity. Qed.
Lemma all_umap h args out : all_objs (map (umap h) args) (option_map h out) = map h (all_objs args out).
Proof.
  unfold all_objs. rewrite map_app, concat_map, !map_map. f_equal.
  - f_equal. apply map_ext. intros; apply objs_umap.
  - destruct out; reflexivity.
Qed.
Lemma first_umap h args : first_objs (map (umap h) args) = map h (first_objs args).
Proof. destruct args; simpl; auto. apply objs_umap. Qed.
Lemma targets_umap h f args out : targets f (map (umap h) args) (option_map h out) = map h (targets f args out).
Proof. unfold targets. destruct out; simpl; auto. destruct (f_kind f); auto. apply first_umap. Qed.
Lemma first_in args out o : In o (first_objs args) -> In o (all_objs args out).
Proof. unfold all_objs. destruct args; simpl; [tauto|]. rewrite <- app_assoc. intros; apply in_or_app; auto. Qed.
Lemma targets_in f args out o : In o (targets f args out) -> In o (all_objs args out).
Proof.
  unfold targets. destruct out as [p|].
  - intros [<-|[]]. unfold all_objs. apply in_or_app; right; simpl; auto.
  - destruct (f_kind f); try contradiction. apply first_in.
Qed.
Lemma out_in args o : In o (all_objs args (Some o)).
Proof. unfold all_objs. apply in_or_app; right; simpl; auto. Qed.

(** conversion of the context *)
Definition cconv (w : world) (o : obj) : obj :=
  match o with
  | OCtx => match w_mode w with
            | PLACEHOLDER => OPh
            | DATA_VIEW => OPlain (ctx_logical_mem (w_tile w))
            | BUFFER => OPlain MBuf
            end
  | _ => o
  end.
Lemma mapM_conv_arg (f : obj -> res obj) (h : obj -> obj) a a' :
  (forall o o', f o = Ok o' -> o' = h o) -> map_arg f a = Ok a' -> a' = umap h a.
Proof.
  intros H. destruct a as [o|l]; simpl.
  - destruct (f o) eqn:E; simpl; [|discriminate]. intros Q; injection Q as <-. apply H in E; subst; auto.
  - destruct (mapM f l) eqn:E; simpl; [|discriminate]. intros Q; injection Q as <-. f_equal.
    revert a E. induction l as [|o l IH]; simpl; intros l0 E; [injection E as <-; auto|].
    destruct (f o) eqn:E1; simpl in E; [|discriminate]. destruct (mapM f l) eqn:E2; simpl in E; [|discriminate].
    injection E as <-. simpl. f_equal; auto.
Qed.
Lemma mapM_conv (f : obj -> res obj) (h : obj -> obj) l l' :
  (forall o o', f o = Ok o' -> o' = h o) -> mapM (map_arg f) l = Ok l' -> l' = map (umap h) l.
Proof.
  intros H. revert l'. induction l as [|a l IH]; simpl; intros l' E; [injection E as <-; auto|].
  destruct (map_arg f a) eqn:E1; simpl in E; [|discriminate]. destruct (mapM (map_arg f) l) eqn:E2; simpl in E; [|discriminate].
  injection E as <-. simpl. f_equal; auto. eapply mapM_conv_arg; eauto.
Qed.

Definition un_ro (o : obj) : obj := match o with ORo m => OPlain m | _ => o end.
Definition un_ph (o : obj) : obj := if is_ph o then OPlain MOther else o.

(** A successful call either returns without executing, or executes on the objects
    with the context, read-only and placeholder wrappers resolved. *)
Lemma handle_ph_cases w f args out w' r : handle_ph w f args out = Ok (w', r) ->
  (w' = w /\ r = OPh /\ f_name f = "detach"%string)
  \/ exec w f (map (umap un_ph) args) (option_map un_ph out) = (w', r)
  \/ (exec w f args out = (w', r) /\ ~ In OPh (all_objs args out)).
Proof.
  unfold handle_ph.
  destruct (existsb (fun a => existsb is_ph (objs_of a)) args || match out with Some o => is_ph o | None => false end) eqn:E.
  - destruct (readonly_guard _ _ _ _); [discriminate|]. destruct (negb _); [discriminate|].
    destruct (String.eqb_spec (f_name f) "detach").
    + intros Q; injection Q as <- <-; auto.
    + intros Q; right; left. injection Q as Q. exact Q.
  - intros Q; injection Q as Q. right; right; split; auto.
    apply orb_false_iff in E as [E1 E2]. intros H. unfold all_objs in H. apply in_app_or in H as [H|H].
    + apply in_concat in H as [l [Hl Ho]]. apply in_map_iff in Hl as [a [<- Ha]].
      assert (X : existsb (fun a => existsb is_ph (objs_of a)) args = true).
      { apply existsb_exists. exists a; split; auto. apply existsb_exists. exists OPh; auto. }
      congruence.
    + destruct out as [o|]; [|contradiction]. destruct H as [->|[]]. discriminate.
Qed.
Lemma handle_ro_cases w f args out w' r : handle_ro w f args out = Ok (w', r) ->
  (exists h, (h = un_ro \/ (h = fun o => o)) /\ handle_ph w f (map (umap h) args) (option_map h out) = Ok (w', r))
  /\ (readonly_guard is_ro_view (f_name f) args out = false).
Proof.
  unfold handle_ro.
  destruct (existsb (fun a => existsb is_ro_view (objs_of a)) args || match out with Some o => is_ro_view o | None => false end) eqn:E.
  - destruct (readonly_guard _ _ _ _) eqn:G; [discriminate|]. intros Q. split; auto. exists un_ro; split; auto.
  - intros Q. split.
    + exists (fun o => o). split; auto.
      assert (U : forall l, map (umap (fun o => o)) l = l).
      { induction l as [|a l IH]; simpl; auto. rewrite IH. f_equal. destruct a; simpl; auto. now rewrite map_id. }
      rewrite U. destruct out; exact Q.
    + apply orb_false_iff in E as [E1 E2]. unfold readonly_guard.
      destruct out as [o|]; simpl in *; [rewrite E2|]; rewrite orb_false_r;
      destruct args as [|[o1|] args]; simpl in *; try (now rewrite andb_false_r);
      apply orb_false_iff in E1 as [E1 _]; rewrite orb_false_r in E1; rewrite E1; now rewrite andb_false_r.
Qed.
Definition ctx_ro (w : world) (o : obj) : bool :=
  match o with OCtx => match w_mode w with BUFFER => false | _ => true end | ORo _ => true | _ => false end.
Lemma call_cases w f args out w' r : call w f args out = Ok (w', r) ->
  (w' = w /\ r = OCtx)
  \/ ((handle_ro w f (map (umap (cconv w)) args) (option_map (cconv w) out) = Ok (w', r)
       \/ (handle_ro w f args out = Ok (w', r)))
      /\ readonly_guard (ctx_ro w) (f_name f) args out = false).
Proof.
  unfold call.
  destruct (existsb (fun a => existsb is_ctx (objs_of a)) args || match out with Some o => is_ctx o | None => false end) eqn:E.
  - assert (K : (let is_ro o := ctx_ro w o in
      if readonly_guard is_ro (f_name f) args out then Raise RuntimeError
      else
        let conv o := match o with OCtx => torch_function_data w (f_name f) | _ => Ok o end in
        args' <- mapM (map_arg conv) args ;;
        out' <- match out with Some o => o' <- conv o ;; Ok (Some o') | None => Ok None end ;;
        handle_ro w f args' out') = Ok (w', r) ->
      handle_ro w f (map (umap (cconv w)) args) (option_map (cconv w) out) = Ok (w', r)
      /\ readonly_guard (ctx_ro w) (f_name f) args out = false).
    { cbv zeta. change (fun o => ctx_ro w o) with (ctx_ro w).
      destruct (readonly_guard (ctx_ro w) (f_name f) args out) eqn:G; [discriminate|].
      set (conv := fun o => match o with OCtx => torch_function_data w (f_name f) | _ => Ok o end).
      assert (HC : forall o o', conv o = Ok o' -> o' = cconv w o).
      { intros o o'. unfold conv, cconv, torch_function_data. destruct o; try (intros Q; injection Q as <-; auto; fail).
        destruct (w_mode w); try (intros Q; injection Q as <-; auto; fail).
        destruct (is_metadata (f_name f)); intros Q; [injection Q as <-; auto|discriminate]. }
      destruct (mapM (map_arg conv) args) as [args'|] eqn:E1; cbn [bind]; [|discriminate].
      apply (mapM_conv _ _ _ _ HC) in E1. subst args'.
      destruct out as [o|]; cbn [bind option_map]; auto. change (match o with OCtx => torch_function_data w (f_name f) | _ => Ok o end) with (conv o).
      destruct (conv o) as [o'|] eqn:E2; cbn [bind]; [|discriminate].
      apply HC in E2; subst. auto. }
    destruct (String.eqb (f_name f) "requires_grad_").
    + destruct args as [|[[| | | |]|] args]; try (intros Q; apply K in Q; right; tauto).
      intros Q; injection Q as <- <-; auto.
    + intros Q; apply K in Q; right; tauto.
  - intros Q. right. split; auto.
    destruct (handle_ro_cases _ _ _ _ _ _ Q) as [_ G].
    apply orb_false_iff in E as [E1 E2]. revert G. unfold readonly_guard. intros G. apply orb_false_iff in G as [G1 G2].
    apply orb_false_iff; split.
    + destruct args as [|[o|] args]; simpl in *; try (now rewrite andb_false_r).
      destruct o; simpl in *; auto; discriminate.
    + destruct out as [o|]; auto. destruct o; simpl in *; auto; discriminate.
Qed.

(** ** With digital scales nothing reachable through the context writes the tile *)
Lemma call_scaled w f args out w' r : get_scales (w_tile w) <> None ->
  Forall not_raw2 (all_objs args out) -> call w f args out = Ok (w', r) ->
  raw_of w' = raw_of w /\ get_scales (w_tile w') = get_scales (w_tile w) /\ not_raw2 r.
Proof.
  intros S F E. rewrite Forall_forall in F.
  assert (N2 : not_raw2 OCtx /\ not_raw2 OPh /\ not_raw2 OMeta /\ not_raw2 (OPlain MCopy) /\ not_raw2 (OPlain MOther))
    by (repeat split; discriminate).
  destruct N2 as (N1 & N2 & N3 & N4 & N5).
  assert (HX : forall (h : obj -> obj), (forall o, not_raw2 o -> not_raw2 (h o)) ->
     exec w f (map (umap h) args) (option_map h out) = (w', r) ->
     raw_of w' = raw_of w /\ get_scales (w_tile w') = get_scales (w_tile w) /\ not_raw2 r).
  { intros h Hh X. pose proof (exec_raw _ _ _ _ _ _ X) as A. rewrite targets_umap in A.
    destruct A as (A & B & C).
    { apply Forall_forall. intros o Ho. apply in_map_iff in Ho as [p [<- Hp]]. apply targets_in in Hp.
      apply (Hh p), F, Hp. }
    split; auto. split; auto.
    apply (exec_result not_raw2 _ _ _ _ _ _ X); auto.
    - intros _ o Ho _ _. rewrite first_umap in Ho. apply in_map_iff in Ho as [p [<- Hp]]. apply Hh, F. now apply first_in.
    - intros o Eo. destruct out as [p|]; [|discriminate]. injection Eo as <-. apply Hh, F, out_in. }
  assert (C1 : forall o, not_raw2 o -> not_raw2 (cconv w o)).
  { intros o Ho. destruct o; simpl; auto. destruct (w_mode w); auto; [|split; discriminate].
    unfold ctx_logical_mem. destruct (get_scales (w_tile w)); auto. congruence. }
  assert (C2 : forall o, not_raw2 o -> not_raw2 (un_ro o)).
  { intros o [H1 H2]. destruct o as [|[]| |[]|]; simpl; split; try discriminate; try congruence. }
  assert (C3 : forall o, not_raw2 o -> not_raw2 (un_ph o)) by (intros o Ho; destruct o; simpl; auto).
  assert (PH : forall h, (forall o, not_raw2 o -> not_raw2 (h o)) ->
     handle_ph w f (map (umap h) args) (option_map h out) = Ok (w', r) ->
     raw_of w' = raw_of w /\ get_scales (w_tile w') = get_scales (w_tile w) /\ not_raw2 r).
  { intros h Hh Q. apply handle_ph_cases in Q as [(-> & -> & _)|[Q|[Q _]]]; auto.
    2:{ apply (HX h); auto. }
    apply (HX (fun o => un_ph (h o))); auto. rewrite map_map in Q.
    replace (map (umap (fun o => un_ph (h o))) args) with (map (fun x => umap un_ph (umap h x)) args).
    + destruct out; exact Q.
    + apply map_ext. intros [o|l]; simpl; auto. now rewrite map_map. }
  assert (RO : forall h, (forall o, not_raw2 o -> not_raw2 (h o)) ->
     handle_ro w f (map (umap h) args) (option_map h out) = Ok (w', r) ->
     raw_of w' = raw_of w /\ get_scales (w_tile w') = get_scales (w_tile w) /\ not_raw2 r).
  { intros h Hh Q. apply handle_ro_cases in Q as [(k & Hk & Q) _].
    apply (PH (fun o => k (h o))).
    - intros o Ho. destruct Hk as [-> | ->]; auto.
    - rewrite map_map in Q.
      replace (map (umap (fun o => k (h o))) args) with (map (fun x => umap k (umap h x)) args).
      + destruct out; exact Q.
      + apply map_ext. intros [o|l]; simpl; auto. now rewrite map_map. }
  apply call_cases in E as [(-> & ->)|[[Q|Q] _]]; auto.
  - apply (RO (cconv w)); auto.
  - apply (RO (fun o => o)); auto.
    assert (U : forall l, map (umap (fun o => o)) l = l).
    { induction l as [|a l IH]; simpl; auto. rewrite IH. f_equal. destruct a; simpl; auto. now rewrite map_id. }
    rewrite U. destruct out; exact Q.
Qed.

Lemma geto_in (P : obj -> Prop) l n : P OMeta -> Forall P l -> P (geto l n).
Proof. intros M F. unfold geto. destruct (nth_in_or_default n l OMeta) as [H| ->]; auto. rewrite Forall_forall in F; auto. Qed.
Lemma geta_all (P : obj -> Prop) l args out : P OMeta -> Forall P l ->
  Forall P (all_objs (map (geta l) args) (option_map (geto l) out)).
Proof.
  intros M F. unfold all_objs. apply Forall_app; split.
  - apply Forall_forall. intros o Ho. apply in_concat in Ho as [k [Hk Ho]]. apply in_map_iff in Hk as [a [<- Ha]].
    apply in_map_iff in Ha as [i [<- _]]. destruct i as [n|ns]; simpl in Ho.
    + destruct Ho as [<-|[]]. now apply geto_in.
    + apply in_map_iff in Ho as [n [<- _]]. now apply geto_in.
  - destruct out; simpl; constructor; auto. now apply geto_in.
Qed.

Lemma crun_scaled c w p : get_scales (w_tile w) <> None ->
  raw_of (fst (crun c w p)) = raw_of w /\ get_scales (w_tile (fst (crun c w p))) = get_scales (w_tile w).
Proof.
  intros S. unfold crun.
  assert (K : forall p s, get_scales (w_tile (fst s)) = get_scales (w_tile w) -> raw_of (fst s) = raw_of w -> Forall not_raw2 (snd s) ->
     raw_of (fst (fold_left (cstep c) p s)) = raw_of w /\ get_scales (w_tile (fst (fold_left (cstep c) p s))) = get_scales (w_tile w)).
  { clear p. induction p as [|o p IH]; intros [v objs] Hs Hr F; simpl in *; auto.
    assert (Sv : get_scales (w_tile v) <> None) by congruence.
    apply IH.
    - destruct o; simpl; auto.
      + destruct (geto objs n) as [| | |[]|]; simpl; auto.
      + destruct (call v f _ _) as [[w' r]|] eqn:E; auto. simpl.
        apply call_scaled in E as (A & B & _); auto; [congruence|]. apply geta_all; auto; split; discriminate.
    - destruct o; simpl; auto.
      + destruct (geto objs n) as [| | |m|] eqn:G; simpl; auto. destruct m; simpl; auto. exfalso.
        assert (Q : not_raw2 (geto objs n)) by (apply geto_in; auto; split; discriminate). rewrite G in Q. destruct Q; congruence.
      + destruct (call v f _ _) as [[w' r]|] eqn:E; auto. simpl.
        apply call_scaled in E as (A & B & _); auto; [congruence|]. apply geta_all; auto; split; discriminate.
    - destruct o; simpl; auto.
      + apply Forall_app; split; auto. constructor; auto. unfold public_data, ctx_logical_mem.
        destruct (w_mode v); [| |]; split; try discriminate; destruct (get_scales (w_tile v)); congruence.
      + destruct (geto objs n); simpl; auto.
      + destruct (call v f _ _) as [[w' r]|] eqn:E; auto. simpl.
        apply call_scaled in E as (A & B & C); auto; [|apply geta_all; auto; split; discriminate].
        apply Forall_app; auto. }
  apply K; simpl; auto. constructor; auto. split; discriminate.
Qed.

(** ** Without scales: programs that create no view and pass no list to an in-place
    function *)
Lemma inplace_spec name : inplace_name name -> is_inplace_operation name = true.
Proof.
  intros (p & x & N & ->). unfold is_inplace_operation.
  assert (E : list_ascii_of_string (p ++ String x "_") = (list_ascii_of_string p ++ [x; "_"%char])%list).
  { clear. induction p as [|a p IH]; simpl; auto. now rewrite IH. }
  rewrite E, rev_app_distr. simpl. apply negb_true_iff, Ascii.eqb_neq, N.
Qed.
Lemma call_unscaled w f args out w' r :
  follows_convention f -> no_view f ->
  match f_kind f, args with FInplace _, AList _ :: _ => False | _, _ => True end ->
  Forall not_raw (all_objs args out) -> call w f args out = Ok (w', r) ->
  raw_of w' = raw_of w /\ not_raw r.
Proof.
  intros Cv Nv Ls F E. rewrite Forall_forall in F.
  assert (N : not_raw OCtx /\ not_raw OPh /\ not_raw OMeta /\ not_raw (OPlain MCopy) /\ not_raw (OPlain MOther))
    by (repeat split; discriminate).
  destruct N as (N1 & N2 & N3 & N4 & N5).
  (* h resolves wrappers; targets and result must not become raw *)
  assert (HX : forall (h : obj -> obj),
     (forall o, In o (targets f args out) -> not_raw (h o)) ->
     exec w f (map (umap h) args) (option_map h out) = (w', r) ->
     raw_of w' = raw_of w /\ not_raw r).
  { intros h Ht X. pose proof (exec_raw _ _ _ _ _ _ X) as A. rewrite targets_umap in A.
    destruct A as (A & B & C).
    { apply Forall_forall. intros o Ho. apply in_map_iff in Ho as [p [<- Hp]]. auto. }
    split; auto.
    apply (exec_result not_raw _ _ _ _ _ _ X); auto.
    - intros Eo o Ho K1 K2. destruct out; [discriminate|]. rewrite first_umap in Ho. apply in_map_iff in Ho as [p [<- Hp]].
      apply Ht. unfold targets, no_view in *. destruct (f_kind f) eqn:K; auto; try congruence; exfalso; eapply K2; eauto.
    - intros o Eo. destruct out as [p|]; [|discriminate]. injection Eo as <-. apply Ht. simpl; auto. }
  assert (T : readonly_guard (ctx_ro w) (f_name f) args out = false ->
     forall o, In o (targets f args out) -> ctx_ro w o = false /\ not_raw o).
  { intros G o Ho. pose proof (targets_in _ _ _ _ Ho) as Hi. split; [|apply F, Hi].
    unfold readonly_guard in G. apply orb_false_iff in G as [G1 G2]. unfold targets in Ho.
    destruct out as [q|]; [destruct Ho as [<-|[]]; exact G2|].
    unfold follows_convention in Cv. destruct (f_kind f) eqn:K; try contradiction.
    rewrite (inplace_spec _ Cv) in G1. simpl in G1. destruct args as [|[q|l] args]; simpl in *; try contradiction.
    destruct Ho as [<-|[]]. exact G1. }
  assert (R1 : forall o, ctx_ro w o = false -> not_raw o -> not_raw (un_ph (un_ro (cconv w o)))
      /\ not_raw (un_ph (cconv w o)) /\ not_raw (un_ro (cconv w o)) /\ not_raw (cconv w o) /\ not_raw (un_ph (un_ro o)) /\ not_raw (un_ro o) /\ not_raw (un_ph o)).
  { intros o G H. destruct o as [| | |m|]; simpl in *; try discriminate.
    - destruct (w_mode w); try discriminate. repeat split; discriminate.
    - repeat split; discriminate.
    - repeat split; auto.
    - repeat split; discriminate. }
  assert (MM : forall (h k : obj -> obj), map (umap k) (map (umap h) args) = map (umap (fun o => k (h o))) args
             /\ option_map k (option_map h out) = option_map (fun o => k (h o)) out).
  { intros h k. split; [|destruct out; auto]. rewrite map_map. apply map_ext. intros [o|l]; simpl; auto. now rewrite map_map. }
  assert (U : forall l, map (umap (fun o => o)) l = l).
  { induction l as [|a l IH]; simpl; auto. rewrite IH. f_equal. destruct a; simpl; auto. now rewrite map_id. }
  assert (U2 : option_map (fun o : obj => o) out = out) by (destruct out; auto).
  assert (PH : forall h, (forall o, In o (targets f args out) -> not_raw (h o) /\ not_raw (un_ph (h o))) ->
     handle_ph w f (map (umap h) args) (option_map h out) = Ok (w', r) ->
     raw_of w' = raw_of w /\ not_raw r).
  { intros h Hh Q. apply handle_ph_cases in Q as [(-> & -> & _)|[Q|[Q _]]]; auto.
    - destruct (MM h un_ph) as [M1 M2]. rewrite M1, M2 in Q. apply (HX (fun o => un_ph (h o))); auto. intros; now apply Hh.
    - apply (HX h); auto. intros; now apply Hh. }
  apply call_cases in E as [(-> & ->)|[[Q|Q] G]]; auto; specialize (T G).
  - apply handle_ro_cases in Q as [(k & Hk & Q) _]. destruct (MM (cconv w) k) as [M1 M2]. rewrite M1, M2 in Q.
    apply (PH _) in Q; auto. intros o Ho. destruct (T o Ho) as [T1 T2]. destruct (R1 o T1 T2) as (?&?&?&?&?&?&?).
    destruct Hk as [-> | ->]; auto.
  - apply handle_ro_cases in Q as [(k & Hk & Q) _].
    apply (PH _) in Q; auto. intros o Ho. destruct (T o Ho) as [T1 T2]. destruct (R1 o T1 T2) as (?&?&?&?&?&?&?).
    destruct Hk as [-> | ->]; auto.
Qed.

Lemma crun_plain c w p : Forall plain_call p -> raw_of (fst (crun c w p)) = raw_of w.
Proof.
  unfold crun. intros Fp.
  assert (K : forall p s, Forall plain_call p -> raw_of (fst s) = raw_of w -> Forall not_raw (snd s) ->
     raw_of (fst (fold_left (cstep c) p s)) = raw_of w).
  { clear p Fp. induction p as [|o p IH]; intros [v objs] Fp Hr F; simpl in *; auto.
    inversion Fp as [|? ? Po Fp']; subst. apply IH; auto.
    - destruct o; simpl in *; auto.
      + destruct (geto objs n) as [| | |m|] eqn:G; simpl; auto. destruct m; simpl; auto. exfalso.
        assert (Q : not_raw (geto objs n)) by (apply geto_in; auto; discriminate). rewrite G in Q. apply Q; auto.
      + destruct (call v f _ _) as [[w' r]|] eqn:E; auto. simpl. destruct Po as (P1 & P2 & P3).
        apply call_unscaled in E as (A & B); auto; [congruence| |apply geta_all; auto; discriminate].
        destruct (f_kind f); auto. destruct args as [|[|]]; simpl; auto.
    - destruct o; simpl in *; auto.
      + apply Forall_app; split; auto. constructor; auto. unfold public_data. destruct (w_mode v); discriminate.
      + destruct (geto objs n); simpl; auto.
      + destruct (call v f _ _) as [[w' r]|] eqn:E; auto. simpl. destruct Po as (P1 & P2 & P3).
        apply call_unscaled in E as (A & B); auto; [apply Forall_app; auto| |apply geta_all; auto; discriminate].
        destruct (f_kind f); auto. destruct args as [|[|]]; simpl; auto. }
  apply K; simpl; auto. constructor; auto. discriminate.
Qed.

(** ** Placeholder mode yields nothing derived from the weights *)
Definition blind (o : obj) : Prop := o = OCtx \/ o = OPh \/ o = OPlain MOther \/ o = OMeta.
Lemma call_blind w f args out w' r : w_mode w = PLACEHOLDER ->
  Forall blind (all_objs args out) -> call w f args out = Ok (w', r) ->
  w_mode w' = PLACEHOLDER /\ blind r /\ raw_of w' = raw_of w.
Proof.
  intros Mo F E. rewrite Forall_forall in F.
  assert (B1 : blind OMeta) by (unfold blind; auto). assert (B2 : blind (OPlain MOther)) by (unfold blind; auto).
  assert (B3 : blind OPh) by (unfold blind; auto). assert (B4 : blind OCtx) by (unfold blind; auto).
  assert (HX : forall h, (forall o, blind o -> blind (h o)) -> exec w f (map (umap h) args) (option_map h out) = (w', r) ->
     w_mode w' = PLACEHOLDER /\ blind r /\ raw_of w' = raw_of w).
  { intros h Hh X. pose proof (exec_raw _ _ _ _ _ _ X) as A. rewrite targets_umap in A.
    destruct A as (A & B & C).
    { apply Forall_forall. intros o Ho. apply in_map_iff in Ho as [p [<- Hp]]. apply targets_in in Hp.
      destruct (Hh p (F p Hp)) as [-> |[-> |[-> | ->]]]; discriminate. }
    split; [congruence|]. split; auto.
    unfold exec in X. destruct out as [o|]; simpl in X.
    - injection X as _ <-. apply Hh, F, out_in.
    - assert (FB : forall o, In o (first_objs (map (umap h) args)) -> blind o).
      { intros o Ho. rewrite first_umap in Ho. apply in_map_iff in Ho as [p [<- Hp]]. apply Hh, F. now apply first_in. }
      unfold first_objs in FB. set (fo := match map (umap h) args with a :: _ => objs_of a | [] => [] end) in *.
      assert (RB : blind (match fo with o :: _ => o | [] => OMeta end)).
      { destruct fo; auto. apply FB; simpl; auto. }
      destruct (f_kind f); injection X as _ <-; auto.
      destruct RB as [-> |[-> |[-> | ->]]]; auto. }
  assert (C1 : forall o, blind o -> blind (cconv w o)).
  { intros o [-> |[-> |[-> | ->]]]; simpl; auto. rewrite Mo; auto. }
  assert (C2 : forall o, blind o -> blind (un_ro o)) by (intros o [-> |[-> |[-> | ->]]]; simpl; auto).
  assert (C3 : forall o, blind o -> blind (un_ph o)) by (intros o [-> |[-> |[-> | ->]]]; simpl; auto).
  assert (MM : forall (h k : obj -> obj), map (umap k) (map (umap h) args) = map (umap (fun o => k (h o))) args
             /\ option_map k (option_map h out) = option_map (fun o => k (h o)) out).
  { intros h k. split; [|destruct out; auto]. rewrite map_map. apply map_ext. intros [o|l]; simpl; auto. now rewrite map_map. }
  assert (PH : forall h, (forall o, blind o -> blind (h o)) ->
     handle_ph w f (map (umap h) args) (option_map h out) = Ok (w', r) ->
     w_mode w' = PLACEHOLDER /\ blind r /\ raw_of w' = raw_of w).
  { intros h Hh Q. apply handle_ph_cases in Q as [(-> & -> & _)|[Q|[Q _]]]; auto.
    - destruct (MM h un_ph) as [M1 M2]. rewrite M1, M2 in Q. apply (HX (fun o => un_ph (h o))); auto.
    - apply (HX h); auto. }
  apply call_cases in E as [(-> & ->)|[[Q|Q] G]]; auto.
  - apply handle_ro_cases in Q as [(k & Hk & Q) _]. destruct (MM (cconv w) k) as [M1 M2]. rewrite M1, M2 in Q.
    apply (PH _) in Q; auto. destruct Hk as [-> | ->]; auto.
  - apply handle_ro_cases in Q as [(k & Hk & Q) _].
    apply (PH _) in Q; auto. destruct Hk as [-> | ->]; auto.
Qed.
Lemma crun_placeholder c w p : w_mode w = PLACEHOLDER -> Forall stays_placeholder p ->
  Forall blind (snd (crun c w p)) /\ raw_of (fst (crun c w p)) = raw_of w.
Proof.
  unfold crun. intros Mo Fp.
  assert (K : forall p s, Forall stays_placeholder p -> w_mode (fst s) = PLACEHOLDER -> raw_of (fst s) = raw_of w -> Forall blind (snd s) ->
     Forall blind (snd (fold_left (cstep c) p s)) /\ raw_of (fst (fold_left (cstep c) p s)) = raw_of w).
  { clear p Fp. induction p as [|o p IH]; intros [v objs] Fp Hm Hr F; simpl in *; auto.
    inversion Fp as [|? ? Po Fp']; subst.
    assert (BM : blind OMeta) by (unfold blind; auto).
    assert (Q : w_mode (fst (cstep c (v, objs) o)) = PLACEHOLDER /\ raw_of (fst (cstep c (v, objs) o)) = raw_of w
       /\ Forall blind (snd (cstep c (v, objs) o))).
    { destruct o; simpl in *; auto.
      - repeat split; auto. apply Forall_app; split; auto. constructor; auto. unfold public_data. rewrite Hm. unfold blind; auto.
      - pose proof (geto_in blind objs n BM F) as B. destruct B as [-> |[-> |[-> | ->]]]; simpl; auto.
      - destruct (call v f _ _) as [[w' r]|] eqn:E; auto. simpl.
        apply call_blind in E as (A & B & C); auto; [|apply geta_all; auto].
        repeat split; auto; [congruence|]. apply Forall_app; auto. }
    destruct Q as (Q1 & Q2 & Q3). apply IH; auto. }
  apply K; simpl; auto. constructor; auto. unfold blind; auto.
Qed.

(** ** The data view shows exactly the logical weights *)
Lemma firstn_removelast {A} (r : list A) n : length r = S n -> firstn n r = removelast r.
Proof. intros H. rewrite removelast_firstn_len, H. reflexivity. Qed.
Lemma data_view_logical c t : reachable c t -> ctx_logical_data c t = fst (get_weights c true t).
Proof.
  intros R. pose proof (wf_w _ _ (reachable_wf c t R)) as [_ FW].
  assert (E : ctx_logical_raw c t = fst (separate_weights c (t_w t))).
  { unfold ctx_logical_raw, separate_weights. unfold xs in FW. destruct (analog_bias c); auto. simpl.
    apply map_ext_in. intros r Hr. rewrite Forall_forall in FW. apply firstn_removelast, FW, Hr. }
  unfold ctx_logical_data, get_weights. rewrite E. destruct (separate_weights c (t_w t)) as [w b]; simpl.
  destruct (get_scales t); reflexivity.
Qed.
Lemma buffer_zero c t : reachable c t ->
  shape (c_out c) (c_in c) (new_data_buffer c t) /\ Forall (Forall (eq 0)) (new_data_buffer c t).
Proof.
  intros R. pose proof (wf_w _ _ (reachable_wf c t R)) as [LW FW]. unfold new_data_buffer, ctx_logical_raw, xs in *.
  rewrite Forall_forall in FW.
  split; [split|].
  - rewrite map_length. destruct (analog_bias c); rewrite ?map_length; auto.
  - apply Forall_forall. intros r Hr. apply in_map_iff in Hr as [q [<- Hq]]. rewrite map_length.
    destruct (analog_bias c); auto. apply in_map_iff in Hq as [p [<- Hp]]. rewrite firstn_length, (FW p Hp). lia.
  - apply Forall_forall. intros r Hr. apply in_map_iff in Hr as [q [<- Hq]].
    apply Forall_forall. intros z Hz. apply in_map_iff in Hz as [? [<- _]]. reflexivity.
Qed.
