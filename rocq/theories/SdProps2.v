(** * C123-C128: whole models *)
From Verif Require Import Prelude SdModel SdProps.
Local Open Scope nat_scope.

Section Props.
Context {D E V : Type} (isinst : nat -> nat -> bool) (names_of : D -> list string) (fresh : cfg D -> nat * nat -> sim E).
Notation tile := (tile E).
Notation state := (state E).
Notation heap := (heap D).
Notation item := (item E V).
Notation set_state := (set_state names_of fresh).
Notation load_tile := (load_tile isinst names_of fresh).
Notation get_state := (get_state names_of).
Notation load_items := (load_items isinst names_of fresh).
Notation load_state_dict := (load_state_dict isinst names_of fresh).
Notation state_dict := (state_dict names_of).
Notation dict := (dict E V).

(** ** specification *)
(** the model [b] has the structure of the model [a]: the same names in the same order, tiles of the same size and class *)
Definition alike (hp hp1 : heap) (a b : item) : Prop :=
  match a, b with
  | Tile n t, Tile n' t' => n' = n /\ t_dims t' = t_dims t /\ t_class t = cf_tile (hp (t_cfg t)) /\ cf_tile (hp1 (t_cfg t')) = t_class t
  | Param n _, Param n' _ => n' = n
  | _, _ => False
  end.
(** the item [b] has the contents of [a] *)
Definition same_contents (a b : item) : Prop :=
  match a, b with
  | Tile n t, Tile n' t' => n' = n /\ t_sim t' = t_sim t /\ t_cfg t' = t_cfg t
  | Param n v, Param n' v' => n' = n /\ v' = v
  | _, _ => False
  end.
Definition sound (hp : heap) (i : item) : Prop := match i with Tile _ t => wf names_of hp t | Param _ _ => True end.
Definition config_of (i : item) : list nat := match i with Tile _ t => [t_cfg t] | Param _ _ => [] end.

(** ** lemmas *)
Lemma load_tile_frame ctx hp t (s : state) :
  let '(_, t', _) := load_tile ctx hp t s in
  t_class t' = t_class t /\ t_dims t' = t_dims t /\ t_load t' = t_load t /\ t_strict t' = t_strict t.
Proof.
  unfold SdModel.load_tile. destruct (t_load t) eqn:El; [|destruct (compatible _ _ _ _)].
  - pose proof (set_state_cases names_of fresh ctx hp t s) as H. destruct (SdModel.set_state _ _ _ _ _ _) as [[h t'] r]. destruct H as [_ (A & B & C & F & _)]. rewrite <- El. auto.
  - set (s' := {| s_class := _ |}). pose proof (set_state_cases names_of fresh ctx hp t s') as H. destruct (SdModel.set_state _ _ _ _ _ _) as [[h t'] r]. destruct H as [_ (A & B & C & F & _)]. rewrite <- El. auto.
  - auto.
Qed.
Lemma find_map (f : item -> string * entry E V) (m : list item) i : (forall x, fst (f x) = item_name x) -> NoDup (map item_name m) -> List.In i m ->
  find (item_name i) (map f m) = Some (snd (f i)).
Proof.
  intros Hf. induction m as [|x r IH]; intros Nd Hi; [contradiction|]. cbn in *. inversion Nd as [|? ? Nx Nr]; subst. specialize (Hf x) as Hx. destruct (f x) as [k e] eqn:Ef. cbn in Hx. subst k.
  destruct Hi as [->|Hi].
  - rewrite String.eqb_refl. rewrite Ef. reflexivity.
  - destruct (String.eqb_spec (item_name i) (item_name x)) as [e'|_]; [|apply IH; auto]. exfalso. apply Nx. rewrite <- e'. apply in_map. exact Hi.
Qed.
Lemma hput_id (hp hp1 : heap) r c : (forall q, hp1 q = hp q) -> c = hp r -> forall q, hput hp1 r c q = hp q.
Proof. intros H1 H2 q. unfold hput. destruct (Nat.eqb_spec q r); [congruence|apply H1]. Qed.
(** loading into a tile of the same class does not change the configuration object *)
Lemma set_state_heap ctx hp t (s : state) : cf_tile (hp (t_cfg t)) = cf_tile (hp (s_cfg s)) -> forall q, fst (fst (set_state ctx hp t s)) q = hp q.
Proof.
  intros H q. unfold SdModel.set_state. destruct (negb _); [reflexivity|]. cbv zeta.
  assert (G : forall q, hput hp (s_cfg s) {| cf_class := cf_class (hp (s_cfg s)); cf_tile := cf_tile (hp (t_cfg t)); cf_any := cf_any (hp (s_cfg s)); cf_map := cf_map (hp (s_cfg s)); cf_dev := cf_dev (hp (s_cfg s)) |} q = hp q).
  { apply hput_id; [reflexivity|]. rewrite H. destruct (hp (s_cfg s)); reflexivity. }
  destruct (_ && _); [apply G|]. destruct (negb _); [apply G|]. destruct (negb _); apply G.
Qed.

Lemma load_items_round ctx (hp hp0 hp1 : heap) (d : dict) (m m1 : list item) : no_hidden_fresh names_of fresh ->
  (forall q, hp1 q = hp0 q) -> (forall i r, List.In i m -> List.In r (config_of i) -> hp0 r = hp r) ->
  Forall2 (alike hp hp0) m m1 -> Forall (sound hp) m ->
  (forall i, List.In i m -> find (item_name i) d = Some (match i with Tile _ t => St (get_state hp t) | Param _ v => Val v end)) ->
  (forall n t, List.In (Tile n t) m1 -> t_load t = true) ->
  exists hp2 m2, load_items ctx hp1 d m1 = (hp2, m2, Done, []) /\ (forall q, hp2 q = hp0 q) /\ Forall2 same_contents m m2.
Proof.
  intros Nf. revert ctx hp1 m1. induction m as [|a r IH]; intros ctx hp1 m1 H1 Hc Fa Fs Hd Hl; inversion Fa as [|? b ? r1 Ab Fr]; subst.
  { exists hp1, []. split; [reflexivity|]. split; [exact H1|constructor]. }
  inversion Fs as [|? ? Sa Sr]; subst.
  assert (Hc' : forall i q, List.In i r -> List.In q (config_of i) -> hp0 q = hp q) by (intros i q Hi; apply Hc; right; exact Hi).
  assert (Hd' : forall i, List.In i r -> find (item_name i) d = Some (match i with Tile _ t => St (get_state hp t) | Param _ v => Val v end)) by (intros i Hi; apply Hd; right; exact Hi).
  assert (Hl' : forall n t, List.In (Tile n t) r1 -> t_load t = true) by (intros n t Hi; eapply Hl; right; exact Hi).
  specialize (Hd a (or_introl eq_refl)). cbn [SdModel.load_items].
  destruct a as [n t|n v], b as [n' t'|n' v']; cbn in Ab; try contradiction.
  - destruct Ab as (-> & Ed & Ec & Et). cbn in Hd. rewrite Hd.
    assert (Hca : hp0 (t_cfg t) = hp (t_cfg t)) by (apply (Hc (Tile n t)); [left; reflexivity|left; reflexivity]).
    assert (Lt : t_load t' = true) by (apply (Hl n); left; reflexivity).
    destruct (C123_round_trip isinst names_of fresh ctx hp hp1 t t' Nf Sa) as (hp2 & b' & E1 & [R1 R2] & R3).
    { rewrite H1. exact Hca. } { exact Ed. } { left. rewrite H1. congruence. } { exact Lt. }
    rewrite E1.
    assert (H2 : forall q, hp2 q = hp0 q).
    { intros q. rewrite <- H1. unfold SdModel.load_tile in E1. rewrite Lt in E1. replace hp2 with (fst (fst (set_state ctx hp1 t' (get_state hp t)))) by (rewrite E1; reflexivity).
      apply set_state_heap. rewrite H1. cbn. rewrite H1, Hca. congruence. }
    destruct (IH (Datatypes.S ctx) hp2 r1 H2 Hc' Fr Sr Hd' Hl') as (hp3 & m2 & E2 & H3 & S2). rewrite E2. exists hp3, (Tile n b' :: m2). split; [reflexivity|]. split; [exact H3|].
    constructor; [|exact S2]. cbn. split; [reflexivity|]. split; [exact R1|].
    unfold SdModel.load_tile in E1. rewrite Lt in E1. pose proof (set_state_cases names_of fresh ctx hp1 t' (get_state hp t)) as H. rewrite E1 in H. destruct H as [(_ & K & _) _]. exact K.
  - subst n'. cbn in Hd. rewrite Hd. destruct (IH ctx hp1 r1 H1 Hc' Fr Sr Hd' Hl') as (hp3 & m2 & E2 & H3 & S2). rewrite E2. exists hp3, (Param n v :: m2). split; [reflexivity|]. split; [exact H3|]. constructor; [|exact S2]. split; reflexivity.
Qed.

(** ** C123: saving a model and loading the dictionary later, into the same model or another one of the same structure,
    restores everything, whatever the loading model contained; the heap of configurations is unchanged *)
Theorem C123_model_round_trip ctx (hp hp1 : heap) (m m1 : list item) strict l sc : no_hidden_fresh names_of fresh ->
  NoDup (map item_name m) -> Forall (sound hp) m -> (forall i r, List.In i m -> List.In r (config_of i) -> hp1 r = hp r) ->
  Forall2 (alike hp hp1) m m1 -> (l = Some true \/ l = None /\ forall n t, List.In (Tile n t) m1 -> t_load t = true) ->
  exists hp2 m2, load_state_dict ctx hp1 (state_dict hp m) strict l sc m1 = (hp2, m2, state_dict hp m, Done, ([], []))
    /\ (forall q, hp2 q = hp1 q) /\ Forall2 same_contents m m2.
Proof.
  intros Nf Nd Fs Hc Fa Hl. unfold SdModel.load_state_dict.
  assert (Ef : filter (fun p => negb (is_empty_ctx p)) (state_dict hp m) = state_dict hp m).
  { clear. induction m as [|[n t|n v] r IH]; cbn; [reflexivity| |]; f_equal; exact IH. }
  rewrite Ef.
  set (g := fun i : item => match i with Tile n t => Tile n (set_flags l sc t) | Param n v => Param n v end).
  assert (Fg : Forall2 (alike hp hp1) m (map g m1)).
  { clear - Fa. induction Fa as [|a b r r1 Ab _ IH]; constructor; [|exact IH]. destruct a, b; cbn in *; exact Ab. }
  destruct (load_items_round ctx hp hp1 hp1 (state_dict hp m) m (map g m1) Nf (fun q => eq_refl) Hc Fg Fs) as (hp2 & m2 & E1 & H1 & S1).
  { intros i Hi. unfold SdModel.state_dict. rewrite (find_map _ m i); [|intros [? ?|? ?]; reflexivity|exact Nd|exact Hi]. destruct i; reflexivity. }
  { intros n t Hi. apply in_map_iff in Hi. destruct Hi as ([n0 t0|n0 v0] & Eg & Hi); [|discriminate]. cbn in Eg. injection Eg as <- <-. cbn. destruct Hl as [->|[-> Hl]]; [reflexivity|eapply Hl; exact Hi]. }
  assert (Em : map (fun i : item => match i with Tile n t => Tile n (set_flags l sc t) | Param _ _ => i end) m1 = map g m1) by (apply map_ext; intros [? ?|? ?]; reflexivity).
  rewrite Em, E1.
  assert (Un : unexpected (state_dict hp m) m1 = []).
  { unfold unexpected. assert (Nn : map item_name m1 = map item_name m). { clear - Fa. induction Fa as [|a b r r1 Ab _ IH]; [reflexivity|]. cbn. f_equal; [|exact IH]. destruct a, b; cbn in Ab; try contradiction; [apply Ab|exact Ab]. }
    assert (G : forall p, List.In p (state_dict hp m) -> match snd p with Ctx _ => false | _ => negb (existsb (fun i => String.eqb (item_name i) (fst p)) m1) end = false).
    { intros p Hp. apply in_map_iff in Hp. destruct Hp as (i & Ei & Hi).
      assert (In1 : existsb (fun j => String.eqb (item_name j) (item_name i)) m1 = true).
      { apply existsb_exists. assert (X : List.In (item_name i) (map item_name m1)) by (rewrite Nn; apply in_map; exact Hi). apply in_map_iff in X. destruct X as (j & Ej & Hj). exists j. split; [exact Hj|]. apply String.eqb_eq. exact Ej. }
      destruct i; subst p; cbn in *; rewrite In1; reflexivity. }
    revert G. generalize (state_dict hp m) as q. induction q as [|p q IH]; intros G; [reflexivity|]. cbn. rewrite (G p (or_introl eq_refl)). apply IH. intros p' Hp'. apply G. right. exact Hp'. }
  rewrite Un. exists hp2, m2. destruct (strict && negb (existsb is_empty_ctx (state_dict hp m))); auto.
Qed.

(** ** C124: with load_rpu_config, the tile refers to the configuration object of the dictionary, which is the one of the
    saved tile: there is no copy *)
Theorem C124_config_is_shared ctx (hp hp1 : heap) (a b : tile) hp2 b' : t_load b = true ->
  load_tile ctx hp1 b (get_state hp a) = (hp2, b', Done) -> t_cfg b' = t_cfg a
  /\ forall (change : heap) c, hput change (t_cfg b') c (t_cfg a) = c.
Proof.
  intros Hl E1. unfold SdModel.load_tile in E1. rewrite Hl in E1. pose proof (set_state_cases names_of fresh ctx hp1 b (get_state hp a)) as H. rewrite E1 in H. destruct H as [(_ & K & _) _]. cbn in K.
  split; [exact K|]. intros. rewrite K. apply hput_same.
Qed.
(** ** C125: without load_rpu_config the tile keeps its configuration object and no configuration changes; a mismatch is
    refused with everything unchanged *)
Definition compatible_spec (hp : heap) (t : tile) (r : nat) : Prop :=
  let own := hp (t_cfg t) in let new := hp r in
  (t_strict t = false \/ isinst (cf_class own) (cf_class new) = true \/ isinst (cf_class new) (cf_class own) = true)
  /\ mp_digital_bias (cf_map own) = mp_digital_bias (cf_map new) /\ mp_learn_out (cf_map own) = mp_learn_out (cf_map new)
  /\ mp_out_col (cf_map own) = mp_out_col (cf_map new) /\ mp_max_in (cf_map own) = mp_max_in (cf_map new) /\ mp_max_out (cf_map own) = mp_max_out (cf_map new).
Lemma compatible_iff hp t r : compatible isinst hp t r = true <-> compatible_spec hp t r.
Proof.
  unfold compatible, compatible_spec, mapping_compatible. cbv zeta. rewrite !andb_true_iff, !orb_true_iff, negb_true_iff, !Bool.eqb_true_iff, !Nat.eqb_eq. tauto.
Qed.
Theorem C125_keep_config ctx (hp : heap) (t : tile) (s : state) : t_load t = false ->
  let '(hp', t', res) := load_tile ctx hp t s in
  (forall q, hp' q = hp q) /\ t_cfg t' = t_cfg t
  /\ (res = Done -> compatible_spec hp t (s_cfg s) /\ takes (hp (t_cfg t)) (s_class s)
      /\ sm_w (t_sim t') = clip (sm_h (t_sim t')) (s_w s) /\ (names_of (cf_dev (hp (t_cfg t))) <> [] -> sm_h (t_sim t') = s_h s))
  /\ (~ compatible_spec hp t (s_cfg s) -> res = Fail "TileModuleError" /\ t' = t).
Proof.
  intros Hl. unfold SdModel.load_tile. rewrite Hl. destruct (compatible isinst hp t (s_cfg s)) eqn:Ec.
  2:{ split; [reflexivity|]. split; [reflexivity|]. split; [discriminate|]. auto. }
  apply compatible_iff in Ec. set (s' := {| s_class := s_class s |}).
  pose proof (set_state_heap ctx hp t s' eq_refl) as Hh. pose proof (set_state_cases names_of fresh ctx hp t s') as H.
  destruct (SdModel.set_state _ _ _ _ _ _) as [[hp' t'] res]. cbn [fst] in Hh. split; [exact Hh|]. destruct H as [H _]. cbn [s_cfg s_w s_h s_class s'] in H.
  destruct res as [|e].
  - destruct H as (F & K1 & _ & (K2 & K3) & _). split; [exact K1|]. split; [|intros; contradiction]. intros _. split; [exact Ec|]. split; [exact (proj1 F)|]. split; [rewrite K3, K2; reflexivity|].
    intros Nn. rewrite K2. destruct (names_of (cf_dev (hp (t_cfg t)))); [contradiction|reflexivity].
  - destruct H as (_ & _ & [(_ & _ & ->)|(_ & K & _)]); (split; [auto|]); (split; [discriminate|intros; contradiction]).
Qed.
(** changing the configuration of a tile in place ([replace_with]) keeps the weights (clipped to the hidden bounds) *)
Theorem C125_replace_with ctx r (hp : heap) (t : tile) hp' t' : no_hidden_fresh names_of fresh -> wf names_of hp t ->
  names_of (cf_dev (hp r)) = names_of (cf_dev (hp (t_cfg t))) ->
  replace_with isinst names_of fresh ctx r hp t = (hp', t', Done) ->
  t_cfg t' = r /\ t_sim t' = t_sim t /\ compatible_spec hp t r.
Proof.
  intros Nf (W1 & W2 & W3 & W4) Hn. unfold replace_with. destruct (compatible isinst hp t r) eqn:Ec; [|discriminate]. apply compatible_iff in Ec. cbv zeta. cbn [SdModel.get_state s_class s_w s_h s_names s_lr s_x]. set (s' := {| s_class := _ |}).
  pose proof (set_state_cases names_of fresh ctx hp t s') as H. intros E1. rewrite E1 in H. destruct H as [(F & K1 & _ & (K2 & K3) & K4 & K5) (_ & _ & _ & _ & Hs & _)]. cbn [s_cfg s_w s_h s_class s_lr s_x s'] in *.
  split; [exact K1|]. split; [|exact Ec].
  assert (Eh : sm_h (t_sim t') = sm_h (t_sim t)).
  { rewrite K2. destruct (names_of (cf_dev (hp r))) eqn:En; [|reflexivity]. rewrite (Nf (hp' r)).
    - rewrite <- Hn in W2. cbn in W2. destruct (sm_h (t_sim t)); [reflexivity|discriminate].
    - destruct (Hs r) as (_ & _ & _ & ->). exact En. }
  assert (Ew : sm_w (t_sim t') = sm_w (t_sim t)). { rewrite K3, <- K2, Eh. eapply clip_in; [exact W1|exact W3|exact W4]. }
  assert (El := K4 _ eq_refl). assert (Ex := K5 _ eq_refl). destruct (t_sim t'), (t_sim t). cbn in *. congruence.
Qed.

(** ** C127: the flags of load_state_dict stay in the tiles *)
Record call : Type := { c_dict : dict; c_strict : bool; c_load : option bool; c_check : option bool }.
(** any sequence of calls, whatever their outcome (the user catches exceptions) *)
Definition do_call (st : nat * heap * list item) (c : call) : nat * heap * list item :=
  let '(ctx, hp, m) := st in
  let '(hp', m', _, _, _) := load_state_dict ctx hp (c_dict c) (c_strict c) (c_load c) (c_check c) m in (ctx + List.length m, hp', m').
Definition last_given (d : bool) (l : list (option bool)) : bool := fold_left (fun b o => match o with Some x => x | None => b end) l d.
Definition flags (i : item) : option (bool * bool) := match i with Tile _ t => Some (t_load t, t_strict t) | Param _ _ => None end.
Lemma load_items_flags ctx hp (d : dict) (m : list item) : let '(_, m', _, _) := load_items ctx hp d m in map flags m' = map flags m /\ map item_name m' = map item_name m.
Proof.
  revert ctx hp. induction m as [|[n t|n v] r IH]; intros ctx hp; cbn [SdModel.load_items]; [auto| |].
  - destruct (find n d) as [[s|v|b]|].
    + pose proof (load_tile_frame ctx hp t s) as F. destruct (SdModel.load_tile _ _ _ _ _ _ _) as [[hp1 t'] [|e]]; destruct F as (_ & _ & F1 & F2).
      * specialize (IH (Datatypes.S ctx) hp1). destruct (SdModel.load_items _ _ _ _ _ _ _) as [[[h m'] res] miss]. destruct IH as [I1 I2]. cbn. rewrite F1, F2, I1, I2. auto.
      * cbn. rewrite F1, F2. auto.
    + specialize (IH ctx hp). destruct (SdModel.load_items _ _ _ _ _ _ _) as [[[h m'] res] miss]. destruct IH as [I1 I2]. cbn. rewrite I1, I2. auto.
    + specialize (IH ctx hp). destruct (SdModel.load_items _ _ _ _ _ _ _) as [[[h m'] res] miss]. destruct IH as [I1 I2]. cbn. rewrite I1, I2. auto.
    + specialize (IH ctx hp). destruct (SdModel.load_items _ _ _ _ _ _ _) as [[[h m'] res] miss]. destruct IH as [I1 I2]. cbn. rewrite I1, I2. auto.
  - specialize (IH ctx hp). destruct (SdModel.load_items _ _ _ _ _ _ _) as [[[h m'] res] miss]. destruct IH as [I1 I2]. destruct (find n d) as [[s|v'|b]|]; cbn; rewrite I1, I2; auto.
Qed.
Lemma do_call_flags ctx hp m c : map flags (snd (do_call (ctx, hp, m) c))
  = map (option_map (fun f => (match c_load c with Some x => x | None => fst f end, match c_check c with Some x => x | None => snd f end))) (map flags m).
Proof.
  unfold do_call, SdModel.load_state_dict. cbv zeta. set (m1 := map _ m). pose proof (load_items_flags ctx hp (filter (fun p => negb (is_empty_ctx p)) (c_dict c)) m1) as H.
  destruct (SdModel.load_items _ _ _ _ _ _ _) as [[[h m'] res] miss]. destruct H as [H _]. cbn [snd]. rewrite H. unfold m1. rewrite !map_map. apply map_ext. intros [n t|n v]; reflexivity.
Qed.
Theorem C127_flags_stay (calls : list call) st : 
  map flags (snd (fold_left do_call calls st))
  = map (option_map (fun f => (last_given (fst f) (map c_load calls), last_given (snd f) (map c_check calls)))) (map flags (snd st)).
Proof.
  revert st. induction calls as [|c r IH]; intros [[ctx hp] m]; cbn [fold_left map].
  - cbn. rewrite map_map. apply map_ext. intros [n t|n v]; reflexivity.
  - rewrite IH, do_call_flags, !map_map. apply map_ext. intros [n t|n v]; cbn; [|reflexivity]. unfold last_given. cbn. reflexivity.
Qed.
(** ** C128: what [strict] guarantees *)
Lemma load_items_missing ctx hp (d : dict) (m : list item) : let '(_, m', res, miss) := load_items ctx hp d m in
  res = Done -> forall n, List.In n miss <-> exists i, List.In i m /\ item_name i = n /\ ~ (exists e, find n d = Some e /\ match i, e with Tile _ _, St _ => True | Param _ _, Val _ => True | _, _ => False end).
Proof.
  revert ctx hp. induction m as [|i r IH]; intros ctx hp; cbn [SdModel.load_items]; [intros _ n; split; [contradiction|intros (i & [] & _)]|].
  assert (Step : forall (miss : list string), (forall n, List.In n miss <-> exists i, List.In i r /\ item_name i = n /\ ~ (exists e, find n d = Some e /\ match i, e with Tile _ _, St _ => True | Param _ _, Val _ => True | _, _ => False end)) ->
     forall n, (exists j, List.In j (i :: r) /\ item_name j = n /\ ~ (exists e, find n d = Some e /\ match j, e with Tile _ _, St _ => True | Param _ _, Val _ => True | _, _ => False end))
       <-> List.In n miss \/ item_name i = n /\ ~ (exists e, find n d = Some e /\ match i, e with Tile _ _, St _ => True | Param _ _, Val _ => True | _, _ => False end)).
  { intros miss Hm n. rewrite Hm. split.
    - intros (j & [<-|Hj] & H2); [right; exact H2|left; exists j; auto].
    - intros [(j & Hj & H2)|H2]; [exists j; split; [right; exact Hj|exact H2]|exists i; split; [left; reflexivity|exact H2]]. }
  destruct i as [n0 t|n0 v].
  - destruct (find n0 d) as [[s|v|b]|] eqn:Ef.
    + destruct (SdModel.load_tile _ _ _ _ _ _ _) as [[hp1 t'] [|e]]; [|discriminate]. specialize (IH (Datatypes.S ctx) hp1). destruct (SdModel.load_items _ _ _ _ _ _ _) as [[[h m'] res] miss].
      intros Hr n. specialize (IH Hr). rewrite (Step miss IH n). split; [auto|]. intros [H|[<- H]]; [exact H|]. cbn [item_name] in H. exfalso. apply H. exists (St s). auto.
    + specialize (IH ctx hp). destruct (SdModel.load_items _ _ _ _ _ _ _) as [[[h m'] res] miss]. intros Hr n. specialize (IH Hr). rewrite (Step miss IH n). cbn [List.In item_name]. split; [|tauto]. intros [<-|H]; [|auto]. right. split; [reflexivity|]. intros (e & He & Q). rewrite Ef in He. injection He as <-. exact Q.
    + specialize (IH ctx hp). destruct (SdModel.load_items _ _ _ _ _ _ _) as [[[h m'] res] miss]. intros Hr n. specialize (IH Hr). rewrite (Step miss IH n). cbn [List.In item_name]. split; [|tauto]. intros [<-|H]; [|auto]. right. split; [reflexivity|]. intros (e & He & Q). rewrite Ef in He. injection He as <-. exact Q.
    + specialize (IH ctx hp). destruct (SdModel.load_items _ _ _ _ _ _ _) as [[[h m'] res] miss]. intros Hr n. specialize (IH Hr). rewrite (Step miss IH n). cbn [List.In item_name]. split; [|tauto]. intros [<-|H]; [|auto]. right. split; [reflexivity|]. intros (e & He & Q). congruence.
  - specialize (IH ctx hp). destruct (SdModel.load_items _ _ _ _ _ _ _) as [[[h m'] res] miss]. destruct (find n0 d) as [[s|v'|b]|] eqn:Ef; intros Hr n; specialize (IH Hr); rewrite (Step miss IH n); cbn [List.In item_name].
    + split; [|tauto]. intros [<-|H]; [|auto]. right. split; [reflexivity|]. intros (e & He & Q). rewrite Ef in He. injection He as <-. exact Q.
    + split; [auto|]. intros [H|[<- H]]; [exact H|]. exfalso. apply H. exists (Val v'). auto.
    + split; [|tauto]. intros [<-|H]; [|auto]. right. split; [reflexivity|]. intros (e & He & Q). rewrite Ef in He. injection He as <-. exact Q.
    + split; [|tauto]. intros [<-|H]; [|auto]. right. split; [reflexivity|]. intros (e & He & Q). congruence.
Qed.
(** a strict load that succeeds, of a dictionary without analog_ctx entries of old versions: every item of the model has its
    entry in the dictionary and every entry belongs to an item *)
Theorem C128_strict ctx (hp : heap) (d : dict) l sc (m : list item) hp' m' d' keys :
  (forall n, ~ List.In (n, Ctx true) d) ->
  load_state_dict ctx hp d true l sc m = (hp', m', d', Done, keys) ->
  d' = d /\ (forall i, List.In i m -> exists e, find (item_name i) d = Some e /\ match i, e with Tile _ _, St _ => True | Param _ _, Val _ => True | _, _ => False end)
  /\ (forall n e, List.In (n, e) d -> (forall b, e <> Ctx b) -> exists i, List.In i m /\ item_name i = n).
Proof.
  intros Nc. unfold SdModel.load_state_dict. cbv zeta.
  assert (Ex : existsb is_empty_ctx d = false).
  { destruct (existsb is_empty_ctx d) eqn:X; [|reflexivity]. apply existsb_exists in X. destruct X as ([n e] & Hi & He). destruct e as [| |[|]]; try discriminate. exfalso. exact (Nc n Hi). }
  assert (Ef : filter (fun p => negb (is_empty_ctx p)) d = d).
  { clear - Nc. induction d as [|[n e] r IH]; [reflexivity|]. cbn. destruct (is_empty_ctx (n, e)) eqn:X.
    - destruct e as [| |[|]]; try discriminate. exfalso. apply (Nc n). left. reflexivity.
    - cbn. f_equal. apply IH. intros k Hk. apply (Nc k). right. exact Hk. }
  rewrite Ex, Ef. cbn [negb andb]. set (m1 := map _ m). pose proof (load_items_missing ctx hp d m1) as H. destruct (SdModel.load_items _ _ _ _ _ _ _) as [[[h m2] res] miss].
  destruct res; [|discriminate]. specialize (H eq_refl).
  destruct miss as [|q miss].
  2:{ cbn. discriminate. }
  destruct (unexpected d m) as [|q unx] eqn:Eu; [|discriminate]. cbn. intros [= _ _ <- _]. split; [reflexivity|]. split.
  - intros i Hi. 
    destruct (find (item_name i) d) as [e|] eqn:Ed.
    + assert (G : match i, e with Tile _ _, St _ => True | Param _ _, Val _ => True | _, _ => False end \/ ~ match i, e with Tile _ _, St _ => True | Param _ _, Val _ => True | _, _ => False end) by (destruct i, e; (left; exact I) || (right; intros [])).
      destruct G as [Y|N]; [exists e; auto|]. exfalso.
      apply (H (item_name i)). exists (match i with Tile n t => Tile n (set_flags l sc t) | Param n v => Param n v end). split.
      * unfold m1. apply in_map_iff. exists i. split; [destruct i; reflexivity|exact Hi].
      * split; [destruct i; reflexivity|]. intros (e' & He & Q). rewrite Ed in He. injection He as <-. apply N. destruct i; exact Q.
    + exfalso. apply (H (item_name i)). exists (match i with Tile n t => Tile n (set_flags l sc t) | Param n v => Param n v end). split.
      * unfold m1. apply in_map_iff. exists i. split; [destruct i; reflexivity|exact Hi].
      * split; [destruct i; reflexivity|]. intros (e' & He & Q). congruence.
  - intros n e Hi Ne. destruct (existsb (fun i => String.eqb (item_name i) n) m) eqn:X.
    + apply existsb_exists in X. destruct X as (i & Hm & Q). apply String.eqb_eq in Q. exists i. auto.
    + exfalso. assert (Y : List.In n (unexpected d m)); [|rewrite Eu in Y; exact Y].
      unfold unexpected. apply in_map_iff. exists (n, e). split; [reflexivity|]. apply filter_In. split; [exact Hi|]. cbn. rewrite X. destruct e as [| |b]; try reflexivity. exfalso. exact (Ne b eq_refl).
Qed.
(** an item without an entry keeps its contents, whatever happens to the others *)
Lemma load_items_absent ctx hp (d : dict) (m : list item) n (t : tile) : find n d = None -> List.In (Tile n t) m -> let '(_, m', _, _) := load_items ctx hp d m in List.In (Tile n t) m'.
Proof.
  intros Nf. revert ctx hp. induction m as [|i r IH]; intros ctx hp Hi; [contradiction|]. cbn [SdModel.load_items]. destruct i as [n0 t0|n0 v0].
  - destruct Hi as [[= -> ->]|Hi].
    + rewrite Nf. destruct (SdModel.load_items _ _ _ _ _ _ _) as [[[h m'] res] miss]. left. reflexivity.
    + destruct (find n0 d) as [[s|v|b]|].
      * destruct (SdModel.load_tile _ _ _ _ _ _ _) as [[hp1 t'] [|e]]; [|right; exact Hi]. specialize (IH (Datatypes.S ctx) hp1 Hi). destruct (SdModel.load_items _ _ _ _ _ _ _) as [[[h m'] res] miss]. right. exact IH.
      * specialize (IH ctx hp Hi). destruct (SdModel.load_items _ _ _ _ _ _ _) as [[[h m'] res] miss]. right. exact IH.
      * specialize (IH ctx hp Hi). destruct (SdModel.load_items _ _ _ _ _ _ _) as [[[h m'] res] miss]. right. exact IH.
      * specialize (IH ctx hp Hi). destruct (SdModel.load_items _ _ _ _ _ _ _) as [[[h m'] res] miss]. right. exact IH.
  - destruct Hi as [Hi|Hi]; [discriminate|]. specialize (IH ctx hp Hi). destruct (SdModel.load_items _ _ _ _ _ _ _) as [[[h m'] res] miss]. destruct (find n0 d) as [[s|v|b]|]; right; exact IH.
Qed.
Theorem C128_missing_unchanged ctx (hp : heap) (d : dict) strict l sc (m : list item) n (t : tile) :
  (forall e, ~ List.In (n, e) d) -> List.In (Tile n t) m ->
  let '(_, m', _, _, _) := load_state_dict ctx hp d strict l sc m in List.In (Tile n (set_flags l sc t)) m'.
Proof.
  intros Nd Hi. unfold SdModel.load_state_dict. cbv zeta. set (m1 := map _ m). set (d1 := filter _ d).
  assert (Nf : find n d1 = None).
  { assert (Nd1 : forall e, ~ List.In (n, e) d1) by (intros e He; apply filter_In in He; exact (Nd e (proj1 He))). clearbody d1. clear - Nd1. induction d1 as [|[k e] r IH]; [reflexivity|]. cbn. destruct (String.eqb_spec n k) as [->|_]; [exfalso; apply (Nd1 e); left; reflexivity|]. apply IH. intros e' He. apply (Nd1 e'). right. exact He. }
  pose proof (load_items_absent ctx hp d1 m1 n (set_flags l sc t) Nf) as H.
  assert (Hm : List.In (Tile n (set_flags l sc t)) m1) by (unfold m1; apply in_map_iff; exists (Tile n t); auto). specialize (H Hm).
  destruct (SdModel.load_items _ _ _ _ _ _ _) as [[[h m2] res] miss]. exact H.
Qed.
End Props.

Print Assumptions C123_model_round_trip.
Print Assumptions C124_config_is_shared.
Print Assumptions C125_keep_config.
Print Assumptions C125_replace_with.
Print Assumptions C127_flags_stay.
Print Assumptions C128_strict.
Print Assumptions C128_missing_unchanged.
