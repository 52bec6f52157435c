(** * C123-C126: what a state dictionary restores *)
From Verif Require Import Prelude SdModel.
Local Open Scope nat_scope.

Section Props.
Context {D E V : Type} (isinst : nat -> nat -> bool) (names_of : D -> list string) (fresh : cfg D -> nat * nat -> sim E).
Notation tile := (tile E).
Notation state := (state E).
Notation heap := (heap D).
Notation set_state := (set_state names_of fresh).
Notation load_tile := (load_tile isinst names_of fresh).
Notation get_state := (get_state names_of).

(** ** specification *)
(** a matrix of the size of the tile *)
Definition sized (dims : nat * nat) (w : mat) : Prop := List.length w = fst dims /\ forall r, List.In r w -> List.length r = snd dims.
(** every weight is between its bounds, if the tile has bounds *)
Definition in_bounds (h : list mat) (w : mat) : Prop :=
  match h with
  | mx :: mn :: _ => forall i j, i < List.length w -> j < List.length (nth i w []) ->
      (nth j (nth i mn []) 0 <= nth j (nth i w []) 0 <= nth j (nth i mx []) 0)%R
  | _ => True
  end.
(** the state of a tile: sizes and number of hidden parameters fit, weights are within their bounds *)
Definition wf (hp : heap) (t : tile) : Prop :=
  sized (t_dims t) (sm_w (t_sim t)) /\ List.length (sm_h (t_sim t)) = List.length (names_of (cf_dev (hp (t_cfg t))))
  /\ (forall h, List.In h (sm_h (t_sim t)) -> sized (t_dims t) h) /\ in_bounds (sm_h (t_sim t)) (sm_w (t_sim t)).
(** the RPU configurations accepts a state of this tile class *)
Definition takes (c : cfg D) (tile_class : string) : Prop := tile_class = cf_tile c \/ cf_any c = true /\ tile_class = "TorchInferenceTile"%string.
(** equal up to the name of the tile class *)
Definition cfg_same (a b : cfg D) : Prop := cf_class a = cf_class b /\ cf_any a = cf_any b /\ cf_map a = cf_map b /\ cf_dev a = cf_dev b.
Definition no_hidden_fresh : Prop := forall c d, names_of (cf_dev c) = [] -> sm_h (fresh c d) = [].

(** ** lemmas *)
Lemma accepts_iff c s : cfg_accepts c s = true <-> takes c s.
Proof. unfold cfg_accepts, takes. rewrite orb_true_iff, andb_true_iff, !String.eqb_eq. tauto. Qed.
Lemma sizedb_iff dims w : sizedb dims w = true <-> sized dims w.
Proof.
  unfold sizedb, sized. rewrite andb_true_iff, Nat.eqb_eq, forallb_forall. split; intros [H1 H2]; (split; [exact H1|]); intros r Hr; [apply Nat.eqb_eq|apply Nat.eqb_eq]; auto.
Qed.
Lemma map2_row_id (w b : vec) (f : R -> R -> R) : List.length w <= List.length b -> (forall j, j < List.length w -> f (nth j w 0%R) (nth j b 0%R) = nth j w 0%R) -> map2 f w b = w.
Proof.
  revert b; induction w as [|v r IH]; intros [|c b] L H; cbn in *; try reflexivity; try lia. f_equal; [apply (H 0); lia|]. apply IH; [lia|]. intros j Hj. apply (H (Datatypes.S j)). lia.
Qed.
Lemma map2_mat_id (w b : mat) (f : R -> R -> R) : List.length w <= List.length b -> (forall i, i < List.length w -> List.length (nth i w []) <= List.length (nth i b [])) ->
  (forall i j, i < List.length w -> j < List.length (nth i w []) -> f (nth j (nth i w []) 0%R) (nth j (nth i b []) 0%R) = nth j (nth i w []) 0%R) -> map2 (map2 f) w b = w.
Proof.
  revert b; induction w as [|v r IH]; intros [|c b] L L2 H; cbn in *; try reflexivity; try lia. f_equal.
  - apply map2_row_id; [apply (L2 0); lia|]. intros j Hj. apply (H 0); [lia|exact Hj].
  - apply IH; [lia| |].
    + intros i Hi. apply (L2 (Datatypes.S i)). lia.
    + intros i j Hi. apply (H (Datatypes.S i)). lia.
Qed.
Lemma clip_in dims h (w : mat) : sized dims w -> (forall b, List.In b h -> sized dims b) -> in_bounds h w -> clip h w = w.
Proof.
  intros Hw Hh B. unfold clip. destruct h as [|mx [|mn r]]; try reflexivity. cbn in B.
  assert (Sz : forall b, List.In b (mx :: mn :: r) -> List.length w <= List.length b /\ forall i, i < List.length w -> List.length (nth i w []) <= List.length (nth i b [])).
  { intros b Hb. destruct (Hh b Hb) as [L1 L2], Hw as [L3 L4]. split; [lia|]. intros i Hi. rewrite (L4 (nth i w [])) by (apply nth_In; exact Hi). rewrite (L2 (nth i b [])) by (apply nth_In; lia). lia. }
  assert (E1 : map2 (map2 (fun v b : R => Rmin v b)) w mx = w).
  { apply map2_mat_id; [apply Sz; left; reflexivity|apply Sz; left; reflexivity|]. intros i j Hi Hj. apply Rmin_left. apply B; auto. }
  etransitivity; [apply (f_equal (fun z => map2 (map2 (fun v b : R => Rmax v b)) z mn)); exact E1|].
  apply map2_mat_id; [apply Sz; right; left; reflexivity|apply Sz; right; left; reflexivity|]. intros i j Hi Hj. apply Rmax_left. apply B; auto.
Qed.

(** when loading succeeds, and what it does then *)
Definition fits (hp : heap) (t : tile) (s : state) : Prop :=
  takes (hp (t_cfg t)) (s_class s)
  /\ (s_names s = [] \/ s_names s = names_of (cf_dev (hp (s_cfg s))))
  /\ (names_of (cf_dev (hp (s_cfg s))) = [] \/ List.length (s_h s) = List.length (names_of (cf_dev (hp (s_cfg s)))) /\ forall h, List.In h (s_h s) -> sized (t_dims t) h)
  /\ sized (t_dims t) (s_w s).
Lemma hput_same (h : heap) r c : hput h r c r = c.
Proof. unfold hput. rewrite Nat.eqb_refl. reflexivity. Qed.
Lemma set_state_cases ctx hp t (s : state) :
  let '(hp', t', res) := set_state ctx hp t s in
  match res with
  | Done => fits hp t s /\ t_cfg t' = s_cfg s /\ t_ctx t' = ctx
      /\ (let h := match names_of (cf_dev (hp (s_cfg s))) with [] => sm_h (fresh (hp' (s_cfg s)) (t_dims t)) | _ => s_h s end in sm_h (t_sim t') = h /\ sm_w (t_sim t') = clip h (s_w s))
      /\ (forall l, s_lr s = Some l -> sm_lr (t_sim t') = l) /\ (forall x, s_x s = Some x -> sm_x (t_sim t') = x)
  | Fail _ => ~ fits hp t s /\ t_ctx t' = t_ctx t
      /\ (~ takes (hp (t_cfg t)) (s_class s) /\ hp' = hp /\ t' = t \/ takes (hp (t_cfg t)) (s_class s) /\ t_cfg t' = s_cfg s
          /\ (sm_w (t_sim t') = sm_w (fresh (hp' (s_cfg s)) (t_dims t)) \/ sm_w (t_sim t') = clip (sm_h (t_sim t')) (sm_w (fresh (hp' (s_cfg s)) (t_dims t)))))
  end
  /\ t_class t' = t_class t /\ t_dims t' = t_dims t /\ t_load t' = t_load t /\ t_strict t' = t_strict t
  /\ (forall r, cfg_same (hp' r) (hp r)) /\ (forall r, r <> s_cfg s -> hp' r = hp r)
  /\ (takes (hp (t_cfg t)) (s_class s) -> cf_tile (hp' (s_cfg s)) = cf_tile (hp (t_cfg t))).
Proof.
  unfold SdModel.set_state. cbv zeta. set (c' := {| cf_class := _ |}).
  assert (Hs : forall r, cfg_same (hput hp (s_cfg s) c' r) (hp r)). { intros r. unfold hput. destruct (Nat.eqb_spec r (s_cfg s)); [subst; repeat split|repeat split]. }
  assert (Ho : forall r, r <> s_cfg s -> hput hp (s_cfg s) c' r = hp r). { intros r Hr. unfold hput. destruct (Nat.eqb_spec r (s_cfg s)); [contradiction|reflexivity]. }
  assert (Hl : cf_tile (hput hp (s_cfg s) c' (s_cfg s)) = cf_tile (hp (t_cfg t))) by (rewrite hput_same; reflexivity).
  destruct (cfg_accepts (hp (t_cfg t)) (s_class s)) eqn:Ea; cbn [negb].
  2:{ assert (Nt : ~ takes (hp (t_cfg t)) (s_class s)) by (rewrite <- accepts_iff; congruence).
      split; [split; [intros F; destruct F; contradiction|]; split; [reflexivity|left; auto]|]. repeat split; auto. intros; contradiction. }
  apply accepts_iff in Ea.
  destruct (negb _ && negb _) eqn:En.
  { split; [|split; [reflexivity|split; [reflexivity|split; [reflexivity|split; [reflexivity|split; [exact Hs|split; [exact Ho|intros _; exact Hl]]]]]]].
    split; [|split; [reflexivity|]].
    - intros (_ & F & _). apply andb_true_iff in En. destruct En as [N1 N2]. destruct F as [F|F]; [rewrite F in N1; discriminate|]. cbn [cf_dev c'] in N2. destruct (list_eq_dec string_dec _ _); [discriminate|]. congruence.
    - right. split; [exact Ea|]. split; [reflexivity|]. left. rewrite hput_same. reflexivity. }
  assert (Nm : s_names s = [] \/ s_names s = names_of (cf_dev (hp (s_cfg s)))).
  { apply andb_false_iff in En. destruct En as [En|En]; [left; destruct (s_names s); [reflexivity|discriminate]|right]. cbn [cf_dev] in En. destruct (list_eq_dec string_dec _ _) as [e|]; [symmetry; exact e|discriminate]. }
  change (names_of (cf_dev c')) with (names_of (cf_dev (hp (s_cfg s)))).
  destruct (negb (match names_of (cf_dev (hp (s_cfg s))) with [] => true | _ :: _ => (List.length (s_h s) =? List.length (names_of (cf_dev (hp (s_cfg s))))) && forallb (sizedb (t_dims t)) (s_h s) end)) eqn:Eh.
  { split; [|split; [reflexivity|split; [reflexivity|split; [reflexivity|split; [reflexivity|split; [exact Hs|split; [exact Ho|intros _; exact Hl]]]]]]].
    split; [|split; [reflexivity|right; split; [exact Ea|]; split; [reflexivity|]; left; rewrite hput_same; reflexivity]].
    intros (_ & _ & F & _). apply negb_true_iff in Eh. destruct (names_of (cf_dev (hp (s_cfg s)))) as [|n0 ns]; [discriminate|]. destruct F as [F|[F1 F2]]; [discriminate|].
    apply andb_false_iff in Eh. destruct Eh as [Eh|Eh]; [apply Nat.eqb_neq in Eh; contradiction|]. rewrite <- not_true_iff_false, forallb_forall in Eh. apply Eh. intros h Hh. apply sizedb_iff. auto. }
  assert (Hh : names_of (cf_dev (hp (s_cfg s))) = [] \/ List.length (s_h s) = List.length (names_of (cf_dev (hp (s_cfg s)))) /\ forall h, List.In h (s_h s) -> sized (t_dims t) h).
  { apply negb_false_iff in Eh. destruct (names_of (cf_dev (hp (s_cfg s)))) as [|n0 ns]; [left; reflexivity|right]. apply andb_true_iff in Eh. destruct Eh as [E1 E2]. apply Nat.eqb_eq in E1. split; [exact E1|].
    rewrite forallb_forall in E2. intros h Hh. apply sizedb_iff. auto. }
  destruct (sizedb (t_dims t) (s_w s)) eqn:Ew; cbn [negb].
  - apply sizedb_iff in Ew. split; [|split; [reflexivity|split; [reflexivity|split; [reflexivity|split; [reflexivity|split; [exact Hs|split; [exact Ho|intros _; exact Hl]]]]]]].
    split; [split; [exact Ea|auto]|]. split; [reflexivity|]. split; [reflexivity|]. rewrite hput_same. split; [split; reflexivity|].
    split; intros ? H; cbn; rewrite H; reflexivity.
  - split; [|split; [reflexivity|split; [reflexivity|split; [reflexivity|split; [reflexivity|split; [exact Hs|split; [exact Ho|intros _; exact Hl]]]]]]].
    split; [intros (_ & _ & _ & F); apply sizedb_iff in F; congruence|]. split; [reflexivity|]. right. split; [exact Ea|]. split; [reflexivity|]. right. rewrite hput_same. reflexivity.
Qed.

(** ** C123: loading restores the tile, whatever happened to either tile in between, as long as the configuration object
    was not modified: weights, hidden parameters, learning rate, extra state, configuration *)
Definition restored (hp : heap) (a : tile) (hp' : heap) (b : tile) : Prop :=
  t_sim b = t_sim a /\ cfg_same (hp' (t_cfg b)) (hp (t_cfg a)).
Theorem C123_round_trip ctx (hp hp1 : heap) (a b : tile) : no_hidden_fresh -> wf hp a -> hp1 (t_cfg a) = hp (t_cfg a) ->
  t_dims b = t_dims a -> takes (hp1 (t_cfg b)) (t_class a) -> t_load b = true ->
  exists hp2 b', load_tile ctx hp1 b (get_state hp a) = (hp2, b', Done) /\ restored hp a hp2 b'
    /\ cf_tile (hp2 (t_cfg b')) = cf_tile (hp1 (t_cfg b)).
Proof.
  intros Nf (W1 & W2 & W3 & W4) Hc Hd Ht Hl. unfold SdModel.load_tile. rewrite Hl.
  pose proof (set_state_cases ctx hp1 b (get_state hp a)) as H. destruct (SdModel.set_state names_of fresh ctx hp1 b (get_state hp a)) as [[hp2 b'] res].
  assert (F : fits hp1 b (get_state hp a)).
  { unfold fits, SdModel.get_state. cbn. rewrite Hc, Hd. split; [exact Ht|]. split; [right; reflexivity|]. split; [right; auto|exact W1]. }
  destruct H as [H (H1 & H2 & H3 & H4 & H5 & H6 & H7)]. destruct res as [|e]; [|destruct H as [H _]; contradiction].
  destruct H as (_ & K1 & K2 & (K3 & K4) & K5 & K6). exists hp2, b'. split; [reflexivity|]. cbn [s_cfg SdModel.get_state] in *. split; [split|].
  - assert (Eh : sm_h (t_sim b') = sm_h (t_sim a)).
    { rewrite K3, Hc. destruct (names_of (cf_dev (hp (t_cfg a)))) eqn:En; [|reflexivity]. rewrite (Nf (hp2 (t_cfg a))).
      - cbn in W2. destruct (sm_h (t_sim a)); [reflexivity|discriminate].
      - destruct (H5 (t_cfg a)) as (_ & _ & _ & ->). rewrite Hc. exact En. }
    assert (Ew : sm_w (t_sim b') = sm_w (t_sim a)). { rewrite K4, <- K3, Eh. cbn. eapply clip_in; [exact W1|exact W3|exact W4]. }
    assert (El := K5 _ eq_refl). assert (Ex := K6 _ eq_refl). destruct (t_sim b'), (t_sim a). cbn in *. congruence.
  - rewrite K1. destruct (H5 (t_cfg a)) as (A1 & A2 & A3 & A4). rewrite Hc in *. repeat split; auto.
  - rewrite K1. apply H7. exact Ht.
Qed.
(** ** C126: a load succeeds exactly for a state that fits; a state of the wrong class is refused without any change *)
Theorem C126_success ctx (hp : heap) (t : tile) (s : state) : t_load t = true ->
  (snd (load_tile ctx hp t s) = Done <-> fits hp t s)
  /\ (~ takes (hp (t_cfg t)) (s_class s) -> fst (load_tile ctx hp t s) = (hp, t)).
Proof.
  intros Hl. unfold SdModel.load_tile. rewrite Hl. pose proof (set_state_cases ctx hp t s) as H. destruct (SdModel.set_state names_of fresh ctx hp t s) as [[hp2 t'] res]. cbn [fst snd].
  destruct H as [H _]. destruct res as [|e].
  - destruct H as [F _]. split; [tauto|]. intros N. destruct F; contradiction.
  - destruct H as (F & _ & G). split; [split; [discriminate|tauto]|]. intros N. destruct G as [(_ & -> & ->)|[G _]]; [reflexivity|contradiction].
Qed.
(** otherwise the weights of the tile are lost: it has those of a newly created tile (clipped) *)
Theorem C126_failure_loses_weights ctx (hp : heap) (t : tile) (s : state) hp' t' e : t_load t = true ->
  load_tile ctx hp t s = (hp', t', Fail e) -> takes (hp (t_cfg t)) (s_class s) ->
  t_cfg t' = s_cfg s /\
  (sm_w (t_sim t') = sm_w (fresh (hp' (s_cfg s)) (t_dims t)) \/ sm_w (t_sim t') = clip (sm_h (t_sim t')) (sm_w (fresh (hp' (s_cfg s)) (t_dims t)))).
Proof.
  intros Hl E1 Ht. unfold SdModel.load_tile in E1. rewrite Hl in E1. pose proof (set_state_cases ctx hp t s) as H. rewrite E1 in H. destruct H as [(F & _ & G) _].
  destruct G as [(N & _)|(_ & G1 & G2)]; [contradiction|auto].
Qed.
End Props.

Print Assumptions C123_round_trip.
Print Assumptions C126_success.
Print Assumptions C126_failure_loses_weights.
