(** * Compound devices: setting weights and loading *)
From Verif Require Import Prelude Rand DevModel DevSpec DevProofs PulseModel PulseSpec PulseProofs CompModel CompSpec CompProofs.

Lemma mapMM_zipi_nth (f : nat * part -> M part) ps ps' k : yields (mapMM f (zipi ps)) ps' -> (k < length ps)%nat -> yields (f (k, nth k ps no_part)) (nth k ps' no_part).
Proof.
  intros Y L. apply yields_mapMM in Y. pose proof (F2_nth _ _ _ k Y) as N. rewrite nth_error_zipi in N.
  destruct (nth_error ps k) as [p|] eqn:E; [|apply nth_error_None in E; lia]. destruct (nth_error ps' k) as [p'|] eqn:E'; [|contradiction].
  now rewrite (nth_error_nth _ _ _ E), (nth_error_nth _ _ _ E').
Qed.
Lemma mapMM_plain_nth (f : part -> M part) ps ps' k : yields (mapMM f ps) ps' -> (k < length ps)%nat -> yields (f (nth k ps no_part)) (nth k ps' no_part).
Proof.
  intros Y L. apply yields_mapMM in Y. pose proof (F2_nth _ _ _ k Y) as N.
  destruct (nth_error ps k) as [p|] eqn:E; [|apply nth_error_None in E; lia]. destruct (nth_error ps' k) as [p'|] eqn:E'; [|contradiction].
  now rewrite (nth_error_nth _ _ _ E), (nth_error_nth _ _ _ E').
Qed.
Lemma set_cell_vis mt c w c' : quiet mt -> yields (set_cell mt c w) c' -> c_w c' = bnd (c_x c) w /\ c_x c' = c_x c.
Proof.
  unfold set_cell, quiet. intros Q Y. unfold persist in Y. destruct (Rltb 0 (m_wn mt)) eqn:E.
  - apply Rltb_true in E. destruct Q as [Q | Q]; [lra|]. rewrite Q in Y. ysimp. auto.
  - ysimp. auto.
Qed.
Lemma nth_error_combine {A B} (l : list A) (r : list B) k : nth_error (combine l r) k = match nth_error l k, nth_error r k with Some a, Some b => Some (a, b) | _, _ => None end.
Proof. revert r k. induction l as [|a l IH]; intros [|b r] [|k]; simpl; auto. destruct (nth_error l k); auto. Qed.
Lemma set_part_at p w p' i j : yields (part_op (OSet w) p) p' -> dims w = dims (d_cells (snd p)) ->
  match cell_at (d_cells (snd p)) i j, cell_at (d_cells (snd p')) i j with
  | Some c, Some c' => yields (set_cell (fst p) c (at_ w i j)) c'
  | None, None => True
  | _, _ => False
  end.
Proof.
  unfold part_op. intros Y D. cbn [do_op] in Y. apply yields_bind in Y as (d & Y & E). apply yields_ret in E. subst p'. apply yields_bind in Y as (cs & Y & E). apply yields_ret in E. subst d.
  cbn [snd d_cells with_cells]. pose proof (set_dims _ _ _ _ D Y) as D'.
  destruct (cell_at (d_cells (snd p)) i j) as [c|] eqn:Ec.
  - destruct (cell_at cs i j) as [c'|] eqn:Ec'.
    + apply yields_mapMM in Y. pose proof (F2_nth _ _ _ i Y) as N. unfold cell_at in Ec, Ec'. rewrite nth_error_combine in N.
      destruct (nth_error (d_cells (snd p)) i) as [row|] eqn:Er; [|discriminate]. destruct (nth_error cs i) as [row'|] eqn:Er'; [|discriminate].
      destruct (nth_error w i) as [ws|] eqn:Ew; [|contradiction]. apply yields_mapMM in N. cbn [fst snd] in N. pose proof (F2_nth _ _ _ j N) as N2. rewrite nth_error_combine, Ec, Ec' in N2.
      destruct (nth_error ws j) as [v|] eqn:Ev; [|contradiction]. cbn [fst snd] in N2. unfold at_. now rewrite (nth_error_nth _ _ _ Ew), (nth_error_nth _ _ _ Ev).
    + apply cell_at_dims in Ec'. rewrite D' in Ec'. apply cell_at_dims in Ec'. congruence.
  - apply cell_at_dims in Ec. rewrite <- D' in Ec. apply cell_at_dims in Ec. now rewrite Ec.
Qed.
(** setting a crossbar to values between its bounds *)
Lemma set_part_vis p w p' i j : quiet (fst p) -> yields (part_op (OSet w) p) p' -> dims w = dims (d_cells (snd p)) ->
  (forall c, cell_at (d_cells (snd p)) i j = Some c -> within (c_x c) (at_ w i j)) -> at_ (vis (snd p')) i j = at_ w i j.
Proof.
  intros Q Y D W. pose proof (set_part_at _ _ _ i j Y D) as H. rewrite vis_at. destruct (cell_at (d_cells (snd p)) i j) as [c|] eqn:Ec, (cell_at (d_cells (snd p')) i j) as [c'|]; try contradiction.
  - apply set_cell_vis in H as [-> _]; auto. apply bnd_id; auto.
  - symmetry. apply at_out. rewrite <- dims_nth, D. now apply cell_at_dims.
Qed.
Lemma set_part_bounds p w p' i j c' : quiet (fst p) -> yields (part_op (OSet w) p) p' -> dims w = dims (d_cells (snd p)) ->
  cell_at (d_cells (snd p')) i j = Some c' -> exists c, cell_at (d_cells (snd p)) i j = Some c /\ c_x c' = c_x c.
Proof.
  intros Q Y D E. pose proof (set_part_at _ _ _ i j Y D) as H. rewrite E in H. destruct (cell_at (d_cells (snd p)) i j) as [c|]; [|contradiction].
  exists c. split; auto. now apply set_cell_vis in H as [_ ->].
Qed.
Lemma part_op_meta o p p' : yields (part_op o p) p' -> fst p' = fst p.
Proof. unfold part_op. intros Y. ysimp. auto. Qed.
(** what a well formed device is *)
Lemma wf_sized kd s : well_formed kd s -> sized (dims (k_w s)) (k_gam s) (length (k_parts s)) s.
Proof.
  intros (NE & L & F & _). repeat split; auto. destruct (k_parts s); [congruence | simpl; lia].
Qed.
Lemma sized_wf kd ds g n s : sized ds g n s -> match kd with KOneSided _ => g = [-1; 1] | _ => True end -> well_formed kd s.
Proof.
  intros (G & N & L & P & F & D) K. repeat split; auto.
  - intros E. rewrite E in N. simpl in N. lia.
  - congruence.
  - rewrite D. exact F.
  - destruct kd; auto. congruence.
Qed.
Lemma wf_part kd s k : well_formed kd s -> (k < length (k_parts s))%nat -> dims (d_cells (snd (nth k (k_parts s) no_part))) = dims (k_w s).
Proof. intros (_ & _ & F & _) L. rewrite Forall_forall in F. apply F, nth_In, L. Qed.
Lemma quiet_part s k : all_quiet s -> (k < length (k_parts s))%nat -> quiet (fst (nth k (k_parts s) no_part)).
Proof. intros Q L. unfold all_quiet in Q. rewrite Forall_forall in Q. apply Q, nth_In, L. Qed.
Lemma at_map f (w : mat) i j : f 0 = 0 -> at_ (map (map f) w) i j = f (at_ w i j).
Proof.
  intros F0. unfold at_. destruct (nth_error w i) as [r|] eqn:E.
  - rewrite (nth_error_nth (map (map f) w) i [] (x := map f r)) by now rewrite nth_error_map, E. rewrite (nth_error_nth _ _ _ E).
    rewrite <- F0 at 1. apply map_nth.
  - rewrite (nth_overflow (map (map f) w)) by (rewrite map_length; now apply nth_error_None). rewrite (nth_overflow w) by now apply nth_error_None. destruct j; simpl; auto.
Qed.
Lemma sum_const_weights (g : vec) v (f : nat -> R) : (forall k, (k < length g)%nat -> f k = v) -> sumR (map (fun k => nth k g 0 * f k) (seq 0 (length g))) = sumR g * v.
Proof.
  revert f. induction g as [|a g IH]; intros f H; simpl; [lra|]. rewrite <- seq_shift, map_map. rewrite (IH (fun k => f (S k))) by (intros; apply H; simpl; lia).
  rewrite H by (simpl; lia). lra.
Qed.
Lemma weighted_of_set kd w s s' : well_formed kd s -> hidden kd = false -> dims w = dims (k_w s) -> yields (set_weights kd w s) s' ->
  (forall i j, tile_weight s' i j = weighted_sum s' i j) /\ k_gam s' = k_gam s /\ length (k_parts s') = length (k_parts s) /\ dims (k_w s') = dims (k_w s).
Proof.
  intros W Hh D Y. destruct (set_weights_good _ _ _ _ _ _ _ D (wf_sized _ _ W) Y) as [S C]. pose proof S as (G & N & L & P & F & Dk). repeat split; auto.
  intros i j. unfold shown in C. rewrite Hh in C. unfold tile_weight. rewrite C. apply entry_sum. congruence.
Qed.

(** ** Setting weights *)
Lemma vector_set_parts p f w s s' k i j : p <> SingleFixed -> well_formed (KVector p f) s -> all_quiet s -> dims w = dims (k_w s) -> yields (set_weights (KVector p f) w s) s' ->
  (k < length (k_parts s))%nat -> admits s k i j (at_ w i j) -> part_weight s' k i j = at_ w i j.
Proof.
  intros NP W Q D Y L A. cbn [set_weights] in Y. cbv zeta in Y. apply yields_bind in Y as (ps & Y0 & Y). apply yields_ret in Y. subst s'.
  unfold part_weight, show. cbn [hidden k_parts with_w with_parts].
  assert (E : k_parts (match p with SingleFixed => with_idx s (k_idx s) 0 | _ => with_idx s f 0 end) = k_parts s) by now destruct p. rewrite E in Y0.
  pose proof (mapMM_zipi_nth _ _ _ k Y0 L) as Yk. cbn [fst snd] in Yk. destruct p; try congruence; (apply (set_part_vis _ _ _ i j) in Yk; [exact Yk | now apply quiet_part | rewrite (wf_part _ _ _ W L); exact D | exact A]).
Qed.
Lemma fixed_set_parts f w s s' k i j : well_formed (KVector SingleFixed f) s -> all_quiet s -> dims w = dims (k_w s) -> yields (set_weights (KVector SingleFixed f) w s) s' ->
  (k < length (k_parts s))%nat -> admits s k i j (if (k =? k_idx s)%nat then at_ w i j else part_weight s k i j) ->
  part_weight s' k i j = if (k =? k_idx s)%nat then at_ w i j else part_weight s k i j.
Proof.
  intros W Q D Y L A. cbn [set_weights] in Y. cbv zeta in Y. apply yields_bind in Y as (ps & Y0 & Y). apply yields_ret in Y. subst s'.
  unfold part_weight at 1. unfold show. cbn [hidden k_parts with_w with_parts with_idx k_idx] in *.
  pose proof (mapMM_zipi_nth _ _ _ k Y0 L) as Yk. cbn [fst snd] in Yk.
  destruct (Nat.eqb_spec k (k_idx s)).
  - apply (set_part_vis _ _ _ i j) in Yk; [exact Yk | now apply quiet_part | rewrite (wf_part _ _ _ W L); exact D | exact A].
  - apply (set_part_vis _ _ _ i j) in Yk; [exact Yk | now apply quiet_part | apply dims_vis | exact A].
Qed.
Lemma onesided_set_parts r w s s' k i j : well_formed (KOneSided r) s -> all_quiet s -> dims w = dims (k_w s) -> yields (set_weights (KOneSided r) w s) s' ->
  (k < 2)%nat -> admits s k i j (if (k =? 0)%nat then Rmax (- at_ w i j) 0 else Rmax (at_ w i j) 0) ->
  part_weight s' k i j = if (k =? 0)%nat then Rmax (- at_ w i j) 0 else Rmax (at_ w i j) 0.
Proof.
  intros W Q D Y L A. cbn [set_weights] in Y. apply yields_bind in Y as (ps & Y0 & Y). apply yields_ret in Y. subst s'.
  assert (L2 : (k < length (k_parts s))%nat). { destruct W as (_ & Lg & _ & G). rewrite G in Lg. simpl in Lg. lia. }
  unfold part_weight at 1. unfold show. cbn [hidden k_parts with_w with_parts with_idx k_idx] in *.
  pose proof (mapMM_zipi_nth _ _ _ k Y0 L2) as Yk. cbn [fst snd] in Yk.
  assert (E0 : forall a b, at_ (map (map (fun v => if Rltb v 0 then - v else 0)) w) a b = Rmax (- at_ w a b) 0).
  { intros a b. rewrite (at_map (fun v => if Rltb v 0 then - v else 0)); [rcase; mm | rcase; lra]. }
  assert (E1 : forall a b, at_ (map (map (fun v => if Rltb 0 v then v else 0)) w) a b = Rmax (at_ w a b) 0).
  { intros a b. rewrite (at_map (fun v => if Rltb 0 v then v else 0)); [rcase; mm | rcase; lra]. }
  destruct (k =? 0)%nat.
  - rewrite <- E0. apply (set_part_vis _ _ _ i j) in Yk; [exact Yk | now apply quiet_part | rewrite (wf_part _ _ _ W L2), dims_map; exact D | rewrite E0; exact A].
  - rewrite <- E1. apply (set_part_vis _ _ _ i j) in Yk; [exact Yk | now apply quiet_part | rewrite (wf_part _ _ _ W L2), dims_map; exact D | rewrite E1; exact A].
Qed.
Lemma transfer_set_parts t w s s' k i j : tp_hidden t = false -> well_formed (KTransfer t) s -> all_quiet s -> dims w = dims (k_w s) -> yields (set_weights (KTransfer t) w s) s' ->
  (k < length (k_parts s))%nat -> let v := if (k =? length (k_parts s) - 1)%nat then at_ w i j / nth (length (k_parts s) - 1) (k_gam s) 0 else 0 in
  admits s k i j v -> part_weight s' k i j = v /\ nth (length (k_parts s) - 1) (k_gam s) 0 <> 0.
Proof.
  intros Hh W Q D Y L v A. cbn [set_weights] in Y. cbv zeta in Y. rewrite Hh in Y. destruct (Reqb _ 0) eqn:Eg; [ysimp|]. apply Reqb_false in Eg. apply yields_bind in Y as (ps & Y0 & Y). apply yields_ret in Y. subst s'.
  split; auto. unfold part_weight at 1. unfold show. cbn [hidden]. rewrite Hh. cbn [k_parts with_w with_parts with_idx with_slices k_idx] in *.
  pose proof (mapMM_zipi_nth _ _ _ k Y0 L) as Yk. cbn [fst snd] in Yk. set (gl := nth (length (k_parts s) - 1) (k_gam s) 0) in *. subst v.
  destruct (k =? length (k_parts s) - 1)%nat.
  - rewrite <- (at_map (fun v => v / gl) w i j) by (unfold Rdiv; lra). apply (set_part_vis _ _ _ i j) in Yk; [exact Yk | now apply quiet_part | rewrite (wf_part _ _ _ W L), dims_map; exact D | rewrite (at_map (fun v => v / gl)) by (unfold Rdiv; lra); exact A].
  - transitivity (at_ (map (map (fun _ => 0)) w) i j); [|now rewrite (at_map (fun _ => 0))]. apply (set_part_vis _ _ _ i j) in Yk; [exact Yk | now apply quiet_part | rewrite (wf_part _ _ _ W L), dims_map; exact D | rewrite (at_map (fun _ => 0)) by auto; exact A].
Qed.
Lemma last_nth {A} (l : list A) d : last l d = nth (length l - 1) l d.
Proof. induction l as [|a [|b l] IH]; auto. change (last (a :: b :: l) d) with (last (b :: l) d). rewrite IH. simpl. now rewrite Nat.sub_0_r. Qed.
Lemma hidden_set_parts t w s s' k i j : tp_hidden t = true -> well_formed (KTransfer t) s -> all_quiet s -> dims w = dims (k_w s) -> yields (set_weights (KTransfer t) w s) s' ->
  (k < length (k_parts s))%nat -> let v := if (k =? length (k_parts s) - 1)%nat then at_ w i j else 0 in
  (k = length (k_parts s) - 1 -> admits s k i j v)%nat -> part_weight s' k i j = v.
Proof.
  intros Hh W Q D Y L v A. cbn [set_weights] in Y. cbv zeta in Y. rewrite Hh in Y. apply yields_bind in Y as (ps & Y0 & Y). apply yields_ret in Y. subst s'.
  unfold part_weight at 1. unfold show. cbn [hidden]. rewrite Hh. cbn [k_parts with_w with_parts with_idx with_slices k_idx] in *.
  pose proof (mapMM_zipi_nth _ _ _ k Y0 L) as Yk. cbn [fst snd] in Yk. subst v.
  destruct (Nat.eqb_spec k (length (k_parts s) - 1)) as [E | NE].
  - apply (set_part_vis _ _ _ i j) in Yk; [exact Yk | now apply quiet_part | rewrite (wf_part _ _ _ W L); exact D | exact (A E)].
  - apply yields_ret in Yk. rewrite Yk. cbn [snd]. rewrite vis_at. unfold zero_vis. cbn [d_cells with_cells].
    unfold cell_at. rewrite nth_error_map. destruct (nth_error (d_cells _) i) as [row|]; simpl; auto. rewrite nth_error_map. destruct (nth_error row j); simpl; auto.
Qed.
Lemma hidden_tile t w s s' i j : tp_hidden t = true -> well_formed (KTransfer t) s -> dims w = dims (k_w s) -> yields (set_weights (KTransfer t) w s) s' ->
  tile_weight s' i j = part_weight s' (length (k_parts s) - 1) i j /\ length (k_parts s') = length (k_parts s) /\ k_gam s' = k_gam s.
Proof.
  intros Hh W D Y. destruct (set_weights_good _ _ _ _ _ _ _ D (wf_sized _ _ W) Y) as [S C]. pose proof S as (G & N & L & P & F & Dk). unfold shown in C. cbn [hidden] in C. rewrite Hh in C.
  repeat split; auto. unfold tile_weight, part_weight. rewrite C, last_nth. rewrite N. auto.
Qed.
