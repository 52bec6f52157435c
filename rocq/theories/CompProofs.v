(** * Compound devices: proofs *)
From Verif Require Import Prelude Rand DevModel DevSpec DevProofs PulseModel PulseSpec PulseProofs CompModel CompSpec.

(** ** Matrices *)
Lemma set_nth_length {A} (a : A) : forall n l, length (set_nth n a l) = length l.
Proof. induction n; intros [|b l]; simpl; auto. Qed.
Lemma set_nth_nth {A} (a d : A) : forall n l k, nth k (set_nth n a l) d = if ((k =? n) && (n <? length l))%nat%bool then a else nth k l d.
Proof.
  induction n as [|n IH]; intros [|b l] [|k]; simpl; auto.
  - rewrite Bool.andb_false_r. auto.
  - rewrite IH. change (S n <? S (length l))%nat with (n <? length l)%nat. auto.
Qed.
Lemma dims_nth {A} (m : list (list A)) i : nth i (dims m) 0%nat = length (nth i m []).
Proof. exact (map_nth (@length A) m [] i). Qed.
Lemma dims_set_at m i j v : dims (set_at m i j v) = dims m.
Proof.
  unfold set_at, dims. revert i. induction m as [|r m IH]; intros [|i]; simpl; auto.
  - now rewrite set_nth_length.
  - now rewrite IH.
Qed.
Lemma at_set_at m i j v i' j' : at_ (set_at m i j v) i' j' = if ((i' =? i) && (j' =? j) && (j <? length (nth i m [])))%nat%bool then v else at_ m i' j'.
Proof.
  unfold at_, set_at. rewrite set_nth_nth. destruct (Nat.eqb_spec i' i) as [-> | N]; simpl; auto.
  destruct (Nat.ltb_spec i (length m)) as [L | L].
  - rewrite set_nth_nth. auto.
  - rewrite (nth_overflow m [] L). cbn [length]. destruct (Nat.ltb_spec j 0); [lia|]. rewrite Bool.andb_false_r. auto.
Qed.
Lemma at_out m i j : (length (nth i m []) <= j)%nat -> at_ m i j = 0.
Proof. intros H. unfold at_. now apply nth_overflow. Qed.
Lemma vis_at d i j : at_ (vis d) i j = match cell_at (d_cells d) i j with Some c => c_w c | None => 0 end.
Proof.
  unfold at_, vis, cell_at. destruct (nth_error (d_cells d) i) as [row|] eqn:E.
  - rewrite (nth_error_nth (map (map c_w) (d_cells d)) i [] (x := map c_w row)) by now rewrite nth_error_map, E.
    destruct (nth_error row j) as [c|] eqn:Ej.
    + apply nth_error_nth. now rewrite nth_error_map, Ej.
    + apply nth_overflow. rewrite map_length. now apply nth_error_None.
  - rewrite (nth_overflow (map (map c_w) (d_cells d))) by (rewrite map_length; now apply nth_error_None). now destruct j.
Qed.
Lemma dims_vis d : dims (vis d) = dims (d_cells d).
Proof. unfold dims, vis. rewrite map_map. apply map_ext. intros. now rewrite map_length. Qed.
Lemma cell_at_dims cs i j : cell_at cs i j = None <-> (nth i (dims cs) 0 <= j)%nat.
Proof.
  rewrite dims_nth. unfold cell_at. destruct (nth_error cs i) as [row|] eqn:E.
  - rewrite (nth_error_nth _ _ _ E). apply nth_error_None.
  - rewrite nth_overflow by now apply nth_error_None. simpl. split; auto; lia.
Qed.

(** ** The weighted sum *)
Lemma entry_spec gam ps i j : length gam = length ps ->
  entry gam ps i j = sumR (map (fun k => nth k gam 0 * at_ (vis (snd (nth k ps no_part))) i j) (seq 0 (length ps))).
Proof.
  unfold entry. revert gam. induction ps as [|p ps IH]; intros [|g gam] L; simpl in *; try discriminate; auto.
  f_equal. rewrite IH by lia. rewrite <- seq_shift, map_map. auto.
Qed.
Lemma entry_sum s i j : length (k_gam s) = length (k_parts s) -> entry (k_gam s) (k_parts s) i j = weighted_sum s i j.
Proof. intros L. rewrite entry_spec; auto. Qed.
Lemma reduce_dims gam ps w : dims (reduce gam ps w) = dims w.
Proof.
  unfold reduce, dims. rewrite map_map. cbv beta. rewrite (map_ext _ (fun ir => length (snd ir))) by (intros; now rewrite map_length, zipi_length).
  unfold zipi. generalize 0%nat as k. induction w as [|r w IH]; intros k; simpl; auto. now rewrite IH.
Qed.
Lemma entry_out gam ps i j n : Forall (fun p => (nth i (dims (d_cells (snd p))) 0 <= n)%nat) ps -> (n <= j)%nat -> entry gam ps i j = 0.
Proof.
  intros F L. unfold entry. revert gam. induction F as [|p ps H F IH]; intros [|g gam]; simpl; auto.
  rewrite IH, at_out; [lra|]. rewrite <- dims_nth, dims_vis. lia.
Qed.
Lemma at_reduce gam ps w i j : Forall (fun p => dims (d_cells (snd p)) = dims w) ps -> at_ (reduce gam ps w) i j = entry gam ps i j.
Proof.
  intros F. destruct (Nat.lt_ge_cases j (nth i (dims w) 0%nat)) as [L | L].
  - unfold at_, reduce. rewrite dims_nth in L.
    assert (Li : (i < length w)%nat). { destruct (Nat.lt_ge_cases i (length w)); auto. rewrite nth_overflow in L by auto. simpl in L; lia. }
    destruct (nth_error w i) as [row|] eqn:E; [|apply nth_error_None in E; lia]. rewrite (nth_error_nth _ _ _ E) in L.
    rewrite (nth_error_nth _ i [] (x := map (fun jc => entry gam ps i (fst jc)) (zipi row))) by now rewrite nth_error_map, nth_error_zipi, E.
    destruct (nth_error row j) as [v|] eqn:Ej; [|apply nth_error_None in Ej; lia].
    apply nth_error_nth. now rewrite nth_error_map, nth_error_zipi, Ej.
  - rewrite at_out by now rewrite <- dims_nth, reduce_dims. symmetry. apply (entry_out _ _ _ _ (nth i (dims w) 0%nat)); auto.
    eapply Forall_impl; [|exact F]. intros p ->. auto.
Qed.

(** ** Sizes are kept *)
Lemma each_dims f cs cs' : yields (each f cs) cs' -> dims cs' = dims cs.
Proof.
  unfold each. intros Y. apply yields_mapMM in Y. unfold dims. induction Y as [|row row' l l' H Y IH]; simpl; auto.
  apply mapMM_length in H. rewrite zipi_length in H. now rewrite H, IH.
Qed.
Lemma upd_nth_length {A} n (f : A -> M A) : forall l l', yields (upd_nth n f l) l' -> length l' = length l.
Proof.
  induction n as [|n IH]; intros [|a l] l' Y; simpl in Y; ysimp; simpl; auto.
Qed.
Lemma upd_nth_dims {A} (f : list A -> M (list A)) : (forall r r', yields (f r) r' -> length r' = length r) ->
  forall n l l', yields (upd_nth n f l) l' -> dims l' = dims l.
Proof.
  intros Hf. unfold dims. induction n as [|n IH]; intros [|a l] l' Y; simpl in Y; ysimp; simpl; auto.
  - now rewrite (Hf _ _ Y0).
  - now rewrite (IH _ _ Y0).
Qed.
Lemma pulses_dims mt l cs cs' : yields (foldMM (pulse_at mt) l cs) cs' -> dims cs' = dims cs.
Proof.
  intros Y. refine (yields_foldMM_inv _ (fun c => dims c = dims cs) l _ _ _ eq_refl Y). intros b p b' _ Hb Yb.
  rewrite <- Hb. refine (upd_nth_dims _ _ _ _ _ Yb). intros r r'. apply upd_nth_length.
Qed.
Lemma set_dims mt cs w cs' : dims w = dims cs ->
  yields (mapMM (fun rw => mapMM (fun cw => set_cell mt (fst cw) (snd cw)) (combine (fst rw) (snd rw))) (combine cs w)) cs' -> dims cs' = dims cs.
Proof.
  intros D Y. apply yields_mapMM in Y. revert w D cs' Y. unfold dims. induction cs as [|r cs IH]; intros [|v w] D cs' Y; simpl in *; try discriminate; inversion Y; subst; auto.
  injection D as D1 D2. simpl. f_equal; [|eapply IH; eauto]. cbn [fst snd] in *. apply mapMM_length in H1. rewrite H1, combine_length. lia.
Qed.
Lemma do_op_dims mt d o d' : match o with OSet w | OFloat w => dims w = dims (d_cells d) | _ => True end ->
  yields (do_op mt d o) d' -> dims (d_cells d') = dims (d_cells d).
Proof.
  intros F Y. destruct o; cbn [do_op] in Y; ysimp; cbn [d_cells with_cells] in *; try (eapply each_dims; eassumption).
  - eapply pulses_dims; eauto.
  - eapply set_dims; eauto.
  - rewrite (each_dims _ _ _ Y0). clear Y0. revert F. generalize (d_cells d) as cs. unfold dims. induction delta as [|v w IH]; intros [|r cs] D; simpl in *; try discriminate; auto.
    injection D as D1 D2. rewrite IH by auto. f_equal. rewrite map2_length. lia.
Qed.
(** a crossbar is not changed where there is no pulse *)
Lemma pulses_elsewhere mt d l d' i j : yields (do_op mt d (OPulses l)) d' -> pulses_at l i j = [] -> at_ (vis d') i j = at_ (vis d) i j.
Proof.
  cbn [do_op]. intros Y E. ysimp. cbn [d_cells with_cells] in *. rewrite !vis_at. cbn [d_cells with_cells].
  destruct (cell_at (d_cells d) i j) as [c|] eqn:Ec.
  - destruct (fold_pulses_at _ _ _ _ _ _ _ Y0 Ec) as (c' & Ec' & Yc). rewrite Ec'. rewrite E in Yc. cbn [foldMM] in Yc. ysimp. auto.
  - apply cell_at_dims in Ec. rewrite <- (pulses_dims _ _ _ _ Y0) in Ec. apply cell_at_dims in Ec. now rewrite Ec.
Qed.
Lemma row_pulses_elsewhere i js i' j' : (i' <> i \/ ~ List.In j' (map fst js)) -> pulses_at (row_pulses i js) i' j' = [].
Proof.
  intros H. unfold row_pulses. induction js as [|[j b] js IH]; simpl; auto. rewrite pulses_at_cons, IH.
  - cbn [fst snd]. destruct (Nat.eqb_spec i i'), (Nat.eqb_spec j j'); simpl; auto. subst. destruct H as [H | H]; [congruence | exfalso; apply H; simpl; auto].
  - destruct H as [H | H]; auto. right. intros G. apply H. simpl. auto.
Qed.

(** ** The parts of a compound device *)
Definition pdims (ds : list nat) (p : part) : Prop := dims (d_cells (snd p)) = ds.
Lemma part_op_dims ds o p p' : match o with OSet w | OFloat w => dims w = ds | _ => True end -> pdims ds p -> yields (part_op o p) p' -> pdims ds p' /\ fst p' = fst p.
Proof.
  unfold part_op, pdims. intros F D Y. subst ds. ysimp. cbn [fst snd]. split; auto. eapply do_op_dims; eauto.
Qed.
Lemma F2_impl {A B} (P Q : A -> B -> Prop) l r : (forall a b, P a b -> Q a b) -> Forall2 P l r -> Forall2 Q l r.
Proof. intros H F. induction F; constructor; auto. Qed.
Lemma F2_Forall {A B} (P : A -> Prop) (Q : B -> Prop) (R : A -> B -> Prop) l r : Forall P l -> Forall2 R l r -> (forall a b, P a -> R a b -> Q b) -> Forall Q r.
Proof. intros F G H. induction G; inversion F; subst; constructor; eauto. Qed.
Lemma zipi_Forall {A} (P : A -> Prop) l : Forall P l -> Forall (fun kp => P (snd kp)) (zipi l).
Proof. unfold zipi. generalize 0%nat as k. intros k F. revert k. induction F; intros k; simpl; constructor; auto. Qed.
Lemma zipi_F2 {A B} (P : nat * A -> B -> Prop) (Q : A -> B -> Prop) l r : Forall2 P (zipi l) r -> (forall k a b, P (k, a) b -> Q a b) -> Forall2 Q l r.
Proof. unfold zipi. generalize 0%nat as k. intros k F H. revert k r F. induction l as [|a l IH]; intros k r F; simpl in F; inversion F; subst; constructor; eauto. Qed.
Lemma mapMM_parts_dims ds f ps ps' : Forall (pdims ds) ps -> (forall k p p', pdims ds p -> yields (f (k, p)) p' -> pdims ds p') -> yields (mapMM f (zipi ps)) ps' -> Forall (pdims ds) ps' /\ length ps' = length ps.
Proof.
  intros F H Y. split; [|now rewrite (mapMM_length _ _ _ Y), zipi_length]. apply yields_mapMM in Y. refine (F2_Forall _ _ _ _ _ (zipi_Forall _ _ F) Y _).
  intros [k p] p' D Yp. eapply H; eauto.
Qed.
Lemma mapMM_plain_dims ds f ps ps' : Forall (pdims ds) ps -> (forall p p', pdims ds p -> yields (f p) p' -> pdims ds p') -> yields (mapMM f ps) ps' -> Forall (pdims ds) ps' /\ length ps' = length ps.
Proof. intros F H Y. split; [|now rewrite (mapMM_length _ _ _ Y)]. apply yields_mapMM in Y. exact (F2_Forall _ _ _ _ _ F Y H). Qed.
Lemma upd_parts_dims ds k f ps ps' : Forall (pdims ds) ps -> (forall p p', pdims ds p -> yields (f p) p' -> pdims ds p') -> yields (upd_nth k f ps) ps' -> Forall (pdims ds) ps' /\ length ps' = length ps.
Proof.
  intros F H Y. split; [|eapply upd_nth_length; eauto]. revert ps ps' F Y. induction k as [|k IH]; intros [|p ps] ps' F Y; simpl in Y; ysimp; auto; inversion F; subst; constructor; eauto.
Qed.

(** ** Invariant *)
Definition shown (kd : kind) (s : comp) : Prop :=
  if hidden kd then k_w s = vis (snd (last (k_parts s) no_part)) else forall i j, at_ (k_w s) i j = entry (k_gam s) (k_parts s) i j.
Definition sized (ds : list nat) (g : vec) (n : nat) (s : comp) : Prop :=
  k_gam s = g /\ length (k_parts s) = n /\ length g = n /\ (0 < n)%nat /\ Forall (pdims ds) (k_parts s) /\ dims (k_w s) = ds.
Lemma last_In {A} (l : list A) d : l <> [] -> List.In (last l d) l.
Proof. induction l as [|a [|b l] IH]; intros H; [congruence | simpl; auto | right; apply IH; discriminate]. Qed.
Lemma sized_show kd ds g n s : sized ds g n s -> sized ds g n (show kd s) /\ shown kd (show kd s).
Proof.
  intros (G & N & L & P & F & D). unfold show, shown. destruct (hidden kd); cbn [k_parts k_gam k_w with_w]; split.
  - repeat split; auto. cbn [k_w with_w]. rewrite dims_vis. rewrite Forall_forall in F. apply F. apply last_In. intros E. rewrite E in N. simpl in N. lia.
  - reflexivity.
  - repeat split; auto. cbn [k_w with_w]. now rewrite reduce_dims.
  - intros i j. rewrite at_reduce; auto. rewrite D. exact F.
Qed.
Lemma sized_parts ds g n s ps : sized ds g n s -> Forall (pdims ds) ps -> length ps = n -> sized ds g n (with_parts s ps).
Proof. intros (G & N & L & P & F & D) F' L'. repeat split; auto. Qed.
Lemma send_sized ds g n p s l s' : sized ds g n s -> yields (send p s l) s' -> sized ds g n s' /\
  exists ps, s' = with_parts s ps /\ Forall2 (fun q q' => forall i j, pulses_at l i j = [] -> at_ (vis (snd q')) i j = at_ (vis (snd q)) i j) (k_parts s) ps.
Proof.
  intros S Y. unfold send in Y. ysimp. split.
  - destruct S as (G & N & L & P & F & D). assert (H : Forall (pdims ds) a /\ length a = length (k_parts s)); [eapply mapMM_parts_dims; [exact F | | exact Y0] | destruct H as [F' L']].
    + intros k q q' Dq Yq. cbn [fst snd] in Yq. destruct (active p (k_idx s) k); [|ysimp; auto]. eapply (proj1 (part_op_dims ds (OPulses l) q q' I Dq Yq)).
    + repeat split; auto. cbn [k_parts with_parts]. lia.
  - eexists; split; [reflexivity|]. apply yields_mapMM in Y0. refine (zipi_F2 _ _ _ _ Y0 _). intros k q q' Yq i j E. cbn [fst snd] in *.
    destruct (active p (k_idx s) k); [|ysimp; auto]. unfold part_op in *. ysimp. cbn [fst snd]. eapply pulses_elsewhere; eauto.
Qed.
Lemma entry_F2 gam ps ps' i j : Forall2 (fun q q' => at_ (vis (snd q')) i j = at_ (vis (snd q)) i j) ps ps' -> entry gam ps' i j = entry gam ps i j.
Proof. intros F. unfold entry. revert gam. induction F as [|q q' ps ps' H F IH]; intros [|g gam]; simpl; auto. now rewrite IH, H. Qed.
Lemma fold_set_at f i : forall js w i' j', dims (fold_left (fun w j => set_at w i j (f j)) js w) = dims w /\
  at_ (fold_left (fun w j => set_at w i j (f j)) js w) i' j' =
    if ((i' =? i)%nat && existsb (Nat.eqb j') js && (j' <? nth i (dims w) 0%nat)%nat)%bool then f j' else at_ w i' j'.
Proof.
  induction js as [|j js IH]; intros w i' j'; cbn [fold_left existsb].
  - split; auto. rewrite Bool.andb_false_r. auto.
  - destruct (IH (set_at w i j (f j)) i' j') as [D E]. rewrite dims_set_at in *. split; auto. rewrite E, at_set_at, <- dims_nth.
    destruct (Nat.eqb_spec i' i) as [-> | N]; simpl; auto.
    destruct (existsb (Nat.eqb j') js) eqn:Ex; simpl.
    + rewrite Bool.orb_true_r. destruct (Nat.ltb_spec j' (nth i (dims w) 0%nat)); simpl; auto.
      destruct (Nat.eqb_spec j' j) as [-> | N]; simpl; auto. destruct (Nat.ltb_spec j (nth i (dims w) 0%nat)); auto; lia.
    + rewrite Bool.orb_false_r. destruct (Nat.eqb_spec j' j) as [-> | N]; simpl; auto.
Qed.
(** showing the touched entries suffices *)
Lemma show_row_ok ds g n s s1 ps i js : sized ds g n s -> sized ds g n s1 -> s1 = with_parts s ps ->
  (forall i j, at_ (k_w s) i j = entry (k_gam s) (k_parts s) i j) ->
  Forall2 (fun q q' => forall i' j', (i' <> i \/ ~ List.In j' js) -> at_ (vis (snd q')) i' j' = at_ (vis (snd q)) i' j') (k_parts s) ps ->
  sized ds g n (show_row s1 i js) /\ forall a b, at_ (k_w (show_row s1 i js)) a b = entry (k_gam (show_row s1 i js)) (k_parts (show_row s1 i js)) a b.
Proof.
  intros S S1 -> C F. unfold show_row. cbn [k_w k_gam k_parts with_w with_parts].
  split.
  - destruct S1 as (G & N & L & P & F1 & D). repeat split; auto. cbn [k_w k_gam k_parts with_w with_parts]. rewrite (proj1 (fold_set_at _ _ _ _ 0%nat 0%nat)). auto.
  - intros i' j'. etransitivity; [exact (proj2 (fold_set_at (entry (k_gam s) ps i) i js (k_w s) i' j'))|]. destruct S as (_ & _ & _ & _ & _ & D). rewrite D.
    destruct (Nat.eqb_spec i' i) as [-> | N]; simpl.
    + destruct (existsb (Nat.eqb j') js) eqn:Ex; simpl.
      * destruct (Nat.ltb_spec j' (nth i ds 0%nat)) as [Lt | Ge]; auto.
        rewrite at_out by (rewrite <- dims_nth, D; auto). symmetry. apply (entry_out _ _ _ _ (nth i ds 0%nat)); auto.
        destruct S1 as (_ & _ & _ & _ & F1 & _). eapply Forall_impl; [|exact F1]. intros p ->. auto.
      * rewrite C. symmetry. apply entry_F2. eapply F2_impl; [|exact F]. intros q q' H. apply H. right. intros I1.
        assert (existsb (Nat.eqb j') js = true) by (apply existsb_exists; exists j'; split; auto; apply Nat.eqb_refl). congruence.
    + rewrite C. symmetry. apply entry_F2. eapply F2_impl; [|exact F]. intros q q' H. apply H. auto.
Qed.
Definition good (kd : kind) (ds : list nat) (g : vec) (n : nat) (s : comp) : Prop := sized ds g n s /\ shown kd s.
Lemma sized_reduce ds g n s : sized ds g n s -> sized ds g n (with_w s (reduce (k_gam s) (k_parts s) (k_w s))) /\
  forall i j, at_ (k_w (with_w s (reduce (k_gam s) (k_parts s) (k_w s)))) i j = entry (k_gam s) (k_parts s) i j.
Proof. intros S. pose proof (sized_show (KVector All 0) ds g n s S) as H. exact H. Qed.
Lemma vector_call_good p f ds g n s c s' : good (KVector p f) ds g n s -> yields (vector_call p s c) s' -> good (KVector p f) ds g n s'.
Proof.
  intros [S C] Y. destruct c as [i js | cs]; cbn [vector_call] in Y; ysimp.
  - pose proof (send_sized _ _ _ _ _ _ _ S Y0) as [S1 (ps & -> & F)]. unfold good, shown. cbn [hidden]. apply (show_row_ok ds g n s (with_parts s ps) ps i (map fst js)); auto.
    eapply F2_impl; [|exact F]. intros q q' H i' j' N. apply H, row_pulses_elsewhere. exact N.
  - pose proof (send_sized _ _ _ _ _ _ _ S Y0) as [S1 _]. unfold good, shown. cbn [hidden]. exact (sized_reduce _ _ _ _ S1).
Qed.
Lemma onesided_send_sized ds g n s lm lp s' : sized ds g n s -> yields (onesided_send s lm lp) s' -> sized ds g n s' /\
  exists ps, s' = with_parts s ps /\ Forall2 (fun q q' => forall i j, pulses_at lm i j = [] -> pulses_at lp i j = [] -> at_ (vis (snd q')) i j = at_ (vis (snd q)) i j) (k_parts s) ps.
Proof.
  intros S Y. unfold onesided_send in Y. ysimp. split.
  - destruct S as (G & N & L & P & F & D). assert (H : Forall (pdims ds) a /\ length a = length (k_parts s)); [eapply mapMM_parts_dims; [exact F | | exact Y0] | destruct H as [F' L']].
    + intros k q q' Dq Yq. cbn [fst snd] in Yq. destruct (k =? 0)%nat; [eapply (proj1 (part_op_dims ds (OPulses lm) q q' I Dq Yq))|].
      destruct (k =? 1)%nat; [eapply (proj1 (part_op_dims ds (OPulses lp) q q' I Dq Yq)) | ysimp; auto].
    + repeat split; auto. cbn [k_parts with_parts]. lia.
  - eexists; split; [reflexivity|]. apply yields_mapMM in Y0. refine (zipi_F2 _ _ _ _ Y0 _). intros k q q' Yq i j E1 E2. cbn [fst snd] in *.
    destruct (k =? 0)%nat; [|destruct (k =? 1)%nat; [|ysimp; auto]]; unfold part_op in *; ysimp; cbn [fst snd]; eapply pulses_elsewhere; eauto.
Qed.
Lemma as_up_fst js f : incl (map fst (as_up (filter f js))) (map fst js).
Proof.
  unfold as_up. rewrite map_map. cbn [fst]. intros j H. apply in_map_iff in H as (p & <- & H). apply filter_In in H as [H _]. now apply in_map.
Qed.
Lemma onesided_call_good r ds g n s c s' : good (KOneSided r) ds g n s -> yields (onesided_call s c) s' -> good (KOneSided r) ds g n s'.
Proof.
  intros [S C] Y. destruct c as [i js | cs]; cbn [onesided_call] in Y; ysimp.
  - pose proof (onesided_send_sized _ _ _ _ _ _ _ S Y0) as [S1 (ps & -> & F)]. unfold good, shown. cbn [hidden]. apply (show_row_ok ds g n s (with_parts s ps) ps i (map fst js)); auto.
    eapply F2_impl; [|exact F]. intros q q' H i' j' N. apply H; apply row_pulses_elsewhere; destruct N as [N | N]; auto; right; intros G; apply N; eapply as_up_fst; eauto.
  - pose proof (onesided_send_sized _ _ _ _ _ _ _ S Y0) as [S1 _]. unfold good, shown. cbn [hidden]. exact (sized_reduce _ _ _ _ S1).
Qed.
Lemma sized_idx ds g n s i c : sized ds g n s -> sized ds g n (with_idx s i c).
Proof. intros S. exact S. Qed.
Lemma update_vector_dims u mt lr x d dv dv' : yields (update_vector u mt lr x d dv) dv' -> dims (d_cells dv') = dims (d_cells dv).
Proof. unfold update_vector. intros Y. ysimp. eapply (do_op_dims mt dv (OPulses a)); eauto. Qed.
Lemma reset_indices_dims ds j hits p p' : pdims ds p -> yields (reset_indices j hits p) p' -> pdims ds p'.
Proof.
  unfold reset_indices, pdims. intros D Y. destruct (persist (fst p)); ysimp. cbn [snd d_cells with_cells]. 
  refine (yields_foldMM_inv _ (fun c => dims c = dims (d_cells (snd p))) hits _ _ _ eq_refl Y0). intros b i b' _ Hb Yb. rewrite <- Hb.
  refine (upd_nth_dims _ _ _ _ _ Yb). intros r r'. apply upd_nth_length.
Qed.
Lemma refresh_col_dims r ds st j st' : pdims ds (fst (fst st)) -> pdims ds (snd (fst st)) -> yields (refresh_col r st j) st' -> pdims ds (fst (fst st')) /\ pdims ds (snd (fst st')).
Proof.
  destruct st as [[m0 p0] b]. unfold refresh_col. cbn [fst snd]. intros Dm Dp Y. apply yields_bind in Y as (rp & _ & Y). apply yields_bind in Y as (rm & _ & Y).
  cbv zeta in Y. apply yields_bind in Y as (p1 & Y1 & Y). apply yields_bind in Y as (m1 & Y2 & Y). apply yields_bind in Y as (p2 & Y3 & Y). apply yields_bind in Y as (m2 & Y4 & Y).
  apply yields_ret in Y. subst. cbn [fst snd]. apply (reset_indices_dims ds) in Y1; auto. apply (reset_indices_dims ds) in Y2; auto.
  split.
  - destruct (existsb _ _) in Y4; ysimp; auto. unfold pdims. cbn [fst snd]. rewrite (update_vector_dims _ _ _ _ _ _ _ Y). exact Y2.
  - destruct (existsb _ _) in Y3; ysimp; auto. unfold pdims. cbn [fst snd]. rewrite (update_vector_dims _ _ _ _ _ _ _ Y). exact Y1.
Qed.
Lemma with_cells_id d : with_cells d (d_cells d) = d.
Proof. now destruct d. Qed.
Lemma refresh_col_idle r st j st' : yields (refresh_col r st j) st' -> snd st' = false -> st' = st.
Proof.
  destruct st as [[m0 p0] b]. unfold refresh_col. intros Y E. apply yields_bind in Y as (rp & _ & Y). apply yields_bind in Y as (rm & _ & Y).
  cbv zeta in Y. set (hits := filter _ _) in Y. set (anyp := existsb _ hits) in Y. set (anym := existsb _ hits) in Y.
  apply yields_bind in Y as (p1 & Y1 & Y). apply yields_bind in Y as (m1 & Y2 & Y). apply yields_bind in Y as (p2 & Y3 & Y). apply yields_bind in Y as (m2 & Y4 & Y).
  apply yields_ret in Y. subst st'. cbn [snd] in E. apply Bool.orb_false_iff in E as [E E2]. apply Bool.orb_false_iff in E as [E0 E1].
  assert (H : hits = []).
  { destruct hits as [|h hs] eqn:Eh; auto. exfalso. subst anyp anym. cbn [existsb] in E1, E2. apply Bool.orb_false_iff in E1 as [E1 _]. apply Bool.orb_false_iff in E2 as [E2 _].
    rewrite E1 in E2. discriminate. }
  rewrite E1 in *. rewrite E2 in *. rewrite E0. rewrite H in *. unfold reset_indices in Y1, Y2.
  destruct (persist (fst p0)); ysimp. destruct (persist (fst m0)); ysimp. cbn [foldMM] in *. ysimp. rewrite !with_cells_id. now destruct m0, p0.
Qed.
Lemma refresh_fold r ds : forall js st st', pdims ds (fst (fst st)) -> pdims ds (snd (fst st)) -> yields (foldMM (refresh_col r) js st) st' ->
  pdims ds (fst (fst st')) /\ pdims ds (snd (fst st')) /\ (snd st' = false -> st' = st).
Proof.
  induction js as [|j js IH]; intros st st' D1 D2 Y; cbn [foldMM] in Y.
  - ysimp. auto.
  - apply yields_bind in Y as (s1 & Y1 & Y). destruct (refresh_col_dims _ _ _ _ _ D1 D2 Y1) as [E1 E2]. destruct (IH _ _ E1 E2 Y) as (F1 & F2 & F3). repeat split; auto.
    intros H. specialize (F3 H). subst. now apply refresh_col_idle in Y1.
Qed.
Lemma onesided_finish_good r mb ds g n s s' : good (KOneSided r) ds g n s -> yields (onesided_finish r mb s) s' -> good (KOneSided r) ds g n s'.
Proof.
  intros [S C] Y. unfold onesided_finish in Y. cbv zeta in Y. destruct (_ && _)%bool; [|ysimp; split; auto].
  destruct (k_parts (with_idx s (k_idx s) (Datatypes.S (k_cnt s)))) as [|m [|p [|]]] eqn:E; ysimp. cbn [k_parts with_idx] in E.
  pose proof S as (G & N & L & P & F & D). rewrite E in F. inversion F as [|? ? Fm F2]; subst. inversion F2 as [|? ? Fp _]; subst.
  destruct a as [[m' p'] done]. destruct (refresh_fold r _ _ (m, p, false) _ Fm Fp Y0) as (Dm & Dp & Id). cbn [fst snd] in *. ysimp.
  assert (S2 : sized (dims (k_w s)) (k_gam s) (length (k_parts s)) (with_parts (with_idx s (k_idx s) (Datatypes.S (k_cnt s))) [m'; p'])).
  { apply sized_parts; [exact S | constructor; [exact Dm | constructor; [exact Dp | constructor]] | now rewrite E]. }
  destruct done.
  - unfold good, shown. cbn [hidden]. exact (sized_reduce _ _ _ _ S2).
  - specialize (Id eq_refl). injection Id as -> ->. split; auto. unfold shown in *. cbn [hidden] in *. cbn [k_parts k_w k_gam with_parts with_idx]. rewrite <- E. exact C.
Qed.
(** transfer keeps the sizes *)
Lemma upd_part_sized ds g n k f s s' : (forall p p', pdims ds p -> yields (f p) p' -> pdims ds p') -> sized ds g n s -> yields (upd_part k f s) s' -> sized ds g n s'.
Proof.
  unfold upd_part. intros H S Y. ysimp. pose proof S as (G & N & L & P & F & D). destruct (upd_parts_dims ds _ _ _ _ F H Y0) as [F' L']. apply sized_parts; auto. congruence.
Qed.
Lemma read_update_sized t to from lr i0 m ds g n s s' : sized ds g n s -> yields (read_update t to from lr i0 m s) s' -> sized ds g n s'.
Proof.
  unfold read_update. intros S Y. destruct (_ || _)%bool; [ysimp; auto|]. refine (yields_foldMM_inv _ (sized ds g n) _ _ _ _ S Y).
  intros b i b' _ Sb Yb. cbv zeta in Yb. apply yields_bind in Yb as (out & _ & Yb). apply yields_bind in Yb as (u & _ & Yb). apply yields_bind in Yb as (s1 & Y1 & Yb).
  assert (S1 : sized ds g n s1).
  { destruct (_ && _)%bool in Y1; [|ysimp; auto]. eapply upd_part_sized; [|exact Sb|exact Y1]. intros p p' Dp Yp. exact (proj1 (part_op_dims ds (OReset _ _ _) p p' Logic.I Dp Yp)). }
  unfold write_slice in Yb. eapply upd_part_sized; [|exact S1|exact Yb]. intros p p' Dp Yp. apply yields_bind in Yp as (d & Yd & Yp). apply yields_ret in Yp. subst p'.
  unfold pdims in *. cbn [snd]. rewrite <- Dp. destruct (tp_columns t); eapply update_vector_dims; eauto.
Qed.
Lemma sized_slices ds g n s l : sized ds g n s -> sized ds g n (with_slices s l).
Proof. intros S. exact S. Qed.
Lemma transfer_sized t to from lr ds g n s s' : sized ds g n s -> yields (transfer t to from lr s) s' -> sized ds g n s'.
Proof.
  unfold transfer. intros S Y. cbv zeta in Y. apply yields_bind in Y as (i0 & _ & Y). apply yields_bind in Y as (s1 & Y1 & Y). apply yields_ret in Y. subst s'. apply sized_slices.
  destruct (_ <? _)%nat in Y1; [apply yields_bind in Y1 as (s0 & Y0 & Y1)|]; repeat (eapply read_update_sized; [|eassumption]); auto.
Qed.
Lemma transfer_finish_good t lr mb ds g n s s' : sized ds g n s -> yields (transfer_finish t lr mb s) s' -> good (KTransfer t) ds g n s'.
Proof.
  unfold transfer_finish. intros S Y. cbv zeta in Y. apply yields_bind in Y as (s1 & Y1 & Y). apply yields_ret in Y. subst s'. apply sized_show.
  refine (yields_foldMM_inv _ (sized ds g n) _ _ _ _ (sized_idx _ _ _ _ _ _ S) Y1). intros b j b' _ Sb Yb. destruct (_ && _)%bool; [eapply transfer_sized; eauto | ysimp; auto].
Qed.
Lemma transfer_call_sized ds g n s c s' : sized ds g n s -> yields (transfer_call s c) s' -> sized ds g n s'.
Proof. intros S Y. destruct c; cbn [transfer_call] in Y; eapply (proj1 (send_sized ds g n _ _ _ _ (sized_idx _ _ _ _ _ _ S) Y)). Qed.
Lemma choose_good p f ds g n s s' : good (KVector p f) ds g n s -> yields (choose p s) s' -> good (KVector p f) ds g n s'.
Proof.
  intros G Y. unfold choose in Y. destruct p; ysimp; auto. cbv zeta in Y. destruct (_ <? _)%nat; ysimp; auto.
Qed.
Lemma update_good kd ds g n cs lr mb s s' : good kd ds g n s -> yields (update kd cs lr mb s) s' -> good kd ds g n s'.
Proof.
  intros G Y. destruct kd as [p f | r | t]; cbn [update] in Y.
  - apply yields_bind in Y as (s1 & Y1 & Y). apply yields_bind in Y as (s2 & Y2 & Y). apply yields_ret in Y. subst s'. apply choose_good with (f := f) (ds := ds) (g := g) (n := n) in Y1; auto.
    assert (G2 : good (KVector p f) ds g n s2). { refine (yields_foldMM_inv _ (good (KVector p f) ds g n) _ _ _ _ Y1 Y2). intros; eapply vector_call_good; eauto. }
    exact G2.
  - apply yields_bind in Y as (s1 & Y1 & Y). eapply onesided_finish_good; [|exact Y]. refine (yields_foldMM_inv _ (good (KOneSided r) ds g n) _ _ _ _ G Y1). intros; eapply onesided_call_good; eauto.
  - apply yields_bind in Y as (s1 & Y1 & Y). eapply transfer_finish_good; [|exact Y]. refine (yields_foldMM_inv _ (sized ds g n) _ _ _ _ (proj1 G) Y1). intros; eapply transfer_call_sized; eauto.
Qed.
Lemma all_parts_sized ds g n o s s' : match o with OSet w | OFloat w => dims w = ds | _ => True end -> sized ds g n s -> yields (all_parts o s) s' -> sized ds g n s'.
Proof.
  unfold all_parts. intros Ho S Y. apply yields_bind in Y as (ps & Y0 & Y). apply yields_ret in Y. subst s'. pose proof S as (G & N & L & P & F & D).
  assert (H : Forall (pdims ds) ps /\ length ps = length (k_parts s)). { eapply mapMM_plain_dims; [exact F | | exact Y0]. intros p p' Dp Yp. exact (proj1 (part_op_dims ds o p p' Ho Dp Yp)). }
  destruct H. apply sized_parts; auto. congruence.
Qed.
Lemma dims_map (f : R -> R) (w : mat) : dims (map (map f) w) = dims w.
Proof. unfold dims. rewrite map_map. apply map_ext. intros. now rewrite map_length. Qed.
Lemma zero_vis_dims d : dims (d_cells (zero_vis d)) = dims (d_cells d).
Proof. unfold zero_vis, dims. cbn [d_cells with_cells]. rewrite map_map. apply map_ext. intros. now rewrite map_length. Qed.
Lemma set_weights_good kd ds g n w s s' : dims w = ds -> sized ds g n s -> yields (set_weights kd w s) s' -> good kd ds g n s'.
Proof.
  intros Dw S Y. pose proof S as (G & N & L & P & F & D).
  assert (PS : forall (f : nat * part -> M part) s0 ps, sized ds g n s0 -> (forall k p p', pdims ds p -> yields (f (k, p)) p' -> pdims ds p') -> yields (mapMM f (zipi (k_parts s0))) ps -> good kd ds g n (show kd (with_parts s0 ps))).
  { intros f s0 ps S0 Hf Y0. pose proof S0 as (_ & N0 & _ & _ & F0 & _). destruct (mapMM_parts_dims ds f _ _ F0 Hf Y0) as [F' L']. apply sized_show, sized_parts; auto. congruence. }
  destruct kd as [p f | r | t]; cbn [set_weights] in Y.
  - cbv zeta in Y. apply yields_bind in Y as (ps & Y0 & Y). apply yields_ret in Y. subst s'. refine (PS _ _ _ _ _ Y0).
    + destruct p; exact S.
    + intros k q q' Dq Yq. cbn [fst snd] in Yq. eapply (proj1 (part_op_dims ds _ q q' _ Dq Yq)). Unshelve. cbv beta iota. destruct p; auto. destruct (k =? _)%nat; auto. rewrite dims_vis. exact Dq.
  - apply yields_bind in Y as (ps & Y0 & Y). apply yields_ret in Y. subst s'. refine (PS _ (with_idx s 0 0) _ S _ Y0).
    intros k q q' Dq Yq. cbn [fst snd] in Yq. refine (proj1 (part_op_dims ds _ q q' _ Dq Yq)). cbv beta iota. destruct (k =? 0)%nat; now rewrite dims_map.
  - cbv zeta in Y. destruct (tp_hidden t) eqn:Et; [|destruct (Reqb _ 0); [ysimp|]].
    + apply yields_bind in Y as (ps & Y0 & Y). apply yields_ret in Y. subst s'.
      refine (PS _ (with_slices (with_idx s (k_idx s) 0) (repeat 0%nat (length (k_parts s)))) _ S _ Y0). intros k q q' Dq Yq. cbn [fst snd] in Yq.
      destruct (k =? _)%nat; [exact (proj1 (part_op_dims ds (OSet w) q q' Dw Dq Yq)) | ysimp; unfold pdims; cbn [snd]; now rewrite zero_vis_dims].
    + apply yields_bind in Y as (ps & Y0 & Y). apply yields_ret in Y. subst s'.
      refine (PS _ (with_slices (with_idx s (k_idx s) 0) (repeat 0%nat (length (k_parts s)))) _ S _ Y0). intros k q q' Dq Yq. cbn [fst snd] in Yq.
      refine (proj1 (part_op_dims ds _ q q' _ Dq Yq)). cbv beta iota. destruct (k =? _)%nat; now rewrite dims_map.
Qed.
Lemma map2_dims {A B C} (f : A -> B -> C) : forall m m', dims m = dims m' -> dims (map2 (map2 f) m m') = dims m.
Proof.
  unfold dims. induction m as [|r m IH]; intros [|r' m'] D; simpl in *; try discriminate; auto. injection D as D1 D2. rewrite IH by auto. f_equal. rewrite map2_length. lia.
Qed.
Lemma cdo_good kd ds g n s o s' : cop_fits ds o -> good kd ds g n s -> yields (cdo kd s o) s' -> good kd ds g n s'.
Proof.
  intros Fo G Y. destruct o; cbn [cdo cop_fits] in *.
  - eapply update_good; eauto.
  - apply yields_bind in Y as (s1 & Y0 & Y). apply yields_ret in Y. subst s'. apply sized_show. eapply (all_parts_sized ds g n (ODecay alpha keep_bias)); eauto. apply G.
  - apply yields_bind in Y as (s1 & Y0 & Y). apply yields_ret in Y. subst s'. apply sized_show. eapply (all_parts_sized ds g n ODiffuse); eauto. apply G.
  - apply yields_bind in Y as (s1 & Y0 & Y). apply yields_ret in Y. subst s'. apply sized_show. eapply (all_parts_sized ds g n (OClip v)); eauto. apply G.
  - apply yields_bind in Y as (s1 & Y0 & Y). apply yields_ret in Y. subst s'. apply sized_show. eapply (all_parts_sized ds g n (ODrift p dt)); eauto. apply G.
  - unfold reset_cols in Y. apply yields_bind in Y as (s1 & Y0 & Y). apply yields_ret in Y. subst s'. apply sized_show.
    assert (H : yields (upd_part 0 (part_op (OReset start n0 prob)) s) s1 \/ yields (all_parts (OReset start n0 prob) s) s1) by (destruct kd; auto).
    destruct H as [H | H]; [eapply upd_part_sized; [|apply G|exact H] | eapply (all_parts_sized ds g n (OReset start n0 prob)); eauto; apply G].
    intros p p' Dp Yp. exact (proj1 (part_op_dims ds (OReset _ _ _) p p' Logic.I Dp Yp)).
  - eapply set_weights_good; eauto. apply G.
  - cbv zeta in Y. apply yields_bind in Y as (s1 & Y0 & Y). apply yields_ret in Y. subst s'. apply sized_show. eapply (all_parts_sized ds g n (OClip (-1))); eauto.
    destruct G as [S _]. pose proof S as (Gm & N & L & P & F & D). destruct (hidden kd).
    + apply sized_parts; auto.
      * apply Forall_forall. intros q Hq. apply in_map_iff in Hq as ([k p] & <- & Hk). cbn [fst snd]. assert (Fp : pdims ds p).
        { pose proof (zipi_Forall _ _ F) as Z. rewrite Forall_forall in Z. exact (Z _ Hk). }
        destruct (k =? _)%nat; auto. unfold pdims in *. cbn [snd d_cells with_cells]. rewrite map2_dims; auto. congruence.
      * now rewrite map_length, zipi_length.
    + destruct S as (? & ? & ? & ? & ? & ?). repeat split; auto. cbn [k_w with_w]. rewrite map2_dims; auto. congruence.
Qed.
Lemma chistory_good kd ds g n os s s' : Forall (cop_fits ds) os -> good kd ds g n s -> chistory kd s os s' -> good kd ds g n s'.
Proof.
  intros Fo G H. unfold chistory in H. refine (yields_foldMM_inv _ (good kd ds g n) _ _ _ _ G H). intros b o b' Io Gb Yb. eapply cdo_good; eauto. rewrite Forall_forall in Fo. auto.
Qed.
