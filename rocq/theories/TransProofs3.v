(** * Chopped transfer: proofs *)
From Verif Require Import Prelude Rand DevModel DevSpec DevProofs PulseModel PulseSpec PulseProofs PulseProps CompModel CompSpec CompProofs CompProofs2 CompProofs3 CompProofs4 CompProps CompProps5 CompProps6 TransModel TransSpec TransProofs TransProps TransProofs2.

Lemma flag_set l i b k : flag (set_nth i b l) k = if ((k =? i) && (i <? length l))%nat%bool then b else flag l k.
Proof. unfold flag. rewrite set_nth_nth. destruct (Nat.eqb_spec k i) as [-> |]; cbn [andb]; auto. Qed.
Lemma chopped_sign t s i j : (if chopped t s i j then -1 else 1) = sign_at t s i j.
Proof. unfold chopped, sign_at, row_chop, col_chop, flag. destruct (tp_columns t); repeat match goal with |- context [nth ?k ?l false] => destruct (nth k l false) end; reflexivity. Qed.
(** ** pulses *)
Definition flip_pulse (t : tpar) (s : cstate) (p : nat * nat * bool) : nat * nat * bool := (fst (fst p), snd (fst p), xorb (snd p) (chopped t s (fst (fst p)) (snd (fst p)))).
Lemma zipi_map_zipi {A B} (f : nat * A -> B) (l : list A) : zipi (map f (zipi l)) = map (fun kx => (fst kx, f kx)) (zipi l).
Proof.
  unfold zipi. rewrite map_length, combine_length, seq_length, Nat.min_id. generalize 0%nat as a. induction l as [|x l IH]; intros a; [reflexivity|]. cbn [length seq combine map fst]. f_equal. apply IH.
Qed.
Lemma map_flat {A B C} (f : B -> C) (g : A -> list B) l : map f (flat_map g l) = flat_map (fun a => map f (g a)) l.
Proof. induction l; [reflexivity|]. cbn [flat_map]. now rewrite map_app, IHl. Qed.
Lemma flat_map_ext' {A B} (f g : A -> list B) l : (forall a, f a = g a) -> flat_map f l = flat_map g l.
Proof. intros H. induction l; [reflexivity|]. cbn [flat_map]. now rewrite H, IHl. Qed.
Lemma map_repeat' {A B} (f : A -> B) a n : map f (repeat a n) = repeat (f a) n.
Proof. induction n; [reflexivity|]. cbn [repeat map]. now rewrite IHn. Qed.
Lemma flat_map_map {A B C} (f : B -> list C) (g : A -> B) l : flat_map f (map g l) = flat_map (fun a => f (g a)) l.
Proof. induction l; [reflexivity|]. cbn [flat_map map]. now rewrite IHl. Qed.
Lemma chop_call_pulses t s c : call_pulses (chop_call t s c) = map (flip_pulse t s) (call_pulses c).
Proof.
  destruct c as [i js | cs]; cbn [chop_call call_pulses].
  - unfold row_pulses. rewrite !map_map. apply map_ext. intros [j b]. reflexivity.
  - unfold dense_pulses. rewrite zipi_map_zipi, flat_map_map, map_flat. apply flat_map_ext'. intros [i r]. cbn [fst snd]. rewrite zipi_map_zipi, flat_map_map, map_flat. apply flat_map_ext'. intros [j z]. cbn [fst snd]. rewrite map_repeat'. unfold flip_pulse. cbn [fst snd].
    destruct (chopped t s i j); [|now rewrite Bool.xorb_false_r]. destruct z; [reflexivity | |]; reflexivity.
Qed.
Lemma pulses_at_flip t s l i j : pulses_at (map (flip_pulse t s) l) i j = map (fun b => xorb b (chopped t s i j)) (pulses_at l i j).
Proof.
  induction l as [|[[a b] c] l IH]; [reflexivity|]. cbn [map]. unfold flip_pulse at 1. cbn [fst snd]. rewrite !pulses_at_cons, IH, map_app. f_equal. destruct (Nat.eqb_spec a i), (Nat.eqb_spec b j); cbn [andb map]; subst; reflexivity.
Qed.
(** ** flips *)
Lemma flip_in_same p i s s' : yields (flip_in p i s) s' -> s_b s' = s_b s /\ s_out s' = s_out s /\ s_cnt s' = s_cnt s /\ (forall k, k <> i -> flag (s_in s') k = flag (s_in s) k) /\ length (s_in s') = length (s_in s) /\
  (cp_in_prob p <= 0 -> s' = s) /\ (0 < cp_in_prob p -> cp_in_random p = false -> (i < length (s_in s))%nat -> flag (s_in s') i = xorb (flag (s_in s) i) ((s_cnt s mod chop_period p + 1 =? chop_period p)%nat)).
Proof.
  unfold flip_in. destruct (Rltb 0 (cp_in_prob p)) eqn:E; [apply Rltb_true in E | apply Rltb_false in E].
  - intros Y. apply yields_bind in Y as (f & Yf & Y). apply yields_ret in Y. subst s'. destruct f; cbn [s_b s_out s_cnt s_in]; do 3 (split; [reflexivity|]).
    + split; [intros k Nk; unfold flip_at; rewrite flag_set; apply Nat.eqb_neq in Nk; now rewrite Nk|]. split; [apply set_nth_length|]. split; [intros; lra|]. intros _ Rn L. rewrite Rn in Yf. apply yields_ret in Yf. rewrite <- Yf. unfold flip_at. rewrite flag_set, Nat.eqb_refl, (proj2 (Nat.ltb_lt _ _) L). cbn [andb]. now rewrite Bool.xorb_true_r.
    + split; [auto|]. split; [auto|]. split; [intros; lra|]. intros _ Rn L. rewrite Rn in Yf. apply yields_ret in Yf. rewrite <- Yf. now rewrite Bool.xorb_false_r.
  - intros Y. apply yields_ret in Y. subst s'. repeat split; auto. intros; lra.
Qed.
Lemma flip_out_same p n s s' : yields (flip_out p n s) s' -> s_b s' = s_b s /\ s_in s' = s_in s /\ s_cnt s' = s_cnt s /\ length (s_out s') = length (s_out s).
Proof.
  unfold flip_out. intros Y. apply yields_bind in Y as (o & Yo & Y). apply yields_ret in Y. subst s'. cbn [s_b s_in s_cnt s_out]. do 3 (split; [reflexivity|]).
  refine (yields_foldMM_inv _ (fun o => length o = length (s_out s)) _ _ _ _ eq_refl Yo). intros b j b' _ Hb Yb. apply yields_bind in Yb as (u & _ & Yb). apply yields_ret in Yb. subst b'. destruct (Rltb u (cp_out_prob p)); [unfold flip_at; now rewrite set_nth_length | exact Hb].
Qed.
(** ** one read *)
Definition chop_mid (t : tpar) (p : cpar) (sc : R) (i : nat) (s : cstate) : M bstate :=
  let c := s_c s in
  let wg_to := m_dwmin (fst (nth 1 (k_parts c) no_part)) in
  let v := unit_vec (in_size t c) i in
  out <~ read_plain t 0 v c ;;
  let B := nth 0 (b_buf (s_b s)) [] in
  let old j := if cp_no_buffer p then 0 else if tp_columns t then at_ B j i else at_ B i j in
  let val j := nth j out 0 * sc in
  let omega j := old j + (if Bool.eqb (flag (s_in s) i) (flag (s_out s) j) then val j else - val j) in
  let r j := chop_next (cp_b p) (up_BL (tp_up t)) (omega j) in
  let B' := map_slice (tp_columns t) i (fun j _ => fst (r j)) B in
  let js := seq 0 (out_size t c) in
  c1 <~ (if existsb (fun j => Rleb 1 (Rabs (omega j))) js then write_slice t 1 (bp_step (cp_b p) * wg_to) v (map (fun j => - IZR (snd (r j))) js) c else Ret c) ;;
  Ret {| b_c := c1; b_buf := set_nth 0 B' (b_buf (s_b s)) |}.
Definition the_scale (t : tpar) (p : cpar) (count lr : R) (c : comp) : R := lr_scale p (in_size t c) (m_dwmin (fst (part_at c 0))) (m_dwmin (fst (part_at c 1))) lr count.
Lemma chop_read_mid t p count lr i s s' : lr <> 0 -> yields (chop_read t p count 1 0 lr i 1 s) s' ->
  yields (chop_mid t p (the_scale t p count lr (s_c s)) i s) (s_b s') /\
  s_cnt s' = (if (i =? in_size t (s_c s) - 1)%nat then S (s_cnt s) else s_cnt s) /\
  (forall k, k <> i -> flag (s_in s') k = flag (s_in s) k) /\ length (s_in s') = length (s_in s) /\ length (s_out s') = length (s_out s) /\
  (cp_in_prob p <= 0 -> s_in s' = s_in s) /\ (cp_out_prob p <= 0 \/ i <> (in_size t (s_c s) - 1)%nat -> s_out s' = s_out s) /\
  (0 < cp_in_prob p -> cp_in_random p = false -> (i < length (s_in s))%nat -> flag (s_in s') i = xorb (flag (s_in s) i) ((s_cnt s mod chop_period p + 1 =? chop_period p)%nat)).
Proof.
  intros L Y. unfold chop_read in Y. rewrite (proj2 (Reqb_false lr 0) L) in Y. cbn [Nat.eqb negb andb] in Y. cbv zeta in Y. apply yields_bind in Y as (out & Yo & Y). apply yields_bind in Y as (c1 & Yc & Y). apply yields_bind in Y as (s2 & Y2 & Y).
  match type of Y2 with yields (flip_in p i ?z) _ => set (s1 := z) in * end.
  assert (Ym : yields (chop_mid t p (the_scale t p count lr (s_c s)) i s) (s_b s1)). { unfold chop_mid. cbv zeta. apply yields_bind. exists out. split; [exact Yo|]. apply yields_bind. exists c1. split; [exact Yc|]. apply yields_ret. reflexivity. }
  destruct (flip_in_same _ _ _ _ Y2) as (B2 & O2 & C2 & F2 & L2 & N2 & R2). destruct (i =? in_size t (s_c s) - 1)%nat eqn:Ei.
  - apply yields_bind in Y as (s3 & Y3 & Y). apply yields_ret in Y. subst s'. cbn [s_b s_in s_out s_cnt].
    assert (H3 : s_b s3 = s_b s2 /\ s_in s3 = s_in s2 /\ s_cnt s3 = s_cnt s2 /\ length (s_out s3) = length (s_out s2) /\ (cp_out_prob p <= 0 -> s3 = s2)).
    { destruct (Rltb 0 (cp_out_prob p)) eqn:Eo; [apply Rltb_true in Eo; destruct (flip_out_same _ _ _ _ Y3) as (A & B & C & D); repeat split; auto; lra | apply yields_ret in Y3; subst; auto]. }
    destruct H3 as (B3 & I3 & C3 & L3 & N3). rewrite B3, B2, I3, C3, C2, L3, O2. split; [exact Ym|]. split; [reflexivity|]. split; [exact F2|]. split; [exact L2|]. split; [reflexivity|]. split; [intros H; now rewrite (N2 H)|]. split; [|exact R2].
    intros [H | H]; [rewrite (N3 H); exact O2 | apply Nat.eqb_eq in Ei; congruence].
  - apply yields_ret in Y. subst s'. rewrite B2, C2, O2. split; [exact Ym|]. split; [reflexivity|]. split; [exact F2|]. split; [exact L2|]. split; [reflexivity|]. split; [intros H; now rewrite (N2 H)|]. split; [auto | exact R2].
Qed.
Lemma chop_next_recursion p maxs h : (1 <= maxs)%Z -> recursion p maxs h (fst (chop_next p maxs h)) (snd (chop_next p maxs h)).
Proof.
  intros M. unfold chop_next, recursion. destruct (Rleb 1 (Rabs h)) eqn:E; [apply Rleb_true in E | apply Rleb_false in E]; cbn [fst snd]; split; intros; try lra.
  - split; [apply n_steps_spec; lia|]. destruct (bp_forget p); lra.
  - auto.
Qed.
Lemma chop_mid_rest t p sc i s b' : yields (chop_mid t p sc i s) b' -> bsame (s_b s) b' 0 /\ (forall k, k <> 1%nat -> part_at (b_c b') k = part_at (s_c s) k) /\ metas (b_c b') = metas (s_c s).
Proof.
  unfold chop_mid. cbv zeta. intros Y. apply yields_bind in Y as (out & _ & Y). apply yields_bind in Y as (c1 & Y & E). apply yields_ret in E. subst b'. unfold bsame. cbn [b_c b_buf].
  assert (H : same_rest (s_c s) c1 /\ (forall k, k <> 1%nat -> part_at c1 k = part_at (s_c s) k) /\ metas c1 = metas (s_c s)).
  { destruct (existsb _ _); [|apply yields_ret in Y; subst; split; [apply same_refl | auto]]. pose proof (write_slice_metas _ _ _ _ _ _ _ Y) as [Hm _]. destruct (upd_part_at _ _ _ _ Y) as (A & B & _). auto. }
  destruct H as (A & B & Hm). split; [split; [exact A | split; [apply set_nth_length|]] | auto]. intros q Nq. rewrite set_nth_nth. apply Nat.eqb_neq in Nq. now rewrite Nq.
Qed.
Definition chop_omega (t : tpar) (p : cpar) (sc : R) (s : cstate) (a b : nat) : R := (if cp_no_buffer p then 0 else cbuf_at s a b) + sign_at t s a b * sc * part_weight (s_c s) 0 a b.
Lemma chop_mid_cell t u p sc n m s i b' a b c : ideal_read (tp_read t) -> tp_up t = init_upar u -> sensible u -> 0 < bp_step (cp_b p) ->
  rect n m (s_c s) -> (1 < length (k_parts (s_c s)))%nat -> (0 < length (b_buf (s_b s)))%nat -> dims (nth 0 (b_buf (s_b s)) []) = repeat n m ->
  0 < m_dwmin (fst (part_at (s_c s) 1)) -> (i < in_size t (s_c s))%nat ->
  yields (chop_mid t p sc i s) b' -> cell_at (d_cells (snd (part_at (s_c s) 1))) a b = Some c ->
  rect n m (b_c b') /\ dims (nth 0 (b_buf b') []) = repeat n m /\
  exists c', cell_at (d_cells (snd (part_at (b_c b') 1))) a b = Some c' /\
    if (slice_of t a b =? i)%nat then exists k, recursion (cp_b p) (up_BL u) (chop_omega t p sc s a b) (buf_at b' 0 a b) k /\ pulsed_towards u (fst (part_at (s_c s) 1)) (bp_step (cp_b p) * m_dwmin (fst (part_at (s_c s) 1))) (IZR k) c c'
    else buf_at b' 0 a b = cbuf_at s a b /\ c' = c.
Proof.
  intros IR U Hs St Rc Lt Lb Db Hg Li Y E. pose proof (chop_mid_rest _ _ _ _ _ _ Y) as ((Sr & _ & _) & _ & _).
  assert (Hab : (a < m)%nat /\ (b < n)%nat). { pose proof Rc as (_ & _ & F). rewrite Forall_forall in F. specialize (F (part_at (s_c s) 1) (nth_In _ _ Lt)). exact (repeat_dims_cells n m _ a b c F E). } destruct Hab as [La Lbn].
  unfold chop_mid in Y. cbv zeta in Y. apply yields_bind in Y as (out & Yo & Y). change (nth 1 (k_parts (s_c s)) no_part) with (part_at (s_c s) 1) in Y. set (wg := m_dwmin (fst (part_at (s_c s) 1))) in *.
  set (B := nth 0 (b_buf (s_b s)) []) in *.
  set (om := fun j => (if cp_no_buffer p then 0 else if tp_columns t then at_ B j i else at_ B i j) + (if Bool.eqb (flag (s_in s) i) (flag (s_out s) j) then nth j out 0 * sc else - (nth j out 0 * sc))) in *.
  assert (Bl : up_BL (tp_up t) = up_BL u) by (rewrite U; reflexivity). rewrite Bl in Y. set (ks := fun j => chop_next (cp_b p) (up_BL u) (om j)).
  apply yields_bind in Y as (c1 & Y & Es). apply yields_ret in Es. assert (P1 : (1 <= up_BL u)%Z) by (destruct Hs; lia).
  assert (Eb : b_buf b' = set_nth 0 (map_slice (tp_columns t) i (fun j _ => fst (ks j)) B) (b_buf (s_b s))) by (rewrite Es; reflexivity). assert (Ec : b_c b' = c1) by (rewrite Es; reflexivity).
  assert (En : nth 0 (b_buf b') [] = map_slice (tp_columns t) i (fun j _ => fst (ks j)) B). { rewrite Eb, set_nth_nth, Nat.eqb_refl, (proj2 (Nat.ltb_lt _ _) Lb). reflexivity. }
  assert (L0 : (0 < length (k_parts (s_c s)))%nat) by lia.
  assert (Wr : forall j, nth j out 0 = if tp_columns t then part_weight (s_c s) 0 j i else part_weight (s_c s) 0 i j). { intros j. pose proof (read_plain_ideal t 0 n m (s_c s) i j out IR Rc L0 Yo) as H. now rewrite (proj2 (Nat.ltb_lt _ _) Li) in H. }
  set (oj := if tp_columns t then a else b).
  assert (Hom : (slice_of t a b =? i)%nat = true -> om oj = chop_omega t p sc s a b).
  { intros H. apply Nat.eqb_eq in H. unfold om, oj, chop_omega, cbuf_at, buf_at. fold B. rewrite Wr. unfold sign_at, row_chop, col_chop, flag. unfold slice_of in H. destruct (tp_columns t); subst i; destruct (cp_no_buffer p); repeat match goal with |- context [nth ?k ?l false] => destruct (nth k l false) end; cbn [Bool.eqb]; lra. }
  destruct (dims_lengths B n m a Db La) as [LB LBa].
  assert (Hx : buf_at b' 0 a b = if (slice_of t a b =? i)%nat then fst (ks oj) else cbuf_at s a b). { unfold cbuf_at, buf_at. rewrite En, at_map_slice by lia. reflexivity. }
  assert (Oj : (oj < out_size t (s_c s))%nat) by (rewrite (rect_out n m) by exact Rc; unfold oj; destruct (tp_columns t); auto).
  assert (Fd : Forall (pdims (repeat n m)) (k_parts (b_c b'))). { rewrite Ec. pose proof Rc as (_ & _ & F). destruct (existsb _ _); [eapply write_slice_pdims; eauto | apply yields_ret in Y; now subst]. }
  split; [exact (rect_same _ _ _ _ Rc Sr Fd)|]. split; [rewrite En, dims_map_slice; exact Db|].
  assert (Hw : exists c', cell_at (d_cells (snd (part_at (b_c b') 1))) a b = Some c' /\ if (slice_of t a b =? i)%nat then pulsed_towards u (fst (part_at (s_c s) 1)) (bp_step (cp_b p) * wg) (IZR (snd (ks oj))) c c' else c' = c).
  { rewrite Ec. destruct (existsb _ _) eqn:Ex.
    - assert (Pl : 0 < bp_step (cp_b p) * wg) by (apply Rmult_lt_0_compat; auto). destruct (write_slice_spec t u 1 _ _ _ _ _ n m a b c U Hs Pl Rc Lt Hg Y E) as (c' & E' & M' & H). exists c'. split; [exact E'|].
      cbv zeta in H. match type of H with pulsed_towards _ _ _ ?w _ _ => replace w with (if (slice_of t a b =? i)%nat then IZR (snd (ks oj)) else 0) in H end.
      + destruct (slice_of t a b =? i)%nat; [exact H|]. destruct H as (k & _ & _ & Z). now apply Z.
      + assert (No : nth oj (map (fun j => - IZR (snd (ks j))) (seq 0 (out_size t (s_c s)))) 0 = - IZR (snd (ks oj))).
        { rewrite (nth_indep _ 0 ((fun j => - IZR (snd (ks j))) 0%nat)) by (rewrite map_length, seq_length; exact Oj). rewrite (map_nth (fun j => - IZR (snd (ks j)))), seq_nth by exact Oj. reflexivity. }
        unfold slice_of, oj in *. destruct (tp_columns t).
        * rewrite unit_nth, (proj2 (Nat.ltb_lt _ _) Li), Bool.andb_true_r. unfold ks, om, B in No |- *. rewrite No. destruct (b =? i)%nat; lra.
        * rewrite unit_nth, (proj2 (Nat.ltb_lt _ _) Li), Bool.andb_true_r. unfold ks, om, B in No |- *. rewrite No. destruct (a =? i)%nat; lra.
    - apply yields_ret in Y. subst c1. exists c. split; [rewrite <- Ec, Es; exact E|]. destruct (slice_of t a b =? i)%nat eqn:Eh; auto.
      assert (K0 : snd (ks oj) = 0%Z).
      { unfold ks, chop_next. destruct (Rleb 1 (Rabs (om oj))) eqn:El; [|reflexivity]. exfalso. assert (Et : existsb (fun j => Rleb 1 (Rabs (om j))) (seq 0 (out_size t (s_c s))) = true) by (apply existsb_exists; exists oj; split; [apply in_seq; lia | exact El]). discriminate (eq_trans (eq_sym Ex) Et). }
      rewrite K0. exists 0%nat. split; [apply yields_ret; reflexivity|]. split; [|auto]. unfold slots. destruct (_ || _)%bool; lia. }
  destruct Hw as (c' & E' & H). exists c'. split; [exact E'|]. rewrite Hx. destruct (slice_of t a b =? i)%nat eqn:Eh; [|auto].
  exists (snd (ks oj)). split; [|exact H]. rewrite <- (Hom eq_refl). unfold ks. now apply chop_next_recursion.
Qed.
