(** * Lemmas about the conductance converters *)
From Verif Require Import Prelude ConvModel.

Lemma zero_clip_pos : 0 < zero_clip.
Proof. unfold zero_clip. apply Rdiv_lt_0_compat; [lra|apply pow_lt; lra]. Qed.
Lemma fus_clip_pos : 0 < fus_clip.
Proof. unfold fus_clip. apply Rdiv_lt_0_compat; [lra|apply pow_lt; lra]. Qed.

Lemma check_g_ok {A} gmax gmin (k : res A) a : check_g gmax gmin k = Ok a -> 0 <= gmin < gmax /\ k = Ok a.
Proof. unfold check_g. repeat rcase; intros H; try discriminate. repeat split; try lra; auto. Qed.

(** a value scaled by [G / max(maxabs w, clip)] stays within [G] *)
Lemma scaled_bound w v G cl : 0 < cl -> 0 <= G -> In v w -> Rabs (v * (G / Rmax (maxabs w) cl)) <= G.
Proof.
  intros Hc HG Hv. pose proof (maxabs_ub w v Hv) as B. pose proof (Rmax_l (maxabs w) cl). pose proof (Rmax_r (maxabs w) cl).
  set (m := Rmax (maxabs w) cl) in *. assert (0 < m) by lra.
  rewrite Rabs_mult. replace (Rabs (G / m)) with (G / m).
  2: { symmetry. apply Rabs_right, Rle_ge. apply Rmult_le_pos; auto. apply Rlt_le, Rinv_0_lt_compat; auto. }
  replace G with (m * (G / m)) at 2 by (field; lra).
  apply Rmult_le_compat_r; [|lra]. apply Rmult_le_pos; auto. apply Rlt_le, Rinv_0_lt_compat; auto.
Qed.

(** ** single pair *)
Lemma sp_point gmax gmin s : 0 <= gmin < gmax -> Rabs s <= gmax - gmin ->
  let gp := clampR 0 gmax s + gmin in let gm := clampR 0 gmax (- s) + gmin in
  (gp - gmin) - (gm - gmin) = s /\ gmin <= gp <= gmax /\ gmin <= gm <= gmax /\ (gp = gmin \/ gm = gmin).
Proof. intros H B gp gm. unfold gp, gm, clampR. revert B. mm; intros; repeat split; try lra. Qed.

(** ** N pairs *)
Definition lvl (G f lower x : R) : R := f * Rmin (Rmax ((Rmax x 0 - lower) / f) 0) G.
Fixpoint used (G : R) (fs : list R) (lower x : R) : R :=
  match fs with [] => 0 | f :: r => lvl G f lower x + used G r (lower + f * G) x end.
Lemma lvl_val G f lower x : 0 < f -> 0 < G -> lvl G f lower x = Rmin (Rmax (Rmax x 0 - lower) 0) (f * G).
Proof.
  intros Hf HG. unfold lvl. set (y := Rmax x 0 - lower).
  assert (E : f * (y / f) = y) by (field; lra).
  destruct (Rmax_cases (y / f) 0) as [[A Ea]|[A Ea]]; rewrite Ea.
  - assert (y <= 0). { rewrite <- E. rewrite <- (Rmult_0_r f). apply Rmult_le_compat_l; lra. }
    rewrite Rmin_left by lra. rewrite (Rmax_right y 0) by lra. rewrite Rmin_left; [lra|].
    apply Rlt_le, Rmult_lt_0_compat; lra.
  - assert (0 < y). { rewrite <- E. apply Rmult_lt_0_compat; lra. }
    rewrite (Rmax_left y 0) by lra. destruct (Rmin_cases (y / f) G) as [[B Eb]|[B Eb]]; rewrite Eb.
    + rewrite Rmin_left; [lra|]. rewrite <- E. apply Rmult_le_compat_l; lra.
    + rewrite Rmin_right; [lra|]. rewrite <- E. apply Rmult_le_compat_l; lra.
Qed.
Lemma used_val G x : 0 < G -> forall fs lower, Forall (fun f => 0 < f) fs ->
  used G fs lower x = Rmin (Rmax (Rmax x 0 - lower) 0) (sumR (map (fun f => f * G) fs)).
Proof.
  intros HG. induction fs as [|f fs IH]; intros lower F; simpl.
  - mm.
  - inversion F; subst. rewrite IH, lvl_val by auto.
    assert (0 < f * G) by (apply Rmult_lt_0_compat; auto).
    assert (0 <= sumR (map (fun f => f * G) fs)).
    { clear -H2 HG. induction H2; simpl; [lra|]. pose proof (Rmult_lt_0_compat x G H HG). lra. }
    set (S := sumR _) in *. set (p := f * G) in *. set (y := Rmax x 0). mm.
Qed.
Lemma sumf_pos G fs : 0 < G -> Forall (fun f => 0 < f) fs -> fs <> [] -> 0 < sumR (map (fun f => f * G) fs).
Proof.
  intros HG F N. destruct F; [congruence|]. simpl.
  assert (0 < x * G) by (apply Rmult_lt_0_compat; auto).
  assert (0 <= sumR (map (fun f => f * G) l)).
  { clear -F HG. induction F; simpl; [lra|]. pose proof (Rmult_lt_0_compat x G H HG). lra. }
  lra.
Qed.
Lemma np_dev_val c f lower x : np_gmin c < np_gmax c -> 0 < f ->
  f * (np_dev c f lower x - np_gmin c) = lvl (np_gmax c - np_gmin c) f lower x.
Proof. intros H Hf. unfold np_dev, lvl. f_equal. unfold clampR. set (y := (_ - lower) / f). mm. Qed.

Lemma vadd_map (f g : R -> R) (l : vec) : vadd (map f l) (map g l) = map (fun v => f v + g v) l.
Proof. induction l; simpl; unfold vadd in *; simpl; [auto|now rewrite IHl]. Qed.
Lemma map2_map {A B C D} (h : B -> C -> D) (f : A -> B) (g : A -> C) l : map2 h (map f l) (map g l) = map (fun v => h (f v) (g v)) l.
Proof. induction l; simpl; congruence. Qed.

Lemma np_loop_length c w : forall fs lower, length (np_loop c w fs lower) = (2 * length fs)%nat.
Proof. induction fs; intros; simpl; auto. rewrite IHfs. lia. Qed.
Lemma np_sum c w (H : np_gmin c < np_gmax c) : forall fs lower (a : R -> R), Forall (fun f => 0 < f) fs ->
  sum_pairs (map a w) fs (pairs (np_loop c w fs lower))
  = map (fun v => a v + (used (np_gmax c - np_gmin c) fs lower v - used (np_gmax c - np_gmin c) fs lower (- v))) w.
Proof.
  induction fs as [|f fs IH]; intros lower a F; simpl.
  - apply map_ext. intros; lra.
  - inversion F; subst. rewrite map2_map, vadd_map. rewrite IH by auto. apply map_ext. intros v.
    rewrite <- !np_dev_val by auto. ring.
Qed.
Lemma np_loop_nth c w : forall fs lower k, (k < length fs)%nat ->
  nth (2 * k) (np_loop c w fs lower) [] = map (np_dev c (nth k fs 0) (lower + sumR (map (fun f => f * (np_gmax c - np_gmin c)) (firstn k fs)))) w
  /\ nth (2 * k + 1) (np_loop c w fs lower) [] = map (fun v => np_dev c (nth k fs 0) (lower + sumR (map (fun f => f * (np_gmax c - np_gmin c)) (firstn k fs))) (- v)) w.
Proof.
  induction fs as [|f fs IH]; intros lower k H; [simpl in H; lia|]. destruct k as [|k]; cbn [np_loop].
  - simpl. rewrite Rplus_0_r. auto.
  - replace (2 * S k)%nat with (S (S (2 * k))) by lia. replace (S (S (2 * k)) + 1)%nat with (S (S (2 * k + 1))) by lia.
    cbn [nth firstn map sumR]. destruct (IH (lower + f * (np_gmax c - np_gmin c)) k) as [A B]; [simpl in H; lia|].
    rewrite A, B. split; apply map_ext; intros v; f_equal; ring.
Qed.

(** ** interpolation on a grid *)
Fixpoint incr_grid (x : R) (xs : vec) : Prop := match xs with [] => True | y :: r => x < y /\ incr_grid y r end.
(** interpolating a linear combination = combination of interpolations *)
Lemma interp_seg_lin (a : R) x : forall xs f g x0 f0 g0, length f = length xs -> length g = length xs ->
  interp_seg x x0 (f0 + a * g0) xs (map2 (fun u v => u + a * v) f g) = interp_seg x x0 f0 xs f + a * interp_seg x x0 g0 xs g.
Proof.
  induction xs as [|x1 xs IH]; intros [|f1 f] [|g1 g] x0 f0 g0 Hf Hg; simpl in *; try lia; auto.
  rcase; [unfold Rdiv; ring|]. apply IH; lia.
Qed.
Lemma interp_lin (a : R) x xs f g : length f = length xs -> length g = length xs ->
  interp xs (map2 (fun u v => u + a * v) f g) x = interp xs f x + a * interp xs g x.
Proof.
  destruct xs as [|x0 xs], f as [|f0 f], g as [|g0 g]; simpl; intros; try lia; [lra|]. rcase; auto. apply interp_seg_lin; lia.
Qed.
Lemma last_cons {A} (x : A) : forall l d, last (x :: l) d = last l x.
Proof. intros l. revert x. induction l as [|y l IH]; intros x d; [reflexivity|]. change (last (x :: y :: l) d) with (last (y :: l) d). now rewrite !IH. Qed.
(** interpolating values proportional to the grid gives a proportional value *)
Lemma interp_seg_id k x : forall xs x0, incr_grid x0 xs -> x0 < x -> x <= last xs x0 ->
  interp_seg x x0 (x0 * k) xs (map (fun v => v * k) xs) = x * k.
Proof.
  induction xs as [|x1 xs IH]; intros x0 G L U; [simpl in *; lra|]. destruct G as [G1 G2]. rewrite last_cons in U. simpl. rcase.
  - field. lra.
  - apply IH; auto.
Qed.
Lemma interp_id k x x0 xs : incr_grid x0 xs -> x0 <= x <= last xs x0 ->
  interp (x0 :: xs) (map (fun v => v * k) (x0 :: xs)) x = x * k.
Proof.
  intros G H. simpl. rcase; [replace x with x0 by lra; auto|]. apply interp_seg_id; auto; lra.
Qed.
Lemma grid_head m n : (1 < n)%nat -> exists xs, grid m n = - m :: xs.
Proof. intros H. unfold grid. destruct n; [lia|]. simpl. eexists. f_equal. unfold Rdiv. ring. Qed.
Lemma grid_incr_aux m n : 0 < m -> (1 < n)%nat -> forall l a,
  incr_grid (- m + 2 * m * INR a / INR (n - 1)) (map (fun k => - m + 2 * m * INR k / INR (n - 1)) (seq (S a) l)).
Proof.
  intros Hm Hn. induction l as [|l IH]; intros a; cbn [seq map incr_grid]; auto. split; [|apply IH].
  assert (0 < INR (n - 1)) by (apply lt_0_INR; lia).
  apply Rplus_lt_compat_l. unfold Rdiv. apply Rmult_lt_compat_r; [now apply Rinv_0_lt_compat|].
  apply Rmult_lt_compat_l; [lra|]. apply lt_INR. lia.
Qed.
Lemma grid_last m n : (1 < n)%nat -> last (grid m n) 0 = m.
Proof.
  intros Hn. unfold grid. destruct n; [lia|]. rewrite seq_S, map_app. cbn [map]. rewrite last_last.
  replace (S n - 1)%nat with n by lia. rewrite Nat.add_0_l. field. apply not_0_INR. lia.
Qed.
Lemma incr_grid_scale r : 0 < r -> forall xs x, incr_grid x xs -> incr_grid (x / r) (map (fun v => v / r) xs).
Proof.
  intros Hr. induction xs as [|y xs IH]; intros x G; simpl in *; auto. destruct G. split; [|auto].
  unfold Rdiv. apply Rmult_lt_compat_r; auto. now apply Rinv_0_lt_compat.
Qed.
Lemma last_map {A B} (f : A -> B) : forall l d, last (map f l) (f d) = f (last l d).
Proof. induction l as [|a l IH]; intros d; [reflexivity|]. simpl map. rewrite !last_cons. apply IH. Qed.
(** the weight grid of the custom converter: interpolating the conductance grid over it
    is multiplication by the ratio *)
Lemma interp_grid m n r x : 0 < m -> 0 < r -> (1 < n)%nat -> Rabs x <= m / r ->
  interp (map (fun v => v / r) (grid m n)) (grid m n) x = x * r.
Proof.
  intros Hm Hr Hn Hx. destruct (grid_head m n Hn) as [xs E].
  pose proof (grid_last m n Hn) as L. rewrite E, last_cons in L.
  assert (G : incr_grid (- m) xs).
  { pose proof (grid_incr_aux m n Hm Hn (n - 1) 0) as G. unfold grid in E. destruct n; [lia|]. simpl seq in E. injection E as E1 E2.
    replace (S n - 1)%nat with n in * by lia. rewrite Nat.sub_0_r in E2. rewrite <- E2. simpl INR in G. replace (- m + 2 * m * 0 / INR n) with (- m) in G by (unfold Rdiv; ring). exact G. }
  rewrite E. simpl map.
  replace (- m :: xs) with (map (fun v => v * r) (- m / r :: map (fun v => v / r) xs)).
  2: { simpl. f_equal; [field; lra|]. rewrite map_map. rewrite <- (map_id xs) at 2. apply map_ext. intros; field; lra. }
  apply interp_id; [now apply incr_grid_scale|].
  rewrite (last_map (fun v => v / r)), L.
  assert (A := Rle_abs x). assert (B := Rle_abs (- x)). rewrite Rabs_Ropp in B.
  replace (- m / r) with (- (m / r)) by (field; lra). lra.
Qed.

(** ** list lemmas *)
Lemma minlist_le l x : In x l -> minlist l <= x.
Proof.
  unfold minlist. destruct l as [|a l]; [easy|].
  assert (G : forall l a, fold_left Rmin l a <= a /\ forall y, In y l -> fold_left Rmin l a <= y).
  { clear. induction l as [|b l IH]; intros a; simpl; [split; [lra|easy]|]. destruct (IH (Rmin a b)) as [A B].
    pose proof (Rmin_l a b). pose proof (Rmin_r a b). split; [lra|]. intros y [<- | H1]; [lra|auto]. }
  destruct (G l a) as [G1 G2]. intros [<- | H]; auto.
Qed.
Lemma maxlist_ge l x : In x l -> x <= maxlist l.
Proof.
  unfold maxlist. destruct l as [|a l]; [easy|].
  assert (G : forall l a, a <= fold_left Rmax l a /\ forall y, In y l -> y <= fold_left Rmax l a).
  { clear. induction l as [|b l IH]; intros a; simpl; [split; [lra|easy]|]. destruct (IH (Rmax a b)) as [A B].
    pose proof (Rmax_l a b). pose proof (Rmax_r a b). split; [lra|]. intros y [<- | H1]; [lra|auto]. }
  destruct (G l a) as [G1 G2]. intros [<- | H]; auto.
Qed.
Lemma minlist_in l : l <> [] -> In (minlist l) l.
Proof.
  unfold minlist. destruct l as [|a l]; [easy|]. intros _. revert a. induction l as [|b l IH]; intros a; simpl; auto.
  destruct (IH (Rmin a b)) as [E|E]; simpl in *; auto. rewrite <- E. destruct (Rmin_cases a b) as [[_ ->]|[_ ->]]; auto.
Qed.
Lemma maxlist_in l : l <> [] -> In (maxlist l) l.
Proof.
  unfold maxlist. destruct l as [|a l]; [easy|]. intros _. revert a. induction l as [|b l IH]; intros a; simpl; auto.
  destruct (IH (Rmax a b)) as [E|E]; simpl in *; auto. rewrite <- E. destruct (Rmax_cases a b) as [[_ ->]|[_ ->]]; auto.
Qed.

(** ** least squares slope *)
Lemma sumR_scale k l : sumR (map (fun v => v * k) l) = sumR l * k.
Proof. induction l; simpl; [lra|]. rewrite IHl. ring. Qed.
Lemma mean_scale k l : mean (map (fun v => v * k) l) = mean l * k.
Proof. unfold mean. rewrite sumR_scale, map_length. unfold Rdiv. ring. Qed.
Lemma dot_self_nonneg l : 0 <= dot l l.
Proof. induction l; simpl; [lra|]. pose proof (Rle_0_sqr a). unfold Rsqr in *. lra. Qed.
Lemma dot_self_0 l : dot l l = 0 -> Forall (eq 0) l.
Proof.
  induction l as [|a l IH]; simpl; intros H; constructor; pose proof (dot_self_nonneg l); pose proof (Rle_0_sqr a); unfold Rsqr in *.
  - assert (a * a = 0) by lra. apply Rmult_integral in H2. lra.
  - apply IH. lra.
Qed.
Lemma dot_scale_self k l : dot (map (fun v => v * k) l) (map (fun v => v * k) l) = k * k * dot l l.
Proof. induction l; simpl; [lra|]. rewrite IHl. ring. Qed.
Lemma dot_scale_one k l m : dot (map (fun v => v * k) l) m = k * dot l m.
Proof. revert m. induction l; intros [|b m]; simpl; try lra. rewrite IHl. ring. Qed.
Definition dev (l : vec) : vec := map (fun v => v - mean l) l.
Lemma dev_scale k l : dev (map (fun v => v * k) l) = map (fun v => v * k) (dev l).
Proof. unfold dev. rewrite mean_scale, !map_map. apply map_ext. intros; ring. Qed.
Lemma slope_scale k (w : vec) : k <> 0 -> slope (map (fun v => v * k) w) w = if Reqb (dot (dev w) (dev w)) 0 then 0 else 1 / k.
Proof.
  intros Hk. unfold slope. fold (dev (map (fun v => v * k) w)). fold (dev w). rewrite dev_scale, dot_scale_self, dot_scale_one.
  assert (D : Reqb (k * k * dot (dev w) (dev w)) 0 = Reqb (dot (dev w) (dev w)) 0).
  { destruct (Reqb (dot (dev w) (dev w)) 0) eqn:E.
    - apply Reqb_true in E. apply Reqb_true. rewrite E. ring.
    - apply Reqb_false in E. apply Reqb_false. intros H. apply Rmult_integral in H as [H|H]; auto. apply Rmult_integral in H as [H|H]; auto. }
  rewrite D. rcase; auto. field. auto.
Qed.
(** the row is constant *)
Lemma dev_zero w : dot (dev w) (dev w) = 0 <-> Forall (eq (mean w)) w.
Proof.
  split; intros H.
  - apply dot_self_0 in H. unfold dev in H. rewrite Forall_forall in *. intros x Hx. specialize (H (x - mean w) (in_map (fun v => v - mean w) w x Hx)). lra.
  - assert (E : Forall (eq 0) (dev w)) by (unfold dev; rewrite Forall_forall in *; intros x Hx; apply in_map_iff in Hx as [y [<- Hy]]; specialize (H y Hy); lra).
    clear H. induction E; simpl; [auto|]. subst. rewrite IHE. ring.
Qed.
