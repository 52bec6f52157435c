(** * The custom tile (C175) *)
From Verif Require Import Prelude LinSpec LinProps CtModel.

(** a history of operations: set the weights, set the learning rate, update *)
Inductive cop := CSet (w : mat) | CLr (lr : option R) | CUpd (xs ds : list (list R)).
Definition crun (t : ctile) (o : cop) : ctile := match o with CSet w => ct_set t w | CLr lr => ct_set_lr t lr | CUpd xs ds => ct_update t xs ds end.
Definition cok (o i : nat) (p : cop) : Prop := match p with CSet w => shape o i w | _ => True end.
(** what plain stochastic gradient descent does with these operations: the learning rate and the matrix *)
Definition sgd_step (o i : nat) (s : R * (nat -> nat -> R)) (p : cop) : R * (nat -> nat -> R) :=
  match p with
  | CSet w => (fst s, entry w)
  | CLr (Some lr) => (lr, snd s)
  | CLr None => s
  | CUpd xs ds => (fst s, fun a b => snd s a b - fst s * outer_sum xs ds a b)
  end.

Lemma put_len k m s : length (put k m s) = length s.
Proof. revert s. induction k; intros [|x s]; cbn; auto. Qed.
Lemma put_same k m s : (k < length s)%nat -> nth k (put k m s) [] = m.
Proof. revert s. induction k; intros [|x s] H; cbn [put nth length] in *; [lia | reflexivity | lia | apply IHk; lia]. Qed.
Lemma put_other k j m s : j <> k -> nth j (put k m s) [] = nth j s [].
Proof. revert j s. induction k; intros j [|x s] H; destruct j; cbn [put nth]; try reflexivity; try lia. apply IHk. lia. Qed.
Definition cinv (o i : nat) (t : ctile) : Prop := ct_o t = o /\ ct_i t = i /\ (ct_buf t < length (ct_store t))%nat /\ shape o i (ct_weight t).
Lemma delta_shape o i xs ds : shape o i (delta_w o i xs ds).
Proof. split; [unfold delta_w; now rewrite map_length, seq_length|]. unfold delta_w. apply Forall_forall. intros r Hr. apply in_map_iff in Hr. destruct Hr as (a & <- & _). now rewrite map_length, seq_length. Qed.
Lemma nth_map_seq (f : nat -> R) n j : (j < n)%nat -> nth j (map f (seq 0 n)) 0 = f j.
Proof. intros H. rewrite (nth_indep _ 0 (f 0%nat)) by (rewrite map_length, seq_length; exact H). rewrite (map_nth f). now rewrite seq_nth. Qed.
Lemma nth_map_seq_l (f : nat -> list R) n j : (j < n)%nat -> nth j (map f (seq 0 n)) [] = f j.
Proof. intros H. rewrite (nth_indep _ [] (f 0%nat)) by (rewrite map_length, seq_length; exact H). rewrite (map_nth f). now rewrite seq_nth. Qed.
Lemma delta_entry o i xs ds a b : (a < o)%nat -> (b < i)%nat -> entry (delta_w o i xs ds) a b = outer_sum xs ds a b.
Proof. intros Ha Hb. unfold entry, delta_w. rewrite nth_map_seq_l by exact Ha. now rewrite nth_map_seq. Qed.
Lemma map2_shape o i (f : R -> R -> R) A B : shape o i A -> shape o i B -> shape o i (map2 (map2 f) A B).
Proof.
  intros [LA FA] [LB FB]. split; [rewrite map2_length; unfold vec in *; lia|]. clear -FA FB. revert B FB. induction FA as [|r A Hr _ IH]; intros [|s B] FB; cbn [map2]; constructor. - inversion FB; subst. rewrite map2_length. unfold vec in *. lia. - apply IH. now inversion FB.
Qed.
Lemma map2_entry o i (f : R -> R -> R) A B a b : shape o i A -> shape o i B -> (a < o)%nat -> (b < i)%nat -> entry (map2 (map2 f) A B) a b = f (entry A a b) (entry B a b).
Proof.
  intros [LA FA] [LB FB] Ha Hb. unfold entry. rewrite Forall_forall in FA, FB. assert (A1 : length (nth a A []) = i) by (apply FA, nth_In; unfold vec in *; lia). assert (B1 : length (nth a B []) = i) by (apply FB, nth_In; unfold vec in *; lia).
  assert (E : nth a (map2 (map2 f) A B) [] = map2 f (nth a A []) (nth a B [])) by (apply (map2_nth (map2 f) A B [] [] []); unfold vec in *; lia). etransitivity; [apply (f_equal (fun l => nth b l 0) E)|]. apply map2_nth; unfold vec in *; lia.
Qed.
Lemma crun_inv o i t p : cinv o i t -> cok o i p -> cinv o i (crun t p) /\
  forall s, fst s = ct_lr t -> (forall a b, (a < o)%nat -> (b < i)%nat -> snd s a b = entry (ct_weight t) a b) ->
    fst (sgd_step o i s p) = ct_lr (crun t p) /\ forall a b, (a < o)%nat -> (b < i)%nat -> snd (sgd_step o i s p) a b = entry (ct_weight (crun t p)) a b.
Proof.
  intros (Eo & Ei & B & S) Ok. destruct p as [w|lr|xs ds]; cbn [crun cok sgd_step] in *.
  - assert (Ew : ct_weight (ct_set t w) = w) by (unfold ct_weight, ct_set; cbn [with_store ct_buf ct_store]; now apply put_same). split.
    + unfold cinv. rewrite Ew. cbn. rewrite put_len. auto.
    + intros s E1 E2. cbn [fst snd]. rewrite Ew. split; [exact E1 | reflexivity].
  - destruct lr as [r|]; (split; [exact (conj Eo (conj Ei (conj B S)))|]); intros s E1 E2; cbn [fst snd]; split; auto.
  - assert (Ew : ct_weight (ct_update t xs ds) = map2 (map2 (fun w g => w - ct_lr t * g)) (ct_weight t) (delta_w o i xs ds)). { unfold ct_weight at 1, ct_update. cbn [with_store ct_buf ct_store]. rewrite app_nth2, Nat.sub_diag by lia. cbn [nth]. now rewrite Eo, Ei. }
    pose proof (delta_shape o i xs ds) as D. split.
    + unfold cinv. rewrite Ew. cbn [ct_update with_store ct_o ct_i ct_buf ct_store]. rewrite app_length. cbn [length]. split; [exact Eo|]. split; [exact Ei|]. split; [lia|]. now apply map2_shape.
    + intros s E1 E2. cbn [fst snd]. split; [exact E1|]. intros a b Ha Hb. rewrite Ew. rewrite (map2_entry o i) by auto. rewrite delta_entry by auto. rewrite E1, E2 by auto. reflexivity.
Qed.

(** C175: without gradient noise the custom tile performs stochastic gradient descent: after any history the entries
    of its weights, and what forward and backward multiply with, are those of plain SGD. *)
Theorem C175_sgd o i (h : list cop) : Forall (cok o i) h ->
  let t := fold_left crun h (ct_new o i) in
  let W := snd (fold_left (sgd_step o i) h (1 / 10, fun _ _ => 0)) in
  shape o i (ct_weight t) /\ (forall a b, (a < o)%nat -> (b < i)%nat -> entry (ct_weight t) a b = W a b) /\
  (forall x, length x = i -> ct_forward t x = map (fun a => sumR (map (fun b => W a b * nth b x 0) (seq 0 i))) (seq 0 o)) /\
  (forall d, length d = o -> ct_backward t d = map (fun b => sumR (map (fun a => nth a d 0 * W a b) (seq 0 o))) (seq 0 i)).
Proof.
  intros F t W.
  assert (G : forall h t0 s, cinv o i t0 -> fst s = ct_lr t0 -> (forall a b, (a < o)%nat -> (b < i)%nat -> snd s a b = entry (ct_weight t0) a b) -> Forall (cok o i) h ->
    cinv o i (fold_left crun h t0) /\ forall a b, (a < o)%nat -> (b < i)%nat -> snd (fold_left (sgd_step o i) h s) a b = entry (ct_weight (fold_left crun h t0)) a b).
  { clear. induction h as [|p h IH]; intros t0 s C E1 E2 F; [split; assumption|]. inversion F as [|? ? F1 F2]; subst. cbn [fold_left]. destruct (crun_inv o i t0 p C F1) as [C' K]. destruct (K s E1 E2) as [K1 K2]. apply IH; auto. }
  assert (Z : forall a b, (a < o)%nat -> (b < i)%nat -> entry (repeat (repeat 0 i) o) a b = 0). { intros a b Ha Hb. unfold entry. assert (E : nth a (repeat (repeat 0 i) o) [] = repeat 0 i) by (rewrite (nth_indep _ [] (repeat 0 i)) by (rewrite repeat_length; exact Ha); apply nth_repeat). rewrite E. apply nth_repeat. }
  destruct (G h (ct_new o i) (1 / 10, fun _ _ => 0)) as [(Co & Ci & _ & S) E]; auto.
  { split; [reflexivity|]. split; [reflexivity|]. split; [cbn; lia|]. apply zeros_shape. } { intros a b Ha Hb. cbn [snd]. symmetry. apply Z; auto. }
  fold t in Co, Ci, S, E. fold W in E. split; [exact S|]. split; [intros a b Ha Hb; now rewrite E|]. destruct S as [LS FS]. rewrite Forall_forall in FS. split.
  - intros x Lx. unfold ct_forward, matvec. apply (nth_ext _ _ 0 0); [rewrite !map_length, seq_length; exact LS|]. intros a Ha. rewrite map_length in Ha. assert (Ha' : (a < o)%nat) by (unfold vec in *; lia). rewrite nth_map_seq by exact Ha'. etransitivity; [rewrite (nth_indep _ 0 (dot [] x)) by (rewrite map_length; exact Ha); apply (map_nth (fun r : list R => dot r x))|].
    assert (Lr : length (nth a (ct_weight t) []) = i) by (apply FS, nth_In; exact Ha). assert (Er : forall b, (b < i)%nat -> nth b (nth a (ct_weight t) []) 0 = W a b) by (intros b Hb; symmetry; apply (E a b Ha' Hb)). clear -Lr Er Lx. revert Lr Er. generalize (nth a (ct_weight t) []) as r. intros r Lr Er. transitivity (sumR (map (fun b => nth b r 0 * nth b x 0) (seq 0 i))); [|f_equal; apply map_ext_in; intros b Hb; apply in_seq in Hb; rewrite Er by lia; reflexivity]. clear Er. rewrite <- Lr in Lx |- *. clear Lr. revert x Lx. induction r as [|u r IH]; intros [|v x] Lx; try discriminate Lx; [reflexivity|]. cbn [length seq map sumR dot nth]. rewrite <- seq_shift, map_map. rewrite (IH x) by (now injection Lx). reflexivity.
  - intros d Ld. unfold ct_backward. rewrite Ci. apply map_ext_in. intros b Hb. apply in_seq in Hb. assert (Er : forall a, (a < o)%nat -> nth b (nth a (ct_weight t) []) 0 = W a b) by (intros a Ha; symmetry; apply (E a b Ha ltac:(lia))). transitivity (sumR (map (fun a => nth a d 0 * nth b (nth a (ct_weight t) []) 0) (seq 0 o))); [|f_equal; apply map_ext_in; intros a Ha; apply in_seq in Ha; rewrite Er by lia; reflexivity]. revert LS. generalize (ct_weight t) as w. clear -Ld. intros w LS. revert o LS d Ld. induction w as [|r w IH]; intros o LS d Ld; cbn [length] in LS; subst o.
    + destruct d; [reflexivity | discriminate Ld].
    + destruct d as [|u d]; [discriminate Ld|]. cbn [seq map map2 sumR nth length]. rewrite <- seq_shift, map_map. rewrite (IH (length w) eq_refl d) by (now injection Ld). reflexivity.
Qed.
Example C175_nontrivial : Forall (cok 1 2) [CSet [[1; 2]]; CLr (Some 3); CUpd [[1; 0]] [[5]]; CLr None; CUpd [[1; 1]; [0; 2]] [[1]; [2]]].
Proof. repeat constructor. Qed.

(** A reference to the weights shows and changes the weights of the tile until the next update, which leaves the
    reference with the old values. *)
Theorem C175_reference t : (ct_buf t < length (ct_store t))%nat ->
  (forall w, ct_weight (ct_write t (ct_ref t) w) = w) /\ (forall w, ct_read (ct_set t w) (ct_ref t) = w) /\
  forall xs ds, ct_read (ct_update t xs ds) (ct_ref t) = ct_weight t /\ forall w, ct_weight (ct_write (ct_update t xs ds) (ct_ref t) w) = ct_weight (ct_update t xs ds).
Proof.
  intros B. unfold ct_ref. split; [|split].
  - intros w. unfold ct_weight, ct_write. cbn [with_store ct_buf ct_store]. now apply put_same.
  - intros w. unfold ct_read, ct_set. cbn [with_store ct_buf ct_store]. now apply put_same.
  - intros xs ds. split; [unfold ct_read, ct_update; cbn [with_store ct_buf ct_store]; now rewrite app_nth1|]. intros w. unfold ct_weight at 1, ct_write. cbn [with_store ct_buf ct_store]. unfold ct_update at 1. cbn [with_store ct_buf]. rewrite put_other; [reflexivity | lia].
Qed.
(** Uniform random weights: the values are spread over [[-bmin, 1/(bmax-bmin) - bmin)], which is [[bmin, bmax)] only
    for the interval from 0 to 1. *)
Theorem C175_uniform bmin bmax : bmin < bmax ->
  ((forall v, (exists u, 0 <= u < 1 /\ v = uniform_value bmin bmax u) <-> bmin <= v < bmax) <-> bmin = 0 /\ bmax = 1).
Proof.
  intros L. unfold uniform_value. assert (Hi : 0 < / (bmax - bmin)) by (apply Rinv_0_lt_compat; lra). split.
  - intros H. assert (B0 : bmin <= 0). { destruct (H (- bmin)) as [H1 _]. destruct H1 as [H1 _]; [exists 0; split; [lra | field; lra] | lra]. } assert (B1 : 0 <= bmin). { destruct (H bmin) as [_ H2]. destruct H2 as (u & Hu & E); [lra|]. assert (0 <= u / (bmax - bmin)) by (apply Rmult_le_pos; lra). lra. } assert (bmin = 0) by lra. subst bmin. split; [reflexivity|]. replace (bmax - 0) with bmax in * by ring.
    destruct (Rtotal_order bmax 1) as [C|[C|C]]; [|exact C|].
    + exfalso. destruct (H 1) as [H1 _]. destruct H1 as [_ H1]; [exists bmax; split; [lra | field; lra] | lra].
    + exfalso. set (v := (/ bmax + bmax) / 2). assert (I1 : / bmax < 1) by (rewrite <- Rinv_1; apply Rinv_lt_contravar; lra). destruct (H v) as [_ H2]. destruct H2 as (u & Hu & E); [unfold v; lra|]. assert (u / bmax < / bmax) by (unfold Rdiv; rewrite <- (Rmult_1_l (/ bmax)) at 2; apply Rmult_lt_compat_r; lra). unfold v in E. lra.
  - intros [-> ->] v. split; [intros (u & Hu & ->); lra|]. intros Hv. exists v. split; [lra | lra].
Qed.
(** In particular the start of [program_weights] (between [-w] and [w] by its documentation, [w] = 0.01 by default) *)
Theorem C175_program_start_refuted u : 0 <= u < 1 -> 1 / 100 <= uniform_value (- (1 / 100)) (1 / 100) u < 50 + 1 / 100 /\ uniform_value (- (1 / 100)) (1 / 100) (1 / 2) = 25 + 1 / 100.
Proof. intros H. unfold uniform_value. assert (E : forall v, v / (1 / 100 - - (1 / 100)) = v * 50) by (intros v; field). rewrite !E. split; lra. Qed.

Print Assumptions C175_sgd.
Print Assumptions C175_reference.
Print Assumptions C175_uniform.
Print Assumptions C175_program_start_refuted.
