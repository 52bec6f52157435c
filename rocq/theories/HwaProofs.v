(** * Facts about clipping and remapping *)
From Verif Require Import Prelude Rand CompModel PeriModel HwaModel HwaSpec.

Lemma shape_row d x w i : shape d x w -> (i < d)%nat -> length (nth i w []) = x.
Proof. intros [L F] Hi. rewrite Forall_forall in F. apply F, nth_In. lia. Qed.
Lemma ent_map f w d x i j : shape d x w -> (i < d)%nat -> (j < x)%nat -> ent (map (map f) w) i j = f (ent w i j).
Proof.
  intros S Hi Hj. pose proof (shape_row _ _ _ _ S Hi) as L. destruct S as [Lw _]. unfold ent.
  rewrite (nth_indep (map (map f) w) [] (map f [])) by (rewrite map_length; lia). rewrite map_nth.
  rewrite (nth_indep _ 0 (f 0)) by (rewrite map_length; lia). now rewrite map_nth.
Qed.
Lemma shape_map f w d x : shape d x w -> shape d x (map (map f) w).
Proof.
  intros [L F]. split; [now rewrite map_length|]. apply Forall_forall. intros r Hr. apply in_map_iff in Hr as (r0 & <- & Hr). rewrite map_length. rewrite Forall_forall in F. now apply F.
Qed.
Lemma mat_ext d x (a b : mat) : shape d x a -> shape d x b -> (forall i j, (i < d)%nat -> (j < x)%nat -> ent a i j = ent b i j) -> a = b.
Proof.
  intros Sa Sb H. apply (nth_ext _ _ [] []); [destruct Sa, Sb; congruence|]. intros i Hi. assert (Hd : (i < d)%nat) by (destruct Sa; lia).
  apply (nth_ext _ _ 0 0); [now rewrite (shape_row _ _ _ _ Sa Hd), (shape_row _ _ _ _ Sb Hd)|]. intros j Hj. apply (H i j); auto. now rewrite (shape_row _ _ _ _ Sa Hd) in Hj.
Qed.

Lemma maxabs_nonneg v : 0 <= maxabs v.
Proof. induction v as [|a v IH]; cbn; [lra|]. mm. Qed.
Lemma maxabs_upper v x : In x v -> Rabs x <= maxabs v.
Proof. induction v as [|a v IH]; [contradiction|]. intros [-> | H]; cbn [maxabs fold_right]; [apply Rmax_l|]. eapply Rle_trans; [apply IH, H | apply Rmax_r]. Qed.
Lemma maxabs_attained v : v <> [] -> exists x, In x v /\ Rabs x = maxabs v.
Proof.
  induction v as [|a v IH]; [congruence|]. intros _. cbn [maxabs fold_right]. fold (maxabs v). destruct (Rmax_cases (Rabs a) (maxabs v)) as [[L E] | [L E]]; rewrite E.
  - destruct v as [|b v]; [cbn in *; exists a; split; [now left | pose proof (Rabs_pos a); lra]|]. destruct IH as (x & Hx & Ex); [discriminate|]. exists x. split; [now right | exact Ex].
  - exists a. split; [now left | reflexivity].
Qed.
Lemma is_absmax_maxabs v m : is_absmax v m <-> v <> [] /\ m = maxabs v.
Proof.
  split.
  - intros (U & x & Hx & E). split; [intros ->; contradiction|]. apply Rle_antisym; [rewrite <- E; now apply maxabs_upper|].
    destruct (maxabs_attained v) as (y & Hy & <-); [intros ->; contradiction | auto].
  - intros [N ->]. split; [intros; now apply maxabs_upper | now apply maxabs_attained].
Qed.
Lemma maxabs_zero v : maxabs v = 0 <-> forall x, In x v -> x = 0.
Proof.
  split.
  - intros E x Hx. pose proof (maxabs_upper _ _ Hx) as U. rewrite E in U. pose proof (Rabs_pos x). destruct (Req_dec x 0); auto. apply Rabs_no_R0 in H0. lra.
  - intros H. destruct v as [|a v]; [reflexivity|]. destruct (maxabs_attained (a :: v)) as (y & Hy & <-); [discriminate|]. rewrite (H _ Hy). apply Rabs_R0.
Qed.
Lemma maxabs_mat_concat w : maxabs_mat w = maxabs (concat w).
Proof.
  induction w as [|r w IH]; [reflexivity|]. cbn [maxabs_mat fold_right concat]. fold (maxabs_mat w). rewrite IH. clear IH. induction r as [|a r IH]; cbn [maxabs fold_right app].
  - apply Rmax_right, maxabs_nonneg.
  - fold (maxabs r). fold (maxabs (r ++ concat w)). rewrite <- IH. now rewrite Rmax_assoc.
Qed.
Lemma in_ent d x w v : shape d x w -> In v (concat w) <-> exists i j, (i < d)%nat /\ (j < x)%nat /\ v = ent w i j.
Proof.
  intros S. rewrite in_concat. split.
  - intros (r & Hr & Hv). apply (In_nth _ _ []) in Hr as (i & Hi & E). destruct S as [Lw F] eqn:ES. assert (Hd : (i < d)%nat) by lia. apply (In_nth _ _ 0) in Hv as (j & Hj & E2). exists i, j. split; [exact Hd|]. split.
    + rewrite <- E in Hj. rewrite (shape_row d x) in Hj; auto.
    + unfold ent. now rewrite E.
  - intros (i & j & Hi & Hj & ->). exists (nth i w []). split; [apply nth_In; destruct S; lia|]. apply nth_In. rewrite (shape_row d x); auto.
Qed.
Lemma clip1 c x : 0 <= c -> let y := Rmin (Rmax x (- c)) c in (Rabs x <= c -> y = x) /\ (c < x -> y = c) /\ (x < - c -> y = - c).
Proof. intros H. cbv zeta. repeat split; intros; mm. Qed.
Lemma clip_mat_spec d x c w : shape d x w -> 0 <= c -> clipped_at d x c w (clip_mat c w).
Proof. intros S C. split; [now apply shape_map|]. intros i j Hi Hj. unfold clip_mat. rewrite (ent_map _ _ d x) by auto. now apply clip1. Qed.
(** [clipped_at] determines its result *)
Lemma clipped_at_eq d x c w w' : shape d x w -> 0 <= c -> clipped_at d x c w w' <-> w' = clip_mat c w.
Proof.
  intros S C. split; [|intros ->; now apply clip_mat_spec]. intros [S' H]. apply (mat_ext d x); [exact S' | now apply shape_map|]. intros i j Hi Hj.
  destruct (clip_mat_spec d x c w S C) as [_ H2]. destruct (H i j Hi Hj) as (A & B & D). destruct (H2 i j Hi Hj) as (A2 & B2 & D2).
  destruct (Rle_dec (Rabs (ent w i j)) c) as [L | L]; [now rewrite A, A2|]. destruct (Rlt_dec c (ent w i j)) as [L2 | L2]; [now rewrite B, B2|]. assert (ent w i j < - c) by mm. now rewrite D, D2.
Qed.
Lemma sumR_map_nonneg {A} (f : A -> R) l : (forall a, In a l -> 0 <= f a) -> 0 <= sumR (map f l).
Proof. induction l as [|a l IH]; intros H; cbn; [lra|]. pose proof (H a (or_introl eq_refl)). assert (0 <= sumR (map f l)) by (apply IH; intros; apply H; now right). lra. Qed.
Lemma limited_eq fx c : (if Rltb 0 fx then Rmin c fx else c) = limited fx c.
Proof. unfold limited, Rltb. now destruct (Rlt_dec 0 fx). Qed.

(** remapping *)
Lemma div_mul a b : b <> 0 -> a * b * (1 / b) = a.
Proof. intros; field; auto. Qed.
Lemma nth_map2 {A B C} (f : A -> B -> C) a b da db dc : forall i, (i < length a)%nat -> (i < length b)%nat -> nth i (map2 f a b) dc = f (nth i a da) (nth i b db).
Proof. revert b; induction a as [|x a IH]; intros [|y b] i La Lb; cbn in *; try lia. destruct i; [reflexivity|]. apply IH; lia. Qed.
Lemma map2_length {A B C} (f : A -> B -> C) a b : length (map2 f a b) = Nat.min (length a) (length b).
Proof. revert b; induction a as [|x a IH]; intros [|y b]; cbn; auto. Qed.
