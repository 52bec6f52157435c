(** * Further facts about several areas, found by changing the models (2) *)
From Coq Require Import String.
From Verif Require Import Prelude Rand PulseSpec PulseProofs LinSpec CtModel DevModel PulseModel CompModel PeriModel MixProps2 HwaModel HwaSpec HwaProofs HwaProps2 HwaProofs2 HwaProps4.

(** C175: uniform weights are refused exactly for an empty range *)
Theorem C175_uniform_range t bmin bmax u : (bmax <= bmin -> ct_uniform t bmin bmax u = Raise TileError) /\ (bmin < bmax -> exists t', ct_uniform t bmin bmax u = Ok t' /\ ct_lr t' = ct_lr t).
Proof.
  unfold ct_uniform. split; intros H.
  - rewrite (proj2 (Rleb_true _ _) H). reflexivity.
  - rewrite (proj2 (Rleb_false _ _) H). eexists. split; reflexivity.
Qed.
(** C89: discretizing and adding noise: the noise is added whenever the resolution or the noise is positive; without a resolution to the weight itself, without noise
    the weight is only discretized *)
Theorem C89_disc_add : forall p d x w w' a i j, shape d x w -> mo_type p = MDiscAdd -> mo_pdrop p <= 0 -> ref_of p d x w a -> 0 < a -> yields (modify p w) w' ->
  (i < d)%nat -> counted (mo_lastcol p) x j ->
  (mo_res p <= 0 -> mo_std p <= 0 -> ent w' i j = ent w i j) /\
  (mo_res p <= 0 -> 0 < mo_std p -> exists g, ent w' i j = ent w i j + mo_std p * a * g) /\
  (0 < mo_res p -> exists v g, on_grid (a * mo_res p) v /\ Rabs (v - ent w i j) <= (if mo_sto p then a * mo_res p else a * mo_res p / 2) /\ ent w' i j = v + mo_std p * a * g).
Proof.
  intros p d x w w' a i j S T Pd Rf A Y Hi Hj. destruct (modify_spec p d x w w' S ltac:(destruct Hj; lia) Y) as [_ H]. specialize (H i j Hi (proj1 Hj)). rewrite keep_counted in H by auto. destruct H as (v & Yv & D & _). assert (E : ent w' i j = v) by (destruct D as [ | [F _]]; [auto | lra]). rewrite E. clear D E.
  rewrite (ref_amax p d x w a) in Yv by (auto; congruence). unfold mod_elem in Yv. rewrite T in Yv. set (y := ent w i j) in *. split; [|split].
  - intros Hr Hs. assert (Hs' : mo_std p * a <= 0) by nra. rewrite (proj2 (Rltb_false _ _) Hr), (proj2 (Rltb_false _ _) Hs') in Yv. cbn [orb] in Yv. apply yields_ret in Yv. exact Yv.
  - intros Hr Hs. assert (Hs' : 0 < mo_std p * a) by nra. rewrite (proj2 (Rltb_true _ _) Hs'), orb_true_r in Yv. unfold disc_round in Yv. rewrite (proj2 (Rleb_true _ _) Hr) in Yv. cbn [bind] in Yv. apply yields_bind in Yv as (r & Yr & Yv). apply yields_ret in Yr. subst r. apply yields_gauss in Yv as (g & Yv). apply yields_ret in Yv. exists g. rewrite Yv. field. lra.
  - intros Hr. rewrite (proj2 (Rltb_true _ _) Hr) in Yv. cbn [orb] in Yv. apply yields_bind in Yv as (r & Yr & Yv). apply yields_gauss in Yv as (g & Yv). apply yields_ret in Yv. destruct (disc_round_spec _ _ _ _ Hr Yr) as [[k Ek] B]. exists (a * r), g. split; [exists k; rewrite Ek; ring|]. split; [|exact Yv].
    replace (a * r - y) with (a * (r - y / a)) by (field; lra). rewrite Rabs_mult, (Rabs_pos_eq a) by lra. destruct (mo_sto p); [|replace (a * mo_res p / 2) with (a * (mo_res p / 2)) by field]; apply Rmult_le_compat_l; lra.
Qed.
Print Assumptions C175_uniform_range.
Print Assumptions C89_disc_add.
