From Verif Require Import Prelude Rand CuModel CuSpec CuProofs CuProofs2.
From Coq Require Import NArith Permutation Lia Lra.

Ltac rcases := repeat match goal with
  | |- context [Rle_dec ?a ?b] => lazymatch a with context [if _ then _ else _] => fail | _ => lazymatch b with context [if _ then _ else _] => fail | _ => destruct (Rle_dec a b) end end
  | |- context [Rlt_dec ?a ?b] => lazymatch a with context [if _ then _ else _] => fail | _ => lazymatch b with context [if _ then _ else _] => fail | _ => destruct (Rlt_dec a b) end end
  end.
Section Kernels.
Context (p : cpar) (Hb : p_min p <= p_max p) (Hd : 0 <= p_down p) (Hu : 0 <= p_up p).
Let ap (w : R) (l : list bool) : R := apply_pulses (p_min p) (p_max p) (p_down p) (p_up p) w l.
Let inb (w : R) : Prop := p_min p <= w <= p_max p.

Lemma ap_app w a b : ap w (a ++ b) = ap (ap w a) b.
Proof. unfold ap, apply_pulses. apply fold_left_app. Qed.
Lemma ap_cons w b l : ap w (b :: l) = ap (one_step (p_min p) (p_max p) (p_down p) (p_up p) w b) l.
Proof. reflexivity. Qed.
Lemma ap_inb w l : inb w -> inb (ap w l).
Proof.
  revert w; induction l as [| b l IH]; intros w H; [exact H |].
  rewrite ap_cons. apply IH. unfold one_step. apply clampR_range. exact Hb.
Qed.
Lemma ap_repeat n w b : inb w -> ap w (repeat b n) = clampR (p_min p) (p_max p) (w + (if b then p_up p else - p_down p) * INR n).
Proof.
  revert w; induction n as [| n IH]; intros w H.
  - cbn [repeat]. change (ap w []) with w. cbn [INR]. rewrite Rmult_0_r, Rplus_0_r. symmetry. apply clampR_id. exact H.
  - cbn [repeat]. rewrite ap_cons, IH.
    + rewrite S_INR. pose proof (pos_INR n) as P. unfold inb in H.
      assert (0 <= p_up p * INR n) by (apply Rmult_le_pos; assumption).
      assert (0 <= p_down p * INR n) by (apply Rmult_le_pos; assumption).
      unfold one_step. destruct b; unfold clampR, Rmin, Rmax; rcases; lra.
    + unfold one_step. apply clampR_range. exact Hb.
Qed.
Lemma const_step_ok w n neg : inb w -> (0 < n)%nat -> const_step p 0 w n neg = Ret (ap w (repeat (0 <? neg)%N n)).
Proof.
  intros H Hn. rewrite ap_repeat by assumption. unfold const_step.
  rewrite (proj2 (Rltb_false 0 0)) by lra.
  set (dw := if (0 <? neg)%N then p_up p else - p_down p).
  assert (E : (if (n =? 1)%nat then Ret (w + dw) else Ret (w + dw * INR n)) = Ret (A := R) (w + dw * INR n)).
  { destruct (Nat.eqb_spec n 1) as [-> |]; [| reflexivity]. cbn [INR]. f_equal. lra. }
  rewrite E. cbn [bindM]. f_equal. set (v := w + dw * INR n). unfold Rltb, clampR, Rmin, Rmax.
  rcases; lra.
Qed.

Let good (s : kst) : Prop := inb (k_w s) /\ (k_last s = 0%N \/ k_last s = 1%N).
Let val (s : kst) : R := ap (k_w s) (repeat (0 <? k_last s)%N (k_sum s)).
Lemma flush_ok s : good s -> flush p 0 s = Ret (val s).
Proof.
  intros [H _]. unfold flush, val. destruct (Nat.ltb_spec 0 (k_sum s)) as [L | L].
  - apply const_step_ok; assumption.
  - replace (k_sum s) with 0%nat by lia. reflexivity.
Qed.
Lemma val_inb s : good s -> inb (val s).
Proof. intros [H _]. apply ap_inb. exact H. Qed.
Lemma add_run_ok s n neg : good s -> neg = 0%N \/ neg = 1%N ->
  exists s', add_run p 0 s n neg = Ret s' /\ good s' /\ val s' = ap (val s) (repeat (0 <? neg)%N n).
Proof.
  intros G N. unfold add_run. destruct (N.eqb_spec (k_last s) neg) as [E | E].
  - eexists; split; [reflexivity |]. split; [exact G |]. unfold val. cbn [k_w k_sum k_last].
    rewrite repeat_app, ap_app, E. reflexivity.
  - rewrite flush_ok by assumption. cbn [bindM]. eexists; split; [reflexivity |]. split.
    + split; [apply val_inb; exact G | exact N].
    + reflexivity.
Qed.
Lemma bit_loop_gen (f g : nat -> bool) ps s : good s ->
  exists s', foldMM (fun s i => if f i then add_run p 0 s 1 (if g i then 1%N else 0%N) else Ret s) ps s = Ret s'
    /\ good s' /\ val s' = ap (val s) (map g (filter f ps)).
Proof.
  revert s; induction ps as [| i ps IH]; intros s G; [exists s; split; [reflexivity | split; [exact G | reflexivity]] |].
  cbn [foldMM filter]. destruct (f i).
  - destruct (add_run_ok s 1 (if g i then 1%N else 0%N) G) as (s1 & E & G1 & V1); [destruct (g i); auto |].
    rewrite E. cbn [bindM]. destruct (IH s1 G1) as (s2 & E2 & G2 & V2). exists s2. split; [exact E2 |]. split; [exact G2 |].
    rewrite V2, V1. cbn [map]. rewrite <- ap_app. destruct (g i); reflexivity.
  - cbn [bindM]. apply IH. exact G.
Qed.
Lemma bit_loop_ok l s : good s -> l_mixed l = true ->
  exists s', bit_loop p 0 l s = Ret s' /\ good s' /\ val s' = ap (val s) (lp l).
Proof.
  intros G M. unfold bit_loop, lp. rewrite M.
  apply (bit_loop_gen (fun i => N.testbit (l_n l) (N.of_nat i)) (fun i => N.testbit (l_neg l) (N.of_nat i)) (seq 0 32) s G).
Qed.
Lemma ap_free l : forall w,
  p_min p <= w - INR (length (filter negb l)) * p_down p -> w + INR (length (filter (fun b => b) l)) * p_up p <= p_max p -> inb w ->
  ap w l = w - INR (length (filter negb l)) * p_down p + INR (length (filter (fun b => b) l)) * p_up p.
Proof.
  induction l as [| b l IH]; intros w H1 H2 H.
  - change (ap w []) with w. cbn. lra.
  - rewrite ap_cons. unfold one_step, inb in *.
    pose proof (Rmult_le_pos _ _ (pos_INR (length (filter negb l))) Hd).
    pose proof (Rmult_le_pos _ _ (pos_INR (length (filter (fun b => b) l))) Hu).
    destruct b; cbn [filter negb length] in *; rewrite S_INR in *.
    + rewrite clampR_id by (split; lra). rewrite IH by (try split; lra). lra.
    + rewrite clampR_id by (split; lra). rewrite IH by (try split; lra). lra.
Qed.
Lemma popc_pos l : l_mixed l = true -> popc (N.land (not32 (l_neg l)) (l_n l)) = length (filter negb (lp l)).
Proof.
  intros M. unfold lp. rewrite M. unfold popc.
  assert (E : forall (g f : nat -> bool) ps, length (filter negb (map g (filter f ps))) = length (filter (fun k => (f k && negb (g k))%bool) ps)).
  { clear. intros g f ps. induction ps as [| a ps IH]; [reflexivity |]. cbn [filter]. destruct (f a); cbn [map filter andb]; [| exact IH].
    destruct (g a); cbn [negb filter length]; [exact IH | rewrite IH; reflexivity]. }
  rewrite E. f_equal. apply filter_ext_seq. intros k Hk. rewrite N.land_spec, not32_bit.
  destruct (N.ltb_spec (N.of_nat k) 32); [| lia]. cbn [andb]. apply andb_comm.
Qed.
Lemma popc_neg l : l_mixed l = true -> popc (N.land (l_neg l) (l_n l)) = length (filter (fun b => b) (lp l)).
Proof.
  intros M. unfold lp. rewrite M. unfold popc.
  assert (E : forall (g f : nat -> bool) ps, length (filter (fun b => b) (map g (filter f ps))) = length (filter (fun k => (f k && g k)%bool) ps)).
  { clear. intros g f ps. induction ps as [| a ps IH]; [reflexivity |]. cbn [filter]. destruct (f a); cbn [map filter andb]; [| exact IH].
    destruct (g a); cbn [filter length]; [rewrite IH; reflexivity | exact IH]. }
  rewrite E. f_equal. apply filter_ext_seq. intros k Hk. rewrite N.land_spec. apply andb_comm.
Qed.
Lemma bound_check_ok l s : good s -> l_mixed l = true ->
  exists s', bound_check p 0 l s = Ret s' /\ good s' /\ val s' = ap (val s) (lp l).
Proof.
  intros G M. unfold bound_check. rewrite flush_ok by assumption. cbn [bindM].
  rewrite (proj2 (Rltb_false 0 0)) by lra. cbn [andb bindM].
  rewrite popc_pos, popc_neg by assumption.
  pose proof (val_inb s G) as I.
  destruct (Rleb (p_min p) (val s - INR (length (filter negb (lp l))) * p_down p)) eqn:A;
    destruct (Rleb (val s + INR (length (filter (fun b => b) (lp l))) * p_up p) (p_max p)) eqn:B; cbn [andb].
  { apply Rleb_true in A, B. eexists; split; [reflexivity |].
    assert (EQ : val s - (INR (length (filter negb (lp l))) * p_down p - INR (length (filter (fun b => b) (lp l))) * p_up p) = ap (val s) (lp l))
      by (rewrite ap_free by assumption; lra).
    rewrite EQ. split.
    - split; [apply ap_inb; exact I | left; reflexivity].
    - reflexivity. }
  all: destruct (bit_loop_ok l {| k_w := val s; k_sum := 0; k_last := 0 |}) as (s' & E & G' & V); [split; [exact I | left; reflexivity] | exact M |];
    exists s'; split; [exact E |]; split; [exact G' |]; rewrite V; reflexivity.
Qed.

Definition wf_load (l : load) : Prop := l_mixed l = false -> l_neg l = 0%N \/ l_neg l = 1%N.
Lemma inner_ok bc l s : good s -> wf_load l ->
  exists s', inner bc p 0 s l = Ret s' /\ good s' /\ val s' = ap (val s) (lp l).
Proof.
  intros G W. unfold inner. destruct (l_mixed l) eqn:M.
  - destruct bc; [apply bound_check_ok | apply bit_loop_ok]; assumption.
  - specialize (W M). unfold lp. rewrite M. destruct (N.eqb_spec (l_n l) 0) as [E | E]; cbn [orb].
    + rewrite E. cbn. eexists; split; [reflexivity |]. split; [exact G |]. unfold val. cbn [k_w k_sum k_last]. rewrite Nat.add_0_r. reflexivity.
    + destruct (N.eqb_spec (k_last s) (l_neg l)) as [E2 | E2].
      * eexists; split; [reflexivity |]. split; [exact G |]. unfold val. cbn [k_w k_sum k_last]. rewrite repeat_app, ap_app, E2. reflexivity.
      * apply add_run_ok; assumption.
Qed.
Lemma inner_fold bc ls s : good s -> (forall l, In l ls -> wf_load l) ->
  exists s', foldMM (inner bc p 0) ls s = Ret s' /\ good s' /\ val s' = ap (val s) (flat_map lp ls).
Proof.
  revert s; induction ls as [| l ls IH]; intros s G W; [exists s; split; [reflexivity | split; [exact G | reflexivity]] |].
  cbn [foldMM flat_map]. destruct (inner_ok bc l s G (W l (or_introl eq_refl))) as (s1 & E & G1 & V1).
  rewrite E. cbn [bindM]. destruct (IH s1 G1) as (s2 & E2 & G2 & V2); [intros; apply W; right; assumption |].
  exists s2. split; [exact E2 |]. split; [exact G2 |]. rewrite V2, V1, ap_app. reflexivity.
Qed.
Lemma sum_loop_ok bc w ls : inb w -> (forall l, In l ls -> wf_load l) -> sum_loop bc p 0 w ls = Ret (ap w (flat_map lp ls)).
Proof.
  intros H W. unfold sum_loop.
  destruct (inner_fold bc ls {| k_w := w; k_sum := 0; k_last := 0 |}) as (s & E & G & V); [split; [exact H | left; reflexivity] | exact W |].
  rewrite E. cbn [bindM]. rewrite flush_ok, V by assumption. reflexivity.
Qed.
Lemma functor_bits (f g : nat -> bool) ps w : inb w ->
  foldMM (fun w i => if f i then const_step p 0 w 1 (if g i then 1%N else 0%N) else Ret w) ps w = Ret (ap w (map g (filter f ps))).
Proof.
  revert w; induction ps as [| i ps IH]; intros w G; [reflexivity |].
  cbn [foldMM filter]. destruct (f i).
  - rewrite const_step_ok by (assumption || lia). cbn [bindM]. rewrite IH by (apply ap_inb; assumption).
    cbn [map]. rewrite <- ap_app. destruct (g i); reflexivity.
  - cbn [bindM]. apply IH. exact G.
Qed.
Lemma functor_load_ok w l : inb w -> functor_load p 0 w l = Ret (ap w (lp l)).
Proof.
  intros H. unfold functor_load, lp. destruct (l_mixed l).
  - apply (functor_bits (fun i => N.testbit (l_n l) (N.of_nat i)) (fun i => N.testbit (l_neg l) (N.of_nat i)) (seq 0 32) w H).
  - destruct (N.ltb_spec 0 (l_n l)).
    + apply const_step_ok; [assumption | lia].
    + replace (l_n l) with 0%N by lia. reflexivity.
Qed.
Lemma functor_loop_ok ls : forall w, inb w -> functor_loop p 0 w ls = Ret (ap w (flat_map lp ls)).
Proof.
  unfold functor_loop. induction ls as [| l ls IH]; intros w H; [reflexivity |].
  cbn [foldMM flat_map]. rewrite functor_load_ok by assumption. cbn [bindM]. rewrite IH by (apply ap_inb; assumption).
  rewrite ap_app. reflexivity.
Qed.
Lemma fold_chunks (f : R -> list load -> M R) (Q : load -> Prop) cs :
  (forall w ls, inb w -> (forall l, In l ls -> Q l) -> f w ls = Ret (ap w (flat_map lp ls))) ->
  forall w, inb w -> (forall l, In l (concat cs) -> Q l) -> foldMM f cs w = Ret (ap w (flat_map lp (concat cs))).
Proof.
  intros F. induction cs as [| c cs IH]; intros w H W; [reflexivity |].
  cbn [foldMM concat]. rewrite F; [| assumption | intros; apply W; cbn; apply in_or_app; left; assumption].
  cbn [bindM]. rewrite IH; [| apply ap_inb; assumption | intros; apply W; cbn; apply in_or_app; right; assumption].
  rewrite flat_map_app, ap_app. reflexivity.
Qed.
Lemma concat_chunks bs : forall k (ls : list load), concat (map (fun q => firstn bs (skipn (q * bs) ls)) (seq 0 k)) = firstn (k * bs) ls.
Proof.
  induction k as [| k IH]; intros ls; [reflexivity |].
  rewrite (seq_S k 0), map_app, concat_app, IH. cbn [map concat Nat.add]. rewrite app_nil_r.
  replace (S k * bs)%nat with (k * bs + bs)%nat by lia.
  rewrite <- (firstn_skipn (k * bs) ls) at 3.
  destruct (Nat.le_gt_cases (k * bs) (length ls)) as [L | L].
  - replace (k * bs + bs)%nat with (length (firstn (k * bs) ls) + bs)%nat by (rewrite firstn_length; lia).
    rewrite firstn_app_2. reflexivity.
  - rewrite (skipn_all2 ls) by lia. rewrite firstn_nil, !app_nil_r.
    rewrite (firstn_all2 (n := (k * bs + bs)%nat)); [reflexivity |]. rewrite firstn_length. lia.
Qed.
Lemma concat_strides bs ls : (0 < bs)%nat -> concat (strides bs ls) = ls.
Proof.
  intros H. unfold strides. rewrite concat_chunks. apply firstn_all2.
  pose proof (Nat.div_mod (length ls + bs - 1) bs ltac:(lia)). pose proof (Nat.mod_upper_bound (length ls + bs - 1) bs ltac:(lia)).
  nia.
Qed.
Definition stride_ok (k : kernel) : Prop :=
  match k with KSharedSum bs | KSharedSumBC bs | KSharedFunctor bs => (0 < bs)%nat | _ => True end.
Lemma run_kernel_ok k w ls : stride_ok k -> inb w -> (forall l, In l ls -> wf_load l) ->
  run_kernel k p 0 w ls = Ret (ap w (flat_map lp ls)).
Proof.
  intros S H W. destruct k as [ | | | bs | bs | bs]; cbn [run_kernel stride_ok] in *.
  - apply sum_loop_ok; assumption.
  - apply sum_loop_ok; assumption.
  - apply functor_loop_ok; assumption.
  - rewrite (fold_chunks _ wf_load); [rewrite concat_strides by assumption; reflexivity | intros; apply sum_loop_ok; assumption | assumption |].
    rewrite concat_strides by assumption. exact W.
  - rewrite (fold_chunks _ wf_load); [rewrite concat_strides by assumption; reflexivity | intros; apply sum_loop_ok; assumption | assumption |].
    rewrite concat_strides by assumption. exact W.
  - rewrite (fold_chunks _ wf_load); [rewrite concat_strides by assumption; reflexivity | intros; apply functor_loop_ok; assumption | assumption |].
    rewrite concat_strides by assumption. exact W.
Qed.
End Kernels.
