(** * IR drop: the product of a matrix *)
From Verif Require Import Prelude MvmModel ConvModel IrModel IrSpec IrProofs IrProofs2.
Local Open Scope R_scope.

Lemma isum_ext n f g : (forall i, (i < n)%nat -> f i = g i) -> isum n f = isum n g.
Proof. intros H. unfold isum. f_equal. apply map_ext_in. intros i I. apply in_seq in I. apply H. lia. Qed.
Lemma isum_S n f : isum (S n) f = f 0%nat + isum n (fun i => f (S i)).
Proof. unfold isum. cbn [seq map]. rewrite sumR_cons, <- seq_shift, map_map. reflexivity. Qed.
Lemma isum_Sr n f : isum (S n) f = isum n f + f n.
Proof. unfold isum. rewrite seq_S, map_app, sumR_app. cbn. lra. Qed.
Lemma isum_scale n k f : isum n (fun i => k * f i) = k * isum n f.
Proof. induction n as [|n IH]; [cbn; lra|]. rewrite !isum_Sr, IH. lra. Qed.
Lemma isum_plus n f g : isum n (fun i => f i + g i) = isum n f + isum n g.
Proof. induction n as [|n IH]; [cbn; lra|]. rewrite !isum_Sr, IH. lra. Qed.
Lemma isum_zero n f : (forall i, (i < n)%nat -> f i = 0) -> isum n f = 0.
Proof. intros H. rewrite (isum_ext n f (fun _ => 0 * 0)); [|intros i L; rewrite H by exact L; lra]. rewrite isum_scale. lra. Qed.
Lemma isum_add n m f : isum (n + m) f = isum n f + isum m (fun i => f (n + i)%nat).
Proof. induction m as [|m IH]; [rewrite Nat.add_0_r; cbn; lra|]. rewrite Nat.add_succ_r, !isum_Sr, IH. lra. Qed.
Lemma isum_rev n f : isum n f = isum n (fun i => f (n - 1 - i)%nat).
Proof.
  induction n as [|n IH]; [reflexivity|]. rewrite isum_Sr, isum_S, IH. replace (S n - 1 - 0)%nat with n by lia. rewrite (isum_ext n (fun i => f (S n - 1 - S i)%nat) (fun i => f (n - 1 - i)%nat)); [lra|]. intros i L. f_equal. lia.
Qed.
Lemma isum_le n f g : (forall i, (i < n)%nat -> f i <= g i) -> isum n f <= isum n g.
Proof. induction n as [|n IH]; intros H; [cbn; lra|]. rewrite !isum_Sr. apply Rplus_le_compat; [apply IH; intros; apply H; lia | apply H; lia]. Qed.
Lemma wsum_index : forall al a b (f : R -> R -> R), length a = length al -> length b = length al -> wsum al (map2 f a b) = isum (length al) (fun i => nth i al 0 * f (nth i a 0) (nth i b 0)).
Proof. unfold wsum. induction al as [|x al IH]; intros [|y a] [|z b] f L1 L2; cbn [length] in *; try lia; [reflexivity|]. cbn [map2]. rewrite sumR_cons, IH, isum_S by lia. reflexivity. Qed.

(** pulses on the grid *)
Lemma pulse_grid tmax U t x z : (2 <= U)%nat -> 0 < tmax -> x * INR (U - 1) = IZR z * tmax -> pulse_at (step_time tmax U t) x = if (Z.of_nat t <? Z.abs z)%Z then IZR (Z.sgn z) else 0.
Proof.
  intros LU T E. assert (P : 0 < INR (U - 1)) by (apply lt_0_INR; lia). assert (S : 0 < INR (U - 1) / tmax) by (apply Rdiv_lt_0_compat; assumption). unfold pulse_at.
  assert (A : Rltb (step_time tmax U t) (Rabs x) = (Z.of_nat t <? Z.abs z)%Z).
  { rewrite <- (ltb_scale _ _ _ S). replace (step_time tmax U t * (INR (U - 1) / tmax)) with (INR t) by (unfold step_time; field; lra). assert (Ex : Rabs x * (INR (U - 1) / tmax) = IZR (Z.abs z)). { rewrite abs_IZR. rewrite <- (Rabs_right (INR (U - 1) / tmax)) by lra. rewrite <- Rabs_mult. f_equal. apply Rmult_eq_reg_r with tmax; [|lra]. rewrite <- E. field. lra. } rewrite Ex, INR_IZR_INZ. destruct (Z.ltb_spec (Z.of_nat t) (Z.abs z)) as [L|L]; [apply Rltb_true, IZR_lt, L | apply Rltb_false, IZR_le, L]. }
  rewrite A. destruct (Z.ltb_spec (Z.of_nat t) (Z.abs z)) as [L|L]; [|reflexivity]. destruct (Z.lt_trichotomy z 0) as [H|[H|H]]; [|lia|].
  - rewrite Z.sgn_neg by exact H. rewrite (proj2 (Rltb_false 0 x)); [reflexivity|]. apply IZR_lt in H. apply Rmult_le_reg_r with (INR (U - 1)); [exact P|]. rewrite E, Rmult_0_l. nra.
  - rewrite Z.sgn_pos by exact H. rewrite (proj2 (Rltb_true 0 x)); [reflexivity|]. apply IZR_lt in H. apply Rmult_lt_reg_r with (INR (U - 1)); [exact P|]. rewrite E, Rmult_0_l. nra.
Qed.
Lemma count_below : forall n k (s : R), (k <= n)%nat -> isum n (fun t => if (Z.of_nat t <? Z.of_nat k)%Z then s else 0) = INR k * s.
Proof.
  intros n k s L. replace n with (k + (n - k))%nat by lia. rewrite isum_add. rewrite (isum_zero (n - k)).
  - rewrite Rplus_0_r. rewrite (isum_ext k _ (fun _ => s * 1)); [|intros i Li; replace (Z.of_nat i <? Z.of_nat k)%Z with true by (symmetry; apply Z.ltb_lt; lia); lra]. rewrite isum_scale. unfold isum. rewrite sum_const, seq_length. lra.
  - intros i Li. replace (Z.of_nat (k + i) <? Z.of_nat k)%Z with false by (symmetry; apply Z.ltb_ge; lia). reflexivity.
Qed.
Lemma total_grid isum' tmax U x z : (2 <= U)%nat -> 0 < tmax -> x * INR (U - 1) = IZR z * tmax -> (Z.abs z <= Z.of_nat (U - 1))%Z -> total_pulse isum' U tmax x = IZR z + (if isum' then 0 else IZR (Z.sgn z) / 2).
Proof.
  intros LU T E B. unfold total_pulse. rewrite !(pulse_grid tmax U _ x z LU T E). replace (Z.of_nat (U - 1) <? Z.abs z)%Z with false by (symmetry; apply Z.ltb_ge; lia).
  assert (Sm : sumR (map (fun t => pulse_at (step_time tmax U t) x) (seq 0 U)) = IZR z). { change (isum U (fun t => pulse_at (step_time tmax U t) x) = IZR z). rewrite (isum_ext U _ (fun t => if (Z.of_nat t <? Z.of_nat (Z.to_nat (Z.abs z)))%Z then IZR (Z.sgn z) else 0)); [|intros i _; rewrite (pulse_grid tmax U i x z LU T E), Z2Nat.id by lia; reflexivity]. rewrite count_below by lia. rewrite INR_IZR_INZ, Z2Nat.id by lia. rewrite <- mult_IZR. f_equal. lia. }
  rewrite Sm. f_equal. destruct isum'; [reflexivity|]. destruct (Z.ltb_spec (Z.of_nat 0) (Z.abs z)) as [L|L]; [lra|]. replace z with 0%Z by lia. cbn. lra.
Qed.
Lemma total_zero isum' tmax U : (2 <= U)%nat -> 0 < tmax -> total_pulse isum' U tmax 0 = 0.
Proof. intros LU T. rewrite (total_grid isum' tmax U 0 0); try assumption; [|ring | cbn; lia]. destruct isum'; cbn; lra. Qed.

(** ** The two halves of the outputs *)
Lemma pair_ind {A} (P : list A -> Prop) : P [] -> (forall a, P [a]) -> (forall a b l, P l -> P (a :: b :: l)) -> forall l, P l.
Proof. intros H0 H1 H2 l. enough (X : P l /\ forall a, P (a :: l)) by apply X. induction l as [|b l [I1 I2]]; [auto|]. split; [apply I2|]. intros a. now apply H2. Qed.
Lemma evens_combine {A B} : forall (a : list A) (b : list B), length a = length b -> combine (evens a) (evens b) = evens (combine a b) /\ combine (odds a) (odds b) = odds (combine a b).
Proof.
  induction a as [|x|x y a IH] using pair_ind; intros b L.
  - destruct b; [split; reflexivity | discriminate].
  - destruct b as [|u [|? ?]]; try discriminate. split; reflexivity.
  - destruct b as [|u [|v b]]; try discriminate. cbn [length] in L. destruct (IH b ltac:(lia)) as [I1 I2]. cbn [combine evens odds]. rewrite I1. split; [reflexivity|]. change (match combine a b with [] => [] | _ :: l'' => evens l'' end) with (odds (combine a b)). rewrite <- I2. cbn [combine]. reflexivity.
Qed.
Lemma weave_nth {A} (he ho : A -> R) (d : A) : forall l, Nat.even (length l) = true -> length (map he (evens l)) = length (map ho (odds l)) /\ length (weave (map he (evens l)) (map ho (odds l))) = length l /\
  forall j, (j < length l)%nat -> nth j (weave (map he (evens l)) (map ho (odds l))) 0 = if Nat.even j then he (nth j l d) else ho (nth j l d).
Proof.
  induction l as [|x|x y l IH] using pair_ind; intros Ev; [repeat split; cbn; intros; lia | discriminate|]. destruct (IH Ev) as (I1 & I2 & I3). cbn [evens odds]. change (match l with [] => [] | _ :: l'' => evens l'' end) with (odds l). cbn [map length weave]. split; [now rewrite I1|]. split; [now rewrite I2|]. intros [|[|j]] L; [reflexivity | reflexivity|]. cbn [nth Nat.even]. apply I3. lia.
Qed.
Lemma In_evens {A} (x : A) : forall l, In x (evens l) \/ In x (odds l) -> In x l.
Proof.
  induction l as [|a|a b l IH] using pair_ind; cbn [evens odds]; [intros [[]|[]] | intros [[->|[]]|[]]; now left|]. change (match l with [] => [] | _ :: l'' => evens l'' end) with (odds l). intros [[->|I]|[->|I]]; [now left | right; right; apply IH; now left | right; now left | right; right; apply IH; now right].
Qed.
Lemma nth_map2' {A B} (f : A -> B -> R) : forall (a : list A) (b : list B) da db i, (i < length a)%nat -> (i < length b)%nat -> nth i (map2 f a b) 0 = f (nth i a da) (nth i b db).
Proof. induction a as [|x a IH]; intros [|y b] da db [|i] L1 L2; cbn [length] in *; try lia; [reflexivity|]. cbn [map2 nth]. apply IH; lia. Qed.
Lemma finite_choice {Y} (P : nat -> Y -> Prop) : forall d (y0 : Y), (forall j, (j < d)%nat -> exists y, P j y) -> exists f, forall j, (j < d)%nat -> P j (f j).
Proof.
  induction d as [|d IH]; intros y0 H; [exists (fun _ => y0); intros; lia|]. destruct (IH y0) as [f F]; [intros; apply H; lia|]. destruct (H d ltac:(lia)) as [y Py]. exists (fun j => if (j =? d)%nat then y else f j). intros j L. destruct (Nat.eqb_spec j d) as [->|]; [exact Py | apply F; lia].
Qed.
Lemma evens_map {A B} (f : A -> B) : forall l, evens (map f l) = map f (evens l) /\ odds (map f l) = map f (odds l).
Proof.
  induction l as [|a|a b l [I1 I2]] using pair_ind; [split; reflexivity | split; reflexivity|]. cbn [map evens odds]. rewrite I1. split; [reflexivity|]. change (match map f l with [] => [] | _ :: l'' => evens l'' end) with (odds (map f l)). rewrite I2. reflexivity.
Qed.
Lemma mapM_map' {A B C} (f : B -> res C) (h : A -> B) : forall l, mapM f (map h l) = mapM (fun a => f (h a)) l.
Proof. induction l as [|a l IH]; [reflexivity|]. cbn [map mapM]. destruct (f (h a)); cbn [bind]; [now rewrite IH | reflexivity]. Qed.
Lemma evens_parity d j : (In j (evens (seq 0 d)) -> (j < d)%nat /\ Nat.even j = true) /\ (In j (odds (seq 0 d)) -> (j < d)%nat /\ Nat.even j = false).
Proof.
  assert (X : forall n s, Nat.even s = true -> (In j (evens (seq s n)) -> (j < s + n)%nat /\ Nat.even j = true) /\ (In j (odds (seq s n)) -> (j < s + n)%nat /\ Nat.even j = false)).
  { intros n. induction n as [n IH] using (well_founded_induction lt_wf). intros s Es. destruct n as [|[|n]]; cbn [seq evens odds]; [split; intros [] | split; [intros [<-|[]]; split; [lia | exact Es] | intros []]|]. change (match seq (S (S s)) n with [] => [] | _ :: l'' => evens l'' end) with (odds (seq (S (S s)) n)). destruct (IH n ltac:(lia) (S (S s)) Es) as [I1 I2]. split.
    - intros [<-|I]; [split; [lia | exact Es]|]. destruct (I1 I). split; [lia | assumption].
    - intros [<-|I]; [split; [lia|]; rewrite Nat.even_succ, <- Nat.negb_even, Es; reflexivity|]. destruct (I2 I). split; [lia | assumption]. }
  apply (X d 0%nat eq_refl).
Qed.
(** what one pair of conductances contributes *)
Lemma pair_linear p gp gm d N : 0 <= o_drop p * o_rs p -> o_adc p = false -> col_ok p N -> Nat.even d = true -> length gp = d -> length gm = d ->
  Forall (fun r => length r = N /\ Forall (fun g => 0 <= g) r) gp -> Forall (fun r => length r = N /\ Forall (fun g => 0 <= g) r) gm ->
  exists (al : nat -> nat -> R) (a : nat -> R),
  (forall j i, (j < d)%nat -> (i < N)%nat -> 0 < al j i <= 1) /\
  (forall j i i', (j < d)%nat -> (i <= i' < N)%nat -> if Nat.even j then al j i <= al j i' else al j i' <= al j i) /\
  (forall j, (j < d)%nat -> 0 < a j <= INR N) /\
  (o_drop p * o_rs p = 0 -> forall j i, (j < d)%nat -> (i < N)%nat -> al j i = 1) /\
  forall U tmax x, (2 <= U)%nat -> 0 < tmax -> length x = N -> exists y, mvm_pair p U tmax x gp gm = Ok y /\ length y = d /\
    forall j, (j < d)%nat -> nth j y 0 = 2 / 10 * isum N (fun i => al j i * (ent gp j i - ent gm j i) * total_pulse (o_isum p) U tmax (nth i x 0)) +
      INR U * ((4 / 10 - o_vread p) * isum N (fun i => al j i * (ent gp j i + ent gm j i)) - reg_eps * o_vread p * a j).
Proof.
  intros W NA CO Ev Lp Lm Fp Fm.
  assert (X : forall a b : list R, length a = N -> Forall (fun g => 0 <= g) a -> length b = N -> Forall (fun g => 0 <= g) b -> exists al q, length al = N /\ attenuation al /\ 0 < q <= INR N /\ (o_drop p * o_rs p = 0 -> al = map (fun _ => 1) a) /\
    forall U tmax x, (2 <= U)%nat -> 0 < tmax -> length x = N -> column p U tmax (mkcells x a b) = Ok (2 / 10 * isum N (fun i => nth i al 0 * (nth i a 0 - nth i b 0) * total_pulse (o_isum p) U tmax (nth i x 0)) + INR U * ((4 / 10 - o_vread p) * isum N (fun i => nth i al 0 * (nth i a 0 + nth i b 0)) - reg_eps * o_vread p * q))).
  { intros a b La Pa Lb Pb.
    destruct (column_linear p a b W NA ltac:(lia) ltac:(rewrite La; exact CO) Pa Pb) as (al & q & L1 & At & Q & Z & H). exists al, q. rewrite La in *. split; [exact L1|]. split; [exact At|]. split; [exact Q|]. split; [intros E; apply (Z E)|]. intros U tmax x LU T Lx. rewrite (H U tmax x LU T Lx). f_equal.
    rewrite (wsum_index al (map2 Rminus a b) (map (total_pulse (o_isum p) U tmax) x) Rmult) by (rewrite ?map2_length, ?map_length; lia). rewrite (wsum_index al a b Rplus) by lia. rewrite L1. f_equal. f_equal. apply isum_ext. intros i Li. rewrite (nth_indep (map (total_pulse (o_isum p) U tmax) x) 0 (total_pulse (o_isum p) U tmax 0)) by (rewrite map_length; lia). rewrite map_nth. rewrite (nth_map2' Rminus a b 0 0) by lia. ring. }
  assert (Y : forall j, (j < d)%nat -> exists w : (nat -> R) * R, (forall i, (i < N)%nat -> 0 < fst w i <= 1) /\ (forall i i', (i <= i' < N)%nat -> if Nat.even j then fst w i <= fst w i' else fst w i' <= fst w i) /\ 0 < snd w <= INR N /\ (o_drop p * o_rs p = 0 -> forall i, (i < N)%nat -> fst w i = 1) /\
    forall U tmax x, (2 <= U)%nat -> 0 < tmax -> length x = N -> (if Nat.even j then column p U tmax (mkcells x (nth j gp []) (nth j gm [])) else column p U tmax (mkcells (rev x) (rev (nth j gp [])) (rev (nth j gm [])))) =
      Ok (2 / 10 * isum N (fun i => fst w i * (ent gp j i - ent gm j i) * total_pulse (o_isum p) U tmax (nth i x 0)) + INR U * ((4 / 10 - o_vread p) * isum N (fun i => fst w i * (ent gp j i + ent gm j i)) - reg_eps * o_vread p * snd w))).
  { intros j Lj. assert (Ja : In (nth j gp []) gp) by (apply nth_In; lia). assert (Jb : In (nth j gm []) gm) by (apply nth_In; lia). pose proof (proj1 (Forall_forall _ _) Fp _ Ja) as [La Pa]. pose proof (proj1 (Forall_forall _ _) Fm _ Jb) as [Lb Pb]. unfold ent. set (a := nth j gp []) in *. set (b := nth j gm []) in *. unfold vec in *. destruct (Nat.even j) eqn:Ej.
    - destruct (X a b La Pa Lb Pb) as (al & q & L1 & At & Q & Z & H). exists ((fun i => nth i al 0), q). cbn [fst snd]. destruct At as [A1 A2]. split; [intros i Li; rewrite Forall_forall in A1; apply A1, nth_In; lia|]. split; [intros; apply A2; lia|]. split; [exact Q|]. split; [intros E i Li; rewrite (Z E); rewrite (nth_indep _ 0 1) by (rewrite map_length; lia); change 1 with ((fun _ : R => 1) 0) at 2; now rewrite map_nth | exact H].
    - destruct (X (rev a) (rev b) ltac:(rewrite rev_length; exact La) ltac:(apply Forall_rev; exact Pa) ltac:(rewrite rev_length; exact Lb) ltac:(apply Forall_rev; exact Pb)) as (al & q & L1 & At & Q & Z & H). exists ((fun i => nth (N - 1 - i) al 0), q). cbn [fst snd]. destruct At as [A1 A2]. split; [intros i Li; rewrite Forall_forall in A1; apply A1, nth_In; lia|]. split; [intros; apply A2; lia|]. split; [exact Q|]. split; [intros E i Li; rewrite (Z E); rewrite (nth_indep _ 0 1) by (rewrite map_length, rev_length; lia); change 1 with ((fun _ : R => 1) 0) at 2; now rewrite map_nth|].
      intros U tmax x LU T Lx. rewrite (H U tmax (rev x) LU T) by (rewrite rev_length; exact Lx). f_equal. rewrite isum_rev. rewrite (isum_rev N (fun i => nth i al 0 * (nth i (rev a) 0 + nth i (rev b) 0))). f_equal; [f_equal | f_equal; f_equal; f_equal]; apply isum_ext; intros i Li; rewrite !rev_nth by lia; rewrite ?La, ?Lb, ?Lx; replace (N - S (N - 1 - i))%nat with i by lia; reflexivity. }
  destruct (finite_choice _ d ((fun _ => 0), 0) Y) as (w & Hw). exists (fun j => fst (w j)), (fun j => snd (w j)). split; [intros j i Lj; apply Hw, Lj|]. split; [intros j i i' Lj; apply (Hw j Lj)|]. split; [intros j Lj; apply (Hw j Lj)|]. split; [intros E j i Lj; apply (Hw j Lj), E|].
  intros U tmax x LU T Lx. set (h := fun j => 2 / 10 * isum N (fun i => fst (w j) i * (ent gp j i - ent gm j i) * total_pulse (o_isum p) U tmax (nth i x 0)) + INR U * ((4 / 10 - o_vread p) * isum N (fun i => fst (w j) i * (ent gp j i + ent gm j i)) - reg_eps * o_vread p * snd (w j))).
  unfold mvm_pair. destruct (evens_combine gp gm ltac:(unfold mat, vec in *; lia)) as [Ee Eo]. rewrite Ee, Eo. assert (Cb : combine gp gm = map (fun j => (nth j gp [], nth j gm [])) (seq 0 d)). { clear - Lp Lm. revert gp gm Lp Lm. induction d as [|d IH]; intros [|a gp] [|b gm] L1 L2; cbn [length] in *; try lia; [reflexivity|]. cbn [combine seq map nth]. rewrite <- seq_shift, map_map. f_equal. cbn [nth]. apply IH; lia. }
  rewrite Cb. destruct (evens_map (fun j => (nth j gp [], nth j gm [])) (seq 0 d)) as [Me Mo]. rewrite Me, Mo. rewrite !mapM_map'.
  rewrite (mapM_all_ok _ h). 2:{ intros j I. destruct (evens_parity d j) as [V _]. destruct (V I) as [V1 V2]. pose proof (Hw j V1) as (_ & _ & _ & _ & V3). specialize (V3 U tmax x LU T Lx). rewrite V2 in V3. exact V3. }
  cbn [bind]. rewrite (mapM_all_ok _ h). 2:{ intros j I. destruct (evens_parity d j) as [_ V]. destruct (V I) as [V1 V2]. pose proof (Hw j V1) as (_ & _ & _ & _ & V3). specialize (V3 U tmax x LU T Lx). rewrite V2 in V3. exact V3. }
  cbn [bind]. destruct (weave_nth h h 0%nat (seq 0 d)) as (W1 & W2 & W3); [rewrite seq_length; exact Ev|]. rewrite seq_length in W2, W3. exists (weave (map h (evens (seq 0 d))) (map h (odds (seq 0 d)))). split; [unfold interleave; unfold vec in *; rewrite W1, Nat.eqb_refl; reflexivity|]. split; [exact W2|]. intros j Lj. rewrite (W3 j Lj), seq_nth by exact Lj. destruct (Nat.even j); reflexivity.
Qed.

(** ** Several pairs *)
Lemma pairs_linear p U tmax d N : (2 <= U)%nat -> 0 < tmax -> 0 <= o_drop p * o_rs p -> o_adc p = false -> col_ok p N -> Nat.even d = true -> forall pairs,
  Forall (fun q => let '(f, (gp, gm)) := q in 0 <= f /\ is_mat d N gp /\ is_mat d N gm /\ Forall (Forall (fun g => 0 <= g)) gp /\ Forall (Forall (fun g => 0 <= g)) gm) pairs ->
  exists (c : nat -> nat -> R) (off : nat -> R),
  (o_drop p * o_rs p = 0 -> forall j i, (j < d)%nat -> (i < N)%nat -> c j i = sumR (map (fun q => let '(f, (gp, gm)) := q in f * (ent gp j i - ent gm j i)) pairs)) /\
  (forall j i, (j < d)%nat -> (i < N)%nat -> Rabs (c j i) <= sumR (map (fun q => let '(f, (gp, gm)) := q in f * Rabs (ent gp j i - ent gm j i)) pairs)) /\
  (o_vread p = 4 / 10 -> forall j, (j < d)%nat -> - (4 / 10 * reg_eps * INR U * INR N * sumR (map fst pairs)) <= off j <= 0) /\
  forall x acc, length x = N -> length acc = d -> exists y, mvm_pairs p U tmax x pairs acc = Ok y /\ length y = d /\
    forall j, (j < d)%nat -> nth j y 0 = nth j acc 0 + 2 / 10 * isum N (fun i => c j i * total_pulse (o_isum p) U tmax (nth i x 0)) + off j.
Proof.
  intros LU T W NA CO Ev. induction pairs as [|(f & gp & gm) pairs IH]; intros F.
  - exists (fun _ _ => 0), (fun _ => 0). split; [intros; reflexivity|]. split; [intros; cbn; rewrite Rabs_R0; lra|]. split; [intros _ j Lj; cbn; lra|]. intros x acc Lx La. exists acc. split; [reflexivity|]. split; [exact La|]. intros j Lj. rewrite isum_zero by (intros; ring). lra.
  - inversion F as [|? ? Fq Fr]; subst. destruct Fq as (Pf & [Dp1 Dp2] & [Dm1 Dm2] & Np & Nm). destruct (IH Fr) as (c & off & I1 & I2 & I3 & I4).
    assert (Gp : Forall (fun r => length r = N /\ Forall (fun g => 0 <= g) r) gp) by (rewrite Forall_forall in *; intros r I; split; [now apply Dp2 | now apply Np]). assert (Gm : Forall (fun r => length r = N /\ Forall (fun g => 0 <= g) r) gm) by (rewrite Forall_forall in *; intros r I; split; [now apply Dm2 | now apply Nm]).
    destruct (pair_linear p gp gm d N W NA CO Ev Dp1 Dm1 Gp Gm) as (al & a & A1 & A2 & A3 & A4 & A5).
    set (o1 := fun j => INR U * ((4 / 10 - o_vread p) * isum N (fun i => al j i * (ent gp j i + ent gm j i)) - reg_eps * o_vread p * a j)).
    exists (fun j i => f * (al j i * (ent gp j i - ent gm j i)) + c j i), (fun j => f * o1 j + off j). split; [|split; [|split]].
    + intros E j i Lj Li. cbn [map]. rewrite sumR_cons, <- (I1 E) by assumption. rewrite A4 by assumption. ring.
    + intros j i Lj Li. cbn [map]. rewrite sumR_cons. eapply Rle_trans; [apply Rabs_triang|]. apply Rplus_le_compat; [|now apply I2]. rewrite !Rabs_mult, (Rabs_right f) by lra. apply Rmult_le_compat_l; [exact Pf|]. rewrite <- (Rmult_1_l (Rabs (ent gp j i - ent gm j i))) at 2. apply Rmult_le_compat_r; [apply Rabs_pos|]. destruct (A1 j i Lj Li). rewrite Rabs_right; lra.
    + intros E j Lj. cbn [map fst]. rewrite sumR_cons. specialize (I3 E j Lj). destruct (A3 j Lj) as [B1 B2]. unfold o1. rewrite E. pose proof reg_eps_pos as Re. pose proof (pos_INR U) as PU. set (q := reg_eps * (4 / 10)) in *. assert (Q : 0 < q) by (unfold q; lra). replace (4 / 10 * reg_eps) with q in * by (unfold q; ring).
      assert (K : 0 <= q * a j <= q * INR N) by (split; [apply Rmult_le_pos; lra | apply Rmult_le_compat_l; lra]). assert (K2 : 0 <= f * INR U * (q * a j) <= f * INR U * (q * INR N)) by (assert (0 <= f * INR U) by (apply Rmult_le_pos; lra); split; [apply Rmult_le_pos; lra | apply Rmult_le_compat_l; lra]). lra.
    + intros x acc Lx La. destruct (A5 U tmax x LU T Lx) as (y1 & E1 & L1 & V1). destruct (I4 x (map2 (fun a0 b => a0 + f * b) acc y1) Lx) as (y & E2 & L2 & V2); [rewrite map2_length; unfold vec in *; lia|]. exists y. cbn [mvm_pairs]. rewrite E1. cbn [bind]. split; [exact E2|]. split; [exact L2|]. intros j Lj. rewrite V2 by exact Lj. rewrite (nth_map2' (fun a0 b => a0 + f * b) acc y1 0 0) by (unfold vec in *; lia). rewrite V1 by exact Lj. fold (o1 j).
      rewrite (isum_ext N (fun i => (f * (al j i * (ent gp j i - ent gm j i)) + c j i) * total_pulse (o_isum p) U tmax (nth i x 0)) (fun i => f * (al j i * (ent gp j i - ent gm j i) * total_pulse (o_isum p) U tmax (nth i x 0)) + c j i * total_pulse (o_isum p) U tmax (nth i x 0))) by (intros; ring). rewrite isum_plus, isum_scale. ring.
Qed.
(** ** Padding *)
Lemma pad_form phys n : (n <= phys)%nat -> exists k1 k2, (forall v : list R, length v = n -> pad_sym phys n v = repeat 0 k1 ++ v ++ repeat 0 k2) /\ forall p, o_phys p = phys -> fits p n -> col_ok p (k1 + (n + k2)).
Proof.
  intros L. unfold pad_sym. rewrite (proj2 (Nat.leb_le n phys) L). destruct (Nat.eqb_spec ((phys - n) / 2) 0) as [E|E].
  - exists 0%nat, 0%nat. split; [intros v Lv; cbn [repeat app]; now rewrite app_nil_r|]. intros p Ep (F1 & F2 & F3 & F4). unfold col_ok. rewrite Nat.add_0_r. cbn [Nat.add]. repeat split; try lia. intros X. specialize (F4 X). rewrite Ep in *. assert (phys - n < 2)%nat by (apply Nat.div_small_iff; [lia | exact E]). lia.
  - exists ((phys - n) / 2)%nat, (phys - n - (phys - n) / 2)%nat. split; [reflexivity|]. intros p Ep (F1 & F2 & F3 & F4). assert ((phys - n) / 2 <= phys - n)%nat by (apply Nat.div_le_upper_bound; lia). unfold col_ok. repeat split; try lia.
Qed.
Lemma nth_padded k1 k2 (v : list R) i : nth (k1 + i) (repeat 0 k1 ++ v ++ repeat 0 k2) 0 = nth i v 0.
Proof.
  rewrite app_nth2 by (rewrite repeat_length; lia). rewrite repeat_length. replace (k1 + i - k1)%nat with i by lia. destruct (Nat.lt_ge_cases i (length v)) as [L|L]; [now rewrite app_nth1|]. rewrite app_nth2 by exact L. rewrite nth_repeat. now rewrite nth_overflow by exact L.
Qed.
Lemma isum_padded k1 k2 (v : list R) n (c : nat -> R) (f : R -> R) : f 0 = 0 -> length v = n -> isum (k1 + (n + k2)) (fun i => c i * f (nth i (repeat 0 k1 ++ v ++ repeat 0 k2) 0)) = isum n (fun i => c (k1 + i)%nat * f (nth i v 0)).
Proof.
  intros F Lv. rewrite isum_add, (isum_zero k1); [|intros i Li; rewrite app_nth1 by (rewrite repeat_length; exact Li); rewrite nth_repeat, F; ring]. rewrite isum_add, (isum_zero k2).
  - rewrite Rplus_0_l, Rplus_0_r. apply isum_ext. intros i Li. now rewrite nth_padded.
  - intros i Li. rewrite nth_padded, nth_overflow, F by lia. ring.
Qed.
Lemma grid_nth U tmax z i : nth i (grid_input U tmax z) 0 = IZR (nth i z 0%Z) * tmax / INR (U - 1).
Proof.
  unfold grid_input. destruct (Nat.lt_ge_cases i (length z)) as [L|L].
  - set (g := fun k => IZR k * tmax / INR (U - 1)). rewrite (nth_indep (map g z) 0 (g 0%Z)) by (rewrite map_length; exact L). rewrite map_nth. reflexivity.
  - rewrite !nth_overflow by (rewrite ?map_length; exact L). unfold Rdiv. ring.
Qed.
Lemma grid_total b U tmax z i : (2 <= U)%nat -> 0 < tmax -> within_steps U z -> total_pulse b U tmax (nth i (grid_input U tmax z) 0) = pulses b (nth i z 0%Z).
Proof.
  intros LU T Wz. assert (P : 0 < INR (U - 1)) by (apply lt_0_INR; lia). unfold pulses. apply total_grid; [exact LU | exact T | rewrite grid_nth; field; lra|]. destruct (Nat.lt_ge_cases i (length z)) as [L|L]; [unfold within_steps in Wz; rewrite Forall_forall in Wz; now apply Wz, nth_In | rewrite nth_overflow by exact L; cbn; lia].
Qed.
