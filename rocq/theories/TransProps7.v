(** * Chopped transfer: automatic transfer times (C74), decay of the averages (C78) *)
From Verif Require Import Prelude Rand DevModel DevSpec DevProofs PulseModel PulseSpec PulseProofs PulseProps CompModel CompSpec CompProofs CompProofs2 CompProofs3 CompProofs4 CompProps CompProps3 CompProps5 CompProps6 TransModel TransSpec TransProofs TransProps TransProofs2 TransProps2 TransProofs3 TransProps3 TransProps4 TransProps4 TransProps5 TransProps6.

(** ** Automatic [transfer_every] *)
(** documented: a negative [transfer_every] means [|transfer_every| * states / in_size] updates
    between transfers, rounded, at least 1 *)
Definition auto_every (p : cpar) (ins k E : nat) : Prop :=
  let q := nth k (cp_states p) 0 / INR ins * Rabs (cp_every p) in
  (1 <= E)%nat /\ (q < 1/2 -> E = 1%nat) /\ (1/2 <= q -> Rabs (INR E - q) <= 1/2).
Lemma auto_every_spec t p c k mb : cp_every p < 0 -> auto_every p (in_size t c) k (chop_every t p c k mb).
Proof.
  intros H. unfold chop_every, auto_every. cbv zeta. rewrite (proj2 (Rltb_true _ 0) H). set (q := nth k (cp_states p) 0 / INR (in_size t c) * Rabs (cp_every p)). split; [lia|]. unfold roundf. split; intros Hq.
  - destruct (Rleb 0 q) eqn:E; [apply Rleb_true in E | apply Rleb_false in E].
    + pose proof (floorZ_spec (q + 1/2)) as [A B]. assert (floorZ (q + 1/2) < 1)%Z by (apply lt_IZR; lra). lia.
    + pose proof (floorZ_spec (- q + 1/2)) as [A B]. assert (-1 < floorZ (- q + 1/2))%Z by (apply lt_IZR; lra). lia.
  - rewrite (proj2 (Rleb_true 0 q)) by lra. pose proof (floorZ_spec (q + 1/2)) as [A B]. assert (0 < floorZ (q + 1/2))%Z by (apply lt_IZR; lra). rewrite INR_IZR_INZ, Z2Nat.id, Z.max_r by lia. apply Rabs_le. lra.
Qed.
(** Updates whose number is not a multiple of the period do not transfer: buffer, choppers and the
    second crossbar keep their values, the first one gets the pulses. *)
Theorem C74_schedule : forall t p count cs lr mb s s', cp_every p < 0 -> length (k_parts (s_c s)) = 2%nat ->
  (forall k E, (k < 2)%nat -> auto_every p (in_size t (s_c s)) k E -> ~ Nat.divide E (S (k_cnt (s_c s)))) -> yields (chop_update t p count cs lr mb s) s' ->
  b_buf (s_b s') = b_buf (s_b s) /\ s_in s' = s_in s /\ s_out s' = s_out s /\ part_at (s_c s') 1 = part_at (s_c s) 1 /\ k_slices (s_c s') = k_slices (s_c s) /\ k_cnt (s_c s') = S (k_cnt (s_c s)) /\
  gets (map (chop_call t s) cs) (part_at (s_c s) 0) (part_at (s_c s') 0).
Proof.
  intros t p count cs lr mb s s' Ce Lp Hn Y. unfold chop_update in Y. apply yields_bind in Y as (c1 & Y1 & Y). apply yields_bind in Y as (s1 & Y2 & Y). apply yields_ret in Y.
  destruct (transfer_calls_rest _ _ _ Y1) as (C1 & W1 & S1 & L1 & P1). assert (L0 : (0 < length (k_parts (s_c s)))%nat) by lia. pose proof (transfer_calls_gets _ _ _ L0 Y1) as G1.
  assert (In1 : in_size t c1 = in_size t (s_c s)) by (unfold in_size; now rewrite W1).
  assert (D : forall k, (k < 2)%nat -> (S (k_cnt c1) mod chop_every t p c1 k mb <> 0)%nat).
  { intros k Hk M0. pose proof (auto_every_spec t p c1 k mb Ce) as A. rewrite In1 in A. apply (Hn k _ Hk A). rewrite <- C1. apply Nat.mod_divide; [destruct A; lia | exact M0]. }
  unfold transfers_g in Y2. cbv zeta in Y2. change (s_c (put_c s c1)) with c1 in Y2. rewrite L1, Lp in Y2. cbn [seq foldMM] in Y2.
  change (chop_every t p (s_c (put_c (put_c s c1) (with_idx c1 0 (S (k_cnt c1))))) 0 mb) with (chop_every t p c1 0 mb) in Y2. change (k_cnt (s_c (put_c (put_c s c1) (with_idx c1 0 (S (k_cnt c1)))))) with (S (k_cnt c1)) in Y2.
  rewrite (proj2 (Nat.eqb_neq _ 0) (D 0%nat ltac:(lia))), Bool.andb_false_r in Y2. cbn [bindM] in Y2.
  change (chop_every t p (s_c (put_c (put_c s c1) (with_idx c1 0 (S (k_cnt c1))))) 1 mb) with (chop_every t p c1 1 mb) in Y2. change (k_cnt (s_c (put_c (put_c s c1) (with_idx c1 0 (S (k_cnt c1)))))) with (S (k_cnt c1)) in Y2.
  rewrite (proj2 (Nat.eqb_neq _ 0) (D 1%nat ltac:(lia))), Bool.andb_false_r in Y2. cbn [bindM] in Y2. apply yields_ret in Y2.
  assert (Sh : b_buf (s_b s') = b_buf (s_b s1) /\ k_slices (s_c s') = k_slices (s_c s1) /\ k_cnt (s_c s') = k_cnt (s_c s1)) by (rewrite Y; unfold chop_show; cbv zeta; unfold show; destruct (hidden _), (_ || _)%bool; repeat split; reflexivity).
  destruct Sh as (Sb & Ss & Sc). destruct (show_same t s1) as (Pp & _ & _ & Si & So). rewrite <- Y in *. subst s1. cbn [put_c s_in s_out s_b with_c b_buf] in *. rewrite Sb, Ss, Sc, Si, So, Pp. do 3 (split; [reflexivity|]).
  split; [exact (P1 1%nat ltac:(lia))|]. split; [exact S1|]. split; [cbn [s_c put_c s_b with_c b_c k_cnt with_idx]; now rewrite C1|]. exact G1.
Qed.
(** An update whose number is a multiple of the period of the first crossbar, and not of the second,
    transfers one column (row). *)
Theorem C74_schedule_due : forall t p count cs lr mb s s', cp_every p < 0 -> length (k_parts (s_c s)) = 2%nat ->
  (forall E, auto_every p (in_size t (s_c s)) 0 E -> Nat.divide E (S (k_cnt (s_c s)))) -> (forall E, auto_every p (in_size t (s_c s)) 1 E -> ~ Nat.divide E (S (k_cnt (s_c s)))) ->
  yields (chop_update t p count cs lr mb s) s' ->
  exists a b, gets (map (chop_call t s) cs) (part_at (s_c s) 0) (part_at (s_c a) 0) /\ part_at (s_c a) 1 = part_at (s_c s) 1 /\ b_buf (s_b a) = b_buf (s_b s) /\ s_in a = s_in s /\ s_out a = s_out s /\ k_slices (s_c a) = k_slices (s_c s) /\
    yields (chop_transfer t p count 1 0 lr a) b /\ s' = chop_show t b.
Proof.
  intros t p count cs lr mb s s' Ce Lp H0 H1 Y. unfold chop_update in Y. apply yields_bind in Y as (c1 & Y1 & Y). apply yields_bind in Y as (s1 & Y2 & Y). apply yields_ret in Y.
  destruct (transfer_calls_rest _ _ _ Y1) as (C1 & W1 & S1 & L1 & P1). assert (L0 : (0 < length (k_parts (s_c s)))%nat) by lia. pose proof (transfer_calls_gets _ _ _ L0 Y1) as G1.
  assert (In1 : in_size t c1 = in_size t (s_c s)) by (unfold in_size; now rewrite W1).
  unfold transfers_g in Y2. cbv zeta in Y2. change (s_c (put_c s c1)) with c1 in Y2. rewrite L1, Lp in Y2. cbn [seq foldMM] in Y2.
  set (a := put_c (put_c s c1) (with_idx c1 0 (S (k_cnt c1)))) in *. change (chop_every t p (s_c a) 0 mb) with (chop_every t p c1 0 mb) in Y2. change (k_cnt (s_c a)) with (S (k_cnt c1)) in Y2.
  pose proof (auto_every_spec t p c1 0 mb Ce) as A0. rewrite In1 in A0. assert (D0 : (S (k_cnt c1) mod chop_every t p c1 0 mb = 0)%nat) by (apply Nat.mod_divide; [destruct A0; lia | rewrite C1; apply H0; exact A0]).
  rewrite D0 in Y2. replace (Nat.ltb 0 (chop_every t p c1 0 mb)) with true in Y2 by (symmetry; apply Nat.ltb_lt; destruct A0; lia). cbn [Nat.eqb andb Nat.min Nat.sub] in Y2.
  apply yields_bind in Y2 as (b & Yb & Y2). change (transfer_g cstate s_c put_c (chop_read t p count) (buf_lr t) t 1 0 lr a) with (chop_transfer t p count 1 0 lr a) in Yb.
  pose proof (chop_transfer_rest _ _ _ _ _ _ _ _ Yb) as (_ & _ & Wb & _ & _ & _ & _ & Cb & _).
  assert (Ib : in_size t (s_c b) = in_size t (s_c s)) by (unfold in_size in *; rewrite Wb; exact In1).
  pose proof (auto_every_spec t p (s_c b) 1 mb Ce) as A1. rewrite Ib in A1. assert (D1 : (k_cnt (s_c b) mod chop_every t p (s_c b) 1 mb <> 0)%nat). { rewrite Cb. change (k_cnt (s_c a)) with (S (k_cnt c1)). rewrite C1. intros M0. apply (H1 _ A1). apply Nat.mod_divide; [destruct A1; lia | exact M0]. }
  rewrite (proj2 (Nat.eqb_neq _ 0) D1), Bool.andb_false_r in Y2. cbn [bindM] in Y2. apply yields_ret in Y2. subst s1.
  exists a, b. split; [exact G1|]. split; [exact (P1 1%nat ltac:(lia))|]. do 3 (split; [reflexivity|]). split; [exact S1|]. auto.
Qed.
Example C74_schedule_example : let p := {| cp_b := bpar_ex false 0; cp_in_prob := 0; cp_in_random := false; cp_out_prob := 0; cp_correct := false; cp_auto_gran := 0; cp_gran := 1; cp_no_buffer := false; cp_every := -2; cp_states := [2; 3] |} in
  let t := tpar_ex [1; 1] false [1; 0] in
  cp_every p < 0 /\ length (k_parts (s_c (cstate_ex false))) = 2%nat /\ auto_every p (in_size t (s_c (cstate_ex false))) 0 4 /\ (forall k E, (k < 2)%nat -> auto_every p (in_size t (s_c (cstate_ex false))) k E -> ~ Nat.divide E (S (k_cnt (s_c (cstate_ex false))))).
Proof.
  cbv zeta. split; [cbn; lra|]. split; [reflexivity|]. change (in_size (tpar_ex [1; 1] false [1; 0]) (s_c (cstate_ex false))) with 1%nat. change (k_cnt (s_c (cstate_ex false))) with 0%nat. split.
  - unfold auto_every. cbn [cp_states cp_every nth INR]. cbv zeta. rewrite Rabs_left by lra. split; [lia|]. split; [intros; lra|]. intros _. apply Rabs_le. lra.
  - intros k E Hk (A & _ & B) D. apply Nat.divide_1_r in D. subst E. cbn [cp_states cp_every INR] in B. rewrite Rabs_left in B by lra.
    assert (Q : 4 <= nth k [2; 3] 0 / 1 * - -2) by (destruct k as [|[|k]]; cbn [nth]; [lra | lra | lia]). specialize (B ltac:(lra)). rewrite Rabs_left in B by lra. lra.
Qed.
(** If both crossbars have the same number of states, such an update transfers twice, because the
    schedule is also applied to the transfer "from the last crossbar", which reads the first one
    again.  A single transfer would add 3/10 to the buffer here. *)
Definition auto_ex : cpar := {| cp_b := bpar_ex false 0; cp_in_prob := 0; cp_in_random := false; cp_out_prob := 0; cp_correct := false; cp_auto_gran := 0; cp_gran := 1; cp_no_buffer := false; cp_every := -1; cp_states := [1; 1] |}.
Definition auto_state : cstate := {| s_b := {| b_c := comp1 [0; 1] [3/100; 0] 0 0; b_buf := [[[0]]] |}; s_in := [false]; s_out := [false]; s_cnt := 0 |}.
Lemma auto_read to from lr b idx cnt n sl : lr = 1 -> (to = 1 \/ from = 1)%nat -> Rabs (b + 3/10) < 1 ->
  let c := {| k_parts := [part1 (3/100); part1 0]; k_gam := [0; 1]; k_w := [[0]]; k_idx := idx; k_cnt := cnt; k_slices := sl |} in
  chop_read (tpar_ex [1; 1] false [1; 0]) auto_ex 1 to from lr 0 1 {| s_b := {| b_c := c; b_buf := [[[b]]] |}; s_in := [false]; s_out := [false]; s_cnt := n |} =
  Ret {| s_b := {| b_c := c; b_buf := [[[b + 3/10]]] |}; s_in := [false]; s_out := [false]; s_cnt := S n |}.
Proof.
  intros -> T Hb. cbv zeta. unfold chop_read. rewrite (proj2 (Reqb_false 1 0)) by lra.
  replace (negb (to =? 1)%nat && negb (from =? 1)%nat)%bool with false by (symmetry; destruct T as [-> | ->]; [reflexivity | apply Bool.andb_false_r]). cbn [Nat.eqb negb]. cbv zeta.
  assert (Sc : lr_scale auto_ex 1 (1/10) (1/10) 1 1 = 10). { unfold lr_scale, chop_gran. cbv zeta. cbn [auto_ex cp_correct cp_gran cp_auto_gran]. rewrite (proj2 (Rltb_true 0 1)), (proj2 (Rltb_false 0 0)), (Rabs_right 1) by lra. lra. }
  set (c := {| k_parts := _; k_gam := _; k_w := _; k_idx := idx; k_cnt := cnt; k_slices := sl |}). set (t := tpar_ex [1; 1] false [1; 0]).
  change (in_size t (s_c _)) with 1%nat. change (out_size t (s_c _)) with 1%nat. change (m_dwmin (fst (nth 0 (k_parts (s_c _)) no_part))) with (1/10). change (m_dwmin (fst (nth 1 (k_parts (s_c _)) no_part))) with (1/10). rewrite Sc.
  assert (Rd : read_plain t 0 (unit_vec 1 0) c = Ret [3/100]) by (unfold read_plain, read_slice; cbn; do 2 f_equal; lra).
  change (s_c {| s_b := {| b_c := c; b_buf := [[[b]]] |}; s_in := [false]; s_out := [false]; s_cnt := n |}) with c. rewrite Rd. cbn [bindM s_b b_buf nth t tpar_ex tp_columns at_ auto_ex cp_no_buffer flag s_in s_out Bool.eqb seq existsb map cp_b tp_up].
  change (nth 0 [b] 0) with b. replace (b + 3/100 * 10) with (b + 3/10) by lra.
  rewrite (proj2 (Rleb_false 1 _)) by exact Hb. cbn [orb bindM].
  unfold flip_in. cbn [auto_ex cp_in_prob cp_out_prob]. rewrite (proj2 (Rltb_false 0 0)) by lra. cbn [bindM Nat.sub Nat.eqb s_b s_in s_out s_cnt].
  unfold map_slice. cbn [zipi length seq combine map fst snd Nat.eqb set_nth]. unfold at_. cbn [nth]. replace (b + 3/100 * 10) with (b + 3/10) by lra. unfold chop_next. rewrite (proj2 (Rleb_false 1 _)) by exact Hb. cbn [fst]. reflexivity.
Qed.
Lemma auto_transfer from b idx cnt n sl : (from < 2)%nat -> Rabs (b + 3/10) < 1 -> nth from sl 0%nat = 0%nat ->
  let c sl := {| k_parts := [part1 (3/100); part1 0]; k_gam := [0; 1]; k_w := [[0]]; k_idx := idx; k_cnt := cnt; k_slices := sl |} in
  chop_transfer (tpar_ex [1; 1] false [1; 0]) auto_ex 1 1 from 1 {| s_b := {| b_c := c sl; b_buf := [[[b]]] |}; s_in := [false]; s_out := [false]; s_cnt := n |} =
  Ret {| s_b := {| b_c := c (set_nth from 0%nat sl); b_buf := [[[b + 3/10]]] |}; s_in := [false]; s_out := [false]; s_cnt := S n |}.
Proof.
  intros Hf Hb Hs. cbv zeta. unfold chop_transfer, transfer_g. cbv zeta. cbn [tpar_ex tp_random bindM s_c s_b b_c k_slices in_size tp_columns k_w nth length tp_reads Nat.min]. rewrite Hs. cbn [Nat.sub Nat.ltb Nat.leb].
  match goal with |- context [chop_read ?t auto_ex 1 1 from ?lr 0 1 ?s] => change t with (tpar_ex [1; 1] false [1; 0]); assert (L : lr = 1) end.
  { unfold buf_lr, transfer_lr. cbn [k_gam tpar_ex tp_lrs tp_scale nth]. destruct from as [|[|f]]; [| |lia]; cbn [nth]; rewrite ?(proj2 (Rltb_false 0 0)), ?(proj2 (Rltb_true 0 1)) by lra; cbn [andb]; lra. }
  rewrite L. rewrite (auto_read 1 from 1 b idx cnt n sl eq_refl (or_introl eq_refl) Hb). cbn [bindM]. change ((0 + 1) mod 1)%nat with 0%nat. reflexivity.
Qed.
Theorem C74_auto_twice_refuted : let t := tpar_ex [1; 1] false [1; 0] in auto_every auto_ex 1 0 1 /\
  exists s', (forall z, yields (chop_update t auto_ex 1 [] 1 1 auto_state) z <-> z = s') /\ part_weight (s_c s') 0 0 0 = 3/100 /\ cbuf_at auto_state 0 0 = 0 /\ cbuf_at s' 0 0 = 6/10 /\
    forall z, yields (chop_transfer t auto_ex 1 1 0 1 auto_state) z -> cbuf_at z 0 0 = 3/10.
Proof.
  cbv zeta. assert (Ev : forall c k, in_size (tpar_ex [1; 1] false [1; 0]) c = 1%nat -> (k < 2)%nat -> chop_every (tpar_ex [1; 1] false [1; 0]) auto_ex c k 1 = 1%nat).
  { intros c k Hc Hk. pose proof (auto_every_spec (tpar_ex [1; 1] false [1; 0]) auto_ex c k 1 ltac:(cbn; lra)) as (A & _ & B). rewrite Hc in B. cbn [auto_ex cp_states cp_every INR] in B. replace (nth k [1; 1] 0) with 1 in B by (destruct k as [|[|k]]; [reflexivity | reflexivity | lia]).
    rewrite (Rabs_left (-1)) in B by lra. specialize (B ltac:(lra)). set (E := chop_every _ _ _ _ _) in *. assert (INR E <= 3/2) by (pose proof (Rle_abs (INR E - 1 / 1 * - -1)); lra). assert (INR E < INR 2) by (simpl; lra). apply INR_lt in H0. lia. }
  split. { unfold auto_every. cbn [auto_ex cp_states cp_every nth INR]. cbv zeta. rewrite Rabs_left by lra. split; [lia|]. split; [intros; lra|]. intros _. apply Rabs_le. lra. }
  set (t := tpar_ex [1; 1] false [1; 0]) in *. unfold chop_update. cbn [map foldMM bindM]. unfold transfers_g. cbv zeta. change (s_c (put_c auto_state (s_c auto_state))) with (s_c auto_state). change (length (k_parts (s_c auto_state))) with 2%nat. cbn [seq foldMM].
  rewrite (Ev _ 0%nat) by (reflexivity || lia). change (k_cnt (s_c (put_c _ _))) with 1%nat. cbn [Nat.ltb Nat.leb Nat.modulo Nat.divmod fst snd Nat.sub Nat.eqb andb Nat.min].
  match goal with |- context [transfer_g cstate s_c put_c (chop_read t auto_ex 1) (buf_lr t) t 1 0 1 ?z] => change (transfer_g cstate s_c put_c (chop_read t auto_ex 1) (buf_lr t) t 1 0 1 z) with (chop_transfer t auto_ex 1 1 0 1 {| s_b := {| b_c := {| k_parts := [part1 (3/100); part1 0]; k_gam := [0; 1]; k_w := [[0]]; k_idx := 0; k_cnt := 1; k_slices := [0%nat; 0%nat] |}; b_buf := [[[0]]] |}; s_in := [false]; s_out := [false]; s_cnt := 0 |}) end.
  unfold t. rewrite auto_transfer by (try lia; try reflexivity; rewrite Rabs_right; lra). fold t. cbn [bindM set_nth]. rewrite (Ev _ 1%nat) by (reflexivity || lia). cbn [s_c s_b b_c k_cnt Nat.ltb Nat.leb Nat.modulo Nat.divmod fst snd Nat.sub Nat.eqb andb Nat.min].
  match goal with |- context [transfer_g cstate s_c put_c (chop_read t auto_ex 1) (buf_lr t) t 1 1 1 ?z] => change (transfer_g cstate s_c put_c (chop_read t auto_ex 1) (buf_lr t) t 1 1 1 z) with (chop_transfer t auto_ex 1 1 1 1 z) end.
  unfold t. rewrite auto_transfer by (try lia; try reflexivity; rewrite Rabs_right; lra). fold t. cbn [bindM set_nth].
  eexists. split; [intros z; apply yields_ret|]. match goal with |- context [chop_show t ?z] => set (s1 := z) end.
  assert (Sb : s_b (chop_show t s1) = with_c (s_b s1) (s_c (chop_show t s1))) by (unfold chop_show; cbv zeta; destruct (_ || _)%bool; reflexivity).
  split. { destruct (show_same t s1) as (_ & P & _). unfold part_weight. rewrite P. reflexivity. } split; [reflexivity|]. split.
  - unfold cbuf_at, buf_at. rewrite Sb. cbn. lra.
  - intros z Y. unfold auto_state, comp1 in Y. cbn [map repeat length] in Y. unfold t in Y. rewrite auto_transfer in Y by (try lia; try reflexivity; rewrite Rabs_right; lra). apply yields_ret in Y. subst z. cbn. lra.
Qed.

(** The averages of the automatic scale decay to a constant input with the documented momentum, per
    sample of the mini batch. *)
Theorem C78_decay : forall mom v mb n m, 0 < v -> 0 < m -> (0 < mb)%nat -> 0 <= mom <= 1 -> averages mom (repeat (v, mb) n) m - v = (1 - (1 - mom) / INR mb) ^ n * (m - v).
Proof.
  intros mom v mb n. induction n as [|n IH]; intros m V M0 B H; [cbn; lra|]. unfold averages. cbn [repeat fold_left fst snd]. fold (averages mom (repeat (v, mb) n) (auto_scale mom mb m v)).
  assert (Hn : 1 <= INR mb) by (change 1 with (INR 1); apply le_INR; lia). assert (T : 0 <= (1 - mom) / INR mb <= 1). { split; [apply Rmult_le_pos; [lra | left; apply Rinv_0_lt_compat; lra] | apply (Rmult_le_reg_r (INR mb)); [lra|]; unfold Rdiv; rewrite Rmult_assoc, Rinv_l by lra; lra]. }
  assert (E : auto_scale mom mb m v = (1 - (1 - mom) / INR mb) * m + (1 - mom) / INR mb * v) by (unfold auto_scale; rewrite !(proj2 (Rleb_false _ 0)) by lra; reflexivity).
  assert (P : 0 < auto_scale mom mb m v) by (rewrite E; destruct (Rle_lt_dec ((1 - mom) / INR mb) 0); nra). rewrite IH by (auto; lra). rewrite E. cbn [pow]. ring.
Qed.

Print Assumptions C74_schedule.
Print Assumptions C74_schedule_due.
Print Assumptions C74_auto_twice_refuted.
Print Assumptions C78_decay.
