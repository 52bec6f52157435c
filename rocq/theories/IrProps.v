(** * C160: the currents of a column are those of the circuit *)
From Verif Require Import Prelude MvmModel ConvModel IrModel IrSpec IrProofs IrProofs2 IrProofs3.
Local Open Scope R_scope.

(** With the extension: for every output and time step, [vth] and [rth] are the Thevenin equivalent of the
    circuit where each cell is a node of its own.  For every voltage at the ADC the circuit has a solution, and in
    all solutions the current into the ADC is [(vth - vout) / rth]. *)
Theorem C160_extension U tmax rs cells t vout :
  (2 <= U)%nat -> 0 < tmax -> 0 <= rs -> cells <> [] -> Forall good_cell cells ->
  let nodes := map (fun c => devices (step_time tmax U t) c ++ leak) cells in
  let vr := thev_cpp U tmax rs cells t in
  0 < snd vr /\
  (forall u j, kirchhoff (micro * rs) nodes vout u j -> j (length cells - 1)%nat = (fst vr - vout) / snd vr) /\
  exists u j, kirchhoff (micro * rs) nodes vout u j.
Proof.
  intros LU T Rs N G nodes vr. assert (Ev : vr = ladder (micro * rs) (map thv nodes)). { unfold vr, thev_cpp, nodes. f_equal. rewrite map_map. apply map_ext. intros c. now apply cpp_node_thv. }
  rewrite Ev. replace (length cells) with (length nodes) by (unfold nodes; apply map_length). apply ladder_circuit.
  - apply Rmult_le_pos; [left; apply micro_pos | exact Rs].
  - unfold nodes. destruct cells; [contradiction | discriminate].
  - unfold nodes. rewrite Forall_map. eapply Forall_impl; [|exact G]. intros c Gc. now apply devices_pos.
Qed.

(** Without it: the same for the circuit where [m] consecutive cells share a node, and the wire between nodes has
    the resistance of [m] pieces. *)
Theorem C160_segments U tmax rs segs m cells t vout :
  (2 <= U)%nat -> 0 < tmax -> 0 <= rs -> (0 < segs)%nat -> (0 < m)%nat -> length cells = (m * segs)%nat -> Forall good_cell cells ->
  exists groups vr, concat groups = cells /\ length groups = segs /\ Forall (fun g => length g = m) groups /\
  thev_py U tmax rs segs (m * segs) cells t = Ok vr /\
  let nodes := map (fun g => concat (map (devices (step_time tmax U t)) g) ++ leak) groups in let rw := micro * rs * INR m in
  0 < snd vr /\
  (forall u j, kirchhoff rw nodes vout u j -> j (segs - 1)%nat = (fst vr - vout) / snd vr) /\
  exists u j, kirchhoff rw nodes vout u j.
Proof.
  intros LU T Rs Ps Pm L G. destruct (chunks_length m Pm segs (length cells) cells L ltac:(nia)) as (C1 & C2 & C3). exists (chunks (length cells) m cells). rewrite (thev_py_ok U tmax rs segs m cells t Ps Pm L). eexists. split; [exact C2|]. split; [exact C1|]. split; [exact C3|]. split; [reflexivity|].
  set (gs := chunks (length cells) m cells) in *. intros nodes rw. assert (Ev : map (py_node tmax U t) gs = map thv nodes). { unfold nodes. rewrite map_map. apply map_ext. intros g. apply py_node_thv; [exact LU | lra]. } rewrite Ev. replace segs with (length nodes) by (unfold nodes; rewrite map_length; exact C1). apply ladder_circuit.
  - unfold rw. apply Rmult_le_pos; [apply Rmult_le_pos; [left; apply micro_pos | exact Rs] | apply pos_INR].
  - unfold nodes. destruct gs; [cbn [length] in C1; lia | discriminate].
  - unfold nodes. rewrite Forall_map. rewrite Forall_forall. intros g I. fold (gnode (step_time tmax U t) g). rewrite gnode_conduct. pose proof reg_eps_pos. enough (0 <= sumR (map gsum g)) by lra. assert (Gg : Forall good_cell g). { rewrite Forall_forall in *. intros c Ic. apply G. rewrite <- C2. apply in_concat. now exists g. } clear - Gg. induction Gg as [|c g Hc F IH]; cbn [map]; [cbn; lra|]. rewrite sumR_cons. destruct Hc. unfold gsum at 1. lra.
Qed.

(** As many segments as rows: both are the same. *)
Theorem C160_agree U tmax rs cells t :
  (2 <= U)%nat -> 0 < tmax -> cells <> [] -> thev_py U tmax rs (length cells) (length cells) cells t = Ok (thev_cpp U tmax rs cells t).
Proof.
  intros LU T N. assert (P : (0 < length cells)%nat) by (destruct cells; [contradiction | cbn; lia]). pose proof (thev_py_ok U tmax rs (length cells) 1 cells t P ltac:(lia) ltac:(lia)) as E. rewrite Nat.mul_1_l in E. rewrite E. f_equal. unfold thev_cpp. rewrite chunks_one by lia. rewrite map_map. cbn [INR]. rewrite Rmult_1_r. f_equal. apply map_ext. intros c. rewrite py_node_thv by (try exact LU; lra). cbn [map concat]. rewrite app_nil_r. symmetry. now apply cpp_node_thv.
Qed.

Theorem C160_circuit_nontrivial :
  let cells := [{| k_x := 1; k_p := 5; k_m := 0 |}; {| k_x := - (1 / 2); k_p := 0; k_m := 3 |}] in
  Forall good_cell cells /\ length (devices (step_time 1 3 1) (hd {| k_x := 0; k_p := 0; k_m := 0 |} cells)) = 2%nat /\
  devices (step_time 1 3 0) {| k_x := - (1 / 2); k_p := 0; k_m := 3 |} = [(0, 2 / 10); (3, 6 / 10)] /\
  devices (step_time 1 3 1) {| k_x := - (1 / 2); k_p := 0; k_m := 3 |} = [(0, 4 / 10); (3, 4 / 10)].
Proof.
  cbn zeta. assert (E0 : step_time 1 3 0 = 0) by (unfold step_time; cbn; lra). assert (E1 : step_time 1 3 1 = 1 / 2) by (unfold step_time; cbn; lra).
  assert (A : Rabs (- (1 / 2)) = 1 / 2) by (rewrite Rabs_left; lra).
  split; [repeat constructor; cbn; lra|]. split; [cbn [hd]; unfold devices; cbn [k_x k_p k_m]; rewrite E1, (Rabs_right 1) by lra; rewrite (proj2 (Rltb_true (1 / 2) 1)) by lra; rewrite (proj2 (Rltb_true 0 1)) by lra; reflexivity|].
  unfold devices. cbn [k_x k_p k_m]. rewrite E0, E1, A. rewrite (proj2 (Rltb_true 0 (1 / 2))) by lra. rewrite (proj2 (Rltb_false 0 (- (1 / 2)))) by lra. rewrite (proj2 (Rltb_false (1 / 2) (1 / 2))) by lra. split; reflexivity.
Qed.

(** ** Without the extension one physical row more than inputs is not possible *)
Lemma mapM_hd_raise {A B} (f : A -> res B) e a l : f a = Raise e -> mapM f (a :: l) = Raise e.
Proof. intros H. cbn [mapM]. now rewrite H. Qed.
Lemma seq_hd n : (0 < n)%nat -> seq 0 n = 0%nat :: seq 1 (n - 1).
Proof. destruct n as [|n]; [lia|]. intros _. cbn [seq]. do 2 f_equal. lia. Qed.
Lemma map_map_length {A B} (f : list A -> list B) n W : (forall r, length (f r) = n) -> Forall (fun r => length r = n) (map f W).
Proof. intros H. rewrite Forall_map, Forall_forall. intros r _. apply H. Qed.
Lemma column_raise p U tmax cells e : (0 < U)%nat -> (forall t, thev p U tmax (o_drop p * o_rs p) cells t = Raise e) -> column p U tmax cells = Raise e.
Proof. intros LU H. unfold column. rewrite (seq_hd U LU). rewrite (mapM_hd_raise _ e); [reflexivity|]. now rewrite H. Qed.

Theorem C160_one_row_short p c U tmax W z d n r :
  (0 < U)%nat -> (0 < d)%nat -> (0 < n)%nat -> is_mat d n W -> length z = n -> get_res p = Ok r ->
  (0 < o_segs p)%nat -> (o_phys p / o_segs p * o_segs p = o_phys p)%nat -> o_phys p = S n -> o_drop p <> 0 ->
  o_ext p = false ->
  exists e, matmul_ir p (sp_pairs c) (o_drop p) U tmax W z = Raise e /\ e = if (o_segs p =? o_phys p)%nat then IndexError else RuntimeError.
Proof.
  intros LU Pd Pn [Lw Fw] Lz Er Ps Pm Ep Nd Ne. eexists. split; [|reflexivity]. unfold matmul_ir. rewrite Er. cbn [bind]. replace (Reqb (o_drop p) 0) with false by (symmetry; apply Reqb_false; exact Nd). replace (o_segs p =? 0)%nat with false by (symmetry; apply Nat.eqb_neq; lia). rewrite Pm, Nat.eqb_refl. cbn [negb]. unfold vec in *. rewrite Lz.
  assert (Ip : forall v, pad_sym (o_phys p) n v = v). { intros v. unfold pad_sym. rewrite Ep. replace (n <=? S n)%nat with true by (symmetry; apply Nat.leb_le; lia). replace (S n - n)%nat with 1%nat by lia. reflexivity. }
  rewrite (map_ext _ (fun v => v) Ip), map_id, Ip. unfold sp_pairs. cbn [mvm_pairs]. destruct W as [|w0 W]; [cbn in Lw; lia|]. inversion Fw as [|? ? Lw0 _]; subst.
  unfold mvm_pair. cbn [map evens combine]. erewrite mapM_hd_raise; [reflexivity|]. cbn beta iota. apply column_raise; [exact LU|]. intros t. set (cells := mkcells _ _ _).
  assert (Lc : length cells = length w0). { unfold cells. rewrite mkcells_length; rewrite ?map_length; lia. }
  unfold thev. replace (o_segs p =? 0)%nat with false by (symmetry; apply Nat.eqb_neq; lia). rewrite Pm, Nat.eqb_refl, Ne. cbn [negb]. unfold thev_py. replace (o_segs p =? 0)%nat with false by (symmetry; apply Nat.eqb_neq; lia). rewrite Pm, Nat.eqb_refl. cbn [negb andb]. set (m := (o_phys p / o_segs p)%nat) in *.
  destruct (Nat.eqb_spec m 1) as [E1|E1].
  - cbn [orb]. rewrite E1 in *. rewrite chunks_one by lia. rewrite !map_length. replace (length cells <? o_segs p)%nat with true by (symmetry; apply Nat.ltb_lt; lia). replace (o_segs p =? o_phys p)%nat with true by (symmetry; apply Nat.eqb_eq; lia). reflexivity.
  - cbn [orb]. assert (M2 : (2 <= m)%nat) by (destruct m as [|[|m]]; lia). assert (Mod : (length cells mod m)%nat <> 0%nat). { intros E. apply Nat.mod_divide in E; [|lia]. destruct E as [q Eq]. rewrite Lc in Eq. rewrite Ep in Pm. assert (m * (o_segs p - q) = 1)%nat by nia. apply Nat.eq_mul_1 in H. lia. }
    replace (length cells mod m =? 0)%nat with false by (symmetry; apply Nat.eqb_neq; exact Mod). replace (o_segs p =? o_phys p)%nat with false by (symmetry; apply Nat.eqb_neq; nia). reflexivity.
Qed.

Print Assumptions C160_extension.
Print Assumptions C160_segments.
Print Assumptions C160_agree.
Print Assumptions C160_circuit_nontrivial.
Print Assumptions C160_one_row_short.
