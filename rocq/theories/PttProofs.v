(** * Proofs about the transfer tile written in Python *)
From Verif Require Import Prelude PulseModel PttModel PttSpec.
Local Open Scope R_scope.

Lemma maxf_nonneg n xs : 0 <= maxf n xs.
Proof. apply maxabs_mat_nonneg. Qed.
Lemma put_eq {A} (f : nat -> A) k v : put f k v k = v.
Proof. unfold put. now rewrite Nat.eqb_refl. Qed.
Lemma put_ne {A} (f : nat -> A) k v j : j <> k -> put f k v j = f j.
Proof. unfold put. intros H. now rewrite (proj2 (Nat.eqb_neq j k) H). Qed.

Lemma fast_rate_pos c mx md : regular c -> 0 < fast_rate c mx md.
Proof.
  intros (A & _ & F & B & _). unfold fast_rate. destruct (c_auto c) eqn:E; [|exact F].
  assert (P : 0 < c_fast c * (c_bl c * c_dwA c)) by (specialize (B eq_refl); repeat apply Rmult_lt_0_compat; auto).
  destruct (Rltb 0 mx) eqn:E1; destruct (Rltb 0 md) eqn:E2; cbn [andb]; auto.
  apply Rltb_true in E1, E2. apply Rdiv_lt_0_compat; [exact P | now apply Rmult_lt_0_compat].
Qed.
Lemma buf_gran_pos c te : regular c -> (0 < t_in c)%nat -> (0 < te)%nat -> 0 < buf_gran c te.
Proof.
  intros (A & C & _) T E. unfold buf_gran. assert (N : 0 < INR (t_in c * te)) by (apply lt_0_INR; nia).
  assert (G : 0 < (if Rltb 0 (c_gran c) then c_gran c else 1)) by (rcase; lra).
  set (g := if Rltb 0 (c_gran c) then _ else _) in *. clearbody g. cbv zeta.
  assert (G2 : 0 < (if Rltb 0 (c_again c) then g * (c_dwA c * c_again c / INR (t_in c * te)) else g * c_dwA c)).
  { rcase; repeat apply Rmult_lt_0_compat; auto. now apply Rinv_0_lt_compat. }
  destruct (c_correct c); auto. apply Rmult_lt_0_compat; auto. now apply Rdiv_lt_0_compat.
Qed.
Definition rate_of (c : pcfg) (te : nat) (lr lra : R) : R := if c_correct c then lr / lra / buf_gran c te else lr / buf_gran c te.
Lemma read_rate_ok c te lr lra r : read_rate c te lr lra = Ok r -> r = rate_of c te lr lra.
Proof.
  unfold read_rate, rate_of. cbv zeta. destruct (_ && _)%bool; [discriminate|]. destruct (_ && _)%bool; [discriminate|].
  destruct (Reqb (buf_gran c te) 0); [discriminate|]. destruct (c_correct c); [|congruence]. destruct (Reqb lra 0); congruence.
Qed.
Lemma read_rate_succeeds c te lr lra : regular c -> (0 < t_in c)%nat -> (0 < te)%nat -> 0 < lra -> read_rate c te lr lra = Ok (rate_of c te lr lra).
Proof.
  intros Rg T E L. pose proof (buf_gran_pos c te Rg T E) as G. destruct Rg as (A & _). unfold read_rate, rate_of. cbv zeta.
  replace (t_in c * te =? 0)%nat with false by (symmetry; apply Nat.eqb_neq; nia). rewrite Bool.andb_false_r.
  replace (Reqb (c_dwA c) 0) with false by (symmetry; apply Reqb_false; lra). rewrite Bool.andb_false_r.
  replace (Reqb (buf_gran c te) 0) with false by (symmetry; apply Reqb_false; lra). replace (Reqb lra 0) with false by (symmetry; apply Reqb_false; lra).
  now destruct (c_correct c).
Qed.

(** ** the parts of an update *)
Definition new_mx (c : pcfg) (s : pst) (xs : list fvec) : R := if c_auto c then ema c (length xs) (s_mx s) (maxf (c_x c) xs) else s_mx s.
Definition new_md (c : pcfg) (s : pst) (mb : nat) (ds : list fvec) : R := if c_auto c then ema c mb (s_md s) (maxf (c_d c) ds) else s_md s.
Definition lra_of (c : pcfg) (s : pst) (xs ds : list fvec) : R := fast_rate c (new_mx c s xs) (new_md c s (length xs) ds).
Definition acc (c : pcfg) (v : dev) (s : pst) (xs ds : list fvec) : pst :=
  accumulate c v (new_mx c s xs) (new_md c s (length xs) ds) (lra_of c s xs ds) (chop s xs) ds s.
Definition rest_of (s : pst) (te mb : nat) : nat := (s_cnt s mod te + mb)%nat.
Lemma chop_length s xs : length (chop s xs) = length xs.
Proof. apply map_length. Qed.
Lemma update_eq c v s xs ds : supported c -> let te := t_every c (length xs) in
  update c v s xs ds =
    if (te =? 0)%nat then {| o_s := acc c v s xs ds; o_x := chop s xs; o_e := Some ZeroDivisionError |} else
    if (rest_of s te (length xs) <? te)%nat then {| o_s := acc c v s xs ds; o_x := chop s xs; o_e := None |} else
    if (2 * te <=? rest_of s te (length xs))%nat then {| o_s := acc c v s xs ds; o_x := chop s xs; o_e := Some ConfigError |} else
    let '(s2, e) := transfer c v te (lra_of c s xs ds) (acc c v s xs ds) in {| o_s := s2; o_x := chop s xs; o_e := e |}.
Proof.
  intros (N & Ev & Ca) te. unfold update. rewrite N, Z.eqb_refl. cbn [negb]. replace (Rltb (c_every c) 0) with false by (symmetry; now apply Rltb_false).
  replace (match c_tail c with Some _ => c_cacc c | None => false end) with false by (destruct (c_tail c); [symmetry; apply Ca; discriminate | reflexivity]).
  cbv zeta. fold te. fold (new_mx c s xs) (new_md c s (length xs) ds). fold (lra_of c s xs ds). fold (acc c v s xs ds).
  change (s_cnt (acc c v s xs ds)) with (s_cnt s + length (chop s xs))%nat. rewrite chop_length.
  replace (s_cnt s + length xs - length xs)%nat with (s_cnt s) by lia. reflexivity.
Qed.

(** ** the parts of a transfer *)
Definition next_k (c : pcfg) (s : pst) : nat := ((s_idx s + 1) mod t_in c)%nat.
Definition omega_of (c : pcfg) (v : dev) (s : pst) : fvec :=
  if c_cols c then v_fwd v (s_clk s) (unitf (next_k c s)) (s_A s) else v_bwd v (s_clk s) (unitf (next_k c s)) (s_A s).
Definition ref_of (c : pcfg) (s : pst) : fvec := match c_tail c with Some _ => s_F s (next_k c s) | None => fun _ => 0 end.
Definition h_of (c : pcfg) (v : dev) (lrh : R) (s : pst) : fvec :=
  fun o => s_H s (next_k c s) o + lrh * s_c s (next_k c s) * (omega_of c v s o - ref_of c s o).
Definition cc_of (c : pcfg) (s : pst) : nat :=
  if (negb (Reqb (c_prob c) 0) && negb (c_random c) && (next_k c s =? 0)%nat)%bool then ((s_chop s + 1) mod c_period c)%nat else s_chop s.
Definition sw_of (c : pcfg) (v : dev) (s : pst) : bool :=
  if Reqb (c_prob c) 0 then false else if c_random c then Rltb (v_coin v (S (s_clk s))) (c_prob c) else (cc_of c s =? 0)%nat.
Definition rd_of (c : pcfg) (v : dev) (lrh : R) (s : pst) : rd :=
  {| r_k := next_k c s; r_lr := lrh; r_sign := s_c s (next_k c s); r_ref := ref_of c s; r_val := omega_of c v s; r_steps := fun o => truncZ (h_of c v lrh s o); r_sw := sw_of c v s |}.
Lemma transfer_fields c v te lra s s' : transfer c v te lra s = (s', None) -> let k := next_k c s in let lrh := rate_of c te (s_lr s) lra in
  (k < c_x c)%nat /\ s_A s' = s_A s /\ s_cnt s' = s_cnt s /\ s_idx s' = k /\ s_chop s' = cc_of c s /\ s_mx s' = s_mx s /\ s_md s' = s_md s /\ s_lr s' = s_lr s /\
  s_log s' = rd_of c v lrh s :: s_log s /\ s_clk s' = S (S (S (s_clk s))) /\
  s_c s' = (if sw_of c v s then put (s_c s) k (- s_c s k) else s_c s) /\
  s_H s' = put (s_H s) k (fun o => if c_forget c then (if (truncZ (h_of c v lrh s o) =? 0)%Z then h_of c v lrh s o else c_mom c) else h_of c v lrh s o - IZR (truncZ (h_of c v lrh s o)) * (1 - c_mom c)) /\
  s_W s' = (if existsb (fun o => negb (truncZ (h_of c v lrh s o) =? 0)%Z) (seq 0 (t_out c))
            then (let wr := fun o => - IZR (truncZ (h_of c v lrh s o)) in if c_cols c then v_slow v (S (S (s_clk s))) (lr_w c) [unitf k] [wr] (s_W s)
                    else v_slow v (S (S (s_clk s))) (lr_w c) [wr] [unitf k] (s_W s))
            else s_W s) /\
  s_P s' = (match c_tail c with
                | Some tail => let b := Rmin (tail / INR (c_period c)) 1 in put (s_P s) k (fun o => (1 - b) * s_P s k o + b * omega_of c v s o)
                | None => s_P s end) /\
  s_F s' = (match c_tail c with Some _ => if sw_of c v s then put (s_F s) k (s_P s' k) else s_F s | None => s_F s end).
Proof.
  unfold transfer. destruct (read_rate c te (s_lr s) lra) as [lrh|e] eqn:ER; [|discriminate]. apply read_rate_ok in ER. subst lrh. set (k := next_k c s). set (lrh := rate_of c te (s_lr s) lra). intros E.
  cbv zeta in E. fold (next_k c s) in E. fold k in E. destruct (c_x c <=? k)%nat eqn:EK; [discriminate|]. apply Nat.leb_gt in EK.
  apply pair_equal_spec in E. destruct E as [<- _]. cbn [s_A s_cnt s_idx s_chop s_mx s_md s_lr s_log s_clk s_c s_H s_W s_P s_F].
  split; [exact EK|]. do 8 (split; [reflexivity|]). split; [reflexivity|]. split; [reflexivity|].
  split. { destruct (c_forget c); reflexivity. } split; [reflexivity|]. split; [reflexivity|].
  unfold sw_of, cc_of. fold k. destruct (c_tail c); [|now rewrite Bool.andb_false_r]. now rewrite Bool.andb_true_r.
Qed.
Lemma transfer_succeeds c v te lra s : regular c -> (0 < t_in c)%nat -> (0 < te)%nat -> 0 < lra -> exists s', transfer c v te lra s = (s', None).
Proof.
  intros Rg T E L. unfold transfer. rewrite read_rate_succeeds by assumption. cbv zeta. fold (next_k c s).
  assert (K : (next_k c s < c_x c)%nat).
  { unfold next_k. pose proof (Nat.mod_upper_bound (s_idx s + 1) (t_in c) ltac:(lia)) as B. destruct Rg as (_ & _ & _ & _ & D). unfold t_in in *. destruct (c_cols c); [lia|]. specialize (D eq_refl). lia. }
  replace (c_x c <=? next_k c s)%nat with false by (symmetry; now apply Nat.leb_gt). eauto.
Qed.
(** a successful step is of one of three kinds *)
Lemma step_cases c v s e s' : supported c -> step c v s e = Ok s' ->
  (exists l, e = SetLr l /\ s' = set_lr l s) \/
  (exists xs ds, e = Up xs ds /\ let te := t_every c (length xs) in (0 < te)%nat /\
     ((rest_of s te (length xs) < te)%nat /\ s' = acc c v s xs ds \/
      (te <= rest_of s te (length xs) < 2 * te)%nat /\ transfer c v te (lra_of c s xs ds) (acc c v s xs ds) = (s', None))).
Proof.
  intros Sp. destruct e as [xs ds | l]; cbn [step]; [|intros [= <-]; left; eauto]. rewrite (update_eq c v s xs ds Sp). cbv zeta. intros E. right. exists xs, ds. split; [reflexivity|].
  destruct (Nat.eqb_spec (t_every c (length xs)) 0) as [|N]; [discriminate|]. split; [lia|].
  destruct (Nat.ltb_spec (rest_of s (t_every c (length xs)) (length xs)) (t_every c (length xs))) as [L|L]; [left; split; [exact L|]; cbn [o_e o_s] in E; congruence|].
  destruct (Nat.leb_spec (2 * t_every c (length xs)) (rest_of s (t_every c (length xs)) (length xs))) as [L2|L2]; [discriminate|].
  right. split; [lia|]. destruct (transfer _ _ _ _ _) as [s2 [e|]]; cbn [o_e o_s] in E; congruence.
Qed.
Lemma run_snoc c v s h e : run c v s (h ++ [e]) = (s1 <- run c v s h ;; step c v s1 e).
Proof.
  revert s. induction h as [|a h IH]; intros s; cbn [run app bind].
  - destruct (step c v s e); reflexivity.
  - destruct (step c v s a) as [s1|]; cbn [bind]; [apply IH | reflexivity].
Qed.
(** induction over the successful steps of a history *)
Lemma run_ind c v s0 (P : list ev -> pst -> Prop) :
  P [] s0 -> (forall h s e s', run c v s0 h = Ok s -> P h s -> step c v s e = Ok s' -> P (h ++ [e]) s') -> forall h s, run c v s0 h = Ok s -> P h s.
Proof.
  intros P0 PS h. induction h as [|e h IH] using rev_ind; intros s E; [injection E as <-; exact P0|].
  rewrite run_snoc in E. destruct (run c v s0 h) as [s1|] eqn:E1; cbn [bind] in E; [|discriminate]. eapply PS; [exact E1 | apply IH; reflexivity | exact E].
Qed.
