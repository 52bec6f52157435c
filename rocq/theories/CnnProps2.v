(** * C105, C106: the two ways to compute a 2d convolution agree; layers that are called more than once *)
From Verif Require Import Prelude Rand CnnModel CnnSpec CnnProofs CnnProofs2 CnnProps.
Local Open Scope nat_scope.

Lemma dot_Sum (a b : list R) : length a = length b -> dot a b = Sum (length a) (fun i => (nth i a 0 * nth i b 0)%R).
Proof.
  revert b; induction a as [|x a IH]; intros [|y b] H; cbn in H; try discriminate; [reflexivity|].
  cbn [dot length]. rewrite IH by lia. unfold Sum. cbn [seq map sumR nth]. f_equal.
  rewrite <- seq_shift, map_map. reflexivity.
Qed.
Lemma nth_map_in {A B} (f : A -> B) l i d d' : i < length l -> nth i (map f l) d = f (nth i l d').
Proof. intros H. rewrite (nth_indep _ d (f d')) by (rewrite map_length; exact H). apply map_nth. Qed.
Lemma shape_row O K (W : mat) o : shape O K W -> o < O -> length (nth o W []) = K.
Proof. intros [H1 H2] Ho. rewrite Forall_forall in H2. apply H2. apply nth_In. lia. Qed.
Lemma nth_matvec_Sum O K (W : mat) v o : shape O K W -> length v = K -> o < O ->
  nth o (matvec W v) 0%R = Sum K (fun r => (wat W o r * nth r v 0)%R).
Proof.
  intros HW Hv Ho. unfold matvec.
  etransitivity; [apply (nth_map_in (fun row : list R => dot row v) W o 0%R []); destruct HW as [HW1 _]; exact (eq_ind_r (fun z => o < z) Ho HW1)|].
  pose proof (shape_row O K W o HW Ho) as HL.
  etransitivity; [apply dot_Sum; congruence|]. rewrite HL. reflexivity.
Qed.
Lemma nth_vadd (a b : list R) i : length a = length b -> nth i (vadd a b) 0%R = (nth i a 0 + nth i b 0)%R.
Proof.
  unfold vadd. revert b i; induction a as [|x a IH]; intros [|y b] i H; cbn in H; try discriminate.
  - destruct i; cbn; lra.
  - destruct i; cbn; [reflexivity|]. apply IH. lia.
Qed.

Lemma unfold2_pick C h w k0 k1 s0 s1 p0 p1 d0 d1 x l r :
  unfold2 C h w k0 k1 s0 s1 p0 p1 d0 d1 x l r
  = pick (ent2 h w s0 s1 p0 p1 d0 d1 (r / (k0 * k1)) ((r / k1) mod k0) (r mod k1)
            (l / image_size w k1 s1 p1 d1) (l mod image_size w k1 s1 p1 d1)) x.
Proof.
  unfold unfold2, ent2. cbv zeta. destruct (_ && _); [rewrite pick_SS|rewrite pick_0]; reflexivity.
Qed.
Lemma conv2_sum C h w k0 k1 s0 s1 p0 p1 d0 d1 LW W x xf o oy ox i : ox < LW ->
  (forall q, xf q = nth (i * (C * (h * w)) + q) x 0%R) ->
  Sum (C * (k0 * k1)) (fun r => (wat W o r * pick (ent2 h w s0 s1 p0 p1 d0 d1 (r / (k0 * k1)) ((r / k1) mod k0) (r mod k1)
      ((oy * LW + ox) / LW) ((oy * LW + ox) mod LW)) xf)%R)
  = conv2d C h w k0 k1 s0 s1 p0 p1 d0 d1 (w2 W k0 k1) (el4 C h w x i) o oy ox.
Proof.
  intros Hx0 Hxf. unfold conv2d. rewrite Sum_grid. apply Sum_ext. intros c Hc. rewrite Sum_grid. apply Sum_ext2. intros a e Ha He.
  assert (Hae : a * k1 + e < k0 * k1) by (apply flat_lt; assumption).
  destruct (divmod_flat (k0 * k1) c (a * k1 + e) Hae) as [-> _].
  replace (c * (k0 * k1) + (a * k1 + e)) with ((c * k0 + a) * k1 + e) by lia.
  destruct (divmod_flat k1 (c * k0 + a) e He) as [-> ->]. destruct (divmod_flat k0 c a Ha) as [_ ->].
  destruct (divmod_flat LW oy ox Hx0) as [-> ->]. rewrite ent2_pick. unfold w2, wat. f_equal.
  unfold zpad. destruct (_ && _); [|reflexivity]. destruct (_ && _); [|reflexivity]. rewrite Hxf. unfold el4. f_equal. lia.
Qed.

(** conv.py forward without an index: unfold, tile, fold back *)
Theorem C105_unfold_convolution k0 k1 s0 s1 p0 p1 d0 d1 C O b W n h w x :
  let g := G2 k0 k1 s0 s1 p0 p1 d0 d1 in
  well_formed (fresh_conv g C O b W) -> batch_of n [C; h; w] x -> valid_input g C [C; h; w] ->
  exists osh y, conv2_unfold g C O b W n h w x = Ok (osh, y) /\ is_convolution g C O b W n [C; h; w] x osh y.
Proof.
  intros g (HW & Hb & HC & HO) (Hn & Hx & _) V. cbn [fresh_conv cv_g cv_in cv_out cv_bias cv_w] in *.
  destruct V as (_ & Hk0 & Hk1 & Hs0 & Hs1 & Hp0 & Hp1). unfold conv2_unfold, g.
  rewrite (proj2 (fits_kernel_iff h k0 s0 p0 d0)), (proj2 (fits_kernel_iff w k1 s1 p1 d1)) by auto. cbn [andb].
  do 2 eexists. split; [reflexivity|]. cbn [is_convolution].
  set (LH := image_size h k0 s0 p0 d0). set (LW := image_size w k1 s1 p1 d1).
  exists LH, LW. split; [reflexivity|]. split; [rewrite grid3_length; reflexivity|].
  split; [intros l; apply image_size_position; assumption|]. split; [intros l; apply image_size_position; assumption|].
  intros i o oy ox Hi Ho Hy Hx0. unfold el4 at 1.
  replace (((i * O + o) * LH + oy) * LW + ox) with ((i * O + o) * (LH * LW) + (oy * LW + ox)) by lia.
  rewrite grid3_nth by (try assumption; apply flat_lt; assumption).
  set (row := tab (C * (k0 * k1)) (unfold2 C h w k0 k1 s0 s1 p0 p1 d0 d1 (fun q => nth (i * (C * (h * w)) + q) x 0%R) (oy * LW + ox))).
  assert (Lr : length row = C * (k0 * k1)) by apply tab_length.
  assert (Core : Sum (C * (k0 * k1)) (fun r => (wat W o r * nth r row 0)%R)
                 = conv2d C h w k0 k1 s0 s1 p0 p1 d0 d1 (w2 W k0 k1) (el4 C h w x i) o oy ox).
  { rewrite <- (conv2_sum C h w k0 k1 s0 s1 p0 p1 d0 d1 LW W x (fun q => nth (i * (C * (h * w)) + q) x 0%R) o oy ox i) by (try assumption; reflexivity).
    apply Sum_ext. intros r Hr. unfold row. rewrite nth_tab by assumption. rewrite unfold2_pick. reflexivity. }
  unfold cols in HW. cbn [kernel_elems g] in HW.
  destruct b as [| |bs]; cbn [is_analog bias_of] in *.
  - rewrite Nat.add_0_r in HW. rewrite (nth_matvec_Sum O (C * (k0 * k1)) W row o HW Lr Ho), Core. lra.
  - rewrite (nth_matvec_Sum O (C * (k0 * k1) + 1) W (row ++ [1%R]) o HW) by (try assumption; rewrite app_length, Lr; reflexivity).
    rewrite Nat.add_1_r, Sum_S. rewrite <- Core. f_equal.
    + apply Sum_ext. intros r Hr. rewrite app_nth1 by lia. reflexivity.
    + rewrite app_nth2 by lia. rewrite Lr, Nat.sub_diag. cbn [nth]. unfold wat. lra.
  - rewrite Nat.add_0_r in HW. rewrite nth_vadd.
    + rewrite (nth_matvec_Sum O (C * (k0 * k1)) W row o HW Lr Ho), Core. reflexivity.
    + unfold matvec. rewrite map_length. destruct HW as [HW _]. rewrite (Hb bs eq_refl). exact HW.
Qed.

(** two lists that are both the 2d convolution are the same *)
Lemma is_convolution_unique2 k0 k1 s0 s1 p0 p1 d0 d1 C O b W n h w x osh osh' y y' :
  let g := G2 k0 k1 s0 s1 p0 p1 d0 d1 in
  is_convolution g C O b W n [C; h; w] x osh y -> is_convolution g C O b W n [C; h; w] x osh' y' -> osh = osh' /\ y = y'.
Proof.
  intros g (LH & LW & -> & Ly & P1 & P2 & A) (LH' & LW' & -> & Ly' & P1' & P2' & A').
  assert (U : forall (Q : nat -> Prop) a b, (forall l, l < a <-> Q l) -> (forall l, l < b <-> Q l) -> a = b).
  { intros Q a e Ha He. destruct (Nat.lt_trichotomy a e) as [K|[K|K]]; [|exact K|].
    - apply He, Ha in K. lia.
    - apply Ha, He in K. lia. }
  assert (LH = LH') as <- by (eapply U; eauto). assert (LW = LW') as <- by (eapply U; eauto). split; [reflexivity|].
  apply (nth_ext _ _ 0%R 0%R); [congruence|]. intros q Hq. rewrite Ly in Hq.
  assert (NZ : O <> 0 /\ LH <> 0 /\ LW <> 0) by (repeat split; intros ->; lia). destruct NZ as (N1 & N2 & N3).
  set (l := q mod (LH * LW)). set (no := q / (LH * LW)).
  assert (NLL : LH * LW <> 0) by nia.
  assert (E1 : q = no * (LH * LW) + l) by (unfold no, l; rewrite (Nat.mul_comm (q / _)); apply Nat.div_mod; exact NLL).
  assert (Hl : l < LH * LW) by (apply Nat.mod_upper_bound; exact NLL).
  assert (Hno : no < n * O) by (unfold no; apply Nat.div_lt_upper_bound; [exact NLL|lia]).
  assert (E2 : no = no / O * O + no mod O) by (rewrite (Nat.mul_comm (no / O)); apply Nat.div_mod; exact N1).
  assert (E3 : l = l / LW * LW + l mod LW) by (rewrite (Nat.mul_comm (l / LW)); apply Nat.div_mod; exact N3).
  assert (B1 : no / O < n) by (apply Nat.div_lt_upper_bound; [exact N1|lia]).
  assert (B2 : no mod O < O) by (apply Nat.mod_upper_bound; exact N1).
  assert (B3 : l / LW < LH) by (apply Nat.div_lt_upper_bound; [exact N3|lia]).
  assert (B4 : l mod LW < LW) by (apply Nat.mod_upper_bound; exact N3).
  pose proof (A _ _ _ _ B1 B2 B3 B4) as X. rewrite <- (A' _ _ _ _ B1 B2 B3 B4) in X. unfold el4 in X.
  assert (Eq : q = ((no / O * O + no mod O) * LH + l / LW) * LW + l mod LW) by (rewrite <- E2; nia).
  rewrite Eq. exact X.
Qed.
(** the result does not depend on whether the layer uses an index *)
Theorem C105_indexed_equals_unfold k0 k1 s0 s1 p0 p1 d0 d1 C O b W n h w x :
  let g := G2 k0 k1 s0 s1 p0 p1 d0 d1 in
  well_formed (fresh_conv g C O b W) -> batch_of n [C; h; w] x -> valid_input g C [C; h; w] ->
  exists osh y cv', conv_forward (fresh_conv g C O b W) n [C; h; w] x = Ok (osh, y, cv')
    /\ conv2_unfold g C O b W n h w x = Ok (osh, y).
Proof.
  intros g WF B V. pose proof WF as (_ & _ & HC & _). cbn in HC.
  destruct (C104_convolution g C O b W n [C; h; w] x HC B V) as (osh & y & cv' & E & K).
  destruct (C105_unfold_convolution k0 k1 s0 s1 p0 p1 d0 d1 C O b W n h w x WF B V) as (osh' & y' & E' & K').
  destruct (is_convolution_unique2 _ _ _ _ _ _ _ _ _ _ _ _ _ _ _ _ _ _ _ _ K K') as [<- <-].
  exists osh, y, cv'. auto.
Qed.
Example C105_nontrivial :
  let g := G2 2 2 1 1 1 0 1 1 in
  well_formed (fresh_conv g 1 2 (DigitalBias [1; 2]%R) [[1; 2; 3; 4]; [5; 6; 7; 8]]%R)
  /\ batch_of 1 [1; 3; 3] [1;2;3;4;5;6;7;8;9]%R /\ valid_input g 1 [1; 3; 3].
Proof.
  split; [|split; [repeat split; cbn; lia|unfold valid_input, position; cbn; repeat split; lia]].
  repeat split; cbn; try lia; [repeat constructor|]. intros bs [= <-]. reflexivity.
Qed.

(** ** Layers that are called more than once *)
Definition table_inv (cv : conv) : Prop :=
  match cv_it cv with
  | None => True
  | Some it => exists sh, calc_indexes (cv_g cv) (cv_in cv) (is_analog (cv_bias cv)) sh = Ok it /\ cv_isize cv = prodn sh
      /\ valid_input (cv_g cv) (cv_in cv) sh
  end.
Definition table_shape (cv : conv) (sh : list nat) : Prop :=
  match cv_it cv with
  | None => False
  | Some it => calc_indexes (cv_g cv) (cv_in cv) (is_analog (cv_bias cv)) sh = Ok it /\ cv_isize cv = prodn sh
      /\ valid_input (cv_g cv) (cv_in cv) sh
  end.
Definition same_layer (a b : conv) : Prop :=
  cv_g a = cv_g b /\ cv_in a = cv_in b /\ cv_out a = cv_out b /\ cv_bias a = cv_bias b /\ cv_w a = cv_w b.
(** one call, with a table for shape [sh0] (or none) in the layer *)
Lemma conv_forward_step cv n sh x : 0 < cv_in cv -> batch_of n sh x -> valid_input (cv_g cv) (cv_in cv) sh ->
  (cv_it cv = None \/ exists sh0, table_shape cv sh0 /\ (prodn sh0 = prodn sh -> sh0 = sh)) ->
  exists osh y cv', conv_forward cv n sh x = Ok (osh, y, cv')
    /\ is_convolution (cv_g cv) (cv_in cv) (cv_out cv) (cv_bias cv) (cv_w cv) n sh x osh y
    /\ same_layer cv cv' /\ table_shape cv' sh.
Proof.
  intros HC B V H. destruct (calc_forward (cv_g cv) (cv_in cv) (cv_out cv) (cv_bias cv) (cv_w cv) n sh x HC B V) as (it & Ei & _ & y & Ey & K).
  unfold conv_forward. destruct H as [H|(sh0 & H & Q)].
  - rewrite H, Ei. cbn [bind fst snd]. rewrite Ey. cbn [bind]. do 3 eexists. split; [reflexivity|]. split; [exact K|].
    split; [repeat split|]. unfold table_shape. cbn. auto.
  - unfold table_shape in H. destruct (cv_it cv) as [it0|]; [|contradiction]. destruct H as (E0 & S0 & V0).
    destruct (Nat.eqb_spec (cv_isize cv) (prodn sh)) as [Eq|Ne].
    + assert (sh0 = sh) as -> by (apply Q; congruence). rewrite Ei in E0. injection E0 as <-.
      cbn [bind fst snd]. rewrite Ey. cbn [bind]. do 3 eexists. split; [reflexivity|]. split; [exact K|].
      split; [repeat split|]. unfold table_shape. cbn. auto.
    + rewrite Ei. cbn [bind fst snd]. rewrite Ey. cbn [bind]. do 3 eexists. split; [reflexivity|]. split; [exact K|].
      split; [repeat split|]. unfold table_shape. cbn. auto.
Qed.
Definition valid_call (cv : conv) (c : nat * list nat * list R) : Prop :=
  batch_of (fst (fst c)) (snd (fst c)) (snd c) /\ valid_input (cv_g cv) (cv_in cv) (snd (fst c)).
Lemma same_valid cv cv' c : same_layer cv cv' -> valid_call cv c -> valid_call cv' c.
Proof. intros (E1 & E2 & _) [A B]. split; [exact A|]. rewrite <- E1, <- E2. exact B. Qed.
Lemma history_gen h : forall cv, 0 < cv_in cv -> Forall (valid_call cv) h ->
  (cv_it cv = None \/ exists sh0, table_shape cv sh0 /\ Forall (fun c => prodn sh0 = prodn (snd (fst c)) -> sh0 = snd (fst c)) h) ->
  (forall c c', List.In c h -> List.In c' h -> prodn (snd (fst c)) = prodn (snd (fst c')) -> snd (fst c) = snd (fst c')) ->
  exists r cv', forwards cv h r cv' /\ same_layer cv cv'
    /\ Forall2 (fun c o => is_convolution (cv_g cv) (cv_in cv) (cv_out cv) (cv_bias cv) (cv_w cv) (fst (fst c)) (snd (fst c)) (snd c) (fst o) (snd o)) h r.
Proof.
  induction h as [|[[n sh] x] h IH]; intros cv HC HV HT HS.
  - exists [], cv. split; [constructor|]. split; [repeat split|constructor].
  - apply Forall_cons_iff in HV. destruct HV as [[V1 V2] HV]. cbn [fst snd] in V1, V2.
    destruct (conv_forward_step cv n sh x HC V1 V2) as (osh & y & cv1 & E & K & SL & TS).
    { destruct HT as [HT|(sh0 & T & HT)]; [left; exact HT|right]. exists sh0. split; [exact T|].
      apply Forall_cons_iff in HT. exact (proj1 HT). }
    assert (SL' := SL). destruct SL as (G1' & G2' & G3' & G4' & G5').
    destruct (IH cv1) as (r & cv2 & F & SL2 & P).
    + rewrite <- G2'. exact HC.
    + eapply Forall_impl; [|exact HV]. intros c. apply same_valid. exact SL'.
    + right. exists sh. split; [exact TS|]. apply Forall_forall. intros c Hc Hp.
      apply (HS ((n, sh), x) c); [left; reflexivity|right; exact Hc|exact Hp].
    + intros c c' Hc Hc'. apply HS; right; assumption.
    + exists ((osh, y) :: r), cv2. split; [econstructor; eassumption|]. split.
      * destruct SL2 as (X1 & X2 & X3 & X4 & X5). repeat split; congruence.
      * constructor; [exact K|]. rewrite G1', G2', G3', G4', G5'. exact P.
Qed.
(** any number of calls with inputs of any length, in any order: every result of a 1d layer is the convolution of its input *)
Theorem C106_conv1d_any_history k s p C O b W h : 0 < C -> Forall (valid_call (fresh_conv (G1 k s p) C O b W)) h ->
  exists r cv', forwards (fresh_conv (G1 k s p) C O b W) h r cv'
    /\ Forall2 (fun c o => is_convolution (G1 k s p) C O b W (fst (fst c)) (snd (fst c)) (snd c) (fst o) (snd o)) h r.
Proof.
  intros HC HV. destruct (history_gen h (fresh_conv (G1 k s p) C O b W) HC HV (or_introl eq_refl)) as (r & cv' & F & _ & P).
  - intros [[n sh] x] [[n' sh'] x'] H1 H2. rewrite Forall_forall in HV. apply HV in H1, H2. destruct H1 as [_ H1], H2 as [_ H2].
    cbn [fst snd fresh_conv cv_g cv_in] in *. destruct sh as [|c [|hh [|? ?]]]; try contradiction.
    destruct sh' as [|c' [|hh' [|? ?]]]; try contradiction. destruct H1 as (-> & _), H2 as (-> & _). cbn [prodn fold_right].
    intros E. f_equal. f_equal. nia.
  - exists r, cv'. auto.
Qed.
(** 2d (with an index) and 3d layers: the same as long as inputs with equally many elements have the same shape *)
Theorem C106_any_history_distinct_sizes g C O b W h : 0 < C -> Forall (valid_call (fresh_conv g C O b W)) h ->
  (forall c c', List.In c h -> List.In c' h -> prodn (snd (fst c)) = prodn (snd (fst c')) -> snd (fst c) = snd (fst c')) ->
  exists r cv', forwards (fresh_conv g C O b W) h r cv'
    /\ Forall2 (fun c o => is_convolution g C O b W (fst (fst c)) (snd (fst c)) (snd c) (fst o) (snd o)) h r.
Proof.
  intros HC HV HS. destruct (history_gen h (fresh_conv g C O b W) HC HV (or_introl eq_refl) HS) as (r & cv' & F & _ & P).
  exists r, cv'. auto.
Qed.
(** ... but not otherwise: after a 2x3 image, a 3x2 image is convolved with the table of the 2x3 image.  Kernel 1x2: the right
    answer has the shape [1,1,3,1], the layer returns [1,1,2,2] *)
Theorem C106_any_shape_refuted :
  let g := G2 1 2 1 1 0 0 1 1 in
  let h := [(1, [1; 2; 3], [1; 2; 3; 4; 5; 6]%R); (1, [1; 3; 2], [1; 2; 3; 4; 5; 6]%R)] in
  let cv := fresh_conv g 1 1 NoBias [[1; 1]%R] in
  Forall (valid_call cv) h /\
  forall r cv', forwards cv h r cv' ->
    exists o1 o2 y, r = [o1; o2] /\ o2 = ([1; 1; 2; 2], y) /\ ~ is_convolution g 1 1 NoBias [[1; 1]%R] 1 [1; 3; 2] [1; 2; 3; 4; 5; 6]%R (fst o2) (snd o2).
Proof.
  intros g h cv. split.
  - repeat constructor; cbn; unfold position; lia.
  - intros r cv' F. inversion F as [|? ? ? ? ? ? ? ? ? ? E1 F1]; subst. inversion F1 as [|? ? ? ? ? ? ? ? ? ? E2 F2]; subst. inversion F2; subst.
    assert (T : exists it, cv_it cv1 = Some it /\ it_out it = [2; 2] /\ cv_isize cv1 = 6 /\ cv_out cv1 = 1).
    { revert E1. unfold conv_forward, cv, fresh_conv. cbn [cv_it cv_g cv_in cv_out cv_bias cv_w cv_isize].
      set (ci := calc_indexes _ _ _ _). vm_compute in ci. subst ci. cbn [bind fst snd].
      destruct (tile_forward_indexed _ _ _ _ _ _ _ _) as [yy|]; cbn [bind]; [|discriminate]. intros [= _ _ <-].
      eexists. repeat split. }
    destruct T as (it & T1 & T2 & T3 & T4). revert E2. unfold conv_forward. rewrite T1, T3, T4. cbn [prodn fold_right Nat.mul Nat.add Nat.eqb bind fst snd].
    destruct (tile_forward_indexed _ _ _ _ _ _ _ _) as [yy|]; cbn [bind]; [|discriminate]. intros [= <- <- _]. rewrite T2.
    eexists _, _, _. split; [reflexivity|]. split; [reflexivity|]. cbn [fst snd]. intros (LH & LW & E & _ & _ & P & _).
    injection E as <- <-. pose proof (proj1 (P 1)) as A. unfold position in A. cbn in A. lia.
Qed.
Example C106_nontrivial : Forall (valid_call (fresh_conv (G1 2 1 0) 1 1 NoBias [[1; 1]%R]))
  [(1, [1; 3], [1; 2; 3]%R); (2, [1; 2], [1; 2; 3; 4]%R); (1, [1; 3], [4; 5; 6]%R)].
Proof. repeat constructor; cbn; unfold position; lia. Qed.

Print Assumptions C105_unfold_convolution.
Print Assumptions C105_indexed_equals_unfold.
Print Assumptions C106_conv1d_any_history.
Print Assumptions C106_any_history_distinct_sizes.
Print Assumptions C106_any_shape_refuted.
