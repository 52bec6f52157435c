(** * The analog summary (C173, C174) *)
From Verif Require Import Prelude AiModel AiSpec.

Section MtInd.
  Context (P : mt -> Prop) (H : forall i k ch, Forall P ch -> P (Node i k ch)).
  Fixpoint mt_rect' (m : mt) : P m :=
    match m with Node i k ch => H i k ch ((fix go l : Forall P l := match l with [] => Forall_nil P | x :: r => Forall_cons x (mt_rect' x) (go r) end) ch) end.
End MtInd.

Lemma sum_nat_app a b : sum_nat (a ++ b) = (sum_nat a + sum_nat b)%nat.
Proof. unfold sum_nat. induction a as [|x a IH]; cbn [app fold_right]; [reflexivity | rewrite IH; lia]. Qed.
Lemma sum_nat_zero {A} (l : list A) : sum_nat (map (fun _ => 0%nat) l) = 0%nat.
Proof. induction l as [|x l IH]; [reflexivity | exact IH]. Qed.
Lemma mapM_num (g : layer_info -> nat) (f : mt -> nat) : (forall c li, hook c = Ok li -> g li = f (cl_mod c)) -> forall cs l, mapM hook cs = Ok l -> fold_right (fun x n => (g x + n)%nat) 0%nat l = sum_nat (map (fun c => f (cl_mod c)) cs).
Proof.
  intros Hg. induction cs as [|c cs IH]; intros l E; cbn [mapM] in E; [injection E as <-; reflexivity|]. destruct (hook c) as [li|] eqn:Eh; cbn [bind] in E; [|discriminate]. destruct (mapM hook cs) as [ls|]; cbn [bind] in E; [|discriminate]. injection E as <-. cbn [fold_right map sum_nat]. rewrite (Hg _ _ Eh), (IH ls eq_refl). reflexivity.
Qed.
Lemma hook_tiles c li : hook c = Ok li -> li_tiles li = if is_analog (cl_mod c) then length (analog_tiles (cl_mod c)) else 0%nat.
Proof. unfold hook. destruct (cl_out c); [|discriminate]. destruct (match mkind (cl_mod c) with KLayer f b => (f, b) | _ => (FOther, false) end) as [f mp]. intros E. destruct (if is_analog (cl_mod c) then mapM _ _ else Ok []); cbn [bind] in E; [|discriminate]. destruct (reuse_factor f (cl_in c) l); cbn [bind] in E; [|discriminate]. injection E as <-. reflexivity. Qed.
Lemma hook_analog c li : hook c = Ok li -> li_analog li = is_analog (cl_mod c).
Proof. unfold hook. destruct (cl_out c); [|discriminate]. destruct (match mkind (cl_mod c) with KLayer f b => (f, b) | _ => (FOther, false) end) as [f mp]. intros E. destruct (if is_analog (cl_mod c) then mapM _ _ else Ok []); cbn [bind] in E; [|discriminate]. destruct (reuse_factor f (cl_in c) l); cbn [bind] in E; [|discriminate]. injection E as <-. reflexivity. Qed.

Lemma sum_repeat (f : mt -> nat) c n : sum_nat (map (fun c => f (cl_mod c)) (repeat c n)) = (n * f (cl_mod c))%nat.
Proof. unfold sum_nat. induction n as [|n IH]; [reflexivity|]. cbn [repeat map fold_right]. rewrite IH. lia. Qed.
Lemma calls_cons h c tr : calls_of h (c :: tr) = ((if (mid h =? mid (cl_mod c))%nat then 1 else 0) + calls_of h tr)%nat.
Proof. unfold calls_of. cbn [filter]. rewrite (Nat.eqb_sym (mid (cl_mod c))). destruct (mid h =? mid (cl_mod c))%nat; reflexivity. Qed.
(** counting the runs of hooks by calls and by hooked modules *)
Lemma count_swap (f : mt -> nat) hs tr : (forall h c, In h hs -> In c tr -> mid h = mid (cl_mod c) -> f h = f (cl_mod c)) ->
  sum_nat (map (fun c => f (cl_mod c)) (hook_calls hs tr)) = sum_nat (map (fun h => (calls_of h tr * f h)%nat) hs).
Proof.
  intros Id. unfold hook_calls. induction tr as [|c tr IH].
  - cbn [flat_map map]. unfold calls_of. cbn [filter length Nat.mul]. now rewrite sum_nat_zero.
  - cbn [flat_map]. rewrite map_app, sum_nat_app, IH by (intros; apply Id; auto; now right). clear IH. assert (Id' : forall h, In h hs -> mid h = mid (cl_mod c) -> f h = f (cl_mod c)) by (intros h Hh; apply Id; [exact Hh | now left]). clear Id. unfold hook_count. induction hs as [|h hs IH].
    + reflexivity.
    + rewrite sum_repeat in *. cbn [map]. specialize (IH (fun h0 Hh0 => Id' h0 (or_intror Hh0))). unfold sum_nat in *. cbn [fold_right]. rewrite <- IH. rewrite (calls_cons h c tr). cbn [filter]. destruct (Nat.eqb_spec (mid h) (mid (cl_mod c))) as [E|E]; cbn [length]; [rewrite (Id' h (or_introl eq_refl) E)|]; lia.
Qed.

Lemma hooked_modules : forall m h, In h (hooked m) -> In h (modules m).
Proof.
  apply (mt_rect' (fun m => forall h, In h (hooked m) -> In h (modules m))). intros i k ch IH h. cbn [hooked modules]. assert (K : In h (flat_map hooked ch) -> In h (flat_map modules ch)). { rewrite Forall_forall in IH. rewrite !in_flat_map. intros (x & Hx & Hh). exists x. split; [exact Hx | now apply IH]. } destruct (length ch =? 0)%nat; [intros [<-|[]]; now left|]. destruct k; try (intros H; right; now apply K). destruct (existsb is_analog ch); [intros H; right; now apply K | intros [<-|[]]; now left].
Qed.

(** General count: whatever the forward pass does, the totals sum over the hooked places of the model, each as often
    as the module at this place is called. *)
Theorem C173_count m tr a : (forall x y, In x (modules m) -> In y (modules m) -> mid x = mid y -> x = y) -> (forall c, In c tr -> In (cl_mod c) (modules m)) ->
  analog_summary m tr = Ok a ->
  ai_total_tiles a = sum_nat (map (fun h => (calls_of h tr * if is_analog h then length (analog_tiles h) else 0)%nat) (hooked m)) /\
  ai_total_analog a = sum_nat (map (fun h => (calls_of h tr * if is_analog h then 1 else 0)%nat) (hooked m)).
Proof.
  intros Id In_ E. unfold analog_summary in E. destruct (run_hooks (hooked m) tr) as [l|] eqn:El; cbn [bind] in E; [|discriminate]. injection E as <-. cbn [ai_total_tiles ai_total_analog]. unfold run_hooks in El. assert (Id' : forall (f : mt -> nat) h c, In h (hooked m) -> In c tr -> mid h = mid (cl_mod c) -> f h = f (cl_mod c)). { intros f h c Hh Hc Em. f_equal. apply Id; auto. now apply hooked_modules. } split.
  - unfold num_tiles. rewrite (mapM_num li_tiles (fun m => if is_analog m then length (analog_tiles m) else 0%nat) hook_tiles _ _ El). apply (count_swap (fun m => if is_analog m then length (analog_tiles m) else 0%nat)). apply (Id' (fun m => if is_analog m then length (analog_tiles m) else 0%nat)).
  - unfold num_analog. rewrite (mapM_num (fun x => if li_analog x then 1 else 0)%nat (fun m => if is_analog m then 1 else 0)%nat ltac:(intros c li H; cbv beta; rewrite (hook_analog c li H); reflexivity) _ _ El). apply (count_swap (fun m => if is_analog m then 1 else 0)%nat). apply (Id' (fun m => if is_analog m then 1 else 0)%nat).
Qed.

(** ** The totals of models as the library builds them *)
Lemma tile_list_ids : forall m, map fst (tile_list m) = map mid (tiles_of m).
Proof.
  apply (mt_rect' (fun m => map fst (tile_list m) = map mid (tiles_of m))). intros i k ch IH. unfold tiles_of in *. cbn [tile_list modules filter]. rewrite map_app.
  assert (K : map fst (flat_map tile_list ch) = map mid (filter is_tile (flat_map modules ch))). { induction IH as [|x ch Hx _ IHc]; [reflexivity|]. cbn [flat_map]. rewrite map_app, filter_app, map_app. now rewrite Hx, IHc. }
  rewrite K. unfold is_tile at 2. cbn [mkind]. destruct k; reflexivity.
Qed.
Lemma built_under : forall m, built true m = true -> is_analog m = false /\ layers_of m = [].
Proof.
  apply (mt_rect' (fun m => built true m = true -> is_analog m = false /\ layers_of m = [])). intros i k ch IH B. cbn [built] in B. destruct k; try discriminate B.
  - apply andb_prop in B. destruct B as [_ B]. apply Nat.eqb_eq in B. destruct ch; [|discriminate B]. split; reflexivity.
  - split; [reflexivity|]. change (layers_of (Node i KDigital ch)) with (filter is_layer (flat_map modules ch)). rewrite forallb_forall in B. induction IH as [|x ch Hx _ IHc]; [reflexivity|]. cbn [flat_map]. rewrite filter_app. destruct (Hx (B x (or_introl eq_refl))) as [_ E]. unfold layers_of in E. rewrite E. apply IHc. intros y Hy. apply B. now right.
Qed.
Definition atiles (h : mt) : list (nat * tile_sizes) := if is_analog h then tile_list h else [].
Lemma flat_map_flat_map {A B C} (f : B -> list C) (g : A -> list B) l : flat_map f (flat_map g l) = flat_map (fun x => flat_map f (g x)) l.
Proof. induction l as [|x l IH]; [reflexivity|]. cbn [flat_map]. now rewrite flat_map_app, IH. Qed.
Lemma filter_flat_map {A B} (p : B -> bool) (g : A -> list B) l : filter p (flat_map g l) = flat_map (fun x => filter p (g x)) l.
Proof. induction l as [|x l IH]; [reflexivity|]. cbn [flat_map]. now rewrite filter_app, IH. Qed.
Lemma flat_map_ext_F {A B} (f g : A -> list B) l : Forall (fun x => f x = g x) l -> flat_map f l = flat_map g l.
Proof. induction 1 as [|x l H _ IH]; [reflexivity|]. cbn [flat_map]. now rewrite H, IH. Qed.
Lemma hooked_layers : forall m, built false m = true -> filter is_analog (hooked m) = layers_of m /\ flat_map atiles (hooked m) = tile_list m.
Proof.
  apply (mt_rect' (fun m => built false m = true -> filter is_analog (hooked m) = layers_of m /\ flat_map atiles (hooked m) = tile_list m)). intros i k ch IH B.
  assert (Down : forallb (built false) ch = true -> filter is_analog (flat_map hooked ch) = filter is_layer (flat_map modules ch) /\ flat_map atiles (flat_map hooked ch) = flat_map tile_list ch). { intros Bc. rewrite forallb_forall in Bc. rewrite Forall_forall in IH. rewrite !filter_flat_map, flat_map_flat_map. split; apply flat_map_ext_F; apply Forall_forall; intros x Hx; apply (IH x Hx (Bc x Hx)). }
  cbn [built] in B. destruct k as [s| |f mp|].
  - discriminate B.
  - destruct (Down B) as [D1 D2]. unfold layers_of. cbn [hooked modules filter tile_list app]. unfold is_layer at 1. cbn [mkind]. destruct ch as [|x ch]; [split; reflexivity|]. cbn [length Nat.eqb]. split; [exact D1 | exact D2].
  - cbn [negb andb] in B. apply andb_prop in B. destruct B as [B1 B2]. apply negb_true_iff in B1. cbn [hooked]. rewrite B1. assert (N : existsb is_analog ch = false). { clear -B2. rewrite forallb_forall in B2. apply not_true_is_false. intros K. apply existsb_exists in K. destruct K as (x & Hx & Ex). rewrite (proj1 (built_under x (B2 x Hx))) in Ex. discriminate. } rewrite N. split.
    + unfold layers_of. cbn [filter modules]. unfold is_layer at 1, is_analog at 1. cbn [mkind]. f_equal. symmetry. clear -B2. rewrite forallb_forall in B2. rewrite filter_flat_map. induction ch as [|x ch IHc]; [reflexivity|]. cbn [flat_map]. fold (layers_of x). rewrite (proj2 (built_under x (B2 x (or_introl eq_refl)))). apply IHc. intros y Hy. apply B2. now right.
    + cbn [flat_map]. rewrite app_nil_r. reflexivity.
  - cbn [negb andb] in B. apply andb_prop in B. destruct B as [B1 B2]. apply negb_true_iff in B1. destruct (Down B2) as [D1 D2]. unfold layers_of. cbn [hooked modules filter tile_list app]. unfold is_layer at 1. cbn [mkind]. rewrite B1. split; [exact D1 | exact D2].
Qed.
Lemma once_nodup : forall l seen, NoDup (map fst l) -> (forall x, In x (map fst l) -> ~ In x seen) -> once seen l = l.
Proof.
  induction l as [|p l IH]; intros seen N D; [reflexivity|]. cbn [once map] in *. inversion N as [|? ? N1 N2]; subst. destruct (existsb (Nat.eqb (fst p)) seen) eqn:E.
  - apply existsb_exists in E. destruct E as (y & Hy & Ey). apply Nat.eqb_eq in Ey. subst y. exfalso. apply (D (fst p)); [now left | exact Hy].
  - f_equal. apply IH; [exact N2|]. intros x Hx [K|K]; [now subst x | apply (D x); [now right | exact K]].
Qed.
Lemma NoDup_app_l {A} (a b : list A) : NoDup (a ++ b) -> NoDup a.
Proof. induction a as [|x a IH]; intros N; [constructor|]. inversion N as [|? ? N1 N2]; subst. constructor; [intros K; apply N1, in_or_app; now left | now apply IH]. Qed.
Lemma NoDup_app_r {A} (a b : list A) : NoDup (a ++ b) -> NoDup b.
Proof. induction a as [|x a IH]; intros N; [exact N|]. inversion N; subst. now apply IH. Qed.
Lemma NoDup_part {A B} (f : A -> list B) : forall l, NoDup (flat_map f l) -> forall x, In x l -> NoDup (f x).
Proof. induction l as [|y l IH]; intros N x Hx; [destruct Hx|]. cbn [flat_map] in N. destruct Hx as [->|Hx]; [eapply NoDup_app_l; exact N | apply IH; [eapply NoDup_app_r; exact N | exact Hx]]. Qed.
Lemma map_flat_map {A B C} (f : B -> C) (g : A -> list B) l : map f (flat_map g l) = flat_map (fun x => map f (g x)) l.
Proof. induction l as [|x l IH]; [reflexivity|]. cbn [flat_map]. now rewrite map_app, IH. Qed.

(** C173: if every analog layer is called [k] times in the forward pass of the summary, the totals are [k] times the
    numbers of tiles and of analog layers of the model: right for models that use each of their layers once. *)
Theorem C173_totals m tr a k : built false m = true -> (forall x y, In x (modules m) -> In y (modules m) -> mid x = mid y -> x = y) ->
  NoDup (map mid (tiles_of m)) -> NoDup (map mid (layers_of m)) ->
  (forall c, In c tr -> In (cl_mod c) (modules m)) -> (forall h, In h (layers_of m) -> calls_of h tr = k) ->
  analog_summary m tr = Ok a ->
  ai_total_tiles a = (k * length (nodup Nat.eq_dec (map mid (tiles_of m))))%nat /\ ai_total_analog a = (k * length (nodup Nat.eq_dec (map mid (layers_of m))))%nat.
Proof.
  intros B Id NT NL In_ Ck E. destruct (C173_count m tr a Id In_ E) as [-> ->]. rewrite !nodup_fixed_point by assumption. rewrite !map_length. destruct (hooked_layers m B) as [HL HT].
  assert (S : forall f : mt -> nat, sum_nat (map (fun h => (calls_of h tr * if is_analog h then f h else 0)%nat) (hooked m)) = (k * sum_nat (map f (layers_of m)))%nat). { intros f. assert (Ck' : forall h, In h (filter is_analog (hooked m)) -> calls_of h tr = k) by (rewrite HL; exact Ck). rewrite <- HL. clear -Ck'. induction (hooked m) as [|h l IH]; [cbn; lia|]. cbn [map filter] in *. destruct (is_analog h); cbn [map sum_nat fold_right] in *; unfold sum_nat in *.
    - rewrite IH by (intros; apply Ck'; now right). rewrite (Ck' h) by (now left). lia.
    - rewrite IH by exact Ck'. lia. }
  split.
  - rewrite S. f_equal. rewrite <- (map_length mid (tiles_of m)), <- tile_list_ids, map_length, <- HT. rewrite <- tile_list_ids, <- HT in NT. rewrite <- HL. clear -NT. rewrite map_flat_map in NT. induction (hooked m) as [|h l IH]; [reflexivity|]. cbn [flat_map filter] in *. rewrite app_length. specialize (IH (NoDup_app_r _ _ NT)). rewrite <- IH. unfold atiles in NT |- *. destruct (is_analog h); cbn [map sum_nat fold_right length]; [|reflexivity]. unfold sum_nat. f_equal. unfold analog_tiles. rewrite once_nodup; [reflexivity | apply (NoDup_app_l _ _ NT) | intros ? _ []].
  - rewrite (S (fun _ => 1%nat)). f_equal. clear. induction (layers_of m) as [|x l IH]; [reflexivity|]. cbn [map length sum_nat fold_right]. unfold sum_nat in IH. rewrite IH. reflexivity.
Qed.

(** ** Example: an encoder whose layer is used twice *)
Definition tile0 (i : nat) : mt := Node i (KTile {| ts_in := 3; ts_out := 2; ts_max_in := 4; ts_max_out := 4 |}) [].
Definition lin0 (i : nat) : mt := Node i (KLayer FLinear false) [tile0 (Datatypes.S i)].
Definition net0 : mt := Node 0 KContainer [lin0 1; Node 9 KDigital []; lin0 3].
Definition call0 (m : mt) : call := {| cl_mod := m; cl_in := [5; 3]%Z; cl_out := Some [5; 2]%Z |}.
Lemma net0_ids x y : In x (modules net0) -> In y (modules net0) -> mid x = mid y -> x = y.
Proof. cbn [modules net0 flat_map app lin0 tile0 In]. intros [<-|[<-|[<-|[<-|[<-|[<-|[]]]]]]] [<-|[<-|[<-|[<-|[<-|[<-|[]]]]]]] E; cbn in E; try discriminate E; reflexivity. Qed.
Example C173_nontrivial : exists a, analog_summary net0 [call0 (lin0 1); call0 (Node 9 KDigital []); call0 (lin0 3)] = Ok a /\ ai_total_tiles a = 2%nat /\ ai_total_analog a = 2%nat /\ built false net0 = true.
Proof. eexists. repeat split; reflexivity. Qed.
(** A layer that is called twice is counted twice, one that is not called is not counted. *)
Theorem C173_uses_refuted : exists m tr a, built false m = true /\ (forall x y, In x (modules m) -> In y (modules m) -> mid x = mid y -> x = y) /\ (forall c, In c tr -> In (cl_mod c) (modules m)) /\
  analog_summary m tr = Ok a /\ length (tiles_of m) = 2%nat /\ ai_total_tiles a = 3%nat /\ ~ In 3%nat (map (fun l => mid (li_mod l)) (ai_layers a)).
Proof.
  exists net0, [call0 (lin0 1); call0 (lin0 1); call0 (lin0 1)]. eexists. split; [reflexivity|]. split; [apply net0_ids|]. split; [intros c [<-|[<-|[<-|[]]]]; right; left; reflexivity|]. split; [reflexivity|]. split; [reflexivity|]. split; [reflexivity|]. cbn. intros [K|[K|[K|[]]]]; discriminate K.
Qed.
(** The hooks stay: each later forward pass of the model appends its layers to the list of the summary, whose totals
    stay as they were. *)
Theorem C173_later m tr a tr' a' : analog_summary m tr = Ok a -> forward_again a tr' = Ok a' ->
  ai_total_tiles a' = ai_total_tiles a /\ ai_total_analog a' = ai_total_analog a /\
  length (ai_layers a') = (length (ai_layers a) + sum_nat (map (fun c => hook_count (hooked m) (cl_mod c)) tr'))%nat.
Proof.
  intros E F. unfold analog_summary in E. destruct (run_hooks (hooked m) tr) as [l|] eqn:El; cbn [bind] in E; [|discriminate]. injection E as <-. unfold forward_again in F. cbn [ai_hooks ai_layers ai_total_tiles ai_total_analog] in *. destruct (run_hooks (hooked m) tr') as [l'|] eqn:El'; cbn [bind] in F; [|discriminate]. injection F as <-. cbn [ai_total_tiles ai_total_analog ai_layers]. split; [reflexivity|]. split; [reflexivity|]. rewrite app_length. f_equal.
  assert (ML : forall cs ls, mapM hook cs = Ok ls -> length ls = length cs). { induction cs as [|c cs IH]; intros ls H; cbn [mapM] in H; [now injection H as <-|]. destruct (hook c); cbn [bind] in H; [|discriminate]. destruct (mapM hook cs); cbn [bind] in H; [|discriminate]. injection H as <-. cbn [length]. now rewrite (IH _ eq_refl). }
  unfold run_hooks in El'. rewrite (ML _ _ El'). unfold hook_calls. clear. induction tr' as [|c tr IH]; [reflexivity|]. cbn [flat_map map sum_nat fold_right]. rewrite app_length, repeat_length. unfold sum_nat in IH. now rewrite IH.
Qed.

(** ** C174: what is reported for a layer *)
Lemma prodZ_snoc l x : prodZ (l ++ [x]) = (prodZ l * x)%Z.
Proof. unfold prodZ. induction l as [|y l IH]; cbn [app fold_right]; [lia | rewrite IH; lia]. Qed.
(** The reuse factor is the number of matrix-vector products: of a linear layer all dimensions of the input but the
    last, of a convolution (batch, channels, positions) the positions of all outputs of the batch. *)
Theorem C174_reuse lead n b ch sp i o : (0 < n)%Z -> (0 < ch)%Z ->
  reuse_factor FLinear (lead ++ [n]) o = Ok (prodZ lead) /\ reuse_factor FConv i (b :: ch :: sp) = Ok (b * prodZ sp)%Z.
Proof.
  intros Hn Hc. unfold reuse_factor, floordiv. split.
  - rewrite last_last, prodZ_snoc. destruct (Z.eqb_spec n 0); [lia|]. now rewrite Z.div_mul.
  - cbn [nth prodZ fold_right]. destruct (Z.eqb_spec ch 0); [lia|]. fold (prodZ sp). replace (b * (ch * prodZ sp))%Z with (b * prodZ sp * ch)%Z by ring. now rewrite Z.div_mul.
Qed.
(** The utilization of a tile of a mapped layer that fits the physical tile is between 0 and 100 percent, and 100
    exactly for tiles that fill it; other layers always report 100, whatever the size of the physical tile; and a size
    of 0 (unlimited) makes the summary of a mapped layer raise. *)
Theorem C174_utilization s : (0 < ts_in s <= ts_max_in s)%Z -> (0 < ts_out s <= ts_max_out s)%Z ->
  exists u, utilization true s = Ok u /\ 0 < u <= 100 /\ (u = 100 <-> ts_in s = ts_max_in s /\ ts_out s = ts_max_out s).
Proof.
  intros Hi Ho. unfold utilization. assert (P : (0 < ts_max_in s * ts_max_out s)%Z) by (apply Z.mul_pos_pos; lia). destruct (Z.eqb_spec (ts_max_in s * ts_max_out s) 0); [lia|]. eexists. split; [reflexivity|]. assert (Q : (0 < ts_in s * ts_out s)%Z) by (apply Z.mul_pos_pos; lia). assert (L : (ts_in s * ts_out s <= ts_max_in s * ts_max_out s)%Z) by (apply Z.mul_le_mono_nonneg; lia). pose proof (IZR_lt _ _ P) as P'. pose proof (IZR_lt _ _ Q) as Q'. pose proof (IZR_le _ _ L) as L'. set (M := (ts_max_in s * ts_max_out s)%Z) in *. set (N := (ts_in s * ts_out s)%Z) in *. split.
  - split; [apply Rmult_lt_0_compat; [lra | now apply Rinv_0_lt_compat]|]. apply (Rmult_le_reg_r (IZR M)); [exact P'|]. unfold Rdiv. rewrite Rmult_assoc, Rinv_l by lra. lra.
  - split.
    + intros E. assert (K : IZR N = IZR M). { apply (f_equal (fun v => v * IZR M)) in E. unfold Rdiv in E. rewrite Rmult_assoc, Rinv_l in E by lra. lra. } apply eq_IZR in K. unfold N, M in K. split; nia.
    + intros [E1 E2]. unfold N, M. rewrite E1, E2. fold M. field. lra.
Qed.
Theorem C174_not_mapped s : utilization false s = Ok 100.
Proof. reflexivity. Qed.
Theorem C174_unlimited m f tr c rest : mkind m = KLayer f true -> hooked m = [m] -> cl_mod c = m -> tr = c :: rest -> (exists p, In p (analog_tiles m) /\ (ts_max_in (snd p) = 0 \/ ts_max_out (snd p) = 0)%Z) -> cl_out c <> None ->
  analog_summary m tr = Raise ZeroDivisionError.
Proof.
  intros Km Hm Ec -> (p & Hp & Hz) No. unfold analog_summary. rewrite Hm. unfold run_hooks, hook_calls. cbn [flat_map]. unfold hook_count. cbn [filter]. rewrite Ec, Nat.eqb_refl. cbn [length repeat app mapM]. unfold hook. rewrite Ec, Km. destruct (cl_out c) as [o|]; [|congruence]. assert (A : is_analog m = true) by (unfold is_analog; now rewrite Km). rewrite A.
  assert (Z : mapM (fun q => utilization true (snd q)) (analog_tiles m) = Raise ZeroDivisionError). { clear -Hp Hz. induction (analog_tiles m) as [|q l IH]; [destruct Hp|]. cbn [mapM]. destruct Hp as [->|Hp]. - unfold utilization. destruct (Z.eqb_spec (ts_max_in (snd p) * ts_max_out (snd p)) 0) as [_|K]; [reflexivity|]. exfalso. apply K. nia. - unfold utilization at 1. destruct (ts_max_in (snd q) * ts_max_out (snd q) =? 0)%Z; cbn [bind]; [reflexivity | now rewrite (IH Hp)]. }
  rewrite Z. reflexivity.
Qed.
(** A module without children whose output is not a tensor (an LSTM of PyTorch, say) makes the summary raise. *)
Theorem C174_tuple_output m tr c rest : tr = c :: rest -> In (cl_mod c) (hooked m) -> cl_out c = None -> analog_summary m tr = Raise AttributeError.
Proof.
  intros -> Hc No. unfold analog_summary, run_hooks, hook_calls. cbn [flat_map]. assert (P : exists n, hook_count (hooked m) (cl_mod c) = Datatypes.S n). { unfold hook_count. assert (K : In (cl_mod c) (filter (fun h => (mid h =? mid (cl_mod c))%nat) (hooked m))) by (apply filter_In; split; [exact Hc | apply Nat.eqb_refl]). destruct (filter _ _) as [|x l]; [destruct K | eexists; reflexivity]. } destruct P as [n ->]. cbn [repeat app mapM]. unfold hook at 1. rewrite No. reflexivity.
Qed.
(** The dictionary of the tiles of a layer keeps one tile only: the last. *)
Theorem C174_tiles_dict_refuted : exists c l, hook c = Ok l /\ length (li_util l) = 2%nat /\ tiles_summary l = Some (nth 1 (li_util l) 0) /\ nth 0 (li_util l) 0 <> nth 1 (li_util l) 0.
Proof.
  exists (call0 (Node 1 (KLayer FLinear true) [tile0 2; Node 3 (KTile {| ts_in := 1; ts_out := 2; ts_max_in := 4; ts_max_out := 4 |}) []])). eexists. split; [reflexivity|]. cbn. split; [reflexivity|]. split; [reflexivity|]. lra.
Qed.
Example C174_nontrivial : exists c l, hook c = Ok l /\ li_reuse l = 35%Z /\ li_util l = [IZR (3 * 2) * 100 / IZR (4 * 4)].
Proof. exists {| cl_mod := Node 1 (KLayer FLinear true) [tile0 2]; cl_in := [5; 7; 3]%Z; cl_out := Some [5; 7; 2]%Z |}. eexists. repeat split. Qed.

Print Assumptions C173_count.
Print Assumptions C173_totals.
Print Assumptions C173_uses_refuted.
Print Assumptions C173_later.
Print Assumptions C174_reuse.
Print Assumptions C174_utilization.
Print Assumptions C174_not_mapped.
Print Assumptions C174_unlimited.
Print Assumptions C174_tuple_output.
Print Assumptions C174_tiles_dict_refuted.
