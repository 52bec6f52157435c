(** * C191-C193: conversion of legacy checkpoints *)
From Coq Require Import Ascii DecimalString Lra.
From Verif Require Import Prelude LgcModel LgcSpec LgcProofs.
Local Open Scope string_scope.

(** ** Dictionaries *)
Lemma get_lookup n d : get n d = lookup n d.
Proof. induction d as [|[m v] d IH]; [reflexivity|]. cbn. rewrite IH. reflexivity. Qed.
Lemma lookup_put {A} n m (v : A) d : lookup n (put m v d) = if String.eqb m n then Some v else lookup n d.
Proof.
  induction d as [|[k w] d IH]; cbn; [reflexivity|]. destruct (String.eqb_spec k m) as [-> |Hk]; cbn.
  - destruct (String.eqb m n); reflexivity.
  - rewrite IH. destruct (String.eqb_spec k n), (String.eqb_spec m n); congruence.
Qed.
Lemma lookup_del {A} n m (d : list (string * A)) : lookup n (del m d) = if String.eqb m n then None else lookup n d.
Proof.
  induction d as [|[k w] d IH]; [cbn; destruct (String.eqb m n); reflexivity|]. unfold del in *. cbn [filter fst]. destruct (String.eqb_spec k m) as [-> |Hk]; cbn [negb lookup].
  - rewrite IH. destruct (String.eqb m n); reflexivity.
  - rewrite IH. destruct (String.eqb_spec k n), (String.eqb_spec m n); congruence.
Qed.
Lemma lookup_app {A} n (a b : list (string * A)) : lookup n (a ++ b)%list = match lookup n a with Some v => Some v | None => lookup n b end.
Proof. induction a as [|[m v] a IH]; [reflexivity|]. cbn. destruct (String.eqb m n); [reflexivity|exact IH]. Qed.
Lemma lookup_dels n l d : lookup n (fold_left (fun d k => del k d) l d) = if existsb (fun m => String.eqb m n) l then None else @lookup sval n d.
Proof.
  revert d. induction l as [|m l IH]; intros d; [reflexivity|]. cbn. rewrite IH, lookup_del. destruct (String.eqb m n); cbn; [destruct (existsb _ l); reflexivity|reflexivity].
Qed.
Lemma assigned_fold l acc : forall n, lookup n (fold_left (fun d p => put (fst p) (snd p) d) l acc) = match lookup n (rev l) with Some v => Some v | None => @lookup value n acc end.
Proof.
  revert acc. induction l as [|[k v] l IH]; intros acc n; [reflexivity|]. cbn [fold_left rev fst snd]. rewrite IH, lookup_app, lookup_put. destruct (lookup n (rev l)); [reflexivity|]. cbn. destruct (String.eqb k n); reflexivity.
Qed.
(** ** Keys *)
Lemma fold_dotted l b par : fold_left (fun k n => k ++ "." ++ str n) l b ++ "." ++ par = b ++ "." ++ dotted l ++ par.
Proof.
  revert b. induction l as [|n l IH]; intros b; [reflexivity|]. cbn [fold_left]. rewrite IH. cbn [dotted fold_right]. fold (dotted l). rewrite !app_assocs. reflexivity.
Qed.
Lemma key_ending layers l par p c r : par = String c r -> ~ dig_us c -> place l ->
  get_key_from_ending layers (par ++ ending l) par p = Ok (moved (check_conv_mapped layers p) l par).
Proof.
  intros E H Hl. unfold get_key_from_ending. rewrite (after_last_ending par l c r E H), split_ending, mapM_int. cbn [bind]. f_equal. unfold moved.
  destruct l as [|n [|m l]]; [destruct Hl; [discriminate|cbn in *; lia]|destruct Hl as [Hl|Hl]; [injection Hl as ->; reflexivity|cbn in Hl; lia]|].
  assert (G : forall b, fold_left (fun k n => k ++ "." ++ str n) (n :: m :: l) b ++ "." ++ par = (b ++ ".") ++ dotted (n :: m :: l) ++ par) by (intros b; rewrite fold_dotted, app_assocs; reflexivity).
  destruct n; rewrite G; destruct (check_conv_mapped layers p); reflexivity.
Qed.
Lemma conv_mapped_iff layers p : NoDup (map fst layers) -> path p -> check_conv_mapped layers p = true <-> is_conv_mapped layers p.
Proof.
  intros Hn Hp. unfold check_conv_mapped, is_conv_mapped.
  set (q := substring 0 (String.length p - 1) p). assert (Q : forall q', (p = "" /\ q' = "" \/ p = q' ++ ".") <-> q' = q).
  { intros q'. unfold q. destruct Hp as [-> |[z ->]].
    - cbn. split; [intros [[_ ->]|E]; [reflexivity|destruct q'; discriminate]|intros ->; left; split; reflexivity].
    - replace (String.length (z ++ ".") - 1)%nat with (String.length z) by (rewrite app_lens; cbn; lia). rewrite sub_app_l. split.
      + intros [[E _]|E]; [destruct z; discriminate|]. apply app_len_eq in E; [symmetry; apply E|]. apply (f_equal String.length) in E. rewrite !app_lens in E. cbn in E. lia.
      + intros ->. right. reflexivity. }
  destruct (find _ layers) as [[n c]|] eqn:F.
  - apply find_some in F. destruct F as [Hi Hq]. cbn in Hq. apply String.eqb_eq in Hq. rewrite andb_true_iff, !contains_occ by discriminate. split.
    + intros [H1 H2]. exists n, c. split; [apply Q; exact Hq|]. auto.
    + intros (q' & c' & E & Hi' & H1 & H2). apply Q in E. assert (c' = c); [|subst; auto]. rewrite E, <- Hq in Hi'. revert Hi Hi' Hn. clear. induction layers as [|[a b] l IH]; [contradiction|]. intros H1 H2 N. cbn [map fst] in N. apply NoDup_cons_iff in N. destruct N as [Na Nd]. cbn [In] in H1, H2. destruct H1 as [E1|H1], H2 as [E2|H2].
      * congruence.
      * injection E1 as -> ->. destruct Na. apply in_map_iff. exists (n, c'). auto.
      * injection E2 as -> ->. destruct Na. apply in_map_iff. exists (n, c). auto.
      * apply IH; assumption.
  - split; [discriminate|]. intros (q' & c' & E & Hi' & _). apply Q in E. pose proof (find_none _ _ F _ Hi') as N. cbn in N. rewrite E, String.eqb_refl in N. discriminate.
Qed.
Lemma occ_ending x y c n l : x = y ++ String c "" -> ~ dig_us c -> occurs x (n ++ ending l) -> occurs x n.
Proof.
  intros -> Hc (a & b & E). rewrite <- app_assocs in E. destruct (app_cut _ _ _ _ E) as [(z & E1 & E2)|(z & -> & E2)]; [|exists a, z; rewrite app_assocs; reflexivity].
  rewrite <- app_assocs in E1. symmetry in E1. destruct (app_cut _ _ _ _ (eq_sym E1)) as [(w & -> & E3)|(w & E3 & E4)].
  - destruct w as [|d w]; cbn in E3.
    + subst z. assert (A := ending_chars l). rewrite E2 in A. cbn in A. tauto.
    + injection E3 as <- E3. destruct w; [|discriminate]. exists a, "". rewrite app_nil_rs, !app_assocs. reflexivity.
  - assert (A := ending_chars l). rewrite E2, E4 in A. apply all_app in A. destruct A as [A _]. apply all_app in A. destruct A as [_ A]. cbn in A. tauto.
Qed.
Lemma starts_iff k s : String.prefix k s = true <-> exists r, s = k ++ r.
Proof.
  revert s. induction k as [|c k IH]; intros s; [split; [exists s; reflexivity|intros _; destruct s; reflexivity]|]. destruct s as [|d s]; [split; [discriminate|intros [r E]; discriminate]|].
  change (String.prefix (String c k) (String d s)) with (if ascii_dec c d then String.prefix k s else false).
  destruct (ascii_dec c d) as [-> |Hn].
  - rewrite IH. split; intros [r E]; exists r; [rewrite E; reflexivity|injection E as E; exact E].
  - split; [discriminate|]. intros [r E]. injection E as E _. congruence.
Qed.
Lemma starts_false k s : (~ exists r, s = k ++ r) -> String.prefix k s = false.
Proof. intros H. destruct (String.prefix k s) eqn:E; [|reflexivity]. apply starts_iff in E. contradiction. Qed.
Lemma starts_refl k s : String.prefix k (k ++ s) = true.
Proof. apply starts_iff. exists s. reflexivity. Qed.
Lemma place_ne l : place l -> l <> [].
Proof. intros [-> |H]; [discriminate|]. intros ->. cbn in H. lia. Qed.
Lemma dotless_app a b : dotless a -> dotless b -> dotless (a ++ b).
Proof.
  intros Ha Hb (x & y & E). destruct (app_cut _ _ _ _ E) as [(z & -> & E')|(z & -> & E')].
  - apply Hb. exists z, y. exact E'.
  - destruct z as [|c z]; [apply Hb; exists "", y; symmetry; exact E'|]. cbn in E'. injection E' as <- E'. apply Ha. exists x, z. reflexivity.
Qed.
Lemma dotless_ending l : dotless (ending l).
Proof. apply (ending_no "." l "." ""); [reflexivity|]. nodig. Qed.
(** ** Tiles *)
Lemma mul_ok n t v : List.length t = n -> fits (Some v) n -> exists u, mul t v = Ok u /\ List.length u = n /\ forall i, (i < n)%nat -> nth i u 0%R = (nth i t 0 * scale_of (Some v) i)%R.
Proof.
  intros L F. assert (M : forall r, List.length (map (fun x => x * r)%R t) = n /\ forall i, (i < n)%nat -> nth i (map (fun x => x * r)%R t) 0%R = (nth i t 0 * r)%R).
  { intros r. split; [rewrite map_length; exact L|]. intros i Hi. rewrite (nth_indep _ 0%R (0 * r)%R) by (rewrite map_length; lia). apply (map_nth (fun x => (x * r)%R)). }
  destruct v as [l|r|b|k|k]; cbn in F; try contradiction; [|eexists; split; [reflexivity|apply M]|eexists; split; [reflexivity|apply M]].
  destruct l as [|r [|r' l]]; [|eexists; split; [reflexivity|apply M]|].
  - cbn in F. subst n. destruct t; [|discriminate]. exists []. split; [reflexivity|]. split; [reflexivity|]. intros; cbn in *; lia.
  - set (l0 := r :: r' :: l) in *. exists (map2 Rmult t l0). split; [unfold mul, l0; change (r :: r' :: l) with l0; rewrite F, L, Nat.eqb_refl; reflexivity|]. change (scale_of (Some (STen l0))) with (fun i => nth i l0 0%R). cbv beta.
    assert (F' : List.length l0 = List.length t) by congruence. clearbody l0. clear F M. subst n. revert l0 F'. induction t as [|x t IH]; intros [|y l0] F'; cbn in *; try discriminate; [split; [reflexivity|intros; lia]|].
    injection F' as F'. destruct (IH l0 F') as [A B]. split; [f_equal; exact A|]. intros [|i] Hi; [reflexivity|]. apply B. lia.
Qed.
Lemma moved_split cm l par : moved cm l par = moved cm l "" ++ par.
Proof. unfold moved. destruct l as [|n [|m l]]; [destruct cm; reflexivity|reflexivity|]. destruct cm; rewrite !app_assocs; reflexivity. Qed.
Lemma path_dotted l : path (dotted l).
Proof. induction l as [|n l IH]; [left; reflexivity|]. cbn [dotted fold_right]. fold (dotted l). rewrite <- app_assocs. apply path_app; [|exact IH]. right. exists (str n). reflexivity. Qed.
Lemma path_moved cm l : path (moved cm l "").
Proof.
  assert (A : path "analog_module.") by (right; exists "analog_module"; reflexivity). assert (B : path "array.") by (right; exists "array"; reflexivity). assert (C : path "analog_module.array.") by (right; exists "analog_module.array"; reflexivity).
  assert (G : path ((if cm then "array." else "analog_module.array.") ++ dotted l ++ "")) by (rewrite app_nil_rs; apply path_app; [destruct cm; assumption|apply path_dotted]).
  unfold moved. destruct l as [|n [|m l]]; [exact G|rewrite app_nil_rs; exact A|exact G].
Qed.
Definition dig_dot (c : ascii) : Prop := digit c \/ c = "."%char.
Lemma dotted_chars l : all dig_dot (dotted l).
Proof. induction l as [|n l IH]; [exact I|]. cbn [dotted fold_right]. fold (dotted l). apply all_app. split; [eapply all_mono; [|apply str_digits]; intros c H; left; exact H|]. cbn [append all]. split; [right; reflexivity|exact IH]. Qed.
Lemma moved_no cm l : ~ occurs "analog_tile_state" (moved cm l "").
Proof.
  assert (D : dotless "analog_tile_state") by (apply dot_dec; reflexivity). assert (N : ~ occurs "analog_tile_state" (dotted l)). { intros O. apply (all_occ dig_dot) in O; [|apply dotted_chars]. cbn in O. destruct O as [O _]. revert O. nodig. }
  assert (A : ~ occurs "analog_tile_state" "analog_module.") by (apply occ_dec; [discriminate|reflexivity]).
  assert (G : forall b : bool, ~ occurs "analog_tile_state" ((if b then "array." else "analog_module.array.") ++ dotted l ++ "")). { intros b. rewrite app_nil_rs. apply path_occ; [destruct b; [right; exists "array"; reflexivity|right; exists "analog_module.array"; reflexivity]|exact D|discriminate|destruct b; (apply occ_dec; [discriminate|reflexivity])|exact N]. }
  unfold moved. destruct l as [|n [|m l]]; [apply G|rewrite app_nil_rs; exact A|apply G].
Qed.
Lemma replace_key p cm l rep : path p -> ~ occurs "analog_tile_state" p -> replace "analog_tile_state" rep (p ++ moved cm l "analog_tile_state") = p ++ moved cm l rep.
Proof.
  intros Hp Ho. rewrite (moved_split cm l "analog_tile_state"), (moved_split cm l rep), <- !app_assocs. apply replace_path; [apply path_app; [exact Hp|apply path_moved]|apply dot_dec; reflexivity|discriminate|].
  apply path_occ; [exact Hp|apply dot_dec; reflexivity|discriminate|exact Ho|apply moved_no].
Qed.
Lemma tile_ok p cm l s c' : path p -> ~ occurs "analog_tile_state" p -> complete s -> ts_cfg s = Some c' ->
  exists n t a' al, convert_tile (p ++ moved cm l "analog_tile_state") s = Ok (app al [(p ++ moved cm l "mapping_scales", Other (STen t)); (p ++ moved cm l "analog_tile_state", Tile {| ts_cfg := Some c'; ts_attrs := a' |})], c') /\
    lookup "out_size" (ts_attrs s) = Some (SNat n) /\ List.length t = n /\ (forall i, (i < n)%nat -> nth i t 0%R = (scale_of (lookup "mapping_scales" (ts_attrs s)) i * scale_of (lookup "analog_alpha_scale" (ts_attrs s)) i)%R) /\ state_ok (ts_attrs s) a' /\
    al = match lookup "alpha" (ts_attrs s) with Some (STen x) => [(p ++ moved cm l "alpha", Other (STen x))] | _ => [] end.
Proof.
  intros Hp Ho (n & H1 & (x & H2) & H3 & H4) Hc. unfold convert_tile. cbv zeta. rewrite !get_lookup, !lookup_put, !lookup_del, !lookup_dels. cbn [existsb dropped String.eqb Ascii.eqb Bool.eqb orb]. rewrite Hc, H1, H2, !replace_key by assumption.
  assert (T1 : exists t1, (match lookup "mapping_scales" (ts_attrs s) with Some v => mul (repeat 1%R n) v | None => Ok (repeat 1%R n) end) = Ok t1 /\ List.length t1 = n /\ forall i, (i < n)%nat -> nth i t1 0%R = scale_of (lookup "mapping_scales" (ts_attrs s)) i).
  { assert (R1 : forall i, (i < n)%nat -> nth i (repeat 1%R n) 0%R = 1%R). { clear. induction n; intros [|i] H; cbn; try lia; [reflexivity|]. apply IHn. lia. }
    destruct (lookup "mapping_scales" (ts_attrs s)) as [v|].
    - destruct (mul_ok n (repeat 1%R n) v (repeat_length _ _) H3) as (u & E & L & V). exists u. split; [exact E|]. split; [exact L|]. intros i Hi. rewrite V, R1 by exact Hi. lra.
    - exists (repeat 1%R n). split; [reflexivity|]. split; [apply repeat_length|]. exact R1. }
  destruct T1 as (t1 & E1 & L1 & V1).
  assert (T2 : exists t2, (match lookup "analog_alpha_scale" (ts_attrs s) with Some v => mul t1 v | None => Ok t1 end) = Ok t2 /\ List.length t2 = n /\ forall i, (i < n)%nat -> nth i t2 0%R = (nth i t1 0 * scale_of (lookup "analog_alpha_scale" (ts_attrs s)) i)%R).
  { destruct (lookup "analog_alpha_scale" (ts_attrs s)) as [v|]; [exact (mul_ok n t1 v L1 H4)|]. exists t1. split; [reflexivity|]. split; [exact L1|]. intros. cbn. lra. }
  destruct T2 as (t2 & E2 & L2 & V2). rewrite E1. cbn [bind]. rewrite !lookup_put, !lookup_del, !lookup_dels. cbn [existsb dropped String.eqb Ascii.eqb Bool.eqb orb]. rewrite E2. cbn [bind].
  eexists n, t2, _, _. split; [reflexivity|]. split; [reflexivity|]. split; [exact L2|]. split; [intros i Hi; rewrite V2, V1 by exact Hi; reflexivity|]. split; [|destruct (lookup "alpha" (ts_attrs s)) as [[]|]; reflexivity].
  intros k. rewrite !lookup_del, lookup_put, lookup_del, lookup_dels. unfold gone. cbn [existsb]. rewrite !(String.eqb_sym k). destruct (String.eqb_spec "use_bias" k) as [<-|Hu]; [cbn [String.eqb Ascii.eqb Bool.eqb orb dropped existsb]; reflexivity|].
  unfold dropped. cbn [existsb].
  repeat (match goal with |- context [String.eqb ?a k] => destruct (String.eqb a k); cbn [orb]; try reflexivity end).
Qed.
Lemma no_start k n r : (forall s, n ++ r <> k ++ s) -> String.prefix k (n ++ r) = false.
Proof. intros H. apply starts_false. intros [s E]. exact (H s E). Qed.
(** what one regular entry gives *)
Definition complete_entry (v : value) : Prop := match v with Tile s => complete s /\ exists c, ts_cfg s = Some c | Other _ => True end.
Definition migrated (hm : bool) (v v' : value) : Prop :=
  match v, v' with
  | Tile s, Tile s' => ts_attrs s' = ts_attrs s /\ exists c c', ts_cfg s = Some c /\ ts_cfg s' = Some c' /\ migrate hm c = Ok c'
  | Other x, Other y => x = y
  | _, _ => False
  end.
Lemma conv_iff layers p : NoDup (map fst layers) -> path p -> check_conv_mapped layers p = true <-> is_conv_mapped layers p.
Proof. apply conv_mapped_iff. Qed.
Lemma before_ending p x l : path p -> dotless x -> x <> "" -> ~ occurs x p -> before (x ++ ending l) (p ++ x ++ ending l) = Ok p.
Proof.
  intros Hp Hd Hx Ho. apply before_path; [exact Hp|apply dotless_app; [exact Hd|apply dotless_ending]|destruct x; [congruence|discriminate]|]. intros (a & b & E). apply Ho. exists a, (ending l ++ b). rewrite E, !app_assocs. reflexivity.
Qed.
Lemma name_ending p x l : path p -> dotless x -> last (split1 "." (p ++ x ++ ending l)) "" = x ++ ending l.
Proof. intros Hp Hd. apply name_of; [exact Hp|]. apply dotless_app; [exact Hd|apply dotless_ending]. Qed.
Lemma before_any p x : path p -> dotless x -> x <> "" -> exists q, before x (p ++ x) = Ok q.
Proof. intros. unfold before. destruct (String.eqb_spec x ""); [contradiction|]. eexists. reflexivity. Qed.
Lemma eqb_ending x s l : String.eqb s (x ++ ending l) = true -> s = x ++ ending l.
Proof. apply String.eqb_eq. Qed.
Ltac nostart k z := rewrite (starts_false k z) by (let r := fresh in let E := fresh in intros [r E]; cbn in E; discriminate E).
Lemma entry_ok layers hm (chk chk' : dict) k v v' : NoDup (map fst layers) -> map fst chk' = map fst chk -> regular k v -> complete_entry v -> migrated hm v v' ->
  exists out c, convert_entry layers chk' k v' = Ok (out, c) /\ entry layers hm chk (k, v) out /\ (match v with Tile _ => c <> None | Other _ => c = None end).
Proof.
  intros Hn Hk Hr Hc Hm. unfold convert_entry. destruct Hr as [p l s Hp Ho Hl|p l x Hp Ho Ho' Hl|p x Hp Ho Ho'|p l x Hp Ho'|p x Hp Ho Ho'|p name x Hp Ho' Hd Hne Hb Hkn Hon]; destruct v' as [s'|y]; try contradiction Hm; cbv zeta.
  - destruct Hm as (Ha & c & c' & E1 & E2 & E3). rewrite name_ending, before_ending by (try assumption; try discriminate; apply dot_dec; reflexivity). cbn [bind].
    replace (String.eqb "bias" ("analog_tile_state" ++ ending l)) with false by reflexivity. cbn [andb]. rewrite starts_refl.
    rewrite (key_ending layers l "analog_tile_state" p "a" "nalog_tile_state" eq_refl) by (try assumption; nodig). cbn [bind].
    destruct (tile_ok p (check_conv_mapped layers p) l s' c' Hp Ho) as (n & t & a' & al & -> & O & L & V & S & A); [destruct Hc as [Hc _]; unfold complete in *; rewrite Ha; exact Hc|exact E2|]. cbn [bind fst snd]. rewrite Ha in *.
    eexists _, _. split; [reflexivity|]. split; [|discriminate]. eapply e_tile; try eassumption. apply conv_iff; assumption.
  - cbn in Hm. subst y. rewrite name_ending, before_ending by (try assumption; try discriminate; apply dot_dec; reflexivity). cbn [bind].
    replace (String.eqb "bias" ("analog_ctx" ++ ending l)) with false by reflexivity. cbn [andb]. nostart "analog_tile_state" ("analog_ctx" ++ ending l). nostart "analog_out_scaling_alpha" ("analog_ctx" ++ ending l). nostart "analog_shared_weights" ("analog_ctx" ++ ending l). rewrite starts_refl.
    rewrite (key_ending layers l "analog_ctx" p "a" "nalog_ctx" eq_refl) by (try assumption; nodig). cbn [bind]. eexists _, _. split; [reflexivity|]. split; [|reflexivity]. apply e_ctx; try assumption. apply conv_iff; assumption.
  - cbn in Hm. subst y. rewrite name_of, before_path by (try assumption; try discriminate; apply dot_dec; reflexivity). cbn [bind].
    replace (String.eqb "bias" "analog_out_scaling_alpha") with false by reflexivity. replace (String.prefix "analog_tile_state" "analog_out_scaling_alpha") with false by reflexivity. replace (String.prefix "analog_out_scaling_alpha" "analog_out_scaling_alpha") with true by reflexivity. cbn [andb].
    change (after_last "analog_" "analog_out_scaling_alpha" ++ "_0") with ("out_scaling_alpha" ++ ending [0%nat]). rewrite (key_ending layers [0%nat] "out_scaling_alpha" p "o" "ut_scaling_alpha" eq_refl) by (try (left; reflexivity); nodig). cbn [bind]. eexists _, _. split; [reflexivity|]. split; [|reflexivity]. apply e_scale. exact Hp.
  - cbn in Hm. subst y. rewrite name_ending by (try assumption; apply dot_dec; reflexivity). destruct (before_any p ("analog_shared_weights" ++ ending l) Hp) as [q ->]; [apply dotless_app; [apply dot_dec; reflexivity|apply dotless_ending]|discriminate|]. cbn [bind].
    replace (String.eqb "bias" ("analog_shared_weights" ++ ending l)) with false by reflexivity. cbn [andb]. nostart "analog_tile_state" ("analog_shared_weights" ++ ending l). nostart "analog_out_scaling_alpha" ("analog_shared_weights" ++ ending l). rewrite starts_refl.
    eexists _, _. split; [reflexivity|]. split; [|reflexivity]. apply e_shared. exact Hp.
  - cbn in Hm. subst y. rewrite name_of, before_path by (try assumption; try discriminate; apply dot_dec; reflexivity). cbn [bind]. rewrite String.eqb_refl. cbn [andb].
    destruct (existsb (fun q => String.prefix (p ++ "analog_tile_state") (fst q)) chk') eqn:X.
    + eexists _, _. split; [reflexivity|]. split; [|reflexivity]. replace (if check_conv_mapped layers p then p ++ "bias" else p ++ "analog_module." ++ "bias") with (p ++ (if check_conv_mapped layers p then "bias" else "analog_module.bias")) by (destruct (check_conv_mapped layers p); reflexivity).
      apply e_bias; [exact Hp|apply conv_iff; assumption|]. apply existsb_exists in X. destruct X as ([k' v'] & Hi & X). cbn in X. apply starts_iff in X. destruct X as [r E]. rewrite app_assocs in E. assert (Hi' : In k' (map fst chk)) by (rewrite <- Hk; apply in_map_iff; exists (k', v'); auto). apply in_map_iff in Hi'. destruct Hi' as ([k2 v2] & E2 & Hi'). cbn in E2. subst k2. exists k', v2. split; [exact Hi'|]. exists r. exact E.
    + replace (String.prefix "analog_tile_state" "bias") with false by reflexivity. replace (String.prefix "analog_out_scaling_alpha" "bias") with false by reflexivity. replace (String.prefix "analog_shared_weights" "bias") with false by reflexivity. replace (String.prefix "analog_ctx" "bias") with false by reflexivity.
      eexists _, _. split; [reflexivity|]. split; [|reflexivity]. apply e_digital; [exact Hp|]. intros k2 v2 Hi [r E]. assert (Hi' : In k2 (map fst chk')) by (rewrite Hk; apply in_map_iff; exists (k2, v2); auto). apply in_map_iff in Hi'. destruct Hi' as ([k3 v3] & E3 & Hi'). cbn in E3. subst k3.
      assert (Y : existsb (fun q => String.prefix (p ++ "analog_tile_state") (fst q)) chk' = true). { apply existsb_exists. exists (k2, v3). split; [exact Hi'|]. cbn. apply starts_iff. exists r. rewrite app_assocs. exact E. } congruence.
  - cbn in Hm. subst y. rewrite name_of by assumption. destruct (before_any p name Hp Hd Hne) as [q ->]. cbn [bind]. destruct (String.eqb_spec "bias" name); [congruence|]. cbn [andb]. rewrite !starts_false by (apply Hkn; cbn; tauto).
    eexists _, _. split; [reflexivity|]. split; [|reflexivity]. apply e_other; assumption.
Qed.
Lemma reg_contains k v : regular k v -> contains "analog_tile_state" k = match v with Tile _ => true | Other _ => false end.
Proof.
  assert (D : dotless "analog_tile_state") by (apply dot_dec; reflexivity).
  assert (N : forall p q, path p -> ~ occurs "analog_tile_state" p -> ~ occurs "analog_tile_state" q -> contains "analog_tile_state" (p ++ q) = false). { intros p q Hp H1 H2. destruct (contains "analog_tile_state" (p ++ q)) eqn:E; [|reflexivity]. apply contains_occ in E; [|discriminate]. destruct (path_occ p q _ Hp D ltac:(discriminate) H1 H2 E). }
  assert (M : forall n l, contains "analog_tile_state" n = false -> ~ occurs "analog_tile_state" (n ++ ending l)). { intros n l H O. apply (occ_ending _ "analog_tile_stat" "e" n l eq_refl) in O; [|nodig]. apply (contains_occ "analog_tile_state" n) in O; [rewrite O in H; discriminate H|discriminate]. }
  intros [p l s Hp Ho Hl|p l x Hp Ho Ho' Hl|p x Hp Ho Ho'|p l x Hp Ho'|p x Hp Ho Ho'|p name x Hp Ho' Hd Hne Hb Hkn Hon].
  - apply contains_occ; [discriminate|]. exists p, (ending l). reflexivity.
  - apply N; try assumption. apply M. reflexivity.
  - apply N; try assumption. apply occ_dec; [discriminate|reflexivity].
  - apply N; try assumption. apply M. reflexivity.
  - apply N; try assumption. apply occ_dec; [discriminate|reflexivity].
  - apply N; assumption.
Qed.
Lemma find_lookup (l : list (string * R)) n : (match find (fun p => String.eqb (fst p) n) l with Some (_, r) => Ok r | None => Raise KeyError end) = match lookup n l with Some r => Ok r | None => Raise KeyError end.
Proof. induction l as [|[m v] l IH]; [reflexivity|]. cbn. destruct (String.eqb m n); [reflexivity|exact IH]. Qed.
Lemma upgrade hm c : upgradable c -> exists c', migrate hm c = Ok c'.
Proof.
  intros H. unfold migrate. destruct (cf_inference c) eqn:E; cbn [negb]; [|eexists; reflexivity]. cbv zeta. destruct (cf_coeffs c) as [l|] eqn:F; cbn [bind]; [eexists; reflexivity|]. destruct H as [H|[H|H]]; [congruence|congruence|]. rewrite !find_lookup.
  pose proof (H "coeff0" ltac:(cbn; tauto)) as H0. pose proof (H "coeff1" ltac:(cbn; tauto)) as H1. pose proof (H "coeff2" ltac:(cbn; tauto)) as H2.
  destruct (lookup "coeff0" (cf_modifier c)) as [a|]; [|congruence]. destruct (lookup "coeff1" (cf_modifier c)) as [b|]; [|congruence]. destruct (lookup "coeff2" (cf_modifier c)) as [d|]; [|congruence]. cbn [bind]. eexists. reflexivity.
Qed.
Lemma migrate_all_ok hm (chk : dict) : (forall k v, In (k, v) chk -> regular k v /\ usable v) ->
  exists chk' cfg, migrate_all hm chk = Ok (chk', cfg) /\ Forall2 (fun a b => fst a = fst b /\ migrated hm (snd a) (snd b)) chk chk' /\ ((exists k v, In (k, v) chk /\ is_tile v) -> cfg <> None) /\ ((forall k v, In (k, v) chk -> ~ is_tile v) -> cfg = None).
Proof.
  induction chk as [|[k v] chk IH]; intros H; [exists [], None; split; [reflexivity|]; split; [constructor|]; split; [intros (? & ? & [] & _)|reflexivity]|].
  destruct IH as (chk' & cfg & E & F & C1 & C2); [intros; apply H; right; assumption|]. destruct (H k v (or_introl eq_refl)) as [Hr Hu]. cbn [migrate_all]. rewrite (reg_contains k v Hr). destruct v as [s|x].
  - destruct Hu as [_ (c & Hc & Hup)]. rewrite Hc. destruct (upgrade hm c Hup) as [c' Hm]. rewrite Hm. cbn [bind]. rewrite E. cbn [bind fst snd]. eexists _, _. split; [reflexivity|]. split; [constructor; [split; [reflexivity|]|exact F]|split].
    + cbn. split; [reflexivity|]. exists c, c'. auto.
    + intros _. destruct cfg; discriminate.
    + intros N. destruct (N k (Tile s) (or_introl eq_refl) I).
  - rewrite E. cbn [bind fst snd]. eexists _, _. split; [reflexivity|]. split; [constructor; [split; reflexivity|exact F]|split].
    + intros (k0 & v0 & [Hi|Hi] & Ht); [injection Hi as <- <-; contradiction|]. apply C1. eauto.
    + intros N. apply C2. intros k0 v0 Hi. apply (N k0). right. exact Hi.
Qed.
Lemma convert_entries_ok layers hm (chk chk' : dict) todo todo' acc cfg : NoDup (map fst layers) -> map fst chk' = map fst chk -> (forall k v, In (k, v) todo -> regular k v /\ usable v) ->
  Forall2 (fun a b => fst a = fst b /\ migrated hm (snd a) (snd b)) todo todo' ->
  exists outs d c, convert_entries layers chk' todo' acc cfg = Ok (d, c) /\ Forall2 (entry layers hm chk) todo outs /\ (forall n, lookup n d = match lookup n (rev (concat outs)) with Some v => Some v | None => lookup n acc end) /\ (cfg <> None -> c <> None) /\ ((forall k v, In (k, v) todo -> ~ is_tile v) -> c = cfg).
Proof.
  intros Hn Hk H F. revert acc cfg H. induction F as [|[k v] [k' v'] todo todo' [Ek Hm] F IH]; intros acc cfg H.
  - exists [], acc, cfg. cbn. repeat split; try constructor; auto.
  - cbn in Ek, Hm. subst k'. destruct (H k v (or_introl eq_refl)) as [Hr Hu]. destruct (entry_ok layers hm chk chk' k v v' Hn Hk Hr) as (out & c & E & He & Hc); [destruct v; cbn in *; [destruct Hu as [? (c & ? & _)]; split; [assumption|exists c; assumption]|exact I]|exact Hm|].
    cbn [convert_entries]. rewrite E. cbn [bind fst snd]. destruct (IH (fold_left (fun d p => put (fst p) (snd p) d) out acc) (match c with Some c0 => Some c0 | None => cfg end)) as (outs & d & c2 & -> & F2 & L & C & C'); [intros; apply H; right; assumption|].
    exists (out :: outs), d, c2. split; [reflexivity|]. split; [constructor; assumption|]. split; [|split].
    + intros n. rewrite L, assigned_fold. cbn [concat]. rewrite rev_app_distr, lookup_app. destruct (lookup n (rev (concat outs))); [reflexivity|]. destruct (lookup n (rev out)); reflexivity.
    + intros N. apply C. destruct c; [discriminate|exact N].
    + intros N. rewrite C' by (intros k0 v0 Hi; apply (N k0); right; exact Hi). destruct v; [destruct (N k (Tile s) (or_introl eq_refl) I)|]. rewrite Hc. reflexivity.
Qed.
Lemma has_mapped_iff layers : existsb (fun p => contains "Mapped" (snd p)) layers = true <-> mapped_model layers.
Proof.
  rewrite existsb_exists. split.
  - intros ([n c] & Hi & Hc). cbn in Hc. apply contains_occ in Hc; [|discriminate]. exists n, c. auto.
  - intros (n & c & Hi & Hc). exists (n, c). split; [exact Hi|]. cbn. apply contains_occ; [discriminate|exact Hc].
Qed.
Lemma fst_migrated hm (chk chk' : dict) : Forall2 (fun a b => fst a = fst b /\ migrated hm (snd a) (snd b)) chk chk' -> map fst chk' = map fst chk.
Proof. induction 1 as [|a b l l' [E _] _ IH]; cbn; congruence. Qed.
Lemma not_new (chk : dict) : (forall k v, In (k, v) chk -> ~ occurs "analog_model.analog_tile_state" k) -> find (fun p => contains "analog_model.analog_tile_state" (fst p)) chk = None.
Proof. intros H. destruct (find _ chk) as [[k v]|] eqn:E; [|reflexivity]. apply find_some in E. destruct E as [Hi E]. cbn in E. apply contains_occ in E; [|discriminate]. destruct (H k v Hi E). Qed.
(** a legacy checkpoint with the documented names, for a model: every entry becomes what it should, and the new checkpoint
    has exactly these *)
Theorem C191_converted (chk : dict) layers hm : NoDup (map fst layers) -> (hm = true <-> mapped_model layers) -> (forall k v, In (k, v) chk -> regular k v /\ usable v) -> (exists k v, In (k, v) chk /\ is_tile v) ->
  (forall k v, In (k, v) chk -> ~ occurs "analog_model.analog_tile_state" k) ->
  exists new c outs, convert_legacy chk (Some layers) = Ok (new, c, negb hm) /\ Forall2 (entry layers hm chk) chk outs /\ assigned new (concat outs).
Proof.
  intros Hn Hh H Ht Hnew. unfold convert_legacy. cbv zeta. replace (existsb (fun p => contains "Mapped" (snd p)) layers) with hm. 2:{ destruct (existsb _ layers) eqn:E, hm; try reflexivity; [apply has_mapped_iff in E; apply Hh in E; discriminate E|]. assert (T : mapped_model layers) by (apply Hh; reflexivity). apply has_mapped_iff in T. congruence. }
  rewrite not_new by exact Hnew. destruct (migrate_all_ok hm chk H) as (chk' & cfg & -> & F & C1 & _). cbn [bind fst snd].
  destruct (convert_entries_ok layers hm chk chk' chk chk' [] cfg Hn (fst_migrated _ _ _ F) H F) as (outs & d & c & -> & F2 & L & C & _). cbn [bind fst snd]. specialize (C (C1 Ht)). destruct c as [c|]; [|congruence]. exists d, c, outs. split; [reflexivity|]. split; [exact F2|]. intros n. rewrite L. destruct (lookup n (rev (concat outs))); reflexivity.
Qed.
(** with different new names, each new entry is found *)
Theorem C191_found new l k v : assigned new l -> NoDup (map fst l) -> In (k, v) l -> lookup k new = Some v.
Proof.
  intros A N Hi. rewrite A. assert (N' : NoDup (map fst (rev l))) by (rewrite map_rev; apply NoDup_rev; exact N). apply in_rev in Hi. clear A N. induction (rev l) as [|[m w] r IH]; [contradiction|]. cbn [map fst] in N'. apply NoDup_cons_iff in N'. destruct N' as [Nm Nr]. cbn. destruct Hi as [E|Hi]; [injection E as -> ->; rewrite String.eqb_refl; reflexivity|].
  destruct (String.eqb_spec m k) as [-> |]; [destruct Nm; apply in_map_iff; exists (k, v); auto|]. apply IH; assumption.
Qed.
(** ** Configurations *)
Lemma lookup_rename n old new m : old <> new -> lookup n (rename old new m) = if String.eqb old n then None else if String.eqb new n then or_else (lookup old m) (lookup new m) else lookup n m.
Proof.
  intros Hd. unfold rename. rewrite get_lookup. destruct (lookup old m) as [v|] eqn:E.
  - rewrite lookup_put, lookup_del. destruct (String.eqb_spec old n), (String.eqb_spec new n); try congruence; reflexivity.
  - cbn. destruct (String.eqb_spec old n), (String.eqb_spec new n); congruence.
Qed.
(** configurations are brought to the new names *)
Theorem C191_config hm c c' : cf_inference c = true -> migrate hm c = Ok c' -> config_ok hm c c'.
Proof.
  intros Hi. unfold migrate. rewrite Hi. cbn [negb]. cbv zeta. rewrite !find_lookup. intros H.
  set (m := match cf_mapping c with Some m => m | None => old_mapping end) in *. set (m1 := rename "weight_scaling_omega_columnwise" "weight_scaling_columnwise" m) in *.
  set (m2 := match get "learn_out_scaling_alpha" m1 with Some v => let m' := put "learn_out_scaling" v (del "learn_out_scaling_alpha" m1) in put "out_scaling_columnwise" (columnwise m') m' | None => m1 end) in *.
  assert (L1 : forall n, lookup n m1 = if String.eqb "weight_scaling_omega_columnwise" n then None else if String.eqb "weight_scaling_columnwise" n then or_else (lookup "weight_scaling_omega_columnwise" m) (lookup "weight_scaling_columnwise" m) else lookup n m) by (intros; apply lookup_rename; discriminate).
  assert (L2 : forall n, lookup n m2 = if String.eqb "learn_out_scaling_alpha" n then None else if String.eqb "learn_out_scaling" n then or_else (lookup "learn_out_scaling_alpha" m) (lookup "learn_out_scaling" m) else if String.eqb "out_scaling_columnwise" n then (if lookup "learn_out_scaling_alpha" m then or_else (lookup "weight_scaling_columnwise" m1) (Some (SBool false)) else lookup "out_scaling_columnwise" m) else lookup n m1).
  { intros n. unfold m2. rewrite get_lookup, (L1 "learn_out_scaling_alpha"). change (String.eqb "weight_scaling_omega_columnwise" "learn_out_scaling_alpha") with false. change (String.eqb "weight_scaling_columnwise" "learn_out_scaling_alpha") with false. cbv iota. destruct (lookup "learn_out_scaling_alpha" m) as [v|] eqn:E.
    - cbv zeta. rewrite !lookup_put, lookup_del. unfold columnwise. rewrite get_lookup, lookup_put, lookup_del. change (String.eqb "learn_out_scaling" "weight_scaling_columnwise") with false. change (String.eqb "learn_out_scaling_alpha" "weight_scaling_columnwise") with false. cbv iota.
      destruct (String.eqb_spec "out_scaling_columnwise" n) as [<-|N1]; [cbn; destruct (lookup "weight_scaling_columnwise" m1); reflexivity|]. destruct (String.eqb_spec "learn_out_scaling" n) as [<-|N2]; [reflexivity|]. destruct (String.eqb "learn_out_scaling_alpha" n); reflexivity.
    - destruct (String.eqb_spec "learn_out_scaling_alpha" n) as [<-|N0]; [rewrite L1; cbn; exact E|]. destruct (String.eqb_spec "learn_out_scaling" n) as [<-|N2]; [rewrite L1; reflexivity|]. destruct (String.eqb_spec "out_scaling_columnwise" n) as [<-|N1]; [rewrite L1; reflexivity|]. reflexivity. }
  clearbody m2. clearbody m1. set (m3 := if hm then m2 else put "max_output_size" (SNat 0) (put "max_input_size" (SNat 0) m2)) in *.
  assert (L3 : forall n, lookup n m3 = if (negb hm && (String.eqb "max_output_size" n || String.eqb "max_input_size" n))%bool then Some (SNat 0) else lookup n m2). { intros n. unfold m3. destruct hm; cbn [negb andb]; [reflexivity|]. rewrite !lookup_put. destruct (String.eqb "max_output_size" n); [reflexivity|]. reflexivity. }
  clearbody m3. assert (B : forall n, n <> "max_output_size" -> n <> "max_input_size" -> lookup n m3 = lookup n m2). { intros n N1 N2. rewrite L3. destruct (String.eqb_spec "max_output_size" n); [congruence|]. destruct (String.eqb_spec "max_input_size" n); [congruence|]. rewrite andb_false_r. reflexivity. }
  exists m, m3. unfold m in *.
  assert (C : exists k md, c' = {| cf_inference := true; cf_mapping := Some m3; cf_pcm := match cf_pcm c with Some (g, None) => Some (g, Some g) | p => p end; cf_pre_post := true; cf_remap := true; cf_coeffs := Some k; cf_modifier := md |} /\ (forall l, cf_coeffs c = Some l -> k = l) /\ (cf_coeffs c = None -> exists a b d, lookup "coeff0" (cf_modifier c) = Some a /\ lookup "coeff1" (cf_modifier c) = Some b /\ lookup "coeff2" (cf_modifier c) = Some d /\ k = [a; b; d])).
  { destruct (cf_coeffs c) as [l|]; cbn [bind fst snd] in H.
    - injection H as <-. exists l, (cf_modifier c). split; [reflexivity|]. split; [congruence|discriminate].
    - destruct (lookup "coeff0" (cf_modifier c)) as [a|]; [|discriminate]. destruct (lookup "coeff1" (cf_modifier c)) as [b|]; [|discriminate]. destruct (lookup "coeff2" (cf_modifier c)) as [d|]; [|discriminate]. cbn [bind fst snd] in H. injection H as <-. eexists _, _. split; [reflexivity|]. split; [discriminate|]. intros _. exists a, b, d. auto. }
  destruct C as (k & md & -> & K1 & K2). cbn [cf_inference cf_mapping cf_pcm cf_pre_post cf_remap cf_coeffs cf_modifier].
  split; [destruct (cf_mapping c); [left; reflexivity|right; split; reflexivity]|]. split; [reflexivity|].
  split; [rewrite B, L2 by discriminate; cbn [String.eqb Ascii.eqb Bool.eqb]; rewrite L1; reflexivity|]. split; [rewrite B, L2 by discriminate; reflexivity|]. split; [rewrite B, L2 by discriminate; cbn [String.eqb Ascii.eqb Bool.eqb]; rewrite L1; reflexivity|]. split; [rewrite B, L2 by discriminate; reflexivity|].
  split; [rewrite (B "out_scaling_columnwise"), (B "weight_scaling_columnwise"), !L2 by discriminate; reflexivity|]. split; [intros ->; rewrite !L3; split; reflexivity|].
  split; [|repeat split; auto].
  - intros n N Hs. assert (N' : forall x, In x ["weight_scaling_omega_columnwise"; "learn_out_scaling_alpha"; "weight_scaling_columnwise"; "learn_out_scaling"; "out_scaling_columnwise"] -> String.eqb x n = false). { intros x Hx. destruct (String.eqb_spec x n); [subst; contradiction|reflexivity]. }
    rewrite L3. replace (negb hm && (String.eqb "max_output_size" n || String.eqb "max_input_size" n))%bool with false.
    + rewrite L2. rewrite !N' by (cbn; tauto). rewrite L1. rewrite !N' by (cbn; tauto). reflexivity.
    + destruct Hs as [-> |[S1 S2]]; [reflexivity|]. destruct (String.eqb_spec "max_output_size" n); [congruence|]. destruct (String.eqb_spec "max_input_size" n); [congruence|]. rewrite andb_false_r. reflexivity.
  - intros g E. rewrite E. reflexivity.
  - intros g r E. rewrite E. reflexivity.
  - intros l E. rewrite (K1 l E). reflexivity.
  - intros E. destruct (K2 E) as (a & b & d & E1 & E2 & E3 & ->). exists a, b, d. auto.
Qed.
Lemma put_same {A} n (v : A) d : lookup n d = Some v -> put n v d = d.
Proof. induction d as [|[m w] d IH]; [discriminate|]. cbn. destruct (String.eqb_spec m n) as [-> |]; [intros E; injection E as ->; reflexivity|]. intros E. rewrite IH by exact E. reflexivity. Qed.
(** once is enough *)
Theorem C191_config_idempotent hm c c' : migrate hm c = Ok c' -> migrate hm c' = Ok c'.
Proof.
  intros H. destruct (cf_inference c) eqn:Hi.
  - destruct (C191_config hm c c' Hi H) as (m & m' & _ & Hm & N1 & N2 & _ & _ & _ & Hs & _ & P1 & P2 & K1 & K2 & HA & HB & HC). unfold migrate. rewrite HC, Hm. cbn [negb]. cbv zeta.
    unfold rename. rewrite !get_lookup, N1, N2. assert (K : exists k, cf_coeffs c' = Some k). { destruct (cf_coeffs c) as [l|]; [exists l; apply K1; reflexivity|]. destruct (K2 eq_refl) as (a & b & d & _ & _ & _ & E). rewrite E. eauto. } destruct K as [k K]. rewrite K. cbn [bind fst snd].
    assert (Q : (if hm then m' else put "max_output_size" (SNat 0) (put "max_input_size" (SNat 0) m')) = m') by (destruct hm; [reflexivity|destruct (Hs eq_refl) as [S1 S2]; rewrite (put_same "max_input_size") by exact S1; rewrite put_same by exact S2; reflexivity]).
    assert (P : match cf_pcm c' with Some (g, None) => Some (g, Some g) | p => p end = cf_pcm c'). { destruct (cf_pcm c) as [[g [r|]]|] eqn:E; [rewrite (P2 g r eq_refl); reflexivity|rewrite (P1 g eq_refl); reflexivity|]. revert H. unfold migrate. rewrite Hi, E. cbn [negb]. cbv zeta. intros H. destruct (cf_coeffs c); cbn [bind] in H; [injection H as <-; reflexivity|]. repeat (match type of H with context [find ?f ?l] => destruct (find f l) as [[? ?]|]; cbn [bind] in H; try discriminate H end). injection H as <-. reflexivity. }
    rewrite P. destruct c' as [ci cm cp cpp cr cc cmo]; cbn in Hm, HC, HA, HB, K |- *; subst; destruct hm; [reflexivity|rewrite Q; reflexivity].
  - unfold migrate in *. rewrite Hi in H. cbn [negb] in H. injection H as <-. rewrite Hi. reflexivity.
Qed.
(** other configurations stay *)
Theorem C191_config_other hm c : cf_inference c = false -> migrate hm c = Ok c.
Proof. intros H. unfold migrate. rewrite H. reflexivity. Qed.

(** ** What goes wrong *)
(** the model is not optional *)
Theorem C192_model_refuted chk : convert_legacy chk None = Raise AttributeError.
Proof. reflexivity. Qed.
(** a checkpoint without analog tiles is an error *)
Theorem C192_no_tile_refuted (chk : dict) layers : NoDup (map fst layers) -> (forall k v, In (k, v) chk -> regular k v /\ ~ is_tile v) -> (forall k v, In (k, v) chk -> ~ occurs "analog_model.analog_tile_state" k) -> convert_legacy chk (Some layers) = Raise UnboundLocalError.
Proof.
  intros Hn H Hnew. assert (H' : forall k v, In (k, v) chk -> regular k v /\ usable v). { intros k v Hi. destruct (H k v Hi) as [Hr Ht]. split; [exact Hr|]. destruct v; [destruct (Ht I)|exact I]. }
  unfold convert_legacy. cbv zeta. rewrite not_new by exact Hnew. set (hm := existsb _ layers). destruct (migrate_all_ok hm chk H') as (chk' & cfg & -> & F & _ & C2). cbn [bind fst snd].
  destruct (convert_entries_ok layers hm chk chk' chk chk' [] cfg Hn (fst_migrated _ _ _ F) H' F) as (outs & d & c & -> & _ & _ & _ & C). cbn [bind fst snd]. rewrite C, C2 by (intros k v Hi; apply (H k v Hi)). reflexivity.
Qed.
(** a checkpoint of the new format is not left alone: the tile moves to a name that no module has, and loses its bias *)
Theorem C192_new_refuted p s layers c c' n : path p -> ~ occurs "analog_tile_state" p -> ~ occurs "analog_model" p -> ts_cfg s = Some c -> complete s -> lookup "bias" (ts_attrs s) = None ->
  lookup "out_size" (ts_attrs s) = Some (SNat n) -> migrate (existsb (fun p => contains "Mapped" (snd p)) layers) c = Ok c' ->
  exists new x s', convert_legacy [(p ++ "analog_module.analog_tile_state", Tile s)] (Some layers) = Ok (new, c', x) /\ lookup (p ++ "analog_module.analog_tile_state") new = None /\
    lookup (p ++ "analog_module.analog_module.analog_tile_state") new = Some (Tile s') /\ lookup "use_bias" (ts_attrs s') = Some (SBool false).
Proof.
  intros Hp Ho Ho2 Hc Hs Hb Hn Hm. set (k := p ++ "analog_module.analog_tile_state"). set (P := p ++ "analog_module."). assert (Ek : k = P ++ "analog_tile_state") by (unfold k, P; rewrite app_assocs; reflexivity).
  assert (HP : path P) by (apply path_app; [exact Hp|right; exists "analog_module"; reflexivity]). assert (D : dotless "analog_tile_state") by (apply dot_dec; reflexivity).
  assert (HO : ~ occurs "analog_tile_state" P) by (apply path_occ; [exact Hp|exact D|discriminate|exact Ho|apply occ_dec; [discriminate|reflexivity]]).
  unfold convert_legacy. cbv zeta. set (hm := existsb _ layers) in *. cbn [find fst].
  replace (contains "analog_model.analog_tile_state" k) with false.
  2:{ symmetry. destruct (contains "analog_model.analog_tile_state" k) eqn:E; [|reflexivity]. apply contains_occ in E; [|discriminate]. assert (O : occurs "analog_model" k). { destruct E as (a & b & E). exists a, (".analog_tile_state" ++ b). rewrite E. reflexivity. }
      exfalso. revert O. unfold k. apply path_occ; [exact Hp|apply dot_dec; reflexivity|discriminate|exact Ho2|apply occ_dec; [discriminate|reflexivity]]. }
  cbn [migrate_all]. replace (contains "analog_tile_state" k) with true by (symmetry; apply contains_occ; [discriminate|]; exists P, ""; rewrite Ek; reflexivity). rewrite Hc, Hm. cbn [bind fst snd convert_entries].
  unfold convert_entry. cbv zeta. rewrite Ek. rewrite name_of, before_path by (try assumption; discriminate). cbn [bind]. replace (String.eqb "bias" "analog_tile_state") with false by reflexivity. cbn [andb]. replace (String.prefix "analog_tile_state" "analog_tile_state") with true by reflexivity.
  replace (get_key_from_ending layers "analog_tile_state" "analog_tile_state" P) with (Ok ("analog_module." ++ "analog_tile_state")) by reflexivity. cbn [bind]. rewrite <- (app_assocs P "analog_module." "analog_tile_state").
  set (Q := P ++ "analog_module."). destruct (tile_ok P true [0%nat] {| ts_cfg := Some c'; ts_attrs := ts_attrs s |} c' HP HO Hs eq_refl) as (n' & t & a' & al & E & _ & _ & _ & S & A). cbn [ts_attrs] in S, A.
  replace (Q ++ "analog_tile_state") with (P ++ moved true [0%nat] "analog_tile_state") by (unfold Q; rewrite app_assocs; reflexivity). rewrite E. cbn [bind fst snd]. eexists _, _, _. split; [reflexivity|].
  rewrite !assigned_fold. rewrite rev_app_distr. cbn [rev app lookup].
  assert (NE : forall x y, x <> y -> String.eqb x y = false) by (intros x y H; destruct (String.eqb_spec x y); congruence).
  assert (PI : forall x y, x <> y -> P ++ x <> P ++ y). { intros x y H E'. apply H. apply (app_len_eq P x P y E'); reflexivity. }
  replace (p ++ "analog_module.analog_module.analog_tile_state") with (P ++ moved true [0%nat] "analog_tile_state") by (unfold P; rewrite app_assocs; reflexivity).
  split; [|split].
  - rewrite !NE by (apply PI; discriminate). rewrite A. destruct (lookup "alpha" (ts_attrs s)) as [[]|]; try reflexivity. cbn [rev app lookup]. rewrite NE by (apply PI; discriminate). reflexivity.
  - rewrite String.eqb_refl. reflexivity.
  - cbn [ts_attrs]. rewrite (S "use_bias"). cbn. rewrite Hb. reflexivity.
Qed.
(** a legacy checkpoint with a layer called analog_model is taken for a new one and returned as it is *)
Theorem C192_layer_refuted p r s c layers : ts_cfg s = Some c -> convert_legacy [(p ++ "analog_model.analog_tile_state" ++ r, Tile s)] (Some layers) = Ok ([(p ++ "analog_model.analog_tile_state" ++ r, Tile s)], c, negb (existsb (fun p => contains "Mapped" (snd p)) layers)).
Proof.
  intros Hc. unfold convert_legacy. cbv zeta. cbn [find fst]. replace (contains "analog_model.analog_tile_state" (p ++ "analog_model.analog_tile_state" ++ r)) with true by (symmetry; apply contains_occ; [discriminate|]; exists p, r; reflexivity). destruct s as [sc sa]. cbn in Hc. subst sc. reflexivity.
Qed.
(** one index other than 0 gives a name with brackets *)
Theorem C192_index_refuted layers chk p n v : path p -> ~ occurs "analog_ctx" p -> n <> 0%nat -> convert_entry layers chk (p ++ "analog_ctx" ++ ending [n]) v = Ok ([(p ++ "analog_module.analog_ctx.[" ++ str n ++ "]", v)], None).
Proof.
  intros Hp Ho Hn. unfold convert_entry. cbv zeta. rewrite name_ending, before_ending by (try assumption; try discriminate; apply dot_dec; reflexivity). cbn [bind].
  replace (String.eqb "bias" ("analog_ctx" ++ ending [n])) with false by reflexivity. cbn [andb]. nostart "analog_tile_state" ("analog_ctx" ++ ending [n]). nostart "analog_out_scaling_alpha" ("analog_ctx" ++ ending [n]). nostart "analog_shared_weights" ("analog_ctx" ++ ending [n]). rewrite starts_refl.
  unfold get_key_from_ending. rewrite (after_last_ending "analog_ctx" [n] "a" "nalog_ctx" eq_refl) by nodig. rewrite split_ending, mapM_int. cbn [bind]. destruct n; [congruence|]. reflexivity.
Qed.
(** the digital bias of a layer whose path contains "bias" keeps its old name *)
Theorem C192_bias_refuted layers chk v a b : (forall a' b', a ++ "bias" ++ b ++ ".bias" = a' ++ "bias" ++ b' -> String.length a <= String.length a')%nat -> (forall k x, In (k, x) chk -> ~ exists r, k = a ++ "analog_tile_state" ++ r) ->
  convert_entry layers chk (a ++ "bias" ++ b ++ ".bias") v = Ok ([(a ++ "bias" ++ b ++ ".bias", v)], None).
Proof.
  intros H Hk. unfold convert_entry. cbv zeta. assert (N : last (split1 "." (a ++ "bias" ++ b ++ ".bias")) "" = "bias"). { change ".bias" with ("." ++ "bias"). rewrite <- !app_assocs. apply name_of; [right; eexists; reflexivity|apply dot_dec; reflexivity]. }
  rewrite N. unfold before. replace (String.eqb "bias" "") with false by reflexivity. rewrite index_first by (try exact H; discriminate). rewrite sub_app_l. cbn [bind]. rewrite String.eqb_refl.
  replace (existsb (fun q => String.prefix (a ++ "analog_tile_state") (fst q)) chk) with false. 2:{ symmetry. destruct (existsb _ chk) eqn:E; [|reflexivity]. apply existsb_exists in E. destruct E as ([k x] & Hi & E). cbn in E. apply starts_iff in E. destruct E as [r E]. rewrite app_assocs in E. destruct (Hk k x Hi). exists r. exact E. }
  reflexivity.
Qed.
(** a template given by an address is never loaded *)
Theorem C192_url_refuted r : template_path ("http" ++ r) = Raise UnboundLocalError.
Proof. destruct r; reflexivity. Qed.
Theorem C191_nontrivial : let c := {| cf_inference := true; cf_mapping := None; cf_pcm := None; cf_pre_post := false; cf_remap := true; cf_coeffs := Some []; cf_modifier := [] |} in
  let s := {| ts_cfg := Some c; ts_attrs := [("out_size", SNat 2); ("analog_ctx", STen []); ("bias", SBool true); ("noise_model", SOther 3)] |} in
  let chk := [("net.fc.analog_tile_state_0_1", Tile s); ("net.fc.bias", Other (STen [1%R])); ("out.weight", Other (SOther 7))] in
  (forall k v, In (k, v) chk -> regular k v /\ usable v) /\
  exists new c', convert_legacy chk (Some [("net.fc", "AnalogLinearMapped")]) = Ok (new, c', false) /\ map fst new = ["net.fc.analog_module.array.0.1.mapping_scales"; "net.fc.analog_module.array.0.1.analog_tile_state"; "net.fc.analog_module.bias"; "out.weight"].
Proof.
  cbv zeta. split; [|eexists _, _; split; reflexivity]. intros k v [E|[E|[E|[]]]]; injection E as <- <-.
  - split; [apply (r_tile "net.fc." [0; 1]%nat); [right; exists "net.fc"; reflexivity|apply occ_dec; [discriminate|reflexivity]|right; cbn; lia]|]. split; [exists 2%nat; cbn; repeat split; eauto|]. eexists. split; [reflexivity|]. right. left. discriminate.
  - split; [|exact I]. apply (r_bias "net.fc."); [right; exists "net.fc"; reflexivity|apply occ_dec; [discriminate|reflexivity]|apply occ_dec; [discriminate|reflexivity]].
  - split; [|exact I]. apply (r_other "out." "weight"); [right; exists "out"; reflexivity|apply occ_dec; [discriminate|reflexivity]|apply dot_dec; reflexivity|discriminate|discriminate| |apply occ_dec; [discriminate|reflexivity]].
    intros k [<-|[<-|[<-|[<-|[]]]]] [r E]; discriminate.
Qed.

Print Assumptions C191_converted.
Print Assumptions C191_found.
Print Assumptions C191_config.
Print Assumptions C191_config_idempotent.
Print Assumptions C191_config_other.
Print Assumptions C192_model_refuted.
Print Assumptions C192_no_tile_refuted.
Print Assumptions C192_new_refuted.
Print Assumptions C192_layer_refuted.
Print Assumptions C192_index_refuted.
Print Assumptions C192_bias_refuted.
Print Assumptions C192_url_refuted.
Print Assumptions C191_nontrivial.
