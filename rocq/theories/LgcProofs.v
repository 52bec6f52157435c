From Coq Require Import Ascii DecimalString DecimalNat.
From Verif Require Import Prelude LgcModel LgcSpec.
Local Open Scope string_scope.

(** ** Strings *)
Lemma app_nil_rs s : s ++ "" = s. Proof. induction s; cbn; congruence. Qed.
Lemma app_assocs a b c : (a ++ b) ++ c = a ++ (b ++ c). Proof. induction a; cbn; congruence. Qed.
Lemma app_lens a b : String.length (a ++ b) = (String.length a + String.length b)%nat. Proof. induction a; cbn; congruence. Qed.
Lemma sub0 s : substring 0 (String.length s) s = s. Proof. induction s; cbn; congruence. Qed.
Lemma sub_app_l a b : substring 0 (String.length a) (a ++ b) = a. Proof. induction a; cbn; [destruct b; reflexivity|congruence]. Qed.
Lemma sub_skip a b m : substring (String.length a) m (a ++ b) = substring 0 m b. Proof. induction a; cbn; [reflexivity|assumption]. Qed.
Lemma drop_app a b : drop (String.length a) (a ++ b) = b.
Proof. unfold drop. rewrite sub_skip, app_lens. replace (String.length a + String.length b - String.length a)%nat with (String.length b) by lia. apply sub0. Qed.
Lemma sub_pre m s : exists b, s = substring 0 m s ++ b.
Proof. revert s. induction m; intros s; [exists s; destruct s; reflexivity|]. destruct s; [exists ""; reflexivity|]. cbn. destruct (IHm s) as [b E]. exists b. congruence. Qed.
Lemma sub_occ m x s : x <> "" -> substring m (String.length x) s = x -> exists a b, s = a ++ x ++ b /\ String.length a = m.
Proof.
  intros Hx. revert s. induction m; intros s H.
  - destruct (sub_pre (String.length x) s) as [b E]. rewrite H in E. exists "", b. split; [exact E|reflexivity].
  - destruct s as [|c s]; [cbn in H; congruence|]. cbn in H. destruct (IHm s H) as (a & b & E & L). exists (String c a), b. cbn. split; congruence.
Qed.
Lemma occ_sub a x b : substring (String.length a) (String.length x) (a ++ x ++ b) = x.
Proof. rewrite sub_skip. apply sub_app_l. Qed.
Lemma index_none x s : x <> "" -> index 0 x s = None <-> ~ occurs x s.
Proof.
  intros Hx. split.
  - intros H (a & b & E). assert (Hx' : x <> "") by exact Hx. refine (index_correct3 0 (String.length a) x s H Hx' _ _); [lia|]. rewrite E. apply occ_sub.
  - intros H. destruct (index 0 x s) as [m|] eqn:E; [|reflexivity]. apply index_correct1 in E. apply sub_occ in E; [|exact Hx]. destruct E as (a & b & E & _). destruct H. exists a, b. exact E.
Qed.
Lemma contains_occ x s : x <> "" -> contains x s = true <-> occurs x s.
Proof.
  intros Hx. unfold contains. destruct (index 0 x s) as [m|] eqn:E.
  - split; [|reflexivity]. intros _. apply index_correct1 in E. apply sub_occ in E; [|exact Hx]. destruct E as (a & b & E & _). exists a, b. exact E.
  - split; [discriminate|]. intros H. apply index_none in E; [contradiction|exact Hx].
Qed.
(** the first occurrence *)
Lemma index_first a x b : x <> "" -> (forall a' b', a ++ x ++ b = a' ++ x ++ b' -> String.length a <= String.length a')%nat -> index 0 x (a ++ x ++ b) = Some (String.length a).
Proof.
  intros Hx H. destruct (index 0 x (a ++ x ++ b)) as [m|] eqn:E.
  - f_equal. pose proof (index_correct1 _ _ _ _ E) as E1. apply sub_occ in E1; [|exact Hx]. destruct E1 as (a' & b' & E1 & L). specialize (H _ _ E1). destruct (Nat.eq_dec m (String.length a)); [assumption|]. exfalso. apply (index_correct2 _ _ _ _ E (String.length a)); [lia|lia|apply occ_sub].
  - apply index_none in E; [|exact Hx]. destruct E. exists a, b. reflexivity.
Qed.
Lemma app_cut a b c d : a ++ b = c ++ d -> (exists z, c = a ++ z /\ b = z ++ d) \/ (exists z, a = c ++ z /\ d = z ++ b).
Proof.
  revert c. induction a as [|x a IH]; intros c H; [left; exists c; split; [reflexivity|exact H]|]. destruct c as [|y c]; [right; exists (String x a); split; [reflexivity|symmetry; exact H]|].
  cbn in H. injection H as -> H. destruct (IH _ H) as [(z & -> & E)|(z & -> & E)]; [left|right]; exists z; cbn; auto.
Qed.
(** a dotless word occurs on one side of a dot *)
Lemma occ_dot x a b a' b' : dotless x -> x <> "" -> a ++ "." ++ b = a' ++ x ++ b' -> (exists z, a = a' ++ x ++ z) \/ (exists z, a' = a ++ "." ++ z /\ b = z ++ x ++ b').
Proof.
  intros Hd Hx H. destruct (app_cut _ _ _ _ H) as [(z & -> & E)|(z & -> & E)].
  - destruct z as [|c z]; cbn in E.
    + destruct x as [|c x]; [congruence|]. cbn in E. injection E as <- _. destruct Hd. exists "", x. reflexivity.
    + injection E as <- E. right. exists z. split; [reflexivity|exact E].
  - symmetry in E. destruct (app_cut _ _ _ _ E) as [(y & -> & E')|(y & -> & E')].
    + destruct y as [|c y]; cbn in E'.
      * left. exists "". rewrite !app_nil_rs. reflexivity.
      * injection E' as <- E'. destruct Hd. exists z, y. reflexivity.
    + left. exists y. reflexivity.
Qed.
Lemma app_len_eq a b c d : a ++ b = c ++ d -> String.length a = String.length c -> a = c /\ b = d.
Proof. revert c. induction a as [|x a IH]; intros [|y c] H L; cbn in *; try discriminate; [split; [reflexivity|exact H]|]. injection H as -> H. injection L as L. destruct (IH _ H L) as [-> ->]. split; reflexivity. Qed.
Lemma path_first p x : path p -> dotless x -> x <> "" -> ~ occurs x p -> index 0 x (p ++ x) = Some (String.length p).
Proof.
  intros Hp Hd Hx Ho. rewrite <- (app_nil_rs x) at 2. apply index_first; [exact Hx|]. intros a' b' E. rewrite app_nil_rs in E. destruct Hp as [-> |[q ->]]; [cbn; lia|].
  rewrite app_assocs in E. destruct (occ_dot x q x a' b' Hd Hx E) as [(z & ->)|(z & -> & _)].
  - destruct Ho. exists a', (z ++ "."). rewrite !app_assocs. reflexivity.
  - rewrite !app_lens. cbn. lia.
Qed.
Lemma path_occ p q x : path p -> dotless x -> x <> "" -> ~ occurs x p -> ~ occurs x q -> ~ occurs x (p ++ q).
Proof.
  intros [-> |[r ->]] Hd Hx H1 H2; [exact H2|]. intros (a & b & E). rewrite app_assocs in E. destruct (occ_dot x r q a b Hd Hx E) as [(z & ->)|(z & -> & ->)].
  - destruct H1. exists a, (z ++ "."). rewrite !app_assocs. reflexivity.
  - destruct H2. exists z, b. reflexivity.
Qed.
Lemma path_app p q : path p -> path q -> path (p ++ q).
Proof. intros Hp [-> |[r ->]]; [rewrite app_nil_rs; exact Hp|]. right. exists (p ++ r). rewrite app_assocs. reflexivity. Qed.
Lemma before_path p x : path p -> dotless x -> x <> "" -> ~ occurs x p -> before x (p ++ x) = Ok p.
Proof. intros. unfold before. destruct (String.eqb_spec x ""); [contradiction|]. rewrite path_first by assumption. rewrite sub_app_l. reflexivity. Qed.
(** ** Splitting *)
Lemma split1_ne c s : split1 c s <> [].
Proof. destruct s as [|a s]; [discriminate|]. cbn. destruct (Ascii.eqb a c); [discriminate|]. destruct (split1 c s); discriminate. Qed.
Lemma split1_app c a b : split1 c (a ++ String c b) = (removelast (split1 c a) ++ [last (split1 c a) ""] ++ split1 c b)%list.
Proof.
  induction a as [|x a IH]; cbn [append split1].
  - rewrite Ascii.eqb_refl. reflexivity.
  - destruct (Ascii.eqb x c).
    + rewrite IH. pose proof (split1_ne c a) as Hn. destruct (split1 c a) as [|h t]; [congruence|]. reflexivity.
    + rewrite IH. pose proof (split1_ne c a) as Hn. destruct (split1 c a) as [|h t]; [congruence|]. destruct t; reflexivity.
Qed.
Lemma split1_one c s : ~ occurs (String c "") s -> split1 c s = [s].
Proof.
  induction s as [|a s IH]; intros H; [reflexivity|]. cbn. destruct (Ascii.eqb_spec a c) as [-> |Hn]; [destruct H; exists "", s; reflexivity|]. rewrite IH; [reflexivity|]. intros (x & y & E). apply H. exists (String a x), y. rewrite E. reflexivity.
Qed.
Lemma last_app_ne {A} (a b : list A) d : b <> [] -> last (a ++ b) d = last b d.
Proof. intros Hb. induction a as [|x a IH]; [reflexivity|]. cbn [app last]. destruct (a ++ b)%list eqn:E; [apply app_eq_nil in E; destruct E; contradiction|exact IH]. Qed.
Lemma name_of p x : path p -> dotless x -> last (split1 "." (p ++ x)) "" = x.
Proof.
  intros [-> |[q ->]] Hd; [cbn; rewrite split1_one by exact Hd; reflexivity|]. rewrite app_assocs. change ("." ++ x) with (String "." x). rewrite split1_app. rewrite last_app_ne by discriminate. rewrite (split1_one _ _ Hd). reflexivity.
Qed.
(** ** Characters *)
Fixpoint all (P : ascii -> Prop) (s : string) : Prop := match s with "" => True | String c r => P c /\ all P r end.
Lemma all_app P a b : all P (a ++ b) <-> all P a /\ all P b.
Proof. induction a; cbn; [tauto|]. rewrite IHa. tauto. Qed.
Lemma all_occ P x s : all P s -> occurs x s -> all P x.
Proof. intros H (a & b & ->). apply all_app in H. destruct H as [_ H]. apply all_app in H. tauto. Qed.
Lemma all_mono (P Q : ascii -> Prop) s : (forall c, P c -> Q c) -> all P s -> all Q s.
Proof. intros H. induction s; cbn; [tauto|]. intros [? ?]. split; auto. Qed.
Definition digit (c : ascii) : Prop := In c ["0"; "1"; "2"; "3"; "4"; "5"; "6"; "7"; "8"; "9"]%char.
Lemma digits_uint d : all digit (NilEmpty.string_of_uint d).
Proof. induction d; cbn [NilEmpty.string_of_uint all]; [exact I|..]; (split; [unfold digit; cbn; tauto|assumption]). Qed.
Lemma str_digits n : all digit (str n).
Proof. unfold str. destruct (Nat.to_uint n) eqn:E; cbn [NilZero.string_of_uint]; try apply digits_uint. cbn. unfold digit. cbn. tauto. Qed.
Lemma str_ne n : str n <> "".
Proof. unfold str. destruct (Nat.to_uint n); discriminate. Qed.
Lemma int_str n : int (str n) = Ok n.
Proof.
  unfold int, str. rewrite NilZero.usu; [rewrite Unsigned.of_to; reflexivity|]. intros E. pose proof (Unsigned.of_to n) as O. rewrite E in O. cbn in O. subst n. discriminate.
Qed.
Lemma str_inj n m : str n = str m -> n = m.
Proof. intros E. pose proof (int_str n) as A. rewrite E, int_str in A. injection A as A. congruence. Qed.
Definition dig_us (c : ascii) : Prop := digit c \/ c = "_"%char.
Lemma ending_chars l : all dig_us (ending l).
Proof. induction l as [|n l IH]; [exact I|]. cbn [ending fold_right]. fold (ending l). cbn [append all]. split; [right; reflexivity|]. apply all_app. split; [|exact IH]. eapply all_mono; [|apply str_digits]. intros c H. left. exact H. Qed.
Lemma ending_no x l c r : x = String c r -> ~ dig_us c -> ~ occurs x (ending l).
Proof. intros -> H O. apply (all_occ dig_us) in O; [|apply ending_chars]. cbn in O. tauto. Qed.
Ltac nodig := let H := fresh in intros [H|H]; [repeat (destruct H as [H|H]; [discriminate|]); exact H|discriminate].
Lemma split_ending l : filter (fun v => negb (String.eqb v "")) (split1 "_" (ending l)) = map str l.
Proof.
  induction l as [|n l IH]; [reflexivity|]. cbn [ending fold_right]. fold (ending l). cbn [append]. cbn [split1]. rewrite Ascii.eqb_refl. cbn [filter String.eqb negb].
  assert (N : ~ occurs "_" (str n)). { intros O. apply (all_occ digit) in O; [|apply str_digits]. cbn in O. destruct O as [O _]. repeat (destruct O as [O|O]; [discriminate|]). exact O. }
  destruct l as [|m l].
  - cbn [ending fold_right]. rewrite app_nil_rs, (split1_one _ _ N). cbn [filter]. destruct (String.eqb_spec (str n) "") as [E|]; [destruct (str_ne _ E)|]. reflexivity.
  - cbn [ending fold_right] in *. fold (ending l) in *. change ("_" ++ (str m ++ ending l)) with (String "_" (str m ++ ending l)) in *. rewrite split1_app, (split1_one _ _ N). cbn [removelast last app filter].
    destruct (String.eqb_spec (str n) "") as [E|]; [destruct (str_ne _ E)|]. cbn [negb map]. f_equal. cbn [split1] in IH. rewrite Ascii.eqb_refl in IH. cbn [filter String.eqb negb] in IH. exact IH.
Qed.
Lemma mapM_int l : mapM int (map str l) = Ok l.
Proof. induction l as [|n l IH]; [reflexivity|]. cbn [map mapM]. rewrite int_str. cbn [bind]. rewrite IH. reflexivity. Qed.
Lemma after_last_ending x l c r : x = String c r -> ~ dig_us c -> after_last x (x ++ ending l) = ending l.
Proof.
  intros E H. assert (Hx : x <> "") by (rewrite E; discriminate). unfold after_last. cbn [after_last_]. replace (index 0 x (x ++ ending l)) with (Some 0%nat) by (symmetry; apply (index_first "" x (ending l) Hx); intros; cbn; lia). cbn [Nat.add]. rewrite drop_app.
  destruct (String.length (x ++ ending l)); cbn [after_last_]; [reflexivity|]. rewrite (proj2 (index_none x _ Hx)); [reflexivity|]. eapply ending_no; eassumption.
Qed.
Lemma replace_path p x rep : path p -> dotless x -> x <> "" -> ~ occurs x p -> replace x rep (p ++ x) = p ++ rep.
Proof.
  intros. unfold replace. cbn [replace_]. rewrite path_first by assumption. rewrite sub_app_l. rewrite <- app_lens. f_equal. replace (drop (String.length (p ++ x)) (p ++ x)) with "" by (rewrite <- (app_nil_rs (p ++ x)) at 2; rewrite drop_app; reflexivity). transitivity (rep ++ ""); [|apply app_nil_rs]. f_equal. destruct (String.length (p ++ x)); cbn [replace_]; [reflexivity|].
  rewrite (proj2 (index_none x "" H1)); [reflexivity|]. intros (a & b & E). destruct a; [destruct x; [congruence|discriminate]|discriminate].
Qed.
Lemma dot_dec x : contains "." x = false -> dotless x.
Proof. intros H O. apply contains_occ in O; [congruence|discriminate]. Qed.
Lemma occ_dec x s : x <> "" -> contains x s = false -> ~ occurs x s.
Proof. intros Hx H O. apply contains_occ in O; [congruence|exact Hx]. Qed.
