(** * Building configurations (C187) *)
From Verif Require Import Prelude CfgModel CfgProps BldModel BldSpec.
Local Open Scope string_scope.

Lemma bindH_ok {A B} (m : HM A) (f : A -> HM B) h b h' : bindH m f h = Ok (b, h') -> exists a h1, m h = Ok (a, h1) /\ f a h1 = Ok (b, h').
Proof. unfold bindH. destruct (m h) as [[a h1]|]; [eauto | discriminate]. Qed.
Lemma bindH_eq {A B} (m : HM A) (f : A -> HM B) h a h1 : m h = Ok (a, h1) -> bindH m f h = f a h1.
Proof. unfold bindH. intros ->. reflexivity. Qed.
Lemma bindH_fail {A B} (m : HM A) (f : A -> HM B) h x : m h = Raise x -> bindH m f h = Raise x.
Proof. unfold bindH. intros ->. reflexivity. Qed.
Lemma get_put o n v m : get (put o n v) m = if String.eqb n m then Some v else get o m.
Proof.
  induction o as [|[k w] r IH]; cbn [put get]; [reflexivity|]. destruct (String.eqb k n) eqn:E; cbn [get].
  - apply String.eqb_eq in E. subst k. destruct (String.eqb n m); reflexivity.
  - rewrite IH. destruct (String.eqb k m) eqn:E1, (String.eqb n m) eqn:E2; try reflexivity. apply String.eqb_eq in E1, E2. subst. rewrite String.eqb_refl in E. discriminate.
Qed.
Lemma get_update o kw n : ~ In n (map fst kw) -> get (update o kw) n = get o n.
Proof. revert o. induction kw as [|[k v] kw IH]; intros o H; [reflexivity|]. unfold update. cbn [fold_left]. fold (update (put o (fst (k, v)) (snd (k, v))) kw). rewrite IH; [|intros Hi; apply H; now right]. cbn [fst snd]. rewrite get_put. destruct (String.eqb k n) eqn:E; [apply String.eqb_eq in E; subst; exfalso; apply H; now left | reflexivity]. Qed.
Lemma make_ext g kw h X a h1 : valid g h -> make g kw (h ++ X)%list = Ok (a, h1) -> a = (length h + length X)%nat /\ h1 = (h ++ (X ++ [update (wanted g h) kw]))%list.
Proof.
  intros V H. destruct g as [d|b|]; cbn [make] in H; [|..| discriminate].
  - destruct (forallb _ kw); [|discriminate]. injection H as <- <-. rewrite app_length, app_assoc. auto.
  - unfold alloc in H. injection H as <- <-. cbn [valid wanted] in *. rewrite app_nth1 by exact V. rewrite app_length, app_assoc. auto.
Qed.
Lemma makes_ext g n h : valid g h -> forall X l h1, makes g n (h ++ X)%list = Ok (l, h1) -> l = seq (length h + length X) n /\ h1 = (h ++ (X ++ repeat (update (wanted g h) []) n))%list.
Proof.
  intros V. induction n as [|n IH]; intros X l h1 H; cbn [makes] in H.
  - injection H as <- <-. cbn. now rewrite app_nil_r.
  - apply bindH_ok in H as (a & h2 & Ha & H). apply make_ext in Ha as (-> & ->); [|exact V]. apply bindH_ok in H as (r & h3 & Hr & H). apply IH in Hr as (-> & ->). injection H as <- <-. cbn [seq repeat]. rewrite app_length. cbn [length]. split; [f_equal; f_equal; lia|]. now rewrite <- !app_assoc.
Qed.
(** settings of the parts, by algorithm *)
Definition dev_kw (a : alg) (n s : Z) : attrs := match a with MixedP => seed s | Sgd => if Z.eqb n 1 then seed s else [] | _ => [] end.
Definition n_dev (a : alg) (n : Z) : nat := match a with MixedP => 1 | Sgd => Z.to_nat n | _ => 2 end.
Definition tf_kw (a : alg) : attrs := match a with Agad => [] | _ => no_management end.
Definition tu_kw (a : alg) : attrs := match a with TikiTaka => [] | Agad => transfer_pulse true | _ => transfer_pulse false end.
Definition up_kw (a : alg) : attrs := match a with TTv2 | ChoppedTTv2 | Agad => [("desired_bl", VInt 5)] | _ => [] end.
Definition has_transfer (a : alg) : bool := match a with Sgd | MixedP => false | _ => true end.
Definition layout (a : alg) (n s : Z) (d io up : attrs) : list attrs :=
  (repeat (update d (dev_kw a n s)) (n_dev a n) ++ (if has_transfer a then [update io (tf_kw a); update up (tu_kw a)] else []) ++ [update io []; update io []; update up (up_kw a)])%list.
Lemma mem1 s l : mem s l = true -> In s l. Proof. apply mem_In. Qed.
Ltac St := split; [reflexivity|]; intros q; cbn [In app seed settings]; split; intros K; repeat (destruct K as [K|K]; [subst q; auto 8|]); try contradiction; subst; auto 8.
Lemma build_inv F name device io up n s kw h r h' : valid device h -> valid io h -> valid up h -> build F name device io up n s kw h = Ok (r, h') ->
  exists a, named (lower name) a /\ r_class r = class_of a n /\ device_of a n s (r_device r) /\ r_other r = kw /\
    h' = (h ++ layout a n s (wanted device h) (wanted io h) (wanted up h))%list /\ parts r = seq (length h) (length (layout a n s (wanted device h) (wanted io h) (wanted up h))) /\
    length (devices (r_device r)) = n_dev a n /\ (length (transfers (r_device r)) = if has_transfer a then 1 else 0)%nat.
Proof.
  intros Vd Vi Vu H. unfold build in H. rewrite <- (app_nil_r h) in H.
  assert (Fin : forall cls d uu X r h', bindH (make io []) (fun f => bindH (make io []) (fun b => bindH (make up uu) (fun u => config F cls d f b u kw))) (h ++ X)%list = Ok (r, h') ->
    r = {| r_class := cls; r_device := d; r_forward := length h + length X; r_backward := S (length h + length X); r_update := S (S (length h + length X)); r_other := kw |} /\ h' = (h ++ (X ++ [update (wanted io h) []; update (wanted io h) []; update (wanted up h) uu]))%list).
  { clear -Vi Vu. intros cls d uu X r h' H. apply bindH_ok in H as (f & h1 & Hf & H). apply make_ext in Hf as (-> & ->); [|exact Vi]. apply bindH_ok in H as (b & h2 & Hb & H). apply make_ext in Hb as (-> & ->); [|exact Vi]. apply bindH_ok in H as (u & h3 & Hu & H). apply make_ext in Hu as (-> & ->); [|exact Vu]. unfold config in H. destruct (existsb _ kw); [discriminate|]. destruct (forallb _ kw); [|discriminate]. injection H as <- <-. rewrite !app_length. cbn [length]. split; [f_equal; lia|]. now rewrite <- !app_assoc. }
  assert (Tr : forall cls tf tu own X d h', bindH (make device []) (fun a => bindH (make device []) (fun b => bindH (make io tf) (fun f => bindH (make up tu) (fun u => retH (Compound cls (own ++ seed s)%list [a; b] (Some (f, u))))))) (h ++ X)%list = Ok (d, h') ->
    let m := (length h + length X)%nat in d = Compound cls (own ++ seed s)%list [m; S m] (Some (S (S m), S (S (S m)))) /\ h' = (h ++ (X ++ [update (wanted device h) []; update (wanted device h) []; update (wanted io h) tf; update (wanted up h) tu]))%list).
  { clear -Vd Vi Vu. intros cls tf tu own X d h' H m. apply bindH_ok in H as (a & h1 & Ha & H). apply make_ext in Ha as (-> & ->); [|exact Vd]. apply bindH_ok in H as (b & h2 & Hb & H). apply make_ext in Hb as (-> & ->); [|exact Vd]. apply bindH_ok in H as (f & h3 & Hf & H). apply make_ext in Hf as (-> & ->); [|exact Vi]. apply bindH_ok in H as (u & h4 & Hu & H). apply make_ext in Hu as (-> & ->); [|exact Vu]. injection H as <- <-. rewrite !app_length. cbn [length]. subst m. split; [|now rewrite <- !app_assoc]. repeat (f_equal; try lia). }
  destruct (mem (lower name) ["sgd"]) eqn:E1.
  { apply mem1 in E1. cbn [In] in E1. destruct E1 as [E1|[]]. exists Sgd. rewrite <- E1. split; [constructor|]. unfold layout, class_of, dev_kw, n_dev, has_transfer. destruct (Z.eqb n 1) eqn:En.
    - apply bindH_ok in H as (a & h1 & Ha & H). apply make_ext in Ha as (-> & ->); [|exact Vd]. apply Fin in H as (-> & ->). apply Z.eqb_eq in En. subst n. change (Z.to_nat 1) with 1%nat. cbn. repeat split. repeat (f_equal; try lia).
    - apply bindH_ok in H as (l & h1 & Ha & H). apply makes_ext in Ha as (-> & ->); [|exact Vd]. apply Fin in H as (-> & ->). apply Z.eqb_neq in En. cbn [r_class r_device r_other device_of devices transfers length app]. cbn [app length]. rewrite seq_length. split; [reflexivity|]. split; [repeat split; auto; cbn [In settings app seed]; intuition congruence|]. split; [reflexivity|]. split; [reflexivity|]. split; [|auto]. unfold parts. cbn [r_device devices transfers flat_map app r_forward r_backward r_update length]. rewrite !app_length, repeat_length. cbn [length]. rewrite Nat.add_0_r, seq_app. f_equal; cbn [seq]; repeat (f_equal; try lia). }
  assert (D : forall a cls tf tu own uu, (bindH (bindH (make device []) (fun a => bindH (make device []) (fun b => bindH (make io tf) (fun f => bindH (make up tu) (fun u => retH (Compound cls (own ++ seed s)%list [a; b] (Some (f, u)))))))) (fun d => bindH (make io []) (fun f => bindH (make io []) (fun b => bindH (make up uu) (fun u => config F "UnitCellRPUConfig" d f b u kw))))) (h ++ [])%list = Ok (r, h') ->
    dev_kw a n s = [] -> n_dev a n = 2%nat -> has_transfer a = true -> tf_kw a = tf -> tu_kw a = tu -> up_kw a = uu -> named (lower name) a -> class_of a n = "UnitCellRPUConfig" -> (forall x y z, device_of a n s (Compound cls (own ++ seed s)%list [x; y] (Some z))) ->
    named (lower name) a /\ r_class r = class_of a n /\ device_of a n s (r_device r) /\ r_other r = kw /\
    h' = (h ++ layout a n s (wanted device h) (wanted io h) (wanted up h))%list /\ parts r = seq (length h) (length (layout a n s (wanted device h) (wanted io h) (wanted up h))) /\
    length (devices (r_device r)) = n_dev a n /\ (length (transfers (r_device r)) = if has_transfer a then 1 else 0)%nat).
  { intros a cls tf tu own uu HH D1 D2 D3 D4 D5 D6 Nm Cl Dv. apply bindH_ok in HH as (d & h1 & Hd & HH). apply Tr in Hd as (-> & ->). apply Fin in HH as (-> & ->). cbn [r_class r_device r_other]. rewrite D3, D2, Cl. split; [exact Nm|]. split; [reflexivity|]. split; [apply Dv|]. unfold layout. rewrite D1, D2, D3, D4, D5, D6. cbn. repeat split. repeat (f_equal; try lia). }
  destruct (mem (lower name) ["tiki-taka"; "tt"; "ttv1"]) eqn:E2.
  { exists TikiTaka. apply mem1 in E2. cbn [In] in E2. eapply D; try exact H; try reflexivity; [destruct E2 as [<-|[<-|[<-|[]]]]; constructor | intros; cbn; St]. }
  destruct (mem (lower name) ["ttv2"]) eqn:E3.
  { exists TTv2. apply mem1 in E3. cbn [In] in E3. eapply D; try exact H; try reflexivity; [destruct E3 as [<-|[]]; constructor | intros; cbn; St]. }
  destruct (mem (lower name) ["chopped-ttv2"; "ttv3"; "c-ttv2"]) eqn:E4.
  { exists ChoppedTTv2. apply mem1 in E4. cbn [In] in E4. eapply D; try exact H; try reflexivity; [destruct E4 as [<-|[<-|[<-|[]]]]; constructor | intros; cbn; St]. }
  destruct (mem (lower name) ["agad"; "ttv4"]) eqn:E5.
  { exists Agad. apply mem1 in E5. cbn [In] in E5. eapply D; try exact H; try reflexivity; [destruct E5 as [<-|[<-|[]]]; constructor | intros; cbn; St]. }
  destruct (mem (lower name) ["mp"; "mixed-precision"]) eqn:E6; [|discriminate].
  exists MixedP. apply mem1 in E6. cbn [In] in E6. split; [destruct E6 as [<-|[<-|[]]]; constructor|]. apply bindH_ok in H as (a & h1 & Ha & H). apply make_ext in Ha as (-> & ->); [|exact Vd]. apply Fin in H as (-> & ->). cbn. repeat split. repeat (f_equal; try lia).
Qed.

(** C187: a documented name (in any case) gives the documented configuration; other names are an ArgumentError *)
Theorem C187_config F name device io up n s kw h r h' : valid device h -> valid io h -> valid up h -> build F name device io up n s kw h = Ok (r, h') ->
  exists a, named (lower name) a /\ r_class r = class_of a n /\ device_of a n s (r_device r) /\ r_other r = kw.
Proof. intros V1 V2 V3 H. destruct (build_inv _ _ _ _ _ _ _ _ _ _ _ V1 V2 V3 H) as (a & N & C & D & O & _). eauto. Qed.
Theorem C187_unknown F name device io up n s kw h : (forall a, ~ named (lower name) a) -> build F name device io up n s kw h = Raise ArgumentError.
Proof.
  intros H. unfold build.
  assert (K : forall l, (forall x, In x l -> exists a, named x a) -> mem (lower name) l = false). { intros l Hl. destruct (mem (lower name) l) eqn:E; [|reflexivity]. apply mem1 in E. destruct (Hl _ E) as (a & Ha). destruct (H a Ha). }
  rewrite !K; [reflexivity | ..]; intros x Hx; cbn [In] in Hx; repeat (destruct Hx as [<-|Hx]; [eexists; constructor|]); destruct Hx.
Qed.
(** the parts are new objects, no two the same, and the user's objects are left as they are *)
Theorem C187_fresh F name device io up n s kw h r h' : valid device h -> valid io h -> valid up h -> build F name device io up n s kw h = Ok (r, h') ->
  NoDup (parts r) /\ (forall a, In a (parts r) -> (length h <= a < length h')%nat) /\ firstn (length h) h' = h.
Proof.
  intros V1 V2 V3 H. destruct (build_inv _ _ _ _ _ _ _ _ _ _ _ V1 V2 V3 H) as (a & _ & _ & _ & _ & -> & -> & _). split; [apply seq_NoDup|]. split; [intros x Hx; apply in_seq in Hx; rewrite app_length; lia|]. rewrite firstn_app, Nat.sub_diag, firstn_all. cbn. apply app_nil_r.
Qed.
Lemma same_update h X i o kw names : nth_error X i = Some (update o kw) -> (forall n, In n (map fst kw) -> In n names) -> same_but names (h ++ X)%list (length h + i) o.
Proof. intros H N. exists (update o kw). split; [rewrite nth_error_app2 by lia; replace (length h + i - length h)%nat with i by lia; exact H|]. intros n Hn. apply get_update. intros Hi. apply Hn. now apply N. Qed.
Lemma layout_parts a n s d io up (l : list nat) r m : parts r = seq m (length (layout a n s d io up)) -> length (devices (r_device r)) = n_dev a n -> (length (transfers (r_device r)) = if has_transfer a then 1 else 0)%nat ->
  devices (r_device r) = seq m (n_dev a n) /\ (forall p, In p (transfers (r_device r)) -> has_transfer a = true /\ p = (m + n_dev a n, m + n_dev a n + 1)%nat) /\
  let c := (m + n_dev a n + (if has_transfer a then 2 else 0))%nat in r_forward r = c /\ r_backward r = (c + 1)%nat /\ r_update r = (c + 2)%nat.
Proof.
  intros P L1 L2. unfold layout in P. rewrite !app_length, repeat_length in P. unfold parts in P. rewrite seq_app in P.
  assert (Inj : forall (A B C D : list nat), length A = length C -> (A ++ B)%list = (C ++ D)%list -> A = C /\ B = D). { clear. induction A as [|x A IH]; intros B [|y C] D L E; try discriminate; [auto|]. cbn in E. injection E as -> E. destruct (IH B C D) as (-> & ->); auto. }
  destruct (Inj _ _ _ _ (eq_trans L1 (eq_sym (seq_length _ _))) P) as (E1 & E2). split; [exact E1|]. destruct (has_transfer a); destruct (transfers (r_device r)) as [|[f u] [|]]; try discriminate; cbn [flat_map app fst snd length seq Nat.add] in E2.
  - injection E2 as -> -> -> -> ->. split; [intros p [<-|[]]; split; [reflexivity | f_equal; lia]|]. cbn [r_forward]. lia.
  - injection E2 as -> -> ->. split; [intros p []|]. lia.
Qed.
(** the parts have the user's attributes, except for the seed of devices and for what the algorithm sets *)
Theorem C187_contents F name device io up n s kw h r h' : valid device h -> valid io h -> valid up h -> build F name device io up n s kw h = Ok (r, h') ->
  (forall a, In a (devices (r_device r)) -> same_but ["construction_seed"] h' a (wanted device h)) /\
  same_but [] h' (r_forward r) (wanted io h) /\ same_but [] h' (r_backward r) (wanted io h) /\ same_but ["desired_bl"] h' (r_update r) (wanted up h) /\
  (forall f u, In (f, u) (transfers (r_device r)) -> same_but ["noise_management"; "bound_management"] h' f (wanted io h) /\ same_but ["desired_bl"; "update_bl_management"; "update_management"] h' u (wanted up h)).
Proof.
  intros V1 V2 V3 H. destruct (build_inv _ _ _ _ _ _ _ _ _ _ _ V1 V2 V3 H) as (a & _ & _ & _ & _ & -> & P & L1 & L2). destruct (layout_parts _ _ _ _ _ _ [] _ _ P L1 L2) as (E1 & E2 & E3). cbv zeta in E3. destruct E3 as (-> & -> & ->). set (d := wanted device h) in *. set (i := wanted io h) in *. set (u := wanted up h) in *.
  assert (N1 : forall j, nth_error (layout a n s d i u) (n_dev a n + j) = nth_error ((if has_transfer a then [update i (tf_kw a); update u (tu_kw a)] else []) ++ [update i []; update i []; update u (up_kw a)])%list j). { intros j. unfold layout. rewrite nth_error_app2 by (rewrite repeat_length; lia). rewrite repeat_length. f_equal. lia. }
  split; [|split; [|split; [|split]]].
  - intros x Hx. rewrite E1 in Hx. apply in_seq in Hx. replace x with (length h + (x - length h))%nat by lia. apply same_update with (kw := dev_kw a n s).
    + unfold layout. rewrite nth_error_app1 by (rewrite repeat_length; lia). apply nth_error_repeat. lia.
    + intros m Hm. destruct a; cbn [dev_kw] in Hm; try destruct (Z.eqb n 1); cbn in *; tauto.
  - rewrite <- Nat.add_assoc. apply same_update with (kw := []); [|intros ? []]. rewrite N1. destruct (has_transfer a); reflexivity.
  - rewrite <- !Nat.add_assoc. apply same_update with (kw := []); [|intros ? []]. rewrite N1. destruct (has_transfer a); reflexivity.
  - rewrite <- !Nat.add_assoc. apply same_update with (kw := up_kw a); [rewrite N1; destruct (has_transfer a); reflexivity | intros m Hm; destruct a; cbn in *; tauto].
  - intros f g Hp. apply E2 in Hp as (Ht & E). injection E as -> ->. split.
    + apply same_update with (kw := tf_kw a); [rewrite <- (Nat.add_0_r (n_dev a n)), N1, Ht; reflexivity | intros m Hm; destruct a; cbn in *; tauto].
    + rewrite <- Nat.add_assoc. apply same_update with (kw := tu_kw a); [rewrite N1, Ht; reflexivity | intros m Hm; destruct a; cbn in *; tauto].
Qed.
Lemma same_with_update h X i o kw st : nth_error X i = Some (update o kw) -> NoDup (map fst kw) -> kw = st -> same_with st (h ++ X)%list (length h + i) o.
Proof.
  intros H N <-. exists (update o kw). split; [rewrite nth_error_app2 by lia; replace (length h + i - length h)%nat with i by lia; exact H|]. split; [|intros n Hn; now apply get_update].
  clear H. revert o N. induction kw as [|[k v] kw IH]; intros o N n w Hi; [destruct Hi|]. inversion N as [|? ? N1 N2]; subst. unfold update. cbn [fold_left fst snd]. fold (update (put o k v) kw). destruct Hi as [Hi|Hi]; [|now apply IH].
  injection Hi as <- <-. rewrite get_update by exact N1. rewrite get_put, String.eqb_refl. reflexivity.
Qed.
(** ... and exactly the documented settings *)
Theorem C187_settings F name device io up n s kw h r h' a : valid device h -> valid io h -> valid up h -> build F name device io up n s kw h = Ok (r, h') -> named (lower name) a ->
  device_of a n s (r_device r) /\ same_with (update_settings a) h' (r_update r) (wanted up h) /\
  (forall f u, In (f, u) (transfers (r_device r)) -> same_with (forward_settings a) h' f (wanted io h) /\ same_with (transfer_settings a) h' u (wanted up h)).
Proof.
  intros V1 V2 V3 H N. destruct (build_inv _ _ _ _ _ _ _ _ _ _ _ V1 V2 V3 H) as (a' & N' & _ & Dv & _ & -> & P & L1 & L2). assert (a' = a) by (clear -N N'; set (z := lower name) in *; clearbody z; destruct N; inversion N'; reflexivity). subst a'.
  destruct (layout_parts _ _ _ _ _ _ [] _ _ P L1 L2) as (E1 & E2 & E3). cbv zeta in E3. destruct E3 as (_ & _ & ->). split; [exact Dv|]. set (d := wanted device h) in *. set (i := wanted io h) in *. set (u := wanted up h) in *.
  assert (N1 : forall j, nth_error (layout a n s d i u) (n_dev a n + j) = nth_error ((if has_transfer a then [update i (tf_kw a); update u (tu_kw a)] else []) ++ [update i []; update i []; update u (up_kw a)])%list j). { intros j. unfold layout. rewrite nth_error_app2 by (rewrite repeat_length; lia). rewrite repeat_length. f_equal. lia. }
  split.
  - rewrite <- !Nat.add_assoc. apply same_with_update with (kw := up_kw a); [rewrite N1; destruct (has_transfer a); reflexivity| |destruct a; reflexivity]. destruct a; repeat (constructor; [cbn; intuition discriminate|]); constructor.
  - intros f g Hp. apply E2 in Hp as (Ht & E). injection E as -> ->. split.
    + apply same_with_update with (kw := tf_kw a); [rewrite <- (Nat.add_0_r (n_dev a n)), N1, Ht; reflexivity| |destruct a; try discriminate; reflexivity]. destruct a; repeat (constructor; [cbn; intuition discriminate|]); constructor.
    + rewrite <- Nat.add_assoc. apply same_with_update with (kw := tu_kw a); [rewrite N1, Ht; reflexivity| |destruct a; try discriminate; reflexivity]. destruct a; repeat (constructor; [cbn; intuition discriminate|]); constructor.
Qed.
(** Refuted: that the construction seed of the user's device is kept: with one device it is replaced by the argument (by
    default 0); in a compound it is kept *)
Theorem C187_seed_refuted F name device io up s kw h r h' : valid device h -> valid io h -> valid up h -> build F name device io up 1 s kw h = Ok (r, h') -> forall x, In x (devices (r_device r)) ->
  exists o, nth_error h' x = Some o /\ get o "construction_seed" = match r_device r with Compound _ _ _ _ => get (wanted device h) "construction_seed" | _ => Some (VInt s) end.
Proof.
  intros V1 V2 V3 H x Hx. destruct (build_inv _ _ _ _ _ _ _ _ _ _ _ V1 V2 V3 H) as (a & _ & _ & Dv & _ & -> & P & L1 & L2). destruct (layout_parts _ _ _ _ _ _ [] _ _ P L1 L2) as (E1 & _). rewrite E1 in Hx. apply in_seq in Hx. exists (update (wanted device h) (dev_kw a 1 s)). split.
  - rewrite nth_error_app2 by lia. unfold layout. rewrite nth_error_app1 by (rewrite repeat_length; lia). apply nth_error_repeat. lia.
  - destruct a, (r_device r) as [y|c own [|p [|q [|]]] [[f u]|]|y]; cbn [device_of] in Dv; try contradiction; try (destruct Dv; congruence); cbn [dev_kw]; try (rewrite get_update; [reflexivity | intros []]); cbn [Z.eqb Pos.eqb update seed fold_left fst snd]; rewrite get_put; reflexivity.
Qed.
(** Refuted: that the user's update parameters are used for the update: the pulse train length is not *)
Theorem C187_update_refuted F name device io up n s kw h r h' a : valid device h -> valid io h -> valid up h -> build F name device io up n s kw h = Ok (r, h') -> named (lower name) a -> a = TTv2 \/ a = ChoppedTTv2 \/ a = Agad ->
  exists o, nth_error h' (r_update r) = Some o /\ get o "desired_bl" = Some (VInt 5).
Proof.
  intros V1 V2 V3 H N Ha. destruct (build_inv _ _ _ _ _ _ _ _ _ _ _ V1 V2 V3 H) as (a' & N' & _ & _ & _ & -> & P & L1 & L2). assert (a' = a) by (clear -N N'; set (z := lower name) in *; clearbody z; destruct N; inversion N'; reflexivity). subst a'. destruct (layout_parts _ _ _ _ _ _ [] _ _ P L1 L2) as (_ & _ & E3). cbv zeta in E3. destruct E3 as (_ & _ & ->). exists (update (wanted up h) (up_kw a)). split.
  - rewrite nth_error_app2 by lia. unfold layout. rewrite nth_error_app2 by (rewrite repeat_length; lia). rewrite repeat_length. replace (length h + n_dev a n + (if has_transfer a then 2 else 0) + 2 - length h - n_dev a n)%nat with ((if has_transfer a then 2 else 0) + 2)%nat by lia. destruct (has_transfer a); reflexivity.
  - destruct Ha as [->|[->| ->]]; cbn [up_kw update fold_left fst snd]; rewrite get_put; reflexivity.
Qed.
(** names are matched in any case *)
Theorem C187_case F name device io up n s kw h : build F (upper name) device io up n s kw h = build F name device io up n s kw h.
Proof.
  unfold build. assert (E : forall z, lower (upper z) = lower z). { induction z as [|c z IH]; [reflexivity|]. cbn [upper lower]. rewrite IH. f_equal. destruct c as [[] [] [] [] [] [] [] []]; reflexivity. }
  rewrite E. reflexivity.
Qed.
(** the number of devices matters for sgd only *)
Theorem C187_ignored F name device io up n n' s kw h a : named (lower name) a -> a <> Sgd -> build F name device io up n s kw h = build F name device io up n' s kw h.
Proof. intros N Ha. unfold build. replace (mem (lower name) ["sgd"]) with false; [reflexivity|]. destruct N; try reflexivity; congruence. Qed.
(** every documented name works with parameters of the expected classes *)
Definition makeable (g : given) (names : list string) : Prop := match g with Class d => forall n, In n names -> In n (map fst d) | Object _ => True | NotCallable => False end.
Lemma make_total g kw names h : makeable g names -> (forall n, In n (map fst kw) -> In n names) -> exists r, make g kw h = Ok r.
Proof.
  intros M N. destruct g as [d|b|]; cbn [make makeable] in *; [|unfold alloc; eauto | contradiction]. replace (forallb _ kw) with true; [unfold alloc; eauto|]. symmetry. apply forallb_forall. intros p Hp. apply mem_In. apply M, N. now apply in_map.
Qed.
Theorem C187_total F name device io up n s kw h a : named (lower name) a -> makeable device ["construction_seed"] -> makeable io ["noise_management"; "bound_management"] -> makeable up ["desired_bl"; "update_bl_management"; "update_management"] ->
  (forall m, In m (map fst kw) -> In m (F (class_of a n)) /\ ~ In m ["device"; "forward"; "backward"; "update"]) -> exists r, build F name device io up n s kw h = Ok r.
Proof.
  intros N M1 M2 M3 K.
  assert (Cfg : forall d f b u h, exists r, config F (class_of a n) d f b u kw h = Ok r). { intros d f b u h0. unfold config. replace (existsb _ kw) with false; [replace (forallb _ kw) with true; [unfold retH; eauto|]|]; symmetry; [apply forallb_forall; intros p Hp; apply mem_In; apply K; now apply in_map|]. apply not_true_iff_false. intros E. apply existsb_exists in E as (p & Hp & E). apply mem_In in E. destruct (K (fst p)) as (_ & Nf); [now apply in_map|]. contradiction. }
  assert (St : forall A B (m : HM A) (f : A -> HM B) h, (exists r, m h = Ok r) -> (forall x h', exists r, f x h' = Ok r) -> exists r, bindH m f h = Ok r). { intros A B m f h0 ([x h1] & E) G. rewrite (bindH_eq _ _ _ _ _ E). apply G. }
  assert (R : forall d uu h, (forall m, In m (map fst uu) -> In m ["desired_bl"; "update_bl_management"; "update_management"]) -> exists r, bindH (make io []) (fun f => bindH (make io []) (fun b => bindH (make up uu) (fun u => config F (class_of a n) d f b u kw))) h = Ok r).
  { intros d uu h0 Hu. apply St; [eapply make_total; [exact M2 | intros ? []]|]. intros f h1. apply St; [eapply make_total; [exact M2 | intros ? []]|]. intros b h2. apply St; [eapply make_total; [exact M3 | exact Hu]|]. intros u h3. apply Cfg. }
  assert (Mk : forall k h, exists r, makes device k h = Ok r). { induction k as [|k IH]; intros h0; cbn [makes]; [unfold retH; eauto|]. apply St; [eapply make_total; [exact M1 | intros ? []]|]. intros x h1. apply St; [apply IH|]. intros; unfold retH; eauto. }
  assert (T : forall cls tf tu own h, (forall m, In m (map fst tf) -> In m ["noise_management"; "bound_management"]) -> (forall m, In m (map fst tu) -> In m ["desired_bl"; "update_bl_management"; "update_management"]) ->
    exists r, bindH (make device []) (fun a => bindH (make device []) (fun b => bindH (make io tf) (fun f => bindH (make up tu) (fun u => retH (Compound cls (own ++ seed s)%list [a; b] (Some (f, u))))))) h = Ok r).
  { intros cls tf tu own h0 Hf Hu. apply St; [eapply make_total; [exact M1 | intros ? []]|]. intros x h1. apply St; [eapply make_total; [exact M1 | intros ? []]|]. intros y h2. apply St; [eapply make_total; [exact M2 | exact Hf]|]. intros f h3. apply St; [eapply make_total; [exact M3 | exact Hu]|]. intros; unfold retH; eauto. }
  assert (Sd : forall m, In m (map fst (seed s)) -> In m ["construction_seed"]) by (intros m Hm; exact Hm).
  unfold build. destruct N; cbn [class_of] in R; match goal with |- context [mem ?x ["sgd"]] => let y := eval vm_compute in (mem x ["sgd"]) in change (mem x ["sgd"]) with y end; cbv iota; [destruct (Z.eqb n 1); [apply St; [eapply make_total; [exact M1 | exact Sd]|]; intros; apply R; intros ? [] | apply St; [apply Mk|]; intros; apply R; intros ? []]|..];
  repeat (match goal with |- context [if mem ?x ?l then _ else _] => let y := eval vm_compute in (mem x l) in change (mem x l) with y end; cbv iota); try (apply St; [eapply make_total; [exact M1 | exact Sd]|]; intros; apply R; intros ? []);
  (apply St; [apply T; cbn; tauto|]); intros; apply R; cbn; tauto.
Qed.
(** Refuted: that any device can be given: an instance that is not a PulsedDevice (an IdealDevice, a unit cell) is called *)
Theorem C187_instance_refuted F name io up n s kw h a : named (lower name) a -> (0 < n)%Z -> build F name NotCallable io up n s kw h = Raise TypeError.
Proof.
  intros N Hn. unfold build. destruct N; match goal with |- context [mem ?x ["sgd"]] => let y := eval vm_compute in (mem x ["sgd"]) in change (mem x ["sgd"]) with y end; cbv iota; [destruct (Z.eqb n 1) eqn:E; [reflexivity|]; destruct (Z.to_nat n) as [|m] eqn:En; [lia|]; reflexivity|..]; reflexivity.
Qed.
Theorem C187_nontrivial : exists r h', build (fun _ => ["mapping"]) "TTv2" (Object 0) (Class [("noise_management", VNone); ("bound_management", VNone)]) (Class [("desired_bl", VInt 31); ("update_bl_management", VBool true); ("update_management", VBool true)]) 1 7 [] [[("construction_seed", VInt 3); ("w_max", VFloat 1)]] = Ok (r, h') /\
  parts r = [1; 2; 3; 4; 5; 6; 7]%nat /\ nth_error h' 1 = Some [("construction_seed", VInt 3); ("w_max", VFloat 1)] /\ named (lower "TTv2") TTv2 /\ (forall a, ~ named (lower "ttv5") a).
Proof. eexists _, _. repeat split; [constructor|]. intros a H. inversion H. Qed.
Print Assumptions C187_config.
Print Assumptions C187_unknown.
Print Assumptions C187_fresh.
Print Assumptions C187_contents.
Print Assumptions C187_seed_refuted.
Print Assumptions C187_update_refuted.
Print Assumptions C187_ignored.
Print Assumptions C187_total.
Print Assumptions C187_instance_refuted.

Print Assumptions C187_nontrivial.

Print Assumptions C187_case.

Print Assumptions C187_settings.
