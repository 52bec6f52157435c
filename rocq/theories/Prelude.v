(** * Prelude: shared vocabulary of the model

    - Python exceptions are values: every modelled function that can raise
      returns [res A].
    - Real-valued tensors are modelled over Coq's [R] (no float rounding, no
      NaN/Inf; see DESIGN.md "Trusted base").  A 1-d tensor is [list R], a 2-d
      tensor is a list of rows.
    - torch's [round] is round-half-to-even ([rhe] below), [floor]/[trunc] are
      derived from [Int_part]. *)
From Coq Require Export String.
From Coq Require Export Arith ZArith Lia Reals Lra Bool List.
From Coq Require Export RIneq.
Export ListNotations.
Open Scope R_scope.

(** ** Exceptions as values *)
Inductive exn : Type :=
| ValueError | TypeError | AttributeError | ZeroDivisionError | IndexError
| KeyError | RuntimeError | UnboundLocalError | NotImplementedError
| AssertionError
| TileError | TileModuleError | ModuleError | ConfigError | ArgumentError
| AnalogError | RPUError | ArithmeticError | FusionExportError
| QuantizerNotInitializedError | NoDataPassedError
| ConversionError | NoiseModelDeviceIDException.

Inductive res (A : Type) : Type :=
| Ok (a : A)
| Raise (e : exn).
Arguments Ok {A} a.
Arguments Raise {A} e.

Definition bind {A B} (m : res A) (f : A -> res B) : res B :=
  match m with Ok a => f a | Raise e => Raise e end.
Notation "x <- m ;; k" := (bind m (fun x => k))
  (at level 61, m at next level, right associativity).

Fixpoint mapM {A B} (f : A -> res B) (l : list A) : res (list B) :=
  match l with
  | [] => Ok []
  | a :: r => b <- f a ;; bs <- mapM f r ;; Ok (b :: bs)
  end.

Definition is_ok {A} (m : res A) : Prop := exists a, m = Ok a.

(** ** Decidable comparisons on reals, as booleans *)
Definition Rleb (x y : R) : bool := if Rle_dec x y then true else false.
Definition Rltb (x y : R) : bool := if Rlt_dec x y then true else false.
Definition Reqb (x y : R) : bool := if Req_EM_T x y then true else false.

(** torch.clamp(x, min=lo, max=hi) = min(max(x, lo), hi) *)
Definition clampR (lo hi x : R) : R := Rmin (Rmax x lo) hi.

(** ** Rounding *)
Definition floorZ (x : R) : Z := Int_part x.
(** torch.round: round half to even *)
Definition rhe (x : R) : Z :=
  let f := floorZ x in
  let r := x - IZR f in
  if Rlt_dec r (1/2) then f
  else if Rlt_dec (1/2) r then (f + 1)%Z
  else if Z.even f then f else (f + 1)%Z.
(** C [trunc]/torch.trunc: round towards zero *)
Definition truncZ (x : R) : Z :=
  if Rle_dec 0 x then floorZ x else (- floorZ (- x))%Z.

(** ** Vectors and matrices *)
Definition vec := list R.
Definition mat := list (list R).

(** [shape r c m]: r rows of length c *)
Definition shape (r c : nat) (m : mat) : Prop :=
  length m = r /\ Forall (fun row => length row = c) m.

Fixpoint sumR (l : vec) : R :=
  match l with [] => 0 | x :: r => x + sumR r end.

Fixpoint dot (a b : vec) : R :=
  match a, b with
  | x :: a', y :: b' => x * y + dot a' b'
  | _, _ => 0
  end.
(** matrix-vector product: one dot product per output row *)
Definition matvec (w : mat) (x : vec) : vec := map (fun row => dot row x) w.

Fixpoint map2 {A B C} (f : A -> B -> C) (a : list A) (b : list B) : list C :=
  match a, b with
  | x :: a', y :: b' => f x y :: map2 f a' b'
  | _, _ => []
  end.
Definition vadd : vec -> vec -> vec := map2 Rplus.
Definition vmul : vec -> vec -> vec := map2 Rmult.

(** largest absolute value; equals torch.max(torch.abs(.)) on non-empty input *)
Definition maxabs (v : vec) : R := fold_right (fun x m => Rmax (Rabs x) m) 0 v.
Definition maxabs_mat (m : mat) : R := fold_right (fun r a => Rmax (maxabs r) a) 0 m.

(** python slice l[s:e] for 0 <= s <= e *)
Definition slice {A} (s e : nat) (l : list A) : list A := firstn (e - s) (skipn s l).

(** ** Generic facts (proofs) *)
Lemma Rleb_true x y : Rleb x y = true <-> x <= y.
Proof. unfold Rleb; destruct (Rle_dec x y); split; intros; try lra; discriminate. Qed.
Lemma Rleb_false x y : Rleb x y = false <-> y < x.
Proof. unfold Rleb; destruct (Rle_dec x y); split; intros; try lra; try discriminate; reflexivity. Qed.
Lemma Rltb_true x y : Rltb x y = true <-> x < y.
Proof. unfold Rltb; destruct (Rlt_dec x y); split; intros; try lra; discriminate. Qed.
Lemma Rltb_false x y : Rltb x y = false <-> y <= x.
Proof. unfold Rltb; destruct (Rlt_dec x y); split; intros; try lra; try discriminate; reflexivity. Qed.
Lemma Reqb_true x y : Reqb x y = true <-> x = y.
Proof. unfold Reqb; destruct (Req_EM_T x y); split; intros; try lra; try discriminate; reflexivity. Qed.
Lemma Reqb_false x y : Reqb x y = false <-> x <> y.
Proof. unfold Reqb; destruct (Req_EM_T x y); split; intros; try lra; try discriminate; try contradiction; reflexivity. Qed.

(** Destruct one real comparison somewhere in goal or hypotheses. *)
Ltac rcase :=
  match goal with
  | |- context [Rle_dec ?a ?b] => destruct (Rle_dec a b)
  | |- context [Rlt_dec ?a ?b] => destruct (Rlt_dec a b)
  | |- context [Req_EM_T ?a ?b] => destruct (Req_EM_T a b)
  | |- context [Rleb ?a ?b] => let H := fresh "Hle" in destruct (Rleb a b) eqn:H; [apply Rleb_true in H | apply Rleb_false in H]
  | |- context [Rltb ?a ?b] => let H := fresh "Hlt" in destruct (Rltb a b) eqn:H; [apply Rltb_true in H | apply Rltb_false in H]
  | |- context [Reqb ?a ?b] => let H := fresh "Heq" in destruct (Reqb a b) eqn:H; [apply Reqb_true in H | apply Reqb_false in H]
  end.
Lemma Rmin_cases a b : (a <= b /\ Rmin a b = a) \/ (b < a /\ Rmin a b = b).
Proof. unfold Rmin; destruct (Rle_dec a b); [left|right]; split; lra. Qed.
Lemma Rmax_cases a b : (a <= b /\ Rmax a b = b) \/ (b < a /\ Rmax a b = a).
Proof. unfold Rmax; destruct (Rle_dec a b); [left|right]; split; lra. Qed.
Lemma Rabs_cases a : (0 <= a /\ Rabs a = a) \/ (a < 0 /\ Rabs a = - a).
Proof. unfold Rabs; destruct (Rcase_abs a); [right|left]; split; lra. Qed.
(** Replace every Rmin/Rmax/Rabs in the goal by case analysis, then call lra. *)
Ltac mmcase :=
  unfold clampR in *;
  repeat match goal with
  | |- context [Rmin ?a ?b] =>
      let H := fresh in destruct (Rmin_cases a b) as [[? H]|[? H]]; rewrite H in *; clear H
  | |- context [Rmax ?a ?b] =>
      let H := fresh in destruct (Rmax_cases a b) as [[? H]|[? H]]; rewrite H in *; clear H
  | |- context [Rabs ?a] =>
      let H := fresh in destruct (Rabs_cases a) as [[? H]|[? H]]; rewrite H in *; clear H
  | _ : context [Rmin ?a ?b] |- _ =>
      let H := fresh in destruct (Rmin_cases a b) as [[? H]|[? H]]; rewrite H in *; clear H
  | _ : context [Rmax ?a ?b] |- _ =>
      let H := fresh in destruct (Rmax_cases a b) as [[? H]|[? H]]; rewrite H in *; clear H
  | _ : context [Rabs ?a] |- _ =>
      let H := fresh in destruct (Rabs_cases a) as [[? H]|[? H]]; rewrite H in *; clear H
  end.
Ltac mm := mmcase; try lra.

Lemma clampR_id lo hi x : lo <= x <= hi -> clampR lo hi x = x.
Proof. intros; mm. Qed.
Lemma clampR_range lo hi x : lo <= hi -> lo <= clampR lo hi x <= hi.
Proof. intros; mm. Qed.
Lemma clampR_mono lo hi x y : x <= y -> clampR lo hi x <= clampR lo hi y.
Proof. intros; mm. Qed.

Lemma floorZ_spec x : IZR (floorZ x) <= x < IZR (floorZ x) + 1.
Proof. unfold floorZ; destruct (base_Int_part x); lra. Qed.
Lemma floorZ_unique x z : IZR z <= x < IZR z + 1 -> floorZ x = z.
Proof.
  intros H. pose proof (floorZ_spec x) as F.
  assert (IZR (floorZ x) < IZR (z + 1)) by (rewrite plus_IZR; lra).
  assert (IZR z < IZR (floorZ x + 1)) by (rewrite plus_IZR; lra).
  apply lt_IZR in H0, H1; lia.
Qed.
Lemma floorZ_IZR z : floorZ (IZR z) = z.
Proof. apply floorZ_unique; lra. Qed.
Lemma floorZ_mono x y : x <= y -> (floorZ x <= floorZ y)%Z.
Proof.
  intros H. pose proof (floorZ_spec x); pose proof (floorZ_spec y).
  apply Z.lt_succ_r, lt_IZR; rewrite succ_IZR; lra.
Qed.

Lemma rhe_err x : Rabs (IZR (rhe x) - x) <= 1/2.
Proof.
  unfold rhe. pose proof (floorZ_spec x).
  repeat rcase; try destruct (Z.even _); rewrite ?plus_IZR; mm.
Qed.
Lemma rhe_IZR z : rhe (IZR z) = z.
Proof. unfold rhe; rewrite floorZ_IZR; rcase; [reflexivity | lra]. Qed.
Lemma rhe_mono x y : x <= y -> (rhe x <= rhe y)%Z.
Proof.
  intros H.
  pose proof (floorZ_spec x) as Fx; pose proof (floorZ_spec y) as Fy.
  pose proof (floorZ_mono x y H) as HF.
  destruct (Z.eq_dec (floorZ x) (floorZ y)) as [E|NE].
  - unfold rhe; rewrite <- E in *.
    repeat rcase; try destruct (Z.even (floorZ x)); try lia; lra.
  - assert (IZR (floorZ x) + 1 <= IZR (floorZ y)) by (rewrite <- plus_IZR; apply IZR_le; lia).
    unfold rhe. repeat rcase; try destruct (Z.even (floorZ x)); try destruct (Z.even (floorZ y)); lia.
Qed.
Lemma floorZ_opp_int x : IZR (floorZ x) < x -> floorZ (- x) = (- floorZ x - 1)%Z.
Proof.
  intros. pose proof (floorZ_spec x). apply floorZ_unique.
  rewrite minus_IZR, opp_IZR; lra.
Qed.
Lemma rhe_opp x : rhe (- x) = (- rhe x)%Z.
Proof.
  pose proof (floorZ_spec x) as F.
  destruct (Req_dec (IZR (floorZ x)) x) as [E|NE].
  - rewrite <- E at 1. rewrite <- opp_IZR, rhe_IZR. rewrite <- E at 2. now rewrite rhe_IZR.
  - assert (Hf : floorZ (- x) = (- floorZ x - 1)%Z) by (apply floorZ_opp_int; lra).
    unfold rhe at 1. rewrite Hf. unfold rhe. rewrite minus_IZR, opp_IZR.
    assert (Hev : Z.even (- floorZ x - 1) = negb (Z.even (floorZ x))).
    { rewrite Z.even_sub. rewrite Z.even_opp. simpl. now destruct (Z.even (floorZ x)). }
    rewrite Hev.
    repeat rcase; try lra; try destruct (Z.even (floorZ x)); simpl; lia.
Qed.

Lemma truncZ_spec x : Rabs (IZR (truncZ x)) <= Rabs x /\ Rabs (x - IZR (truncZ x)) < 1.
Proof.
  unfold truncZ. rcase.
  - pose proof (floorZ_spec x). assert (0 <= IZR (floorZ x)).
    { apply IZR_le. rewrite <- (floorZ_IZR 0). apply floorZ_mono; lra. }
    split; mm.
  - pose proof (floorZ_spec (-x)). assert (0 <= IZR (floorZ (-x))).
    { apply IZR_le. rewrite <- (floorZ_IZR 0). apply floorZ_mono; lra. }
    rewrite opp_IZR. split; mm.
Qed.

(** Vectors *)
Lemma map2_length {A B C} (f : A -> B -> C) a b : length (map2 f a b) = Nat.min (length a) (length b).
Proof. revert b; induction a; destruct b; simpl; auto. Qed.
Lemma dot_nil_r a : dot a [] = 0.
Proof. destruct a; reflexivity. Qed.
Lemma dot_app a1 a2 b1 b2 : length a1 = length b1 -> dot (a1 ++ a2) (b1 ++ b2) = dot a1 b1 + dot a2 b2.
Proof.
  revert b1; induction a1; destruct b1; simpl; intros; try discriminate; [lra|].
  rewrite IHa1 by lia; lra.
Qed.
Lemma dot_scale_l k a b : dot (map (Rmult k) a) b = k * dot a b.
Proof. revert b; induction a; destruct b; simpl; try lra. rewrite IHa; lra. Qed.
Lemma dot_scale_r k a b : dot a (map (Rmult k) b) = k * dot a b.
Proof. revert b; induction a; destruct b; simpl; try lra. rewrite IHa; lra. Qed.
Lemma matvec_length w x : length (matvec w x) = length w.
Proof. apply map_length. Qed.

Lemma maxabs_nonneg v : 0 <= maxabs v.
Proof. induction v; simpl; [lra | mm]. Qed.
Lemma maxabs_ub v x : In x v -> Rabs x <= maxabs v.
Proof. induction v; simpl; intros []; subst; [mm | specialize (IHv H); mm]. Qed.
Lemma maxabs_attained v : v <> [] -> exists x, In x v /\ Rabs x = maxabs v.
Proof.
  induction v as [|a v IH]; [congruence|]; intros _.
  destruct v as [|b v].
  - exists a; simpl; split; auto; mm.
  - destruct IH as [x [Hx E]]; [discriminate|].
    destruct (Rle_dec (Rabs a) (maxabs (b :: v))).
    + exists x; split; [right; auto|]. cbn [maxabs fold_right] in *. mm.
    + exists a; split; [left; auto|]. cbn [maxabs fold_right] in *. mm.
Qed.
Lemma maxabs_mat_nonneg m : 0 <= maxabs_mat m.
Proof. induction m; simpl; [lra | mm]. Qed.
Lemma maxabs_mat_ub m r x : In r m -> In x r -> Rabs x <= maxabs_mat m.
Proof.
  induction m as [|a m IH]; simpl; intros Hr Hx; [contradiction|].
  destruct Hr as [->|Hr].
  - pose proof (maxabs_ub r x Hx); mm.
  - specialize (IH Hr Hx); mm.
Qed.

(** Lists *)
Lemma slice_app_l {A} (a b : list A) s e :
  (e <= length a)%nat -> slice s e (a ++ b) = slice s e a.
Proof.
  intros; unfold slice. rewrite skipn_app, firstn_app.
  replace (e - s - length (skipn s a))%nat with 0%nat by (rewrite skipn_length; lia).
  now rewrite firstn_O, app_nil_r.
Qed.
Lemma slice_length {A} (l : list A) s e :
  (s <= e <= length l)%nat -> length (slice s e l) = (e - s)%nat.
Proof. intros; unfold slice; rewrite firstn_length, skipn_length; lia. Qed.
Lemma slice_full {A} (l : list A) : slice 0 (length l) l = l.
Proof. unfold slice; rewrite Nat.sub_0_r; simpl. apply firstn_all. Qed.
Lemma skipn_skipn {A} (l : list A) x y : skipn x (skipn y l) = skipn (y + x) l.
Proof. revert l; induction y; intros [|a l]; simpl; auto. now rewrite skipn_nil. Qed.
Lemma slice_merge {A} (l : list A) s m e :
  (s <= m <= e)%nat -> slice s m l ++ slice m e l = slice s e l.
Proof.
  intros [H1 H2]; unfold slice.
  replace (e - s)%nat with ((m - s) + (e - m))%nat by lia.
  rewrite <- (firstn_skipn (m - s) (firstn (m - s + (e - m)) (skipn s l))).
  rewrite firstn_firstn, Nat.min_l by lia. f_equal.
  rewrite skipn_firstn_comm.
  replace (m - s + (e - m) - (m - s))%nat with (e - m)%nat by lia.
  f_equal. rewrite skipn_skipn. f_equal; lia.
Qed.
Lemma slice_nil {A} (l : list A) s : slice s s l = [].
Proof. unfold slice. now rewrite Nat.sub_diag. Qed.

Definition sum_nat (l : list nat) : nat := fold_right Nat.add 0%nat l.
Lemma sum_nat_app a b : sum_nat (a ++ b) = (sum_nat a + sum_nat b)%nat.
Proof. induction a; simpl; [auto | rewrite IHa; lia]. Qed.
