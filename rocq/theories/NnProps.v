(** * C114-C116: conversion to analog keeps the function, converts what it should *)
From Verif Require Import Prelude NnModel NnSpec NnProofs.
Local Open Scope nat_scope.

Section Props.
Context {W C : Type}.
Notation md := (md W C).

(** ** C114 *)
Definition fit (a : cargs W C) (x : md) : Prop := unrepeated x /\ layers_are_leaves a x.
Lemma convert_run {X} (beh : klass -> W -> list (string * (X -> X)) -> X -> X) a (m : md) : every (fit a) m -> forall path, run beh (convert a path m) = run beh m.
Proof.
  induction m as [i k t l IH] using md_induction. intros E path. apply every_inv in E. destruct E as [[U Lv] E].
  unfold unrepeated in U; cbn [kids_of] in U. rewrite (convert_unfold a path i k t l U). cbv zeta.
  set (kids := map (fun p => (fst p, kid_conv a path (fst p) (snd p))) l).
  assert (Ek : map (fun p => (fst p, run beh (snd p))) kids = map (fun p => (fst p, run beh (snd p))) l).
  { unfold kids. rewrite map_map. apply map_ext_in. intros [n c] Hin. cbn [fst snd]. f_equal. unfold kid_conv.
    destruct (mems (join path n) (a_ex a)); [reflexivity|]. apply (IH n c Hin). exact (E n c Hin). }
  destruct k as [c w|c| |c w|cfg w]; cbn [run]; try (destruct (mems path (a_ex a)); cbn [run]; rewrite Ek; reflexivity).
  - destruct (mems path (a_ex a)); [cbn [run]; rewrite Ek; reflexivity|]. unfold layers_are_leaves in Lv; cbn [kind_of kids_of] in Lv.
    destruct (klass_eqb c Sequential) eqn:Es.
    + destruct (a_seq a); cbn [run]; rewrite Ek; [unfold act; rewrite Es; reflexivity|reflexivity].
    + destruct (a_map a c) eqn:Em; cbn [run]; [|rewrite Ek; reflexivity]. rewrite (Lv eq_refl eq_refl). cbn. reflexivity.
  - (* an analog layer: its tile is not changed *)
    assert (T : tile_weights kids = tile_weights l).
    { unfold tile_weights, kids. rewrite (lookup_map (fun n c => kid_conv a path n c)).
      destruct (lookup "analog_module" l) as [[j k' t' l']|] eqn:El; [|reflexivity]. cbn [option_map]. unfold kid_conv.
      destruct (mems (join path "analog_module") (a_ex a)); [reflexivity|]. apply lookup_in in El. pose proof (E _ _ El) as Et. apply every_inv in Et. destruct Et as [[Ut _] _].
      unfold unrepeated in Ut; cbn [kids_of] in Ut. rewrite (convert_unfold a _ j k' t' l' Ut). cbv zeta.
      destruct (mems (join path "analog_module") (a_ex a)); [destruct k'; reflexivity|].
      destruct k' as [c' w'| | | |]; try reflexivity. destruct (klass_eqb c' Sequential); [destruct (a_seq a); reflexivity|]. destruct (a_map a c'); reflexivity. }
    destruct (mems path (a_ex a)); cbn [run]; rewrite T; reflexivity.
  - destruct (mems path (a_ex a)); reflexivity.
Qed.
Definition agrees (reg : registry) (m : md) : Prop := (* no other class of the same name was wrapped before *)
  match kind_of m with Dig c _ => lookup (k_name c) reg = None \/ lookup (k_name c) reg = Some c | _ => True end.
(** the analog model computes what the digital model computes (with ideal tiles), for any layers, nesting, exclusions and
    configurations, if no child is used twice in the same parent *)
Theorem C114_function_preserved {X} (beh : klass -> W -> list (string * (X -> X)) -> X -> X) a ensure reg name (m : md) :
  every (fun x => unrepeated x /\ layers_are_leaves a x) m -> agrees reg m ->
  run beh (fst (convert_to_analog a ensure reg name m)) = run beh m.
Proof.
  intros E Ag. unfold convert_to_analog. cbv zeta. pose proof (convert_run beh a m E name) as Ev.
  destruct (ensure && _ && _) eqn:B; cbn [fst]; [|exact Ev]. rewrite <- Ev. apply andb_true_iff in B. destruct B as [B1 B2].
  destruct m as [i k t l]. unfold agrees in Ag. cbn [kind_of] in Ag. apply every_inv in E. destruct E as [[U _] _]. unfold unrepeated in U; cbn [kids_of] in U.
  rewrite (convert_unfold a name i k t l U) in *. cbv zeta in *. destruct k as [c w|c| |c w|cfg w].
  - destruct (mems name (a_ex a)); [|destruct (klass_eqb c Sequential); [destruct (a_seq a); [discriminate|]|destruct (a_map a c); [discriminate|]]];
      unfold wrap; cbn [kind_of]; (destruct Ag as [-> | ->]; reflexivity).
  - destruct (mems name (a_ex a)); discriminate.
  - destruct (mems name (a_ex a)); discriminate.
  - destruct (mems name (a_ex a)); discriminate.
  - destruct (mems name (a_ex a)); reflexivity.
Qed.
End Props.

(** refuted: for every model.  A Sequential that uses the same (parameterless) module twice loses the second use. *)
Definition relu : klass := {| k_name := "Act"; k_id := 7 |}.
Definition linear : klass := {| k_name := "Linear"; k_id := 8 |}.
Definition default_args : cargs nat unit :=
  {| a_map := fun c => klass_eqb c linear; a_seq := true; a_cfg := tt; a_fun := fun _ _ c => c; a_ex := [] |}.
Definition shared_relu : md nat unit :=
  Md (Obj 0) (Dig Sequential 0) true
    [("0"%string, Md (Obj 1) (Dig linear 5) true []); ("1"%string, Md (Obj 2) (Dig relu 0) true []);
     ("2"%string, Md (Obj 3) (Dig linear 6) true []); ("3"%string, Md (Obj 2) (Dig relu 0) true [])].
(** [relu] adds 1000, a layer multiplies with its weight *)
Definition beh0 (c : klass) (w : nat) (fs : list (string * (nat -> nat))) (x : nat) : nat := if klass_eqb c linear then w * x else x + 7.
Theorem C114_repeated_child_refuted :
  run beh0 shared_relu 1 = 79 /\ run beh0 (fst (convert_to_analog default_args true [] "" shared_relu)) 1 = 72.
Proof. split; reflexivity. Qed.
Definition two_layers : md nat unit :=
  Md (Obj 0) (Dig Sequential 0) false
    [("0"%string, Md (Obj 1) (Dig linear 5) false []); ("1"%string, Md (Obj 2) (Dig relu 0) false []);
     ("blk"%string, Md (Obj 4) (Dig {| k_name := "Block"; k_id := 9 |} 0) false [("fc"%string, Md (Obj 3) (Dig linear 6) false [])])].
Lemma every_leaf {W C} (P : md W C -> Prop) i k t : P (Md i k t []) -> every P (Md i k t []).
Proof. intros H. constructor; [exact H|]. intros n c []. Qed.
Ltac every_tac := repeat (first [apply every_leaf | constructor]); cbn; try tauto.
Lemma two_layers_model : model default_args two_layers.
Proof.
  assert (D : forall x : md nat unit, kids_of x = [] -> (exists n, id_of x = Obj n) -> digital x -> named x /\ unrepeated x /\ users x /\ digital x /\ layers_are_leaves default_args x).
  { intros x E H1 H2. unfold named, unrepeated. rewrite E. cbn. split; [split; [constructor|tauto]|]. split; [constructor|]. split; [exact H1|]. split; [exact H2|].
    unfold layers_are_leaves. destruct (kind_of x); auto. }
  unfold model, two_layers. constructor.
  - unfold named, unrepeated, users, digital, layers_are_leaves. cbn.
    split; [split; [repeat constructor; cbn; intuition discriminate|intuition discriminate]|].
    split; [repeat constructor; cbn; intuition discriminate|]. split; [eauto|]. split; [eauto|discriminate].
  - intros n c [[= <- <-]|[[= <- <-]|[[= <- <-]|[]]]].
    + apply every_leaf, D; [reflexivity|eexists; reflexivity|do 2 eexists; reflexivity].
    + apply every_leaf, D; [reflexivity|eexists; reflexivity|do 2 eexists; reflexivity].
    + constructor.
      * unfold named, unrepeated, users, digital, layers_are_leaves. cbn.
        split; [split; [repeat constructor; cbn; intuition discriminate|intuition discriminate]|].
        split; [repeat constructor; cbn; intuition discriminate|]. split; [eauto|]. split; [eauto|discriminate].
      * intros n c [[= <- <-]|[]]. apply every_leaf, D; [reflexivity|eexists; reflexivity|do 2 eexists; reflexivity].
Qed.
Example C114_nontrivial : model default_args two_layers /\ run beh0 two_layers 1 = 19
  /\ kind_of (fst (convert_to_analog default_args true [] "" two_layers)) = ASeq
  /\ exists x, at_path (fst (convert_to_analog default_args true [] "" two_layers)) ["blk"; "fc"; "analog_module"]%string = Some x /\ kind_of x = TileM tt 6.
Proof. split; [apply two_layers_model|]. split; [reflexivity|]. split; [reflexivity|]. eexists. split; reflexivity. Qed.

Print Assumptions C114_function_preserved.
Print Assumptions C114_repeated_child_refuted.
