(** * Conversion: lemmas *)
From Verif Require Import Prelude NnModel NnSpec.
Local Open Scope nat_scope.

Lemma klass_eqb_true a b : klass_eqb a b = true <-> a = b.
Proof.
  unfold klass_eqb. rewrite andb_true_iff, Nat.eqb_eq, String.eqb_eq. destruct a, b; cbn. split; [intros [-> ->]; reflexivity|intros [= -> ->]; auto].
Qed.
Lemma ident_eqb_true a b : ident_eqb a b = true <-> a = b.
Proof.
  destruct a, b; cbn; rewrite ?andb_true_iff, ?Nat.eqb_eq, ?String.eqb_eq; split; try congruence; try (intros [-> ->]; reflexivity); intros [= -> ->]; auto.
Qed.
Lemma mem_true i l : mem i l = true <-> List.In i l.
Proof. unfold mem. rewrite existsb_exists. split; [intros (x & H & E); apply ident_eqb_true in E; now subst|intros H; exists i; split; [exact H|now apply ident_eqb_true]]. Qed.
Lemma mem_false i l : mem i l = false <-> ~ List.In i l.
Proof. rewrite <- mem_true. destruct (mem i l); split; congruence. Qed.
Lemma mems_true s l : mems s l = true <-> List.In s l.
Proof. unfold mems. rewrite existsb_exists. split; [intros (x & H & E); apply String.eqb_eq in E; now subst|intros H; exists s; split; [exact H|apply String.eqb_refl]]. Qed.

Section Proofs.
Context {W C : Type}.
Notation md := (md W C).
Implicit Types (m : md) (l : list (string * md)).

Lemma md_induction (P : md -> Prop) :
  (forall i k t l, (forall n c, List.In (n, c) l -> P c) -> P (Md i k t l)) -> forall m, P m.
Proof.
  intros H. fix IH 1. intros [i k t l]. apply H.
  induction l as [|[n c] r IHl]; intros n' c' Hin; [destruct Hin|]. destruct Hin as [[= <- <-]|Hin]; [apply IH|eapply IHl; exact Hin].
Qed.
Lemma every_inv P i k t l : every P (@Md W C i k t l) -> P (Md i k t l) /\ forall n c, List.In (n, c) l -> every P c.
Proof. intros H. inversion H; subst; auto. Qed.
Lemma every_impl (P Q : md -> Prop) m : (forall x, P x -> Q x) -> every P m -> every Q m.
Proof.
  intros PQ. induction m as [i k t l IH] using md_induction. intros E. apply every_inv in E. destruct E as [E1 E2].
  constructor; [apply PQ; exact E1|]. intros n c Hin. eapply IH; eauto.
Qed.

(** without repeated children the loop is a map *)
Lemma map_kids_map f drop seen l : NoDup (map (fun p => id_of (snd p)) l) -> (forall n c, List.In (n, c) l -> ~ List.In (id_of c) seen) ->
  map_kids f drop seen l = map (fun p => (fst p, f (fst p) (snd p))) l.
Proof.
  revert seen; induction l as [|[n c] r IH]; intros seen ND Hs; [reflexivity|]. cbn [map_kids map fst snd].
  rewrite (proj2 (mem_false _ _) (Hs n c (or_introl eq_refl))). inversion ND as [|? ? N1 N2]; subst. f_equal. apply IH; [exact N2|].
  intros n' c' Hin [E|Hin']; [|eapply Hs; [right; exact Hin|exact Hin']]. apply N1. rewrite E. apply in_map_iff. exists (n', c'). auto.
Qed.
Lemma map_kids_nil f drop l : NoDup (map (fun p => id_of (snd p)) l) -> map_kids f drop [] l = map (fun p => (fst p, f (fst p) (snd p))) l.
Proof. intros H. apply map_kids_map; auto. Qed.
Lemma lookup_map {A B} (f : string -> A -> B) s (l : list (string * A)) : lookup s (map (fun p => (fst p, f (fst p) (snd p))) l) = option_map (f s) (lookup s l).
Proof.
  induction l as [|[n a] r IH]; [reflexivity|]. cbn. destruct (String.eqb_spec s n); [subst; reflexivity|exact IH].
Qed.
Lemma lookup_in {A} s (l : list (string * A)) a : lookup s l = Some a -> List.In (s, a) l.
Proof.
  induction l as [|[n b] r IH]; cbn; [discriminate|]. destruct (String.eqb_spec s n); [intros [= ->]; left; subst; reflexivity|intros H; right; auto].
Qed.
Lemma in_lookup {A} s (l : list (string * A)) a : NoDup (map fst l) -> List.In (s, a) l -> lookup s l = Some a.
Proof.
  induction l as [|[n b] r IH]; intros ND Hin; [destruct Hin|]. destruct Hin as [[= -> ->]|Hin]; cbn.
  - rewrite String.eqb_refl. reflexivity.
  - inversion ND; subst. destruct (String.eqb_spec s n); [subst; exfalso; match goal with H : ~ _ |- _ => apply H end; apply in_map_iff; exists (n, a); auto|auto].
Qed.

(** the conversion of a model without repeated children *)
Definition kid_conv (a : cargs W C) (path n : string) (c : md) : md := if mems (join path n) (a_ex a) then c else convert a (join path n) c.
Lemma convert_unfold a path i k t l : NoDup (map (fun p => id_of (snd p)) l) ->
  convert a path (Md i k t l) =
  let kids := map (fun p => (fst p, kid_conv a path (fst p) (snd p))) l in
  if mems path (a_ex a) then Md i k t kids
  else match k with
  | Dig c w =>
      if klass_eqb c Sequential then (if a_seq a then Md (Made path 0) ASeq true kids else Md i k t kids)
      else if a_map a c then
        Md (Made path 0) (ALayer c) true [("analog_module"%string, Md (Made path 1) (TileM (a_fun a path (Md i k t l) (a_cfg a)) w) true [])]
      else Md i k t kids
  | _ => Md i k t kids
  end.
Proof.
  intros ND. cbn [convert]. cbv zeta. rewrite !map_kids_nil by exact ND. reflexivity.
Qed.
End Proofs.
