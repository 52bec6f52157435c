(** * What a conversion should do (independent of the model's helpers) *)
From Verif Require Import Prelude NnModel.
Local Open Scope nat_scope.

Section Spec.
Context {W C : Type}.
Notation md := (md W C).
Notation kind := (kind W C).

(** the submodule at a path of names *)
Fixpoint at_path (m : md) (q : list string) : option md :=
  match q with
  | [] => Some m
  | n :: r => match lookup n (kids_of m) with Some c => at_path c r | None => None end
  end.
(** its full name, starting from the name of the root *)
Fixpoint dotted (root : string) (q : list string) : string :=
  match q with [] => root | n :: r => dotted (join root n) r end.

(** a property of all submodules *)
Inductive every (P : md -> Prop) : md -> Prop :=
| every_md i k t kids : P (Md i k t kids) -> (forall n c, List.In (n, c) kids -> every P c) -> every P (Md i k t kids).
(** a dictionary of children: names are unique and not empty *)
Definition named (m : md) : Prop := NoDup (map fst (kids_of m)) /\ ~ List.In ""%string (map fst (kids_of m)).
(** no child object is registered under two names of the same parent *)
Definition unrepeated (m : md) : Prop := NoDup (map (fun p => id_of (snd p)) (kids_of m)).
(** an object of the user, not made by an earlier conversion *)
Definition users (m : md) : Prop := exists n, id_of m = Obj n.
(** a digital module *)
Definition digital (m : md) : Prop := exists c w, kind_of m = Dig c w.
(** layers of the conversion map have no children *)
Definition layers_are_leaves (a : cargs W C) (m : md) : Prop :=
  match kind_of m with Dig c _ => klass_eqb c Sequential = false -> a_map a c = true -> kids_of m = [] | _ => True end.
(** an ordinary digital model *)
Definition model (a : cargs W C) (m : md) : Prop :=
  every (fun x => named x /\ unrepeated x /\ users x /\ digital x /\ layers_are_leaves a x) m.

(** what a module computes: Sequential is the composition of its children in the order of registration, other classes have
    the behaviour [beh], given their parameters and what their children compute.  Tiles are ideal. *)
Fixpoint compose {X} (fs : list (X -> X)) (x : X) : X := match fs with [] => x | f :: r => compose r (f x) end.
Section Run.
Context {X : Type} (beh : klass -> W -> list (string * (X -> X)) -> X -> X).
Definition act (c : klass) (w : W) (fs : list (string * (X -> X))) : X -> X :=
  if klass_eqb c Sequential then compose (map snd fs) else beh c w fs.
Fixpoint run (m : md) : X -> X :=
  match m with
  | Md _ k _ kids =>
      let fs := map (fun p => (fst p, run (snd p))) kids in
      match k with
      | Dig c w | Wrapped c w => act c w fs
      | ASeq => compose (map snd fs)
      | ALayer c => match tile_weights kids with Some w => act c w [] | None => fun x => x end
      | TileM _ _ => fun x => x
      end
  end.
End Run.
(** the class a module should have after the conversion *)
Definition converted (a : cargs W C) (k : kind) : kind :=
  match k with
  | Dig c w => if klass_eqb c Sequential then (if a_seq a then ASeq else k) else if a_map a c then ALayer c else k
  | _ => k
  end.
(** equal up to the identity of objects and the training flags: same classes, parameters, configurations and names *)
Inductive same : md -> md -> Prop :=
| same_md i j k t u l l' : Forall2 (fun p q => fst p = fst q /\ same (snd p) (snd q)) l l' -> same (Md i k t l) (Md j k u l').
End Spec.
