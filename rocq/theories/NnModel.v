(** * Conversion of torch models to analog and back (nn/conversion.py), containers (nn/modules/container.py) *)
From Verif Require Import Prelude.
From Coq Require Export String.
Local Open Scope nat_scope.
Open Scope list_scope.

(** a Python class: its name and its identity (two classes can have the same name) *)
Record klass : Type := { k_name : string; k_id : nat }.
Definition klass_eqb (a b : klass) : bool := (k_id a =? k_id b) && String.eqb (k_name a) (k_name b).
(** torch.nn.Sequential *)
Definition Sequential : klass := {| k_name := "Sequential"; k_id := 0 |}.

(** the identity of a module object: one of the user's objects, or one made by a conversion of the module called [p] *)
Inductive ident : Type := Obj (n : nat) | Made (p : string) (n : nat).
Definition ident_eqb (a b : ident) : bool :=
  match a, b with
  | Obj n, Obj m => n =? m
  | Made p n, Made q m => String.eqb p q && (n =? m)
  | _, _ => false
  end.

Section Params.
Context {W C : Type}. (* weights (parameters) of a layer; RPU configurations *)

(** what a module is.  [Dig c w]: a module of the torch or user class [c] with parameters [w].  [ALayer c]: the analog
    layer class for [c]; its weights are in its tile.  [ASeq]: AnalogSequential.  [Wrapped c w]: an instance of the
    AnalogWrapper subclass of [c].  [TileM cfg w]: a tile module holding the weights [w].  Layers made of an array of
    tiles are simplified to one tile module. *)
Inductive kind : Type :=
| Dig (c : klass) (w : W) | ALayer (c : klass) | ASeq | Wrapped (c : klass) (w : W) | TileM (cfg : C) (w : W).
(** a module with its identity, its training flag and its named children ([_modules]).  A child that is used twice occurs
    twice with the same identity.  Simplification: a container that is used by different parents is converted by the
    code once, in place, here once for each parent with the same result; a layer used by different parents is
    converted for each parent by the code and here. *)
Inductive md : Type := Md (i : ident) (k : kind) (training : bool) (kids : list (string * md)).
Definition id_of (m : md) : ident := match m with Md i _ _ _ => i end.
Definition kind_of (m : md) : kind := match m with Md _ k _ _ => k end.
Definition mode_of (m : md) : bool := match m with Md _ _ t _ => t end.
Definition kids_of (m : md) : list (string * md) := match m with Md _ _ _ l => l end.

(** conversion.py:186 [module_name + "." + name if module_name else name] *)
Definition join (p n : string) : string := if String.eqb p "" then n else (p ++ "." ++ n)%string.
Definition mem (i : ident) (l : list ident) : bool := existsb (ident_eqb i) l.
Definition mems (s : string) (l : list string) : bool := existsb (String.eqb s) l.

(** the loop over [named_children()]: every child object is visited once.  A repeated child keeps its entry in [_modules]
    unless the parent is rebuilt from [named_children()] ([drop]) *)
Definition map_kids (f : string -> md -> md) (drop : bool) :=
  fix loop (seen : list ident) (l : list (string * md)) {struct l} : list (string * md) :=
    match l with
    | [] => []
    | (n, c) :: r =>
        if mem (id_of c) seen then (if drop then loop seen r else (n, c) :: loop seen r)
        else (n, f n c) :: loop (id_of c :: seen) r
    end.

(** arguments of convert_to_analog: the layer classes of the conversion map, whether it maps Sequential, the RPU
    config, specific_rpu_config_fun, exclude_modules *)
Record cargs : Type := {
  a_map : klass -> bool; a_seq : bool; a_cfg : C; a_fun : string -> md -> C -> C; a_ex : list string }.

(** conversion.py:170-217 convert_to_analog without the root wrapper, [path] is [module_name].  [named_children()]
    yields each child object once: a repeated child is dropped by AnalogSequential.from_digital (container.py:77-80)
    and skipped in the loop over the children.  linear.py:97-126 [from_digital], similarly conv.py: a new layer with
    a new tile that gets the weights; new modules are in training mode.  The children of a converted layer are its tile,
    which is never converted.  The code treats a child without children separately (204-212), with the same result as
    the recursive call. *)
Fixpoint convert (a : cargs) (path : string) (m : md) {struct m} : md :=
  match m with
  | Md i k t kids =>
      let loop drop := map_kids (fun n c => if mems (join path n) (a_ex a) then c else convert a (join path n) c) drop [] kids in
      if mems path (a_ex a) then Md i k t (loop false)
      else match k with
      | Dig c w =>
          if klass_eqb c Sequential then
            if a_seq a then Md (Made path 0) ASeq true (loop true) else Md i k t (loop false)
          else if a_map a c then
            Md (Made path 0) (ALayer c) true
               [("analog_module"%string, Md (Made path 1) (TileM (a_fun a path m (a_cfg a)) w) true [])]
          else Md i k t (loop false)
      | _ => Md i k t (loop false)
      end
  end.

(** isinstance(module, AnalogLayerBase) *)
Definition is_analog_layer (k : kind) : bool := match k with ALayer _ | ASeq | Wrapped _ _ => true | _ => false end.
(** container.py:104-125 AnalogWrapper: the subclass is looked up by the name of the class *)
Definition registry := list (string * klass).
Fixpoint lookup {A} (s : string) (l : list (string * A)) : option A :=
  match l with [] => None | (n, a) :: r => if String.eqb s n then Some a else lookup s r end.
Definition wrap (reg : registry) (m : md) : md * registry :=
  match kind_of m with
  | Dig c w =>
      match lookup (k_name c) reg with
      | Some c' => (Md (Made "" 0) (Wrapped c' w) (mode_of m) (kids_of m), reg)
      | None => (Md (Made "" 0) (Wrapped c w) (mode_of m) (kids_of m), (k_name c, c) :: reg)
      end
  | _ => (m, reg) (* a bare tile module as root: not modelled *)
  end.
(** convert_to_analog: conversion.py:219-221 wraps the root *)
Definition convert_to_analog (a : cargs) (ensure_root : bool) (reg : registry) (name : string) (m : md) : md * registry :=
  let m' := convert a name m in
  if ensure_root && String.eqb name "" && negb (is_analog_layer (kind_of m')) then wrap reg m' else (m', reg).

(** the weights in the tile of an analog layer *)
Definition tile_weights (kids : list (string * md)) : option W :=
  match lookup "analog_module" kids with
  | Some (Md _ (TileM _ w) _ _) => Some w
  | _ => None
  end.
(** conversion.py:253-303 convert_to_digital; [s] are the layer classes whose analog class is in the conversion set, [q]
    says whether AnalogSequential is; [w0] the (empty) parameters of a Sequential.  linear.py:128-148 [to_digital],
    container.py:82-85, 132-136.  A child without children is only converted if its class is in the set, so a wrapped
    module without children is not. *)
Fixpoint to_digital (w0 : W) (s : klass -> bool) (q : bool) (path : string) (m : md) {struct m} : md :=
  match m with
  | Md i k t kids =>
      let loop drop := map_kids (fun n c =>
          match kids_of c, kind_of c with
          | [], Wrapped _ _ => c
          | _, _ => to_digital w0 s q (join path n) c
          end) drop [] kids in
      match k with
      | ALayer c =>
          if s c then
            match tile_weights kids with
            | Some w => Md (Made path 2) (Dig c w) true []
            | None => Md i k t (loop false)
            end
          else Md i k t (loop false)
      | ASeq => if q then Md (Made path 2) (Dig Sequential w0) true (loop true) else Md i k t (loop false)
      | Wrapped c w => Md (Made path 2) (Dig c w) t (loop false)
      | _ => Md i k t (loop false)
      end
  end.
End Params.
Arguments md : clear implicits.
Arguments kind : clear implicits.
Arguments cargs : clear implicits.
