(** * Tiles of a model: iteration, weights of containers, programming and drift (nn/modules/base.py, container.py) *)
From Verif Require Import Prelude NnModel.
Local Open Scope nat_scope.
Open Scope list_scope.

Section Model.
Context {W C : Type}.
Notation md := (md W C).
(** torch: Module.named_modules, [memo] by the identity of the module objects *)
Fixpoint named_modules (m : md) (memo : list ident) (path : string) {struct m} : list (string * md) * list ident :=
  match m with
  | Md i k t kids =>
      if mem i memo then ([], memo)
      else
        let fix go (l : list (string * md)) (memo : list ident) : list (string * md) * list ident :=
          match l with
          | [] => ([], memo)
          | (n, c) :: r =>
              let '(xs, memo1) := named_modules c memo (join path n) in
              let '(ys, memo2) := go r memo1 in
              (xs ++ ys, memo2)
          end in
        let '(xs, memo') := go kids (i :: memo) in
        ((path, m) :: xs, memo')
  end.
(** base.py:147-151 named_analog_tiles *)
Definition is_tile (k : kind W C) : bool := match k with TileM _ _ => true | _ => false end.
Definition named_analog_tiles (m : md) : list (string * md) := filter (fun p => is_tile (kind_of (snd p))) (fst (named_modules m [] "")).
(** base.py:92-104 named_analog_layers: containers (AnalogSequential, AnalogWrapper) are left out *)
Definition is_layer (k : kind W C) : bool := match k with ALayer _ => true | _ => false end.
Definition named_analog_layers (m : md) : list (string * md) := filter (fun p => is_layer (kind_of (snd p))) (fst (named_modules m [] "")).

(** the weights in the tile objects *)
Definition store := ident -> W.
Definition put (s : store) (i : ident) (w : W) : store := fun j => if ident_eqb j i then w else s j.
(** container.py:26-41 get_weights: an ordered dictionary, a name that occurs again overwrites (the order of the entries is
    not modelled) *)
Definition get_weights (m : md) (s : store) : list (string * W) :=
  fold_left (fun d p => (fst p, s (id_of (snd p))) :: d) (named_analog_tiles m) [].
(** container.py:43-58 set_weights; [inl] the state when ModuleError was raised *)
Fixpoint set_tiles (l : list (string * md)) (d : list (string * W)) (s : store) : store + store :=
  match l with
  | [] => inr s
  | (n, t) :: r => match lookup n d with None => inl s | Some w => set_tiles r d (put s (id_of t) w) end
  end.
Definition set_weights (m : md) (d : list (string * W)) (s : store) : store + store := set_tiles (named_analog_tiles m) d s.
(** base.py:310-330 drift_analog_weights and program_analog_weights: [f] programs or drifts one tile; only tiles
    for inference ([inf]) take part; [None]: ModuleError *)
Definition on_inference_tiles (inf : md -> bool) (f : W -> W) (m : md) (s : store) : option store :=
  if mode_of m then None
  else Some (fold_left (fun s p => if inf (snd p) then put s (id_of (snd p)) (f (s (id_of (snd p)))) else s) (named_analog_tiles m) s).
End Model.
