(** * Vocabulary for the analog summary *)
From Verif Require Import Prelude AiModel.

(** all modules of a model, with repetition where a module occurs in several places *)
Fixpoint modules (m : mt) : list mt := match m with Node _ _ ch => m :: flat_map modules ch end.
Definition is_layer (m : mt) : bool := match mkind m with KLayer _ _ => true | _ => false end.
Definition is_tile (m : mt) : bool := match mkind m with KTile _ => true | _ => false end.
(** the analog layers and the tiles of a model *)
Definition layers_of (m : mt) : list mt := filter is_layer (modules m).
Definition tiles_of (m : mt) : list mt := filter is_tile (modules m).
(** models as the library builds them: below an analog layer there are tiles and digital modules only, tiles occur only
    there and have no children, and containers are not empty *)
Fixpoint built (under : bool) (m : mt) : bool :=
  match m with
  | Node _ k ch =>
      match k with
      | KTile _ => under && (length ch =? 0)%nat
      | KDigital => forallb (built under) ch
      | KLayer _ _ => negb under && negb (length ch =? 0)%nat && forallb (built true) ch
      | KContainer => negb under && negb (length ch =? 0)%nat && forallb (built false) ch
      end
  end.
(** number of calls of a module in a forward pass *)
Definition calls_of (m : mt) (tr : list call) : nat := length (filter (fun c => (mid (cl_mod c) =? mid m)%nat) tr).
Definition sum_nat (l : list nat) : nat := fold_right Nat.add 0%nat l.
