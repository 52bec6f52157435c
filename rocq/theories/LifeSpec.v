(** * Life cycle: vocabulary of the theorems *)
From Verif Require Import Prelude LifeModel.

(** operations that neither set weights nor re-program from the current weights *)
Definition keeps_reference {E} (o : lop E) : Prop :=
  match o with LSet _ => False | LProgram _ _ fr _ => fr = true | _ => True end.
(** operations other than programming *)
Definition not_program {E} (o : lop E) : Prop := match o with LProgram _ _ _ _ => False | _ => True end.
Definition not_drift {E} (o : lop E) : Prop := match o with LDrift _ _ _ _ _ => False | _ => True end.
(** the state after a history of calls on a new tile *)
Definition history {E} (nm : nat) (w : mat) (ops : list (lop E)) : life E := fold_left lrun ops (life_new E nm w).
(** reading the tile is exact *)
Definition exact_read (E : lenv) : Prop := forall d w, e_read E d w = w.
(** every row of a matrix multiplied with its own factor *)
Definition scaled_rows (c : vec) (m : mat) : mat := map2 (fun a row => map (Rmult a) row) c m.
