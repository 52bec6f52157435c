(** * The custom tile
    Source: /repo/src/aihwkit/simulator/tiles/custom.py.  Forward and backward are ideal; no gradient noise. *)
From Verif Require Import Prelude.

(** Tensors live in a store; the tile holds the place of its buffer [_analog_weight] *)
Record ctile := { ct_store : list mat; ct_buf : nat; ct_lr : R; ct_o : nat; ct_i : nat }.
Definition ct_weight (t : ctile) : mat := nth (ct_buf t) (ct_store t) [].
Definition with_store (t : ctile) (s : list mat) (b : nat) : ctile := {| ct_store := s; ct_buf := b; ct_lr := ct_lr t; ct_o := ct_o t; ct_i := ct_i t |}.
(** writing into a place of the store *)
Fixpoint put (k : nat) (m : mat) (s : list mat) : list mat :=
  match k, s with O, _ :: r => m :: r | S k', x :: r => x :: put k' m r | _, [] => [] end.
(** custom.py:47-65 [__init__] *)
Definition ct_new (o i : nat) : ctile := {| ct_store := [repeat (repeat 0 i) o]; ct_buf := 0; ct_lr := 1 / 10; ct_o := o; ct_i := i |}.
(** :67-86 [forward] and :88-110 [backward], one input *)
Definition ct_forward (t : ctile) (x : list R) : list R := matvec (ct_weight t) x.
Definition ct_backward (t : ctile) (d : list R) : list R := map (fun j => sumR (map2 (fun v row => v * nth j row 0) d (ct_weight t))) (seq 0 (ct_i t)).
(** :137-138: [d.T @ x] over the batch *)
Definition delta_w (o i : nat) (xs ds : list (list R)) : mat :=
  map (fun a => map (fun b => sumR (map2 (fun x d => nth a d 0 * nth b x 0) xs ds)) (seq 0 i)) (seq 0 o).
(** :112-143 [update]: the buffer is bound to a new tensor *)
Definition ct_update (t : ctile) (xs ds : list (list R)) : ctile :=
  with_store t (ct_store t ++ [map2 (map2 (fun w g => w - ct_lr t * g)) (ct_weight t) (delta_w (ct_o t) (ct_i t) xs ds)]) (length (ct_store t)).
(** :155-161 [set_weights]: copied into the buffer *)
Definition ct_set (t : ctile) (w : mat) : ctile := with_store t (put (ct_buf t) w (ct_store t)) (ct_buf t).
(** :163-175 [get_weights]: a place of the store ([as_ref]), or the values *)
Definition ct_ref (t : ctile) : nat := ct_buf t.
Definition ct_read (t : ctile) (r : nat) : mat := nth r (ct_store t) [].
Definition ct_write (t : ctile) (r : nat) (w : mat) : ctile := with_store t (put r w (ct_store t)) (ct_buf t).
(** :192-202 [set_learning_rate] *)
Definition ct_set_lr (t : ctile) (lr : option R) : ctile :=
  match lr with Some r => {| ct_store := ct_store t; ct_buf := ct_buf t; ct_lr := r; ct_o := ct_o t; ct_i := ct_i t |} | None => t end.
(** :204-217 [set_weights_uniform_random]; [u] are the draws of [rand_like] *)
Definition uniform_value (bmin bmax u : R) : R := u / (bmax - bmin) - bmin.
Definition ct_uniform (t : ctile) (bmin bmax : R) (u : mat) : res ctile :=
  if Rleb bmax bmin then Raise TileError else Ok (ct_set t (map (map (uniform_value bmin bmax)) u)).
