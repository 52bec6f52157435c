(** * Model of the logical tile array ([TileModuleArray])
    Source: /repo/src/aihwkit/simulator/tiles/array.py *)
From Verif Require Import Prelude.

(** array.py:81-97 [TileModuleArray.get_split_sizes].
    Python ints are [Z]; [//] and [divmod] are floor division ([Z.div]/[Z.modulo]);
    [divmod(size, 0)] raises ZeroDivisionError; [base + (i < extra)] adds a bool. *)
Definition get_split_sizes (size split_max_size : Z) : res (list Z) :=
  if (split_max_size <=? 0)%Z then Ok [size]
  else
    let n_splits := ((size + split_max_size - 1) / split_max_size)%Z in
    if (n_splits =? 0)%Z then Raise ZeroDivisionError
    else
      let base := (size / n_splits)%Z in
      let extra := (size mod n_splits)%Z in
      Ok (map (fun i => base + (if Z.of_nat i <? extra then 1 else 0))%Z
              (seq 0 (Z.to_nat n_splits))).

Section Array.
  (** The physical tile class ([rpu_config.tile_class]) is a parameter: its
      constructor, [set_weights], [get_weights] and [forward] (one input vector,
      the leading batch dimensions are mapped pointwise). *)
  Variable tile : Type.
  Variable tile_new : nat -> nat -> tile.          (* out_size in_size *)
  Variable tile_set : tile -> mat -> tile.         (* analog_tile.set_weights(w, None) *)
  Variable tile_get : tile -> mat.                 (* analog_tile.get_weights()[0] *)
  Variable tile_fwd : tile -> vec -> vec.          (* analog_tile(x) *)

  Record tarray : Type := {
    ta_in_sizes  : list nat;
    ta_out_sizes : list nat;
    ta_array     : list (list tile);               (* [in][out] *)
    ta_bias      : option vec
  }.

  (** array.py:43-79 [TileModuleArray.__init__] *)
  Definition tarray_new (out_size in_size : nat) (max_out max_in : Z) (bias : bool)
    : res tarray :=
    ins <- get_split_sizes (Z.of_nat in_size) max_in ;;
    outs <- get_split_sizes (Z.of_nat out_size) max_out ;;
    let ins := map Z.to_nat ins in
    let outs := map Z.to_nat outs in
    Ok {| ta_in_sizes := ins; ta_out_sizes := outs;
          ta_array := map (fun i => map (fun o => tile_new o i) outs) ins;
          ta_bias := if bias then Some (repeat 0 out_size) else None |}.

  (** array.py:112-127, the inner loop over [zip(self.out_sizes, in_tiles)];
      [os] is [out_start]. *)
  Fixpoint set_out_loop (weight : mat) (is ie : nat) (os : nat)
           (out_sizes : list nat) (in_tiles : list tile) : list tile :=
    match out_sizes, in_tiles with
    | o :: out_sizes', t :: in_tiles' =>
        let oe := (os + o)%nat in
        let tile_weight := map (slice is ie) (slice os oe weight) in
        tile_set t tile_weight :: set_out_loop weight is ie oe out_sizes' in_tiles'
    | _, rest => rest                                (* zip stops at the shorter *)
    end.

  (** array.py:111-128, the outer loop over [zip(self.in_sizes, self.array)] *)
  Fixpoint set_in_loop (weight : mat) (out_sizes : list nat) (is : nat)
           (in_sizes : list nat) (arr : list (list tile)) : list (list tile) :=
    match in_sizes, arr with
    | i :: in_sizes', ts :: arr' =>
        let ie := (is + i)%nat in
        set_out_loop weight is ie 0 out_sizes ts
          :: set_in_loop weight out_sizes ie in_sizes' arr'
    | _, rest => rest
    end.

  (** array.py:99-131 [set_weights]. [reshape] is the identity on a matrix that
      already has the right shape (the only case modelled). *)
  Definition tarray_set_weights (a : tarray) (weight : mat) (bias : option vec) : tarray :=
    {| ta_in_sizes := ta_in_sizes a; ta_out_sizes := ta_out_sizes a;
       ta_array := set_in_loop weight (ta_out_sizes a) 0 (ta_in_sizes a) (ta_array a);
       ta_bias := match ta_bias a, bias with
                  | Some _, Some b => Some b
                  | old, _ => old
                  end |}.

  (** [cat(list, 1)] of matrices with the same number of rows *)
  Fixpoint cat1 (ms : list mat) : mat :=
    match ms with
    | [] => []
    | [m] => m
    | m :: rest => map2 (@app R) m (cat1 rest)
    end.

  (** array.py:133-157 [get_weights] *)
  Definition tarray_get_weights (a : tarray) : mat * option vec :=
    (cat1 (map (fun in_tiles => concat (map tile_get in_tiles)) (ta_array a)), ta_bias a).

  (** [torch.split(x, sizes)] along the last dimension *)
  Fixpoint split_vec (sizes : list nat) (x : vec) : list vec :=
    match sizes with
    | [] => []
    | s :: r => firstn s x :: split_vec r (skipn s x)
    end.

  (** array.py:155-182 [forward], for one input vector. The accumulated
      [result.add_] is the fold. [self.bias.view(tensor_view)] broadcasts the
      bias along the last (output) dimension. *)
  Definition tarray_forward (a : tarray) (x : vec) : vec :=
    let result :=
      if Nat.eqb (length (ta_in_sizes a) * length (ta_out_sizes a)) 1 then
        match ta_array a with
        | (t :: _) :: _ => tile_fwd t x
        | _ => []
        end
      else
        let partial := map2 (fun xs in_tiles => concat (map (fun t => tile_fwd t xs) in_tiles))
                            (split_vec (ta_in_sizes a) x) (ta_array a) in
        match partial with
        | [] => []
        | p :: ps => fold_left vadd ps p
        end in
    match ta_bias a with
    | Some b => vadd result b
    | None => result
    end.
End Array.

Arguments ta_in_sizes {tile} _.
Arguments ta_out_sizes {tile} _.
Arguments ta_array {tile} _.
Arguments ta_bias {tile} _.
