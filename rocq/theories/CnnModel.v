(** * Convolution layers (nn/modules/conv.py, nn/modules/conv_mapped.py) and the indexed passes of RPUCuda
    A tensor is the list of its elements in memory order (NC(D)HW, contiguous: the bindings call
    [contiguous()], rpu_base_tiles.cpp:625-628, 661-664, 697-700).  A read or write outside of a buffer is undefined
    behaviour in C++; here it is [Raise IndexError], so a result [Ok _] also says that no such access
    happened.  Sizes are natural numbers: no overflow of [int]. *)
From Verif Require Import Prelude Rand.
Local Open Scope nat_scope.

(** the elements [f 0 .. f (n-1)] *)
Definition tab {A} (n : nat) (f : nat -> A) : list A := map f (seq 0 n).
(** [\sum_{i<n} f i] *)
Definition Sum (n : nat) (f : nat -> R) : R := sumR (map f (seq 0 n)).
(** read through a pointer *)
Definition rd {A} (l : list A) (i : nat) : res A :=
  match nth_error l i with Some a => Ok a | None => Raise IndexError end.

(** ** The index tables *)
(** conv.py:112-116, conv_mapped.py:157-160 [get_image_size], for a kernel that fits the padded image *)
Definition image_size (n k s p d : nat) : nat := (n + 2 * p - d * (k - 1) - 1) / s + 1.
(** torch.nn.functional.pad with [value=0] in one dimension: position [i] of the padded axis is position
    [i - p] of the image, or padding *)
Definition inside (n p i : nat) : bool := (p <=? i) && (i <? p + n).
(** Tensor.unfold(dim, k, s) / torch.nn.functional.unfold fail if the kernel does not fit *)
Definition fits_kernel (n k s p d : nat) : bool := (1 <=? k) && (1 <=? s) && (d * (k - 1) + 1 <=? n + 2 * p).

(** conv.py:361-372, 783-793, conv_mapped.py:519-530, 956-967: the table of the first channel is repeated for the
    others, entries that are not padding are moved by [input_size / in_channels] per channel.  [+=] on a
    float64 tensor, truncated to int32 at the end. *)
Definition repeat_channels (input_size in_channels : nat) (orig : list nat) : list nat :=
  orig ++ flat_map (fun i => map (fun j => if j =? 0 then 0 else j + input_size * (i + 1) / in_channels) orig)
                   (seq 0 (in_channels - 1)).

(** kernel geometry; 1d and 3d layers reject a dilation other than 1 (conv.py:246-247, 636-637) *)
Inductive geom : Type :=
| G1 (k s p : nat)
| G2 (k0 k1 s0 s1 p0 p1 d0 d1 : nat)
| G3 (k0 k1 k2 s0 s1 s2 p0 p1 p2 : nat).

(** number of kernel elements: conv.py:335, 532, 727 [get_tile_size] without the channels *)
Definition kernel_elems (g : geom) : nat :=
  match g with G1 k _ _ => k | G2 k0 k1 _ _ _ _ _ _ => k0 * k1 | G3 k0 k1 k2 _ _ _ _ _ _ => k0 * k1 * k2 end.

(** conv.py:352-359: [arange(2, H + 2)], padded, [unfold(2, k, s)], [reshape(-1, k).transpose(0, 1).flatten()] *)
Definition table1 (h k s p : nat) : list nat :=
  let l := image_size h k s p 1 in
  flat_map (fun a => tab l (fun o => let i := o * s + a in if inside h p i then 2 + (i - p) else 0)) (seq 0 k).
(** conv.py:550-565: [arange(2, C*H*W + 2)] as an image [1,C,H,W], torch.nn.functional.unfold.  Row
    [(c * k0 + a) * k1 + b], column [oy * OW + ox] of the result *)
Definition table2 (c h w k0 k1 s0 s1 p0 p1 d0 d1 : nat) : list nat :=
  let oh := image_size h k0 s0 p0 d0 in
  let ow := image_size w k1 s1 p1 d1 in
  flat_map (fun r =>
    let ch := r / (k0 * k1) in let a := (r / k1) mod k0 in let b := r mod k1 in
    tab (oh * ow) (fun l =>
      let i := (l / ow) * s0 + a * d0 in let j := (l mod ow) * s1 + b * d1 in
      if inside h p0 i && inside w p1 j then 2 + (ch * h + (i - p0)) * w + (j - p1) else 0)) (seq 0 (c * (k0 * k1))).
(** conv.py:745-781: [arange(2, D*H*W + 2)] as an image [1,1,D,H,W], padded, three times [unfold],
    [reshape(-1, k0*k1*k2).transpose(0, 1).flatten()] *)
Definition table3 (d h w k0 k1 k2 s0 s1 s2 p0 p1 p2 : nat) : list nat :=
  let od := image_size d k0 s0 p0 1 in
  let oh := image_size h k1 s1 p1 1 in
  let ow := image_size w k2 s2 p2 1 in
  flat_map (fun r =>
    let a := r / (k1 * k2) in let b := (r / k2) mod k1 in let c := r mod k2 in
    tab (od * (oh * ow)) (fun l =>
      let i := l / (oh * ow) * s0 + a in let j := (l / ow) mod oh * s1 + b in let e := l mod ow * s2 + c in
      if inside d p0 i && inside h p1 j && inside w p2 e
      then 2 + ((i - p0) * h + (j - p1)) * w + (e - p2) else 0)) (seq 0 (k0 * k1 * k2)).

(** what [set_indexed] stores: the table and [image_sizes], split into the input sizes (without the
    batch) and the output sizes (without batch and channels) *)
Record itable : Type := { it_tab : list nat; it_in : list nat; it_out : list nat }.
Definition prodn (l : list nat) : nat := fold_right Nat.mul 1 l.

(** conv.py:337-386, 534-580, 729-815 [_calculate_indexes] and conv_mapped.py:496-539, 699-740, 906-978 (where there
    is never an analog bias).  [sh] is the shape of the input without the batch: [C; (D;) H; (W)].
    conv.py:374-376, 567-569, 797-801: for an analog bias, [numel // kernel] ones are appended. *)
Definition calc_indexes (g : geom) (in_channels : nat) (analog_bias : bool) (sh : list nat) : res itable :=
  let with_bias t k := if analog_bias then t ++ repeat 1 (length t / k) else t in
  match g, sh with
  | G1 k s p, [c; h] =>
      if fits_kernel h k s p 1 then
        let t := repeat_channels (c * h) in_channels (table1 h k s p) in
        Ok {| it_tab := with_bias t k; it_in := [in_channels; h]; it_out := [image_size h k s p 1] |}
      else Raise RuntimeError
  | G2 k0 k1 s0 s1 p0 p1 d0 d1, [c; h; w] =>
      if fits_kernel h k0 s0 p0 d0 && fits_kernel w k1 s1 p1 d1 then
        let t := table2 c h w k0 k1 s0 s1 p0 p1 d0 d1 in
        Ok {| it_tab := with_bias t (k0 * k1); it_in := [in_channels; h; w];
              it_out := [image_size h k0 s0 p0 d0; image_size w k1 s1 p1 d1] |}
      else Raise RuntimeError
  | G3 k0 k1 k2 s0 s1 s2 p0 p1 p2, [c; d; h; w] =>
      if fits_kernel d k0 s0 p0 1 && fits_kernel h k1 s1 p1 1 && fits_kernel w k2 s2 p2 1 then
        let t := repeat_channels (c * (d * (h * w))) in_channels (table3 d h w k0 k1 k2 s0 s1 s2 p0 p1 p2) in
        Ok {| it_tab := with_bias t (k0 * k1 * k2); it_in := [in_channels; d; h; w];
              it_out := [image_size d k0 s0 p0 1; image_size h k1 s1 p1 1; image_size w k2 s2 p2 1] |}
      else Raise RuntimeError
  | _, _ => Raise IndexError
  end.

(** ** The indexed passes of RPUCuda *)
(** rpu.cpp:895-906 copyIndexedInput, [trans], no batch slice *)
Definition copy_indexed_input (t : list nat) (src : list R) (size m dim3 : nat) : res (list R) :=
  let ims := length src / dim3 in
  let M := m * size in
  let L := m * dim3 in
  mapM (fun idx =>
    let i := (idx mod L) / m * M + idx mod m + idx / L * m in
    j <- rd t (i mod M) ;;
    if j <=? 1 then Ok (INR j) else rd src ((j - 2) + i / M * ims)) (seq 0 (size * m * dim3)).
(** [out[i] += v] *)
Definition add_at (out : list R) (i : nat) (v : R) : res (list R) :=
  match nth_error out i with
  | Some a => Ok (firstn i out ++ [(a + v)%R] ++ skipn (i + 1) out)
  | None => Raise IndexError
  end.
(** rpu.cpp:978-988 copyIndexedOutput, [trans], no batch slice, into a zeroed buffer of [total] elements (rpu.cpp:1188) *)
Definition copy_indexed_output (t : list nat) (src : list R) (total size m dim3 : nat) : res (list R) :=
  let oms := total / dim3 in
  let M := m * size in
  let L := m * dim3 in
  fold_left (fun acc idx =>
    out <- acc ;;
    let i := (idx mod L) / m * M + idx mod m + idx / L * m in
    j <- rd t (i mod M) ;;
    if 1 <? j then (v <- rd src idx ;; add_at out ((j - 2) + i / M * oms) v) else Ok out)
    (seq 0 (size * m * dim3)) (Ok (repeat 0%R total)).
(** math_util.cpp:322-341 permute132 without bias: input [d3][d2][d1], output [d2][d3][d1] *)
Definition permute132 (x : list R) (d1 d2 d3 : nat) : list R :=
  flat_map (fun i => flat_map (fun j => tab d1 (fun k => nth (j * (d1 * d2) + i * d1 + k) x 0%R)) (seq 0 d3)) (seq 0 d2).

(** element [o][x] of a weight matrix *)
Definition wat (W : mat) (o x : nat) : R := nth x (nth o W []) 0%R.
(** rpu.cpp:580-591 RPUSimple::forwardMatrix with [x_trans] and [d_trans] *)
Definition forward_matrix_t (alpha : R) (W : mat) (xs ds : nat) (X : list R) (mb : nat) : list R :=
  flat_map (fun o => tab mb (fun b => (alpha * Sum xs (fun x => wat W o x * nth (x * mb + b) X 0))%R)) (seq 0 ds).
(** rpu.cpp:605-613 RPUSimple::backwardMatrix with [d_trans] and [x_trans] *)
Definition backward_matrix_t (alpha : R) (W : mat) (xs ds : nat) (D : list R) (mb : nat) : list R :=
  flat_map (fun x => tab mb (fun b => (alpha * Sum ds (fun o => wat W o x * nth (o * mb + b) D 0))%R)) (seq 0 xs).
(** rpu.cpp:624-634 RPUSimple::updateMatrix with [x_trans] and [d_trans], beta 1 *)
Definition update_matrix_t (lr : R) (W : mat) (xs ds : nat) (X D : list R) (mb : nat) : mat :=
  tab ds (fun o => tab xs (fun x => (wat W o x - lr * Sum mb (fun b => nth (o * mb + b) D 0 * nth (x * mb + b) X 0))%R)).

(** rpu.cpp:1116-1141 RPUSimple::forwardIndexed with [trans] *)
Definition forward_indexed (alpha : R) (W : mat) (xs ds : nat) (t : list nat) (X : list R) (m dim3 : nat) : res (list R) :=
  xt <- copy_indexed_input t X xs m dim3 ;;
  let d := forward_matrix_t alpha W xs ds xt (m * dim3) in
  Ok (if 1 <? dim3 then permute132 d m dim3 ds else d).
(** rpu.cpp:1169-1194 RPUSimple::backwardIndexed with [trans] *)
Definition backward_indexed (alpha : R) (W : mat) (xs ds : nat) (t : list nat) (D : list R) (total m dim3 : nat) : res (list R) :=
  let d := if dim3 =? 1 then D else permute132 D m ds dim3 in
  copy_indexed_output t (backward_matrix_t alpha W xs ds d (m * dim3)) total xs m dim3.
(** rpu.cpp:1221-1238 RPUSimple::updateIndexed with [trans] *)
Definition update_indexed (lr : R) (W : mat) (xs ds : nat) (t : list nat) (X D : list R) (m dim3 : nat) : res mat :=
  xt <- copy_indexed_input t X xs m dim3 ;;
  Ok (update_matrix_t lr W xs ds xt (permute132 D m ds dim3) (m * dim3)).

(** rpu.cpp:42-58 RPUAbstract::forwardMatrix with [x_trans] and [d_trans], used by the tiles with a noisy pass
    (rpu.h:23-29, USE_LOOPED_MATRIX_FORWARD): one vector after the other through [fv] *)
Definition column (X : list R) (xs mb b : nat) : list R := tab xs (fun x => nth (x * mb + b) X 0%R).
Definition forward_matrix_loop (fv : list R -> M (list R)) (xs ds : nat) (X : list R) (mb : nat) : M (list R) :=
  ys <~ mapMM (fun b => fv (column X xs mb b)) (seq 0 mb) ;;
  Ret (flat_map (fun o => tab mb (fun b => nth o (nth b ys []) 0%R)) (seq 0 ds)).
(** forwardIndexed of such a tile *)
Definition forward_indexed_loop (fv : list R -> M (list R)) (xs ds : nat) (t : list nat) (X : list R) (m dim3 : nat) : M (list R) :=
  match copy_indexed_input t X xs m dim3 with
  | Raise e => Throw e
  | Ok xt =>
      d <~ forward_matrix_loop fv xs ds xt (m * dim3) ;;
      Ret (if 1 <? dim3 then permute132 d m dim3 ds else d)
  end.

(** ** The layers *)
(** the bias of the tile module: none, an extra column of the tile, or a digital vector *)
Inductive cbias : Type := NoBias | AnalogBias | DigitalBias (b : list R).
Record conv : Type := {
  cv_g : geom;
  cv_in : nat;            (* in_channels *)
  cv_out : nat;           (* out_channels *)
  cv_bias : cbias;
  cv_w : mat;             (* weights of the tile, with the bias column for an analog bias *)
  cv_it : option itable;  (* what set_indexed stored in the tile *)
  cv_isize : nat          (* conv.py:92 input_size *)
}.
Definition is_analog (b : cbias) : bool := match b with AnalogBias => true | _ => false end.
(** number of columns of the tile *)
Definition cols (g : geom) (c : nat) (b : cbias) : nat := c * kernel_elems g + (if is_analog b then 1 else 0).
(** a tensor of shape [N; O; L] plus a vector viewed as [O; 1]: tiles/module.py, conv.py:266, 462, 657 tensor_view *)
Definition add_bias (b : cbias) (n o l : nat) (y : list R) : list R :=
  match b with
  | DigitalBias bs => flat_map (fun i => flat_map (fun j => tab l (fun k => (nth ((i * o + j) * l + k) y 0 + nth j bs 0)%R)) (seq 0 o)) (seq 0 n)
  | _ => y
  end.
(** periphery.py:1297-1340 joint_forward_indexed, rpu_base_tiles.cpp:622-643 (no output scales, no input range), and
    the digital bias.  The output has the shape [n; out; it_out]. *)
Definition tile_forward_indexed (g : geom) (c o : nat) (b : cbias) (W : mat) (it : itable) (n : nat) (x : list R) : res (list R) :=
  let l := prodn (it_out it) in
  y <- forward_indexed 1 W (cols g c b) o (it_tab it) x l n ;;
  Ok (add_bias b n o l y).
(** the same for a tile with a noisy pass [fv] *)
Definition tile_forward_loop (fv : list R -> M (list R)) (g : geom) (c o : nat) (b : cbias) (it : itable) (n : nat) (x : list R) : M (list R) :=
  let l := prodn (it_out it) in
  y <~ forward_indexed_loop fv (cols g c b) o (it_tab it) x l n ;;
  Ret (add_bias b n o l y).
(** conv.py:153-172 forward on an indexed tile: the table is made anew only if the number of elements of a sample changed *)
Definition conv_forward (cv : conv) (n : nat) (sh : list nat) (x : list R) : res (list nat * list R * conv) :=
  let isize := prodn sh in
  st <- (match cv_it cv with
         | Some it => if cv_isize cv =? isize then Ok (it, cv_isize cv) else
             (it' <- calc_indexes (cv_g cv) (cv_in cv) (is_analog (cv_bias cv)) sh ;; Ok (it', isize))
         | None => it' <- calc_indexes (cv_g cv) (cv_in cv) (is_analog (cv_bias cv)) sh ;; Ok (it', isize)
         end) ;;
  let it := fst st in
  y <- tile_forward_indexed (cv_g cv) (cv_in cv) (cv_out cv) (cv_bias cv) (cv_w cv) it n x ;;
  Ok (n :: cv_out cv :: it_out it, y,
      {| cv_g := cv_g cv; cv_in := cv_in cv; cv_out := cv_out cv; cv_bias := cv_bias cv; cv_w := cv_w cv;
         cv_it := Some it; cv_isize := snd st |}).
(** functions.py:66-118 backward, periphery.py:1342-1379 backward_indexed, rpu_base_tiles.cpp:658-677: the gradient with
    respect to the input, of the shape stored by the last [set_indexed] *)
Definition conv_backward (cv : conv) (n : nat) (d : list R) : res (list nat * list R) :=
  match cv_it cv with
  | None => Raise TileError
  | Some it =>
      let l := length d / n / cv_out cv in
      g <- backward_indexed 1 (cv_w cv) (cols (cv_g cv) (cv_in cv) (cv_bias cv)) (cv_out cv) (it_tab it) d
             (n * prodn (it_in it)) l n ;;
      Ok (n :: it_in it, g)
  end.
(** periphery.py:1381-1394 update_indexed, rpu_base_tiles.cpp:694-714, for the ideal (floating point) tile *)
Definition conv_update (cv : conv) (lr : R) (n : nat) (x d : list R) : res conv :=
  match cv_it cv with
  | None => Raise TileError
  | Some it =>
      let l := length d / (n * cv_out cv) in
      w <- update_indexed lr (cv_w cv) (cols (cv_g cv) (cv_in cv) (cv_bias cv)) (cv_out cv) (it_tab it) x d l n ;;
      Ok {| cv_g := cv_g cv; cv_in := cv_in cv; cv_out := cv_out cv; cv_bias := cv_bias cv; cv_w := w;
            cv_it := cv_it cv; cv_isize := cv_isize cv |}
  end.

(** torch.nn.functional.unfold of one sample [C; H; W] *)
Definition unfold2 (c h w k0 k1 s0 s1 p0 p1 d0 d1 : nat) (x : nat -> R) (l r : nat) : R :=
  let ow := image_size w k1 s1 p1 d1 in
  let ch := r / (k0 * k1) in let a := (r / k1) mod k0 in let b := r mod k1 in
  let i := (l / ow) * s0 + a * d0 in let j := (l mod ow) * s1 + b * d1 in
  if inside h p0 i && inside w p1 j then x ((ch * h + (i - p0)) * w + (j - p1)) else 0%R.
(** conv.py:174-188 forward without an index: unfold, [transpose(-1, -2)], the tile ([y = W x] per row, an analog bias
    sees an input 1, a digital bias is added to the last dimension), [transpose(-1, -2)], [view].  Also
    conv_mapped.py:210-227 [_single_unfold]. *)
Definition conv2_unfold (g : geom) (c o : nat) (b : cbias) (W : mat) (n h w : nat) (x : list R) : res (list nat * list R) :=
  match g with
  | G2 k0 k1 s0 s1 p0 p1 d0 d1 =>
      if fits_kernel h k0 s0 p0 d0 && fits_kernel w k1 s1 p1 d1 then
        let oh := image_size h k0 s0 p0 d0 in
        let ow := image_size w k1 s1 p1 d1 in
        let row i l := tab (c * (k0 * k1)) (unfold2 c h w k0 k1 s0 s1 p0 p1 d0 d1 (fun q => nth (i * (c * (h * w)) + q) x 0%R) l) in
        let tile v := let y := matvec W (match b with AnalogBias => v ++ [1%R] | _ => v end) in
                      match b with DigitalBias bs => vadd y bs | _ => y end in
        Ok ([n; o; oh; ow],
            flat_map (fun i => flat_map (fun j => tab (oh * ow) (fun l => nth j (tile (row i l)) 0%R)) (seq 0 o)) (seq 0 n))
      else Raise RuntimeError
  | _ => Raise RuntimeError
  end.

(** ** Layers mapped to several tiles (conv_mapped.py) *)
(** conv_mapped.py:121-151 get_split_sizes *)
Definition get_split_sizes (size max group : nat) : res (list nat) :=
  if max =? 0 then Ok [size / group]
  else if max <? group then Raise ModuleError
  else
    let per := size / group in
    let mx := max / group in
    let n := (per + mx - 1) / mx in
    Ok (tab n (fun i => per / n + (if i <? per mod n then 1 else 0))).
(** torch.split(t, sizes, dim) along a dimension: the pieces [start, start+size) *)
Fixpoint starts (from : nat) (sizes : list nat) : list (nat * nat) :=
  match sizes with [] => [] | s :: r => (from, s) :: starts (from + s) r end.
(** conv_mapped.py:276-304 set_weights: the weight [out, C, K] is split over channels and over outputs.  The tile for
    input channels [(c0, cn)] and outputs [(o0, on)] gets [on] rows of [cn * K] *)
Definition map_weights (K : nat) (ins outs : list nat) (W : mat) : list (list mat) :=
  map (fun ci => map (fun oi => tab (snd oi) (fun o => tab (snd ci * K) (fun x => wat W (fst oi + o) (fst ci * K + x))))
                     (starts 0 outs)) (starts 0 ins).
(** conv_mapped.py:306-329 get_weights: [cat] over outputs (dim 0), then over inputs (dim 1) *)
Definition hcat (a b : mat) : mat := map2 (@app R) a b.
Definition cat1 (ms : list mat) : mat := match ms with [] => [] | m :: r => fold_left hcat r m end.
Definition unmap_weights (tiles : list (list mat)) : mat := cat1 (map (@concat (list R)) tiles).
(** a slice of channels [(c0, cn)] of a batch of samples with [S] elements per channel *)
Definition channel_slice (n C S : nat) (ci : nat * nat) (x : list R) : list R :=
  flat_map (fun i => tab (snd ci * S) (fun q => nth ((i * C + fst ci) * S + q) x 0%R)) (seq 0 n).
(** [cat(out_result, 1)] of tensors [n; on; l] *)
Definition cat_channels (n l : nat) (outs : list nat) (ys : list (list R)) : list R :=
  flat_map (fun i => concat (map2 (fun on y => tab (on * l) (fun q => nth (i * (on * l) + q) y 0%R)) outs ys)) (seq 0 n).
(** conv_mapped.py:229-273 forward with indexed tiles, after [_recalculate_indexes] (186-208) for this input: every
    input slice goes through its own tiles, results are added, then the digital bias *)
Definition mapped_forward (g : geom) (C : nat) (ins outs : list nat) (b : cbias) (tiles : list (list mat))
    (n : nat) (sp : list nat) (x : list R) : res (list R) :=
  let S := prodn sp in
  parts <- mapM (fun p : (nat * nat) * list mat =>
    it <- calc_indexes g (snd (fst p)) false (snd (fst p) :: sp) ;;
    ys <- mapM (fun q : nat * mat =>
            tile_forward_indexed g (snd (fst p)) (fst q) NoBias (snd q) it n (channel_slice n C S (fst p) x))
          (combine outs (snd p)) ;;
    Ok (prodn (it_out it), cat_channels n (prodn (it_out it)) outs ys)) (combine (starts 0 ins) tiles) ;;
  match parts with
  | [] => Raise IndexError
  | (l, y0) :: r =>
      let y := fold_left vadd (map snd r) y0 in
      Ok (add_bias b n (fold_right Nat.add 0 outs) l y)
  end.
