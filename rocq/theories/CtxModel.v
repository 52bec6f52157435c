(** * Model of the analog context parameter and its public data views
    Sources: /repo/src/aihwkit/optim/context.py, /repo/src/aihwkit/optim/weight_view.py *)
From Verif Require Import Prelude PeriModel.
From Coq Require Import Ascii.
Local Open Scope string_scope.

(** simulator/parameters/enums.py [AnalogContextDataViewMode] *)
Inductive vmode : Type := PLACEHOLDER | DATA_VIEW | BUFFER.

(** weight_view.py:17-19 [is_inplace_operation] *)
Definition is_inplace_operation (name : string) : bool :=
  match rev (list_ascii_of_string name) with
  | a :: b :: _ => Ascii.eqb a "_" && negb (Ascii.eqb b "_")
  | [a] => Ascii.eqb a "_"
  | [] => false
  end.
(** weight_view.py:95-127 [_PLACEHOLDER_METADATA_FUNCTIONS] *)
Definition metadata_functions : list string :=
  ["__get__"; "__len__"; "__reduce__"; "__reduce_ex__"; "detach"; "dim"; "element_size";
   "is_contiguous"; "nelement"; "numel"; "size"; "storage_offset"; "stride"; "type";
   "requires_grad_"; "ndimension"; "get_device"; "data_ptr"; "dense_dim"; "sparse_dim";
   "has_names"; "is_floating_point"; "is_complex"; "is_signed"; "is_conj"; "is_neg";
   "is_pinned"; "is_shared"; "is_inference"; "is_distributed"; "_is_view"; "_is_zerotensor"].
Definition is_metadata (name : string) : bool := existsb (String.eqb name) metadata_functions.

(** Memory a tensor object refers to: the tile's own weights, the context's digital
    buffer, a copy computed from the weights, a tensor unrelated to the weights. *)
Inductive mem : Type := MRaw | MBuf | MCopy | MOther.
(** Python objects the user can hold. [OPlain] is an ordinary torch tensor. *)
Inductive obj : Type := OCtx | ORo (m : mem) | OPh | OPlain (m : mem) | OMeta.

(** The tile with its context *)
Record world : Type := {
  w_tile : ptile;          (* the tile; [t_w] is the raw weight storage the context shares *)
  w_mode : vmode;          (* _data_view_mode *)
  w_buf : option mat       (* _data_buffer *)
}.
Definition with_raw (w : world) (m : mat) : world :=
  {| w_tile := with_w (w_tile w) m; w_mode := w_mode w; w_buf := w_buf w |}.
Definition with_buf (w : world) (b : option mat) : world :=
  {| w_tile := w_tile w; w_mode := w_mode w; w_buf := b |}.

(** context.py:264-274 [_logical_shape] applied to values: the raw matrix without the
    bias column *)
Definition ctx_logical_raw (c : pcfg) (t : ptile) : mat :=
  if analog_bias c then map (firstn (c_in c)) (t_w t) else t_w t.
(** context.py:276-297 [_logical_data]: value, and which memory it lives in *)
Definition ctx_logical_data (c : pcfg) (t : ptile) : mat :=
  match get_scales t with
  | None => ctx_logical_raw c t
  | Some s => scale_rows s (ctx_logical_raw c t)
  end.
Definition ctx_logical_mem (t : ptile) : mem :=
  match get_scales t with None => MRaw | Some _ => MCopy end.
(** context.py:303-305 [_new_data_buffer] *)
Definition new_data_buffer (c : pcfg) (t : ptile) : mat :=
  map (map (fun _ => 0)) (ctx_logical_raw c t).

(** context.py:236-244 the [data_view_mode] setter *)
Definition set_mode (c : pcfg) (m : vmode) (w : world) : world :=
  {| w_tile := w_tile w; w_mode := m;
     w_buf := match m with BUFFER => Some (new_data_buffer c (w_tile w)) | _ => None end |}.

(** context.py:311-320 [_public_data] ([ctx.data]) *)
Definition public_data (w : world) : obj :=
  match w_mode w with
  | PLACEHOLDER => OPh
  | DATA_VIEW => ORo (ctx_logical_mem (w_tile w))
  | BUFFER => OPlain MBuf
  end.

(** A torch function: its name and what it does to plain tensors.  [FInplace g]
    replaces the contents of its first argument (of every tensor in it, when the
    first argument is a list) by [g] of them; with [out=] the result is written to
    the given target. [FView] returns a tensor sharing the argument's memory, [FValue]
    a new tensor with computed values, [FInfo] a value that is no tensor. *)
Inductive fkind : Type := FInplace (g : mat -> mat) | FView | FValue (g : mat -> mat) | FInfo.
Record fn : Type := { f_name : string; f_kind : fkind }.
Inductive arg : Type := A1 (o : obj) | AList (l : list obj).
Definition objs_of (a : arg) : list obj := match a with A1 o => [o] | AList l => l end.

(** weight_view.py:33-53 [raise_if_readonly_write_target] *)
Definition readonly_guard (is_ro : obj -> bool) (name : string) (args : list arg) (out : option obj) : bool :=
  (is_inplace_operation name
   && match args with A1 o :: _ => is_ro o | _ => false end)
  || match out with Some o => is_ro o | None => false end.

Definition map_arg (f : obj -> res obj) (a : arg) : res arg :=
  match a with
  | A1 o => o' <- f o ;; Ok (A1 o')
  | AList l => l' <- mapM f l ;; Ok (AList l')
  end.

(** context.py:322-333 [_torch_function_data] *)
Definition torch_function_data (w : world) (name : string) : res obj :=
  match w_mode w with
  | PLACEHOLDER => if is_metadata name then Ok OPh else Raise RuntimeError
  | DATA_VIEW => Ok (OPlain (ctx_logical_mem (w_tile w)))
  | BUFFER => Ok (OPlain MBuf)
  end.

(** what the function does on plain tensors *)
Definition write (m : mem) (g : mat -> mat) (w : world) : world :=
  match m with
  | MRaw => with_raw w (g (t_w (w_tile w)))
  | MBuf => with_buf w (option_map g (w_buf w))
  | _ => w
  end.
Definition write_obj (g : mat -> mat) (w : world) (o : obj) : world :=
  match o with OPlain m => write m g w | _ => w end.
Definition exec (w : world) (f : fn) (args : list arg) (out : option obj) : world * obj :=
  let first := match args with a :: _ => objs_of a | [] => [] end in
  let ret_first := match first with o :: _ => o | [] => OMeta end in
  match out with
  | Some o => (write_obj (match f_kind f with FValue g => g | FInplace g => g | _ => fun m => m end) w o, o)
  | None =>
    match f_kind f with
    | FInplace g => (fold_left (write_obj g) first w, ret_first)
    | FView => (w, ret_first)
    | FValue _ => (w, OPlain (match ret_first with
                              | OPlain MRaw | OPlain MCopy => MCopy
                              | _ => MOther end))
    | FInfo => (w, OMeta)
    end
  end.

(** weight_view.py:145-190 the [PlaceholderDataView] handler *)
Definition is_ph (o : obj) : bool := match o with OPh => true | _ => false end.
Definition handle_ph (w : world) (f : fn) (args : list arg) (out : option obj) : res (world * obj) :=
  if existsb (fun a => existsb is_ph (objs_of a)) args || match out with Some o => is_ph o | None => false end then
    if readonly_guard is_ph (f_name f) args out then Raise RuntimeError
    else if negb (is_metadata (f_name f)) then Raise RuntimeError
    else if String.eqb (f_name f) "detach" then Ok (w, OPh)
    else
      let unwrap o := if is_ph o then OPlain MOther else o in
      let un a := match a with A1 o => A1 (unwrap o) | AList l => AList (map unwrap l) end in
      Ok (exec w f (map un args) (option_map unwrap out))
  else Ok (exec w f args out).

(** weight_view.py:71-86 the [ReadOnlyWeightView] handler *)
Definition is_ro_view (o : obj) : bool := match o with ORo _ => true | _ => false end.
Definition handle_ro (w : world) (f : fn) (args : list arg) (out : option obj) : res (world * obj) :=
  if existsb (fun a => existsb is_ro_view (objs_of a)) args
     || match out with Some o => is_ro_view o | None => false end then
    if readonly_guard is_ro_view (f_name f) args out then Raise RuntimeError
    else
      let unwrap o := match o with ORo m => OPlain m | _ => o end in
      let un a := match a with A1 o => A1 (unwrap o) | AList l => AList (map unwrap l) end in
      handle_ph w f (map un args) (option_map unwrap out)
  else handle_ph w f args out.

(** context.py:158-196 [AnalogContext.__torch_function__] *)
Definition is_ctx (o : obj) : bool := match o with OCtx => true | _ => false end.
Definition call (w : world) (f : fn) (args : list arg) (out : option obj) : res (world * obj) :=
  if existsb (fun a => existsb is_ctx (objs_of a)) args || match out with Some o => is_ctx o | None => false end then
    match String.eqb (f_name f) "requires_grad_", args with
    | true, A1 OCtx :: _ => Ok (w, OCtx)
    | _, _ =>
      let is_ro o := match o with
                     | OCtx => match w_mode w with BUFFER => false | _ => true end
                     | ORo _ => true
                     | _ => false end in
      if readonly_guard is_ro (f_name f) args out then Raise RuntimeError
      else
        let conv o := match o with OCtx => torch_function_data w (f_name f) | _ => Ok o end in
        args' <- mapM (map_arg conv) args ;;
        out' <- match out with Some o => o' <- conv o ;; Ok (Some o') | None => Ok None end ;;
        handle_ro w f args' out'
    end
  else handle_ro w f args out.

(** Things a user program can do with the context and the objects it got from it.
    [n] refers to the n-th object obtained so far (0 is the context itself). *)
Inductive argi : Type := I1 (n : nat) | IList (l : list nat).
Inductive cop : Type :=
| CMode (m : vmode)                     (* ctx.data_view_mode = m *)
| CData                                  (* ctx.data *)
| CSetData                               (* ctx.data = ... *)
| CSetItem (n : nat) (g : mat -> mat)    (* obj[...] = ... *)
| CCall (f : fn) (args : list argi) (out : option nat).

Definition geto (l : list obj) (n : nat) : obj := nth n l OMeta.
Definition geta (l : list obj) (a : argi) : arg :=
  match a with I1 n => A1 (geto l n) | IList ns => AList (map (geto l) ns) end.

(** one statement; an exception leaves everything as it was *)
Definition cstep (c : pcfg) (s : world * list obj) (o : cop) : world * list obj :=
  let '(w, objs) := s in
  match o with
  | CMode m => (set_mode c m w, objs)
  | CData => (w, (objs ++ [public_data w])%list)
  | CSetData => s                                      (* context.py:381-385 raises *)
  | CSetItem n g =>
      match geto objs n with
      | OPlain m => (write m g w, objs)
      | _ => s                                         (* context.py:198-203, weight_view.py:88-93,201-203 raise *)
      end
  | CCall f args out =>
      match call w f (map (geta objs) args) (option_map (geto objs) out) with
      | Ok (w', r) => (w', (objs ++ [r])%list)
      | Raise _ => s
      end
  end.
Definition crun (c : pcfg) (w : world) (p : list cop) : world * list obj :=
  fold_left (cstep c) p (w, [OCtx]).
