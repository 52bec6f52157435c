(** * What a faithful conversion of parameters is *)
From Verif Require Import Prelude CfgModel.
Local Open Scope string_scope.

(** values of the declared types: an int may stand for a float, a bool may not (but a bool is an int in Python) *)
Inductive typed : pty -> pval -> Prop :=
| ty_int z : typed TyInt (VInt z)
| ty_int_bool b : typed TyInt (VBool b)
| ty_float r : typed TyFloat (VFloat r)
| ty_float_int z : typed TyFloat (VInt z)
| ty_bool b : typed TyBool (VBool b)
| ty_str s : typed TyStr (VStr s)
| ty_list l : typed TyList (VList l).
Definition not_plain (v : pval) : Prop := match v with VEnum _ _ | VObj _ => True | _ => False end.
(** fields that are not for the core *)
Definition ignored (c : pclass) (n : string) : Prop := n = "unit_cell_devices" \/ n = "device" \/ In n (pc_ignore c).
Definition no_core_class (v : pval) : Prop := match v with VObj (Obj c _ _) => pc_bind c = None | _ => False end.
(** [image o b]: [b] is an object of the class that [o] asks for and has exactly the fields of [o], with the same values;
    objects inside are converted likewise *)
Inductive image : obj -> bval -> Prop :=
| image_obj c b fs ex attrs : pc_bind c = Some b -> images c fs attrs -> image (Obj c fs ex) (BObj b attrs)
with images : pclass -> list (string * pty * pval) -> list (string * bval) -> Prop :=
| im_nil c : images c [] []
| im_skip c n t v r l : ignored c n \/ no_core_class v -> images c r l -> images c ((n, t, v) :: r) l
| im_plain c n t v r l : ~ ignored c n -> ~ not_plain v -> typed t v -> images c r l -> images c ((n, t, v) :: r) ((n, BPlain v) :: l)
| im_enum c n t e m r l : ~ ignored c n -> images c r l -> images c ((n, t, VEnum e m) :: r) ((n, BEnum e m) :: l)
| im_obj c n t o z r l : ~ ignored c n -> image o z -> images c r l -> images c ((n, t, VObj o) :: r) ((n, z) :: l).
Scheme image_mut := Induction for image Sort Prop with images_mut := Induction for images Sort Prop.
(** no misspelled attribute, at any depth of the parameters that the core reads *)
Inductive clean : obj -> Prop :=
| clean_obj c fs ex : (forall n, In n ex -> In n (pc_ignore c)) ->
    (forall n t o, In (n, t, VObj o) fs -> ~ ignored c n -> ~ no_core_class (VObj o) -> clean o) -> clean (Obj c fs ex).
(** the core has the classes, attributes and enumerations that occur, and takes the values *)
Inductive supported (k : core) : bval -> Prop :=
| su_plain v : supported k (BPlain v)
| su_enum e m : co_enum k e m = true -> supported k (BEnum e m)
| su_obj b attrs : co_class k b = true -> (forall n v, In (n, v) attrs -> co_attr k b n = true /\ co_takes k b n v = true /\ supported k v) -> supported k (BObj b attrs).
(** the core does not take Python objects as values *)
Definition typed_core (k : core) : Prop := forall cls n o, co_takes k cls n (BParams o) = false.

(** ** Devices *)
(** which of the given devices a cell is built of, in order *)
Definition used (q : kind) (l : list dev) : option (list dev) :=
  match q, l with
  | KVector, _ => Some l
  | KReference, [x] => Some [x; x]
  | KReference, x :: y :: _ => Some [x; y]
  | KOneSided, [x] => Some [x; x]
  | KOneSided, [x; y] => Some [x; y]
  | KTransfer, x :: y :: r => Some (x :: y :: map (fun _ => y) r)
  | KChopped, [x; y] => Some [x; y]
  | _, _ => None
  end.
Definition single (d : dev) : Prop := match d with Pulsed _ _ _ _ => True | _ => False end.
Definition pulsed (d : dev) : Prop := match d with Pulsed _ _ _ _ | Cell _ _ _ => True | _ => False end.
Definition same_class (d e : dev) : Prop := match d, e with Pulsed a _ _ _, Pulsed b _ _ _ => a = b | _, _ => False end.
(** the core has a class for the parameters of the device *)
Definition known (k : core) (d : dev) : Prop :=
  match d with Pulsed _ o _ _ | Simple o _ _ | Cell _ o _ | Mixed o _ => exists cls attrs, to_bindings k o = Ok (BObj cls attrs) end.
(** well-formed devices: parameters convert; the devices of a cell are pulsed (for a one-sided cell single devices of the
    same class), and the core knows the cell and its devices *)
Inductive wf (k : core) : dev -> Prop :=
| wf_pulsed c o f t b : to_bindings k o = Ok b -> wf k (Pulsed c o f t)
| wf_simple o f t b : to_bindings k o = Ok b -> wf k (Simple o f t)
| wf_mixed o d : known k (Mixed o d) -> known k d -> pulsed d -> wf k d -> wf k (Mixed o d)
| wf_cell q o l u b : to_bindings k o = Ok b -> used q l = Some u -> (u <> [] -> known k (Cell q o (Some l))) ->
    (forall d, In d u -> pulsed d /\ known k d /\ wf k d) ->
    (q = KOneSided -> forall d e, In d u -> In e u -> single d /\ same_class d e) -> wf k (Cell q o (Some l)).
(** a device somewhere in what is used decays *)
Inductive decays : dev -> Prop :=
| dc_pulsed c o f t : 0 < t -> decays (Pulsed c o f t)
| dc_simple o f t : 0 < t -> decays (Simple o f t)
| dc_mixed o d : decays d -> decays (Mixed o d)
| dc_cell q o l u d : used q l = Some u -> In d u -> decays d -> decays (Cell q o (Some l)).
