(** * Specification of the conversion to low precision modules *)
From Verif Require Import Prelude ConvModel QuantModel QuantSpec LpModel.
Local Open Scope nat_scope.

(** the child with a name *)
Fixpoint child (n : nat) (l : list (nat * tree)) : option tree := match l with [] => None | (k, m) :: r => if k =? n then Some m else child n r end.
(** the module below a QuantizedInputModule *)
Definition unwrap (t : tree) : tree := match t with Node _ (TInputQ _) _ _ [(_, m)] => m | _ => t end.
(** the module with the given name, seeing through the QuantizedInputModules that the conversion put in between *)
Fixpoint module_at (t : tree) (p : path) : option tree :=
  match p with [] => Some t | n :: r => match child n (t_ch (unwrap t)) with Some m => module_at m r | None => None end end.
(** a model before its conversion: the children of each module have different names and are different objects, nothing is wrapped *)
Inductive plain : tree -> Prop :=
| Plain : forall id ty tr d ch, (forall b, ty <> TInputQ b) -> (exists a, id = Some a) -> NoDup (map fst ch) -> NoDup (map (fun x => t_id (snd x)) ch) ->
    (forall n m, List.In (n, m) ch -> plain m) -> plain (Node id ty tr d ch).
(** the conversion looks at the children of a module that is neither excluded nor selected nor a quantizer *)
Definition transparent (q : qmap) (p : path) (t : tree) : Prop := ~ List.In p (q_excl q) /\ t_ty t <> TLeaf /\ q_inst q p = None /\ q_type q (t_ty t) = None.
(** all modules above the module with name [p] are of this kind *)
Fixpoint reached (q : qmap) (above : path) (t : tree) (p : path) : Prop :=
  match p with [] => True | n :: r => transparent q above t /\ exists m, child n (t_ch t) = Some m /\ reached q (above ++ [n]) m r end.
(** the digital class of a module *)
Definition digital (ty : mtype) : mtype := match ty with TAnalogLinear => TLinear | TAnalogConv2d => TConv2d | y => y end.
(** a module that can be converted *)
Definition convertible (t : tree) : Prop :=
  t_ty t <> TAnalogOther /\ (List.In (t_ty t) [TLinear; TLayerNorm; TEmbedding; TConv2d] -> d_w (t_pay t) <> None).
(** [m'] is [m1], wrapped if the inputs are to be quantized *)
Definition input_wrapped (b : option Z) (m1 m' : tree) : Prop :=
  match b with None => m' = m1 | Some b => t_ty m' = TInputQ b /\ map snd (t_ch m') = [m1] end.
(** what becomes of the module [m] with name [p]: [m1] *)
Definition becomes (q : qmap) (p : path) (m m1 : tree) : Prop :=
  match (match q_inst q p with Some c => Some c | None => q_type q (t_ty m) end) with
  | Some c => if (c_w c <=? 0)%Z && (c_a c <=? 0)%Z then m1 = m
              else t_ty m1 = TQuant (digital (t_ty m)) (c_cls c) (c_w c) (c_a c) /\ t_pay m1 = t_pay m
  | None => t_id m1 = t_id m /\ t_ty m1 = t_ty m /\ t_train m1 = t_train m /\ t_pay m1 = t_pay m /\ map fst (t_ch m1) = map fst (t_ch m)
  end.
