(** * Configurations: from Python parameters to the parameters of the simulator core
    Sources: /repo/src/aihwkit/simulator/parameters/helpers.py:32-170, /repo/src/aihwkit/simulator/configs/compounds.py
    (as_bindings of the unit cells), /repo/src/aihwkit/simulator/configs/devices.py:52-62, 280-290,
    /repo/src/rpucuda/rpu_vector_device.cpp:73-82, rpu_onesided_device.cpp:36-71 (appendVecPar). *)
From Verif Require Import Prelude.
Local Open Scope string_scope.

Definition mem (s : string) (l : list string) : bool := existsb (String.eqb s) l.
(** types of fields of data classes; [TyOther]: a type that [isinstance] refuses (a union) *)
Inductive pty := TyInt | TyFloat | TyBool | TyStr | TyList | TyOther.
(** a parameter data class: its name, [bindings_class] ([None]: no such attribute), [bindings_ignore] *)
Record pclass := { pc_name : string; pc_bind : option string; pc_ignore : list string }.
(** values; an object has the fields of its class, in order, with declared type and value, and the names of other
    attributes that were set on it *)
Inductive pval := VInt (z : Z) | VBool (b : bool) | VFloat (r : R) | VStr (s : string) | VNone | VList (l : list pval) | VEnum (cls member : string) | VObj (o : obj)
with obj := Obj (c : pclass) (fields : list (string * pty * pval)) (others : list string).
(** what is set on the objects of the core; [BParams]: a Python object, not a core object *)
Inductive bval := BPlain (v : pval) | BEnum (cls member : string) | BObj (cls : string) (attrs : list (string * bval)) | BParams (o : obj).
(** the core: which parameter classes there are for the requested data type, their attributes, which values they take, and
    the enumerations *)
Record core := { co_class : string -> bool; co_attr : string -> string -> bool; co_takes : string -> string -> bval -> bool; co_enum : string -> string -> bool }.

(** helpers.py:106-118: [isinstance], where an int (not a bool) counts as a float; [None]: TypeError *)
Definition has_type (t : pty) (v : pval) : option bool :=
  match t, v with
  | TyInt, (VInt _ | VBool _) => Some true
  | TyFloat, (VFloat _ | VInt _) => Some true
  | TyBool, VBool _ => Some true
  | TyStr, VStr _ => Some true
  | TyList, VList _ => Some true
  | TyOther, _ => None
  | _, _ => Some false
  end.
Section Core.
  Context (k : core).
  (** setting an attribute of a core object *)
  Definition set_attr (cls n : string) (b : bval) : res (string * bval) :=
    if co_attr k cls n then if co_takes k cls n b then Ok (n, b) else Raise TypeError else Raise AttributeError.
  (** helpers.py:95-97 *)
  Definition skipped (c : pclass) (n : string) : bool := (String.eqb n "unit_cell_devices" || String.eqb n "device" || mem n (pc_ignore c))%bool.
  (** helpers.py:32-60, 63-122 [parameters_to_bindings] with check_fields.  The error for a class that the core does not
      have is constructed but not raised (:58-59); the parameters are returned as they are (:80-81). *)
  Fixpoint to_bindings (o : obj) : res bval :=
    match o with
    | Obj c fs ex =>
        match pc_bind c with
        | None => Ok (BParams o)
        | Some b =>
            if negb (co_class k b) then Ok (BParams o)
            else if negb (forallb (fun n => mem n (pc_ignore c)) ex) then Raise ConfigError
            else
              a <- (fix go (fs : list (string * pty * pval)) : res (list (string * bval)) :=
                      match fs with
                      | [] => Ok []
                      | (n, t, v) :: r =>
                          if skipped c n then go r
                          else
                            x <- (match v with
                                  | VEnum e m => if co_enum k e m then y <- set_attr b n (BEnum e m) ;; Ok [y] else Raise AttributeError
                                  | VObj o' => match o' with
                                               | Obj c' _ _ => match pc_bind c' with
                                                               | None => Ok []
                                                               | Some _ => z <- to_bindings o' ;; y <- set_attr b n z ;; Ok [y]
                                                               end
                                               end
                                  | _ => match has_type t v with
                                         | None => Raise TypeError
                                         | Some false => Raise ConfigError
                                         | Some true => y <- set_attr b n (BPlain v) ;; Ok [y]
                                         end
                                  end) ;;
                            l <- go r ;; Ok (x ++ l)%list
                      end) fs ;;
              Ok (BObj b a)
        end
    end.
  (** helpers.py:125-170 [tile_parameters_to_bindings]; the fields are given with [bindings_include] or are
      always included *)
  Definition field_name (n : string) : string := if String.eqb n "forward" then "forward_io" else if String.eqb n "backward" then "backward_io" else n.
  Definition always (n : string) : bool := mem n ["forward"; "backward"; "update"].
  Definition tile_to_bindings (c : pclass) (fs : list (string * bool * pval)) (others : list string) : res (option bval) :=
    match pc_bind c with
    | None => Ok None
    | Some b =>
        if negb (co_class k b) then Ok None
        else
          a <- mapM (fun f => let '(n, incl, v) := f in
                      if (negb (always n) && negb incl)%bool then Ok []
                      else match v with
                           | VEnum e m => if co_enum k e m then y <- set_attr b (field_name n) (BEnum e m) ;; Ok [y] else Raise AttributeError
                           | VObj (Obj c' _ _ as o') => match pc_bind c' with None => Ok [] | Some _ => z <- to_bindings o' ;; y <- set_attr b (field_name n) z ;; Ok [y] end
                           | _ => y <- set_attr b (field_name n) (BPlain v) ;; Ok [y]
                           end) fs ;;
          Ok (Some (BObj b (concat a)))
    end.

  (** ** Devices *)
  (** [Pulsed]: a device derived from PulsedDevice, with its class of the core; [Simple]: an ideal device; cells with their
      parameters and [unit_cell_devices] ([None]: not a list); a digital rank update with its device *)
  Inductive kind := KVector | KReference | KOneSided | KTransfer | KChopped.
  Inductive dev :=
  | Pulsed (cls : string) (o : obj) (diffusion lifetime : R)
  | Simple (o : obj) (diffusion lifetime : R)
  | Cell (q : kind) (o : obj) (ds : option (list dev))
  | Mixed (o : obj) (d : dev).
  Inductive dbind :=
  | DPulsed (cls : string) (b : bval)
  | DSimple (b : bval)
  | DCell (q : kind) (b : bval) (l : list dbind)
  | DMixed (b : bval) (d : dbind).
  (** derived from PulsedRPUDeviceMetaParameterBase: rpu_vector_device.cpp:73-82; rpu_mixedprec_device_base.cpp:121-130 *)
  Definition pulsed_base (d : dbind) : bool := match d with DPulsed _ _ | DCell _ _ _ => true | _ => false end.
  (** rpu_onesided_device.cpp:53-71 *)
  Definition one_sided_takes (l : list dbind) (d : dbind) : bool :=
    match d, l with
    | DPulsed _ _, [] => true
    | DPulsed c _, [DPulsed c' _] => String.eqb c c'
    | _, _ => false
    end.
  Definition is_core (b : bval) : bool := match b with BParams _ => false | _ => true end.
  Definition own (d : dbind) : bval := match d with DPulsed _ b | DSimple b | DCell _ b _ | DMixed b _ => b end.
  (** [append_parameter] on the converted parameters [b] of a cell: a Python object (when the core does not have the class)
      has no such method, and as an argument it is refused by the binding *)
  Definition append1 (b : bval) (takes : list dbind -> dbind -> bool) (acc : list dbind) (d : dbind) : res (list dbind) :=
    if negb (is_core b) then Raise AttributeError
    else if negb (is_core (own d)) then Raise TypeError
    else if takes acc d then Ok (acc ++ [d])%list else Raise ConfigError.
  Definition any_pulsed (_ : list dbind) (d : dbind) : bool := pulsed_base d.
  Fixpoint append (b : bval) (takes : list dbind -> dbind -> bool) (acc l : list dbind) : res (list dbind) :=
    match l with
    | [] => Ok acc
    | d :: r => a <- append1 b takes acc d ;; append b takes a r
    end.
  (** The result and the configuration afterwards (ReferenceUnitCell changes its list of devices).  compounds.py:95-107
      (Vector), :156-178 (Reference), :272-299 (OneSided), :510-529 (Transfer, Buffered), :851-872, :1028-1049 (Chopped,
      Dynamic), :1191-1199 (mixed precision); devices.py:52-54, 280-282, 323-325 *)
  Fixpoint as_bindings (d : dev) : res (dbind * dev) :=
    let seq := fix seq (b : bval) (acc : list dbind) (l : list dev) : res (list dbind * list dev) :=
      match l with
      | [] => Ok (acc, [])
      | x :: r => y <- as_bindings x ;; a <- append1 b any_pulsed acc (fst y) ;; z <- seq b a r ;; Ok (fst z, snd y :: snd z)
      end in
    match d with
    | Pulsed c o f t => b <- to_bindings o ;; Ok (DPulsed c b, d)
    | Simple o f t => b <- to_bindings o ;; Ok (DSimple b, d)
    | Mixed o x =>
        b <- to_bindings o ;; y <- as_bindings x ;; _ <- append1 b any_pulsed [] (fst y) ;; Ok (DMixed b (fst y), Mixed o (snd y))
    | Cell KVector o ds =>
        b <- to_bindings o ;;
        match ds with
        | None => Raise ConfigError
        | Some l => z <- seq b [] l ;; Ok (DCell KVector b (fst z), Cell KVector o (Some (snd z)))
        end
    | Cell KReference o ds =>
        b <- to_bindings o ;;
        match ds with
        | None | Some [] => Raise ConfigError
        | Some [x] => p <- as_bindings x ;; bs <- append b any_pulsed [] [fst p; fst p] ;; Ok (DCell KReference b bs, Cell KReference o (Some [snd p; snd p]))
        | Some (x :: y :: _) =>
            p <- as_bindings x ;; a <- append1 b any_pulsed [] (fst p) ;; q <- as_bindings y ;; bs <- append1 b any_pulsed a (fst q) ;;
            Ok (DCell KReference b bs, Cell KReference o (Some [snd p; snd q]))
        end
    | Cell KOneSided o ds =>
        match ds with
        | None => Raise ConfigError
        | Some l =>
            b <- to_bindings o ;;
            match l with
            | [] => Raise IndexError
            | [x] => p <- as_bindings x ;; bs <- append b one_sided_takes [] [fst p; fst p] ;; Ok (DCell KOneSided b bs, Cell KOneSided o (Some [snd p]))
            | [x; y] => p <- as_bindings x ;; q <- as_bindings y ;; bs <- append b one_sided_takes [] [fst p; fst q] ;; Ok (DCell KOneSided b bs, Cell KOneSided o (Some [snd p; snd q]))
            | x :: _ => p <- as_bindings x ;; Raise ConfigError
            end
        end
    | Cell KTransfer o ds =>
        match ds with
        | None => Raise ConfigError
        | Some l =>
            b <- to_bindings o ;;
            match l with
            | [] => Raise IndexError
            | [x] => p <- as_bindings x ;; Raise IndexError
            | x :: y :: r =>
                p <- as_bindings x ;; q <- as_bindings y ;;
                bs <- append b any_pulsed [] (fst p :: repeat (fst q) (length l - 1)) ;;
                Ok (DCell KTransfer b bs, Cell KTransfer o (Some (snd p :: snd q :: r)))
            end
        end
    | Cell KChopped o ds =>
        match ds with
        | None => Raise ConfigError
        | Some l =>
            match l with
            | [x; y] =>
                b <- to_bindings o ;; p <- as_bindings x ;; q <- as_bindings y ;;
                bs <- append b any_pulsed [] [fst p; fst q] ;; Ok (DCell KChopped b bs, Cell KChopped o (Some [snd p; snd q]))
            | _ => Raise ConfigError
            end
        end
    end.
  (** compounds.py:51-57, 1085-1091; devices.py:56-62 *)
  Fixpoint requires_decay (d : dev) : bool :=
    match d with
    | Pulsed _ _ _ t | Simple _ _ t => Rltb 0 t
    | Cell _ _ ds => match ds with None => false | Some l => existsb requires_decay l end
    | Mixed _ x => requires_decay x
    end.
End Core.
