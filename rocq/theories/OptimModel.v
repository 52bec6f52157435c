(** * Model of the analog optimizer
    Sources: /repo/src/aihwkit/optim/analog_optimizer.py,
             /repo/src/aihwkit/optim/context.py (gradient trace),
             /repo/src/aihwkit/simulator/tiles/functions.py *)
From Verif Require Import Prelude PeriModel.

(** Parameters, identified by a number: an ordinary torch parameter, or the
    [AnalogContext] of the tile with that number. *)
Inductive param : Type := PDig (n : nat) | PAna (n : nat).
Definition is_analog (p : param) : bool := match p with PAna _ => true | PDig _ => false end.
Definition param_eqb (p q : param) : bool :=
  match p, q with PDig a, PDig b => Nat.eqb a b | PAna a, PAna b => Nat.eqb a b | _, _ => false end.
(** torch param group: [params] and [lr] ([None]: the key is absent) *)
Record group : Type := { g_params : list param; g_lr : option R }.
Record optim : Type := { o_groups : list group; o_default_lr : R }.

(** torch [Optimizer.add_param_group]: fills in the default lr and refuses a parameter
    that is already in some group. *)
Definition add_param_group (o : optim) (ps : list param) : res optim :=
  if existsb (fun p => existsb (fun g => existsb (param_eqb p) (g_params g)) (o_groups o)) ps
  then Raise ValueError
  else Ok {| o_groups := o_groups o ++ [{| g_params := ps; g_lr := Some (o_default_lr o) |}];
             o_default_lr := o_default_lr o |}.

(** Events the optimizer causes on the analog tiles *)
Inductive event : Type :=
| ESetLR (t : nat) (lr : R)
| EUpdate (t : nat) (x d : list vec)
| EUpdateIndexed (t : nat) (x d : list vec)
| EPost (t : nat).

(** analog_optimizer.py:27-60 [regroup_param_groups]; the events are the calls of
    [analog_tile.set_learning_rate(self.defaults["lr"])]. *)
Definition regroup (o : optim) : res (optim * list event) :=
  let analog := concat (map (fun g => filter is_analog (g_params g)) (o_groups o)) in
  let events := concat (map (fun p => match p with PAna n => [ESetLR n (o_default_lr o)] | PDig _ => [] end) analog) in
  let groups := map (fun g => {| g_params := filter (fun p => negb (is_analog p)) (g_params g); g_lr := g_lr g |})
                    (o_groups o) in
  let groups := filter (fun g => negb (Nat.eqb (length (g_params g)) 0)) groups in
  let o1 := {| o_groups := groups; o_default_lr := o_default_lr o |} in
  o2 <- fold_left (fun r p => r1 <- r ;; add_param_group r1 [p]) analog (Ok o1) ;;
  Ok (o2, events).

(** context.py:148-156, 424-437: the gradient trace of a context; one entry per
    backward pass, each a batch of row vectors *)
Record actx : Type := {
  a_torch : bool;               (* use_torch_update *)
  a_indexed : bool;             (* use_indexed *)
  a_in : list (list vec);       (* analog_input *)
  a_gr : list (list vec)        (* analog_grad_output *)
}.
Definition actx_reset (a : actx) : actx :=
  {| a_torch := a_torch a; a_indexed := a_indexed a; a_in := []; a_gr := [] |}.
(** functions.py:97-117: what backward adds to the trace *)
Definition record_grad (x d : list vec) (a : actx) : actx :=
  if a_torch a then a
  else {| a_torch := a_torch a; a_indexed := a_indexed a; a_in := a_in a ++ [x]; a_gr := a_gr a ++ [d] |}.

Definition fupd {A} (f : nat -> A) (i : nat) (v : A) : nat -> A := fun j => if Nat.eqb j i then v else f j.

(** analog_optimizer.py:82-131, the body of the loop over parameters (no transposed
    tiles: samples are concatenated along the first dimension) *)
Definition step_param (lr : option R) (p : param) (s : (nat -> actx) * list event) : (nat -> actx) * list event :=
  let '(cs, ev) := s in
  match p with
  | PDig _ => s
  | PAna n =>
      let a := cs n in
      if a_torch a then s
      else if Nat.eqb (length (a_in a)) 0 then s
      else if match lr with Some r => Reqb r 0 | None => false end then (fupd cs n (actx_reset a), ev)
      else
        let ev := match lr with Some r => ev ++ [ESetLR n r] | None => ev end in
        let ev := if a_indexed a
                  then ev ++ map2 (EUpdateIndexed n) (a_in a) (a_gr a)
                  else ev ++ [EUpdate n (concat (a_in a)) (concat (a_gr a))] in
        (fupd cs n (actx_reset a), ev)
  end.
(** analog_optimizer.py:62-139 [step], the analog part *)
Definition step (o : optim) (cs : nat -> actx) : (nat -> actx) * list event :=
  let '(cs, ev) :=
    fold_left (fun s g => fold_left (fun s p => step_param (g_lr g) p s) (g_params g) s) (o_groups o) (cs, []) in
  (cs, ev ++ concat (map (fun g => concat (map (fun p => match p with PAna n => [EPost n] | PDig _ => [] end)
                                              (g_params g))) (o_groups o))).

(** analog_optimizer.py:141-156 [set_learning_rate] *)
Definition set_lr (o : optim) (lr : R) : optim * list event :=
  ({| o_groups := map (fun g => {| g_params := g_params g; g_lr := Some lr |}) (o_groups o);
      o_default_lr := o_default_lr o |},
   concat (map (fun g => concat (map (fun p => match p with PAna n => [ESetLR n lr] | PDig _ => [] end)
                                     (g_params g))) (o_groups o))).

(** Effect of the events on noise-free tiles (PeriModel): [cf n] is the configuration
    of tile [n].  Decay and diffusion in post_update_step are off by default. *)
Definition apply_event (cf : nat -> pcfg) (ts : nat -> ptile) (e : event) : nat -> ptile :=
  match e with
  | ESetLR n lr => fupd ts n (set_learning_rate (Some lr) (ts n))
  | EUpdate n x d | EUpdateIndexed n x d => fupd ts n (update_batch (cf n) (ts n) (combine x d))
  | EPost _ => ts
  end.

(** analog_optimizer.py:186-203 [AnalogOptimizer.__new__]: the registry of created
    subclasses is keyed by the name of the wrapped class.  A class is a name and an
    identity. *)
Definition pyclass : Type := (string * nat)%type.
Definition registry : Type := list (string * pyclass).
Fixpoint lookup (r : registry) (k : string) : option pyclass :=
  match r with [] => None | (k', c) :: r' => if String.eqb k k' then Some c else lookup r' k end.
(** returns the wrapped class the new instance actually derives from *)
Definition optimizer_new (r : registry) (cls : pyclass) : registry * pyclass :=
  match lookup r (fst cls) with
  | Some c => (r, c)
  | None => ((fst cls, cls) :: r, cls)
  end.
