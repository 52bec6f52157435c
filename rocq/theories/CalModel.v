(** * Post-training calibration of the input ranges (inference/calibration/calibration.py) *)
From Verif Require Import Prelude.
Local Open Scope nat_scope.

(** calibration.py:37-58 InputRangeCalibrationType *)
Inductive ctype : Type := NoCal | MovingStd | MovingQuantile | CacheQuantile | MaxAbs.

(** the part of an RPU configuration that matters: whether it is a PrePostProcessingRPU, whether it has [forward]; the fields of
    [pre_post.input_range] (pre_post.py:21-120); noise management other than NONE; [forward.is_perfect] *)
Record cfg : Type := { k_prepost : bool; k_forward : bool; k_enable : bool; k_learn : bool; k_from_data : Z; k_alpha : R; k_init : R;
  k_info : option ctype; k_nm : bool; k_perfect : bool }.
Definition set_enable c := {| k_prepost := k_prepost c; k_forward := k_forward c; k_enable := true; k_learn := false; k_from_data := k_from_data c; k_alpha := k_alpha c; k_init := k_init c; k_info := k_info c; k_nm := k_nm c; k_perfect := k_perfect c |}.
Definition set_data c a := {| k_prepost := k_prepost c; k_forward := k_forward c; k_enable := k_enable c; k_learn := k_learn c; k_from_data := 0%Z; k_alpha := match a with Some v => v | None => k_alpha c end; k_init := k_init c; k_info := k_info c; k_nm := k_nm c; k_perfect := k_perfect c |}.
Definition set_nm c := {| k_prepost := k_prepost c; k_forward := k_forward c; k_enable := k_enable c; k_learn := k_learn c; k_from_data := k_from_data c; k_alpha := k_alpha c; k_init := k_init c; k_info := k_info c; k_nm := false; k_perfect := k_perfect c |}.
Definition set_perfect c b := {| k_prepost := k_prepost c; k_forward := k_forward c; k_enable := k_enable c; k_learn := k_learn c; k_from_data := k_from_data c; k_alpha := k_alpha c; k_init := k_init c; k_info := k_info c; k_nm := k_nm c; k_perfect := b |}.
Definition set_info c v ct := {| k_prepost := k_prepost c; k_forward := k_forward c; k_enable := k_enable c; k_learn := k_learn c; k_from_data := k_from_data c; k_alpha := k_alpha c; k_init := v; k_info := Some ct; k_nm := k_nm c; k_perfect := k_perfect c |}.

(** a tile: its own configuration (deep copied, base.py:320), what its simulator tile uses of it ([is_perfect] and noise management, as
    given when the simulator tile was created), the input range ([None]: not enabled), [input_range_update_idx], number of
    registered forward pre-hooks *)
Record tile : Type := { l_cfg : cfg; l_sim : bool * bool; l_range : option R; l_idx : nat; l_hooks : nat }.
Definition with_cfg t c := {| l_cfg := c; l_sim := l_sim t; l_range := l_range t; l_idx := l_idx t; l_hooks := l_hooks t |}.
Definition with_range t r := {| l_cfg := l_cfg t; l_sim := l_sim t; l_range := r; l_idx := l_idx t; l_hooks := l_hooks t |}.
Definition with_idx t i := {| l_cfg := l_cfg t; l_sim := l_sim t; l_range := l_range t; l_idx := i; l_hooks := l_hooks t |}.
Definition with_hooks t h := {| l_cfg := l_cfg t; l_sim := l_sim t; l_range := l_range t; l_idx := l_idx t; l_hooks := h |}.
(** [tile.__setstate__(tile.__getstate__())]: a new simulator tile for the current configuration (weights are kept: C123) *)
Definition recreate t := {| l_cfg := l_cfg t; l_sim := (k_perfect (l_cfg t), k_nm (l_cfg t)); l_range := l_range t; l_idx := l_idx t; l_hooks := l_hooks t |}.
(** periphery.py:567-617 init_input_processing with [enable] *)
Definition init_input_processing t := with_idx (with_range t (Some (k_init (l_cfg t)))) 0.
(** periphery.py:667-686 set_input_range *)
Definition set_range t v := with_range t (Some (Rabs v)).

(** what is kept for a tile during the calibration: [is_perfect_dic] and the cache: cached rows, or the maximum *)
Record entry : Type := { e_perfect : bool; e_rows : mat; e_max : option R }.

(** sorted values; torch.quantile (linear interpolation) *)
Fixpoint insert (v : R) (l : vec) : vec := match l with [] => [v] | a :: r => if Rleb v a then v :: l else a :: insert v r end.
Definition sort (l : vec) : vec := fold_right insert [] l.
Definition quantile (q : R) (l : vec) : R :=
  let s := sort l in
  let p := (q * INR (length l - 1))%R in
  let k := Z.to_nat (floorZ p) in
  (nth k s 0 + (p - INR k) * (nth (k + 1) s (nth k s 0) - nth k s 0))%R.
(** torch.std (unbiased): NaN for fewer than two values, here [None] *)
Definition mean (l : vec) : R := (sumR l / INR (length l))%R.
Definition std (l : vec) : option R :=
  if length l <? 2 then None else Some (sqrt (sumR (map (fun v => (v - mean l) * (v - mean l))%R l) / INR (length l - 1))).

(** calibration.py:77-80: rows that are not all zero *)
Definition nonzero (x : mat) : mat := filter (fun r => negb (forallb (fun v => Reqb v 0) r)) x.
Definition flat (x : mat) : vec := concat x.

(** calibration.py:61-124 _calibration_pre_forward; [perm]: the shuffled rows (randperm) *)
Definition hook (ct : ctype) (q : R) (max_samples : nat) (perm : mat -> mat) (t : tile) (e : entry) (x : mat) : res (tile * entry) :=
  let xs := nonzero x in
  let moving (v : R) :=
    if Rltb 0 v then
      match l_range t with
      | None => Raise AttributeError
      | Some old => Ok (with_idx (set_range t ((old * INR (l_idx t) + v) / INR (l_idx t + 1))) (l_idx t + 1), e)
      end
    else Ok (t, e) in
  match ct with
  | CacheQuantile => Ok (t, {| e_perfect := e_perfect e; e_rows := firstn max_samples (perm (e_rows e ++ xs)); e_max := e_max e |})
  | MaxAbs => match flat xs with
              | [] => Raise RuntimeError (* max() of an empty tensor *)
              | _ => Ok (t, {| e_perfect := e_perfect e; e_rows := e_rows e; e_max := Some (match e_max e with None => maxabs (flat xs) | Some m => Rmax m (maxabs (flat xs)) end) |})
              end
  | MovingQuantile => match flat xs with
                      | [] => Raise RuntimeError (* quantile() of an empty tensor *)
                      | _ => moving (if Reqb q 1 then maxabs (flat xs) else quantile q (flat xs))
                      end
  | MovingStd => moving (if l_idx t <? max_samples then match std (flat xs) with Some s => (k_alpha (l_cfg t) * s)%R | None => 0%R end else 0%R)
  | NoCal => Raise ConfigError
  end.

(** ** the whole calibration *)
Record cstate : Type := { s_tile : nat -> tile; s_entry : nat -> option entry; s_train : bool }.
Definition fupd {A} (f : nat -> A) (i : nat) (v : A) : nat -> A := fun j => if j =? i then v else f j.
Definition put s i t e := {| s_tile := fupd (s_tile s) i t; s_entry := fupd (s_entry s) i e; s_train := s_train s |}.
Fixpoint loop {A} (f : A -> cstate -> cstate * option exn) (l : list A) (s : cstate) : cstate * option exn :=
  match l with [] => (s, None) | a :: r => match f a s with (s1, None) => loop f r s1 | (s1, Some e) => (s1, Some e) end end.

Section Calibrate.
Context (ct : ctype) (q : R) (max_samples : nat) (alpha : option R) (force : bool).
Definition supported (c : cfg) : bool := k_prepost c && k_forward c.
(** calibration.py:191-246: preparation of one tile *)
Definition caching : bool := match ct with MaxAbs | CacheQuantile => true | _ => false end.
Definition prepare (i : nat) (s : cstate) : cstate * option exn :=
  let t := s_tile s i in
  let c := l_cfg t in
  if negb (supported c) then (s, None)
  else if negb force && negb (k_enable c) then (s, None)
  else
    let t := if k_enable c then t else init_input_processing (with_cfg t (set_enable c)) in
    let t := with_cfg t (set_data (l_cfg t) alpha) in
    if k_nm (l_cfg t) && negb force then (put s i t (s_entry s i), Some ConfigError)
    else
      let b1 := k_nm (l_cfg t) in
      let t := if b1 then with_cfg t (set_nm (l_cfg t)) else t in
      let was := k_perfect (l_cfg t) in
      let b2 := caching && negb was in
      let t := if b2 then with_cfg t (set_perfect (l_cfg t) true) else t in
      let t := if b1 || b2 then recreate t else t in
      (put s i (with_hooks t (l_hooks t + 1)) (Some {| e_perfect := was; e_rows := []; e_max := None |}), None).
(** a forward call of tile [i] with input rows [x]: the hook is run if it was registered in this calibration *)
Definition call := (nat * mat * (mat -> mat))%type.
Definition forward_call (a : call) (s : cstate) : cstate * option exn :=
  let '(i, x, perm) := a in
  match s_entry s i with
  | None => (s, None)
  | Some e => match hook ct q max_samples perm (s_tile s i) e x with
              | Ok (t, e1) => (put s i t (Some e1), None)
              | Raise er => (s, Some er)
              end
  end.
(** calibration.py:254-255 *)
Definition remove_hook (i : nat) (s : cstate) : cstate * option exn :=
  match s_entry s i with None => (s, None) | Some e => (put s i (with_hooks (s_tile s i) (l_hooks (s_tile s i) - 1)) (Some e), None) end.
(** calibration.py:258-263 *)
Definition enable_range (i : nat) (s : cstate) : cstate * option exn :=
  let t := s_tile s i in
  if negb (k_prepost (l_cfg t)) then (s, Some AttributeError)
  else if k_enable (l_cfg t) then (s, None)
  else (put s i (init_input_processing (with_cfg t (set_enable (l_cfg t)))) (s_entry s i), None).
(** calibration.py:265-305 *)
Definition finish (i : nat) (s : cstate) : cstate * option exn :=
  let t := s_tile s i in
  if negb (supported (l_cfg t)) then (s, None)
  else if negb force && negb (k_enable (l_cfg t)) then (s, None)
  else match s_entry s i with
  | None => (s, Some KeyError)
  | Some e =>
      match flat (e_rows e), e_max e with
      | [], None => (s, None)
      | _, _ =>
          match l_range t with
          | None => (s, Some AttributeError)
          | Some r0 =>
              let r := match ct with CacheQuantile => quantile q (flat (e_rows e)) | MaxAbs => match e_max e with Some m => m | None => r0 end | _ => r0 end in
              let t := if Bool.eqb (k_perfect (l_cfg t)) (e_perfect e) then t else recreate (with_cfg t (set_perfect (l_cfg t) (e_perfect e))) in
              let t := set_range t r in
              (put s i (with_cfg t (set_info (l_cfg t) (Rabs r) ct)) (Some e), None)
          end
      end
  end.
(** calibration.py:127-308 calibrate_input_ranges on a model with [n] tiles; [calls]: the forward calls of tiles that the data
    loader causes, in order.  [analog]: the model is an analog module *)
Definition then_ {A} (f : A -> cstate -> cstate * option exn) (l : list A) (p : cstate * option exn) : cstate * option exn :=
  match p with (s, None) => loop f l s | _ => p end.
Definition calibrate (analog : bool) (n : nat) (calls : list call) (s : cstate) : cstate * option exn :=
  if match ct with NoCal => true | _ => false end then (s, None)
  else if negb analog then (s, Some ArgumentError)
  else
    let was := s_train s in
    let s := {| s_tile := s_tile s; s_entry := fun _ => None; s_train := false |} in
    let p := loop prepare (seq 0 n) s in
    let p := then_ forward_call calls p in
    let p := then_ remove_hook (seq 0 n) p in
    let p := then_ enable_range (seq 0 n) p in
    let p := then_ finish (seq 0 n) p in
    match p with
    | (s, None) => ({| s_tile := s_tile s; s_entry := s_entry s; s_train := was |}, None)
    | _ => p
    end.
End Calibrate.
