(** * Fitting device models to measured responses (utils/fitting.py)
    Source: /repo/src/aihwkit/utils/fitting.py:35-296.
    Simplifications: the analog tile and the optimizer of lmfit are parameters (the tile by its operations, the optimizer by
    the parameters it tries and the ones it returns); numpy arrays have one or two dimensions and at least one row; numbers
    are reals; printing is left out. *)
From Verif Require Import Prelude.
Local Open Scope string_scope.

(** ** Arrays *)
Inductive arr := A1 (v : list R) | A2 (m : list (list R)).
(** measured data as given: a numpy array, or a Python list (which has no attribute [ndim]) *)
Inductive data := DArr (a : arr) | DList (v : list R).
Inductive input := One (d : data) | Many (ds : list data).
Definition ncols (m : list (list R)) : nat := match m with r :: _ => length r | [] => O end.
(** fitting.py:253-256: [ndim], [reshape(-1, 1)] *)
Definition as2 (d : data) : res (list (list R)) :=
  match d with DList _ => Raise AttributeError | DArr (A1 v) => Ok (map (fun x => [x]) v) | DArr (A2 m) => Ok m end.
(** fitting.py:241-244: number of devices from the first pulse data ([array] also takes lists) *)
Definition devices (d : data) : nat := match d with DArr (A2 m) => ncols m | _ => 1%nat end.
(** product of a row and a row of ones of the given length *)
Definition times_ones (n : nat) (row : list R) : res (list R) :=
  if (length row =? n)%nat then Ok row
  else match row with
  | [x] => Ok (repeat x n)
  | _ => if (n =? 1)%nat then Ok row else Raise RuntimeError
  end.
(** size of one broadcast dimension *)
Definition bdim (a b : nat) : res nat :=
  if (a =? b)%nat then Ok a else if (a =? 1)%nat then Ok b else if (b =? 1)%nat then Ok a else Raise ValueError.
Definition at2 (m : list (list R)) (i j : nat) : R := nth (if (length m =? 1)%nat then O else i) (map (fun r => nth (if (ncols m =? 1)%nat then O else j) r 0%R) m) 0%R.
(** elementwise operation of two arrays with broadcasting *)
Definition bop (f : R -> R -> R) (a b : list (list R)) : res (list (list R)) :=
  n <- bdim (length a) (length b) ;;
  c <- bdim (ncols a) (ncols b) ;;
  Ok (map (fun i => map (fun j => f (at2 a i j) (at2 b i j)) (seq 0 c)) (seq 0 n)).
(** [trace.mean(axis=1)] at one point: mean over the traces of each device *)
Definition mean_traces (w : list (list R)) : list R :=
  map (fun j => (sumR (map (fun r => nth j r 0) w) / INR (length w))%R) (seq 0 (ncols w)).

(** weights of the fit: a number, an array, or a tuple *)
Inductive fitw := FScalar (x : R) | FArr (v : list R) | FTuple (l : list fitw).
(** [array(fit_weights[idx])[:n]]; a number has no dimension to slice.  Tuples of tuples are not modelled (TypeError here) *)
Definition scalars (l : list fitw) : res (list R) := mapM (fun f => match f with FScalar x => Ok x | _ => Raise TypeError end) l.
Definition weights_of (f : fitw) (idx n : nat) : res (list R) :=
  x <- match f with
       | FTuple l => match nth_error l idx with Some x => Ok x | None => Raise IndexError end
       | FArr v => match nth_error v idx with Some x => Ok (FScalar x) | None => Raise IndexError end
       | FScalar _ => Raise TypeError
       end ;;
  match x with
  | FScalar _ => Raise IndexError
  | FArr v => Ok (firstn n v)
  | FTuple l => v <- scalars l ;; Ok (firstn n v)
  end.

(** ** Configurations *)
Inductive fval := FNum (x : R) | FDev (d : list (string * fval)) | FOther (n : nat).
(** dataclass fields of a device *)
Definition device := list (string * fval).
Record rpu := { rc_device : device; rc_bl : nat; rc_blm : bool; rc_um : bool; rc_rest : nat }.
(** a configuration as given: a pulsed device or a whole RPU configuration *)
Inductive config := CDevice (d : device) | CRpu (r : rpu).
Definition params := list (string * R).
Fixpoint has (k : string) (d : device) : bool := match d with [] => false | (k', _) :: r => if String.eqb k k' then true else has k r end.
Fixpoint setf (k : string) (v : fval) (d : device) : device :=
  match d with [] => [] | (k', v') :: r => if String.eqb k k' then (k', v) :: r else (k', v') :: setf k v r end.
(** fitting.py:45-54; attributes that are not fields are not modelled *)
Fixpoint apply_params (ps : params) (d : device) : res device :=
  match ps with
  | [] => Ok d
  | (k, v) :: r => if has k d then apply_params r (setf k (FNum v) d) else Raise ConfigError
  end.
Definition apply_config (ps : params) (c : config) : res config :=
  match c with
  | CDevice d => d' <- apply_params ps d ;; Ok (CDevice d')
  | CRpu r => d' <- apply_params ps (rc_device r) ;; Ok (CRpu {| rc_device := d'; rc_bl := rc_bl r; rc_blm := rc_blm r; rc_um := rc_um r; rc_rest := rc_rest r |})
  end.
Fixpoint ends_with (suf s : string) : bool :=
  if String.eqb suf s then true else match s with "" => false | String _ r => ends_with suf r end.
(** fitting.py:154-157: only the fields of the device itself *)
Definition suppress (d : device) : device :=
  map (fun kv => if (ends_with "dtod" (fst kv) || ends_with "std" (fst kv))%bool then (fst kv, FNum 0) else kv) d.
(** a parameter to fit: a tuple, or a single value *)
Inductive pspec := PTuple (l : list R) | PValue (x : R).
Definition init_param (kv : string * pspec) : res (string * R) :=
  match snd kv with PTuple [x; _; _] => Ok (fst kv, x) | PTuple _ => Raise ValueError | PValue x => Ok (fst kv, x) end.

Section Fit.
Context {tile : Type}.
(** AnalogTile(n_traces, n_devices, rpu_config), set_learning_rate(1); set_weights; update(x, d); tile.get_weights() *)
Context (new_tile : nat -> nat -> rpu -> tile) (set_weights : list (list R) -> tile -> res tile).
Context (update : list R -> list R -> tile -> res tile) (get_weights : tile -> list (list R)).
(** the default configuration of a single device *)
Context (default_rpu : device -> rpu).

(** fitting.py:264-269 *)
Fixpoint trace (n_traces n_devices : nat) (pulses : list (list R)) (t : tile) : res (list (list (list R)) * tile) :=
  match pulses with
  | [] => Ok ([], t)
  | p :: r =>
      x <- times_ones n_devices p ;;
      t' <- update x (repeat (-1)%R n_traces) t ;;
      rest <- trace n_traces n_devices r t' ;;
      Ok (get_weights t' :: fst rest, snd rest)
  end.
(** fitting.py:252-281: one measurement; the response of the model and the deviation *)
Definition one_measurement (n_traces n_devices idx : nat) (fw : option fitw) (pd rd : data) (t : tile) : res (list (list R) * list R * tile) :=
  pulses <- as2 pd ;;
  response <- as2 rd ;;
  w_init <- (match response with r :: _ => Ok r | [] => Raise IndexError end) ;;
  row <- times_ones n_devices w_init ;;
  let weights := repeat row n_traces in
  t1 <- set_weights weights t ;;
  tr <- trace n_traces n_devices (removelast pulses) t1 ;;
  let avg := firstn (length response) (map mean_traces (weights :: fst tr)) in
  dev <- bop Rminus avg response ;;
  dev' <- (match fw with None => Ok dev | Some f => v <- weights_of f idx (ncols dev) ;; bop Rmult dev [v] end) ;;
  Ok (avg, concat dev', snd tr).
Fixpoint measurements (n_traces n_devices idx : nat) (fw : option fitw) (ps rs : list data) (t : tile) : res (list (list (list R)) * list R) :=
  match ps, rs with
  | p :: ps', r :: rs' =>
      m <- one_measurement n_traces n_devices idx fw p r t ;;
      rest <- measurements n_traces n_devices (S idx) fw ps' rs' (snd m) ;;
      Ok (fst (fst m) :: fst rest, (snd (fst m) ++ snd rest)%list)
  | _, _ => Ok ([], [])
  end.
(** fitting.py:183-296: the configuration is overwritten (returned here); responses and deviation *)
Definition model_response (ps : params) (pd rd : input) (r : rpu) (n_traces : nat) (fw : option fitw) : res (rpu * (list (list (list R)) * list R)) :=
  d <- apply_params ps (rc_device r) ;;
  let r' := {| rc_device := d; rc_bl := rc_bl r; rc_blm := rc_blm r; rc_um := rc_um r; rc_rest := rc_rest r |} in
  let '(pl, rl, fw') := match pd, rd with
    | Many p, Many q => (p, q, fw)
    | One p, One q => ([p], [q], match fw with Some f => Some (FTuple [f]) | None => None end)
    | One p, Many q => ([p], q, match fw with Some f => Some (FTuple [f]) | None => None end)
    | Many p, One q => (p, [q], fw)
    end in
  match pl with
  | [] => Raise IndexError
  | p0 :: _ =>
      out <- measurements n_traces (devices p0) 0 fw' pl rl (new_tile n_traces (devices p0) r') ;;
      Ok (r', out)
  end.
(** evaluations of the optimizer, each on the configuration the one before left *)
Fixpoint trials (tr : list params) (pd rd : input) (r : rpu) (n_traces : nat) (fw : option fitw) : res rpu :=
  match tr with [] => Ok r | ps :: rest => o <- model_response ps pd rd r n_traces fw ;; trials rest pd rd (fst o) n_traces fw end.
(** fitting.py:57-180.  [tried], [best]: what the optimizer evaluates for these starting parameters, and its result.
    Without change to [device_config] of the user (:139).  With a device the configuration shares the (copied) device, so
    changes of it are seen in the device returned (:141, :176). *)
Definition fit (ps : list (string * pspec)) (pd rd : input) (c : config) (suppress_noise : bool) (max_pulses : option nat) (n_traces : nat) (fw : option fitw)
    (tried : params -> list params) (best : params -> params) : res (params * config * list (list (list R))) :=
  if negb (Bool.eqb (match pd with Many _ => true | _ => false end) (match rd with Many _ => true | _ => false end)) then Raise ArgumentError
  else
    let r0 := match c with
      | CDevice d => let r := default_rpu d in
          match max_pulses with Some n => {| rc_device := d; rc_bl := n; rc_blm := false; rc_um := false; rc_rest := rc_rest r |} | None => {| rc_device := d; rc_bl := rc_bl r; rc_blm := rc_blm r; rc_um := rc_um r; rc_rest := rc_rest r |} end
      | CRpu r => r end in
    let r1 := if suppress_noise then {| rc_device := suppress (rc_device r0); rc_bl := rc_bl r0; rc_blm := rc_blm r0; rc_um := rc_um r0; rc_rest := rc_rest r0 |} else r0 in
    init <- mapM init_param ps ;;
    r2 <- trials (tried init) pd rd r1 n_traces fw ;;
    o <- model_response (best init) pd rd r2 n_traces fw ;;
    let c' := match c with CDevice _ => CDevice (rc_device (fst o)) | CRpu _ => CRpu (fst o) end in
    c'' <- apply_config (best init) c' ;;
    Ok (best init, c'', fst (snd o)).
End Fit.
