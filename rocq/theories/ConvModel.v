(** * Model of the conductance converters
    Sources: /repo/src/aihwkit/inference/converter/conductance.py, fusion.py,
             /repo/src/aihwkit/utils/export.py
    A weight tensor is a flat list where the code is element-wise with a global
    maximum, and a list of rows for the Fusion converter.  Division by zero (NaN or
    infinity in torch) is represented by [Raise ZeroDivisionError]. *)
From Verif Require Import Prelude PeriModel.

(** conductance.py:19 [_ZERO_CLIP] *)
Definition zero_clip : R := 1 / 10 ^ 7.

(** the checks shared by all constructors, e.g. conductance.py:41-46 *)
Definition check_g {A} (g_max g_min : R) (k : res A) : res A :=
  if Rltb g_max 0 then Raise ValueError
  else if Rltb g_min 0 then Raise ValueError
  else if Rleb g_max g_min then Raise ValueError else k.

(** ** SinglePairConductanceConverter *)
Record sp : Type := { sp_gmax : R; sp_gmin : R }.
(** conductance.py:36-46 *)
Definition sp_new (g_max g_min : R) : res sp :=
  check_g g_max g_min (Ok {| sp_gmax := g_max; sp_gmin := g_min |}).
(** conductance.py:54-66 [convert_to_conductances] *)
Definition sp_to (c : sp) (w : vec) : list vec * R :=
  let ratio := (sp_gmax c - sp_gmin c) / Rmax (maxabs w) zero_clip in
  let s := map (fun v => v * ratio) w in
  ([ map (fun v => clampR 0 (sp_gmax c) v + sp_gmin c) s;
     map (fun v => clampR 0 (sp_gmax c) (- v) + sp_gmin c) s ], ratio).
(** conductance.py:68-79 [convert_back_to_weights] *)
Definition sp_back (c : sp) (g : list vec) (ratio : R) : res vec :=
  match g with
  | [gp; gm] => Ok (map2 (fun a b => ((a - sp_gmin c) - (b - sp_gmin c)) / ratio) gp gm)
  | _ => Raise ValueError
  end.

(** ** NPairConductanceConverter / DualPairConductanceConverter *)
Record np : Type := { np_f : list R; np_gmax : R; np_gmin : R }.
Definition maxlist (l : list R) : R := match l with [] => 0 | a :: r => fold_left Rmax r a end.
(** conductance.py:108-128; Python's [max] of an empty list is a [ValueError] *)
Definition np_new (f : list R) (g_max g_min : R) : res np :=
  match f with
  | [] => Raise ValueError
  | _ => if Rltb (maxlist f) 0 then Raise ValueError
         else check_g g_max g_min (Ok {| np_f := f; np_gmax := g_max; np_gmin := g_min |})
  end.
(** conductance.py:219-227 *)
Definition dual_new (f : list R) (g_max g_min : R) : res np :=
  if Nat.eqb (length f) 2 then np_new f g_max g_min else Raise ValueError.
(** one conductance: [((x.clamp(min=0) - lower) / f + g_min).clamp(g_min, g_max)] *)
Definition np_dev (c : np) (f lower x : R) : R :=
  clampR (np_gmin c) (np_gmax c) ((Rmax x 0 - lower) / f + np_gmin c).
(** the loop conductance.py:142-154 *)
Fixpoint np_loop (c : np) (wu : vec) (fs : list R) (lower : R) : list vec :=
  match fs with
  | [] => []
  | f :: fs' =>
      map (np_dev c f lower) wu :: map (fun v => np_dev c f lower (- v)) wu
      :: np_loop c wu fs' (lower + f * (np_gmax c - np_gmin c))
  end.
(** conductance.py:135-158 *)
Definition np_to (c : np) (w : vec) : res (list vec * R) :=
  let max_us := sumR (map (fun f => f * (np_gmax c - np_gmin c)) (np_f c)) in
  let ratio := max_us / Rmax (maxabs w) zero_clip in
  if existsb (fun f => Reqb f 0) (np_f c) then Raise ZeroDivisionError
  else Ok (np_loop c (map (Rmult ratio) w) (np_f c) 0, ratio).
(** [zip(l[::2], l[1::2])] *)
Fixpoint pairs {A} (l : list A) : list (A * A) :=
  match l with a :: b :: r => (a, b) :: pairs r | _ => [] end.
(** the sum [f * (g_plus - g_minus)] over the pairs, starting from [acc] *)
Fixpoint sum_pairs (acc : vec) (fs : list R) (ps : list (vec * vec)) : vec :=
  match fs, ps with
  | f :: fs', (gp, gm) :: ps' => sum_pairs (vadd acc (map2 (fun a b => f * (a - b)) gp gm)) fs' ps'
  | _, _ => acc
  end.
(** conductance.py:160-175 *)
Definition np_back (c : np) (g : list vec) (ratio : R) : res vec :=
  if Nat.odd (length g) then Raise ValueError
  else match g with
  | [] => Raise IndexError
  | g0 :: _ =>
      if Reqb ratio 0 then Raise ZeroDivisionError
      else Ok (map (fun v => v / ratio) (sum_pairs (map (fun _ => 0) g0) (np_f c) (pairs g)))
  end.

(** ** CustomPairConductanceConverter *)
Record cp : Type := { cp_f : list R; cp_g : list vec }.
(** numpy.interp for increasing grids *)
Fixpoint interp_seg (x x0 f0 : R) (xs fs : vec) : R :=
  match xs, fs with
  | x1 :: xs', f1 :: fs' =>
      if Rleb x x1 then (f1 - f0) / (x1 - x0) * (x - x0) + f0 else interp_seg x x1 f1 xs' fs'
  | _, _ => f0
  end.
Definition interp (xs fs : vec) (x : R) : R :=
  match xs, fs with
  | x0 :: xs', f0 :: fs' => if Rleb x x0 then f0 else interp_seg x x0 f0 xs' fs'
  | _, _ => 0
  end.
(** [linspace(-m, m, n)] *)
Definition grid (m : R) (n : nat) : vec :=
  map (fun k => - m + 2 * m * INR k / INR (n - 1)) (seq 0 n).
(** conductance.py:301-324 [convert_to_conductances].  All lists of [g_lst] must have the
    same length (torch would broadcast lists of length 1; not modelled). *)
Definition cp_us (c : cp) : vec :=
  match cp_g c with
  | [] => []
  | g0 :: _ => sum_pairs (map (fun _ => 0) g0) (cp_f c) (pairs (cp_g c))
  end.
Definition cp_to (c : cp) (w : vec) : res (list vec * R) :=
  match cp_g c with
  | [] => Raise IndexError
  | g0 :: _ =>
      if negb (forallb (fun g => Nat.eqb (length g) (length g0)) (cp_g c)) then Raise RuntimeError
      else
        let m_us := maxabs (cp_us c) in
        let ratio := m_us / Rmax (maxabs w) zero_clip in
        if Reqb ratio 0 then Raise ZeroDivisionError
        else
          let w_lst := map (fun v => v / ratio) (grid m_us (length g0)) in
          Ok (map (fun g => map (interp w_lst g) w) (cp_g c), ratio)
  end.
(** conductance.py:327-344 [convert_back_to_weights] *)
Definition cp_back (c : cp) (g : list vec) (ratio : R) : res vec :=
  if negb (Nat.eqb (2 * length (cp_f c)) (length g)) then Raise ValueError
  else match g with
  | [] => Raise IndexError
  | g0 :: _ =>
      if Reqb ratio 0 then Raise ZeroDivisionError
      else Ok (map (fun v => v / ratio) (sum_pairs (map (fun _ => 0) g0) (cp_f c) (pairs g)))
  end.
(** torch [allclose(a, b, atol=1e-4)] (rtol is 1e-5) *)
Definition allclose (a b : vec) : bool :=
  forallb (fun p => Rleb (Rabs (fst p - snd p)) (1 / 10 ^ 4 + 1 / 10 ^ 5 * Rabs (snd p))) (combine a b).
Definition test_weights : vec := [-1; -(1/2); 0; 1/2; 1].
(** conductance.py:278-293 [invertibility_test] *)
Definition cp_test (c : cp) : res unit :=
  gr <- cp_to c test_weights ;;
  r <- cp_back c (fst gr) (snd gr) ;;
  if allclose test_weights r then Ok tt else Raise ArithmeticError.
(** conductance.py:237-283 (the type checks are omitted) *)
Definition cp_new (f : list R) (g : list vec) (g_max g_min : R) (test : bool) : res cp :=
  if Nat.odd (length g) then Raise ValueError
  else if negb (Nat.eqb (2 * length f) (length g)) then Raise ValueError
  else check_g g_max g_min
    (let c := {| cp_f := f; cp_g := g |} in
     if test then (_ <- cp_test c ;; Ok c) else Ok c).

(** ** SingleDeviceConductanceConverter *)
Definition minlist (l : list R) : R := match l with [] => 0 | a :: r => fold_left Rmin r a end.
(** conductance.py:388-397 *)
Definition sd_to (c : sp) (w : vec) : res (vec * (R * R)) :=
  let lo := minlist w in let hi := maxlist w in
  if Reqb (hi - lo) 0 then Raise ZeroDivisionError
  else let ratio := (sp_gmax c - sp_gmin c) / (hi - lo) in
       Ok (map (fun v => (v - lo) * ratio + sp_gmin c) w, (ratio, lo)).
(** conductance.py:399-412 *)
Definition sd_back (c : sp) (g : vec) (p : R * R) : vec :=
  map (fun v => snd p + (v - sp_gmin c) / fst p) g.

(** ** FusionConductanceConverter (fusion.py:17 has its own [_ZERO_CLIP]) *)
Definition fus_clip : R := 1 / 10 ^ 10.
(** fusion.py:42-46 *)
Definition fus_new (g_max : R) : res R := if Rltb g_max 10 || Rltb 40 g_max then Raise ArgumentError else Ok g_max.
Definition sgnR (v : R) : R := if Rltb 0 v then 1 else if Rltb v 0 then -1 else 0.
(** fusion.py:52-59, one output row *)
Definition fus_to_row (g_max : R) (w : vec) : vec :=
  map (fun v => clampR 0 g_max (Rabs (v * (g_max / Rmax (maxabs w) fus_clip)))) w.
Definition mean (l : vec) : R := sumR l / INR (length l).
(** sklearn [LinearRegression().fit(x, y).coef_]: least squares slope with intercept;
    the minimum norm solution 0 when [x] is constant *)
Definition slope (x y : vec) : R :=
  let dx := map (fun v => v - mean x) x in
  let dy := map (fun v => v - mean y) y in
  if Reqb (dot dx dx) 0 then 0 else dot dx dy / dot dx dx.
(** fusion.py:61-77, one row; [w] are the original weights *)
Definition fus_back_row (w g : vec) : vec :=
  let x := map2 (fun gv wv => gv * sgnR wv) g w in
  map (fun v => v * slope x w) x.
Definition fus_to (g_max : R) (w : mat) : mat := map (fus_to_row g_max) w.
Definition fus_back (w g : mat) : mat := map2 fus_back_row w g.

(** ** Export and import of a layer (export.py:115-185, 187-230)
    A layer is a list of tiles given by their weight matrices. *)
(** [flatten], and [reshape] of a flat list into [r] rows of [c] *)
Definition flatten (m : mat) : vec := concat m.
Fixpoint reshape (r c : nat) (l : vec) : mat :=
  match r with O => [] | S r' => firstn c l :: reshape r' c (skipn c l) end.
(** export.py:142-158: concatenated conductances, and the parameters (original weights) *)
Definition fus_export (g_max : R) (tiles : list mat) : vec * list mat :=
  (concat (map (fun w => flatten (fus_to g_max w)) tiles), tiles).
(** export.py:197-226: [sizes] are (out_size, in_size) of the tiles; the result are the
    matrices set to the tiles.  [reshape] of a too short list raises. *)
Fixpoint fus_import (data : vec) (params : list mat) (sizes : list (nat * nat)) (last : nat) : res (list mat) :=
  match sizes, params with
  | [], _ => Ok []
  | _ :: _, [] => Raise IndexError
  | (r, c) :: sizes', w :: params' =>
      let chunk := slice last (last + r * c) data in
      if Nat.eqb (length chunk) (r * c) then
        rest <- fus_import data params' sizes' (last + r * c) ;;
        Ok (fus_back w (reshape r c chunk) :: rest)
      else Raise RuntimeError
  end.

(** export.py:222-227: the imported matrix is set to the tile, together with the bias
    read from it (with the digital scales, the default of [get_weights]) *)
Definition fus_set (c : pcfg) (w : mat) (t : ptile) : res ptile :=
  set_weights c w (snd (get_weights c true t)) false None t.
