(** * What the user is told about the quantized periphery *)
From Verif Require Import Prelude ConvModel QuantModel QuantSpec PeriModel QpModel.

(** what happens to the values [x]: a forward in training or in evaluation, a step of the optimizer *)
Inductive call := Train (x : vec) | Eval (x : vec) | Opt (f : qpar -> qpar).
Definition ok_call (c : call) : Prop := match c with Train x | Eval x => x <> [] | Opt _ => True end.
Definition is_train (c : call) : bool := match c with Train _ => true | _ => false end.
Definition is_opt (c : call) : bool := match c with Opt _ => true | _ => false end.
(** the grid for the range of these values *)
Definition grid_of (c : qcfg) (x : vec) : res qst := q_set c q_new [minlist x] [maxlist x].
(** the values on the grid *)
Definition on (c : qcfg) (g : qst) (x : vec) : res vec := y <- q_forward c g [x] ;; Ok (hd [] y).
(** What is documented: in training the grid is the one of the current values; with learning it is so up to batch [pq_after], after it the grid
    is changed by the optimizer only; in evaluation the grid does not change, if there is none it is the one of these values.
    [k] batches of training up to now *)
Definition doc_call (c : pquant) (k : Z) (g : option qst) (x : call) : res (option vec * option qst) :=
  match x with
  | Train x =>
      if pq_learn c && (pq_after c <? k + 1)%Z
      then match g with Some g => y <- on (pq_cfg c) g x ;; Ok (Some y, Some g) | None => Raise AssertionError end
      else g <- grid_of (pq_cfg c) x ;; y <- on (pq_cfg c) g x ;; Ok (Some y, Some g)
  | Eval x =>
      g <- (match g with Some g => Ok g | None => grid_of (pq_cfg c) x end) ;; y <- on (pq_cfg c) g x ;; Ok (Some y, Some g)
  | Opt f =>
      if pq_learn c && (pq_after c <? k)%Z
      then Ok (None, option_map (fun g => {| qs_par := option_map (map f) (qs_par g); qs_signed := qs_signed g |}) g) else Ok (None, g)
  end.
(** the results of the calls *)
Fixpoint doc_run (c : pquant) (k : Z) (g : option qst) (h : list call) : res (list (option vec)) :=
  match h with
  | [] => Ok []
  | x :: r => p <- doc_call c k g x ;; l <- doc_run c (if is_train x then k + 1 else k)%Z (snd p) r ;; Ok (fst p :: l)
  end.
(** the same with the code *)
Definition do_call (fwd : pquant -> bool -> slot -> vec -> res (vec * slot)) (c : pquant) (s : slot) (x : call) : res (option vec * slot) :=
  match x with
  | Train x => r <- fwd c false s x ;; Ok (Some (fst r), snd r)
  | Eval x => r <- fwd c true s x ;; Ok (Some (fst r), snd r)
  | Opt f => Ok (None, slot_opt f s)
  end.
Fixpoint do_run fwd (c : pquant) (s : slot) (h : list call) : res (list (option vec) * slot) :=
  match h with
  | [] => Ok ([], s)
  | x :: r => p <- do_call fwd c s x ;; l <- do_run fwd c (snd p) r ;; Ok (fst p :: fst l, snd l)
  end.
Definition arr (c : pquant) (is_test : bool) (s : slot) (x : vec) : res (vec * slot) := arr_forward c (negb is_test) s x.
Definition trains (h : list call) : nat := length (filter is_train h).
(** results that are all on the grid of [x0] *)
Fixpoint all_on (c : qcfg) (g : qst) (h : list call) : res (list (option vec)) :=
  match h with
  | [] => Ok []
  | Train x :: r | Eval x :: r => y <- on c g x ;; l <- all_on c g r ;; Ok (Some y :: l)
  | Opt _ :: r => l <- all_on c g r ;; Ok (None :: l)
  end.
(** a forward of the tile in training or not, with these scales and bias; [y] is the output of the simulated array *)
Record qcall := { qc_test : bool; qc_ir : option R; qc_ms : option vec; qc_los : option vec; qc_b : option vec; qc_y : vec }.
Definition with_values (t : qtile) (o : qcall) : qtile := {| qt_ir := qc_ir o; qt_ms := qc_ms o; qt_los := qc_los o; qt_b := qc_b o; qt_scale := qt_scale t; qt_bias := qt_bias t |}.
Fixpoint tile_run (c : pquant) (q : vec -> vec) (t : qtile) (h : list qcall) : res (list vec) :=
  match h with [] => Ok [] | o :: r => p <- qt_forward c q (qc_test o) (with_values t o) (qc_y o) ;; l <- tile_run c q (snd p) r ;; Ok (fst p :: l) end.
Definition as_call (test : bool) (x : vec) : call := if test then Eval x else Train x.
(** one of the two: the values as documented, if there are any *)
Definition doc_values (c : pquant) (k : Z) (g : option qst) (test : bool) (x : option vec) : res (option vec * (Z * option qst)) :=
  match x with
  | None => Ok (None, (k, g))
  | Some x => p <- doc_call c k g (as_call test x) ;; Ok (fst p, ((if test then k else k + 1)%Z, snd p))
  end.
(** the output of the array times the quantized scales, plus the quantized bias, with quantized activations *)
Fixpoint doc_tile (c : pquant) (q : vec -> vec) (s b : Z * option qst) (h : list qcall) : res (list vec) :=
  match h with
  | [] => Ok []
  | o :: r =>
      u <- doc_values c (fst s) (snd s) (qc_test o) (merged (qc_ir o) (qc_ms o) (qc_los o)) ;;
      v <- doc_values c (fst b) (snd b) (qc_test o) (qc_b o) ;;
      l <- doc_tile c q (snd u) (snd v) r ;;
      let y := match fst u with Some a => bmul a (qc_y o) | None => qc_y o end in
      Ok (q (match fst v with Some b => map2 Rplus y b | None => y end) :: l)
  end.
Definition values_ok (o : qcall) : Prop := qc_b o <> Some [] /\ merged (qc_ir o) (qc_ms o) (qc_los o) <> Some [].
