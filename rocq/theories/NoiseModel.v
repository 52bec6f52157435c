(** * Model of the inference noise models
    Sources: /repo/src/aihwkit/inference/noise/base.py, pcm.py, hermes.py, custom.py, reram.py
    Conductance slices are flat lists.  [randn_like] is an arbitrary function from
    the slice number and the element number to the reals ("draws").  A NaN is
    represented by [Raise ArithmeticError]. *)
From Verif Require Import Prelude ConvModel.

Definition draws := nat -> nat -> R.
Definition mapi {A B} (f : nat -> A -> B) (l : list A) : list B := map2 f (seq 0 (length l)) l.

(** A conductance converter (the classes of converter/conductance.py) *)
Record converter : Type := {
  cv_P : Type;
  cv_to : vec -> res (list vec * cv_P);
  cv_back : list vec -> cv_P -> res vec
}.
Definition sp_conv (c : sp) : converter := {| cv_P := R; cv_to := fun w => Ok (sp_to c w); cv_back := sp_back c |}.
Definition np_conv (c : np) : converter := {| cv_P := R; cv_to := np_to c; cv_back := np_back c |}.
Definition cp_conv (c : cp) : converter := {| cv_P := R; cv_to := cp_to c; cv_back := cp_back c |}.

(** A noise model: the three methods to be overridden (base.py:129-175), with the
    draws for the slice as the first argument *)
Record noise : Type := {
  nm_prog : (nat -> R) -> vec -> res vec;                (* apply_programming_noise_to_conductance *)
  nm_nu : (nat -> R) -> vec -> vec;                      (* generate_drift_coefficients *)
  nm_drift : (nat -> R) -> vec -> vec -> R -> res vec    (* apply_drift_noise_to_conductance *)
}.

(** [for k, g in enumerate(l): out.append(f k g)] *)
Fixpoint mapiM_from {A B} (f : nat -> A -> res B) (k : nat) (l : list A) : res (list B) :=
  match l with
  | [] => Ok []
  | a :: r => b <- f k a ;; bs <- mapiM_from f (S k) r ;; Ok (b :: bs)
  end.
Definition mapiM {A B} (f : nat -> A -> res B) (l : list A) : res (list B) := mapiM_from f 0 l.

(** base.py:74-98 [apply_programming_noise] *)
Definition apply_programming_noise (cv : converter) (nm : noise) (zp zn : draws) (w : vec) : res (vec * list vec) :=
  gp <- cv_to cv w ;;
  gs <- mapiM (fun k g => nm_prog nm (zp k) g) (fst gp) ;;
  w' <- cv_back cv gs (snd gp) ;;
  Ok (w', mapi (fun k g => nm_nu nm (zn k) g) (fst gp)).
(** base.py:100-127 [apply_drift_noise] *)
Definition apply_drift_noise (cv : converter) (nm : noise) (zd : draws) (w : vec) (nus : list vec) (t : R) : res vec :=
  gp <- cv_to cv w ;;
  gs <- mapiM (fun k p => nm_drift nm (zd k) (fst p) (snd p) t) (combine (fst gp) nus) ;;
  cv_back cv gs (snd gp).
(** base.py:43-72 [apply_noise]; for [t_inference <= 0] nothing is appended *)
Definition apply_noise (cv : converter) (nm : noise) (zp zn zd : draws) (w : vec) (t : R) : res vec :=
  gp <- cv_to cv w ;;
  gs <- mapiM (fun k g =>
          g' <- nm_prog nm (zp k) g ;;
          if Rltb 0 t then (d <- nm_drift nm (zd k) g' (nm_nu nm (zn k) g) t ;; Ok [d]) else Ok []) (fst gp) ;;
  cv_back cv (concat gs) (snd gp).

(** ** The models with power law drift: PCMLikeNoiseModel, CustomDriftPCMLikeNoiseModel,
    HermesNoiseModel, StateIndependentNoiseModel.  They share the code of the programming
    noise (pcm.py:101-118, hermes.py:157-174, custom.py:142-157) and of the drift and read
    noise (pcm.py:133-158, hermes.py:228-274, custom.py:169-191), and differ in the
    coefficients. *)
Record pl : Type := {
  pl_coeff : list R;                (* prog_coeff *)
  pl_gmax : R;
  pl_ref : option R;                (* the attribute prog_coeff_g_max_reference, if set *)
  pl_pns : R;                       (* prog_noise_scale *)
  pl_nu1 : R -> R -> R;             (* draw, target conductance -> nu *)
  pl_t0 : R;
  pl_tread : R;
  pl_rns : R;                       (* read_noise_scale *)
  pl_qs : R -> R                    (* relative 1/f noise strength of a conductance *)
}.
(** [mat = 1; sig = c[0]; for coeff in c[1:]: mat *= x; sig += mat * coeff] *)
Fixpoint poly_loop (m s x : R) (cs : list R) : R :=
  match cs with [] => s | c :: r => poly_loop (m * x) (s + m * x * c) x r end.
Definition poly (cs : list R) (x : R) : R := match cs with [] => 0 | c :: r => poly_loop 1 c x r end.
(** pcm.py:101-118: the attribute is looked up when the noise is applied *)
Definition pl_prog (m : pl) (z : nat -> R) (g : vec) : res vec :=
  match pl_coeff m, pl_ref m with
  | [], _ => Raise IndexError
  | _, None => Raise AttributeError
  | cs, Some ref =>
      if Reqb ref 0 then Raise ZeroDivisionError
      else Ok (mapi (fun i v => Rmax (v + pl_pns m * (poly cs (v / pl_gmax m) * (pl_gmax m / ref)) * z i) 0) g)
  end.
(** pcm.py:133-158, one conductance *)
Definition pl_drifted (m : pl) (t nu g : R) : R :=
  if Rltb (pl_t0 m) (t + pl_t0 m) then g * Rpower ((t + pl_t0 m) / pl_t0 m) (- nu) else g.
Definition pl_drift1 (m : pl) (t z nu g : R) : R :=
  let tt := t + pl_t0 m in
  let gd := pl_drifted m t nu g in
  Rmax (if Rltb 0 tt then
          gd + Rabs gd * pl_rns m * (pl_qs m g * sqrt (ln ((tt + pl_tread m) / (2 * pl_tread m)))) * z
        else g) 0.
(** parameters for which the power or the square root is a NaN *)
Definition pl_undef (m : pl) (t : R) : bool :=
  Rleb (pl_t0 m) 0 || Rleb (pl_tread m) 0 || (Rltb 0 (t + pl_t0 m) && Rltb (t + pl_t0 m) (pl_tread m)).
Definition pl_drift (m : pl) (z : nat -> R) (g nu : vec) (t : R) : res vec :=
  if negb (Nat.eqb (length nu) (length g)) then Raise RuntimeError
  else if pl_undef m t then Raise ArithmeticError
  else Ok (mapi (fun i p => pl_drift1 m t (z i) (snd p) (fst p)) (combine g nu)).
Definition pl_noise (m : pl) : noise :=
  {| nm_prog := pl_prog m; nm_nu := fun z g => mapi (fun i v => pl_nu1 m (z i) v) g; nm_drift := pl_drift m |}.

(** The arguments common to the constructors *)
Record nargs : Type := {
  na_coeff : option (list R); na_gmax : R; na_tread : R; na_t0 : R;
  na_pns : R; na_rns : R; na_ds : R; na_ref : option R }.

(** pcm.py:64-98 (and hermes.py:121-148): the reference is set from [g_max] if it is not given, to the default if
    the coefficients are not given; a given reference is not stored *)
Definition ref_attr (a : nargs) (default : R) : option R :=
  match na_coeff a with
  | None => Some default
  | Some _ => match na_ref a with None => Some (na_gmax a) | Some _ => None end
  end.
(** pcm.py:121-130 *)
Definition rel (gmax g : R) : R := Rmax (Rabs (g / gmax)) zero_clip.
Definition pcm_mu (r : R) : R := clampR (49/1000) (1/10) (- (155/10000) * ln r + 244/10000).
Definition pcm_sig (r : R) : R := clampR (8/1000) (45/1000) (- (125/10000) * ln r - 59/10000).
Definition pcm_nu (a : nargs) (z g : R) : R :=
  let r := rel (na_gmax a) g in Rmax (Rabs (pcm_mu r + pcm_sig r * z)) 0 * na_ds a.
(** pcm.py:148-150; [0 ** 0.65] is 0 *)
Definition pow0 (x y : R) : R := if Reqb x 0 then 0 else Rpower x y.
Definition pcm_qs (gmax g : R) : R := Rmin (88/10000 / Rmax (pow0 (Rabs g / gmax) (65/100)) (1/1000)) (2/10).
Definition pcm_new (a : nargs) : pl :=
  {| pl_coeff := match na_coeff a with Some c => c | None => [26348/100000; 1965/1000; -(11731/10000)] end;
     pl_gmax := na_gmax a; pl_ref := ref_attr a 25; pl_pns := na_pns a; pl_nu1 := pcm_nu a;
     pl_t0 := na_t0 a; pl_tread := na_tread a; pl_rns := na_rns a; pl_qs := pcm_qs (na_gmax a) |}.

(** pcm.py:269-299, with [g_lst], [nu_mean_lst], [nu_std_lst] *)
Definition cus_nu (a : nargs) (gl ml sl : vec) (z g : R) : R :=
  let v := Rabs (interp gl ml (clampR (minlist gl) (maxlist gl) g) + interp gl sl (clampR (minlist gl) (maxlist gl) g) * z) in
  (if Rltb v 0 then 0 else v) * na_ds a.
Definition cus_new (a : nargs) (gl ml sl : vec) : pl :=
  let p := pcm_new a in
  {| pl_coeff := pl_coeff p; pl_gmax := pl_gmax p; pl_ref := pl_ref p; pl_pns := pl_pns p; pl_nu1 := cus_nu a gl ml sl;
     pl_t0 := pl_t0 p; pl_tread := pl_tread p; pl_rns := pl_rns p; pl_qs := pl_qs p |}.

(** custom.py:111-139, 160-166, 182-186; no reference is used, and the read noise strength is 1/g_max *)
Definition si_nu (a : nargs) (mean std z g : R) : R := Rmax (Rabs (mean + std * z)) 0 * na_ds a.
Definition si_new (a : nargs) (mean std : R) : pl :=
  {| pl_coeff := match na_coeff a with Some c => c | None => [2/10; 0; 0] end;
     pl_gmax := na_gmax a; pl_ref := Some (na_gmax a); pl_pns := na_pns a; pl_nu1 := si_nu a mean std;
     pl_t0 := na_t0 a; pl_tread := na_tread a; pl_rns := na_rns a; pl_qs := fun _ => 1 / na_gmax a |}.

(** hermes.py:177-225 and 242-268; [two] is [num_devices == 2].  [ln 0] is minus infinity,
    which the clamp turns into the maximum. *)
Definition h_mu (r : R) : R :=
  if Rltb r (945/10000) then clampR (72/1000) (13/100) (- (387/10000) * ln r - 182/10000)
  else - (436/10000) * (r * r) - 126/10000 * r + 736/10000.
Definition h_sig (two : bool) (r : R) : R :=
  if two then
    if Rltb r (3055/10000) then clampR (91/10000) (4/100) (- (117/10000) * ln r - 57/10000)
    else - (118/10000) * (r * r) + 93/10000 * r + 73/10000
  else
    if Rltb r (3039/10000) then clampR (124/10000) (4/100) (- (120/10000) * ln r - 23/10000)
    else - (165/10000) * (r * r) + 116/10000 * r + 104/10000.
Definition h_nu (a : nargs) (two : bool) (z g : R) : R :=
  let r := rel (na_gmax a) g in Rmax (Rabs (h_mu r + h_sig two r * z)) 0 * na_ds a.
Definition h_qs (gmax : R) (two : bool) (g : R) : R :=
  let r := Rabs g / gmax in
  if two then
    if Rltb r (16/100) then (if Reqb r 0 then 4/100 else clampR (15/1000) (4/100) (- (117/10000) * ln r - 69/10000))
    else 69/10000 * r ^ 3 - 280/10000 * r ^ 2 + 211/10000 * r + 123/10000
  else
    if Rltb r (1591/10000) then (if Reqb r 0 then 4/100 else clampR (179/10000) (4/100) (- (78/10000) * ln r + 38/10000))
    else 664/10000 * r ^ 3 - 1352/10000 * r ^ 2 + 768/10000 * r + 88/10000.
(** hermes.py:91-154; the assertion on [g_max] *)
Definition hermes_new (a : nargs) (two : bool) : res pl :=
  if Rltb (if two then 207/10 else 1035/100) (na_gmax a) then Raise AssertionError
  else Ok {| pl_coeff := match na_coeff a with
                         | Some c => c
                         | None => if two then [16603222/10^8; 471806468/10^8; -(848101252/10^8); 468961419/10^8]
                                   else [15781817/10^8; 232443916/10^8; -(216310839/10^8); 68841818/10^8]
                         end;
             pl_gmax := na_gmax a; pl_ref := ref_attr a (if two then 207/10 else 1035/100);
             pl_pns := na_pns a; pl_nu1 := h_nu a two; pl_t0 := na_t0 a; pl_tread := na_tread a;
             pl_rns := na_rns a; pl_qs := h_qs (na_gmax a) two |}.

(** ** ReRamWan2022NoiseModel (reram.py:67-165) *)
Record wan : Type := { wa_dic : list (R * list R); wa_gmax : R; wa_ref : option R; wa_ns : R }.
(** reram.py:67-96: the default reference of 40 is stored under another name *)
Definition wan_default : list (R * list R) :=
  [ (1, [348/1000; 16030/1000; -(43853/1000); 45393/1000; -(16815/1000)]);
    (86400, [701/1000; 22086/1000; -(50773/1000); 47095/1000; -(16458/1000)]);
    (172800, [782/1000; 20274/1000; -(43507/1000); 37062/1000; -(11934/1000)]) ].
Definition wan_new (dic : option (list (R * list R))) (gmax ns : R) (ref : option R) : wan :=
  {| wa_dic := match dic with Some d => d | None => wan_default end; wa_gmax := gmax;
     wa_ref := match ref with None => Some gmax | Some _ => None end; wa_ns := ns |}.
Fixpoint lookupR {A} (k : R) (l : list (R * A)) : option A :=
  match l with [] => None | (a, v) :: r => if Reqb a k then Some v else lookupR k r end.
(** reram.py:98-111 *)
Definition wan_poly (m : wan) (z : nat -> R) (g : vec) (cs : list R) : res vec :=
  match cs, wa_ref m with
  | [], _ => Raise IndexError
  | _, None => Raise AttributeError
  | _, Some ref =>
      if Reqb ref 0 then Raise ZeroDivisionError
      else Ok (mapi (fun i v => Rmax (v + wa_ns m * (poly cs (v / wa_gmax m) * (wa_gmax m / ref)) * z i) 0) g)
  end.
(** reram.py:113-123 *)
Definition wan_prog (m : wan) (z : nat -> R) (g : vec) : res vec :=
  match lookupR (minlist (map fst (wa_dic m))) (wa_dic m) with
  | Some cs => wan_poly m z g cs
  | None => Raise ValueError       (* min of an empty list *)
  end.
(** reram.py:136-165; the first tensor (the programmed conductances) is ignored *)
Definition wan_drift (m : wan) (z : nat -> R) (g g_target : vec) (t : R) : res vec :=
  match lookupR t (wa_dic m) with
  | None => Raise ArgumentError
  | Some cs => wan_poly m z g_target cs
  end.
Definition wan_noise (m : wan) : noise :=
  {| nm_prog := wan_prog m; nm_nu := fun _ g => g; nm_drift := wan_drift m |}.
