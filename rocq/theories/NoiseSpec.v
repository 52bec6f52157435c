(** * Noise models: vocabulary of the theorems *)
From Verif Require Import Prelude ConvModel NoiseModel.

(** the models with power law drift, as built by their constructors from arguments [a] *)
Inductive power_law (a : nargs) : pl -> Prop :=
| PlPcm : power_law a (pcm_new a)
| PlCustomDrift : forall gl ml sl, power_law a (cus_new a gl ml sl)
| PlStateIndependent : forall mean std, power_law a (si_new a mean std)
| PlHermes : forall two m, hermes_new a two = Ok m -> power_law a m.
(** physically sensible arguments; the reference is left to the constructor *)
Definition sensible (a : nargs) : Prop :=
  0 < na_gmax a /\ 0 < na_tread a /\ na_tread a <= na_t0 a /\ 0 <= na_ds a /\ na_ref a = None
  /\ na_coeff a <> Some [].
(** the default arguments of PCMLikeNoiseModel *)
Definition pcm_default : nargs :=
  {| na_coeff := None; na_gmax := 25; na_tread := 250 / 10 ^ 9; na_t0 := 20; na_pns := 1; na_rns := 1; na_ds := 1; na_ref := None |}.

(** a converter for which the round trip is exact and conductances are not negative
    (see C28 and C29) *)
Definition exact_conv (cv : converter) : Prop :=
  forall w, w <> [] -> exists g p, cv_to cv w = Ok (g, p) /\ cv_back cv g p = Ok w
    /\ forall s v, In s g -> In v s -> 0 <= v.
(** The power law of drift *)
Definition decay (t0 t nu : R) : R := Rpower (1 + t / t0) (- nu).
