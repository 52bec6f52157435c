(** * What a convolution layer should do (independent of the model's helpers) *)
From Verif Require Import Prelude Rand CnnModel.
Local Open Scope nat_scope.

(** the value at position [i] of an axis of [n] elements with [p] zeros added on both sides *)
Definition zpad (n p : nat) (f : nat -> R) (i : nat) : R := if (p <=? i) && (i <? p + n) then f (i - p) else 0%R.
(** the textbook definition of (cross-correlation) convolution, one sample, without bias *)
Definition conv1d (C H k s p : nat) (w : nat -> nat -> nat -> R) (x : nat -> nat -> R) (o l : nat) : R :=
  Sum C (fun c => Sum k (fun a => (w o c a * zpad H p (x c) (l * s + a))%R)).
Definition conv2d (C H W k0 k1 s0 s1 p0 p1 d0 d1 : nat) (w : nat -> nat -> nat -> nat -> R) (x : nat -> nat -> nat -> R)
    (o oy ox : nat) : R :=
  Sum C (fun c => Sum k0 (fun a => Sum k1 (fun b =>
    (w o c a b * zpad H p0 (fun i => zpad W p1 (x c i) (ox * s1 + b * d1)) (oy * s0 + a * d0))%R))).
Definition conv3d (C D H W k0 k1 k2 s0 s1 s2 p0 p1 p2 : nat) (w : nat -> nat -> nat -> nat -> nat -> R)
    (x : nat -> nat -> nat -> nat -> R) (o oz oy ox : nat) : R :=
  Sum C (fun c => Sum k0 (fun a => Sum k1 (fun b => Sum k2 (fun e =>
    (w o c a b e * zpad D p0 (fun z => zpad H p1 (fun i => zpad W p2 (x c z i) (ox * s2 + e)) (oy * s1 + b)) (oz * s0 + a))%R)))).
(** elements of contiguous tensors *)
Definition el2 (B : nat) (t : list R) (a b : nat) : R := nth (a * B + b) t 0%R.
Definition el3 (B C : nat) (t : list R) (a b c : nat) : R := nth ((a * B + b) * C + c) t 0%R.
Definition el4 (B C D : nat) (t : list R) (a b c d : nat) : R := nth (((a * B + b) * C + c) * D + d) t 0%R.
Definition el5 (B C D E : nat) (t : list R) (a b c d e : nat) : R := nth ((((a * B + b) * C + c) * D + d) * E + e) t 0%R.
(** the weight of output [o], channel [c] and kernel position(s), from the weight matrix of the layer (torch's [out, in, k..]
    viewed as [out, in*k..]) *)
Definition w1 (W : mat) (k o c a : nat) : R := nth (c * k + a) (nth o W []) 0%R.
Definition w2 (W : mat) (k0 k1 o c a b : nat) : R := nth ((c * k0 + a) * k1 + b) (nth o W []) 0%R.
Definition w3 (W : mat) (k0 k1 k2 o c a b e : nat) : R := nth (((c * k0 + a) * k1 + b) * k2 + e) (nth o W []) 0%R.
(** the bias of output [o]: for an analog bias the last column of the tile *)
Definition bias_of (b : cbias) (W : mat) (n o : nat) : R :=
  match b with NoBias => 0%R | AnalogBias => nth n (nth o W []) 0%R | DigitalBias bs => nth o bs 0%R end.
(** inner product of two tensors *)
Definition inner (a b : list R) : R := dot a b.
(** the positions a kernel of size [k] with dilation [d] and stride [s] can take on an axis of [n + 2p] elements *)
Definition position (n k s p d l : nat) : Prop := l * s + d * (k - 1) < n + 2 * p.

(** a layer that never ran, with weights [W] *)
Definition fresh_conv (g : geom) (ic oc : nat) (b : cbias) (W : mat) : conv :=
  {| cv_g := g; cv_in := ic; cv_out := oc; cv_bias := b; cv_w := W; cv_it := None; cv_isize := 0 |}.
Definition well_formed (cv : conv) : Prop :=
  shape (cv_out cv) (cols (cv_g cv) (cv_in cv) (cv_bias cv)) (cv_w cv)
  /\ (forall bs, cv_bias cv = DigitalBias bs -> length bs = cv_out cv) /\ 0 < cv_in cv /\ 0 < cv_out cv.
(** a history of forward calls: shapes and inputs, with the results *)
Inductive forwards : conv -> list (nat * list nat * list R) -> list (list nat * list R) -> conv -> Prop :=
| fw_nil cv : forwards cv [] [] cv
| fw_cons cv n sh x osh y cv1 h r cv2 : conv_forward cv n sh x = Ok (osh, y, cv1) -> forwards cv1 h r cv2 ->
    forwards cv ((n, sh, x) :: h) ((osh, y) :: r) cv2.
(** the input is a non-empty batch of samples of shape [sh] *)
Definition batch_of (n : nat) (sh : list nat) (x : list R) : Prop := 0 < n /\ length x = n * prodn sh /\ 0 < prodn sh.
(** [y], of shape [osh], is the convolution of the batch [x] of [n] samples of shape [sh]: one value for every
    position of the kernel *)
Definition is_convolution (g : geom) (C O : nat) (b : cbias) (W : mat) (n : nat) (sh : list nat) (x : list R)
    (osh : list nat) (y : list R) : Prop :=
  match g, sh with
  | G1 k s p, [c; h] => exists L,
      osh = [n; O; L] /\ length y = n * O * L /\ (forall l, l < L <-> position h k s p 1 l)
      /\ forall i o l, i < n -> o < O -> l < L ->
         el3 O L y i o l = (conv1d C h k s p (w1 W k) (el3 C h x i) o l + bias_of b W (C * k) o)%R
  | G2 k0 k1 s0 s1 p0 p1 d0 d1, [c; h; w] => exists LH LW,
      osh = [n; O; LH; LW] /\ length y = n * O * (LH * LW)
      /\ (forall l, l < LH <-> position h k0 s0 p0 d0 l) /\ (forall l, l < LW <-> position w k1 s1 p1 d1 l)
      /\ forall i o oy ox, i < n -> o < O -> oy < LH -> ox < LW ->
         el4 O LH LW y i o oy ox
         = (conv2d C h w k0 k1 s0 s1 p0 p1 d0 d1 (w2 W k0 k1) (el4 C h w x i) o oy ox + bias_of b W (C * (k0 * k1)) o)%R
  | G3 k0 k1 k2 s0 s1 s2 p0 p1 p2, [c; d; h; w] => exists LD LH LW,
      osh = [n; O; LD; LH; LW] /\ length y = n * O * (LD * (LH * LW))
      /\ (forall l, l < LD <-> position d k0 s0 p0 1 l) /\ (forall l, l < LH <-> position h k1 s1 p1 1 l)
      /\ (forall l, l < LW <-> position w k2 s2 p2 1 l)
      /\ forall i o oz oy ox, i < n -> o < O -> oz < LD -> oy < LH -> ox < LW ->
         el5 O LD LH LW y i o oz oy ox
         = (conv3d C d h w k0 k1 k2 s0 s1 s2 p0 p1 p2 (w3 W k0 k1 k2) (el5 C d h w x i) o oz oy ox
            + bias_of b W (C * (k0 * k1 * k2)) o)%R
  | _, _ => False
  end.
(** the kernel has elements and fits the padded input at least once; the input has the channels of the layer *)
Definition valid_input (g : geom) (C : nat) (sh : list nat) : Prop :=
  match g, sh with
  | G1 k s p, [c; h] => c = C /\ 0 < k /\ 0 < s /\ position h k s p 1 0
  | G2 k0 k1 s0 s1 p0 p1 d0 d1, [c; h; w] => c = C /\ 0 < k0 /\ 0 < k1 /\ 0 < s0 /\ 0 < s1 /\ position h k0 s0 p0 d0 0 /\ position w k1 s1 p1 d1 0
  | G3 k0 k1 k2 s0 s1 s2 p0 p1 p2, [c; d; h; w] =>
      c = C /\ 0 < k0 /\ 0 < k1 /\ 0 < k2 /\ 0 < s0 /\ 0 < s1 /\ 0 < s2 /\ position d k0 s0 p0 1 0 /\ position h k1 s1 p1 1 0 /\ position w k2 s2 p2 1 0
  | _, _ => False
  end.
(** ** Mapped layers *)
Definition total (l : list nat) : nat := fold_right Nat.add 0 l.
(** the vector of inputs that the kernel sees at output position [l] of sample [i], channel by channel *)
Definition patch (g : geom) (C : nat) (sh : list nat) (x : list R) (i l : nat) : list R :=
  match g, sh with
  | G1 k s p, [_; h] => flat_map (fun c => tab k (fun a => zpad h p (el3 C h x i c) (l * s + a))) (seq 0 C)
  | G2 k0 k1 s0 s1 p0 p1 d0 d1, [_; h; w] =>
      let LW := image_size w k1 s1 p1 d1 in
      flat_map (fun c => flat_map (fun a => tab k1 (fun b =>
        zpad h p0 (fun y => zpad w p1 (el4 C h w x i c y) (l mod LW * s1 + b * d1)) (l / LW * s0 + a * d0))) (seq 0 k0)) (seq 0 C)
  | G3 k0 k1 k2 s0 s1 s2 p0 p1 p2, [_; d; h; w] =>
      let LH := image_size h k1 s1 p1 1 in let LW := image_size w k2 s2 p2 1 in
      flat_map (fun c => flat_map (fun a => flat_map (fun b => tab k2 (fun e =>
        zpad d p0 (fun z => zpad h p1 (fun y => zpad w p2 (el5 C d h w x i c z y) (l mod LW * s2 + e)) ((l / LW) mod LH * s1 + b))
          (l / (LH * LW) * s0 + a))) (seq 0 k1)) (seq 0 k0)) (seq 0 C)
  | _, _ => []
  end.
