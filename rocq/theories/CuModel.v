(** * Model of the pulsed update on the GPU
    Sources (all in /repo/src/rpucuda/cuda): bit_line_maker.cu (the pulse trains, packed into
    words), update_management_helper.cu (the start bits), pwu_kernel.h (the kernels that count
    the coincidences and step the weights).  Words are natural numbers (binary, [N]), truncated
    where the C++ truncates; counts, indices and sizes are natural numbers without overflow;
    weights are real.  A device buffer is a function from addresses to words.  The threads of a
    launch are modelled by their memory operations, in any order. *)
From Verif Require Import Prelude Rand.
From Coq Require Import NArith.

(** ** Words *)
(** conversion to [uint32_t] *)
Definition w32 (x : N) : N := N.land x (N.ones 32).
(** [~x] of a [uint32_t] *)
Definition not32 (x : N) : N := N.ldiff (N.ones 32) x.
(** [__popc] *)
Definition popc (x : N) : nat := length (filter (fun j => N.testbit x (N.of_nat j)) (seq 0 32)).

(** ** The pulse trains *)
(** the loop [ballot |= (stoch_value < value) ? (((uint32_t)1) << j) : 0]
    (bit_line_maker.cu:900-903, :918-921, :945-949); [hits] are the results of the comparisons
    in the order of the draws *)
Fixpoint ballot (j : N) (hits : list bool) : N :=
  match hits with
  | [] => 0
  | h :: r => N.lor (if h then N.shiftl 1 j else 0) (ballot (j + 1) r)
  end%N.
(** bit_line_maker.cu:909-925: words [i], [i+1] .. ([n] of them) *)
Fixpoint more_words (i loc K : nat) (hits : list bool) (n : nat) : list N :=
  match n with
  | O => []
  | S n' =>
    if (loc <? i)%nat then 0%N :: more_words (S i) loc K hits n'
    else
      let nn := if (i =? loc)%nat then (K mod 32)%nat else 31%nat in
      ballot 0 (firstn (nn + 1) hits) :: more_words (S i) loc K (skipn (nn + 1) hits) n'
  end.
(** bit_line_maker.cu:886-927 [getCountsSimpleLoop<uint32_t>]: the [nK32] words of one value *)
Definition counts32 (negative : bool) (hits : list bool) (K nK32 : nat) : list N :=
  let loc := Nat.min (K / 32) (nK32 - 1) in
  let nn := if (0 <? loc)%nat then 31%nat else K in
  N.lor (if negative then 1%N else 0%N) (ballot 1 (firstn nn hits))
    :: more_words 1 loc K (skipn nn hits) (nK32 - 1).
(** bit_line_maker.cu:929-964 [getCountsSimpleLoop<uint64_t>]: the words that are OR-ed into the
    buffer at [c] and [c + 1] *)
Definition counts64 (negative : bool) (hits : list bool) (K Kc c : nat) : list (nat * N) :=
  let pos := N.of_nat (Kc mod 32) in
  let neg_word := if negative then N.shiftr (N.ones 32) (32 - N.of_nat K) else 0%N in
  let b := ballot 0 hits in
  (c, N.lor (w32 (N.shiftl b pos)) (N.shiftl (w32 (N.shiftl neg_word pos)) 32))
    :: (if (32 <? Kc mod 32 + K)%nat
        then [(S c, N.lor (N.shiftr b (32 - pos)) (N.shiftl (N.shiftr neg_word (32 - pos)) 32))]
        else []).

(** bit_line_maker.cu:733-747 [getBatchIdx], [getValueIdx] *)
Definition batch_idx (trans : bool) (idx sz m : nat) : nat := if trans then (idx mod m)%nat else (idx / sz)%nat.
Definition value_idx (trans : bool) (idx sz m : nat) : nat := if trans then (idx / m)%nat else (idx mod sz)%nat.
(** bit_line_maker.cu:675-703 [getCountsIdx<.., .., uint32_t>] *)
Definition counts_idx32 (trans out_trans : bool) (idx sz m off : nat) : nat :=
  match trans, out_trans with
  | false, false => (idx / sz * off + idx mod sz)%nat
  | false, true => let t := (idx / sz + m * (idx mod sz))%nat in (t / sz * off + t mod sz)%nat
  | true, false => (idx mod m * off + idx / m)%nat
  | true, true => (idx / sz * off + idx mod sz)%nat
  end.
(** bit_line_maker.cu:705-718 [getCountsIdx<.., true, uint64_t>] *)
Definition counts_idx64 (trans : bool) (idx sz m Kc nB : nat) : nat :=
  ((if trans then idx / m else idx mod sz) * nB + Kc / 32)%nat.
(** bit_line_maker.cu:790-797 [getK]; [BL] is [Kplus1 - 1] *)
Definition get_K (ublm : bool) (Ks : nat -> nat) (BL b : nat) : nat := if ublm then Ks b else BL.
(** update_management_helper.cu:550-558 [computeKc] (inclusive sums, written one place further;
    the first value is set to 0 by [initializeBuffers]) *)
Fixpoint kc_values (Ks : nat -> nat) (b : nat) : nat := match b with O => O | S b' => (kc_values Ks b' + Ks b')%nat end.
(** bit_line_maker.cu:800-810 [getKc<.., uint64_t>] *)
Definition get_Kc (ublm : bool) (Ks : nat -> nat) (BL b : nat) : nat := if ublm then kc_values Ks b else (b * BL)%nat.
(** bit_line_maker.cu:824-832 [getnB<.., uint64_t>]; [*Kn] is the last of the sums *)
Definition get_nB (ublm : bool) (Ks : nat -> nat) (BL m : nat) : nat :=
  if ublm then ((kc_values Ks m + 31) / 32)%nat else ((m * BL + 31) / 32)%nat.

(** A value after scaling and discretization: [None] if it is zero, otherwise its sign and the
    results of the comparisons with the uniform draws *)
Definition tval : Type := option (bool * list bool).
(** bit_line_maker.cu:966-1005 [GET_COUNTS_SIMPLE_LOOP_BATCH], one [idx]: the memory operations *)
Definition ops32 (ublm : bool) (Ks : nat -> nat) (BL m sz : nat) (trans out_trans : bool) (v : nat -> nat -> tval) (idx : nat) : list (nat * N) :=
  let nK32 := ((BL + 1 + 31) / 32)%nat in
  let b := batch_idx trans idx sz m in
  let K := get_K ublm Ks BL b in
  match v b (value_idx trans idx sz m) with
  | Some (neg, hits) =>
    if (K =? 0)%nat then []
    else let c := counts_idx32 trans out_trans idx sz m (nK32 * sz) in
         map (fun p => (c + fst p * sz, snd p)%nat) (combine (seq 0 nK32) (counts32 neg hits K nK32))
  | None => []
  end.
Definition ops64 (ublm : bool) (Ks : nat -> nat) (BL m sz : nat) (trans : bool) (v : nat -> nat -> tval) (idx : nat) : list (nat * N) :=
  let b := batch_idx trans idx sz m in
  let K := get_K ublm Ks BL b in
  match v b (value_idx trans idx sz m) with
  | Some (neg, hits) =>
    if (K =? 0)%nat then []
    else let Kc := get_Kc ublm Ks BL b in
         counts64 neg hits K Kc (counts_idx64 trans idx sz m Kc (get_nB ublm Ks BL m))
  | None => []
  end.
(** memory *)
Definition mem : Type := nat -> N.
Definition store (m : mem) (op : nat * N) : mem := fun a => if (a =? fst op)%nat then snd op else m a.
Definition atomic_or (m : mem) (op : nat * N) : mem := fun a => if (a =? fst op)%nat then N.lor (m a) (snd op) else m a.
(** the buffers are set to zero before the launch (bit_line_maker.cu:2112-2114, :2131-2133);
    [ops] are the operations of all threads in the order in which they take place *)
Definition run32 (ops : list (nat * N)) : mem := fold_left store ops (fun _ => 0%N).
Definition run64 (ops : list (nat * N)) : mem := fold_left atomic_or ops (fun _ => 0%N).

(** ** Counting the coincidences *)
Record load : Type := { l_n : N; l_neg : N; l_mixed : bool }.
(** pwu_kernel.h:71-81 [getIdxToLoad] *)
Definition idx_to_load (trans : bool) (batch_index count_index sz m off : nat) : nat :=
  if trans then let a := (batch_index + count_index * m)%nat in (a / sz * off + a mod sz)%nat
  else (count_index + batch_index * off)%nat.
(** pwu_kernel.h:84-128 [getNfromCount<one_sided, uint32_t>]; [x i], [d i]: word [i] *)
Definition getn32 (one_sided : Z) (nK32 : nat) (x d : nat -> N) : load :=
  let negative := N.lxor (N.land (x O) 1) (N.land (d O) 1) in
  let xd := N.land (x O) (d O) in
  let n := (popc xd - N.to_nat (N.land xd 1)
            + sum_nat (map (fun i => popc (N.land (x i) (d i))) (seq 1 (nK32 - 1))))%nat in
  if (one_sided =? -1)%Z then
    if (negative =? 0)%N then {| l_n := N.of_nat n; l_neg := 1; l_mixed := false |}
    else {| l_n := 0; l_neg := negative; l_mixed := false |}
  else if ((one_sided =? 1)%Z && (negative =? 0)%N)%bool then {| l_n := 0; l_neg := negative; l_mixed := false |}
  else {| l_n := N.of_nat n; l_neg := negative; l_mixed := false |}.
(** pwu_kernel.h:197-243 [getNfromCount<one_sided, uint64_t>] *)
Definition getn64 (one_sided : Z) (x d : N) : load :=
  let neg0 := N.lxor (w32 (N.shiftr x 32)) (w32 (N.shiftr d 32)) in
  let data0 := N.land (w32 x) (w32 d) in
  let data := if (one_sided =? -1)%Z then N.land data0 (not32 neg0)
              else if (one_sided =? 1)%Z then N.land data0 neg0 else data0 in
  let neg := if (one_sided =? 0)%Z then neg0 else not32 0 in
  let all_negative := (not32 (N.lor neg (not32 data)) =? 0)%N in
  let all_positive := (not32 (N.lor (not32 neg) (not32 data)) =? 0)%N in
  if (all_negative || all_positive)%bool
  then {| l_n := N.of_nat (popc data); l_neg := if all_positive then 0%N else 1%N; l_mixed := false |}
  else {| l_n := data; l_neg := neg; l_mixed := true |}.

(** ** The steps *)
(** the parameters of a cross point: [par_4.x], [.y], [.z], [.w] *)
Record cpar : Type := { p_min : R; p_down : R; p_max : R; p_up : R }.
(** pwu_kernel.h:270-325 [UpdateFunctorConstantStep] *)
Definition const_step (p : cpar) (sigma : R) (w : R) (n : nat) (negative : N) : M R :=
  let dw := if (0 <? negative)%N then p_up p else - p_down p in
  w1 <~ (if (n =? 1)%nat then
           if Rltb 0 sigma then Gauss (fun g => Ret (w + dw * (1 + g * sigma))) else Ret (w + dw)
         else if Rltb 0 sigma then Gauss (fun g => Ret (w + dw * INR n * (1 + / sqrt (INR n) * (g * sigma))))
         else Ret (w + dw * INR n)) ;;
  let w2 := if Rltb (p_max p) w1 then p_max p else w1 in
  Ret (if Rltb w2 (p_min p) then p_min p else w2).

(** the weight, the number of pulses not yet applied and their direction *)
Record kst : Type := { k_w : R; k_sum : nat; k_last : N }.
(** [if (sum_n > 0) up_fun(..)] *)
Definition flush (p : cpar) (sigma : R) (s : kst) : M R :=
  if (0 <? k_sum s)%nat then const_step p sigma (k_w s) (k_sum s) (k_last s) else Ret (k_w s).
(** a run of pulses of one direction joins the sum or starts a new one
    (pwu_kernel.h:408-419, :424-432) *)
Definition add_run (p : cpar) (sigma : R) (s : kst) (n : nat) (neg : N) : M kst :=
  if (k_last s =? neg)%N then Ret {| k_w := k_w s; k_sum := (k_sum s + n)%nat; k_last := k_last s |}
  else w <~ flush p sigma s ;; Ret {| k_w := w; k_sum := n; k_last := neg |}.
(** the loop over the 32 bits of a mixed word, pwu_kernel.h:404-421 *)
Definition bit_loop (p : cpar) (sigma : R) (l : load) (s : kst) : M kst :=
  foldMM (fun s i =>
    if N.testbit (l_n l) (N.of_nat i)
    then add_run p sigma s 1 (if N.testbit (l_neg l) (N.of_nat i) then 1%N else 0%N) else Ret s) (seq 0 32) s.
(** the bound check of a mixed word, pwu_kernel.h:436-464 [.._BOUND_CHECK] *)
Definition bound_check (p : cpar) (sigma : R) (l : load) (s : kst) : M kst :=
  w <~ flush p sigma s ;;
  let s0 := {| k_w := w; k_sum := 0; k_last := 0 |} in
  let pos_n := popc (N.land (not32 (l_neg l)) (l_n l)) in
  let neg_n := popc (N.land (l_neg l) (l_n l)) in
  pos1 <~ (if (Rltb 0 sigma && (0 <? pos_n)%nat)%bool
           then Gauss (fun _ => Ret (INR pos_n + sqrt (INR pos_n) * sigma)) else Ret (INR pos_n)) ;;
  neg1 <~ (if (Rltb 0 sigma && (0 <? neg_n)%nat)%bool
           then Gauss (fun _ => Ret (INR neg_n + sqrt (INR neg_n) * sigma)) else Ret (INR neg_n)) ;;
  let dw_pos := pos1 * p_down p in
  let dw_neg := neg1 * p_up p in
  if (Rleb (p_min p) (w - dw_pos) && Rleb (w + dw_neg) (p_max p))%bool
  then Ret {| k_w := w - (dw_pos - dw_neg); k_sum := 0; k_last := 0 |}
  else bit_loop p sigma l s0.
(** pwu_kernel.h:401-434 [RPU_UPDATE_WITH_SUM_N_INNER] without and with the bound check *)
Definition inner (bc : bool) (p : cpar) (sigma : R) (s : kst) (l : load) : M kst :=
  if l_mixed l then (if bc then bound_check p sigma l s else bit_loop p sigma l s)
  else if ((l_n l =? 0)%N || (k_last s =? l_neg l)%N)%bool
  then Ret {| k_w := k_w s; k_sum := (k_sum s + N.to_nat (l_n l))%nat; k_last := k_last s |}
  else add_run p sigma s (N.to_nat (l_n l)) (l_neg l).
(** pwu_kernel.h:513-540, :598-625: the loop over the batch for one weight *)
Definition sum_loop (bc : bool) (p : cpar) (sigma : R) (w : R) (ls : list load) : M R :=
  s <~ foldMM (inner bc p sigma) ls {| k_w := w; k_sum := 0; k_last := 0 |} ;; flush p sigma s.
(** pwu_kernel.h:687-714, :1074-1105: the loop of the functor kernels, here with
    [UpdateFunctorConstantStep] *)
Definition functor_load (p : cpar) (sigma : R) (w : R) (l : load) : M R :=
  if l_mixed l then
    foldMM (fun w i =>
      if N.testbit (l_n l) (N.of_nat i)
      then const_step p sigma w 1 (if N.testbit (l_neg l) (N.of_nat i) then 1%N else 0%N) else Ret w) (seq 0 32) w
  else if (0 <? l_n l)%N then const_step p sigma w (N.to_nat (l_n l)) (l_neg l) else Ret w.
Definition functor_loop (p : cpar) (sigma : R) (w : R) (ls : list load) : M R := foldMM (functor_load p sigma) ls w.
(** the batch loop in strides of the shared memory kernels (pwu_kernel.h:906, :985, :1061);
    the copy into shared memory is not modelled: the loads are those of the buffers *)
Definition strides (bs : nat) (ls : list load) : list (list load) :=
  map (fun q => firstn bs (skipn (q * bs) ls)) (seq 0 ((length ls + bs - 1) / bs)).
(** the kernels: [kernelUpdateWBatchSum], [..SumBoundCheck] (pwu_kernel.h:467-633),
    [..Functor] (:636-720), [..SharedSum], [..SharedSumBoundCheck], [..SharedFunctor]
    (:864-1118) *)
Inductive kernel : Type := KSum | KSumBC | KFunctor | KSharedSum (bs : nat) | KSharedSumBC (bs : nat) | KSharedFunctor (bs : nat).
Definition run_kernel (k : kernel) (p : cpar) (sigma : R) (w : R) (ls : list load) : M R :=
  match k with
  | KSum => sum_loop false p sigma w ls
  | KSumBC => sum_loop true p sigma w ls
  | KFunctor => functor_loop p sigma w ls
  | KSharedSum bs => foldMM (sum_loop false p sigma) (strides bs ls) w
  | KSharedSumBC bs => foldMM (sum_loop true p sigma) (strides bs ls) w
  | KSharedFunctor bs => foldMM (functor_loop p sigma) (strides bs ls) w
  end.
(** the loads of the weight ([xi], [di]) from the two buffers (pwu_kernel.h:519-528); 32 bit *)
Definition loads32 (one_sided : Z) (BL m xsz dsz : nat) (x_trans d_trans : bool) (xc dc : mem) (xi di : nat) : list load :=
  let nK32 := ((BL + 1 + 31) / 32)%nat in
  map (fun b => getn32 one_sided nK32
         (fun i => xc (idx_to_load x_trans b xi xsz m (xsz * nK32) + i * xsz)%nat)
         (fun i => dc (idx_to_load d_trans b di dsz m (dsz * nK32) + i * dsz)%nat)) (seq 0 m).
(** the same, 64 bit: the batch size is overwritten by the number of words
    (pwu_kernel.h:479-482; [m_batch_in] is the number of words without bit line management) *)
Definition loads64 (one_sided : Z) (nB xsz dsz : nat) (xc dc : mem) (xi di : nat) : list load :=
  map (fun b => getn64 one_sided (xc (idx_to_load true b xi xsz nB xsz)) (dc (idx_to_load true b di dsz nB dsz))) (seq 0 nB).

(** ** Which thread handles which weight *)
(** the stride loop of the kernels without shared memory (pwu_kernel.h:504-511, :589-596,
    :673-676; bit_line_maker.cu:974-977): in round [r] thread [tid] of [total] handles this index *)
Definition grid_index (total n tid r : nat) : option nat :=
  if (r * total <? n)%nat then (let idx := (tid + r * total)%nat in if (idx <? n)%nat then Some idx else None) else None.
(** bit_line_maker.cu:1064-1071: the blocks are split between x and d ([ceilf] of an exact
    quotient) *)
Definition split_blocks (grid xs ds : nat) : nat * nat :=
  let nx := ((grid * xs + (xs + ds) - 1) / (xs + ds))%nat in
  if ((grid - nx =? 0)%nat && (0 <? ds)%nat)%bool then ((grid - 1)%nat, 1%nat) else (nx, (grid - nx)%nat).
(** pwu_kernel.h:728-780 [RPU_UWBS_DEF_AND_STRIDE_LOOP]: [xb] is [blockDim.x / 32]; the block
    returns in the first round in which its x values start beyond the end *)
Definition x_start (grid xb dsz blk r : nat) : nat := (xb * ((blk + r * grid) / ((dsz + 31) / 32)))%nat.
Definition still_running (grid xb xsz dsz blk r : nat) : bool :=
  forallb (fun r' => (x_start grid xb dsz blk r' <? xsz)%nat) (seq 0 (S r)).
Definition shared_index (grid xb xsz dsz blk r t : nat) : option nat :=
  let ndb := ((dsz + 31) / 32)%nat in
  let nxb := ((xsz + xb - 1) / xb)%nat in
  if (r * (xb * 32 * grid) <? ndb * nxb * (xb * 32))%nat then
    if still_running grid xb xsz dsz blk r then
      let bid := (blk + r * grid)%nat in
      let d := (32 * (bid mod ndb) + t mod 32)%nat in
      let x := (x_start grid xb dsz blk r + t / 32)%nat in
      if ((x <? xsz)%nat && (d <? dsz)%nat)%bool then Some (x * dsz + d)%nat else None
    else None
  else None.
