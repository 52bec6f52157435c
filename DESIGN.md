# DESIGN — a Rocq (Coq 8.16.1) model of IBM/aihwkit

## 1. Approach

The Python/C++ code in /repo is read as text and transcribed, function by
function, into Gallina definitions. Files come in groups:

* `X*Model.v` — the model: definitions only; each cites the file and lines it
  models, and states simplifications.
* `X*Spec.v` — small, model independent vocabulary for the statements (not all
  areas need one).
* `X*Proofs*.v` — lemmas and proofs.
* `X*Props.v` — the theorems claimed in MANIFEST.json, stated in full, each proved
  by `exact` of a lemma (or a short proof), examples showing the hypotheses are
  met, and `Print Assumptions`.

Conventions.

* Python exceptions are values: a function that can raise returns `res A`
  (`Ok a | Raise e`), in `Prelude.v`.
* Tensors are lists (vectors) and lists of rows (matrices) over Coq's `R`. Indices,
  sizes and counters are `nat`/`Z`. Broadcasting is written out.
* Random numbers are explicit arguments (a list, function or stream), universally
  quantified in the theorems: a claim proved for all draws holds for every seed.
* Mutable objects are records with explicit state passing; aliasing is modelled
  where the code's behaviour depends on it (mapping scales vs. learned scales,
  tensors shared by views).
* A property the code violates is stated as a `_refuted` theorem: the negation of
  the claim, proved with a concrete reachable witness, next to the strongest
  version that does hold.
* `_partial` marks theorems that prove less than the English claim.

## 2. Trusted base

* Coq 8.16.1's kernel (and the `coqc` that runs it); no plugin beyond those of
  the standard library.
* Axioms: none of our own. `Print Assumptions` lists for the theorems over the
  reals at most `ClassicalDedekindReals.sig_forall_dec`,
  `ClassicalDedekindReals.sig_not_dec`,
  `FunctionalExtensionality.functional_extensionality_dep` and
  `Classical_Prop.classic`, all from
  the standard library (they come with `Coq.Reals`). Theorems about discrete
  state are closed under the global context.
* The transcription from Python/C++ to Gallina, which is by hand. The citations in
  the model files exist to make it reviewable.
* Real numbers instead of IEEE floats: rounding, overflow, NaN and infinities are
  not modelled. Claims of exact equality are about real arithmetic. Division by
  zero is modelled explicitly where the code's behaviour depends on it; elsewhere
  hypotheses exclude it.
* torch itself (autograd, module registration, broadcasting, device transfers) is
  modelled only through the operations written in the model files.

## 3. Areas: what is modelled and how it is proved

**Tile arrays** (`ArrayModel.v`, `ArrayProofs.v`, `ArrayPeri.v`, `ArrayProps.v`; C01–C03).
`simulator/tiles/array.py` for an abstract physical tile, then instantiated with
the periphery tiles below. Split sizes by arithmetic on `Z`; set/get/forward by
induction over the grid. Not modelled: quantized arrays, non-matrix weights.

**Digital periphery** (`PeriModel.v`, `PeriSpec.v`, `PeriProofs*.v`, `PeriProps.v`; C04–C13).
`TileWithPeriphery` of `simulator/tiles/periphery.py` over an ideal simulator tile
(`w x`, `w - lr d x^T`). `reachable` ranges over all histories of API calls from
the constructor; an invariant (shapes, positivity of scales, no aliasing) is
proved by induction over the history. Not modelled: read_weights (least squares),
program_weights (see the lifecycle area), quantized periphery.

**Analog context** (`CtxModel.v`, `CtxProofs.v`, `CtxProps.v`; C14–C16).
`AnalogContext` of `optim/context.py`: a small machine with an environment of
objects (placeholder, views aliasing the tile, plain tensors) on which arbitrary
functions are called; induction over programs. Torch functions are arbitrary
functions with a kind (value, in place, view).

**Optimizer** (`OptimModel.v`, `OptimSpec.v`, `OptimProofs.v`, `OptimProps.v`; C17–C20).
`optim/analog_optimizer.py` with events for tile calls. Not modelled: the wrapped
torch optimizer's own step, offloading, transposed tiles.

**Analog MVM of torch tiles** (`MvmModel.v`, `MvmSpec.v`, `MvmProofs.v`, `MvmProps.v`; C21–C27).
`simulator/tiles/analog_mvm.py` and the quantizer of `simulator/tiles/utils.py`
over exact reals. Noise is an arbitrary tensor, different in each bound management
round. The loop is a function with fuel and C21 proves that the fuel suffices.
Not modelled: the transposed flag, convolution shaped inputs, IR drop; the NaN of a
quantizer with zero bound is represented as an exception.

**Conductance converters and Fusion export** (`ConvModel.v`, `ConvProofs.v`, `ConvProps.v`; C28–C32).
`inference/converter/conductance.py`, `fusion.py`, `utils/export.py`, over exact
reals; a weight tensor is a flat list (a list of rows for Fusion). A division by
zero (NaN in torch) is an exception. The regression of scikit-learn is modelled by
the least squares slope. Not modelled: type checks, CSV files and their header,
tables of unequal lengths that torch would broadcast.

**Inference noise models** (`NoiseModel.v`, `NoiseSpec.v`, `NoiseProofs.v`, `NoiseProps.v`; C33–C38).
`inference/noise/base.py`, `pcm.py`, `hermes.py`, `custom.py` and `ReRamWan2022NoiseModel`
on top of the converters. Random draws are arbitrary functions of slice and element,
so the theorems hold for all noise. A NaN is an exception (ArithmeticError). Not
modelled: `ReRamCMONoiseModel`, noise with the single device converter.

**Inference life cycle** (`LifeModel.v`, `LifeSpec.v`, `LifeProps.v`; C39–C44).
`program_weights`, `drift_weights`, compensation and evaluation forward of
`simulator/tiles/inference.py`, `inference/compensation/*` and the pulse programming
of `simulator/tiles/periphery.py`. Noise model and analog read-out are arbitrary
functions of a draw; a history is any list of set / train / program / drift calls.
Left out: digital scales and bias (see the periphery area); the read-out matrix is
stored one row per output.

**Digital quantizers** (`QuantModel.v`, `QuantSpec.v`, `QuantProofs.v`, `QuantProps.v`; C45–C50).
`simulator/digital_low_precision/*`: both quantizers, min/max estimators, the one
dimensional MSE search, the manager's state machine and the weight cache of
`QuantizationHijacker`. Histories are lists of calls. Not modelled: gradients
(straight-through), `axis`, `n_groups`, `percentile`, golden section and two
dimensional searches, the cross entropy estimator. An infinite step is an exception.

**Pulsed devices of the simulator core** (`Rand.v`, `DevModel.v`, `DevSpec.v`, `DevProofs.v`, `DevProps.v`,
`DevProps2.v`, `DevProps3.v`; C51–C58). `src/rpucuda`: construction (`populate`) of pulsed,
linear step, soft bounds and soft bounds reference devices; the update functors of constant,
linear, soft bounds, exponential, power, reference, piecewise and hidden step devices;
decay, diffusion, clip, reset, set, write noise, drift, inverted copies, saving and restoring.
Random code is written in a free monad (`Rand.v`) with uniform, normal and write noise
draws; `yields m a` says some draws lead to `a`, `run` fixes them. A crossbar is a
matrix of cells. Not modelled: the parameters drawn by the exponential, power, piecewise
and hidden step constructors (arbitrary here), `count_LRFB`-style counters, CUDA.

### Pulsed update (C59-C63)
`PulseModel.v` models the length and probability factors of the pulse trains with
update management, the stochastic (sparse) and the dense bit line makers and the loop that sends
the pulses to the devices of `DevModel.v`. Proofs by induction over the vectors and slots;
the expectation is over the finite uniform grid of `Rand.v`. Not modelled: the
packed index lists and counters, NoneWithDevice, weight granularity of other devices.

### Compound devices (C64-C71)
`CompModel.v` models vector cells, one sided and transfer devices as lists of crossbars of
`DevModel.v` with a weightening: updates (sparse and dense calls), refresh, transfer, setting, saving
and loading. Proofs by induction over the calls with an invariant on the sizes and the shown
sum. Parts are single devices (no compounds of compounds), the granularity is that of a constant step
device, reads are arbitrary random programs (ideal where a theorem says so).

**Buffered and chopped transfer (C72-C78).** `TransModel.v` extends the transfer device of `CompModel.v` by the digital buffer of `rpu_buffered_transfer_device.cpp` and by the choppers of `rpu_chopped_transfer_device.cpp`. The inherited `transfer` and `finishUpdateCycle` are shared through ordinary function parameters. `TransSpec.v` says what "whole steps" and "accounted" mean.

**Mixed precision (C79-C83).** `MixModel.v` is the device of `rpu_mixedprec_device.cpp` with its base class: quantization and outer product into the digital matrix (dense and sparse code paths, with the index error of the one sided case), schedule, transfer by rows through the pulsed update of `PulseModel.v`, sparsity, saving and loading. The device under it is one pulsed device. Proved by induction over the rows of a transfer and over histories; averages with `expect`.

**Hardware-aware training (C84-C94).** `HwaModel.v` models the weight clipper, remapper and modifier of RPUCuda, the clipping and remapping of the torch tile, decay and diffusion of the ideal device, and `InferenceTile.post_update_step` with its cached bindings, on top of the periphery model (`PeriModel.v`) for the scales. Histories are runs of a free monad over writes, updates, post update steps, saving and loading. Not modelled: per-batch-sample modification and the PCM modifier (CUDA only; both are refused on the CPU), the asymmetric remapping types and SWA (not reachable from Python), floating point rounding.

**The analog pass of RPUCuda (C95-C103).** `FbModel.v` models `ForwardBackwardPassIOManaged` on the CPU: noise and bound management (the loop with its limits), input and output converters, IR drop, voltage offsets, series resistance, output weight noise, nonlinearity and its slope calibration, the three types of product, the drawn per-output parameters, and the initialization of the io parameters. Simplified: reals instead of floats, an infinite bound is `None`, the vector of read asymmetries is kept flat in row-major order as in the code; SPLIT_MODE, BIT_WISE and the CUDA kernels are not modelled. The loop has fuel; C96 proves that it never runs out.

### Convolution layers (C104-C113) - `Cnn*.v`
Modelled: nn/modules/conv.py (index tables of Conv1d/2d/3d, `forward` with the cached table, unfold mode), conv_mapped.py (split sizes,
weights, forward), periphery.py indexed passes, rpu.cpp `copyIndexedInput/Output`, `forward/backward/updateIndexed` (transposed layout, as
called from Python), math_util.cpp `permute132`. Tensors are flat lists with C-order indices; the tables are lists of naturals exactly as
passed to C++. `CnnSpec.v` has the textbook convolution (zero padded, strided, dilated) and the patches. Not modelled: groups (refused by the code),
padding modes other than zeros, CUDA, batch slices of the tables (`*Slice`), output scales and input ranges in the indexed passes.
Reads through a pointer outside of an array are modelled as `Raise IndexError`.

### Conversion and containers (C114-C122) — `Nn*.v`
`NnModel.v` has module trees (class, parameters, training flag, named children, identity of the object; a shared module occurs several times with one identity),
`convert` / `convert_to_analog` (nn/conversion.py) with conversion map, exclusions, configuration function and the wrapper of the root, whose
subclass registry is global state keyed by class *name*, and `to_digital`. `NnModel2.v` has torch's `named_modules` with its memo, the iterators over layers and tiles,
`get_weights`/`set_weights` of containers and programming/drift. `NnSpec.v` has the specification: submodule at a path, dotted names, what a tree computes for
arbitrary layer behaviours, equality up to object identity. Not modelled: torch devices, deepcopy (inplace=False), layers made of arrays of tiles, None children,
the error checks of the arguments.

**State dictionaries (C123-C129).** `SdModel.v` models `__getstate__`/`__setstate__` of tiles (base.py), the state dict hooks, `compatible_with`, `replace_with` (module.py)
and `load_state_dict` of analog modules. RPU configurations are objects on a heap, so that sharing between tiles and dictionaries is visible; the kinds of hidden parameters,
the contents of newly created tiles, the extra state and the subclass relation are parameters of the theorems. `SdOpt.v` combines the optimizer model (C17-C20) with
loads that replace the AnalogContext. Round trip by case analysis of `__setstate__` and induction over the items of the model; sticky flags by induction over calls; stale optimizer by an invariant over
histories. Not modelled: GPU placement, `ignore_analog_state`, pickling of whole tiles, tensors in the dictionary that are not in the analog state (shared_weights, input ranges are ordinary parameters).

**Recurrent networks (C130-C135).** `RnnModel.v` models the four cells (cells.py), the layers of both directions (layers.py) and the stacks with dropout (rnn.py). A linear layer is an arbitrary
function of a tile state and a batch, so that noisy and stateful tiles are covered; C130 uses ideal tiles and compares with the recurrences of torch.nn.LSTM/GRU/RNN written element by element in
`RnnSpec.v`. Proofs by an invariant of the loop over time, induction over sequences and layers. Dropout is an arbitrary function of each time step (its randomness is not modelled).
Not modelled: gradients, jit, initialisation of the weights.

**Input range calibration (C136-C142).** `CalModel.v` models `calibrate_input_ranges` and its forward hook (calibration.py) on a model with any number of tiles: the phases preparation, data, hook removal, enabling, finish, with
exceptions leaving the state reached so far. The data is the list of forward calls of tiles with their inputs (which in reality depend on the ranges of earlier layers, see C142); shuffles are arbitrary permutations.
`CalSpec.v` states what a tile saw. Proofs: each phase acts on tiles locally (`loop_local`), hooks by induction over the calls of one tile, quantile bounds by counting in the sorted list.
Not modelled: NaN in data (a standard deviation of fewer than two values counts as no update), printing, `calibrate_quantization_ranges`.

**Low precision modules (C143-C147).** `LpModel.v` models the conversion to quantized modules (low_precision_conversion.py) as a recursion over module trees with object identities, quantized layers (hijacker.py), the
calibration of quantizers (calibration.py:304-370), learnable ranges and state dictionaries, on top of the digital quantizers of `QuantModel.v`. `LpSpec.v` gives the module under a name and what has to become of it.
Simplified: module names are paths, objects shared by different parents are copies (shared children of one module are modelled), the quantizers inside of a converted module are not children, an optimizer step is the assignment of its result.
Not modelled: quantization of attention and other composite modules in `low_precision_modules/` (only the conversion rule that wraps them), straight-through gradients.

**Python transfer tile (C148-C154).** `PttModel.v` models `update` of `TransferSimulatorTile` (tiles/transfer.py) with its helpers, hidden parameters and what a state dictionary stores. Tensors are functions of indices, the two crossbars are
arbitrary operations that may depend on a clock (so any noise and any device is covered); the theorems that need an exact crossbar say so (`exact_fast`, `exact_slow`). A ghost clock and a ghost log of the reads are part of the state.
Proofs are by induction over histories (`run_ind`). Simplified: the period of the choppers is at least one, the hidden parameters of the two crossbars themselves are opaque. Parameters that this tile ignores (`scale_fast_lr`, `transfer_lr`, `out_chop_prob`, `no_buffer`, `thres_scale`) are not in the model.

**Dynamic transfer in C++ (C155-C159).** `AgdModel.v` models the digital part of `DynamicTransferRPUDevice` (rpu_dynamic_transfer_device.cpp) with the schedule of `TransferRPUDevice` (rpu_transfer_device.cpp). What is read from the fast crossbar is arbitrary and part of an event, so all
devices and noise are covered; what is sent to the slow crossbar is recorded in a ghost log of the reads, in terms of which the books of the device are stated (`AgdSpec.v`). Proofs by induction over histories, the bound of C158_total by an alternating geometric sum. Left out: the fast learning rate
feedback (not reachable from Python), transfers of the last of the crossbars (`transfer_every` zero there), more than two crossbars, the crossbars themselves. The out choppers never switch in this device.

**Time-dependent IR drop (C160-C165).** `IrModel.v` models analog_mvm_irdrop_t.py (preparation of inputs, Thevenin equivalents with and without the extension operator thevenin_equiv_op.cpp, integration, ADC quantization, interleaving, padding, the three modes) for one input vector, with the
single pair converter or any other. `IrSpec.v` states the circuit (Kirchhoff and Ohm) independently of the code. The ladder recursion is proved to solve the circuit by induction over the nodes; since the total conductance at each node does not depend on the inputs, the attenuation factors do not either
(`ladder_attenuation`), which gives linearity. Simplified: base-class input preparation and output finalization are those of `MvmModel.v` and enter as arguments; batches, transposed weights, the noise model itself (`xdep` models when it fails) and check_support are not modelled; a zero `t_max` is a NaN comparison in the extension.

**Precision cast of the extension (C166-C169).** `FpcModel.v` models `FLOATPREC_INIT`/`FLOATPREC_BODY`, the special
case with 8 bits of exponent and the dispatch of `float_prec_op.cpp` on 32 bit patterns (integers), with the bit
operations of the code. `FpcSpec.v` defines the value of a pattern (IEEE single precision, over the reals), the
formats, and nearest numbers. The proofs turn the bit operations into arithmetic of sign, exponent and mantissa and
use that magnitudes are linear on each binade. The variant `EL6_ML9_0_0` of the header is not used by the operator
and is not modelled; nor is the CUDA version.

**Analog matrices, reading weights, summaries, custom tile (C170-C175).** `LinModel.v` models `linalg/matrix.py` on top of the
tiles of `PeriModel.v` and the arrays of `ArrayModel.v`, and `read_weights` of `periphery.py` with the least squares
solver as a parameter, of which only the defining property (`LinSpec.v`: no smaller residual) is assumed, as a
hypothesis. `AiModel.v` models `utils/analog_info.py` over trees of modules with identities and traces of calls; what
PyTorch contributes (forward hooks run once per registration at every call) is part of the model. `CtModel.v` models
`tiles/custom.py` with an explicit store of tensors, so that references can be followed.

**Weight programming optimizer (C176-C179).** `WpoModel.v` models `inference/converter/wpo.py`: what a point of the hypercube
denormalizes to (by columns of the conductance table; the invariant over the loop is that what is left is within the
span of the pairs that are left), the losses, the resampling of weights, and the life of the optimizer. scipy's
differential evolution and the simulated effective weights are parameters. It composes with the custom converter of
`ConvModel.v`.

**Cloud converter (C180-C183).** `ClModel.v` models `cloud/converter/v1/` (layers, activations, data sets, losses) as maps
between modules (class and attributes), the protobuf messages and back; the constructors of PyTorch and of the analog
layers are modelled by the attributes they set. `ClSpec.v` lists the layers as constructor calls of the user. Rounding to
single precision is an arbitrary function `f32`; 64 bit integers are range checked. `ClModel2.v` adds inference
experiments (noise model and analog information, and the configuration made of them).

**Configurations (C184-C187).** `PmxModel.v` models the translation of SoftBoundsPmaxDevice into a soft bounds device and
composes it with the pulsed device model. `CfgModel.v` models `parameters/helpers.py` (Python parameters to objects of the
core) for arbitrary parameter objects, with the core (its classes, attributes, accepted values) as a parameter, and
`as_bindings` of all devices and compounds over trees of devices, returning the configuration afterwards too. `BldModel.v`
models `build_config` over an explicit store of objects, so that aliasing can be stated.

**Floating point tile on flat memory (Fl, C188–C190).** `FlModel.v` models the passes of `RPUSimple` on the row-major
buffers they get (BLAS calls with their leading dimensions, the copies that add and remove the bias, the short-cut for
vectors), the shape computation of the bindings, the redirection of an update into an external tensor, and the decay.
`FlSpec.v` says which element of a buffer belongs to which sample; the theorems follow by index arithmetic.

**Legacy checkpoints (Lgc, C191–C192).** `LgcModel.v` models `convert_legacy_checkpoint` on strings as Python treats them
(split at a character, text before the first and after the last occurrence of a word, replacement, decimal numbers of the
standard library), with dictionaries as association lists. `LgcSpec.v` says by an inductive relation what each kind of
entry becomes; the proofs show that a word without dots lies between two dots of a key.

### Experiments (C193–C197): `ExpModel.v`, `ExpSpec.v`, `ExpProofs.v`, `ExpProps.v`, `ExpProps2.v`
The training and inference loops, the hook machinery and the local runners are modelled as state-passing functions over a
heap of metric objects, a clock and the network. A hook is a bound method of a metric or a pure function of the user. The
specification runs the same batches without hooks or metrics and computes the reported numbers from the traces; the
theorems connect the two for any number of epochs, repeats and batches by induction. Network, loss, optimizer, programming,
drift and the clock are parameters; DataLoader and Subset are modelled by their specification (including the IndexError
for indices past the end of the set).

### Fitting (FitModel, FitSpec, FitProps; C198, C199)
`utils/fitting.py`: `model_response`, `fit_measurements` and the application of parameters. The tile is abstract (its four
operations are parameters of the model), the optimizer of lmfit is an arbitrary list of evaluations and an arbitrary result;
numpy broadcasting of the deviations and weights, the attribute checks and the in-place overwriting of the configuration
between the evaluations are explicit. Devices are field lists with nested devices as values.

### Training of the torch inference tile (TtiModel, TtiSpec, TtiProps; C200, C201)
`tiles/inference_torch.py`, `torch_tile.py` and the scale handling of `periphery.py`: mapping scales (with the in-place and
aliasing cases of `set_mapping_scales`), the gradient hook registered by `set_scales`, weight scaling, remapping, loading and
copying, SGD steps with the gradients of autograd, and the learned input range. The specification is `torch.nn.Linear` with
SGD; proved by an invariant (the hook divides by the scales in force) over arbitrary histories. Not modelled: quantization in
the MVM (perfect MVM), clipping of weights (C119), optimizers other than SGD.

**Quantized periphery** (`QpModel.v`, `QpSpec.v`, `QpProps.v`, `QpProps2.v`, `QpProps3.v`; C202–C206).
`tiles/periphery.py` (init_periph_quant_processing, apply_quant_periphery_scales, add_quant_periphery_bias), `tiles/quantized_inference_torch.py`, the bias in `QuantizedTileModuleArray` and `parameters/quantization.py`, on top of the quantization managers of `QuantModel.v`. The specification is a rule for the grid as a function of the history, without the states of the manager. Not modelled: gradients (an optimizer step is any function of the parameters), the output quantizers.

**Further random mutations** (MoreProps4.v). Drift coefficients and read noise depend on the relative conductance only, late drift compensation, int64 limits of the exchange format, accepted dynamic transfer parameters, product of the output scales of a quantized tile.

**Pulsed update on the GPU** (`CuModel.v`, `CuSpec.v`, `CuProps.v`; C207–C209).
`cuda/bit_line_maker.cu` (packing of the pulse trains into 32 bit and 64 bit words, layouts, start bits, split of the threads), `cuda/pwu_kernel.h` (counting of coincidences, six batch kernels with constant steps, mapping of threads to weights). Threads are modelled by their memory operations in any order; words are binary numbers with the truncations of the C++. The specification is a list of pulses per cross point applied one by one. Not modelled: the copy into shared memory, the kernel for a single sample, implicit pulses (floating point counts), the other device functors, the chopped weight output kernels.
`CuTrModel.v`, `CuTrProps.v` (C210): the kernel that translates one word per sample into the packed words (`cuda/update_management_helper.cu`), one block of the batch after the other, shared words as OR of the operations of the threads.

## 4. Properties

| id | title | status | theorems | remark |
|---|---|---|---|---|
| C01 | Physical tile sizes partition a layer | proved | `C01_split_sizes_partition`, `C01_no_limit_single_tile`, `C01_array_new_total`, `C01_size_zero_raises_refuted` | A dimension of size 0 with a positive maximum raises ZeroDivisionError (the refuted theorem). |
| C02 | Tiling cannot be observed after setting weights | proved | `C02_array_set_get` |  |
| C03 | Tile array agrees with its logical weights over histories | proved | `C03_array_history` |  |
| C04 | Setting and reading weights is exact | proved | `C04_set_get_roundtrip`, `C04_raw_roundtrip`, `C04_roundtrip_omega_zero_refuted` | With the default weight_scaling_omega=0 scales left by remap_weights() or by learning multiply newly set weights: refuted theorem with a three-call history. |
| C05 | Weight scaling uses exactly the conductance range | proved | `C05_weight_scaling_range` |  |
| C06 | Noise-free forward is the logical affine map | proved | `C06_forward_is_logical`, `C06_forward_input_range`, `C06_analog_bias_scaled_by_range`, `C06_forward_analog_bias_refuted` | With an analog bias and an input range the bias is multiplied by the input range (refuted theorem and exact characterisation). |
| C07 | Tile update is SGD in logical units | proved | `C07_update_is_logical_sgd`, `C07_update_analog_bias`, `C07_update_input_range` |  |
| C08 | The learning rate read is the one set | proved | `C08_lr_get_set`, `C08_lr_history`, `C08_lr_after_set_weights_refuted` | With weight_scaling_lr_compensation, set_weights changes the learning rate that is read back (refuted theorem). |
| C09 | Setting scales takes effect | proved | `C09_set_scales_tensor`, `C09_set_scales_float_refuted`, `C09_learned_shape`, `C09_not_learned` | A Python float is silently ignored if mapping scales exist (refuted theorem). |
| C10 | Remapping preserves the logical weights | proved | `C10_remap_preserves_logical` |  |
| C11 | Backward is the adjoint of forward | proved | `C11_backward_adjoint` | Learned output scales are applied outside of backward (autograd) and are excluded by hypothesis. |
| C12 | Changing dtype keeps the logical weights | proved | `C12_to_dtype_preserves`, `C12_to_dtype_refuted` | Refuted for learned output scales without mapping scales: the scales alias and are reset to 1. |
| C13 | Input range initialised from data is a running mean | proved | `C13_input_range_from_data` | Learning of the range by gradient (learn_input_range) is not part of this claim. |
| C14 | The weights seen through the analog parameter are read-only | proved | `C14_context_read_only_with_scales`, `C14_context_read_only_direct`, `C14_view_alias_refuted`, `C14_foreach_refuted` | Proved for all programs if the tile has digital scales; without scales proved for programs without view-returning functions and with tensor first arguments. The unrestricted claim is refuted: .detach() etc. return writable aliases, torch._foreach_* bypass the check. |
| C15 | The placeholder parameter reveals nothing about the weights | proved | `C15_placeholder_reveals_nothing`, `C15_placeholder_refuses`, `C15_placeholder_type_refuted` |  |
| C16 | The data view shows the logical weights, writes go to a buffer | proved | `C16_data_view_is_logical`, `C16_buffer_starts_zero`, `C16_buffer_written_instead` |  |
| C17 | Regrouping keeps every parameter exactly once | proved | `C17_no_second_group`, `C17_regroup`, `C17_regroup_tile_lr`, `C17_group_lr_refuted` | Refuted: a per-group learning rate given by the user does not survive for analog parameters, the default one is used. |
| C18 | An optimizer step applies each recorded gradient exactly once | proved | `C18_step`, `C18_second_step_idle`, `C18_history_is_sgd` |  |
| C19 | Setting the optimizer learning rate reaches every group and tile | proved | `C19_set_lr` |  |
| C20 | AnalogOptimizer wraps the class it is given | proved | `C20_wrapped_class`, `C20_same_name_refuted` | Holds if wrapped classes have distinct names; refuted otherwise (the registry is keyed by name). |
| C21 | Bound management terminates | proved | `C21_bound_management_terminates`, `C21_always_ends` |  |
| C22 | Ideal configurations compute the exact product | proved | `C22_perfect_exact`, `C22_no_converters_exact`, `C22_max_noise_management_refuted` | Refuted for MAX noise management: a batch whose row maxima are all 0 gives zeros although it has negative entries. |
| C23 | Analog error is explained by the converters | proved | `C23_error_bound`, `C23_abs_max_fits`, `C23_bound_management` |  |
| C24 | Outputs stay in the ADC range | proved | `C24_output_bounded`, `C24_zero_row` |  |
| C25 | Samples of a batch do not influence each other | proved | `C25_batch_independent`, `C25_bound_management_refuted` | Proved without bound management; refuted with it: one clipping sample changes the results of all others. |
| C26 | ABS_MAX noise management is scale invariant | proved | `C26_scale_invariant` |  |
| C27 | The uniform quantizer rounds to the nearest step | proved | `C27_quantizer`, `C27_stochastic`, `C27_unbounded_converter_refuted` | Refuted: a resolution together with an unlimited bound (0) divides by zero. |
| C28 | Single pair conversion loses nothing | proved | `C28_single_pair` |  |
| C29 | N pair conversion loses nothing and fills pairs in order | proved | `C29_n_pairs`, `C29_negative_factor_refuted` | The constructor accepts some negative significances, for which the round trip fails (refuted variant). |
| C30 | Custom pair tables that are linear in the weight lose nothing | proved | `C30_custom_linear`, `C30_invertibility_test_refuted` | The constructor's invertibility test does not suffice for invertibility (refuted variant: 5 test points pass, another weight changes). |
| C31 | Single device conversion loses nothing | proved | `C31_single_device`, `C31_constant_weights_refuted` | Refuted for constant weights (division by zero). |
| C32 | Fusion export and import restore the model | proved | `C32_fusion_roundtrip`, `C32_constant_row_refuted`, `C32_import_keeps_tile`, `C32_analog_bias_refuted` | Refuted for constant rows (erased) and for an analog bias (scaled once more). |
| C33 | Noise never makes a conductance negative | proved | `C33_conductances_nonneg`, `C33_drift_coefficients_nonneg`, `C33_wan_nonneg`, `C33_pcm_mean_nu` |  |
| C34 | Programming without programming noise is the identity | proved | `C34_pairs_exact`, `C34_noiseless_programming` |  |
| C35 | Drift follows the power law with the coefficient drawn at programming | proved | `C35_relative`, `C35_relative_read`, `C35_state_independent`, `C35_drift_power_law`, `C35_uniform_drift`, `C35_read_noise`, `C35_decay_facts`, `C35_sign_g_min_refuted` | With g_min > 0 and different coefficients a positive weight can become negative (refuted variant). |
| C36 | Programming and then drifting equals the one-step noise | proved | `C36_program_then_drift`, `C36_programmed_conductances_refuted` | With programming noise it does not hold: the second conversion rescales the noisy weights, so drift is not applied to the programmed conductances (refuted variant). |
| C37 | Noise models are total for sensible arguments | proved | `C37_total`, `C37_apply_noise_zero_refuted`, `C37_reference_refuted` | apply_noise at t = 0 always fails, and an explicit prog_coeff_g_max_reference with explicit coefficients is never stored (AttributeError): refuted variants. |
| C38 | The ReRAM model reproduces the targets when its noise is zero | proved | `C38_wan_apply_noise`, `C38_wan_times`, `C38_wan_drift_refuted`, `C38_wan_default_time_refuted`, `C38_wan_reference_refuted` | Refuted variants: program_weights then drift_weights does not; the default t = 0 is not in the default table; the default coefficients are not rescaled from 40 uS. |
| C39 | Drift is not cumulative | proved | `C39_drift_not_cumulative`, `C39_drift_of_programmed` | Noise model and analog read-out are arbitrary functions of a draw. |
| C40 | Programming starts from the reference weights | proved | `C40_reprogram_from_reference`, `C40_program_current`, `C40_training_lost_refuted` | Weights trained after a programming are discarded by the next default program_weights() (refuted variant). |
| C41 | The first drift programs the weights | proved | `C41_late_compensation`, `C41_drift_programs_first`, `C41_stale_programmed_refuted` | On a tile that was programmed before, weights set since then are overwritten by the drift of the old ones (refuted variant). |
| C42 | Without drift, inference uses the stored weights | proved | `C42_no_drift_exact`, `C42_stale_alpha_set_weights_refuted`, `C42_stale_alpha_program_refuted` | After a drift the factor is kept for weights that are set or programmed later (refuted variants). |
| C43 | Drift compensation restores the programmed output | proved | `C43_alpha_positive`, `C43_global_exact`, `C43_per_column_exact`, `C43_mean_restored`, `C43_small_weights_refuted` | Below the limit nothing is compensated (refuted variant). |
| C44 | Pulse programming converges to the target | proved | `C44_program_converges`, `C44_once_refuted`, `C44_x_values_refuted` | A second call and a call with x_values always raise UnboundLocalError (refuted variants). |
| C45 | Digital quantization is rounding to a grid | proved | `C45_rounding_error`, `C45_grid`, `C45_idempotent`, `C45_one_bit_refuted` | Bits >= 1 and a positive eps are assumed; a signed symmetric quantizer with one bit divides by zero (refuted variant). |
| C46 | Calibration covers the calibration data | proved | `C46_all_minmax`, `C46_current_minmax`, `C46_running_hull`, `C46_running_refuted` | With running_minmax calibration data can be clipped (refuted variant). |
| C47 | Quantization ranges do not change when they should not | proved | `C47_fixed`, `C47_eval`, `C47_uninitialized`, `C47_fix_after_batch`, `C47_given_range_refuted` | A manager constructed with x_min and x_max always raises AttributeError in forward (refuted variant). |
| C48 | Channels are quantized independently | proved | `C48_channels_independent`, `C48_symmetric_refuted` | Not with the symmetric quantizer: the sign flag is shared by all channels (refuted variant). |
| C49 | Cached quantized weights are never stale | proved | `C49_cache_transparent`, `C49_load_in_eval_refuted` | Loading a state dict in evaluation mode after a forward pass has no effect (refuted variant). |
| C50 | The MSE estimator minimises the quantization error | proved | `C50_mse_minimal` | One dimensional search (symmetric quantizer or one sided data), per tensor. |
| C51 | A new device has usable parameters | proved | `C51_parameters_valid`, `C51_consistent`, `C51_refused`, `C51_nominal`, `C51_corrupt`, `C51_perfect_bias` | The nominal statement is for |up_down| <= 1. |
| C52 | Weights never leave the bounds of their device | proved | `C52_bounds_kept`, `C52_range_is_bounds`, `C52_set_weights`, `C52_parameters_constant`, `C52_corrupt_stuck`, `C52_clip_refuted`, `C52_reference_refuted`, `C52_hidden_refuted` | Each condition is necessary: counterexamples for clipping outside the bounds, reference weights and noisy hidden step devices. |
| C53 | Pulses follow the step law of the device | proved | `C53_constant_step`, `C53_soft_bounds`, `C53_direction`, `C53_soft_bounds_sane`, `C53_local`, `C53_symmetry_point` | Hidden step devices are excluded from the direction claim. |
| C54 | Decay and reset of devices | proved | `C54_decay`, `C54_reset` |  |
| C55 | Device drift depends on the time since the last write only | proved | `C55_drift_law`, `C55_drift_additive`, `C55_restart`, `C55_small_change_refuted` | Changes up to the tolerance are forgotten by the next drift (refuted variant). |
| C56 | Write noise is never stored | proved | `C56_write_noise_not_stored`, `C56_float_update_refuted` | Floating point updates (NoneWithDevice) of a device with write noise are lost (refuted variant). |
| C57 | An inverted copy of a device is its mirror image | proved | `C57_mirror`, `C57_exp_step_refuted`, `C57_second_device_refuted` | Exponential step devices are not mirrored, and if the two devices differ the second mirrors its own bounds and steps (refuted variants). |
| C58 | A device is restored from its saved state | proved | `C58_restore`, `C58_write_noise_refuted` | With write noise the stored weight is replaced by the visible one (refuted variant). |
| C59 | The pulse trains carry the learning rate | proved | `C59_scale`, `C59_overshoot`, `C59_probabilities` |  |
| C60 | Pulses go in the direction of the gradient | proved | `C60_direction`, `C60_zero_lr`, `C60_negative_lr_refuted` | With MeanCount and DeterministicImplicit a negative learning rate gives the pulses of the positive one (refuted variant). |
| C61 | Stochastic pulsed updates are stochastic gradient descent on average | proved | `C61_expected_pulses`, `C61_probability`, `C61_independent`, `C61_expected_weight` |  |
| C62 | Dense pulse types are accurate | proved | `C62_deterministic`, `C62_mean_count` |  |
| C63 | Resolution of the pulse probabilities | proved | `C63_resolution`, `C63_number_of_steps_refuted` | The documented form as a number of steps is not converted (the result of checkRes is discarded): more than two steps switch the update off (refuted variant). |
| C64 | A compound device shows the weighted sum of its crossbars | proved | `C64_effective_weight`, `C64_parts`, `C64_after_set`, `C64_fully_hidden`, `C64_default_gamma`, `C64_float_update_lost_refuted`, `C64_user_gamma_refuted` | Floating point updates (NoneWithDevice) of compounds are lost, and user given factors like 1,-1,1 make a device count as fully hidden although it is not (refuted variants). |
| C65 | Setting the weights of a compound device | proved | `C65_vector`, `C65_counters`, `C65_single_fixed`, `C65_reference_refuted`, `C65_onesided`, `C65_transfer`, `C65_fully_hidden`, `C65_transfer_needs_factor`, `C65_hidden_stored_refuted` | A reference unit cell with nonzero reference does not read back what was set, and hidden crossbars with write noise keep their stored weights (refuted variants). |
| C66 | Saving and loading a tile with a compound device | proved | `C66_tile_restored`, `C66_vector_refuted`, `C66_onesided_refuted`, `C66_transfer_refuted`, `C66_fully_hidden_refuted`, `C66_reference_refuted`, `C66_zero_reference` | Loading sets the weights of the tile after the hidden parameters, which overwrites the crossbars of all compound types (refuted variants). |
| C67 | Update policies of vector cells | proved | `C67_policy`, `C67_round_robin`, `C67_fixed`, `C67_random_refuted` | The random policy indexes beyond the last crossbar if the random number is one (refuted variant). |
| C68 | One sided devices are only pulsed up | proved | `C68_only_up`, `C68_constant_step` |  |
| C69 | Refresh of one sided devices | proved | `C69_refresh`, `C69_dense_refuted`, `C69_not_due`, `C69_write_noise`, `C69_total` | With the dense pulse types the write back uses down pulses because the sign of the learning rate is ignored (refuted variant). |
| C70 | Schedule of transfers | proved | `C70_schedule`, `C70_period`, `C70_parameters`, `C70_default_cycles`, `C70_documented_cycles_refuted` | The factor is the output size over the number of reads, not the documented x_size over the number of reads (refuted variant). |
| C71 | Content of transfers | proved | `C71_update`, `C71_not_due`, `C71_content`, `C71_idle`, `C71_average`, `C71_reset`, `C71_reset_refuted` | With several columns per transfer a reset clears all of them after the first read, before the others are read (refuted variant). |
| C72 | Buffered transfer keeps account of what it read | proved | `C72_content`, `C72_conservation`, `C72_wide_rows_refuted` | Reading rows of a tile that is wider than high writes behind the end of a temporary vector (refuted variant). |
| C73 | The buffers of a buffered transfer stay small | proved | `C73_forget`, `C73_momentum`, `C73_keep`, `C73_other_calls`, `C73_set_weights_refuted` | Setting the weights clears the crossbars but not the buffers (refuted variant). |
| C74 | Chopped transfer takes back its signs | proved | `C74_pulses`, `C74_content`, `C74_schedule`, `C74_schedule_due`, `C74_auto_twice_refuted` | With a negative transfer_every and equal numbers of states every due update transfers twice, since the schedule is also applied to the transfer from the last crossbar (refuted variant). |
| C75 | Schedule of the choppers | proved | `C75_regular`, `C75_period`, `C75_random`, `C75_out`, `C75_documented_period_refuted` | The documented period MIN(1/in_chop_prob, 2) should be a maximum (refuted variant). |
| C76 | Weight of a tile with a chopped device | proved | `C76_rows`, `C76_unchopped`, `C76_hidden`, `C76_columns_refuted` | With column transfer (the default) the signs of other cross points are used, because the weights are taken to be stored column by column (refuted variant). |
| C77 | Chopped transfer without choppers is buffered transfer | proved | `C77_same`, `C77_uneven_refuted`, `C77_auto_granularity_refuted` | If the two crossbars have different steps the devices differ, and auto_granularity counts also with correct_gradient_magnitudes (refuted variants of the documentation). |
| C78 | Automatic scale of the fast crossbar | proved | `C78_range`, `C78_constant`, `C78_decay`, `C78_fast_lr`, `C78_pulses`, `C78_fast_lr_refuted` | If fast_lr is not set auto_scale has no effect (refuted variant). |
| C79 | Mixed precision: what an update accumulates | proved | `C79_outer`, `C79_error`, `C79_unbiased`, `C79_one_side_refuted` | With only one of n_x_bins and n_d_bins set, the error vector is lost: it is stored under the wrong index (refuted variant). |
| C80 | Mixed precision: schedule of the transfers | proved | `C80_count`, `C80_not_due`, `C80_quiet`, `C80_every_refuted` | With transfer_every 1 the first update is not transferred: the counter is compared before it is increased (refuted variant). |
| C81 | Mixed precision: what a transfer writes | proved | `C81_content`, `C81_position`, `C81_cover`, `C81_average`, `C81_exact`, `C81_saturation_refuted` | Multiples beyond desired_BL pulses are taken out of the digital matrix but not written (refuted variant). |
| C82 | Mixed precision: the other calls of a tile | proved | `C82_set`, `C82_others`, `C82_zero_lr`, `C82_new`, `C82_reload`, `C82_reload_refuted` | The digital matrix is saved with the hidden parameters but not restored (refuted variant). |
| C83 | Mixed precision: average sparsity | proved | `C83_step`, `C83_mean`, `C83_off`, `C83_zeros_refuted` | It is not the fraction of zeros of the outer product, which is larger (refuted variant). |
| C84 | Weight clipping after an update | proved | `C84_fixed`, `C84_average`, `C84_gaussian`, `C84_idempotent`, `C84_order`, `C84_average_fixpoint` |  |
| C85 | Clipping: the torch tile and the RPUCuda tile agree | proved | `C85_agree`, `C85_negative_refuted`, `C85_constant_refuted`, `C85_unsupported` | With the default fixed value -1 the torch tile sets all weights to -1, where RPUCuda does nothing, and constant weights are all set to 0 by the torch tile with LAYER_GAUSSIAN (refuted variants). |
| C86 | Remapping keeps the logical weights and fills the range | proved | `C86_layer`, `C86_channel` |  |
| C87 | Remapping with a bounded range of scales | proved | `C87_bounded`, `C87_wmax_one` |  |
| C88 | Remapping a tile keeps what the user reads | proved | `C88_logical`, `C88_range`, `C88_refused`, `C88_learned_only_refuted`, `C88_learned_only_example` | When the tile has only learned output scales their value is lost: the C++ code overwrites the parameter in place, which is then reset to 1 (refuted variant). |
| C89 | Weight modifier: what each type does to a weight | proved | `C89_bias_column`, `C89_discretize`, `C89_dorefa`, `C89_sign`, `C89_drop`, `C89_inert`, `C89_refused`, `C89_accepted`, `C89_disc_add` |  |
| C90 | Weight modifier: averages | proved | `C90_noise`, `C90_stochastic`, `C90_drop` | For a uniform generator with N+1 values; the probability of a draw below pdrop is that of the generator. |
| C91 | Which weights a pass of an inference tile uses | proved | `C91_before`, `C91_test`, `C91_training`, `C91_enabled`, `C91_weights`, `C91_reload_refuted` | Saving and loading forgets enable_during_test although it keeps the modified weights (refuted variant). |
| C92 | When changed clip and modifier parameters take effect | proved | `C92_first`, `C92_live`, `C92_clip` |  |
| C93 | Order of a post update step | proved | `C93_clip`, `C93_remap` |  |
| C94 | Decay and diffusion over many steps | proved | `C94_mean`, `C94_variance`, `C94_stationary`, `C94_short` |  |
| C95 | Analog forward and backward pass: exact when everything is off | proved | `C95_perfect`, `C95_exact_forward`, `C95_exact_backward`, `C95_adjoint`, `C95_max_refuted`, `C95_average_refuted` |  |
| C96 | Bound management | proved | `C96_terminates`, `C96_rounds`, `C96_accepted`, `C96_exact`, `C96_positive_overflow_refuted`, `C96_worst_two_passes_refuted` |  |
| C97 | Range and error of the converters | proved | `C97_range`, `C97_converter_error` |  |
| C98 | Average noise management | proved | `C98_average`, `C98_average_range`, `C98_no_memory`, `C98_forward_only_refuted`, `C98_threshold`, `C98_no_threshold` |  |
| C99 | Worst-case noise management | proved | `C99_one_sign`, `C99_mixed_signs`, `C99_never_clips_refuted` | Without the limit by the input resolution. |
| C100 | Separate passes for positive and negative inputs | proved | `C100_separate_is_one_pass`, `C100_read_asymmetry`, `C100_asymmetry_one_pass_refuted` |  |
| C101 | Voltage offsets, series resistance, IR drop, weight noise, slope calibration | proved | `C101_voltage_offset`, `C101_no_offset`, `C101_series_resistance`, `C101_drawn`, `C101_ir_drop`, `C101_ir_drop_grows`, `C101_first_farthest_refuted`, `C101_weight_noise`, `C101_slope_calibration`, `C101_output_nonlinearity` |  |
| C102 | Noise of the forward pass | proved | `C102_mean_variance`, `C102_absmax_scales` | Without converters, bounds, bound management and weight noise (see C101). |
| C103 | Levels of the converters, refused parameters | proved | `C103_dac_levels`, `C103_adc_levels`, `C103_no_bound_no_steps`, `C103_refused`, `C103_backward_no_bound_management` |  |
| C104 | Convolution layers compute convolutions | proved | `C104_convolution`, `C104_too_large_rejected` | Ideal (floating point) tile; see C112 for noisy tiles. |
| C105 | Indexed and unfolded convolution agree | proved | `C105_unfold_convolution`, `C105_indexed_equals_unfold` |  |
| C106 | Convolution layers over histories of input sizes | proved | `C106_conv1d_any_history`, `C106_any_history_distinct_sizes`, `C106_any_shape_refuted` |  |
| C107 | The backward pass of a convolution is the adjoint of its forward pass | proved | `C107_backward_adjoint` | Ideal tile. |
| C108 | The update of a convolution is the gradient step | proved | `C108_update_gradient` | Ideal tile. |
| C109 | Split sizes of mapped layers | proved | `C109_split_sizes`, `C109_too_large_rejected`, `C109_no_limit` |  |
| C110 | Weights of mapped convolution layers | proved | `C110_weights_roundtrip`, `C110_tile_shapes` | Tiles are ideal memories; see C04 for single tiles. |
| C111 | Mapping to several tiles does not change the convolution | proved | `C111_mapped_equals_unsplit` | Ideal tiles, no analog bias (mapped layers only have a digital bias). |
| C112 | What an analog tile sees in a convolution | proved | `C112_noisy_tile` |  |
| C113 | Channels of the input are not checked | proved | `C113_more_channels_2d`, `C113_more_channels_1d`, `C113_fewer_channels_2d` | A read outside of an array is modelled as an error; in C++ it is undefined behaviour. Without analog bias (2d). |
| C114 | convert_to_analog keeps what the model computes | proved | `C114_function_preserved`, `C114_repeated_child_refuted` | Refuted without the condition on repeated children. |
| C115 | Exactly the selected modules are converted | proved | `C115_converted`, `C115_excluded`, `C115_nothing_else`, `C115_root` |  |
| C116 | Layer specific configurations | proved | `C116_specific_config` |  |
| C117 | Converting a converted model changes nothing | proved | `C117_idempotent`, `C117_repeated_child_refuted` |  |
| C118 | convert_to_digital undoes convert_to_analog | proved | `C118_round_trip` | Tiles return the weights they were given (C04 for the tiles). Training flags and object identities are not preserved. |
| C119 | Wrapping keeps the class of the model | proved | `C119_class_kept`, `C119_same_name_refuted` |  |
| C120 | Training mode after a conversion | proved | `C120_training`, `C120_eval_refuted`, `C120_tying_refuted` |  |
| C121 | Tiles of a model and weights of containers | proved | `C121_every_tile_once`, `C121_every_layer_once`, `C121_get_set`, `C121_set_weights`, `C121_not_atomic_refuted` | Tiles are ideal memories. |
| C122 | Programming and drift of a whole model | proved | `C122_each_tile_once`, `C122_only_root_mode_refuted` |  |
| C123 | A state dictionary restores an analog model | proved | `C123_round_trip`, `C123_model_round_trip` | Condition: the configuration objects were not modified in between and weights are within their bounds. Write noise, persistent weights and compound devices are covered at device level (other properties). Devices (CPU/GPU) are not modelled. |
| C124 | Configurations after a load are shared objects | proved | `C124_config_is_shared`, `C124_saved_model_unaffected_refuted` | The independence one would expect is refuted. |
| C125 | Loading without the configuration and replacing it | proved | `C125_keep_config`, `C125_replace_with` |  |
| C126 | When a load fails, and what is left | proved | `C126_success`, `C126_failure_loses_weights`, `C126_atomic_refuted`, `C126_model_atomic_refuted` | Atomicity is refuted. |
| C127 | The load flags are sticky | proved | `C127_flags_stay` |  |
| C128 | What strict loading guarantees | proved | `C128_strict`, `C128_missing_unchanged`, `C128_legacy_refuted` |  |
| C129 | Optimizers and loading | proved | `C129_new_optimizer`, `C129_old_optimizer_refuted`, `C129_pending_gradients_refuted` |  |
| C130 | Recurrent cells compute the standard recurrences | proved | `C130_sigmoid`, `C130_lstm`, `C130_combined`, `C130_gru`, `C130_rnn` | Real arithmetic; tiles ideal. |
| C131 | A sequence can be processed in pieces | proved | `C131_pieces`, `C131_tile_uses`, `C131_bidirectional_refuted` | Dropout deterministic (or absent). |
| C132 | Causality of the outputs | proved | `C132_causal`, `C132_bidirectional` |  |
| C133 | Samples of a batch are independent in recurrent layers | proved | `C133_lstm`, `C133_gru`, `C133_rnn` |  |
| C134 | Recurrent states stay bounded | proved | `C134_lstm`, `C134_gru`, `C134_rnn` | Real arithmetic (floating point rounds to at most 1). |
| C135 | Structure of stacked recurrent networks | proved | `C135_shapes`, `C135_layers`, `C135_lstm`, `C135_gru`, `C135_rnn`, `C135_last_not_dropped`, `C135_others_dropped`, `C135_single_layer`, `C135_surplus`, `C135_missing`, `C135_one_state_refuted` |  |
| C136 | MAX calibration covers all inputs seen | proved | `C136_max` | The forward calls of tiles that the data causes are a list given to the model of the calibration. |
| C137 | CACHE_QUANTILE calibration takes a quantile of the cached samples | proved | `C137_cache_quantile`, `C137_all_cached`, `C137_quantile`, `C137_magnitudes_refuted` | torch.quantile (linear interpolation) and randperm are modelled; randperm is an arbitrary permutation at each call. |
| C138 | MOVING calibrations average over batches | proved | `C138_moving_quantile`, `C138_moving_std`, `C138_std`, `C138_fresh` |  |
| C139 | What a calibration leaves behind | proved | `C139_afterwards`, `C139_no_data_refuted` |  |
| C140 | A batch of zeros aborts MAX and MOVING_QUANTILE | proved | `C139_afterwards`, `C140_zero_batch_refuted` | The first sentence is C139_afterwards, which asks for non-zero data only with MAX and MOVING_QUANTILE. |
| C141 | Calibration without force_all_layers | proved | `C141_noise_management`, `C141_not_all_enabled_refuted` |  |
| C142 | Deeper layers are calibrated with clipped inputs | proved | `C142_deeper_layers_refuted` |  |
| C143 | Which modules are quantized by convert_to_quantized | proved | `C143_modules`, `C143_root`, `C143_succeeds`, `C143_root_excluded_refuted`, `C143_root_fails`, `C143_shared_refuted`, `C143_mode_refuted`, `C143_enabled`, `C143_enabled_inputs` | Names are paths; objects shared by different parents are treated as copies. |
| C144 | calibrate_quantization_ranges | proved | `C144_state`, `C144_failure`, `C144_batches`, `C144_all_minmax`, `C144_more_than_max_refuted`, `C144_idle_refuted`, `C144_recalibration_refuted` | The quantizer calls caused by a batch are a list given to the model. |
| C145 | Learnable quantization ranges | proved | `C145_not_learned`, `C145_same`, `C145_learned`, `C145_learn_uninitialized`, `C145_fix_refuted`, `C145_estimate_refuted`, `C145_reset` | An optimizer step is given by the values that it assigns. |
| C146 | State dictionaries of quantizers | proved | `C146_roundtrip`, `C146_resume`, `C146_fixed_refuted`, `C146_learned_refuted` |  |
| C147 | Accuracy of quantized layers | proved | `C147_zero_bits`, `C147_half_step`, `C147_all_quantized_refuted`, `C147_padding`, `C147_padding_refuted` |  |
| C148 | Transfer schedule of the Python transfer tile | proved | `C148_schedule`, `C148_every`, `C148_too_large`, `C148_never_refuted`, `C148_unsupported` |  |
| C149 | No reading is lost on its way to the slow weights | proved | `C149_conserved`, `C149_bounded`, `C149_slow`, `C149_faithful`, `C149_rate`, `C149_recursion`, `C149_forget_refuted`, `C149_clip_refuted` |  |
| C150 | Choppers and references do not change what is learned | proved | `C150_signs`, `C150_offset`, `C150_rows_refuted`, `C150_rows_error_refuted`, `C150_inputs`, `C150_inputs_refuted` |  |
| C151 | When the choppers switch | proved | `C151_switches`, `C151_turns`, `C151_first_refuted`, `C151_off` |  |
| C152 | Automatic scale of the fast learning rate | proved | `C152_mean`, `C152_first_refuted`, `C152_invariant` |  |
| C153 | Hidden parameters and checkpoints of the transfer tile | proved | `C153_hidden`, `C153_layout`, `C153_resume`, `C153_counter_refuted` | State dictionaries only; pickling keeps everything. |
| C154 | AGAD bookkeeping | proved | `C154_agad`, `C154_hull`, `C154_last` |  |
| C155 | Bookkeeping of the dynamic transfer device | proved | `C155_accepted`, `C155_books`, `C155_hull`, `C155_content` |  |
| C156 | When the choppers of the dynamic transfer device switch | proved | `C156_turns`, `C156_regular`, `C156_together`, `C156_random_refuted`, `C156_set_refuted` |  |
| C157 | What the dynamic transfer device sends to the slow crossbar | proved | `C157_conserved`, `C157_when`, `C157_after`, `C157_bounded`, `C157_forget`, `C157_warmup_refuted`, `C157_cap_refuted` |  |
| C158 | Dynamic transfer removes offsets of the fast crossbar | proved | `C158_offset`, `C158_fresh`, `C158_gone`, `C158_total` |  |
| C159 | Checkpoints of dynamic transfer devices | proved | `C159_resume`, `C159_flat` | Hidden weights of the crossbars themselves are opaque. |
| C160 | IR drop currents are those of the circuit | proved | `C160_extension`, `C160_segments`, `C160_agree`, `C160_one_row_short` | The tiny conductance added against division by zero is part of the circuit. |
| C161 | Time-dependent IR drop attenuates every product by a factor | proved | `C161_attenuated` | Without ADC quantization (C165) and read noise. |
| C162 | Ideal limit of the IR drop simulation | proved | `C162_any_converter`, `C162_single_pair`, `C162_one_pass`, `C162_default_integration_refuted`, `C162_time_resolution_refuted`, `C162_default_read_voltage_refuted` |  |
| C163 | Split and bit-wise evaluation equal one pass | proved | `C163_without_drop`, `C163_with_drop`, `C163_split_exact`, `C163_split_refused`, `C163_bit_wise_refuted` | Without output quantization and noise. |
| C164 | When the IR drop simulation fails | proved | `C164_odd_outputs`, `C164_segments`, `C164_no_resolution`, `C164_read_noise` |  |
| C165 | Quantization of the integrated current | proved | `C165_adc`, `C165_adc_shape`, `C165_adc_outputs` |  |
| C166 | The precision cast goes to the nearest number of the format | proved | `C166_nearest`, `C166_nearest_8` |  |
| C167 | Shape of the precision cast | proved | `C167_odd`, `C167_monotone`, `C167_idempotent` | The sign of zero is ignored: negative numbers are flushed to +0. |
| C168 | Special values and overflow of the precision cast | proved | `C168_special`, `C168_special_finite`, `C168_agree`, `C168_beyond`, `C168_clipping_refuted`, `C168_small_refuted`, `C168_settings_differ` |  |
| C169 | Interface of the precision cast | proved | `C169_range`, `C169_entrywise`, `C169_backward_refuted` | CPU code; the check of PyTorch on the number of gradients is modelled. |
| C170 | Analog matrices: products and rank updates | proved | `C170_history`, `C170_ger_accepts` | Without learned output scales; ideal tile. |
| C171 | Analog matrices: matrix products and large matrices | proved | `C171_matmat`, `C171_matmat_refuted`, `C171_large` | Ideal tile. |
| C172 | Reading weights by least squares returns the weights | proved | `C172_read`, `C172_bias_range`, `C172_count`, `C172_clip_refuted` | Ideal forward pass; without scaling the scales must not be zero. |
| C173 | Totals of the analog summary | proved | `C173_count`, `C173_totals`, `C173_uses_refuted`, `C173_later` |  |
| C174 | Entries of the analog summary | proved | `C174_reuse`, `C174_utilization`, `C174_not_mapped`, `C174_unlimited`, `C174_tuple_output`, `C174_tiles_dict_refuted` |  |
| C175 | The custom tile trains by plain SGD | proved | `C175_sgd`, `C175_reference`, `C175_uniform`, `C175_uniform_range`, `C175_program_start_refuted` | Ideal forward and backward. |
| C176 | Every candidate of the weight programming optimizer is a valid strategy that represents weights exactly | proved | `C176_strategy` | g_err is 0 (the default). |
| C177 | Symmetric programming strategies | proved | `C177_symmetric`, `C177_middle_refuted` |  |
| C178 | Losses and life of the weight programming optimizer | proved | `C178_loss`, `C178_objective`, `C178_baseline`, `C178_baseline_refuted`, `C178_run`, `C178_flag_refuted`, `C178_again_refuted` | The search and the simulated effective weights are parameters. |
| C179 | Sampling the weights preserves their range | proved | `C179_sample`, `C179_range`, `C179_one_refuted` | Before shuffling; linear interpolation with aligned corners. |
| C180 | Experiments survive the conversion to the exchange format of the cloud | proved | `C180_roundtrip` | Constructors are modelled by the attributes they set; parameters the format does not know have their default values. |
| C181 | What the exchange format of the cloud loses | proved | `C181_bias_refuted`, `C181_config_refuted`, `C181_groups_refuted`, `C181_shared_refuted` |  |
| C182 | What the conversion for the cloud refuses | proved | `C182_int64`, `C182_int64_stored`, `C182_refused`, `C182_layers` |  |
| C183 | Inference experiments of the cloud | proved | `C183_noise`, `C183_device_refuted`, `C183_config`, `C183_one_bit`, `C183_common`, `C183_config_error` |  |
| C184 | Response of the p_max device | proved | `C184_response`, `C184_documented_refuted`, `C184_refused` | Composes with the pulsed device model. |
| C185 | Parameters reach the simulator core unchanged | proved | `C185_faithful`, `C185_complete`, `C185_tile`, `C185_class_refuted`, `C185_unread_refuted`, `C185_tile_refuted` | The core is a parameter: which classes, attributes, values and enumerations it has. |
| C186 | What a device configuration is built of | proved | `C186_parts`, `C186_accepts`, `C186_idempotent`, `C186_dropped_refuted`, `C186_transfer_refuted`, `C186_missing_refuted`, `C186_decay`, `C186_decay_refuted` |  |
| C187 | Configurations built by the name of an algorithm | proved | `C187_config`, `C187_unknown`, `C187_case`, `C187_fresh`, `C187_contents`, `C187_settings`, `C187_ignored`, `C187_total`, `C187_seed_refuted`, `C187_update_refuted`, `C187_instance_refuted` | ASCII names; callables other than classes are not modelled. |
| C188 | Forward and backward pass of the floating point tile in memory | proved | `C188_forward`, `C188_backward`, `C188_refused`, `C188_mixed_refuted` | Reals instead of floats; BLAS by its specification; a feature dimension of 0 (integer division by zero) is not modelled. |
| C189 | Rank update of the floating point tile and the gradient of hardware-aware training | proved | `C189_update`, `C189_gradient`, `C189_refused`, `C189_zero`, `C189_zero_refuted`, `C189_warmup_refuted`, `C189_keywords_refuted`, `C189_keywords` | RPUSimple only; pulsed updates are other properties. |
| C190 | Weight decay of the floating point tile | proved | `C190_decay`, `C190_none_refuted` |  |
| C191 | Conversion of legacy checkpoints | proved | `C191_converted`, `C191_found`, `C191_config`, `C191_config_idempotent`, `C191_config_other` | Indices in ASCII digits without sign. |
| C192 | Checkpoints that are not converted as documented | proved | `C192_model_refuted`, `C192_no_tile_refuted`, `C192_new_refuted`, `C192_layer_refuted`, `C192_index_refuted`, `C192_bias_refuted`, `C192_url_refuted` |  |
| C193 | Results of a training experiment | proved | `C193_results`, `C193_empty_refuted` | Network, loss and optimizer are parameters; printing is not modelled. Reals instead of floats. |
| C194 | Data of a training experiment | proved | `C194_samples`, `C194_metrics`, `C194_max_refuted` | torch DataLoader and Subset by their specification; empty data sets are not modelled. |
| C195 | Hooks of experiments | proved | `C195_no_hooks`, `C195_rerun`, `C195_merge` | Hooks of the user are functions without effects on the experiment. |
| C196 | Results of an inference experiment | proved | `C196_results`, `C196_run`, `C196_nothing`, `C196_partial_refuted`, `C196_empty_refuted`, `C196_max_refuted` | Programming, drift and evaluation are parameters. |
| C197 | Times and weights of an inference experiment | proved | `C197_times`, `C197_times_refuted`, `C197_template`, `C197_remap_refuted`, `C197_missing_refuted` | Reals instead of floats; inference times of 0 and below (logarithm undefined) are not modelled. |
| C198 | model_response simulates the measurement | proved | `C198_response`, `C198_single`, `C198_weights_refuted`, `C198_short_refuted`, `C198_list_refuted`, `C198_no_measurement`, `C198_dropped_refuted`, `C198_last_pulse_refuted` | tile abstract; numpy broadcasting explicit |
| C199 | fit_measurements returns the configuration fitted | proved | `C199_config`, `C199_reproduces`, `C199_unknown`, `C199_nested_refuted`, `C199_pulses_refuted` | optimizer: any list of evaluations and any result with the same names |
| C200 | Training the torch inference tile is training a linear layer | proved | `C200_training`, `C200_runs`, `C200_noise`, `C200_deepcopy_refuted`, `C200_load_refuted`, `C200_float_refuted`, `C200_frozen_refuted`, `C200_learned_refuted` | autograd is the chain rule; aliasing of the scales between the tile and the hook is modelled |
| C201 | The gradient of the input range | proved | `C201_gradient`, `C201_expands`, `C201_inputs`, `C201_noise_refuted`, `C201_manage_refuted`, `C201_forward` |  |
| C202 | Ranges of the quantized periphery | proved | `C202_refines`, `C202_checkpoint` | gradients abstract: an optimizer step is any function of the parameters; checkpoints without optimizer steps after loading |
| C203 | Accuracy of quantized scales | proved | `C203_error`, `C203_off`, `C203_dead_refuted` |  |
| C204 | Forward of a tile with quantized periphery | proved | `C204_tile`, `C204_scales` | quantization of activations abstract; one sample |
| C205 | Bias of a quantized module array | proved | `C205_array`, `C205_frozen_refuted` |  |
| C206 | Parameters of quantization configurations fit the estimator | proved | `C206_fitting`, `C206_set`, `C206_reset`, `C206_none_refuted`, `C206_subclass_refuted` |  |
| C207 | The GPU update applies exactly the pulses of the batch | proved | `C207_words`, `C207_bits` | the copy into shared memory and the kernel for a single sample without batch are not modelled; trains are given (their draws are C61) |
| C208 | Every weight is handled by exactly one thread | proved | `C208_grid`, `C208_grid_range`, `C208_shared`, `C208_shared_range`, `C208_split` |  |
| C209 | Cycle-to-cycle noise of the GPU update | proved | `C209_run_noise`, `C209_noise_lost_refuted` |  |
| C210 | Translation of the pulse trains into batch order | proved | `C210_translate`, `C210_lost_refuted`, `C210_leftover_refuted` | the format is used if asked for in the tests and benchmarks (use_bo64 == 2); no kernel selects it by itself. With update bit line management only the loss of the left-over bits is proved, nothing about the remaining words |

## 5. Not modelled

CUDA kernels; the Python/C++ binding layer; device transfers; presets and
visualisation; the training examples; IEEE rounding; the distribution (as opposed
to the set of possible outcomes) of random numbers; the cloud/experiment runner
clients.
