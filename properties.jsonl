{"id": "C01", "title": "Physical tile sizes partition a layer", "statement": "When a layer is split over physical tiles, the sizes of the pieces of a dimension are positive, never above the configured maximum, add up to the dimension, differ by at most one, and no split with fewer pieces exists; a maximum of zero or less means a single tile. Building the tile array succeeds for every positive size.", "quantifier": "every dimension size and every configured maximum", "why_tests_cant": "the sizes and limits are unbounded integers", "anchors": ["src/aihwkit/simulator/tiles/array.py:TileModuleArray.get_split_sizes", "src/aihwkit/simulator/tiles/array.py:TileModuleArray.__init__"]}
{"id": "C02", "title": "Tiling cannot be observed after setting weights", "statement": "After set_weights(w, b) on a tile array, get_weights returns exactly w and b and the noise-free output is w x + b, for every splitting and every mapping configuration.", "quantifier": "all sizes, all tile limits, all mapping configurations, all weights, biases and inputs", "why_tests_cant": "the splitting offsets interact with all shapes", "anchors": ["src/aihwkit/simulator/tiles/array.py:TileModuleArray.set_weights", "src/aihwkit/simulator/tiles/array.py:TileModuleArray.get_weights", "src/aihwkit/simulator/tiles/array.py:TileModuleArray.forward"]}
{"id": "C03", "title": "Tile array agrees with its logical weights over histories", "statement": "After any history of set_weights calls (with or without bias) an array returns the last weights set, the last bias given, and computes the affine map of exactly these.", "quantifier": "all histories of set_weights calls, all sizes, limits, configurations", "why_tests_cant": "histories are unbounded", "anchors": ["src/aihwkit/simulator/tiles/array.py:TileModuleArray"]}
{"id": "C04", "title": "Setting and reading weights is exact", "statement": "With weight scaling active, get_weights after set_weights(w, b) returns exactly w and b, whatever happened to the tile before; without weight scaling the crossbar values are exactly those set and the digital scales are untouched.", "quantifier": "all histories of tile calls, all weights, biases and configurations", "why_tests_cant": "the digital scales are state left by any earlier calls", "anchors": ["src/aihwkit/simulator/tiles/periphery.py:TileWithPeriphery.set_weights", "src/aihwkit/simulator/tiles/periphery.py:TileWithPeriphery.get_weights", "src/aihwkit/simulator/tiles/periphery.py:TileWithPeriphery.apply_weight_scaling"]}
{"id": "C05", "title": "Weight scaling uses exactly the conductance range", "statement": "After set_weights with weight scaling omega, no crossbar value exceeds omega in magnitude, and the maximum (per matrix, or per output when column-wise) equals omega unless the target is all zero.", "quantifier": "all histories, weights, omegas > 0", "why_tests_cant": "the maximum is taken over data of any size", "anchors": ["src/aihwkit/simulator/tiles/periphery.py:TileWithPeriphery.apply_weight_scaling"]}
{"id": "C06", "title": "Noise-free forward is the logical affine map", "statement": "For a noise-free tile, forward(x) equals W x + b for the logical W and b it reports, whatever its digital scales; with an input range the inputs are first clipped to the range.", "quantifier": "all reachable tile states and inputs", "why_tests_cant": "composition of scaling, range and bias over all states", "anchors": ["src/aihwkit/simulator/tiles/periphery.py:TileWithPeriphery.pre_forward", "src/aihwkit/simulator/tiles/periphery.py:TileWithPeriphery.post_forward", "src/aihwkit/simulator/tiles/floating_point.py"]}
{"id": "C07", "title": "Tile update is SGD in logical units", "statement": "A sequence of tile updates changes the logical weights exactly like plain SGD with the given learning rate, independently of the digital mapping scales and of learning rate compensation; with an input range the step is divided by the range; an analog bias gets the plain SGD step.", "quantifier": "all reachable tile states, learning rates, mini-batch sequences", "why_tests_cant": "must hold for any scale state and any length of update sequence", "anchors": ["src/aihwkit/simulator/tiles/periphery.py:TileWithPeriphery.pre_update", "src/aihwkit/simulator/tiles/periphery.py:TileWithPeriphery.update"]}
{"id": "C08", "title": "The learning rate read is the one set", "statement": "get_learning_rate after set_learning_rate(lr) returns lr, and without lr compensation no other call changes it.", "quantifier": "all histories of tile calls", "why_tests_cant": "histories are unbounded", "anchors": ["src/aihwkit/simulator/tiles/periphery.py:TileWithPeriphery.set_learning_rate", "src/aihwkit/simulator/tiles/periphery.py:TileWithPeriphery.get_learning_rate"]}
{"id": "C09", "title": "Setting scales takes effect", "statement": "set_scales(s) makes get_scales return s.", "quantifier": "all reachable tile states and scales", "why_tests_cant": "depends on state left by earlier calls", "anchors": ["src/aihwkit/simulator/tiles/periphery.py:TileWithPeriphery.set_scales", "src/aihwkit/simulator/tiles/periphery.py:TileWithPeriphery.set_mapping_scales"]}
{"id": "C10", "title": "Remapping preserves the logical weights", "statement": "remap_weights changes only how the logical weights are represented: get_weights is the same before and after.", "quantifier": "all reachable tile states and omegas > 0", "why_tests_cant": "depends on all earlier calls", "anchors": ["src/aihwkit/simulator/tiles/periphery.py:TileWithPeriphery.remap_weights"]}
{"id": "C11", "title": "Backward is the adjoint of forward", "statement": "The input gradient computed by a noise-free tile is the transposed logical weight matrix applied to the output gradient.", "quantifier": "all reachable tile states, all x and d", "why_tests_cant": "holds for all vectors of all sizes", "anchors": ["src/aihwkit/simulator/tiles/periphery.py:TileWithPeriphery.backward"]}
{"id": "C12", "title": "Changing dtype keeps the logical weights", "statement": "tile.to(dtype=...) does not change the logical weights.", "quantifier": "all reachable tile states", "why_tests_cant": "depends on aliasing of stored scale tensors", "anchors": ["src/aihwkit/simulator/tiles/module.py:TileModule.to"]}
{"id": "C13", "title": "Input range initialised from data is a running mean", "statement": "The input range after any sequence of training batches is init_std_alpha times the mean standard deviation of the first init_from_data non-constant batches, and is frozen afterwards.", "quantifier": "all sequences of batches", "why_tests_cant": "sequences are unbounded", "anchors": ["src/aihwkit/simulator/tiles/periphery.py:TileWithPeriphery.apply_input_range"]}
{"id": "C14", "title": "The weights seen through the analog parameter are read-only", "statement": "No program over the analog parameter of a tile (switching its data mode, reading .data, item assignment, calling torch functions, also in-place ones, on it or on results) changes the weights stored in the tile.", "quantifier": "all finite programs of calls on the context parameter, any torch function", "why_tests_cant": "the set of torch functions and programs is unbounded", "anchors": ["src/aihwkit/optim/context.py:AnalogContext", "src/aihwkit/optim/weight_view.py"]}
{"id": "C15", "title": "The placeholder parameter reveals nothing about the weights", "statement": "In placeholder mode no computation on the analog parameter depends on the weights of the tile; using it as an operand raises.", "quantifier": "all programs, all weights", "why_tests_cant": "quantifies over all programs and weights", "anchors": ["src/aihwkit/optim/context.py:AnalogContext"]}
{"id": "C16", "title": "The data view shows the logical weights, writes go to a buffer", "statement": "In data-view mode reading the parameter yields the logical weights of the tile; a write never reaches the tile but is is applied to a buffer that starts at zero.", "quantifier": "all tile states and write sequences", "why_tests_cant": "sequences of writes are unbounded", "anchors": ["src/aihwkit/optim/context.py:AnalogContext", "src/aihwkit/optim/weight_view.py"]}
{"id": "C17", "title": "Regrouping keeps every parameter exactly once", "statement": "regroup_param_groups neither loses nor duplicates a parameter, gives each analog parameter its own group, leaves no empty group, keeps order and learning rate of all other parameters and sets the learning rate of each analog tile exactly once.", "quantifier": "all parameter group structures", "why_tests_cant": "the number and layout of groups is unbounded", "anchors": ["src/aihwkit/optim/analog_optimizer.py:AnalogOptimizerMixin.regroup_param_groups"]}
{"id": "C18", "title": "An optimizer step applies each recorded gradient exactly once", "statement": "step() calls update on each analog tile exactly once with all samples recorded since the last step, at the learning rate of its group, and runs all post-update steps after all updates; over any interleaving of backward passes and steps an ideal tile ends with the weights of plain SGD over all its samples.", "quantifier": "all optimizers, all histories of backward passes and steps", "why_tests_cant": "histories are unbounded", "anchors": ["src/aihwkit/optim/analog_optimizer.py:AnalogOptimizerMixin.step", "src/aihwkit/optim/context.py:AnalogContext.reset", "src/aihwkit/simulator/tiles/functions.py:AnalogFunction"]}
{"id": "C19", "title": "Setting the optimizer learning rate reaches every group and tile", "statement": "set_learning_rate(lr) sets lr in every parameter group and on every analog tile exactly once, and changes nothing else.", "quantifier": "all optimizers and learning rates", "why_tests_cant": "the number of groups is unbounded", "anchors": ["src/aihwkit/optim/analog_optimizer.py:AnalogOptimizerMixin.set_learning_rate"]}
{"id": "C20", "title": "AnalogOptimizer wraps the class it is given", "statement": "AnalogOptimizer(Cls, ...) behaves as a subclass of Cls, whatever optimizers were created before.", "quantifier": "all sequences of optimizer constructions", "why_tests_cant": "depends on process history (a class registry)", "anchors": ["src/aihwkit/optim/analog_optimizer.py:AnalogOptimizer"]}
{"id": "C21", "title": "Bound management terminates", "statement": "The analog matrix-vector product always ends: with max_bm_factor < 2^n it takes at most n+1 rounds, for all weights, inputs and noise.", "quantifier": "all weights, inputs, noise draws, parameters", "why_tests_cant": "a loop bound has to hold for every input and noise", "anchors": ["src/aihwkit/simulator/tiles/analog_mvm.py:AnalogMVM.matmul"]}
{"id": "C22", "title": "Ideal configurations compute the exact product", "statement": "With is_perfect, or without noise and converters and with inputs and results inside the ranges, the product is exactly out_scale * W x.", "quantifier": "all weights and batches", "why_tests_cant": "real valued inputs of unbounded size", "anchors": ["src/aihwkit/simulator/tiles/analog_mvm.py:AnalogMVM.matmul"]}
{"id": "C23", "title": "Analog error is explained by the converters", "statement": "Without noise each output is within out_scale * input range * (input step * sum|w| + output step)/2 of the exact value (full steps with stochastic rounding); with iterative bound management this holds for every output unless an iteration limit was reached, and inputs are reduced only if some output was out of range.", "quantifier": "all weights, batches, resolutions, bounds", "why_tests_cant": "worst-case bound over real inputs and any number of rounds", "anchors": ["src/aihwkit/simulator/tiles/analog_mvm.py:AnalogMVM.matmul", "src/aihwkit/simulator/tiles/analog_mvm.py:AnalogMVM._prepare_input", "src/aihwkit/simulator/tiles/analog_mvm.py:AnalogMVM._finalize_output"]}
{"id": "C24", "title": "Outputs stay in the ADC range", "statement": "Whatever the noise, |y| <= |out_scale| * row range * bound management factor * out_bound, and without noise a zero row gives a zero row.", "quantifier": "all inputs and noise tensors", "why_tests_cant": "noise is unbounded", "anchors": ["src/aihwkit/simulator/tiles/analog_mvm.py:AnalogMVM._finalize_output"]}
{"id": "C25", "title": "Samples of a batch do not influence each other", "statement": "Without noise the result for a batch is the concatenation of the results for its parts.", "quantifier": "all ways to split all batches", "why_tests_cant": "all batches and splits", "anchors": ["src/aihwkit/simulator/tiles/analog_mvm.py:AnalogMVM.matmul"]}
{"id": "C26", "title": "ABS_MAX noise management is scale invariant", "statement": "Scaling a batch by c > 0 scales the result by c, also with (the same) noise, quantization, clipping and bound management.", "quantifier": "all c > 0, batches, noise", "why_tests_cant": "quantifies over reals and all noise draws", "anchors": ["src/aihwkit/simulator/tiles/analog_mvm.py:AnalogMVM._compute_noise_management"]}
{"id": "C27", "title": "The uniform quantizer rounds to the nearest step", "statement": "The quantizer returns the nearest multiple of the step 2*bound*res, is monotone, odd and idempotent; stochastic rounding stays within one step.", "quantifier": "all reals, resolutions and bounds", "why_tests_cant": "real valued inputs", "anchors": ["src/aihwkit/simulator/tiles/utils.py:UniformQuantize"]}
{"id": "C28", "title": "Single pair conversion loses nothing", "statement": "Converting weights to conductance pairs and back returns the weights; all conductances are in [g_min, g_max], one device of every pair is at g_min, and the largest weight uses the whole range.", "quantifier": "all weight tensors, all accepted g_min, g_max", "why_tests_cant": "real valued weights of any size", "anchors": ["src/aihwkit/inference/converter/conductance.py:SinglePairConductanceConverter"]}
{"id": "C29", "title": "N pair conversion loses nothing and fills pairs in order", "statement": "With positive significances, converting to conductances and back returns the weights, conductances are in [g_min, g_max], one device of each pair is at g_min, and a pair is used only if the previous one is exhausted.", "quantifier": "all weights, numbers of pairs and significances", "why_tests_cant": "any number of pairs and real weights", "anchors": ["src/aihwkit/inference/converter/conductance.py:NPairConductanceConverter", "src/aihwkit/inference/converter/conductance.py:DualPairConductanceConverter"]}
{"id": "C30", "title": "Custom pair tables that are linear in the weight lose nothing", "statement": "If the table of the custom converter represents equidistant weights, converting and back returns every weight tensor.", "quantifier": "all weights, table sizes, numbers of pairs", "why_tests_cant": "interpolation at every real weight", "anchors": ["src/aihwkit/inference/converter/conductance.py:CustomPairConductanceConverter"]}
{"id": "C31", "title": "Single device conversion loses nothing", "statement": "Weights that are not all equal are returned by the round trip through single device conductances, which cover exactly [g_min, g_max].", "quantifier": "all weights and accepted ranges", "why_tests_cant": "real valued weights of any size", "anchors": ["src/aihwkit/inference/converter/conductance.py:SingleDeviceConductanceConverter"]}
{"id": "C32", "title": "Fusion export and import restore the model", "statement": "Exporting a layer and importing the exported data restores the weights of all its tiles, if no row is constant (and not zero); writing them back leaves a tile without analog bias unchanged.", "quantifier": "all layers, numbers and sizes of tiles, tile histories", "why_tests_cant": "any number of tiles and rows", "anchors": ["src/aihwkit/utils/export.py:fusion_export", "src/aihwkit/utils/export.py:fusion_import", "src/aihwkit/inference/converter/fusion.py:FusionConductanceConverter"]}
{"id": "C33", "title": "Noise never makes a conductance negative", "statement": "For every noise model with power law drift and for the ReRAM model, the conductances after programming and after drift are never negative and as many as before; drift coefficients are never negative, and without variation those of the PCM model are in [0.049, 0.1].", "quantifier": "all noise models with any arguments, target conductances, times and random draws", "why_tests_cant": "random draws and real conductances", "anchors": ["src/aihwkit/inference/noise/pcm.py:PCMLikeNoiseModel", "src/aihwkit/inference/noise/pcm.py:CustomDriftPCMLikeNoiseModel", "src/aihwkit/inference/noise/hermes.py:HermesNoiseModel", "src/aihwkit/inference/noise/custom.py:StateIndependentNoiseModel", "src/aihwkit/inference/noise/reram.py:ReRamWan2022NoiseModel"]}
{"id": "C34", "title": "Programming without programming noise is the identity", "statement": "With prog_noise_scale=0 and a converter with exact round trip (single pair; N pairs with positive significances) apply_programming_noise returns the weights unchanged.", "quantifier": "all noise models with power law drift, weights, draws", "why_tests_cant": "real weights, draws", "anchors": ["src/aihwkit/inference/noise/base.py:BaseNoiseModel.apply_programming_noise", "src/aihwkit/inference/noise/pcm.py:PCMLikeNoiseModel.apply_programming_noise_to_conductance"]}
{"id": "C35", "title": "Drift follows the power law with the coefficient drawn at programming", "statement": "Without read noise and with g_min = 0, every weight after time t is its programmed value times (1 + t/t0)^(-nu) of the device that holds it; the factor is 1 at t = 0, in (0, 1] and never grows with t. If all devices have the same coefficient, this also holds for every g_min.", "quantifier": "all models with power law drift, weights, coefficients, times", "why_tests_cant": "real weights, coefficients and times", "anchors": ["src/aihwkit/inference/noise/base.py:BaseNoiseModel.apply_drift_noise", "src/aihwkit/inference/noise/pcm.py:PCMLikeNoiseModel.apply_drift_noise_to_conductance", "src/aihwkit/inference/noise/hermes.py:HermesNoiseModel", "src/aihwkit/inference/noise/custom.py:StateIndependentNoiseModel"]}
{"id": "C36", "title": "Programming and then drifting equals the one-step noise", "statement": "Without programming noise, program-then-drift gives exactly what the one-step apply_noise gives for the same draws.", "quantifier": "all models with power law drift, exact converters, weights, times, draws", "why_tests_cant": "real weights, draws", "anchors": ["src/aihwkit/inference/noise/base.py:BaseNoiseModel.apply_noise", "src/aihwkit/inference/noise/base.py:BaseNoiseModel.apply_drift_noise"]}
{"id": "C37", "title": "Noise models are total for sensible arguments", "statement": "With positive g_max and times, programming any weights with a single pair converter succeeds, and then drifting to every time t >= 0 succeeds, keeping the number of weights.", "quantifier": "all models with power law drift, arguments, weights, times, draws", "why_tests_cant": "all weights and times", "anchors": ["src/aihwkit/inference/noise/pcm.py:PCMLikeNoiseModel", "src/aihwkit/inference/noise/base.py:BaseNoiseModel"]}
{"id": "C38", "title": "The ReRAM model reproduces the targets when its noise is zero", "statement": "At a tabulated time, apply_noise of the ReRAM (Wan 2022) model with zero noise at that time returns the target weights, whatever the programming noise; at a time not in the table drift_weights raises an error.", "quantifier": "all tables, weights, draws", "why_tests_cant": "real weights, draws", "anchors": ["src/aihwkit/inference/noise/reram.py:ReRamWan2022NoiseModel"]}
{"id": "C39", "title": "Drift is not cumulative", "statement": "drift_weights(t) always drifts the programmed weights with the parameters drawn at programming, so that its result does not depend on earlier drifts, training or set weights since the last programming.", "quantifier": "all noise models, read-outs, compensations, histories of calls", "why_tests_cant": "arbitrary histories and noise", "anchors": ["src/aihwkit/simulator/tiles/inference.py:InferenceTileWithPeriphery.drift_weights", "src/aihwkit/simulator/tiles/inference.py:InferenceTileWithPeriphery.program_weights"]}
{"id": "C40", "title": "Programming starts from the reference weights", "statement": "program_weights() (from_reference=True) programs, however often and after any drifts, the weights the tile had at the first programming; the first programming or from_reference=False programs the current weights.", "quantifier": "all noise models, histories of calls", "why_tests_cant": "arbitrary histories and noise", "anchors": ["src/aihwkit/simulator/tiles/inference.py:InferenceTileWithPeriphery.program_weights"]}
{"id": "C41", "title": "The first drift programs the weights", "statement": "drift_weights on a tile that was never programmed programs its current weights first and then drifts them.", "quantifier": "all noise models, weights, times", "why_tests_cant": "arbitrary weights and noise", "anchors": ["src/aihwkit/simulator/tiles/inference.py:InferenceTileWithPeriphery.drift_weights", "src/aihwkit/simulator/tiles/periphery.py:TileWithPeriphery.set_weights"]}
{"id": "C42", "title": "Without drift, inference uses the stored weights", "statement": "After any history of setting, training and programming but no drift, the evaluation forward pass is W x with the current weights: no compensation factor is applied.", "quantifier": "all histories without drift, inputs", "why_tests_cant": "arbitrary histories", "anchors": ["src/aihwkit/simulator/tiles/inference.py:InferenceTileWithPeriphery.post_forward", "src/aihwkit/simulator/tiles/inference.py:InferenceTileWithPeriphery.post_forward"]}
{"id": "C43", "title": "Drift compensation restores the programmed output", "statement": "Compensation factors are always positive. With exact read-out, uniform drift is compensated exactly by the global factor, drift that differs between outputs by the per column factors, and for any drift the mean absolute weight is restored, if the mean magnitudes are above the read-out limit 1e-4.", "quantifier": "all histories, weights, drifts", "why_tests_cant": "real weights, arbitrary noise", "anchors": ["src/aihwkit/inference/compensation/drift.py:GlobalDriftCompensation", "src/aihwkit/inference/compensation/drift.py:PerColumnDriftCompensation", "src/aihwkit/inference/compensation/base.py:BaseDriftCompensation", "src/aihwkit/simulator/tiles/inference.py:InferenceTileWithPeriphery.drift_weights"]}
{"id": "C44", "title": "Pulse programming converges to the target", "statement": "On an ideal tile, after at most max_iter steps the weights are target + (1-lr)^k (start - target); it stops early only if the relative error is below the tolerance, and restores the learning rate.", "quantifier": "all targets, starts, learning rates, tolerances, iteration limits", "why_tests_cant": "iteration to any depth", "anchors": ["src/aihwkit/simulator/tiles/periphery.py:TileWithPeriphery.program_weights"]}
{"id": "C45", "title": "Digital quantization is rounding to a grid", "statement": "After set_quant_range(min, max), values in the range change by at most half a step, all results lie on a grid of at most 2^bits values that contains zero, zero is kept, order is kept, and quantizing twice equals quantizing once; for symmetric and asymmetric, linear and logarithmic, per tensor and per channel quantizers.", "quantifier": "all ranges, bit widths, inputs, earlier states of the quantizer", "why_tests_cant": "real valued inputs and ranges", "anchors": ["src/aihwkit/simulator/digital_low_precision/quantizers.py:AsymmetricUniformQuantizer", "src/aihwkit/simulator/digital_low_precision/quantizers.py:SymmetricUniformQuantizer"]}
{"id": "C46", "title": "Calibration covers the calibration data", "statement": "With the allminmax estimator, after any number of batches the range is exactly the range of all data seen and in evaluation mode each of these data is reproduced with at most half a step of error; the same holds for the last batch with current_minmax. With running_minmax the limits stay within the range of the data.", "quantifier": "all sequences of batches, per tensor or per channel", "why_tests_cant": "histories of any length", "anchors": ["src/aihwkit/simulator/digital_low_precision/range_estimators.py:CurrentMinMaxEstimator", "src/aihwkit/simulator/digital_low_precision/range_estimators.py:AllMinMaxEstimator", "src/aihwkit/simulator/digital_low_precision/range_estimators.py:RunningMinMaxEstimator", "src/aihwkit/simulator/digital_low_precision/quantization_manager.py:QuantizationManager.forward"]}
{"id": "C47", "title": "Quantization ranges do not change when they should not", "statement": "In the fixed and learning states, and in evaluation mode in the default state, no sequence of forward calls changes the ranges; ranges can be fixed after the first batch and not before; without ranges the quantizer raises instead of returning a value.", "quantifier": "all states and sequences of calls", "why_tests_cant": "histories of any length", "anchors": ["src/aihwkit/simulator/digital_low_precision/quantization_manager.py:QuantizationManager"]}
{"id": "C48", "title": "Channels are quantized independently", "statement": "With per channel asymmetric quantization the output of a channel depends only on the data of this channel.", "quantifier": "all pairs of inputs that agree in a channel", "why_tests_cant": "pairs of real inputs", "anchors": ["src/aihwkit/simulator/digital_low_precision/quantizers.py:AsymmetricUniformQuantizer", "src/aihwkit/simulator/digital_low_precision/range_estimators.py:CurrentMinMaxEstimator"]}
{"id": "C49", "title": "Cached quantized weights are never stale", "statement": "A layer with quantized weights computes in evaluation mode with the quantized current weights, for all sequences of training, evaluation and mode changes in which weights and ranges change only in training mode or with caching off.", "quantifier": "all histories of calls", "why_tests_cant": "histories of any length", "anchors": ["src/aihwkit/simulator/digital_low_precision/hijacker.py:QuantizationHijacker.get_params", "src/aihwkit/simulator/digital_low_precision/base_quantized_classes.py:QuantizedModule"]}
{"id": "C50", "title": "The MSE estimator minimises the quantization error", "statement": "The range returned by the grid search of the MSE estimator has, among all its candidates, the smallest squared error summed over all batches seen so far.", "quantifier": "all sequences of batches, numbers of candidates, bit widths", "why_tests_cant": "histories of any length, real data", "anchors": ["src/aihwkit/simulator/digital_low_precision/range_estimators.py:MSE_Estimator"]}
{"id": "C51", "title": "A new device has usable parameters", "statement": "Whatever the device-to-device variation draws, every cross point of a newly created pulsed device has its lower bound below its upper bound, a decay factor in [0,1] and a non-negative diffusion rate; with enforced consistency zero is in the bounds and steps are not negative; without variation the parameters are the nominal ones; corrupt devices have one possible weight within the corrupt range; only bounds that exclude zero are refused.", "quantifier": "all parameter settings, all draws", "why_tests_cant": "real valued parameters and draws", "anchors": ["src/rpucuda/rpu_pulsed_device.cpp:populate"]}
{"id": "C52", "title": "Weights never leave the bounds of their device", "statement": "In any history of pulses, decay, diffusion, clipping, resets, setting of weights, drift and floating point updates, every stored weight stays within the bounds of its cross point (shifted by the reference weight for devices with one), the bounds never change, and a corrupt device never moves, if clip values are not below the bounds and hidden step devices have no step noise.", "quantifier": "all histories, all devices classes, all draws", "why_tests_cant": "histories of any length and real valued draws", "anchors": ["src/rpucuda/rpu_pulsed_device.cpp:onSetWeights", "src/rpucuda/rpu_constantstep_device.cpp:doSparseUpdate", "src/rpucuda/rpu_linearstep_device.cpp:doSparseUpdate", "src/rpucuda/rpu_expstep_device.cpp:doSparseUpdate", "src/rpucuda/rpu_powstep_device.cpp:doSparseUpdate", "src/rpucuda/rpu_piecewisestep_device.cpp:doSparseUpdate", "src/rpucuda/rpu_hidden_device.cpp:doSparseUpdate"]}
{"id": "C53", "title": "Pulses follow the step law of the device", "statement": "Without cycle-to-cycle noise n pulses on a constant step device add n steps up to the bound; on a soft bounds device the distance to the bound shrinks geometrically; for all classes with a sane step size no pulse moves the weight in the wrong direction; a pulse changes only the cross point it is addressed to; with subtract_symmetry_point up and down pulses at zero are equal.", "quantifier": "all pulse counts, devices, parameters", "why_tests_cant": "any number of pulses, real parameters", "anchors": ["src/rpucuda/rpu_constantstep_device.cpp:doSparseUpdate", "src/rpucuda/rpu_linearstep_device.cpp:doSparseUpdate", "src/rpucuda/rpu_softbounds_reference_device.cpp:populate"]}
{"id": "C54", "title": "Decay and reset of devices", "statement": "n decay calls bring each stored weight towards its reset value by the n-th power of its decay factor, except in the bias column if it shall not decay; a reset changes only the addressed columns, cyclically, and sets them to the reset value plus noise within the bounds, with certainty if the probability is one.", "quantifier": "all numbers of calls, start columns, probabilities, draws", "why_tests_cant": "any number of calls", "anchors": ["src/rpucuda/rpu_pulsed_device.cpp:decayWeights", "src/rpucuda/rpu_pulsed_device.cpp:resetCols"]}
{"id": "C55", "title": "Device drift depends on the time since the last write only", "statement": "Drift without noise follows the power law of the time since the weight was written: one call applies the law, several calls in a row equal one call with the summed time, and a weight changed by more than the tolerance starts a new drift from its new value.", "quantifier": "all sequences of waiting times, weights, drift parameters", "why_tests_cant": "histories of any length", "anchors": ["src/rpucuda/weight_drifter.cpp:apply"]}
{"id": "C56", "title": "Write noise is never stored", "statement": "Two runs of the same history with the same random numbers except for the write noise store the same weights, even if their visible weights were different at the start, if no floating point updates are made.", "quantifier": "all histories, all pairs of noise sequences", "why_tests_cant": "relational property of histories", "anchors": ["src/rpucuda/rpu_pulsed_device.cpp:applyUpdateWriteNoise", "src/rpucuda/rpu_pulsed_device.h:PULSED_UPDATE_W_LOOP"]}
{"id": "C57", "title": "An inverted copy of a device is its mirror image", "statement": "A device that got the inverted parameters of an identical device reacts to the opposite pulses with the negated weights, for all classes except exponential and piecewise step.", "quantifier": "all cross points, pulses, draws", "why_tests_cant": "real valued states and draws", "anchors": ["src/rpucuda/rpu_onesided_device.cpp:copyInvertDeviceParameter", "src/rpucuda/rpu_pulsed_device.cpp:copyInvertDeviceParameter"]}
{"id": "C58", "title": "A device is restored from its saved state", "statement": "A device without write noise restored from its saved extra state, hidden parameters and weights is the same device, whatever the new one was before.", "quantifier": "all device states", "why_tests_cant": "real valued state", "anchors": ["src/aihwkit/simulator/tiles/base.py:SimulatorTileWrapper.__setstate__", "src/rpucuda/rpu_pulsed_device.cpp:onSetWeights"]}
{"id": "C59", "title": "The pulse trains carry the learning rate", "statement": "Number of time slots times the two probability factors times the granularity equals the learning rate if the learning rate fits or the train length is fixed or managed; otherwise the trains are made longer and exceed it by less than one step; with update management no pulse probability is above one if the largest update element fits.", "quantifier": "all learning rates, vectors, combinations of the management flags", "why_tests_cant": "real valued inputs, all flags", "anchors": ["src/rpucuda/rpu_pulsed_meta_parameter.cpp:calculateBlAB", "src/rpucuda/rpu_pulsed_meta_parameter.cpp:performUpdateManagement", "src/rpucuda/sparse_bit_line_maker.cpp:makeCounts"]}
{"id": "C60", "title": "Pulses go in the direction of the gradient", "statement": "In every outcome all pulses at a cross point go down if lr x_j d_i is positive and up if negative, none are sent if it is zero or the learning rate is zero, and there are never more than the number of slots; for the dense types if the learning rate is positive.", "quantifier": "all vectors, learning rates, random draws", "why_tests_cant": "all random outcomes, vectors of any length", "anchors": ["src/rpucuda/rpu_weight_updater.cpp:updateVectorWithDevice", "src/rpucuda/sparse_bit_line_maker.cpp:generateCounts", "src/rpucuda/dense_bit_line_maker.cpp:generateCountsMean"]}
{"id": "C61", "title": "Stochastic pulsed updates are stochastic gradient descent on average", "statement": "The expected number of pulses is slots times both probabilities, and the expected weight of an ideal constant step cell after a mini batch is the weight of gradient descent, up to the resolution of the random numbers.", "quantifier": "all batches, learning rates, resolutions of the random number generator", "why_tests_cant": "an expectation, batches of any size", "anchors": ["src/rpucuda/rpu_pulsed.cpp:updateMatrix", "src/rpucuda/sparse_bit_line_maker.cpp:generateCountsPN", "src/rpucuda/rpu_pulsed_device.h:PULSED_UPDATE_W_LOOP"]}
{"id": "C62", "title": "Dense pulse types are accurate", "statement": "With update management, a learning rate that fits and a largest update element that fits, the net number of pulses times the granularity differs from lr x_j d_i by at most half a step for DeterministicImplicit (plus what the resolutions of x and d allow) and, without discretisation, one and a half steps for MeanCount.", "quantifier": "all vectors and learning rates", "why_tests_cant": "real valued inputs", "anchors": ["src/rpucuda/dense_bit_line_maker.cpp:generateCoincidences", "src/rpucuda/dense_bit_line_maker.cpp:generateCoincidencesDetI"]}
{"id": "C63", "title": "Resolution of the pulse probabilities", "statement": "A positive resolution rounds the probability to a multiple of it, off by at most half of it (all of it with stochastic rounding).", "quantifier": "all probabilities, resolutions, draws", "why_tests_cant": "real valued inputs", "anchors": ["src/rpucuda/rpu_pulsed_meta_parameter.cpp:initialize", "src/rpucuda/utility_functions.h:getDiscretizedValue", "src/aihwkit/simulator/parameters/training.py:res"]}
{"id": "C64", "title": "A compound device shows the weighted sum of its crossbars", "statement": "After weights were set, in every history of updates, decay, diffusion, clipping, drift, resets and setting of weights, each weight of the tile is the sum over the crossbars of factor times weight; a fully hidden transfer device shows the last crossbar, which is that sum for the default factors.", "quantifier": "all histories, compound types, numbers of crossbars, draws", "why_tests_cant": "histories of any length", "anchors": ["src/rpucuda/rpu_vector_device.cpp:reduceToWeights", "src/rpucuda/rpu_onesided_device.cpp:doSparseUpdate", "src/rpucuda/rpu_transfer_device.cpp:reduceToWeights", "src/rpucuda/rpu_transfer_device.cpp:initializeWithSize"]}
{"id": "C65", "title": "Setting the weights of a compound device", "statement": "If the values are within the bounds of the crossbars, weights set on a vector cell are scaled by the sum of its factors, on a one sided device split into the positive and negative part, on a transfer device written to the last crossbar with the others cleared, and read back unchanged; a single-fixed vector cell changes only its active crossbar.", "quantifier": "all weights, states, numbers of crossbars", "why_tests_cant": "real valued matrices of any size", "anchors": ["src/rpucuda/rpu_vector_device.cpp:onSetWeights", "src/rpucuda/rpu_onesided_device.cpp:onSetWeights", "src/rpucuda/rpu_transfer_device.cpp:onSetWeights"]}
{"id": "C66", "title": "Saving and loading a tile with a compound device", "statement": "The weights of the tile and all counters are restored from a saved state; the individual crossbars are restored only if setting the tile weight reproduces them.", "quantifier": "all states of all compound devices", "why_tests_cant": "real valued state of any size", "anchors": ["src/aihwkit/simulator/tiles/base.py:SimulatorTileWrapper.__setstate__", "src/rpucuda/rpu_vector_device.cpp:setDeviceParameter", "src/rpucuda/rpu_transfer_device.cpp:onSetWeights"]}
{"id": "C67", "title": "Update policies of vector cells", "statement": "With the policy All every crossbar gets all pulses; otherwise exactly the active one gets them: the fixed one, a random one, or the next one in turn, so that after n updates the index has advanced by n modulo the number of crossbars.", "quantifier": "all histories of updates, numbers of crossbars", "why_tests_cant": "histories of any length", "anchors": ["src/rpucuda/rpu_vector_device.cpp:initUpdateCycle", "src/rpucuda/rpu_vector_device.cpp:doSparseUpdate", "src/rpucuda/rpu_vector_device.cpp:doDenseUpdate"]}
{"id": "C68", "title": "One sided devices are only pulsed up", "statement": "Between refreshes down pulses of an update increase the second conductance and up pulses the first, so with constant steps and away from the bounds the weight changes by the difference of both, each limited by its own upper bound.", "quantifier": "all pulse sequences, all devices", "why_tests_cant": "pulse sequences of any length", "anchors": ["src/rpucuda/rpu_onesided_device.cpp:doSparseUpdate", "src/rpucuda/rpu_onesided_device.cpp:doDenseUpdate"]}
{"id": "C69", "title": "Refresh of one sided devices", "statement": "Every refresh_every updates, and only then, exactly the pairs of conductances above both thresholds are reset and the formerly larger conductance is written back with up pulses (stochastic pulse types, ideal reads); with write noise the refresh fails.", "quantifier": "all states, thresholds, sizes, random draws", "why_tests_cant": "all random outcomes, matrices of any size", "anchors": ["src/rpucuda/rpu_onesided_device.cpp:refreshWeights", "src/rpucuda/rpu_onesided_device.cpp:refreshCriterion", "src/rpucuda/rpu_pulsed_device.cpp:resetAtIndices"]}
{"id": "C70", "title": "Schedule of transfers", "statement": "In any history of updates crossbar j is read every transfer_every updates (rounded, or times the mini batch size), the position of the next read advances cyclically by the number of reads, and unless given the cycles of the higher crossbars grow geometrically.", "quantifier": "all histories of updates, sizes, cycles", "why_tests_cant": "histories of any length", "anchors": ["src/rpucuda/rpu_transfer_device.cpp:finishUpdateCycle", "src/rpucuda/rpu_transfer_device.cpp:getTransferEvery", "src/rpucuda/rpu_transfer_device.cpp:initializeWithSize", "src/aihwkit/simulator/configs/compounds.py:transfer_every"]}
{"id": "C71", "title": "Content of transfers", "statement": "A transfer with ideal reads changes only the selected columns (rows) of the next crossbar, with pulses towards the weight read times the transfer learning rate, on average by exactly that; nothing else changes, except that a column is reset with the given probability after it was read if one column is read per transfer.", "quantifier": "all states, sizes, slices, random draws", "why_tests_cant": "all random outcomes, an expectation, matrices of any size", "anchors": ["src/rpucuda/rpu_transfer_device.cpp:readAndUpdate", "src/rpucuda/rpu_transfer_device.cpp:writeVector", "src/rpucuda/rpu_transfer_device.cpp:transfer"]}
{"id": "C72", "title": "Buffered transfer keeps account of what it read", "statement": "A transfer with ideal reads adds the transfer learning rate times the weights of the selected columns (rows) to the digital buffer; of each entry the whole multiples of the granularity (at most desired_BL) are taken out and written with that many steps to the next crossbar, everything else stays as it is.", "quantifier": "all states, sizes, slices, random draws", "why_tests_cant": "all random outcomes, matrices of any size", "anchors": ["src/rpucuda/rpu_buffered_transfer_device.cpp:readAndUpdate", "src/rpucuda/rpu_buffered_transfer_device.cpp:getTransferLR"]}
{"id": "C73", "title": "The buffers of a buffered transfer stay small", "statement": "In every history of updates and other calls the entries of the digital buffers stay below the granularity if the buffer is forgotten without momentum, below the documented geometric limit with momentum and bounded reads, and below the granularity without forgetting if a read adds at most desired_BL steps; calls other than updates leave the buffers alone.", "quantifier": "all histories, sizes, random draws", "why_tests_cant": "histories of any length", "anchors": ["src/rpucuda/rpu_buffered_transfer_device.cpp:readAndUpdate", "src/rpucuda/rpu_transfer_device.cpp:onSetWeights", "src/aihwkit/simulator/configs/compounds.py:forget_buffer"]}
{"id": "C74", "title": "Chopped transfer takes back its signs", "statement": "The pulses of an update go to the first crossbar, inverted where exactly one of the choppers of row and column is active; a transfer reads the next column (row), multiplies with the same signs and the documented transfer learning rate, and follows the documented recursion of the buffer; whole steps go to the second crossbar and nothing else changes. With a negative transfer_every the updates between transfers are |transfer_every| times the number of states over the input size, rounded and at least 1.", "quantifier": "all states, sizes, choppers, random draws", "why_tests_cant": "all random outcomes, matrices of any size", "anchors": ["src/rpucuda/rpu_chopped_transfer_device.cpp:readAndUpdate", "src/rpucuda/rpu_chopped_transfer_device.cpp:doSparseUpdate", "src/rpucuda/rpu_chopped_transfer_device.cpp:getTransferLRScale", "src/rpucuda/rpu_chopped_transfer_device.cpp:getTransferEvery", "src/rpucuda/rpu_transfer_device.cpp:finishUpdateCycle", "src/aihwkit/simulator/configs/compounds.py:final_transfer_lr"]}
{"id": "C75", "title": "Schedule of the choppers", "statement": "With regular choppers, in any run of transfers the chopper of each column (row) has switched once per whole period of matrix cycles, where the period is the inverse probability rounded up and at least 2; with random choppers exactly the one of the column just read switches with the given probability; the output choppers only switch after the last column.", "quantifier": "all runs, sizes, probabilities, random draws", "why_tests_cant": "runs of any length, probabilities", "anchors": ["src/rpucuda/rpu_chopped_transfer_device.cpp:readAndUpdate", "src/aihwkit/simulator/configs/compounds.py:in_chop_random"]}
{"id": "C76", "title": "Weight of a tile with a chopped device", "statement": "After every update the weights of a square tile with row transfer are the sum of factor times weight over the crossbars with the signs of the first crossbar taken back; in general while all choppers agree; a fully hidden device shows the last crossbar.", "quantifier": "all updates, sizes, choppers, random draws", "why_tests_cant": "all random outcomes, matrices of any size", "anchors": ["src/rpucuda/rpu_chopped_transfer_device.cpp:reduceToWeights", "src/aihwkit/simulator/configs/compounds.py:ChoppedTransferCompound"]}
{"id": "C77", "title": "Chopped transfer without choppers is buffered transfer", "statement": "If the chopper probabilities are 0 and the granularities of the buffers agree, then in any run of transfers a chopped device does exactly what a buffered device does: same crossbars, same buffer up to its unit.", "quantifier": "all runs, sizes, learning rates, random draws", "why_tests_cant": "runs of any length, all random outcomes", "anchors": ["src/rpucuda/rpu_chopped_transfer_device.cpp:readAndUpdate", "src/rpucuda/rpu_buffered_transfer_device.cpp:readAndUpdate", "src/aihwkit/simulator/configs/compounds.py:ChoppedTransferCompound"]}
{"id": "C78", "title": "Automatic scale of the fast crossbar", "statement": "The running averages of the largest inputs stay between the smallest and largest positive inputs seen, constant inputs give their value and are approached geometrically with the momentum, and the learning rate of the fast crossbar is the documented one, so that the largest inputs give fast_lr times desired_BL pulses.", "quantifier": "all histories of inputs", "why_tests_cant": "histories of any length", "anchors": ["src/rpucuda/rpu_chopped_transfer_device.cpp:updateAutoScale", "src/rpucuda/rpu_chopped_transfer_device.cpp:getPulseCountAutoLR", "src/aihwkit/simulator/configs/compounds.py:final_fast_lr"]}
{"id": "C79", "title": "Mixed precision: what an update accumulates", "statement": "An update of a mixed precision device adds the learning rate times the outer product of the two vectors to the digital matrix and leaves the analog weights alone unless a transfer is due. With both numbers of bins set the vectors are rounded to the documented symmetric bins first, the error is at most the documented half bin (one bin with stochastic rounding) in each vector, and stochastic rounding is right on average; without bins there is no error.", "quantifier": "all vectors, sizes, learning rates, numbers of bins, random draws", "why_tests_cant": "real vectors of any size and all random outcomes; averages", "anchors": ["src/rpucuda/rpu_mixedprec_device.cpp:doDirectVectorUpdate", "src/aihwkit/simulator/configs/compounds.py:n_x_bins", "src/aihwkit/simulator/configs/compounds.py:stoc_round_x"]}
{"id": "C80", "title": "Mixed precision: schedule of the transfers", "statement": "The counter of a mixed precision device is the number of updates with a non zero learning rate since the weights were set last; the analog weights only change in updates whose number is a positive multiple of transfer_every times the batch size, so for the first transfer_every updates nothing is written.", "quantifier": "all histories of calls", "why_tests_cant": "histories of any length", "anchors": ["src/rpucuda/rpu_mixedprec_device_base.cpp:doTransfer", "src/rpucuda/rpu_mixedprec_device_base.cpp:onSetWeights", "src/aihwkit/simulator/configs/compounds.py:transfer_every"]}
{"id": "C81", "title": "Mixed precision: what a transfer writes", "statement": "A due update moves the whole multiples of the granularity of the next n_rows_per_transfer rows from the digital matrix to the device and leaves the rest there; other rows are not touched. The rows are taken in turn, so after enough transfers each row has been below one granularity. On average (and exactly with deterministic pulses) the weight changes by minus transfer_lr times the multiples if they fit into the pulse trains.", "quantifier": "all states, sizes, histories, random draws", "why_tests_cant": "histories of any length, all random outcomes, averages", "anchors": ["src/rpucuda/rpu_mixedprec_device.cpp:forwardUpdate", "src/rpucuda/rpu_mixedprec_device_base.cpp:transfer", "src/aihwkit/simulator/configs/compounds.py:n_rows_per_transfer", "src/aihwkit/simulator/configs/compounds.py:transfer_lr"]}
{"id": "C82", "title": "Mixed precision: the other calls of a tile", "statement": "Setting the weights programs the device and clears the digital matrix and the counters; decay, diffusion, clipping, drift and reset act on the analog weights only; an update with learning rate 0 does nothing; a tile can be made exactly if a positive granularity is given or the device has one; saving and loading restores weights, granularity and counters.", "quantifier": "all states, calls, random draws", "why_tests_cant": "all states and random outcomes", "anchors": ["src/rpucuda/rpu_mixedprec_device_base.cpp:onSetWeights", "src/rpucuda/rpu_mixedprec_device_base.cpp:populate", "src/rpucuda/rpu_mixedprec_device_base.cpp:setDeviceParameter", "src/aihwkit/simulator/tiles/base.py:__setstate__"]}
{"id": "C83", "title": "Mixed precision: average sparsity", "statement": "With both numbers of bins set, the average sparsity of a mixed precision device is the mean over the updates since the weights were set last of the product of the fractions of zeros in the two rounded vectors; without bins it stays 0.", "quantifier": "all histories of calls, sizes, random draws", "why_tests_cant": "histories of any length", "anchors": ["src/rpucuda/rpu_mixedprec_device_base.cpp:computeSparsity", "src/rpucuda/rpu_mixedprec_device.cpp:doDirectVectorUpdate"]}
{"id": "C84", "title": "Weight clipping after an update", "statement": "Clipping moves every weight to the nearest one in [-c, c] and changes nothing else, where c is the given value (FIXED_VALUE, nothing happens for a negative one), the mean over the outputs of the largest absolute weight (AVERAGE_CHANNEL_MAX), or sigma times the standard deviation of the weights (LAYER_GAUSSIAN), in the last two cases not more than a positive fixed value. Clipping at the same value twice is clipping once and it keeps the order of the weights; with AVERAGE_CHANNEL_MAX repeated clipping only stops when all outputs have the same largest absolute weight.", "quantifier": "all weight matrices, sizes, parameters", "why_tests_cant": "real matrices of any size", "anchors": ["src/rpucuda/weight_clipper.cpp:apply", "src/rpucuda/rpu_simple_device.cpp:clipWeights", "src/aihwkit/simulator/parameters/inference.py:WeightClipParameter"]}
{"id": "C85", "title": "Clipping: the torch tile and the RPUCuda tile agree", "statement": "With a non negative fixed value, or LAYER_GAUSSIAN with weights that are not all equal, the clipping of the torch tile gives the same weights as that of the RPUCuda tile; AVERAGE_CHANNEL_MAX is refused by the torch tile.", "quantifier": "all weight matrices, sizes, parameters", "why_tests_cant": "real matrices of any size", "anchors": ["src/aihwkit/simulator/tiles/torch_tile.py:clip_weights", "src/rpucuda/weight_clipper.cpp:apply", "src/rpucuda/rpu_pulsed.cpp:clipWeights"]}
{"id": "C86", "title": "Remapping keeps the logical weights and fills the range", "statement": "Remapping weights with output scales keeps the product of scale and weight of each entry. LAYERWISE_SYMMETRIC makes the largest absolute weight remapped_wmax (all zero weights stay), with the same factor for all scales; CHANNELWISE_SYMMETRIC without a bounded range does the same for each output on its own, a zero row and its scale stay.", "quantifier": "all weight matrices, scales, sizes", "why_tests_cant": "real matrices of any size", "anchors": ["src/rpucuda/weight_remapper.cpp:apply", "src/aihwkit/simulator/parameters/inference.py:WeightRemapParameter"]}
{"id": "C87", "title": "Remapping with a bounded range of scales", "statement": "CHANNELWISE_SYMMETRIC with a positive max_scale_range and positive scales keeps the product of scale and weight, and the new scales are at most max_scale_range times the reference (the smallest scale, or max_scale_ref when it is larger); an output whose scale is not limited is filled to 1. A remapped_wmax other than 1 is refused.", "quantifier": "all weight matrices, scales, sizes", "why_tests_cant": "real matrices of any size", "anchors": ["src/rpucuda/weight_remapper.cpp:apply", "src/aihwkit/simulator/parameters/inference.py:max_scale_range", "src/aihwkit/simulator/parameters/inference.py:max_scale_ref"]}
{"id": "C88", "title": "Remapping a tile keeps what the user reads", "statement": "The remapping of post_update_step on a tile that has mapping scales leaves get_weights with scales (weights and bias) as it was and the raw weights within remapped_wmax; tiles without scales and tiles with one scale for several outputs are refused.", "quantifier": "all reachable tiles, parameters", "why_tests_cant": "all histories of a tile", "anchors": ["src/aihwkit/simulator/tiles/inference.py:post_update_step", "src/aihwkit/simulator/tiles/periphery.py:get_scales", "src/aihwkit/simulator/tiles/periphery.py:set_scales", "src/rpucuda/weight_remapper.cpp:apply"]}
{"id": "C89", "title": "Weight modifier: what each type does to a weight", "statement": "The modifier never changes the size, leaves the last column alone if it is the copied bias column, and works on the others relative to the largest of them (1 if they are all 0) or to assumed_wmax. DISCRETIZE puts a weight on the grid of its resolution with an error of at most half a step (one step if stochastic); DOREFA puts it on the grid within the clip value; PROG_NOISE keeps the sign; DROP_CONNECT keeps or zeroes; with zero standard deviation, resolution and drop probability nothing happens. per_batch_sample and PCM_NOISE are refused on the CPU, every other configuration works.", "quantifier": "all weight matrices, sizes, parameters, random draws", "why_tests_cant": "all random outcomes, real matrices of any size", "anchors": ["src/rpucuda/weight_modifier.cpp:apply", "src/rpucuda/weight_modifier.cpp:dropConnections", "src/aihwkit/simulator/parameters/inference.py:WeightModifierParameter", "src/rpucuda/utility_functions.h:getDiscretizedValueRound"]}
{"id": "C90", "title": "Weight modifier: averages", "statement": "The noise of ADD_NORMAL, MULT_NORMAL and POLY has mean 0 and the documented standard deviation: std_dev times the reference, times the weight, or times the polynomial of the relative weight. Stochastic rounding is right on average up to the granularity of the generator, and DROP_CONNECT keeps a weight with probability 1 - pdrop.", "quantifier": "all weight matrices, parameters; all generators with mean 0 and variance 1", "why_tests_cant": "averages over random outcomes", "anchors": ["src/rpucuda/weight_modifier.cpp:apply", "src/aihwkit/simulator/parameters/inference.py:std_dev", "src/aihwkit/simulator/parameters/inference.py:pdrop"]}
{"id": "C91", "title": "Which weights a pass of an inference tile uses", "statement": "Over any history of weight writes, updates, post update steps, saving and loading: until the first post update step that modifies weights all passes use the weights; after it training passes use the modification of the weights the tile had after the last such step, whatever is written since; test passes use the weights, or the same modified ones if enable_during_test was set at that step, until the tile is loaded. A modification does not change the weights.", "quantifier": "all histories of calls, random draws", "why_tests_cant": "histories of any length", "anchors": ["src/aihwkit/simulator/tiles/inference.py:post_update_step", "src/rpucuda/rpu.cpp:getFBWeights", "src/rpucuda/rpu.cpp:modifyFBWeights", "src/rpucuda/rpu.cpp:loadExtra"]}
{"id": "C92", "title": "When changed clip and modifier parameters take effect", "statement": "Without runtime.on_the_fly_bindings the clip and modifier parameters first used stay in force whatever the rpu_config says later, until the tile is saved (state_dict or pickle) or loaded; with on_the_fly_bindings, and in the first step after saving, the present parameters are used. That a type is NONE is always looked up anew.", "quantifier": "all histories of calls", "why_tests_cant": "histories of any length", "anchors": ["src/aihwkit/simulator/tiles/inference.py:post_update_step", "src/aihwkit/simulator/tiles/inference.py:__getstate__"]}
{"id": "C93", "title": "Order of a post update step", "statement": "A post update step first lets the weights diffuse and decay, then clips, then remaps, then modifies: the weights after it are the clipped ones, or, with remapping, the logical weights after it are those of the clipped weights with the scales before it; the modified weights are a modification of the final weights.", "quantifier": "all tiles, configurations, random draws", "why_tests_cant": "all random outcomes, all sizes", "anchors": ["src/aihwkit/simulator/tiles/inference.py:post_update_step", "src/aihwkit/simulator/tiles/rpucuda.py:post_update_step"]}
{"id": "C94", "title": "Decay and diffusion over many steps", "statement": "After n post update steps with a lifetime above 1 and some diffusion the mean of a weight is (1 - 1/lifetime)^n times its start, its variance is diffusion^2 times the sum of the even powers of that factor up to 2n, and so bounded for all n; a lifetime of at most 1 does nothing.", "quantifier": "all numbers of steps, weights, parameters; all generators with mean 0 and variance 1", "why_tests_cant": "histories of any length, averages", "anchors": ["src/rpucuda/rpu_simple_device.cpp:decayWeights", "src/rpucuda/rpu_simple_device.cpp:diffuseWeights", "src/aihwkit/simulator/tiles/rpucuda.py:post_update_step"]}
{"id": "C95", "title": "Analog forward and backward pass: exact when everything is off", "statement": "A perfect pass (is_perfect or IDEAL) is the exact product times out_scale and alpha, draws no random number and never fails. A pass on the crossbar with every non-ideality, converter and bound off gives the same, whatever the type of product, noise management and bound management, if noise management has a positive value for inputs that are not zero; then forward and backward are adjoint to each other. MAX without a positive input, and AVERAGE_ABS_MAX after a first zero input without decay, give zeros (refuted variants).", "quantifier": "all weight matrices, sizes, inputs, parameters, random draws", "why_tests_cant": "real matrices of any size, all configurations", "anchors": ["src/rpucuda/rpu_forward_backward_pass.cpp:forwardVector", "src/rpucuda/rpu_forward_backward_pass.cpp:backwardVector", "src/rpucuda/rpu_forward_backward_pass.cpp:computeNoiseManagement", "src/aihwkit/simulator/parameters/io.py:is_perfect"]}
{"id": "C96", "title": "Bound management", "statement": "Bound management ends after a number of rounds logarithmic in max_bm_factor (and in the input resolution); an output it accepts is an output that the tile without an output bound could give, unless it gave up at max_bm_factor or max_bm_res; without converters and noise the ITERATIVE result is exact as long as the needed factor does not reach max_bm_factor. With bm_test_negative_bound off a positive overflow is forgotten if a later output is negative and out of bound; ITERATIVE_WORST_CASE can need more than the two passes documented (refuted variants).", "quantifier": "all weight matrices, inputs, parameters, random draws", "why_tests_cant": "all random outcomes, unbounded number of rounds", "anchors": ["src/rpucuda/rpu_forward_backward_pass.cpp:forwardVector", "src/rpucuda/rpu_forward_backward_pass.cpp:finalizeOutput", "src/aihwkit/simulator/parameters/enums.py:ITERATIVE_WORST_CASE", "src/aihwkit/simulator/parameters/io.py:max_bm_factor"]}
{"id": "C97", "title": "Range and error of the converters", "statement": "No output exceeds out_bound times out_scale, alpha, the value of noise management and the reduction of bound management (twice that with a separate conversion of both signs). With quiet analog parts the error of an output is at most the sum of the magnitudes of its weights times half an input step, plus half an output step (a full step if stochastic), scaled like the result, as long as nothing is clipped.", "quantifier": "all weight matrices, inputs, parameters, random draws", "why_tests_cant": "all random outcomes, real matrices of any size", "anchors": ["src/rpucuda/rpu_forward_backward_pass.cpp:prepareInput", "src/rpucuda/rpu_forward_backward_pass.cpp:finalizeOutput", "src/rpucuda/utility_functions.h:getDiscretizedValueSR", "src/aihwkit/simulator/parameters/io.py:out_bound"]}
{"id": "C98", "title": "Average noise management", "statement": "With AVERAGE_ABS_MAX the value used in a pass is the exponential moving average (decay nm_decay) of the largest absolute inputs of all passes so far, so it stays within their range; no other noise management has a memory. A positive nm_thres caps the scale of ABS_MAX and MAX at nm_thres and leaves smaller scales alone. The backward pass reads and moves the same average (refuted: forward only).", "quantifier": "all histories of passes", "why_tests_cant": "histories of any length", "anchors": ["src/rpucuda/rpu_forward_backward_pass.cpp:computeNoiseManagement", "src/aihwkit/simulator/parameters/enums.py:AVERAGE_ABS_MAX"]}
{"id": "C99", "title": "Worst-case noise management", "statement": "With ABS_MAX_NP_SUM, weights within nm_assumed_wmax and inputs of one sign no output exceeds out_bound; with inputs of both signs it is exceeded at most by a factor 2 in general, and there are such inputs where it clips (refuted: never clips).", "quantifier": "all weight matrices within the assumed range, all inputs", "why_tests_cant": "real matrices of any size", "anchors": ["src/rpucuda/rpu_forward_backward_pass.cpp:computeNoiseManagement", "src/aihwkit/simulator/parameters/enums.py:ABS_MAX_NP_SUM", "src/rpucuda/rpu_pulsed_meta_parameter.h:nm_assumed_wmax"]}
{"id": "C100", "title": "Separate passes for positive and negative inputs", "statement": "With quiet analog parts POS_NEG_SEPARATE equals ONE_PASS. With read asymmetry the negative inputs see the weights scaled by the factors drawn for them, the positive inputs the weights themselves. The other asymmetries also act in ONE_PASS and without negative inputs, contrary to their documentation (refuted).", "quantifier": "all weight matrices, inputs, random draws", "why_tests_cant": "all random outcomes", "anchors": ["src/rpucuda/rpu_forward_backward_pass.cpp:computeAnalogMV", "src/aihwkit/simulator/parameters/io.py:w_read_asymmetry_dtod", "src/aihwkit/simulator/parameters/io.py:out_asymmetry"]}
{"id": "C101", "title": "Voltage offsets, series resistance, IR drop, weight noise, slope calibration", "statement": "A voltage offset scales the coding device by 1 - v and the reference by 1 + v, so without an offset an output is exact; a series resistance shrinks an output and keeps its sign; drawn offsets and nonlinearities are never negative. The IR drop of a single active input grows with its index and is 0 for the first (refuted: the first is farthest away). Weight noise has mean 0 and the variance of independent noise on each weight, also for PCM-like noise. The output nonlinearity is odd, keeps the sign, never exceeds the calibration factor times the value and saturates. Slope calibration makes the slope of the output stage 1 at the chosen fraction of the output range.", "quantifier": "all weight matrices, inputs, parameters, random draws", "why_tests_cant": "real matrices of any size; averages, derivatives", "anchors": ["src/rpucuda/rpu_forward_backward_pass.cpp:applyVoltageOffsets", "src/rpucuda/rpu_forward_backward_pass.cpp:applyIrDrop", "src/rpucuda/rpu_forward_backward_pass.cpp:applyOutputWeightNoise", "src/rpucuda/rpu_forward_backward_pass.cpp:populateFBParameter", "src/aihwkit/simulator/parameters/io.py:ir_drop"]}
{"id": "C102", "title": "Noise of the forward pass", "statement": "Gaussian noise on inputs and outputs does not change the mean of an output; its variance is that of independent noise of the given standard deviations on each input line and on the output, scaled like the result. With ABS_MAX the noise is proportional to the input.", "quantifier": "all weight matrices, inputs, parameters; all generators with mean 0 and variance 1", "why_tests_cant": "averages over random outcomes", "anchors": ["src/rpucuda/rpu_forward_backward_pass.cpp:forwardVector", "src/aihwkit/simulator/parameters/io.py:inp_noise", "src/aihwkit/simulator/parameters/io.py:out_noise"]}
{"id": "C103", "title": "Levels of the converters, refused parameters", "statement": "With a resolution of 1/(2m) or 2m steps the prepared inputs take only the 2m+1 equally spaced values of the input range, and so do the outputs of the output range, with any noise before the converter. A bound of 0 or less disables the converter together with the bound. Noise management with an input bound other than 1 and voltage offsets of the wrong number are refused, nothing else is; the backward pass never uses bound management.", "quantifier": "all parameters, weight matrices, inputs, random draws", "why_tests_cant": "all random outcomes, all parameters", "anchors": ["src/rpucuda/rpu_pulsed_meta_parameter.cpp:initializeForForward", "src/rpucuda/rpu_pulsed_meta_parameter.cpp:checkAndSetRes", "src/aihwkit/simulator/parameters/io.py:inp_res", "src/aihwkit/simulator/parameters/io.py:out_res"]}
{"id": "C104", "title": "Convolution layers compute convolutions", "statement": "The output of AnalogConv1d/2d/3d with the indexed interface on a new layer is the convolution of the zero padded input with the weights plus the bias, with one value for every position the kernel can take, for every kernel size, stride, padding and (2d) dilation, number of channels, outputs and samples, and for no, analog and digital bias. A kernel larger than the padded input is an error.", "quantifier": "all geometries, sizes, channels, batches, weights, inputs", "why_tests_cant": "sizes and geometries are unbounded; the index arithmetic of the table, the channels and the batch interact", "anchors": ["src/aihwkit/nn/modules/conv.py:_calculate_indexes", "src/aihwkit/nn/modules/conv.py:recalculate_indexes", "src/rpucuda/rpu.cpp:copyIndexedInput", "src/rpucuda/rpu.cpp:forwardIndexed", "src/aihwkit/simulator/rpu_base_src/rpu_base_tiles.cpp:forward_indexed"]}
{"id": "C105", "title": "Indexed and unfolded convolution agree", "statement": "AnalogConv2d without the indexed interface (unfold) computes the same convolution, so both modes return the same output for every input.", "quantifier": "all geometries, sizes, channels, batches, weights, inputs", "why_tests_cant": "unbounded sizes", "anchors": ["src/aihwkit/nn/modules/conv.py:unfold", "src/aihwkit/nn/modules/conv.py:use_indexed"]}
{"id": "C106", "title": "Convolution layers over histories of input sizes", "statement": "AnalogConv1d returns the convolution of its input after any history of earlier inputs, and AnalogConv2d/3d do as long as inputs with the same number of elements have the same shape. This is false without that condition: a 2d layer that has seen an input of shape H x W computes a wrong result, of the wrong shape, for an input with the same number of elements and other height and width (refuted).", "quantifier": "all histories of forward calls", "why_tests_cant": "histories of any length with any shapes", "anchors": ["src/aihwkit/nn/modules/conv.py:input_size", "src/aihwkit/nn/modules/conv.py:forward"]}
{"id": "C107", "title": "The backward pass of a convolution is the adjoint of its forward pass", "statement": "For every input x and output gradient d of a convolution layer, the inner product of d with the output of the bias-free layer equals the inner product of the input gradient with x: the gradient with respect to the input is exactly the transposed convolution, also where kernel positions overlap or touch the padding.", "quantifier": "all geometries, sizes, weights, inputs and gradients", "why_tests_cant": "real tensors of any size", "anchors": ["src/rpucuda/rpu.cpp:copyIndexedOutput", "src/rpucuda/rpu.cpp:backwardIndexed", "src/aihwkit/simulator/rpu_base_src/rpu_base_tiles.cpp:backward_indexed", "src/aihwkit/simulator/tiles/periphery.py:backward_indexed"]}
{"id": "C108", "title": "The update of a convolution is the gradient step", "statement": "The indexed update subtracts learning rate times the gradient: every weight changes by minus the learning rate times the sum over samples and positions of the output gradient times the input the weight sees there; an analog bias by minus the learning rate times the sum of the output gradients.", "quantifier": "all geometries, sizes, weights, inputs, gradients and learning rates", "why_tests_cant": "real tensors of any size", "anchors": ["src/rpucuda/rpu.cpp:updateIndexed", "src/aihwkit/simulator/rpu_base_src/rpu_base_tiles.cpp:update_indexed", "src/aihwkit/simulator/tiles/periphery.py:update_indexed"]}
{"id": "C109", "title": "Split sizes of mapped layers", "statement": "AnalogConvNdMapped splits its input channels and outputs such that every channel is on exactly one tile, no tile is empty, no tile exceeds max_input_size / max_output_size elements, sizes differ by at most one, and no split into fewer tiles would do. A single channel that does not fit is an error; a maximum of 0 means no split.", "quantifier": "all numbers of channels, kernel sizes and maximal sizes", "why_tests_cant": "unbounded integers", "anchors": ["src/aihwkit/nn/modules/conv_mapped.py:get_split_sizes"]}
{"id": "C110", "title": "Weights of mapped convolution layers", "statement": "get_weights after set_weights returns the weights of a mapped layer, for every splitting; every tile gets a matrix of its own size.", "quantifier": "all splittings and weights", "why_tests_cant": "unbounded sizes", "anchors": ["src/aihwkit/nn/modules/conv_mapped.py:set_weights", "src/aihwkit/nn/modules/conv_mapped.py:get_weights"]}
{"id": "C111", "title": "Mapping to several tiles does not change the convolution", "statement": "With the same weights a mapped convolution layer returns exactly the output of the layer that is not split, which is the convolution.", "quantifier": "all splittings, geometries, sizes, weights, inputs", "why_tests_cant": "unbounded sizes; channel slices, tables per slice and concatenation interact", "anchors": ["src/aihwkit/nn/modules/conv_mapped.py:forward", "src/aihwkit/nn/modules/conv_mapped.py:recalculate_indexes"]}
{"id": "C112", "title": "What an analog tile sees in a convolution", "statement": "On a tile with a noisy matrix-vector product, a convolution layer gives the tile exactly the patches of the zero padded input (with a trailing 1 for an analog bias), sample by sample and position by position, each with its own random draws, and puts element o of each result into output channel o at that position.", "quantifier": "all geometries, sizes, inputs and all noisy matrix-vector products", "why_tests_cant": "equality of random programs for all sizes", "anchors": ["src/rpucuda/rpu.cpp:forwardMatrix", "src/rpucuda/rpu.cpp:forwardIndexed", "src/rpucuda/math_util.cpp:permute132"]}
{"id": "C113", "title": "Channels of the input are not checked", "statement": "The indexed interface does not check the number of channels of its input: a Conv2d layer fed with more channels silently uses only the first in_channels, a Conv1d layer fed with q times as many channels uses channels 0, q, 2q, ...; with fewer channels a Conv2d layer reads behind the end of its index table.", "quantifier": "all geometries, sizes, inputs", "why_tests_cant": "unbounded sizes", "anchors": ["src/aihwkit/nn/modules/conv.py:in_channels", "src/rpucuda/rpu.cpp:copyIndexedInput", "src/aihwkit/simulator/rpu_base_src/rpu_base_tiles.cpp:set_matrix_indices"]}
{"id": "C114", "title": "convert_to_analog keeps what the model computes", "statement": "With ideal tiles, the converted model computes the same function as the digital model, for every nesting of Sequential and other modules, any conversion map, exclusions and configuration function, as long as no child object is registered twice in the same parent and no other class of the same name was wrapped before. A Sequential that uses one module twice loses the second use.", "quantifier": "all module trees, arguments and layer behaviours", "why_tests_cant": "induction over module trees of any depth and width; layer semantics are arbitrary", "anchors": ["src/aihwkit/nn/conversion.py:convert_to_analog", "src/aihwkit/nn/modules/container.py:from_digital"]}
{"id": "C115", "title": "Exactly the selected modules are converted", "statement": "A submodule whose full dotted name and whose ancestors are not in exclude_modules becomes the analog class that the conversion map gives for its class, or stays the same object if the map has none; an excluded submodule stays, with everything below it, the same object; nothing else is added to the tree except one tile in each converted layer. Excluding the root name only keeps the root itself. With ensure_analog_root and no module name the result is an analog module whose children and mode are those of the converted root.", "quantifier": "all module trees, paths, maps and exclusion lists", "why_tests_cant": "trees of any depth", "anchors": ["src/aihwkit/nn/conversion.py:convert_to_analog", "src/aihwkit/nn/conversion.py:exclude_modules", "src/aihwkit/nn/modules/container.py:AnalogWrapper"]}
{"id": "C116", "title": "Layer specific configurations", "statement": "The tile of every converted layer has the configuration that specific_rpu_config_fun returned for the full dotted name of the layer, the original layer, and (a copy of) the given configuration, and holds the weights of the layer.", "quantifier": "all module trees, paths and configuration functions", "why_tests_cant": "trees of any depth, arbitrary functions", "anchors": ["src/aihwkit/nn/conversion.py:specific_rpu_config_fun"]}
{"id": "C117", "title": "Converting a converted model changes nothing", "statement": "convert_to_analog with the same arguments leaves a model that it converted unchanged, if no child object was registered twice in one parent. If it was, its second name stays digital in the first run and becomes a separate analog layer in the second.", "quantifier": "all module trees and arguments", "why_tests_cant": "trees of any depth; depends on the identity of objects", "anchors": ["src/aihwkit/nn/conversion.py:convert_to_analog"]}
{"id": "C118", "title": "convert_to_digital undoes convert_to_analog", "statement": "Converting a digital model to analog and back gives a model with the same tree of names, classes and parameters, also through the wrapped root, if the conversion set covers the conversion map.", "quantifier": "all module trees and arguments", "why_tests_cant": "trees of any depth", "anchors": ["src/aihwkit/nn/conversion.py:convert_to_digital", "src/aihwkit/nn/modules/container.py:to_digital"]}
{"id": "C119", "title": "Wrapping keeps the class of the model", "statement": "For every history of conversions in a process, each wrapped model behaves as its own class, if the names of the wrapped classes are different for different classes. If two classes have the same name the later model gets the methods of the class that was wrapped first.", "quantifier": "all histories of wrapped models", "why_tests_cant": "histories of any length with global state", "anchors": ["src/aihwkit/nn/modules/container.py:SUBCLASSES", "src/aihwkit/nn/modules/container.py:__new__"]}
{"id": "C120", "title": "Training mode after a conversion", "statement": "A model in training mode is in training mode in all submodules after the conversion. A model in evaluation mode is not in evaluation mode: new layers and tiles are in training mode while a wrapped root still says evaluation. A layer that two parents share becomes two layers with different tiles.", "quantifier": "all module trees", "why_tests_cant": "trees of any depth", "anchors": ["src/aihwkit/nn/conversion.py:convert_to_analog", "src/aihwkit/nn/modules/linear.py:from_digital"]}
{"id": "C121", "title": "Tiles of a model and weights of containers", "statement": "Iterating over the tiles of an analog module visits every tile object exactly once, also if modules are shared, with distinct full names. set_weights of a container needs an entry for each tile name and sets exactly the tiles of the model; get_weights afterwards returns the entries; weights obtained from get_weights can be set again at any time and restore all tiles. A missing entry raises ModuleError, after tiles before it have been written.", "quantifier": "all module graphs without cycles, dictionaries and states", "why_tests_cant": "graphs with sharing of any size", "anchors": ["src/aihwkit/nn/modules/base.py:named_analog_tiles", "src/aihwkit/nn/modules/container.py:get_weights", "src/aihwkit/nn/modules/container.py:set_weights"]}
{"id": "C122", "title": "Programming and drift of a whole model", "statement": "program_analog_weights and drift_analog_weights raise in training mode; otherwise every tile (drift: every inference tile) is programmed or drifted exactly once, shared tiles too, and nothing else is changed. Only the training flag of the module itself is looked at.", "quantifier": "all module graphs, states and tile operations", "why_tests_cant": "graphs with sharing of any size", "anchors": ["src/aihwkit/nn/modules/base.py:drift_analog_weights", "src/aihwkit/nn/modules/base.py:program_analog_weights"]}
{"id": "C123", "title": "A state dictionary restores an analog model", "statement": "Loading the state_dict of a model, at any later time, into a model of the same structure (the same model or another one), whatever that model contains, succeeds with and without strict, reports no missing and no unexpected names, and gives every tile the weights, hidden parameters, learning rate and extra state it had when the dictionary was taken, and every digital parameter its value; no RPU configuration is modified.", "quantifier": "all models, tile states, histories before the load, strict and check flags", "why_tests_cant": "models of any size, arbitrary contents and sizes of weights; holds for arbitrary hidden parameters and random states of new tiles", "anchors": ["src/aihwkit/simulator/tiles/base.py:__getstate__", "src/aihwkit/simulator/tiles/base.py:__setstate__", "src/aihwkit/simulator/tiles/module.py:_load_state_dict_pre_hook", "src/aihwkit/nn/modules/base.py:load_state_dict"]}
{"id": "C124", "title": "Configurations after a load are shared objects", "statement": "After loading with load_rpu_config the tile refers to the RPU configuration object of the dictionary, which is the object of the saved tile if the dictionary was not serialized: a later change through one model is seen by the other. A load into a model of another accepted tile class even writes the tile class into the configuration of the saved model, which then accepts states it refused before.", "quantifier": "all tiles, states and later modifications", "why_tests_cant": "aliasing over histories", "anchors": ["src/aihwkit/simulator/tiles/base.py:__setstate__", "src/aihwkit/simulator/tiles/base.py:get_analog_state"]}
{"id": "C125", "title": "Loading without the configuration and replacing it", "statement": "With load_rpu_config=False a load never changes any configuration nor the configuration a tile refers to; it succeeds only if one configuration class is a subclass of the other (unless strict_rpu_config_check is off) and digital_bias, learn_out_scaling, out_scaling_columnwise and the two tile size limits agree, and then takes the weights (clipped to the bounds) and hidden parameters of the state; otherwise TileModuleError is raised and the tile is unchanged. replace_with keeps weights, hidden parameters, learning rate and extra state and installs the new configuration if the kinds of hidden parameters agree.", "quantifier": "all tiles, states, configurations and class hierarchies", "why_tests_cant": "arbitrary configurations and subclass relations", "anchors": ["src/aihwkit/simulator/tiles/module.py:compatible_with", "src/aihwkit/simulator/tiles/module.py:replace_with", "src/aihwkit/simulator/tiles/module.py:_load_state_dict_pre_hook", "src/aihwkit/simulator/parameters/mapping.py:compatible_with"]}
{"id": "C126", "title": "When a load fails, and what is left", "statement": "With load_rpu_config a tile accepts a state exactly if its configuration accepts the tile class of the state and names, number and sizes of the hidden parameters and the size of the weights fit; a wrong class is refused without any change. In all other failures the tile has lost its weights: it holds those of a newly created tile and the new configuration. A model that fails at one tile has the tiles before it loaded and those after it not.", "quantifier": "all tiles and states", "why_tests_cant": "arbitrary contents and sizes; effect of exceptions in the middle", "anchors": ["src/aihwkit/simulator/tiles/base.py:__setstate__", "src/aihwkit/simulator/tiles/base.py:TileError"]}
{"id": "C127", "title": "The load flags are sticky", "statement": "After any sequence of load_state_dict calls with any dictionaries and outcomes, the setting of load_rpu_config and of strict_rpu_config_check in force for a tile is the last value that was given explicitly in any of the calls, successful or not, and the initial one if none was given.", "quantifier": "all histories of load_state_dict calls", "why_tests_cant": "histories of any length with failures", "anchors": ["src/aihwkit/simulator/tiles/module.py:set_load_rpu_config_state", "src/aihwkit/nn/modules/base.py:load_state_dict"]}
{"id": "C128", "title": "What strict loading guarantees", "statement": "If a strict load_state_dict returns and the dictionary contained no analog_ctx entry of size [] (old versions), every tile and parameter of the model had its entry in the dictionary, every entry belonged to the model, and the dictionary of the caller is unchanged. A tile without an entry keeps its contents in any load. One empty analog_ctx entry switches strict off for everything and is deleted from the dictionary of the caller, so that a second identical call raises.", "quantifier": "all models, dictionaries and flags", "why_tests_cant": "models and dictionaries of any size", "anchors": ["src/aihwkit/nn/modules/base.py:load_state_dict", "src/aihwkit/simulator/tiles/module.py:_load_state_dict_pre_hook"]}
{"id": "C129", "title": "Optimizers and loading", "statement": "An optimizer made after load_state_dict trains the tile: a backward pass and a step make exactly one update with the samples of the pass. An optimizer made before the load never updates a tile of analog training again, for all following backward passes, steps and loads, because the load replaces the AnalogContext parameter; gradients that were recorded before the load are applied to the loaded weights by its next step.", "quantifier": "all optimizers, parameter groups and histories of backward passes, steps and loads", "why_tests_cant": "histories of any length", "anchors": ["src/aihwkit/simulator/tiles/base.py:__setstate__", "src/aihwkit/optim/context.py:AnalogContext", "src/aihwkit/optim/analog_optimizer.py:step"]}
{"id": "C130", "title": "Recurrent cells compute the standard recurrences", "statement": "With ideal tiles, an analog LSTM, GRU or vanilla RNN layer returns at every time step, for every sample and unit, the value of the recurrence documented for torch.nn.LSTM, torch.nn.GRU and torch.nn.RNN with the same weights and biases, and the final states are those of the last step; the LSTM with the combined weight matrix [W_ih W_hh] and bias b_ih + b_hh returns exactly the same outputs and states.", "quantifier": "all sizes, weights, biases, initial states, sequence lengths and batches", "why_tests_cant": "sequences of any length, arbitrary real values", "anchors": ["src/aihwkit/nn/modules/rnn/cells.py:AnalogLSTMCell", "src/aihwkit/nn/modules/rnn/cells.py:AnalogLSTMCellCombinedWeight", "src/aihwkit/nn/modules/rnn/cells.py:AnalogGRUCell", "src/aihwkit/nn/modules/rnn/cells.py:AnalogVanillaRNNCell", "src/aihwkit/nn/modules/rnn/layers.py:AnalogRNNLayer"]}
{"id": "C131", "title": "A sequence can be processed in pieces", "statement": "Running a unidirectional recurrent network on the first part of a sequence and then, with the returned states, on the rest gives exactly the outputs, states and tile states of a run on the whole sequence (and fails in the same way), whatever the tiles do; each tile is used exactly once per time step. For bidirectional networks this is false.", "quantifier": "all stacks, cells, tiles (noisy, stateful), states, and ways to cut a sequence", "why_tests_cant": "sequences and stacks of any length; arbitrary tiles", "anchors": ["src/aihwkit/nn/modules/rnn/layers.py:AnalogRNNLayer", "src/aihwkit/nn/modules/rnn/rnn.py:ModularRNN"]}
{"id": "C132", "title": "Causality of the outputs", "statement": "The outputs of a unidirectional network up to time t do not depend on the inputs after t. The output of a bidirectional layer at time t is the output of the forward cell run over the inputs up to t next to that of the backward cell run from the end back to t.", "quantifier": "all networks, tiles, sequences and times", "why_tests_cant": "sequences of any length; arbitrary tiles", "anchors": ["src/aihwkit/nn/modules/rnn/layers.py:AnalogBidirRNNLayer", "src/aihwkit/nn/modules/rnn/layers.py:AnalogReverseRNNLayer"]}
{"id": "C133", "title": "Samples of a batch are independent in recurrent layers", "statement": "If the linear layers treat the samples of a batch separately (deterministic tiles), running any selection of the samples of a batch, in any order and also repeated, with the corresponding initial states, gives exactly the corresponding selection of outputs and final states, for LSTM, GRU and vanilla RNN.", "quantifier": "all sizes, batches, selections, states and sequences", "why_tests_cant": "arbitrary batches and sequences", "anchors": ["src/aihwkit/nn/modules/rnn/cells.py:AnalogLSTMCell", "src/aihwkit/nn/modules/rnn/cells.py:AnalogGRUCell", "src/aihwkit/nn/modules/rnn/cells.py:AnalogVanillaRNNCell"]}
{"id": "C134", "title": "Recurrent states stay bounded", "statement": "Whatever the tiles return (any noise, any weights), all outputs of an LSTM and of a vanilla RNN are below 1 in magnitude, the cell state of an LSTM grows by at most 1 per time step, and all outputs of a GRU stay within any bound of at least 1 that the initial state meets.", "quantifier": "all tiles, inputs, states and sequence lengths", "why_tests_cant": "arbitrary real values returned by noisy tiles, any number of steps", "anchors": ["src/aihwkit/nn/modules/rnn/cells.py:AnalogLSTMCell", "src/aihwkit/nn/modules/rnn/cells.py:AnalogGRUCell", "src/aihwkit/nn/modules/rnn/cells.py:AnalogVanillaRNNCell"]}
{"id": "C135", "title": "Structure of stacked recurrent networks", "statement": "A network with num_layers layers (at least one is always made), whose linear layers have the sizes the constructor gives them, run with at least one state for each layer, succeeds and returns one output for each time step with hidden_size columns (twice as many if bidirectional) and one state for each layer that fits the next call. Dropout is applied to the outputs of all layers except the last. Surplus states are ignored, missing ones raise IndexError. A bidirectional layer that is given a single state does not fail but silently returns only the forward half.", "quantifier": "all numbers of layers, sizes, directions, sequences, states and dropout functions", "why_tests_cant": "stacks and sequences of any length", "anchors": ["src/aihwkit/nn/modules/rnn/rnn.py:ModularRNN", "src/aihwkit/nn/modules/rnn/rnn.py:AnalogRNN", "src/aihwkit/nn/modules/rnn/layers.py:AnalogBidirRNNLayer"]}
{"id": "C136", "title": "MAX calibration covers all inputs seen", "statement": "calibrate_input_ranges with MAX, when every input batch of every tile contains a value other than zero, succeeds and gives each tile that was called the largest magnitude of all input values it was given as input range (so none of them would be clipped, and the bound is attained) and records it in init_value and calibration_info; tiles that were not called keep their range.", "quantifier": "all models, data, numbers of batches, tiles and earlier ranges", "why_tests_cant": "arbitrary data of any length; order of the calls of many tiles", "anchors": ["src/aihwkit/inference/calibration/calibration.py:calibrate_input_ranges", "src/aihwkit/inference/calibration/calibration.py:_calibration_pre_forward"]}
{"id": "C137", "title": "CACHE_QUANTILE calibration takes a quantile of the cached samples", "statement": "With CACHE_QUANTILE the input range is the magnitude of the requested quantile of min(max_samples, number of rows) of the non-zero input rows, whatever the shuffles; if all fit, of all of them. The quantile of values leaves fewer than (1-q)(n-1)+1 values above it and at most q(n-1)+1 values below it, and lies between the smallest and the largest value. It is a quantile of the values, not of the magnitudes: with q = 1 negative inputs may be clipped.", "quantifier": "all data, shuffles, quantiles and cache sizes", "why_tests_cant": "arbitrary data and random permutations", "anchors": ["src/aihwkit/inference/calibration/calibration.py:_calibration_pre_forward", "src/aihwkit/inference/calibration/calibration.py:calibrate_input_ranges"]}
{"id": "C138", "title": "MOVING calibrations average over batches", "statement": "With MOVING_QUANTILE and MOVING_STD the resulting input range is the average of the earlier range, weighted with the number of its earlier updates, and of the positive per-batch estimates (quantile of the batch, largest magnitude for quantile 1; alpha times the standard deviation, at most max_samples updates in total); a fresh input range does not count. The update counter advances by the number of estimates. init_value and calibration_info are not recorded for these types.", "quantifier": "all data, numbers of batches, earlier ranges and update counts", "why_tests_cant": "running averages over any number of batches", "anchors": ["src/aihwkit/inference/calibration/calibration.py:_calibration_pre_forward"]}
{"id": "C139", "title": "What a calibration leaves behind", "statement": "After a successful calibration no hook is left, the training mode is as before, tiles outside of the model are untouched, the input range of every tile is enabled, learning stays as it was if the range was enabled before and is off otherwise, init_from_data is 0, noise management is off for good, and the forward pass is perfect exactly if it was before, for all tiles that saw data, the simulator tile always agreeing with the configuration. A tile that saw no data is left with a perfect forward pass by MAX and CACHE_QUANTILE.", "quantifier": "all models, calibration types and data", "why_tests_cant": "arbitrary sets of tiles and data", "anchors": ["src/aihwkit/inference/calibration/calibration.py:calibrate_input_ranges"]}
{"id": "C140", "title": "A batch of zeros aborts MAX and MOVING_QUANTILE", "statement": "CACHE_QUANTILE and MOVING_STD never fail on any data. With MAX and MOVING_QUANTILE the first batch in which all inputs of some tile are zero raises RuntimeError, and the model is left in evaluation mode, all tiles with an additional hook and, with MAX, with a perfect forward pass.", "quantifier": "all models, data before and after the zero batch", "why_tests_cant": "failure at an arbitrary point of an arbitrary data stream", "anchors": ["src/aihwkit/inference/calibration/calibration.py:_calibration_pre_forward", "src/aihwkit/inference/calibration/calibration.py:calibrate_input_ranges"]}
{"id": "C141", "title": "Calibration without force_all_layers", "statement": "Without force_all_layers a tile with enabled input range and noise management leads to ConfigError (as documented), leaving the model in evaluation mode. If some tile has no input range enabled, the calibration does not leave it alone as documented but enables its input range and ends with KeyError after all data has been processed.", "quantifier": "all models with any number of tiles, any data", "why_tests_cant": "arbitrary position of the offending tile", "anchors": ["src/aihwkit/inference/calibration/calibration.py:calibrate_input_ranges"]}
{"id": "C142", "title": "Deeper layers are calibrated with clipped inputs", "statement": "While the data is passed, a tile whose range was just enabled clips its input at init_value, so the ranges of deeper layers are those of the clipped network: after a MAX calibration the same data can exceed the range of a deeper layer.", "quantifier": "exists a model and data (refutes: after MAX calibration the calibration data is never clipped)", "why_tests_cant": "interaction of layers", "anchors": ["src/aihwkit/inference/calibration/calibration.py:calibrate_input_ranges", "src/aihwkit/simulator/tiles/periphery.py:init_input_processing"]}
{"id": "C143", "title": "Which modules are quantized by convert_to_quantized", "statement": "For every quantization map and model (children of a module being different objects), every module reached by the conversion ends up under its name as follows: excluded modules and quantizers unchanged; modules selected by name, or else by class, with positive weight or activation bits replaced by the configured class with these bits and the parameters of the original (analog linear and convolution layers through their digital counterpart), with 0 bits unchanged; others keep class, mode, parameters and the names of their children. Where input quantization is requested, the module is wrapped. Quantization of weights and activations is switched on exactly where the bits are positive. The conversion succeeds if all modules to be replaced can be replaced. Excluding the model itself is an error; if one module object occurs twice among the children of a module, only its first occurrence is replaced; replaced modules are in training mode even if the model was not.", "quantifier": "all module trees of any depth, all quantization maps", "why_tests_cant": "recursion over arbitrary module trees and maps", "anchors": ["src/aihwkit/nn/low_precision_conversion.py:convert_to_quantized", "src/aihwkit/nn/low_precision_conversion.py:quantize_model"]}
{"id": "C144", "title": "calibrate_quantization_ranges", "statement": "A calibration uses the first max_num_batches + 1 batches. If it succeeds, all quantizers are in evaluation mode, those that saw data (or had ranges before) have fixed ranges, and a new quantizer with allminmax has exactly the range of the data it saw in these batches and reproduces these data within half a step. If it fails, all quantizers are left estimating. Quantizers without data and ranges keep estimating also in inference; with allminmax a second calibration keeps the old extremes.", "quantifier": "all models with any number of quantizers, all data and failures", "why_tests_cant": "arbitrary data streams and orders of quantizer calls", "anchors": ["src/aihwkit/inference/calibration/calibration.py:calibrate_quantization_ranges", "src/aihwkit/simulator/digital_low_precision/quantization_manager.py:QuantizationManager"]}
{"id": "C145", "title": "Learnable quantization ranges", "statement": "As long as learn_ranges is not called, optimizer steps do not change the ranges and all other calls act as on a quantizer without learning. After learn_ranges on an initialized quantizer the parameters are those of the last optimizer step in both modes, forward passes leave them alone, and the output is the one of a quantizer with these parameters; on a quantizer without data learn_ranges has no effect. fix_ranges does not stop the learning: an optimizer still changes fixed ranges; after learn_ranges, estimating raises an error while gradients are recorded. reset_ranges brings back the initial state.", "quantifier": "all histories of forward passes, mode changes, range calls and optimizer steps", "why_tests_cant": "arbitrary histories", "anchors": ["src/aihwkit/simulator/digital_low_precision/quantization_manager.py:learn_ranges", "src/aihwkit/simulator/digital_low_precision/quantizers.py:make_range_trainable", "src/aihwkit/simulator/digital_low_precision/base_quantized_classes.py:_set_layer_fix_ranges"]}
{"id": "C146", "title": "State dictionaries of quantizers", "statement": "Loading the state dictionary of a quantizer (in any state that does not always estimate) into a new one with the same configuration gives the same outputs in evaluation mode; if the saved one was estimating during training, the loaded one is the same in every respect. That ranges were fixed is not saved: the loaded quantizer changes them in training mode. A dictionary cannot be loaded once ranges are being learned.", "quantifier": "all configurations, histories and inputs", "why_tests_cant": "arbitrary histories before saving", "anchors": ["src/aihwkit/simulator/digital_low_precision/quantizers.py:_load_from_state_dict", "src/aihwkit/simulator/digital_low_precision/range_estimators.py:_load_from_state_dict"]}
{"id": "C147", "title": "Accuracy of quantized layers", "statement": "A layer converted with 0 weight and activation bits computes exactly what the original one does, in any sequence of forward passes and mode changes. With at least 2 bits a first pass computes with weights within half a step of the original ones and returns the result of the original operation on them within half a step, and the same pass in evaluation mode gives the same. Switching on the quantization for the whole model also affects layers with 0 bits, which then return no numbers. A quantized convolution ignores the padding mode: it agrees with the original for zero padding or none.", "quantifier": "all layers, weights, inputs, configurations and histories", "why_tests_cant": "arbitrary real weights and inputs, histories of any length", "anchors": ["src/aihwkit/simulator/digital_low_precision/hijacker.py:QuantizationHijacker", "src/aihwkit/nn/low_precision_modules/quantized_base_modules.py:QuantConv2d", "src/aihwkit/simulator/digital_low_precision/base_quantized_classes.py:QuantizedModule"]}
{"id": "C148", "title": "Transfer schedule of the Python transfer tile", "statement": "As long as no batch is larger than transfer_every (rounded up to whole samples), every history of updates succeeds and makes one transfer each time the number of samples seen passes a multiple of transfer_every, reading the slices (columns or rows) in turn beginning with the second one. At most one transfer is made per update: if two are due the update raises. Settings that are not implemented are refused before anything changes. transfer_every=0 does not mean \"no transfer\" as for the other transfer devices: every update fails after the fast crossbar has been changed.", "quantifier": "all configurations, crossbar behaviours and histories of batches of any sizes", "why_tests_cant": "arbitrary sequences of batch sizes", "anchors": ["src/aihwkit/simulator/tiles/transfer.py:update", "src/aihwkit/simulator/tiles/transfer.py:TransferSimulatorTile", "src/aihwkit/simulator/configs/compounds.py:ChoppedTransferCompound"]}
{"id": "C149", "title": "No reading is lost on its way to the slow weights", "statement": "Without forget_buffer, whatever the crossbars do: everything the reads brought to a buffer entry equals what is still in the buffer plus (one minus momentum) times the steps sent to the slow crossbar; without momentum less than one step stays behind. With an exact slow crossbar the slow weights have received exactly the steps sent times step times granularity, and so follow the readings to within one step. The factor of each read is the documented one. Refuted: with forget_buffer and a momentum the kept content is not the documented product; if the slow crossbar can make only a limited number of steps at once, the rest is lost although it has left the buffer.", "quantifier": "all histories of updates and learning rate changes, all device behaviours (for the first part)", "why_tests_cant": "histories of any length, arbitrary real readings", "anchors": ["src/aihwkit/simulator/tiles/transfer.py:update", "src/aihwkit/simulator/configs/compounds.py:ChoppedTransferCompound"]}
{"id": "C150", "title": "Choppers and references do not change what is learned", "statement": "With column transfer on an exact fast crossbar, the update of the (sign corrected) fast weights is the gradient whatever the chopper signs are. With AGAD on exact crossbars, shifting the fast weights by any offset, together with the past means and references, changes nothing in the slow weights or buffers. Refuted: with row transfer the choppers multiply inputs while rows are read, so signs are mixed up (or an IndexError is raised if there are more rows than columns); update multiplies the caller's input tensor in place with the signs.", "quantifier": "all histories, offsets and chopper settings", "why_tests_cant": "arbitrary histories and real offsets", "anchors": ["src/aihwkit/simulator/tiles/transfer.py:update", "src/aihwkit/simulator/tiles/transfer.py:chopper", "src/aihwkit/simulator/configs/compounds.py:DynamicTransferCompound"]}
{"id": "C151", "title": "When the choppers switch", "statement": "With regular choppers the sign of each column (row) is that of the number of its switches, one per period of its reads; slices are read in turn; without in_chop_prob no sign ever changes. That all slices switch in the same cycle, after a period, is wrong: all but slice 0 switch already at their first read, slice 0 only at the read that completes its period.", "quantifier": "all histories", "why_tests_cant": "histories of any length", "anchors": ["src/aihwkit/simulator/tiles/transfer.py:chop_counter", "src/aihwkit/simulator/tiles/transfer.py:update"]}
{"id": "C152", "title": "Automatic scale of the fast learning rate", "statement": "The running means of the largest input and error follow the exponential mean started at zero. With auto_scale (and without correct_gradient_magnitudes) on exact crossbars, multiplying all inputs and all errors of a history by positive constants changes nothing in the fast weights, buffers or slow weights. Refuted: since the means start at zero the first update is larger than intended by the square of the batch size over (1 - momentum).", "quantifier": "all histories and positive scale factors", "why_tests_cant": "arbitrary histories and real factors", "anchors": ["src/aihwkit/simulator/tiles/transfer.py:update", "src/aihwkit/simulator/configs/compounds.py:auto_scale"]}
{"id": "C153", "title": "Hidden parameters and checkpoints of the transfer tile", "statement": "Setting the hidden parameters read from a tile gives another tile its weights, buffers, past means and references; they have the layout of the weights. A tile saved after a whole number of passes and loaded into a new one continues as if nothing had happened (without auto_scale and regular choppers). Otherwise the counters are lost: the first column read after loading is number 1 again.", "quantifier": "all states and later histories", "why_tests_cant": "continuation over histories of any length", "anchors": ["src/aihwkit/simulator/tiles/transfer.py:set_hidden_parameters", "src/aihwkit/simulator/tiles/transfer.py:get_hidden_parameters"]}
{"id": "C154", "title": "AGAD bookkeeping", "statement": "For every history and whatever the crossbars return: the past mean is the running mean of the values read with weight min(tail_weightening / period, 1), the reference is that mean at the last switch of the slice, every read is relative to the reference of that time and carries the sign of the number of switches before. Mean and reference stay within any bounds around zero on the values read; with tail_weightening of at least the period the reference is the last value read.", "quantifier": "all histories and device behaviours", "why_tests_cant": "histories of any length", "anchors": ["src/aihwkit/simulator/tiles/transfer.py:update", "src/aihwkit/simulator/configs/compounds.py:tail_weightening"]}
{"id": "C155", "title": "Bookkeeping of the dynamic transfer device", "statement": "For every history of vector updates and whatever is read from the fast crossbar: the running mean is that of the values read with weight min(tail_weightening / period, 1), started at zero; the reference is this mean at the last switch of the slice; each read is relative to the reference and carries the sign of the number of switches of that time. Means and references stay within any bounds around zero on the values read. A transfer has the documented factor, takes whole steps, at most desired_BL, from the buffer and keeps the documented rest.", "quantifier": "all configurations, device behaviours and histories", "why_tests_cant": "histories of any length, arbitrary real readings", "anchors": ["src/rpucuda/rpu_dynamic_transfer_device.cpp:readAndUpdate", "src/aihwkit/simulator/configs/compounds.py:DynamicTransferCompound"]}
{"id": "C156", "title": "When the choppers of the dynamic transfer device switch", "statement": "With regular choppers and in ordinary training the slices are read in turn, and each one switches exactly at every period-th of its reads; after whole passes all slices have the same sign. in_chop_random does not replace these switches: it adds random ones (with coins above the probability the device acts exactly as without in_chop_random). Setting the weights in the middle of a pass desynchronises the choppers.", "quantifier": "all histories", "why_tests_cant": "histories of any length", "anchors": ["src/rpucuda/rpu_dynamic_transfer_device.cpp:getNumInChopSamples", "src/rpucuda/rpu_dynamic_transfer_device.cpp:readAndUpdate", "src/rpucuda/rpu_transfer_device.cpp:resetCounters"]}
{"id": "C157", "title": "What the dynamic transfer device sends to the slow crossbar", "statement": "Without forget_buffer and capacity, what the reads brought equals what is in the buffer plus (one minus momentum) times the steps taken from it. Steps are sent exactly if there are any and more than one chopper period of passes has been made; afterwards everything is in the buffer or sent. With a capacity buffer entries never exceed it (or one step); with forget_buffer and no momentum they stay below one step. Refuted: that what leaves the buffer is what is transferred: before the end of the first period steps are subtracted but not sent; with buffer_cap what exceeds it is lost.", "quantifier": "all histories, device behaviours", "why_tests_cant": "histories of any length, arbitrary real readings", "anchors": ["src/rpucuda/rpu_dynamic_transfer_device.cpp:readAndUpdate", "src/aihwkit/simulator/configs/compounds.py:forget_buffer"]}
{"id": "C158", "title": "Dynamic transfer removes offsets of the fast crossbar", "statement": "If all reads, and the means and references a device starts with, are larger by a constant offset per entry, all decisions (steps, sends, switches) and buffers are the same. For new devices (means zero) every read has the same sign, the offset remains in it with the factor (1 - weight) to the number of reads before the last switch of the slice; with tail_weightening of at least the period it is gone after the first switch. With regular choppers and a constant factor, over a history of any length the offset adds at most offset times factor times period to what is brought to an entry.", "quantifier": "all offsets, histories and device behaviours", "why_tests_cant": "bound uniform in the length of the history", "anchors": ["src/rpucuda/rpu_dynamic_transfer_device.cpp:readAndUpdate", "src/aihwkit/simulator/configs/compounds.py:tail_weightening"]}
{"id": "C159", "title": "Checkpoints of dynamic transfer devices", "statement": "Hidden weights and extra state of a device, set on another one of the same configuration in any state, make it continue exactly as the saved one, whatever is read later; the hidden weights have the layout of the weights, and setting them from one flat array is the same.", "quantifier": "all states, configurations and later histories", "why_tests_cant": "continuation over histories of any length", "anchors": ["src/rpucuda/rpu_dynamic_transfer_device.cpp:setHiddenWeights", "src/rpucuda/rpu_dynamic_transfer_device.cpp:dumpExtra", "src/rpucuda/rpu_dynamic_transfer_device.cpp:loadExtra"]}
{"id": "C160", "title": "IR drop currents are those of the circuit", "statement": "In every time step, for all inputs and non-negative conductances, the voltage and resistance computed for an output are the Thevenin equivalent of its column: for every voltage at the converter Kirchhoff's and Ohm's laws have a solution, and in each one the current into the converter is the computed one. With the extension every row is a node of the circuit; without it consecutive rows of a segment share one and the wire between nodes is as long as a segment; with as many segments as rows both are the same. Without the extension an input size of one less than the number of physical rows is an error.", "quantifier": "all columns (any number of rows), inputs, conductances, wire resistances, times", "why_tests_cant": "a circuit with any number of nodes and real parameters", "anchors": ["src/aihwkit/simulator/tiles/analog_mvm_irdrop_t.py:_thev_equiv", "src/aihwkit/extension/extension_src/ops/thevenin_equiv_op.cpp:theveninEquivCPU"]}
{"id": "C161", "title": "Time-dependent IR drop attenuates every product by a factor", "statement": "In evaluation, with inputs on the grid of the time steps and the single pair converter, every output is the sum of weight times pulse length, each term multiplied by a factor in (0, 1] that depends on the weights but not on inputs or number of steps, plus an offset independent of the inputs. The factors grow towards the ADC: with the row index for even outputs, against it for odd ones; without wire resistance they are 1. The offset is negligible if the read voltage is 0.4 V; otherwise, with minimal conductance zero, it is the voltage difference times the attenuated absolute weights.", "quantifier": "all weights, inputs on the grid, numbers of rows, wire resistances, time steps", "why_tests_cant": "arbitrary real matrices of any size", "anchors": ["src/aihwkit/simulator/tiles/analog_mvm_irdrop_t.py:_matmul_irdrop", "src/aihwkit/simulator/tiles/analog_mvm_irdrop_t.py:_interleave_cols_nd", "src/aihwkit/simulator/tiles/analog_mvm_irdrop_t.py:_pad_symmetric"]}
{"id": "C162", "title": "Ideal limit of the IR drop simulation", "statement": "For every converter whose conductance pairs represent the weights, outputs are linear in the pulse lengths, and without wire resistance the coefficients are the weights; the single pair converter is one. A one-pass evaluation with input bound 1, summed integration and read voltage 0.4 V yields W x (attenuated by wire resistance) within a negligible bound. Refuted, each without wire resistance: that the default integration yields W x (each nonzero input counts half a step more); that a finer ir_drop_time_step_resolution_scale has no effect (with two input steps and factor 2 the output is tripled); that zero inputs yield zero with the default read voltage.", "quantifier": "all converters, weights, inputs on the grid", "why_tests_cant": "arbitrary real matrices of any size", "anchors": ["src/aihwkit/simulator/tiles/analog_mvm_irdrop_t.py:_compute_analog_mv", "src/aihwkit/simulator/parameters/io.py:ir_drop_time_step_resolution_scale", "src/aihwkit/simulator/parameters/io.py:ir_drop_integration_sum", "src/aihwkit/simulator/parameters/io.py:ir_drop_v_read"]}
{"id": "C163", "title": "Split and bit-wise evaluation equal one pass", "statement": "For input resolutions 1/(2^n - 2) and inputs on their grid: in training or with IR drop switched off, one pass, split mode (any shift below n) and bit-wise mode all yield exactly W x; with IR drop and summed integration they yield the same attenuated products up to offsets independent of the inputs. The split itself is exact for all inputs. Other resolutions, or shifts of n and more, are refused in split mode; refuted: that bit-wise mode is right for all resolutions (with 8 steps an input of 1 and weight 1 yield 0).", "quantifier": "all n, shifts, weights, inputs", "why_tests_cant": "any number of bits, matrices of any size", "anchors": ["src/aihwkit/simulator/tiles/analog_mvm_irdrop_t.py:_prepare_inputs", "src/aihwkit/simulator/tiles/analog_mvm_irdrop_t.py:_compute_analog_mv", "src/aihwkit/simulator/parameters/io.py:split_mode_bit_shift"]}
{"id": "C164", "title": "When the IR drop simulation fails", "statement": "With IR drop, an odd number of outputs always raises RuntimeError; a number of segments that does not divide the physical rows always raises AssertionError; an input resolution of zero or less (no input quantization) raises AssertionError, even in training or with IR drop switched off. Input dependent read noise fails exactly on batches of zeros.", "quantifier": "all weights and inputs", "why_tests_cant": "all shapes and inputs", "anchors": ["src/aihwkit/simulator/tiles/analog_mvm_irdrop_t.py:_interleave_cols_nd", "src/aihwkit/simulator/tiles/analog_mvm_irdrop_t.py:_get_res", "src/aihwkit/simulator/tiles/analog_mvm_irdrop_t.py:_apply_xdep_pcm_read_noise"]}
{"id": "C165", "title": "Quantization of the integrated current", "statement": "With adc_quantization each integrated current becomes a whole number of ticks (100 / frequency), of the same sign, not larger and less than one tick away; the map is odd, monotone and idempotent, and it is the only effect on the currents.", "quantifier": "all currents and frequencies", "why_tests_cant": "real values", "anchors": ["src/aihwkit/simulator/tiles/analog_mvm_irdrop_t.py:_apply_adc_quantization", "src/aihwkit/simulator/parameters/io.py:adc_frequency"]}
{"id": "C166", "title": "The precision cast goes to the nearest number of the format", "statement": "With saturation and fewer than 8 bits of exponent, every finite number is sent to the nearest number with the given bits of exponent and mantissa (ties away from zero), to infinity of its sign from half a step above the largest number on, and to zero below half a (finer) step under the smallest one. With 8 bits of exponent (the default) also subnormal numbers go to the nearest one.", "quantifier": "all 32 bit patterns of finite numbers, 2 to 8 bits of exponent, 3 to 22 bits of mantissa", "why_tests_cant": "2^32 inputs for each of 140 formats, compared with all numbers of the format", "anchors": ["src/aihwkit/extension/extension_src/ops/float_prec_common.h:FLOATPREC_BODY", "src/aihwkit/extension/extension_src/ops/float_prec_op.cpp:precisionCastFloatExp8CPU", "src/aihwkit/extension/functions.py:FloatPrecisionCast"]}
{"id": "C167", "title": "Shape of the precision cast", "statement": "The cast of -x is minus the cast of x, casting twice is casting once (both with and without saturation), and with saturation larger numbers have larger casts (infinities included).", "quantifier": "all pairs of bit patterns, all formats", "why_tests_cant": "2^64 pairs of inputs for each format", "anchors": ["src/aihwkit/extension/extension_src/ops/float_prec_common.h:FLOATPREC_BODY", "src/aihwkit/extension/extension_src/ops/float_prec_op.cpp:precisionCastFloatCPU"]}
{"id": "C168", "title": "Special values and overflow of the precision cast", "statement": "With saturation NaN and infinities become infinity of the same sign. Without it, below the overflow the cast is the same for fewer than 8 bits of exponent; from the overflow on every number, NaN and infinity become finite numbers above the largest number of the format, none of it in the format. Refuted: that without saturation numbers are clipped, as documented (with 5 and 10 bits 98304 is kept and 131072 becomes 65536; the largest number is 65504); that numbers next to the smallest one go to the nearest one; that with 8 bits of exponent both settings agree below the overflow (subnormal numbers are kept only with saturation).", "quantifier": "all bit patterns, all formats", "why_tests_cant": "2^32 inputs for each format", "anchors": ["src/aihwkit/extension/extension_src/ops/float_prec_common.h:FLOATPREC_BODY", "src/aihwkit/extension/extension_src/ops/float_prec_op.cpp:floatPrecisionCastCPU", "src/aihwkit/extension/functions.py:saturate_to_inf"]}
{"id": "C169", "title": "Interface of the precision cast", "statement": "The cast is entry by entry and defined exactly for 2 to 8 bits of exponent and 3 to 22 bits of mantissa; everything else raises. Refuted: that the backward pass hands the gradient through; it raises RuntimeError since one gradient is returned for four inputs.", "quantifier": "all settings and inputs", "why_tests_cant": "all settings and tensors of any size", "anchors": ["src/aihwkit/extension/extension_src/ops/float_prec_op.cpp:floatPrecisionCast", "src/aihwkit/extension/functions.py:backward"]}
{"id": "C170", "title": "Analog matrices: products and rank updates", "statement": "On an ideal crossbar, after any history of rank updates ger(x, d, alpha), products from the left and from the right are those of the initial matrix plus the sum of alpha d x^T, whatever weight scaling is configured; ger accepts exactly vectors of matching sizes and numbers.", "quantifier": "all matrices that fit on one tile, mapping configurations, histories", "why_tests_cant": "histories of any length, real matrices of any size", "anchors": ["src/aihwkit/linalg/matrix.py:ger", "src/aihwkit/linalg/matrix.py:__matmul__", "src/aihwkit/linalg/matrix.py:__rmatmul__"]}
{"id": "C171", "title": "Analog matrices: matrix products and large matrices", "statement": "matmat of a matrix X computes X M^T (not M X), and raises RuntimeError unless X is square. Matrices that exceed the largest tile size are split: products of tensors are exact, but products of numpy arrays, products from the left and rank updates raise AttributeError.", "quantifier": "all matrices, tile sizes and operands", "why_tests_cant": "all sizes", "anchors": ["src/aihwkit/linalg/matrix.py:_matmat", "src/aihwkit/linalg/matrix.py:__init__", "src/aihwkit/simulator/parameters/mapping.py:get_default_tile_module_class", "src/aihwkit/simulator/tiles/array.py:TileModuleArray"]}
{"id": "C172", "title": "Reading weights by least squares returns the weights", "statement": "read_weights with inputs that span the space (within the input range, if there is one) and any least squares solver returns exactly the logical weights and bias with apply_weight_scaling, and the values stored on the tile without it. With an analog bias and an input range the bias read is the stored one times the range. With an analog bias own inputs must be in_size * over_sampling many, else RuntimeError. Inputs beyond the range give wrong weights.", "quantifier": "all reachable tiles, input sets, solvers", "why_tests_cant": "arbitrary histories, real weights, any solver that minimizes the residual", "anchors": ["src/aihwkit/simulator/tiles/periphery.py:read_weights"]}
{"id": "C173", "title": "Totals of the analog summary", "statement": "The totals of analog_summary are the sums over the places of the layers in the model, each as often as it is called: if every layer is called k times they are k times the number of tiles and of analog layers. Refuted: that shared or unused layers are counted once. Later forward passes append to the list of an earlier summary while its totals stay.", "quantifier": "all module trees and forward passes", "why_tests_cant": "trees of any depth, traces of any length", "anchors": ["src/aihwkit/utils/analog_info.py:register_hooks_recursively", "src/aihwkit/utils/analog_info.py:calculate_num_tiles", "src/aihwkit/utils/analog_info.py:calculate_num_analog", "src/aihwkit/utils/analog_info.py:create_layer_summary"]}
{"id": "C174", "title": "Entries of the analog summary", "statement": "The reuse factor is the number of matrix-vector products (of linear layers, and of convolutions of batches); the utilization of a tile of a mapped layer is between 0 and 100 percent, 100 exactly if it fills the physical tile. Other layers always report 100. A largest size of 0 (unlimited) raises ZeroDivisionError for mapped layers, and a leaf module whose output is no tensor AttributeError. The dictionary of the tiles of a layer keeps the last tile only.", "quantifier": "all layers, sizes and inputs", "why_tests_cant": "all sizes", "anchors": ["src/aihwkit/utils/analog_info.py:calculate_reuse_factor", "src/aihwkit/utils/analog_info.py:utilization", "src/aihwkit/utils/analog_info.py:get_size_hook", "src/aihwkit/utils/analog_info.py:tiles_summary_dict"]}
{"id": "C175", "title": "The custom tile trains by plain SGD", "statement": "Without gradient noise, after any history of setting weights and learning rates and updates, weights, forward and backward of the custom tile are those of plain stochastic gradient descent. A reference to its weights is live until the next update and stale afterwards. Refuted: that uniform random weights lie in the given interval (true only for the interval from 0 to 1; the default start of program_weights lies between 0.01 and 50.01).", "quantifier": "all histories", "why_tests_cant": "histories of any length, real matrices of any size", "anchors": ["src/aihwkit/simulator/tiles/custom.py:update", "src/aihwkit/simulator/tiles/custom.py:set_weights_uniform_random", "src/aihwkit/simulator/tiles/custom.py:get_weights", "src/aihwkit/simulator/tiles/periphery.py:w_init"]}
{"id": "C176", "title": "Every candidate of the weight programming optimizer is a valid strategy that represents weights exactly", "statement": "Every point of the search hypercube denormalizes to a programming strategy of the requested kind: given factors are kept and free ones lie between f_min and f_max, all conductances lie between g_min and g_max, the custom converter accepts it, and converting any weights to conductances and back returns them unchanged.", "quantifier": "all optimizers (factors, bins, conductance ranges, symmetric or not), all points of the hypercube, all weights", "why_tests_cant": "a continuum of points of any dimension", "anchors": ["src/aihwkit/inference/converter/wpo.py:denormalize", "src/aihwkit/inference/converter/wpo.py:partition_parameters", "src/aihwkit/inference/converter/wpo.py:reformat_x_g", "src/aihwkit/inference/converter/wpo.py:generate_hop_bounds"]}
{"id": "C177", "title": "Symmetric programming strategies", "statement": "With symmetric the conductances that represent -w are those that represent w with plus and minus exchanged, at every grid weight other than 0. At 0 this is refuted for two pairs: they may cancel each other at full conductance.", "quantifier": "all optimizers and points of the hypercube", "why_tests_cant": "a continuum of points of any dimension", "anchors": ["src/aihwkit/inference/converter/wpo.py:denormalize"]}
{"id": "C178", "title": "Losses and life of the weight programming optimizer", "statement": "The loss is non-negative, zero exactly if the effective weights are exact at all times, at most 100 e^2 for relative errors up to e, and independent of the unit of the weights. The objective is negative exactly when the loss beats the baseline by the margin, and the reported best loss is the loss. After a run the configuration has the mapping of the user, the found converter and fixed factors. Refuted: that the baseline is the loss of g_converter_baseline (the converter of the given configuration is measured instead), that an unsuccessful search reports no success (any non-zero objective is truthy), and that a second run repeats the first.", "quantifier": "all weights, times, baselines, margins, search results", "why_tests_cant": "real losses, any search", "anchors": ["src/aihwkit/inference/converter/wpo.py:loss_weights", "src/aihwkit/inference/converter/wpo.py:get_loss_baseline", "src/aihwkit/inference/converter/wpo.py:differential_weight_evolution", "src/aihwkit/inference/converter/wpo.py:run_optimizer"]}
{"id": "C179", "title": "Sampling the weights preserves their range", "statement": "The sample of a set of weights ascends from its smallest to its largest weight, stays between them, has the same largest absolute weight, and is the set itself if the sizes agree, for samples of two or more weights (refuted for one).", "quantifier": "all weights and sample sizes", "why_tests_cant": "real weights, any sizes", "anchors": ["src/aihwkit/inference/converter/wpo.py:downsample_weight_distribution"]}
{"id": "C180", "title": "Experiments survive the conversion to the exchange format of the cloud", "statement": "A training experiment whose model is a sequence of distinct supported layers converts to the exchange format and back to the same experiment: the same layers with the same parameters in the same order, data set, batch size, loss and epochs; learning rate and slopes are rounded to single precision.", "quantifier": "all experiments with any number of layers of the fifteen supported kinds, any parameters of 64 bits", "why_tests_cant": "models of any length, all parameters, any rounding", "anchors": ["src/aihwkit/cloud/converter/v1/mappings.py:Mappings", "src/aihwkit/cloud/converter/v1/mappings.py:InverseMappings", "src/aihwkit/cloud/converter/v1/training.py:BasicTrainingConverter"]}
{"id": "C181", "title": "What the exchange format of the cloud loses", "statement": "Refuted: that every converted experiment comes back unchanged. An analog layer without bias comes back with bias, a preset configuration with a changed weight scaling or any other change comes back as the plain preset, a grouped convolution without groups, and a module used twice is applied once. None of this raises.", "quantifier": "all sizes, presets and changes of the configuration", "why_tests_cant": "all parameters", "anchors": ["src/aihwkit/cloud/converter/v1/mappings.py:LayerFunction", "src/aihwkit/cloud/converter/v1/training.py:_model_to_proto"]}
{"id": "C182", "title": "What the conversion for the cloud refuses", "statement": "Unknown data sets, models that are not sequential and unknown layers raise ConversionError; whatever converts has a known data set, loss and layers. Analog layers whose configuration is no preset raise ConversionError, softmax without dimension and pooling with pairs TypeError.", "quantifier": "all experiments", "why_tests_cant": "models of any length", "anchors": ["src/aihwkit/cloud/converter/v1/training.py:_model_to_proto", "src/aihwkit/cloud/converter/v1/training.py:_dataset_to_proto", "src/aihwkit/cloud/converter/v1/mappings.py:LayerFunction"]}
{"id": "C183", "title": "Inference experiments of the cloud", "statement": "Noise models of the kinds pcm and generic survive the exchange format (rounded); other kinds come back as generic and no configuration can be made for them. The configuration made of an experiment has input and output resolutions 1/(2^bits-2) for two and more bits (one bit raises ZeroDivisionError), the polynomial in ascending order, and scales, noise and compensation as given. A configuration is made only if all analog layers name the same known configuration class.", "quantifier": "all noise models, analog informations and layers", "why_tests_cant": "all bits, real parameters, any number of layers", "anchors": ["src/aihwkit/cloud/converter/v1/inferencing.py:BasicInferencingConverter", "src/aihwkit/cloud/converter/v1/rpu_config_info.py:RPUconfigInfo", "src/aihwkit/cloud/converter/v1/noise_model_info.py:NoiseModelInfo"]}
{"id": "C184", "title": "Response of the p_max device", "statement": "For a SoftBoundsPmaxDevice without device-to-device and cycle-to-cycle variation, n pulses up or down from any state give the exponential saturation towards the upper or lower asymptote that the parameters imply (rate and span from p_max, alpha and the range). Refuted: the documented response, in which p_max pulses up go exactly from range_min to range_max: there the documented curve is exceeded, and down it is not reached. Ranges that do not contain 0 are refused.", "quantifier": "all parameters, states, numbers of pulses", "why_tests_cant": "real parameters, any number of pulses", "anchors": ["src/aihwkit/simulator/configs/devices.py:SoftBoundsPmaxDevice", "src/aihwkit/simulator/configs/devices.py:p_max", "src/rpucuda/rpu_linearstep_device.cpp:populate"]}
{"id": "C185", "title": "Parameters reach the simulator core unchanged", "statement": "Whatever is handed to the core is exactly the parameters given in Python: every field that is not ignored, at every depth, under its name with the same value; values are of the declared types and no attribute is misspelled. Everything of this kind that the core supports is converted. The tile configuration hands over forward, backward, update and all fields marked for it. Refuted: that a misspelled attribute is always detected (not in parameters the core has no class for, for which the intended error is not raised, not in those it does not read, not on the configuration).", "quantifier": "all parameter classes, values, nesting, and all cores", "why_tests_cant": "nesting of any depth", "anchors": ["src/aihwkit/simulator/parameters/helpers.py:parameters_to_bindings", "src/aihwkit/simulator/parameters/helpers.py:tile_parameters_to_bindings", "src/aihwkit/simulator/parameters/helpers.py:get_bindings_class"]}
{"id": "C186", "title": "What a device configuration is built of", "statement": "A unit cell is built of exactly the devices it uses, in order, each as converted on its own, and exactly the well-formed configurations are accepted (pulsed devices in cells, one-sided cells of single devices of the same class). Converting again gives the same and changes nothing more. Decay is reported for every configuration in which a device that is used decays. Refuted: that superfluous devices are refused (the reference cell drops them from the configuration of the user, the transfer compound builds copies of the second), that missing devices are a ConfigError, and that decay is reported only if a device that is used decays.", "quantifier": "all device configurations", "why_tests_cant": "nesting of any depth, any number of devices", "anchors": ["src/aihwkit/simulator/configs/compounds.py:as_bindings", "src/aihwkit/simulator/configs/compounds.py:requires_decay", "src/rpucuda/rpu_onesided_device.cpp:appendVecPar", "src/rpucuda/rpu_vector_device.cpp:appendVecPar"]}
{"id": "C187", "title": "Configurations built by the name of an algorithm", "statement": "A documented name in any case gives the documented configuration and compound, any other name an ArgumentError. All parts are new objects, no two the same, and the objects of the user are unchanged; they have the attributes the user gave, except for the construction seed of single devices and the settings of the algorithm. The number of devices matters only for sgd. Refuted: that the seed of the device is kept (with one device it is overwritten, in compounds it is kept), that the pulse train length given is used for the update, and that any device can be given (other than pulsed devices: TypeError).", "quantifier": "all names, devices, parameters, numbers of devices, seeds, further arguments", "why_tests_cant": "all strings, any number of devices", "anchors": ["src/aihwkit/simulator/configs/helpers.py:build_config"]}
{"id": "C188", "title": "Forward and backward pass of the floating point tile in memory", "statement": "For a tensor with any number of dimensions whose last (or with the transposed flags first) dimension has the size of the tile, forward returns a tensor of the same shape with that dimension replaced, completely filled, and each sample of it is the weight matrix times the sample of the input (with an additional input of 1 for a bias); backward multiplies by the transposed weights and leaves the bias out. Other sizes are refused with a RuntimeError. Refuted: that the input and the output can be transposed independently as documented: with one flag only, the returned tensor has a wrong shape and, with more samples than features, numbers are written past its end.", "quantifier": "all tile sizes, weights, shapes, values, flags", "why_tests_cant": "any sizes and numbers of dimensions", "anchors": ["src/rpucuda/rpu.cpp:forwardMatrix", "src/rpucuda/rpu.cpp:backwardMatrix", "src/rpucuda/math_util.cpp:makeBias", "src/rpucuda/math_util.cpp:copyWithoutBias", "src/aihwkit/simulator/rpu_base_src/rpu_base_tiles.cpp:x_trans"]}
{"id": "C189", "title": "Rank update of the floating point tile and the gradient of hardware-aware training", "statement": "update subtracts the learning rate times the sum of the outer products of all samples from the weights and changes nothing else, for all combinations of transposed flags, with and without bias, for one sample and for batches; tensors that do not fit are refused. The gradient of hardware-aware training is the sum of the outer products, independent of the (non-zero) learning rate and of the contents of the new tensor, and the weights stay. With a learning rate of 0 nothing is done or checked. Refuted: that this gradient does not depend on the learning rate: with 0 it is uninitialised memory, and an optimizer made with learning rate 0 leaves it so for all steps and changes by a scheduler until set_learning_rate is called; and that the keywords x_trans and d_trans mean what is documented: they are exchanged.", "quantifier": "all tile sizes, weights, shapes, values, flags, learning rates, histories of optimizer events", "why_tests_cant": "any sizes, any number of events", "anchors": ["src/rpucuda/rpu.cpp:updateMatrix", "src/rpucuda/rpu.cpp:updateVector", "src/rpucuda/rpu.cpp:getUpWeights", "src/aihwkit/simulator/rpu_base_src/rpu_base_tiles.cpp:m_batch_from_d", "src/aihwkit/simulator/tiles/functions.py:shared_weights_grad", "src/aihwkit/optim/analog_optimizer.py:regroup_param_groups"]}
{"id": "C190", "title": "Weight decay of the floating point tile", "statement": "Any number n of decays multiplies every weight by (1 - alpha/lifetime)^n, for lifetimes above 1 and alphas between 0 and the lifetime; with the bias excluded its column stays. Refuted: the documented formula for lifetimes in (0, 1] (although the configuration then says that decay is required), for alphas of at least the lifetime, and for negative alphas: nothing happens.", "quantifier": "all lifetimes, alphas, sizes, weights, numbers of decays", "why_tests_cant": "any number of decays", "anchors": ["src/rpucuda/rpu.cpp:decayWeights", "src/aihwkit/simulator/rpu_base_src/rpu_base_tiles.cpp:decay_weights"]}
{"id": "C191", "title": "Conversion of legacy checkpoints", "statement": "A checkpoint with the documented names is converted for a model: each tile (with its index, or row and column in an array) goes to its place in the new structure, with its mapping scales (the old scales times the very old alpha scale), its drift scale and a state without the attributes that are gone and with the bias flag renamed; the context, the output scale and the digital bias of analog layers follow the tile; shared weights disappear; everything else stays. The new checkpoint has exactly these entries. Configurations get the new attribute names and defaults, tile sizes of 0 if the model has no mapped layers, and all else unchanged; once is as good as twice; configurations of other kinds stay.", "quantifier": "all checkpoints with regular names, all layer paths, indices, states, models", "why_tests_cant": "strings of any length, any number of entries", "anchors": ["src/aihwkit/utils/legacy.py:convert_legacy_checkpoint", "src/aihwkit/utils/legacy.py:get_key_from_ending", "src/aihwkit/utils/legacy.py:check_conv_mapped"]}
{"id": "C192", "title": "Checkpoints that are not converted as documented", "statement": "Refuted: that the model is optional (AttributeError without); that checkpoints of the new format are left alone (tiles move to a name no module has and lose their bias flag); that checkpoints without analog tiles can be converted (UnboundLocalError); that the names of layers do not matter (analog_model in front of a tile: nothing is converted; bias in the path: the digital bias keeps its old name); that a single index other than 0 is kept as a number (the name gets brackets); that weight templates can be given by an address (UnboundLocalError).", "quantifier": "all checkpoints, paths, indices, states, addresses", "why_tests_cant": "strings of any length", "anchors": ["src/aihwkit/utils/legacy.py:convert_legacy_checkpoint", "src/aihwkit/experiments/experiments/inferencing.py:template_path"]}
{"id": "C193", "title": "Results of a training experiment", "statement": "A training experiment in the local runner returns exactly one result per epoch, numbered from 0, in order: the fraction of validation samples whose predicted class is the label, and the training and validation loss as means over the samples (batch losses weighted with the batch sizes), of this epoch only, whatever hooks and metrics were there before and whether results are printed or not; the network is the one trained on the batches in order. Refuted: that empty loaders are possible: a ZeroDivisionError after the first epoch.", "quantifier": "all networks, losses, optimizers, loaders, numbers of epochs, earlier hooks and metrics", "why_tests_cant": "any number of epochs, batches and samples", "anchors": ["src/aihwkit/experiments/experiments/training.py:train", "src/aihwkit/experiments/experiments/training.py:training_step", "src/aihwkit/experiments/experiments/training.py:validation_step", "src/aihwkit/experiments/runners/metrics.py:receive_epoch_end", "src/aihwkit/experiments/runners/local.py:run"]}
{"id": "C194", "title": "Data of a training experiment", "statement": "Every epoch goes over all elements of the training and of the validation set (or the first ones, if a number is given), each exactly once, in batches of at most the batch size. For a network whose evaluation does not change it and a loss that is a mean over samples, the reported accuracy and validation loss are those over the validation samples: they depend neither on the batch size nor on the order. Refuted: that the number given is a maximum: if one of the sets has fewer elements, the run ends with an IndexError (for a short validation set after training for an epoch).", "quantifier": "all data sets, batch sizes, random orders, limits, networks", "why_tests_cant": "any sizes", "anchors": ["src/aihwkit/experiments/experiments/training.py:get_data_loaders", "src/aihwkit/experiments/experiments/training.py:max_elements_train"]}
{"id": "C195", "title": "Hooks of experiments", "statement": "Without hooks an experiment trains the network in the same way and reports only the epoch numbers. The hooks of a runner stay: running the experiment again directly reports the new epochs, counted afresh, starting from the trained network. What several hooks of one signal return is merged, and for a key that several return the last one counts.", "quantifier": "all hooks, networks, loaders, numbers of epochs", "why_tests_cant": "any number of hooks and epochs", "anchors": ["src/aihwkit/experiments/experiments/base.py:_call_hook", "src/aihwkit/experiments/experiments/base.py:add_hook", "src/aihwkit/experiments/experiments/base.py:clear_hooks", "src/aihwkit/experiments/runners/metrics.py:receive_epoch_start"]}
{"id": "C196", "title": "Results of an inference experiment", "statement": "An inference experiment in the local runner programs the network once per repeat and evaluates it at every time in order; for every time it returns the mean and standard deviation over the repeats of the accuracy in percent, the mean error (100 minus the accuracy) and the mean loss over the samples. It uses exactly the first elements of the validation set in order. Refuted: that the flag for partial results tells whether repeats are missing if the number of repeats is given as argument; that results are returned without a metric (nothing is); that an empty loader is possible (ZeroDivisionError); that the number of elements is a maximum (IndexError).", "quantifier": "all networks, loaders, numbers of repeats, times, earlier hooks", "why_tests_cant": "any number of repeats, times and samples", "anchors": ["src/aihwkit/experiments/experiments/inferencing.py:inference", "src/aihwkit/experiments/experiments/inferencing.py:inferencing_step", "src/aihwkit/experiments/experiments/inferencing.py:get_data_loader", "src/aihwkit/experiments/runners/i_metrics.py:receive_repeat_end", "src/aihwkit/experiments/runners/i_local.py:run"]}
{"id": "C197", "title": "Times and weights of an inference experiment", "statement": "For an inference time above one second and at least three times, the times are 0, 1, and logarithmically spaced up to exactly the inference time, strictly increasing. A template file that exists is loaded and, if asked for, the weights are remapped after. Refuted: that the inference time is always reached (with two times it is not used), that the times increase (below one second), that weights are remapped if asked for (not without a template), that a missing template file is an error (the network is used as it is).", "quantifier": "all inference times, numbers of times, templates, networks", "why_tests_cant": "any number of times", "anchors": ["src/aihwkit/experiments/experiments/inferencing.py:t_inference_list", "src/aihwkit/experiments/experiments/inferencing.py:get_model", "src/aihwkit/experiments/experiments/inferencing.py:remap_weights"]}
{"id": "C198", "title": "model_response simulates the measurement", "statement": "model_response applies the given parameters to the device, builds a tile of n_traces rows and one column per device, and for every measurement sets all traces to the first measured response, applies one update per pulse and reports the mean over the traces before the first and after every pulse, up to the length of the measured response; the deviation returned is the difference to the measured response, device by device and point by point, times the weight of the device, for all measurements in order and on the same tile. Refuted: the documented integer weights are an IndexError, responses given as lists (documented) an AttributeError, a measurement with more responses than pulses a ValueError; measurements without counterpart are dropped silently and the last pulse is never applied.", "quantifier": "all tiles (by their operations), configurations, parameters, numbers of traces, devices, measurements and pulses, with and without weights", "why_tests_cant": "tests fit one device with one measured curve and compare approximately", "anchors": ["src/aihwkit/utils/fitting.py:model_response"]}
{"id": "C199", "title": "fit_measurements returns the configuration fitted", "statement": "fit_measurements returns a configuration of the kind given (device or RPU configuration) with the same fields: the fitted parameters have the fitted values, with suppress_device_noise all other fields ending in dtod or std are 0, every other field is as given, and the responses returned are what model_response gives for the configuration returned, whatever the optimizer tried before. A parameter the device does not have is a ConfigError. Refuted: the noise of devices nested in the device is not suppressed, and max_pulses has no effect when an RPU configuration is given.", "quantifier": "all devices, parameters, measurements, and all evaluation histories and results of the optimizer", "why_tests_cant": "tests run one optimizer on one device", "anchors": ["src/aihwkit/utils/fitting.py:fit_measurements", "src/aihwkit/utils/fitting.py:_apply_parameters_to_config"]}
{"id": "C200", "title": "Training the torch inference tile is training a linear layer", "statement": "Without learned output scales and with a perfect MVM, any history of SGD steps, weight assignments (with any positive weight_scaling_omega, columnwise or not), remappings and data type conversions of a TorchInferenceTile puts out, step by step, exactly what a torch.nn.Linear layer trained with the same batches, losses and learning rates puts out, and its weights times mapping scales are the weights of that layer: the gradient hook compensates the scales whatever they are. With a weight modifier the noise only enters the outputs. Refuted: a deep copy loses the hook and a loaded checkpoint keeps the hook of the scales before loading, so the step is off by the square of the (ratio of the) scales; so are weights set while frozen; scales given as a number make the backward pass fail; learned output scales multiply the step by their square.", "quantifier": "all matrices, biases, batches, losses (any function of the outputs), learning rates and histories of events", "why_tests_cant": "tests compare short trainings on fixed layers approximately and never train a copied or loaded model with other scales", "anchors": ["src/aihwkit/simulator/tiles/inference_torch.py:set_scales", "src/aihwkit/simulator/tiles/inference_torch.py:register_weight_hook", "src/aihwkit/simulator/tiles/torch_tile.py:remap_weights", "src/aihwkit/simulator/tiles/periphery.py:apply_weight_scaling"]}
{"id": "C201", "title": "The gradient of the input range", "statement": "With a noise free linear MVM the gradient of a learned input range is the documented one for the torch tile and for the CPU tile, although the former uses autograd through the division and multiplication by the range and the latter computes it by hand: minus the sum over the inputs beyond the range of the part of their gradient that asks for a larger value, relative to the range when configured, plus the decay when enough inputs are inside. Hence without decay an SGD step never shrinks the range, and inputs inside the range do not move it. The outputs are those of the clipped inputs. Refuted: the gradient of the inputs themselves differs (masked beyond the range in the torch tile, not masked in the CPU tile); output noise leaks into the gradient of the range of the torch tile; manage_output_clipping is accepted by the torch tile and fails in the first backward pass.", "quantifier": "all weights, scales, ranges, inputs, output gradients, batch sizes and range parameters", "why_tests_cant": "tests check few ranges and never compare the two implementations", "anchors": ["src/aihwkit/simulator/tiles/inference_torch.py:InputRangeForward", "src/aihwkit/simulator/tiles/periphery.py:post_backward"]}
{"id": "C202", "title": "Ranges of the quantized periphery", "statement": "The scales (and the bias) of a tile with quantized periphery are put on a grid that follows one rule: in training the grid is the one of the current values; with learn_quant_params this is so for the first init_learning_after batches, after which the grid is changed by the optimizer only; evaluation never changes a grid, and without one uses (and keeps) the grid of the values of this evaluation. Saving and loading a checkpoint at any time does not change the results of the following calls.", "quantifier": "all configurations and all sequences of training and evaluation batches, optimizer steps and values", "why_tests_cant": "depends on the whole history of calls", "anchors": ["src/aihwkit/simulator/tiles/periphery.py:apply_quant_periphery_scales", "src/aihwkit/simulator/tiles/periphery.py:add_quant_periphery_bias", "src/aihwkit/simulator/tiles/periphery.py:init_periph_quant_processing"]}
{"id": "C203", "title": "Accuracy of quantized scales", "statement": "A value within the range of its grid is changed by at most half a step; without bits nothing is changed. Not: positive scales stay positive; a scale below half a step becomes 0 and the output channel with it (refuted).", "quantifier": "all numbers of bits, scales and grids", "why_tests_cant": "real valued scales", "anchors": ["src/aihwkit/simulator/tiles/periphery.py:apply_quant_periphery_scales", "src/aihwkit/simulator/tiles/quantized_inference_torch.py:forward"]}
{"id": "C204", "title": "Forward of a tile with quantized periphery", "statement": "The output is the output of the array times the quantized product of input range, mapping scales and learned output scales, plus the quantized bias, with quantized activations; the grids of the scales and of the bias follow the rule of C202 independently of each other.", "quantifier": "all sequences of forwards in training and evaluation, with any scales and biases in between", "why_tests_cant": "histories of any length", "anchors": ["src/aihwkit/simulator/tiles/quantized_inference_torch.py:QuantizedTorchInferenceTile", "src/aihwkit/simulator/tiles/periphery.py:post_forward"]}
{"id": "C205", "title": "Bias of a quantized module array", "statement": "If the first forward is in training, the grid of the bias of a module array follows the same rule as the one of a tile. Not always: after a first evaluation the grid stays the one of this evaluation in all later training (with learn_quant_params up to batch init_learning_after) (refuted).", "quantifier": "all sequences of training and evaluation batches, optimizer steps and biases", "why_tests_cant": "histories of any length", "anchors": ["src/aihwkit/simulator/tiles/array.py:QuantizedTileModuleArray"]}
{"id": "C206", "title": "Parameters of quantization configurations fit the estimator", "statement": "After any sequence of assignments, successful or not, the parameters of a quantization configuration are of the class for its range estimator; setting the estimator resets them. Not: that what is returned can be assigned (None for allminmax is a TypeError), nor that the class is exactly the one documented (parameters for the cross entropy are accepted for MSE) (refuted).", "quantifier": "all configurations and sequences of assignments", "why_tests_cant": "histories of any length", "anchors": ["src/aihwkit/simulator/parameters/quantization.py:BaseQuantConfig", "src/aihwkit/simulator/parameters/quantization.py:ActivationQuantConfig"]}
{"id": "C207", "title": "The GPU update applies exactly the pulses of the batch", "statement": "Without cycle-to-cycle noise the weight after a pulsed update on the GPU is the one reached by applying, one after the other in the order of the samples and of the slots, one step for each coincidence of the two pulse trains (up if the signs differ, kept in the bounds), for devices with constant steps; one-sided devices take the pulses of their direction only. It does not depend on the kernel (with shared memory or not, with the bound check or not, grouped or not), on the word format (32 bit with sign bit, 64 bit in batch order), on the layouts and on the order of the memory operations.", "quantifier": "all kernels, sizes, batch sizes, train lengths (also per sample), trains, signs, weights and orders of the threads", "why_tests_cant": "unbounded sizes and schedules", "anchors": ["src/rpucuda/cuda/pwu_kernel.h:getNfromCount", "src/rpucuda/cuda/pwu_kernel.h:kernelUpdateWBatchSharedSumBoundCheck", "src/rpucuda/cuda/pwu_kernel.h:UpdateFunctorConstantStep", "src/rpucuda/cuda/bit_line_maker.cu:getCountsSimpleLoop", "src/rpucuda/cuda/update_management_helper.cu:computeKc"]}
{"id": "C208", "title": "Every weight is handled by exactly one thread", "statement": "In the update kernels and in the bit line maker every weight (value) is handled by exactly one thread in exactly one round, and no thread leaves the array, whatever the numbers of threads and blocks; the blocks of the bit line maker are split so that both vectors get some.", "quantifier": "all sizes and all numbers of threads and blocks", "why_tests_cant": "unbounded sizes", "anchors": ["src/rpucuda/cuda/pwu_kernel.h:RPU_UWBS_DEF_AND_STRIDE_LOOP", "src/rpucuda/cuda/pwu_kernel.h:kernelUpdateWBatchSum", "src/rpucuda/cuda/bit_line_maker.cu:kernelUpdateGetCountsBatch_SimpleLoop2"]}
{"id": "C209", "title": "Cycle-to-cycle noise of the GPU update", "statement": "A run of n pulses gets normal noise of sqrt(n) steps, as n single pulses would. Not: the kernels with bound check for words with pulses of both directions; there the random numbers are drawn and not used, the result is the same for all draws and the steps are longer by sqrt(n) times the noise (refuted).", "quantifier": "all parameters, weights, runs and words", "why_tests_cant": "all draws", "anchors": ["src/rpucuda/cuda/pwu_kernel.h:RPU_UPDATE_WITH_SUM_N_INNER_BOUND_CHECK", "src/rpucuda/cuda/pwu_kernel.h:UpdateFunctorConstantStep"]}
{"id": "C210", "title": "Translation of the pulse trains into batch order", "statement": "Without update bit line management the kernel that translates the words of the samples into the packed 64 bit words writes every word, and each bit is the slot (sign) of the sample on that place of the row of all trains, for every batch that is not a multiple of the threads per block. If it is a multiple (512, 1024, ..) no word of the last block is written and the pulses of its samples are lost (refuted); with update bit line management the bits of a block that do not fill a word are lost in batches of more than 512 samples (refuted).", "quantifier": "all batch sizes, train lengths, trains and numbers of threads per block", "why_tests_cant": "unbounded batch sizes", "anchors": ["src/rpucuda/cuda/update_management_helper.cu:kernelTranslateTransFormatToBatchOrder64Format", "src/rpucuda/cuda/update_management_helper.cu:getBlockAggregate", "src/rpucuda/cuda/update_management_helper.cu:kernelGetKBlockAggregate", "src/rpucuda/cuda/update_management_helper.cu:translateTransToBatchOrder64"]}
