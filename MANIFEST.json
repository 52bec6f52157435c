{
 "claims": [
  {
   "property": "C01",
   "status": "proved",
   "theorems": [
    "C01_split_sizes_partition",
    "C01_no_limit_single_tile",
    "C01_array_new_total",
    "C01_size_zero_raises_refuted"
   ],
   "note": "A dimension of size 0 with a positive maximum raises ZeroDivisionError (the refuted theorem)."
  },
  {
   "property": "C02",
   "status": "proved",
   "theorems": [
    "C02_array_set_get"
   ],
   "note": ""
  },
  {
   "property": "C03",
   "status": "proved",
   "theorems": [
    "C03_array_history"
   ],
   "note": ""
  },
  {
   "property": "C04",
   "status": "proved",
   "theorems": [
    "C04_set_get_roundtrip",
    "C04_raw_roundtrip",
    "C04_roundtrip_omega_zero_refuted"
   ],
   "note": "With the default weight_scaling_omega=0 scales left by remap_weights() or by learning multiply newly set weights: refuted theorem with a three-call history."
  },
  {
   "property": "C05",
   "status": "proved",
   "theorems": [
    "C05_weight_scaling_range"
   ],
   "note": ""
  },
  {
   "property": "C06",
   "status": "proved",
   "theorems": [
    "C06_forward_is_logical",
    "C06_forward_input_range",
    "C06_analog_bias_scaled_by_range",
    "C06_forward_analog_bias_refuted"
   ],
   "note": "With an analog bias and an input range the bias is multiplied by the input range (refuted theorem and exact characterisation)."
  },
  {
   "property": "C07",
   "status": "proved",
   "theorems": [
    "C07_update_is_logical_sgd",
    "C07_update_analog_bias",
    "C07_update_input_range"
   ],
   "note": ""
  },
  {
   "property": "C08",
   "status": "proved",
   "theorems": [
    "C08_lr_get_set",
    "C08_lr_history",
    "C08_lr_after_set_weights_refuted"
   ],
   "note": "With weight_scaling_lr_compensation, set_weights changes the learning rate that is read back (refuted theorem)."
  },
  {
   "property": "C09",
   "status": "proved",
   "theorems": [
    "C09_set_scales_tensor",
    "C09_set_scales_float_refuted",
    "C09_learned_shape",
    "C09_not_learned"
   ],
   "note": "A Python float is silently ignored if mapping scales exist (refuted theorem)."
  },
  {
   "property": "C10",
   "status": "proved",
   "theorems": [
    "C10_remap_preserves_logical"
   ],
   "note": ""
  },
  {
   "property": "C11",
   "status": "proved",
   "theorems": [
    "C11_backward_adjoint"
   ],
   "note": "Learned output scales are applied outside of backward (autograd) and are excluded by hypothesis."
  },
  {
   "property": "C12",
   "status": "proved",
   "theorems": [
    "C12_to_dtype_preserves",
    "C12_to_dtype_refuted"
   ],
   "note": "Refuted for learned output scales without mapping scales: the scales alias and are reset to 1."
  },
  {
   "property": "C13",
   "status": "proved",
   "theorems": [
    "C13_input_range_from_data"
   ],
   "note": "Learning of the range by gradient (learn_input_range) is not part of this claim."
  },
  {
   "property": "C14",
   "status": "proved",
   "theorems": [
    "C14_context_read_only_with_scales",
    "C14_context_read_only_direct",
    "C14_view_alias_refuted",
    "C14_foreach_refuted"
   ],
   "note": "Proved for all programs if the tile has digital scales; without scales proved for programs without view-returning functions and with tensor first arguments. The unrestricted claim is refuted: .detach() etc. return writable aliases, torch._foreach_* bypass the check."
  },
  {
   "property": "C15",
   "status": "proved",
   "theorems": [
    "C15_placeholder_reveals_nothing",
    "C15_placeholder_refuses",
    "C15_placeholder_type_refuted"
   ],
   "note": ""
  },
  {
   "property": "C16",
   "status": "proved",
   "theorems": [
    "C16_data_view_is_logical",
    "C16_buffer_starts_zero",
    "C16_buffer_written_instead"
   ],
   "note": ""
  },
  {
   "property": "C17",
   "status": "proved",
   "theorems": [
    "C17_no_second_group",
    "C17_regroup",
    "C17_regroup_tile_lr",
    "C17_group_lr_refuted"
   ],
   "note": "Refuted: a per-group learning rate given by the user does not survive for analog parameters, the default one is used."
  },
  {
   "property": "C18",
   "status": "proved",
   "theorems": [
    "C18_step",
    "C18_second_step_idle",
    "C18_history_is_sgd"
   ],
   "note": ""
  },
  {
   "property": "C19",
   "status": "proved",
   "theorems": [
    "C19_set_lr"
   ],
   "note": ""
  },
  {
   "property": "C20",
   "status": "proved",
   "theorems": [
    "C20_wrapped_class",
    "C20_same_name_refuted"
   ],
   "note": "Holds if wrapped classes have distinct names; refuted otherwise (the registry is keyed by name)."
  },
  {
   "property": "C21",
   "status": "proved",
   "theorems": [
    "C21_bound_management_terminates",
    "C21_always_ends"
   ],
   "note": ""
  },
  {
   "property": "C22",
   "status": "proved",
   "theorems": [
    "C22_perfect_exact",
    "C22_no_converters_exact",
    "C22_max_noise_management_refuted"
   ],
   "note": "Refuted for MAX noise management: a batch whose row maxima are all 0 gives zeros although it has negative entries."
  },
  {
   "property": "C23",
   "status": "proved",
   "theorems": [
    "C23_error_bound",
    "C23_abs_max_fits",
    "C23_bound_management"
   ],
   "note": ""
  },
  {
   "property": "C24",
   "status": "proved",
   "theorems": [
    "C24_output_bounded",
    "C24_zero_row"
   ],
   "note": ""
  },
  {
   "property": "C25",
   "status": "proved",
   "theorems": [
    "C25_batch_independent",
    "C25_bound_management_refuted"
   ],
   "note": "Proved without bound management; refuted with it: one clipping sample changes the results of all others."
  },
  {
   "property": "C26",
   "status": "proved",
   "theorems": [
    "C26_scale_invariant"
   ],
   "note": ""
  },
  {
   "property": "C27",
   "status": "proved",
   "theorems": [
    "C27_quantizer",
    "C27_stochastic",
    "C27_unbounded_converter_refuted"
   ],
   "note": "Refuted: a resolution together with an unlimited bound (0) divides by zero."
  },
  {
   "property": "C28",
   "status": "proved",
   "theorems": [
    "C28_single_pair"
   ],
   "note": ""
  },
  {
   "property": "C29",
   "status": "proved",
   "theorems": [
    "C29_n_pairs",
    "C29_negative_factor_refuted"
   ],
   "note": "The constructor accepts some negative significances, for which the round trip fails (refuted variant)."
  },
  {
   "property": "C30",
   "status": "proved",
   "theorems": [
    "C30_custom_linear",
    "C30_invertibility_test_refuted"
   ],
   "note": "The constructor's invertibility test does not suffice for invertibility (refuted variant: 5 test points pass, another weight changes)."
  },
  {
   "property": "C31",
   "status": "proved",
   "theorems": [
    "C31_single_device",
    "C31_constant_weights_refuted"
   ],
   "note": "Refuted for constant weights (division by zero)."
  },
  {
   "property": "C32",
   "status": "proved",
   "theorems": [
    "C32_fusion_roundtrip",
    "C32_constant_row_refuted",
    "C32_import_keeps_tile",
    "C32_analog_bias_refuted"
   ],
   "note": "Refuted for constant rows (erased) and for an analog bias (scaled once more)."
  },
  {
   "property": "C33",
   "status": "proved",
   "theorems": [
    "C33_conductances_nonneg",
    "C33_drift_coefficients_nonneg",
    "C33_wan_nonneg",
    "C33_pcm_mean_nu"
   ],
   "note": ""
  },
  {
   "property": "C34",
   "status": "proved",
   "theorems": [
    "C34_pairs_exact",
    "C34_noiseless_programming"
   ],
   "note": ""
  },
  {
   "property": "C35",
   "status": "proved",
   "theorems": [
    "C35_relative",
    "C35_relative_read",
    "C35_state_independent",
    "C35_drift_power_law",
    "C35_uniform_drift",
    "C35_read_noise",
    "C35_decay_facts",
    "C35_sign_g_min_refuted"
   ],
   "note": "With g_min > 0 and different coefficients a positive weight can become negative (refuted variant)."
  },
  {
   "property": "C36",
   "status": "proved",
   "theorems": [
    "C36_program_then_drift",
    "C36_programmed_conductances_refuted"
   ],
   "note": "With programming noise it does not hold: the second conversion rescales the noisy weights, so drift is not applied to the programmed conductances (refuted variant)."
  },
  {
   "property": "C37",
   "status": "proved",
   "theorems": [
    "C37_total",
    "C37_apply_noise_zero_refuted",
    "C37_reference_refuted"
   ],
   "note": "apply_noise at t = 0 always fails, and an explicit prog_coeff_g_max_reference with explicit coefficients is never stored (AttributeError): refuted variants."
  },
  {
   "property": "C38",
   "status": "proved",
   "theorems": [
    "C38_wan_apply_noise",
    "C38_wan_times",
    "C38_wan_drift_refuted",
    "C38_wan_default_time_refuted",
    "C38_wan_reference_refuted"
   ],
   "note": "Refuted variants: program_weights then drift_weights does not; the default t = 0 is not in the default table; the default coefficients are not rescaled from 40 uS."
  },
  {
   "property": "C39",
   "status": "proved",
   "theorems": [
    "C39_drift_not_cumulative",
    "C39_drift_of_programmed"
   ],
   "note": "Noise model and analog read-out are arbitrary functions of a draw."
  },
  {
   "property": "C40",
   "status": "proved",
   "theorems": [
    "C40_reprogram_from_reference",
    "C40_program_current",
    "C40_training_lost_refuted"
   ],
   "note": "Weights trained after a programming are discarded by the next default program_weights() (refuted variant)."
  },
  {
   "property": "C41",
   "status": "proved",
   "theorems": [
    "C41_late_compensation",
    "C41_drift_programs_first",
    "C41_stale_programmed_refuted"
   ],
   "note": "On a tile that was programmed before, weights set since then are overwritten by the drift of the old ones (refuted variant)."
  },
  {
   "property": "C42",
   "status": "proved",
   "theorems": [
    "C42_no_drift_exact",
    "C42_stale_alpha_set_weights_refuted",
    "C42_stale_alpha_program_refuted"
   ],
   "note": "After a drift the factor is kept for weights that are set or programmed later (refuted variants)."
  },
  {
   "property": "C43",
   "status": "proved",
   "theorems": [
    "C43_alpha_positive",
    "C43_global_exact",
    "C43_per_column_exact",
    "C43_mean_restored",
    "C43_small_weights_refuted"
   ],
   "note": "Below the limit nothing is compensated (refuted variant)."
  },
  {
   "property": "C44",
   "status": "proved",
   "theorems": [
    "C44_program_converges",
    "C44_once_refuted",
    "C44_x_values_refuted"
   ],
   "note": "A second call and a call with x_values always raise UnboundLocalError (refuted variants)."
  },
  {
   "property": "C45",
   "status": "proved",
   "theorems": [
    "C45_rounding_error",
    "C45_grid",
    "C45_idempotent",
    "C45_one_bit_refuted"
   ],
   "note": "Bits >= 1 and a positive eps are assumed; a signed symmetric quantizer with one bit divides by zero (refuted variant)."
  },
  {
   "property": "C46",
   "status": "proved",
   "theorems": [
    "C46_all_minmax",
    "C46_current_minmax",
    "C46_running_hull",
    "C46_running_refuted"
   ],
   "note": "With running_minmax calibration data can be clipped (refuted variant)."
  },
  {
   "property": "C47",
   "status": "proved",
   "theorems": [
    "C47_fixed",
    "C47_eval",
    "C47_uninitialized",
    "C47_fix_after_batch",
    "C47_given_range_refuted"
   ],
   "note": "A manager constructed with x_min and x_max always raises AttributeError in forward (refuted variant)."
  },
  {
   "property": "C48",
   "status": "proved",
   "theorems": [
    "C48_channels_independent",
    "C48_symmetric_refuted"
   ],
   "note": "Not with the symmetric quantizer: the sign flag is shared by all channels (refuted variant)."
  },
  {
   "property": "C49",
   "status": "proved",
   "theorems": [
    "C49_cache_transparent",
    "C49_load_in_eval_refuted"
   ],
   "note": "Loading a state dict in evaluation mode after a forward pass has no effect (refuted variant)."
  },
  {
   "property": "C50",
   "status": "proved",
   "theorems": [
    "C50_mse_minimal"
   ],
   "note": "One dimensional search (symmetric quantizer or one sided data), per tensor."
  },
  {
   "property": "C51",
   "status": "proved",
   "theorems": [
    "C51_parameters_valid",
    "C51_consistent",
    "C51_refused",
    "C51_nominal",
    "C51_corrupt",
    "C51_perfect_bias"
   ],
   "note": "The nominal statement is for |up_down| <= 1."
  },
  {
   "property": "C52",
   "status": "proved",
   "theorems": [
    "C52_bounds_kept",
    "C52_range_is_bounds",
    "C52_set_weights",
    "C52_parameters_constant",
    "C52_corrupt_stuck",
    "C52_clip_refuted",
    "C52_reference_refuted",
    "C52_hidden_refuted"
   ],
   "note": "Each condition is necessary: counterexamples for clipping outside the bounds, reference weights and noisy hidden step devices."
  },
  {
   "property": "C53",
   "status": "proved",
   "theorems": [
    "C53_constant_step",
    "C53_soft_bounds",
    "C53_direction",
    "C53_soft_bounds_sane",
    "C53_local",
    "C53_symmetry_point"
   ],
   "note": "Hidden step devices are excluded from the direction claim."
  },
  {
   "property": "C54",
   "status": "proved",
   "theorems": [
    "C54_decay",
    "C54_reset"
   ],
   "note": ""
  },
  {
   "property": "C55",
   "status": "proved",
   "theorems": [
    "C55_drift_law",
    "C55_drift_additive",
    "C55_restart",
    "C55_small_change_refuted"
   ],
   "note": "Changes up to the tolerance are forgotten by the next drift (refuted variant)."
  },
  {
   "property": "C56",
   "status": "proved",
   "theorems": [
    "C56_write_noise_not_stored",
    "C56_float_update_refuted"
   ],
   "note": "Floating point updates (NoneWithDevice) of a device with write noise are lost (refuted variant)."
  },
  {
   "property": "C57",
   "status": "proved",
   "theorems": [
    "C57_mirror",
    "C57_exp_step_refuted",
    "C57_second_device_refuted"
   ],
   "note": "Exponential step devices are not mirrored, and if the two devices differ the second mirrors its own bounds and steps (refuted variants)."
  },
  {
   "property": "C58",
   "status": "proved",
   "theorems": [
    "C58_restore",
    "C58_write_noise_refuted"
   ],
   "note": "With write noise the stored weight is replaced by the visible one (refuted variant)."
  },
  {
   "property": "C59",
   "status": "proved",
   "theorems": [
    "C59_scale",
    "C59_overshoot",
    "C59_probabilities"
   ],
   "note": ""
  },
  {
   "property": "C60",
   "status": "proved",
   "theorems": [
    "C60_direction",
    "C60_zero_lr",
    "C60_negative_lr_refuted"
   ],
   "note": "With MeanCount and DeterministicImplicit a negative learning rate gives the pulses of the positive one (refuted variant)."
  },
  {
   "property": "C61",
   "status": "proved",
   "theorems": [
    "C61_expected_pulses",
    "C61_probability",
    "C61_independent",
    "C61_expected_weight"
   ],
   "note": ""
  },
  {
   "property": "C62",
   "status": "proved",
   "theorems": [
    "C62_deterministic",
    "C62_mean_count"
   ],
   "note": ""
  },
  {
   "property": "C63",
   "status": "proved",
   "theorems": [
    "C63_resolution",
    "C63_number_of_steps_refuted"
   ],
   "note": "The documented form as a number of steps is not converted (the result of checkRes is discarded): more than two steps switch the update off (refuted variant)."
  },
  {
   "property": "C64",
   "status": "proved",
   "theorems": [
    "C64_effective_weight",
    "C64_parts",
    "C64_after_set",
    "C64_fully_hidden",
    "C64_default_gamma",
    "C64_float_update_lost_refuted",
    "C64_user_gamma_refuted"
   ],
   "note": "Floating point updates (NoneWithDevice) of compounds are lost, and user given factors like 1,-1,1 make a device count as fully hidden although it is not (refuted variants)."
  },
  {
   "property": "C65",
   "status": "proved",
   "theorems": [
    "C65_vector",
    "C65_counters",
    "C65_single_fixed",
    "C65_reference_refuted",
    "C65_onesided",
    "C65_transfer",
    "C65_fully_hidden",
    "C65_transfer_needs_factor",
    "C65_hidden_stored_refuted"
   ],
   "note": "A reference unit cell with nonzero reference does not read back what was set, and hidden crossbars with write noise keep their stored weights (refuted variants)."
  },
  {
   "property": "C66",
   "status": "proved",
   "theorems": [
    "C66_tile_restored",
    "C66_vector_refuted",
    "C66_onesided_refuted",
    "C66_transfer_refuted",
    "C66_fully_hidden_refuted",
    "C66_reference_refuted",
    "C66_zero_reference"
   ],
   "note": "Loading sets the weights of the tile after the hidden parameters, which overwrites the crossbars of all compound types (refuted variants)."
  },
  {
   "property": "C67",
   "status": "proved",
   "theorems": [
    "C67_policy",
    "C67_round_robin",
    "C67_fixed",
    "C67_random_refuted"
   ],
   "note": "The random policy indexes beyond the last crossbar if the random number is one (refuted variant)."
  },
  {
   "property": "C68",
   "status": "proved",
   "theorems": [
    "C68_only_up",
    "C68_constant_step"
   ],
   "note": ""
  },
  {
   "property": "C69",
   "status": "proved",
   "theorems": [
    "C69_refresh",
    "C69_dense_refuted",
    "C69_not_due",
    "C69_write_noise",
    "C69_total"
   ],
   "note": "With the dense pulse types the write back uses down pulses because the sign of the learning rate is ignored (refuted variant)."
  },
  {
   "property": "C70",
   "status": "proved",
   "theorems": [
    "C70_schedule",
    "C70_period",
    "C70_parameters",
    "C70_default_cycles",
    "C70_documented_cycles_refuted"
   ],
   "note": "The factor is the output size over the number of reads, not the documented x_size over the number of reads (refuted variant)."
  },
  {
   "property": "C71",
   "status": "proved",
   "theorems": [
    "C71_update",
    "C71_not_due",
    "C71_content",
    "C71_idle",
    "C71_average",
    "C71_reset",
    "C71_reset_refuted"
   ],
   "note": "With several columns per transfer a reset clears all of them after the first read, before the others are read (refuted variant)."
  },
  {
   "property": "C72",
   "status": "proved",
   "theorems": [
    "C72_content",
    "C72_conservation",
    "C72_wide_rows_refuted"
   ],
   "note": "Reading rows of a tile that is wider than high writes behind the end of a temporary vector (refuted variant)."
  },
  {
   "property": "C73",
   "status": "proved",
   "theorems": [
    "C73_forget",
    "C73_momentum",
    "C73_keep",
    "C73_other_calls",
    "C73_set_weights_refuted"
   ],
   "note": "Setting the weights clears the crossbars but not the buffers (refuted variant)."
  },
  {
   "property": "C74",
   "status": "proved",
   "theorems": [
    "C74_pulses",
    "C74_content",
    "C74_schedule",
    "C74_schedule_due",
    "C74_auto_twice_refuted"
   ],
   "note": "With a negative transfer_every and equal numbers of states every due update transfers twice, since the schedule is also applied to the transfer from the last crossbar (refuted variant)."
  },
  {
   "property": "C75",
   "status": "proved",
   "theorems": [
    "C75_regular",
    "C75_period",
    "C75_random",
    "C75_out",
    "C75_documented_period_refuted"
   ],
   "note": "The documented period MIN(1/in_chop_prob, 2) should be a maximum (refuted variant)."
  },
  {
   "property": "C76",
   "status": "proved",
   "theorems": [
    "C76_rows",
    "C76_unchopped",
    "C76_hidden",
    "C76_columns_refuted"
   ],
   "note": "With column transfer (the default) the signs of other cross points are used, because the weights are taken to be stored column by column (refuted variant)."
  },
  {
   "property": "C77",
   "status": "proved",
   "theorems": [
    "C77_same",
    "C77_uneven_refuted",
    "C77_auto_granularity_refuted"
   ],
   "note": "If the two crossbars have different steps the devices differ, and auto_granularity counts also with correct_gradient_magnitudes (refuted variants of the documentation)."
  },
  {
   "property": "C78",
   "status": "proved",
   "theorems": [
    "C78_range",
    "C78_constant",
    "C78_decay",
    "C78_fast_lr",
    "C78_pulses",
    "C78_fast_lr_refuted"
   ],
   "note": "If fast_lr is not set auto_scale has no effect (refuted variant)."
  },
  {
   "property": "C79",
   "status": "proved",
   "theorems": [
    "C79_outer",
    "C79_error",
    "C79_unbiased",
    "C79_one_side_refuted"
   ],
   "note": "With only one of n_x_bins and n_d_bins set, the error vector is lost: it is stored under the wrong index (refuted variant)."
  },
  {
   "property": "C80",
   "status": "proved",
   "theorems": [
    "C80_count",
    "C80_not_due",
    "C80_quiet",
    "C80_every_refuted"
   ],
   "note": "With transfer_every 1 the first update is not transferred: the counter is compared before it is increased (refuted variant)."
  },
  {
   "property": "C81",
   "status": "proved",
   "theorems": [
    "C81_content",
    "C81_position",
    "C81_cover",
    "C81_average",
    "C81_exact",
    "C81_saturation_refuted"
   ],
   "note": "Multiples beyond desired_BL pulses are taken out of the digital matrix but not written (refuted variant)."
  },
  {
   "property": "C82",
   "status": "proved",
   "theorems": [
    "C82_set",
    "C82_others",
    "C82_zero_lr",
    "C82_new",
    "C82_reload",
    "C82_reload_refuted"
   ],
   "note": "The digital matrix is saved with the hidden parameters but not restored (refuted variant)."
  },
  {
   "property": "C83",
   "status": "proved",
   "theorems": [
    "C83_step",
    "C83_mean",
    "C83_off",
    "C83_zeros_refuted"
   ],
   "note": "It is not the fraction of zeros of the outer product, which is larger (refuted variant)."
  },
  {
   "property": "C84",
   "status": "proved",
   "theorems": [
    "C84_fixed",
    "C84_average",
    "C84_gaussian",
    "C84_idempotent",
    "C84_order",
    "C84_average_fixpoint"
   ],
   "note": ""
  },
  {
   "property": "C85",
   "status": "proved",
   "theorems": [
    "C85_agree",
    "C85_negative_refuted",
    "C85_constant_refuted",
    "C85_unsupported"
   ],
   "note": "With the default fixed value -1 the torch tile sets all weights to -1, where RPUCuda does nothing, and constant weights are all set to 0 by the torch tile with LAYER_GAUSSIAN (refuted variants)."
  },
  {
   "property": "C86",
   "status": "proved",
   "theorems": [
    "C86_layer",
    "C86_channel"
   ],
   "note": ""
  },
  {
   "property": "C87",
   "status": "proved",
   "theorems": [
    "C87_bounded",
    "C87_wmax_one"
   ],
   "note": ""
  },
  {
   "property": "C88",
   "status": "proved",
   "theorems": [
    "C88_logical",
    "C88_range",
    "C88_refused",
    "C88_learned_only_refuted",
    "C88_learned_only_example"
   ],
   "note": "When the tile has only learned output scales their value is lost: the C++ code overwrites the parameter in place, which is then reset to 1 (refuted variant)."
  },
  {
   "property": "C89",
   "status": "proved",
   "theorems": [
    "C89_bias_column",
    "C89_discretize",
    "C89_dorefa",
    "C89_sign",
    "C89_drop",
    "C89_inert",
    "C89_refused",
    "C89_accepted",
    "C89_disc_add"
   ],
   "note": ""
  },
  {
   "property": "C90",
   "status": "proved",
   "theorems": [
    "C90_noise",
    "C90_stochastic",
    "C90_drop"
   ],
   "note": "For a uniform generator with N+1 values; the probability of a draw below pdrop is that of the generator."
  },
  {
   "property": "C91",
   "status": "proved",
   "theorems": [
    "C91_before",
    "C91_test",
    "C91_training",
    "C91_enabled",
    "C91_weights",
    "C91_reload_refuted"
   ],
   "note": "Saving and loading forgets enable_during_test although it keeps the modified weights (refuted variant)."
  },
  {
   "property": "C92",
   "status": "proved",
   "theorems": [
    "C92_first",
    "C92_live",
    "C92_clip"
   ],
   "note": ""
  },
  {
   "property": "C93",
   "status": "proved",
   "theorems": [
    "C93_clip",
    "C93_remap"
   ],
   "note": ""
  },
  {
   "property": "C94",
   "status": "proved",
   "theorems": [
    "C94_mean",
    "C94_variance",
    "C94_stationary",
    "C94_short"
   ],
   "note": ""
  },
  {
   "property": "C95",
   "status": "proved",
   "theorems": [
    "C95_perfect",
    "C95_exact_forward",
    "C95_exact_backward",
    "C95_adjoint",
    "C95_max_refuted",
    "C95_average_refuted"
   ],
   "note": ""
  },
  {
   "property": "C96",
   "status": "proved",
   "theorems": [
    "C96_terminates",
    "C96_rounds",
    "C96_accepted",
    "C96_exact",
    "C96_positive_overflow_refuted",
    "C96_worst_two_passes_refuted"
   ],
   "note": ""
  },
  {
   "property": "C97",
   "status": "proved",
   "theorems": [
    "C97_range",
    "C97_converter_error"
   ],
   "note": ""
  },
  {
   "property": "C98",
   "status": "proved",
   "theorems": [
    "C98_average",
    "C98_average_range",
    "C98_no_memory",
    "C98_forward_only_refuted",
    "C98_threshold",
    "C98_no_threshold"
   ],
   "note": ""
  },
  {
   "property": "C99",
   "status": "proved",
   "theorems": [
    "C99_one_sign",
    "C99_mixed_signs",
    "C99_never_clips_refuted"
   ],
   "note": "Without the limit by the input resolution."
  },
  {
   "property": "C100",
   "status": "proved",
   "theorems": [
    "C100_separate_is_one_pass",
    "C100_read_asymmetry",
    "C100_asymmetry_one_pass_refuted"
   ],
   "note": ""
  },
  {
   "property": "C101",
   "status": "proved",
   "theorems": [
    "C101_voltage_offset",
    "C101_no_offset",
    "C101_series_resistance",
    "C101_drawn",
    "C101_ir_drop",
    "C101_ir_drop_grows",
    "C101_first_farthest_refuted",
    "C101_weight_noise",
    "C101_slope_calibration",
    "C101_output_nonlinearity"
   ],
   "note": ""
  },
  {
   "property": "C102",
   "status": "proved",
   "theorems": [
    "C102_mean_variance",
    "C102_absmax_scales"
   ],
   "note": "Without converters, bounds, bound management and weight noise (see C101)."
  },
  {
   "property": "C103",
   "status": "proved",
   "theorems": [
    "C103_dac_levels",
    "C103_adc_levels",
    "C103_no_bound_no_steps",
    "C103_refused",
    "C103_backward_no_bound_management"
   ],
   "note": ""
  },
  {
   "property": "C104",
   "status": "proved",
   "theorems": [
    "C104_convolution",
    "C104_too_large_rejected"
   ],
   "note": "Ideal (floating point) tile; see C112 for noisy tiles."
  },
  {
   "property": "C105",
   "status": "proved",
   "theorems": [
    "C105_unfold_convolution",
    "C105_indexed_equals_unfold"
   ],
   "note": ""
  },
  {
   "property": "C106",
   "status": "proved",
   "theorems": [
    "C106_conv1d_any_history",
    "C106_any_history_distinct_sizes",
    "C106_any_shape_refuted"
   ],
   "note": ""
  },
  {
   "property": "C107",
   "status": "proved",
   "theorems": [
    "C107_backward_adjoint"
   ],
   "note": "Ideal tile."
  },
  {
   "property": "C108",
   "status": "proved",
   "theorems": [
    "C108_update_gradient"
   ],
   "note": "Ideal tile."
  },
  {
   "property": "C109",
   "status": "proved",
   "theorems": [
    "C109_split_sizes",
    "C109_too_large_rejected",
    "C109_no_limit"
   ],
   "note": ""
  },
  {
   "property": "C110",
   "status": "proved",
   "theorems": [
    "C110_weights_roundtrip",
    "C110_tile_shapes"
   ],
   "note": "Tiles are ideal memories; see C04 for single tiles."
  },
  {
   "property": "C111",
   "status": "proved",
   "theorems": [
    "C111_mapped_equals_unsplit"
   ],
   "note": "Ideal tiles, no analog bias (mapped layers only have a digital bias)."
  },
  {
   "property": "C112",
   "status": "proved",
   "theorems": [
    "C112_noisy_tile"
   ],
   "note": ""
  },
  {
   "property": "C113",
   "status": "proved",
   "theorems": [
    "C113_more_channels_2d",
    "C113_more_channels_1d",
    "C113_fewer_channels_2d"
   ],
   "note": "A read outside of an array is modelled as an error; in C++ it is undefined behaviour. Without analog bias (2d)."
  },
  {
   "property": "C114",
   "status": "proved",
   "theorems": [
    "C114_function_preserved",
    "C114_repeated_child_refuted"
   ],
   "note": "Refuted without the condition on repeated children."
  },
  {
   "property": "C115",
   "status": "proved",
   "theorems": [
    "C115_converted",
    "C115_excluded",
    "C115_nothing_else",
    "C115_root"
   ],
   "note": ""
  },
  {
   "property": "C116",
   "status": "proved",
   "theorems": [
    "C116_specific_config"
   ],
   "note": ""
  },
  {
   "property": "C117",
   "status": "proved",
   "theorems": [
    "C117_idempotent",
    "C117_repeated_child_refuted"
   ],
   "note": ""
  },
  {
   "property": "C118",
   "status": "proved",
   "theorems": [
    "C118_round_trip"
   ],
   "note": "Tiles return the weights they were given (C04 for the tiles). Training flags and object identities are not preserved."
  },
  {
   "property": "C119",
   "status": "proved",
   "theorems": [
    "C119_class_kept",
    "C119_same_name_refuted"
   ],
   "note": ""
  },
  {
   "property": "C120",
   "status": "proved",
   "theorems": [
    "C120_training",
    "C120_eval_refuted",
    "C120_tying_refuted"
   ],
   "note": ""
  },
  {
   "property": "C121",
   "status": "proved",
   "theorems": [
    "C121_every_tile_once",
    "C121_every_layer_once",
    "C121_get_set",
    "C121_set_weights",
    "C121_not_atomic_refuted"
   ],
   "note": "Tiles are ideal memories."
  },
  {
   "property": "C122",
   "status": "proved",
   "theorems": [
    "C122_each_tile_once",
    "C122_only_root_mode_refuted"
   ],
   "note": ""
  },
  {
   "property": "C123",
   "status": "proved",
   "theorems": [
    "C123_round_trip",
    "C123_model_round_trip"
   ],
   "note": "Condition: the configuration objects were not modified in between and weights are within their bounds. Write noise, persistent weights and compound devices are covered at device level (other properties). Devices (CPU/GPU) are not modelled."
  },
  {
   "property": "C124",
   "status": "proved",
   "theorems": [
    "C124_config_is_shared",
    "C124_saved_model_unaffected_refuted"
   ],
   "note": "The independence one would expect is refuted."
  },
  {
   "property": "C125",
   "status": "proved",
   "theorems": [
    "C125_keep_config",
    "C125_replace_with"
   ],
   "note": ""
  },
  {
   "property": "C126",
   "status": "proved",
   "theorems": [
    "C126_success",
    "C126_failure_loses_weights",
    "C126_atomic_refuted",
    "C126_model_atomic_refuted"
   ],
   "note": "Atomicity is refuted."
  },
  {
   "property": "C127",
   "status": "proved",
   "theorems": [
    "C127_flags_stay"
   ],
   "note": ""
  },
  {
   "property": "C128",
   "status": "proved",
   "theorems": [
    "C128_strict",
    "C128_missing_unchanged",
    "C128_legacy_refuted"
   ],
   "note": ""
  },
  {
   "property": "C129",
   "status": "proved",
   "theorems": [
    "C129_new_optimizer",
    "C129_old_optimizer_refuted",
    "C129_pending_gradients_refuted"
   ],
   "note": ""
  },
  {
   "property": "C130",
   "status": "proved",
   "theorems": [
    "C130_sigmoid",
    "C130_lstm",
    "C130_combined",
    "C130_gru",
    "C130_rnn"
   ],
   "note": "Real arithmetic; tiles ideal."
  },
  {
   "property": "C131",
   "status": "proved",
   "theorems": [
    "C131_pieces",
    "C131_tile_uses",
    "C131_bidirectional_refuted"
   ],
   "note": "Dropout deterministic (or absent)."
  },
  {
   "property": "C132",
   "status": "proved",
   "theorems": [
    "C132_causal",
    "C132_bidirectional"
   ],
   "note": ""
  },
  {
   "property": "C133",
   "status": "proved",
   "theorems": [
    "C133_lstm",
    "C133_gru",
    "C133_rnn"
   ],
   "note": ""
  },
  {
   "property": "C134",
   "status": "proved",
   "theorems": [
    "C134_lstm",
    "C134_gru",
    "C134_rnn"
   ],
   "note": "Real arithmetic (floating point rounds to at most 1)."
  },
  {
   "property": "C135",
   "status": "proved",
   "theorems": [
    "C135_shapes",
    "C135_layers",
    "C135_lstm",
    "C135_gru",
    "C135_rnn",
    "C135_last_not_dropped",
    "C135_others_dropped",
    "C135_single_layer",
    "C135_surplus",
    "C135_missing",
    "C135_one_state_refuted"
   ],
   "note": ""
  },
  {
   "property": "C136",
   "status": "proved",
   "theorems": [
    "C136_max"
   ],
   "note": "The forward calls of tiles that the data causes are a list given to the model of the calibration."
  },
  {
   "property": "C137",
   "status": "proved",
   "theorems": [
    "C137_cache_quantile",
    "C137_all_cached",
    "C137_quantile",
    "C137_magnitudes_refuted"
   ],
   "note": "torch.quantile (linear interpolation) and randperm are modelled; randperm is an arbitrary permutation at each call."
  },
  {
   "property": "C138",
   "status": "proved",
   "theorems": [
    "C138_moving_quantile",
    "C138_moving_std",
    "C138_std",
    "C138_fresh"
   ],
   "note": ""
  },
  {
   "property": "C139",
   "status": "proved",
   "theorems": [
    "C139_afterwards",
    "C139_no_data_refuted"
   ],
   "note": ""
  },
  {
   "property": "C140",
   "status": "proved",
   "theorems": [
    "C139_afterwards",
    "C140_zero_batch_refuted"
   ],
   "note": "The first sentence is C139_afterwards, which asks for non-zero data only with MAX and MOVING_QUANTILE."
  },
  {
   "property": "C141",
   "status": "proved",
   "theorems": [
    "C141_noise_management",
    "C141_not_all_enabled_refuted"
   ],
   "note": ""
  },
  {
   "property": "C142",
   "status": "proved",
   "theorems": [
    "C142_deeper_layers_refuted"
   ],
   "note": ""
  },
  {
   "property": "C143",
   "status": "proved",
   "theorems": [
    "C143_modules",
    "C143_root",
    "C143_succeeds",
    "C143_root_excluded_refuted",
    "C143_root_fails",
    "C143_shared_refuted",
    "C143_mode_refuted",
    "C143_enabled",
    "C143_enabled_inputs"
   ],
   "note": "Names are paths; objects shared by different parents are treated as copies."
  },
  {
   "property": "C144",
   "status": "proved",
   "theorems": [
    "C144_state",
    "C144_failure",
    "C144_batches",
    "C144_all_minmax",
    "C144_more_than_max_refuted",
    "C144_idle_refuted",
    "C144_recalibration_refuted"
   ],
   "note": "The quantizer calls caused by a batch are a list given to the model."
  },
  {
   "property": "C145",
   "status": "proved",
   "theorems": [
    "C145_not_learned",
    "C145_same",
    "C145_learned",
    "C145_learn_uninitialized",
    "C145_fix_refuted",
    "C145_estimate_refuted",
    "C145_reset"
   ],
   "note": "An optimizer step is given by the values that it assigns."
  },
  {
   "property": "C146",
   "status": "proved",
   "theorems": [
    "C146_roundtrip",
    "C146_resume",
    "C146_fixed_refuted",
    "C146_learned_refuted"
   ],
   "note": ""
  },
  {
   "property": "C147",
   "status": "proved",
   "theorems": [
    "C147_zero_bits",
    "C147_half_step",
    "C147_all_quantized_refuted",
    "C147_padding",
    "C147_padding_refuted"
   ],
   "note": ""
  },
  {
   "property": "C148",
   "status": "proved",
   "theorems": [
    "C148_schedule",
    "C148_every",
    "C148_too_large",
    "C148_never_refuted",
    "C148_unsupported"
   ],
   "note": ""
  },
  {
   "property": "C149",
   "status": "proved",
   "theorems": [
    "C149_conserved",
    "C149_bounded",
    "C149_slow",
    "C149_faithful",
    "C149_rate",
    "C149_recursion",
    "C149_forget_refuted",
    "C149_clip_refuted"
   ],
   "note": ""
  },
  {
   "property": "C150",
   "status": "proved",
   "theorems": [
    "C150_signs",
    "C150_offset",
    "C150_rows_refuted",
    "C150_rows_error_refuted",
    "C150_inputs",
    "C150_inputs_refuted"
   ],
   "note": ""
  },
  {
   "property": "C151",
   "status": "proved",
   "theorems": [
    "C151_switches",
    "C151_turns",
    "C151_first_refuted",
    "C151_off"
   ],
   "note": ""
  },
  {
   "property": "C152",
   "status": "proved",
   "theorems": [
    "C152_mean",
    "C152_first_refuted",
    "C152_invariant"
   ],
   "note": ""
  },
  {
   "property": "C153",
   "status": "proved",
   "theorems": [
    "C153_hidden",
    "C153_layout",
    "C153_resume",
    "C153_counter_refuted"
   ],
   "note": "State dictionaries only; pickling keeps everything."
  },
  {
   "property": "C154",
   "status": "proved",
   "theorems": [
    "C154_agad",
    "C154_hull",
    "C154_last"
   ],
   "note": ""
  },
  {
   "property": "C155",
   "status": "proved",
   "theorems": [
    "C155_accepted",
    "C155_books",
    "C155_hull",
    "C155_content"
   ],
   "note": ""
  },
  {
   "property": "C156",
   "status": "proved",
   "theorems": [
    "C156_turns",
    "C156_regular",
    "C156_together",
    "C156_random_refuted",
    "C156_set_refuted"
   ],
   "note": ""
  },
  {
   "property": "C157",
   "status": "proved",
   "theorems": [
    "C157_conserved",
    "C157_when",
    "C157_after",
    "C157_bounded",
    "C157_forget",
    "C157_warmup_refuted",
    "C157_cap_refuted"
   ],
   "note": ""
  },
  {
   "property": "C158",
   "status": "proved",
   "theorems": [
    "C158_offset",
    "C158_fresh",
    "C158_gone",
    "C158_total"
   ],
   "note": ""
  },
  {
   "property": "C159",
   "status": "proved",
   "theorems": [
    "C159_resume",
    "C159_flat"
   ],
   "note": "Hidden weights of the crossbars themselves are opaque."
  },
  {
   "property": "C160",
   "status": "proved",
   "theorems": [
    "C160_extension",
    "C160_segments",
    "C160_agree",
    "C160_one_row_short"
   ],
   "note": "The tiny conductance added against division by zero is part of the circuit."
  },
  {
   "property": "C161",
   "status": "proved",
   "theorems": [
    "C161_attenuated"
   ],
   "note": "Without ADC quantization (C165) and read noise."
  },
  {
   "property": "C162",
   "status": "proved",
   "theorems": [
    "C162_any_converter",
    "C162_single_pair",
    "C162_one_pass",
    "C162_default_integration_refuted",
    "C162_time_resolution_refuted",
    "C162_default_read_voltage_refuted"
   ],
   "note": ""
  },
  {
   "property": "C163",
   "status": "proved",
   "theorems": [
    "C163_without_drop",
    "C163_with_drop",
    "C163_split_exact",
    "C163_split_refused",
    "C163_bit_wise_refuted"
   ],
   "note": "Without output quantization and noise."
  },
  {
   "property": "C164",
   "status": "proved",
   "theorems": [
    "C164_odd_outputs",
    "C164_segments",
    "C164_no_resolution",
    "C164_read_noise"
   ],
   "note": ""
  },
  {
   "property": "C165",
   "status": "proved",
   "theorems": [
    "C165_adc",
    "C165_adc_shape",
    "C165_adc_outputs"
   ],
   "note": ""
  },
  {
   "property": "C166",
   "status": "proved",
   "theorems": [
    "C166_nearest",
    "C166_nearest_8"
   ],
   "note": ""
  },
  {
   "property": "C167",
   "status": "proved",
   "theorems": [
    "C167_odd",
    "C167_monotone",
    "C167_idempotent"
   ],
   "note": "The sign of zero is ignored: negative numbers are flushed to +0."
  },
  {
   "property": "C168",
   "status": "proved",
   "theorems": [
    "C168_special",
    "C168_special_finite",
    "C168_agree",
    "C168_beyond",
    "C168_clipping_refuted",
    "C168_small_refuted",
    "C168_settings_differ"
   ],
   "note": ""
  },
  {
   "property": "C169",
   "status": "proved",
   "theorems": [
    "C169_range",
    "C169_entrywise",
    "C169_backward_refuted"
   ],
   "note": "CPU code; the check of PyTorch on the number of gradients is modelled."
  },
  {
   "property": "C170",
   "status": "proved",
   "theorems": [
    "C170_history",
    "C170_ger_accepts"
   ],
   "note": "Without learned output scales; ideal tile."
  },
  {
   "property": "C171",
   "status": "proved",
   "theorems": [
    "C171_matmat",
    "C171_matmat_refuted",
    "C171_large"
   ],
   "note": "Ideal tile."
  },
  {
   "property": "C172",
   "status": "proved",
   "theorems": [
    "C172_read",
    "C172_bias_range",
    "C172_count",
    "C172_clip_refuted"
   ],
   "note": "Ideal forward pass; without scaling the scales must not be zero."
  },
  {
   "property": "C173",
   "status": "proved",
   "theorems": [
    "C173_count",
    "C173_totals",
    "C173_uses_refuted",
    "C173_later"
   ],
   "note": ""
  },
  {
   "property": "C174",
   "status": "proved",
   "theorems": [
    "C174_reuse",
    "C174_utilization",
    "C174_not_mapped",
    "C174_unlimited",
    "C174_tuple_output",
    "C174_tiles_dict_refuted"
   ],
   "note": ""
  },
  {
   "property": "C175",
   "status": "proved",
   "theorems": [
    "C175_sgd",
    "C175_reference",
    "C175_uniform",
    "C175_uniform_range",
    "C175_program_start_refuted"
   ],
   "note": "Ideal forward and backward."
  },
  {
   "property": "C176",
   "status": "proved",
   "theorems": [
    "C176_strategy"
   ],
   "note": "g_err is 0 (the default)."
  },
  {
   "property": "C177",
   "status": "proved",
   "theorems": [
    "C177_symmetric",
    "C177_middle_refuted"
   ],
   "note": ""
  },
  {
   "property": "C178",
   "status": "proved",
   "theorems": [
    "C178_loss",
    "C178_objective",
    "C178_baseline",
    "C178_baseline_refuted",
    "C178_run",
    "C178_flag_refuted",
    "C178_again_refuted"
   ],
   "note": "The search and the simulated effective weights are parameters."
  },
  {
   "property": "C179",
   "status": "proved",
   "theorems": [
    "C179_sample",
    "C179_range",
    "C179_one_refuted"
   ],
   "note": "Before shuffling; linear interpolation with aligned corners."
  },
  {
   "property": "C180",
   "status": "proved",
   "theorems": [
    "C180_roundtrip"
   ],
   "note": "Constructors are modelled by the attributes they set; parameters the format does not know have their default values."
  },
  {
   "property": "C181",
   "status": "proved",
   "theorems": [
    "C181_bias_refuted",
    "C181_config_refuted",
    "C181_groups_refuted",
    "C181_shared_refuted"
   ],
   "note": ""
  },
  {
   "property": "C182",
   "status": "proved",
   "theorems": [
    "C182_int64",
    "C182_int64_stored",
    "C182_refused",
    "C182_layers"
   ],
   "note": ""
  },
  {
   "property": "C183",
   "status": "proved",
   "theorems": [
    "C183_noise",
    "C183_device_refuted",
    "C183_config",
    "C183_one_bit",
    "C183_common",
    "C183_config_error"
   ],
   "note": ""
  },
  {
   "property": "C184",
   "status": "proved",
   "theorems": [
    "C184_response",
    "C184_documented_refuted",
    "C184_refused"
   ],
   "note": "Composes with the pulsed device model."
  },
  {
   "property": "C185",
   "status": "proved",
   "theorems": [
    "C185_faithful",
    "C185_complete",
    "C185_tile",
    "C185_class_refuted",
    "C185_unread_refuted",
    "C185_tile_refuted"
   ],
   "note": "The core is a parameter: which classes, attributes, values and enumerations it has."
  },
  {
   "property": "C186",
   "status": "proved",
   "theorems": [
    "C186_parts",
    "C186_accepts",
    "C186_idempotent",
    "C186_dropped_refuted",
    "C186_transfer_refuted",
    "C186_missing_refuted",
    "C186_decay",
    "C186_decay_refuted"
   ],
   "note": ""
  },
  {
   "property": "C187",
   "status": "proved",
   "theorems": [
    "C187_config",
    "C187_unknown",
    "C187_case",
    "C187_fresh",
    "C187_contents",
    "C187_settings",
    "C187_ignored",
    "C187_total",
    "C187_seed_refuted",
    "C187_update_refuted",
    "C187_instance_refuted"
   ],
   "note": "ASCII names; callables other than classes are not modelled."
  },
  {
   "property": "C188",
   "status": "proved",
   "theorems": [
    "C188_forward",
    "C188_backward",
    "C188_refused",
    "C188_mixed_refuted"
   ],
   "note": "Reals instead of floats; BLAS by its specification; a feature dimension of 0 (integer division by zero) is not modelled."
  },
  {
   "property": "C189",
   "status": "proved",
   "theorems": [
    "C189_update",
    "C189_gradient",
    "C189_refused",
    "C189_zero",
    "C189_zero_refuted",
    "C189_warmup_refuted",
    "C189_keywords_refuted",
    "C189_keywords"
   ],
   "note": "RPUSimple only; pulsed updates are other properties."
  },
  {
   "property": "C190",
   "status": "proved",
   "theorems": [
    "C190_decay",
    "C190_none_refuted"
   ],
   "note": ""
  },
  {
   "property": "C191",
   "status": "proved",
   "theorems": [
    "C191_converted",
    "C191_found",
    "C191_config",
    "C191_config_idempotent",
    "C191_config_other"
   ],
   "note": "Indices in ASCII digits without sign."
  },
  {
   "property": "C192",
   "status": "proved",
   "theorems": [
    "C192_model_refuted",
    "C192_no_tile_refuted",
    "C192_new_refuted",
    "C192_layer_refuted",
    "C192_index_refuted",
    "C192_bias_refuted",
    "C192_url_refuted"
   ],
   "note": ""
  },
  {
   "property": "C193",
   "status": "proved",
   "theorems": [
    "C193_results",
    "C193_empty_refuted"
   ],
   "note": "Network, loss and optimizer are parameters; printing is not modelled. Reals instead of floats."
  },
  {
   "property": "C194",
   "status": "proved",
   "theorems": [
    "C194_samples",
    "C194_metrics",
    "C194_max_refuted"
   ],
   "note": "torch DataLoader and Subset by their specification; empty data sets are not modelled."
  },
  {
   "property": "C195",
   "status": "proved",
   "theorems": [
    "C195_no_hooks",
    "C195_rerun",
    "C195_merge"
   ],
   "note": "Hooks of the user are functions without effects on the experiment."
  },
  {
   "property": "C196",
   "status": "proved",
   "theorems": [
    "C196_results",
    "C196_run",
    "C196_nothing",
    "C196_partial_refuted",
    "C196_empty_refuted",
    "C196_max_refuted"
   ],
   "note": "Programming, drift and evaluation are parameters."
  },
  {
   "property": "C197",
   "status": "proved",
   "theorems": [
    "C197_times",
    "C197_times_refuted",
    "C197_template",
    "C197_remap_refuted",
    "C197_missing_refuted"
   ],
   "note": "Reals instead of floats; inference times of 0 and below (logarithm undefined) are not modelled."
  },
  {
   "property": "C198",
   "status": "proved",
   "theorems": [
    "C198_response",
    "C198_single",
    "C198_weights_refuted",
    "C198_short_refuted",
    "C198_list_refuted",
    "C198_no_measurement",
    "C198_dropped_refuted",
    "C198_last_pulse_refuted"
   ],
   "note": "tile abstract; numpy broadcasting explicit"
  },
  {
   "property": "C199",
   "status": "proved",
   "theorems": [
    "C199_config",
    "C199_reproduces",
    "C199_unknown",
    "C199_nested_refuted",
    "C199_pulses_refuted"
   ],
   "note": "optimizer: any list of evaluations and any result with the same names"
  },
  {
   "property": "C200",
   "status": "proved",
   "theorems": [
    "C200_training",
    "C200_runs",
    "C200_noise",
    "C200_deepcopy_refuted",
    "C200_load_refuted",
    "C200_float_refuted",
    "C200_frozen_refuted",
    "C200_learned_refuted"
   ],
   "note": "autograd is the chain rule; aliasing of the scales between the tile and the hook is modelled"
  },
  {
   "property": "C201",
   "status": "proved",
   "theorems": [
    "C201_gradient",
    "C201_expands",
    "C201_inputs",
    "C201_noise_refuted",
    "C201_manage_refuted",
    "C201_forward"
   ],
   "note": ""
  },
  {
   "property": "C202",
   "status": "proved",
   "theorems": [
    "C202_refines",
    "C202_checkpoint"
   ],
   "note": "gradients abstract: an optimizer step is any function of the parameters; checkpoints without optimizer steps after loading"
  },
  {
   "property": "C203",
   "status": "proved",
   "theorems": [
    "C203_error",
    "C203_off",
    "C203_dead_refuted"
   ],
   "note": ""
  },
  {
   "property": "C204",
   "status": "proved",
   "theorems": [
    "C204_tile",
    "C204_scales"
   ],
   "note": "quantization of activations abstract; one sample"
  },
  {
   "property": "C205",
   "status": "proved",
   "theorems": [
    "C205_array",
    "C205_frozen_refuted"
   ],
   "note": ""
  },
  {
   "property": "C206",
   "status": "proved",
   "theorems": [
    "C206_fitting",
    "C206_set",
    "C206_reset",
    "C206_none_refuted",
    "C206_subclass_refuted"
   ],
   "note": ""
  },
  {
   "property": "C207",
   "status": "proved",
   "theorems": [
    "C207_words",
    "C207_bits"
   ],
   "note": "the copy into shared memory and the kernel for a single sample without batch are not modelled; trains are given (their draws are C61)"
  },
  {
   "property": "C208",
   "status": "proved",
   "theorems": [
    "C208_grid",
    "C208_grid_range",
    "C208_shared",
    "C208_shared_range",
    "C208_split"
   ],
   "note": ""
  },
  {
   "property": "C209",
   "status": "proved",
   "theorems": [
    "C209_run_noise",
    "C209_noise_lost_refuted"
   ],
   "note": ""
  },
  {
   "property": "C210",
   "status": "proved",
   "theorems": [
    "C210_translate",
    "C210_lost_refuted",
    "C210_leftover_refuted"
   ],
   "note": "the format is used if asked for in the tests and benchmarks (use_bo64 == 2); no kernel selects it by itself. With update bit line management only the loss of the left-over bits is proved, nothing about the remaining words"
  }
 ]
}