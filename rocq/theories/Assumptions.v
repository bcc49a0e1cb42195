(** Assumptions of every property theorem; the build prints them. *)
From Verif Require Import Properties_Numeric Properties_HP Properties_Ctor Properties_Graph Properties_Eval Properties_Config Properties_Change Properties_Sample Properties_Size Properties_Dist Properties_Exchange Properties_Raise Properties_Random Properties_Repair Properties_Grid Properties_Fix Properties_Add Properties_Serial Properties_Priors Properties_Sub Properties_SubParent Properties_Alias Properties_Equal Properties_Args Properties_Api Properties_Cache Properties_PcsWords Properties_Pcs Properties_PcsWrite Properties_PcsOld Properties_PcsOldWrite Properties_Put Properties_Convert Properties_Json Properties_Array Properties_Guards Properties_Float Properties_Round Properties_FloatLog Properties_FloatCond Properties_Old Properties_Reach Properties_Mass Properties_Bounds Properties_Seq Properties_Assign Properties_Walk Properties_Order Properties_Life Properties_Tried Properties_Grow Properties_Impute Properties_Alike Properties_Load Properties_PcsRead Properties_ToDict Properties_FloatWeights Properties_EntryDensity Properties_Chance Properties_Uniform Properties_FloatSample Properties_Together Properties_Parts Properties_Marginal Properties_Symmetric Properties_Default Properties_Product Properties_Clause Properties_Nest Properties_Worn Properties_GridOrder Properties_NestGrid Properties_NestDefault Properties_TwoSubs Properties_NestNear.

Print Assumptions C42_quantize_on_bins.
Print Assumptions C42_quantize_fixes_bins.
Print Assumptions C42_quantize_idempotent.
Print Assumptions C42_quantize_monotone.
Print Assumptions C42_quantize_ends.
Print Assumptions C42_quantize_error.
Print Assumptions C42_quantize_closest_refuted.
Print Assumptions C48_center_range.
Print Assumptions C48_center_range_outside.
Print Assumptions C49_arange_chunked_refuted.
Print Assumptions C49_arange_chunked_partial.
Print Assumptions C49_linspace_chunked.
Print Assumptions C49_split_arange.
Print Assumptions C34_values_roundtrip.
Print Assumptions C34_vectors_roundtrip.
Print Assumptions C34_injective.
Print Assumptions C34_ordinal_order.
Print Assumptions C34_constant.
Print Assumptions C35_int_roundtrip.
Print Assumptions C35_int_increasing.
Print Assumptions C35_int_legal_vector.
Print Assumptions C36_float_roundtrip.
Print Assumptions C36_float_onto.
Print Assumptions C36_float_increasing.
Print Assumptions C37_default_legal.
Print Assumptions C37_domain_nonempty.
Print Assumptions C37_uniform_int_accepts.
Print Assumptions C37_uniform_float_accepts.
Print Assumptions C38_value_to_vector_partial.
Print Assumptions C38_vector_to_value_partial.
Print Assumptions C39_legal_integers_partial.
Print Assumptions C39_integers_legal.
Print Assumptions C40_scalar_array_partial.
Print Assumptions C38_value_to_vector_refuted.
Print Assumptions C38_vector_to_value_refuted.
Print Assumptions C39_only_integers_refuted.
Print Assumptions C40_scalar_array_refuted.
Print Assumptions C61_categorical.
Print Assumptions C61_ordinal.
Print Assumptions C61_constant.
Print Assumptions C61_uniform_int_partial.
Print Assumptions C61_normal_int.
Print Assumptions C61_beta_int.
Print Assumptions C61_uniform_float.
Print Assumptions C61_normal_float.
Print Assumptions C61_beta_float.
Print Assumptions C61_uniform_int_default_refuted.
Print Assumptions C01_order.
Print Assumptions C01_parents_first.
Print Assumptions C02_insertion_order.
Print Assumptions C03_bijection.
Print Assumptions C03_keys.
Print Assumptions C04_depth.
Print Assumptions C04_unique.
Print Assumptions C05_acyclic.
Print Assumptions C05_cyclic_iff.
Print Assumptions C05_reason.
Print Assumptions C06_one_condition.
Print Assumptions C06_ambiguous.
Print Assumptions C06_equal.
Print Assumptions C06_reason.
Print Assumptions C07_known_names.
Print Assumptions C07_unknown_child.
Print Assumptions C07_unknown_parent.
Print Assumptions C07_unknown_in_clause.
Print Assumptions C07_reason.
Print Assumptions C08_single_partial.
Print Assumptions C09_partition.
Print Assumptions C10_inverse.
Print Assumptions C10_total.
Print Assumptions C10_parent_conditions.
Print Assumptions C10_child_conditions.
Print Assumptions C08_atomic_refuted.
Print Assumptions C08_poisoned_refuted.
Print Assumptions C11_value_vector.
Print Assumptions C11_batch.
Print Assumptions C11_meaning.
Print Assumptions C12_value.
Print Assumptions C12_vector_partial.
Print Assumptions C12_batch_partial.
Print Assumptions C12_meaning_partial.
Print Assumptions C13_once.
Print Assumptions C13_merge_partial.
Print Assumptions C13_merge_sound_partial.
Print Assumptions C14_accepts_iff.
Print Assumptions C14_rejects_iff.
Print Assumptions C15_value_vector_partial.
Print Assumptions C15_meaning_partial.
Print Assumptions C15_batch.
Print Assumptions C16_vector.
Print Assumptions C16_value.
Print Assumptions C16_batch.
Print Assumptions C57_refl.
Print Assumptions C57_sym.
Print Assumptions C57_trans.
Print Assumptions C57_truth_partial.
Print Assumptions C58_partial.
Print Assumptions C12_refuted.
Print Assumptions C12_refuted_observable.
Print Assumptions C13_refuted.
Print Assumptions C13_refuted_observable.
Print Assumptions C15_refuted.
Print Assumptions C57_refuted.
Print Assumptions C58_refuted.
Print Assumptions C17_accepts_valid_partial.
Print Assumptions C17_guard.
Print Assumptions C17_accepted.
Print Assumptions C17_unknown_key.
Print Assumptions C17_illegal_value.
Print Assumptions C18_reads.
Print Assumptions C18_rounding.
Print Assumptions C18_copy_partial.
Print Assumptions C21_exists.
Print Assumptions C21_defaults.
Print Assumptions C21_valid.
Print Assumptions C21_no_KeyError.
Print Assumptions C27_agree_partial.
Print Assumptions C28_active_set_partial.
Print Assumptions C28_sound.
Print Assumptions C32_default.
Print Assumptions C56_mapping_partial.
Print Assumptions C56_len_partial.
Print Assumptions C17_refuted.
Print Assumptions C17_inexact_refuted.
Print Assumptions C17_empty_key_refuted.
Print Assumptions C18_copy_refuted.
Print Assumptions C27_refuted.
Print Assumptions C27_refuted_or.
Print Assumptions C28_refuted.
Print Assumptions C27_refuted_inf.
Print Assumptions C56_refuted.
Print Assumptions C26_local.
Print Assumptions C26_entries.
Print Assumptions C19_failure.
Print Assumptions C19_success_partial.
Print Assumptions C19_illegal.
Print Assumptions C20_succeeds_partial.
Print Assumptions C20_unique.
Print Assumptions C20_reads_partial.
Print Assumptions C20_guard_single.
Print Assumptions C20_guard_levels.
Print Assumptions C20_start.
Print Assumptions C19_sequence.
Print Assumptions C19_refuted.
Print Assumptions C20_refuted.
Print Assumptions C20_reset_refuted.
Print Assumptions C22_never_forbidden.
Print Assumptions C22_not_violated.
Print Assumptions C23_entries.
Print Assumptions C23_accepted_partial.
Print Assumptions C23_valid_partial.
Print Assumptions C24_count.
Print Assumptions C24_length.
Print Assumptions C24_stops.
Print Assumptions C23_refuted.
Print Assumptions C31_determined.
Print Assumptions C31_bound_partial.
Print Assumptions C31_exact.
Print Assumptions C31_infinite.
Print Assumptions C31_refuted.
Print Assumptions C41_weighted.
Print Assumptions C41_sampled_partial.
Print Assumptions C41_legal_partial.
Print Assumptions C41_draws_partial.
Print Assumptions C43_int_partial.
Print Assumptions C43_all.
Print Assumptions C43_returns.
Print Assumptions C44_lowest_partial.
Print Assumptions C44_fewer_partial.
Print Assumptions C44_refuted.
Print Assumptions C45_ordinal_partial.
Print Assumptions C46_categorical_partial.
Print Assumptions C62_float.
Print Assumptions C62_returns.
Print Assumptions C47_illegal.
Print Assumptions C47_bounded_partial.
Print Assumptions C47_sum_partial.
Print Assumptions C47_weights.
Print Assumptions C47_uniform_partial.
Print Assumptions C63_finite.
Print Assumptions C63_notset.
Print Assumptions C63_float.
Print Assumptions C63_agrees.
Print Assumptions C41_refuted.
Print Assumptions C43_refuted.
Print Assumptions C45_refuted_low.
Print Assumptions C45_refuted_high.
Print Assumptions C46_refuted.
Print Assumptions C46_refuted_inexact.
Print Assumptions C47_refuted.
Print Assumptions C25_sound_partial.
Print Assumptions C25_valid_partial.
Print Assumptions C64_ends.
Print Assumptions C65_complete.
Print Assumptions C65_once_partial.
Print Assumptions C64_bound.
Print Assumptions C64_normal.
Print Assumptions C25_refuted.
Print Assumptions C65_refuted.
Print Assumptions C68_check_partial.
Print Assumptions C68_reason_partial.
Print Assumptions C68_allow_partial.
Print Assumptions C68_assign_partial.
Print Assumptions C68_refuted.
Print Assumptions C66_sound_partial.
Print Assumptions C66_single.
Print Assumptions C66_frozen.
Print Assumptions C66_gives_up.
Print Assumptions C66_raises_partial.
Print Assumptions C67_flat_partial.
Print Assumptions C67_refuted.
Print Assumptions C33_sound_partial.
Print Assumptions C33_vector_partial.
Print Assumptions C33_unique.
Print Assumptions C69_raises_partial.
Print Assumptions C69_repairs_partial.
Print Assumptions C69_ends.
Print Assumptions C69_refuted.
Print Assumptions C69_both_refuted.
Print Assumptions C29_sound_partial.
Print Assumptions C30_complete_partial.
Print Assumptions C70_raises_partial.
Print Assumptions C30_ends.
Print Assumptions C30_returns_partial.
Print Assumptions C71_once_partial.
Print Assumptions C30_refuted.
Print Assumptions C70_refuted.
Print Assumptions C71_refuted.
Print Assumptions C72_typed.
Print Assumptions C72_raises.
Print Assumptions C72_returns.
Print Assumptions C72_again.
Print Assumptions C60_restores_partial.
Print Assumptions C60_vector.
Print Assumptions C60_refuted.
Print Assumptions C72_atomic_refuted.
Print Assumptions C73_add_iff_partial.
Print Assumptions C73_raises_partial.
Print Assumptions C73_empty_refuted.
Print Assumptions C50_partial.
Print Assumptions C51_condition_partial.
Print Assumptions C51_clause_partial.
Print Assumptions C52_same_partial.
Print Assumptions C52_accepts_partial.
Print Assumptions C52_returns_partial.
Print Assumptions C52_equal_partial.
Print Assumptions C53_twice.
Print Assumptions C53_partial.
Print Assumptions C50_refuted.
Print Assumptions C51_refuted.
Print Assumptions C52_refuted.
Print Assumptions C52_meta_refuted.
Print Assumptions C52_dropped_refuted.
Print Assumptions C53_refuted.
Print Assumptions C55_partial.
Print Assumptions C55_accepts_partial.
Print Assumptions C55_condition_partial.
Print Assumptions C55_clause.
Print Assumptions C55_refuted.
Print Assumptions C55_raises_refuted.
Print Assumptions C54_names_partial.
Print Assumptions C54_plain_names_partial.
Print Assumptions C54_partial.
Print Assumptions C54_accepts_partial.
Print Assumptions C54_clash.
Print Assumptions C54_source_partial.
Print Assumptions C54_names_refuted.
Print Assumptions C54_source_refuted.
Print Assumptions C54_twice_refuted.
Print Assumptions C54_parent_partial.
Print Assumptions C54_parent_refuted.
Print Assumptions C59_partial.
Print Assumptions C59_apart.
Print Assumptions C59_refuted.
Print Assumptions C59_condition_refuted.
Print Assumptions C59_text_refuted.
Print Assumptions C74_refl.
Print Assumptions C74_trans.
Print Assumptions C74_sym_partial.
Print Assumptions C74_truth_partial.
Print Assumptions C74_vector_partial.
Print Assumptions C74_refuted.
Print Assumptions C74_vector_refuted.
Print Assumptions C75_refl.
Print Assumptions C75_trans.
Print Assumptions C75_sym_partial.
Print Assumptions C75_same.
Print Assumptions C75_valid_partial.
Print Assumptions C75_refuted.
Print Assumptions C75_vector_refuted.
Print Assumptions C76_equal.
Print Assumptions C76_refl.
Print Assumptions C76_trans.
Print Assumptions C76_sym_partial.
Print Assumptions C76_sym.
Print Assumptions C76_hash_partial.
Print Assumptions C76_native_vector.
Print Assumptions C76_native_values.
Print Assumptions C76_refuted.
Print Assumptions C77_categorical.
Print Assumptions C77_categorical_raises.
Print Assumptions C77_ordinal.
Print Assumptions C77_ordinal_raises.
Print Assumptions C77_constant.
Print Assumptions C77_uniform_int.
Print Assumptions C77_uniform_int_raises.
Print Assumptions C77_normal_int.
Print Assumptions C77_normal_int_raises.
Print Assumptions C77_beta_int.
Print Assumptions C77_beta_int_raises.
Print Assumptions C77_uniform_float.
Print Assumptions C77_uniform_float_raises.
Print Assumptions C77_normal_float.
Print Assumptions C77_normal_float_raises.
Print Assumptions C77_beta_float.
Print Assumptions C77_beta_float_raises.
Print Assumptions C77_default_refuted.
Print Assumptions C78_entry.
Print Assumptions C78_parses.
Print Assumptions C78_raises.
Print Assumptions C78_space.
Print Assumptions C78_space_raises.
Print Assumptions C78_result.
Print Assumptions C78_list.
Print Assumptions C78_configurations.
Print Assumptions C79_accepts.
Print Assumptions C79_result.
Print Assumptions C79_raises.
Print Assumptions C80_integer.
Print Assumptions C80_integer_accepts.
Print Assumptions C80_float.
Print Assumptions C80_float_accepts.
Print Assumptions C80_no_bounds.
Print Assumptions C80_ordered_weights.
Print Assumptions C80_categorical.
Print Assumptions C80_categorical_accepts.
Print Assumptions C78_name_refuted.
Print Assumptions C78_range_refuted.
Print Assumptions C79_default_refuted.
Print Assumptions C79_meta_refuted.
Print Assumptions C81_value.
Print Assumptions C81_values.
Print Assumptions C81_equal_partial.
Print Assumptions C81_both.
Print Assumptions C81_differ.
Print Assumptions C82_copy_refuted.
Print Assumptions C82_copy_plain_refuted.
Print Assumptions C81_refuted.
Print Assumptions C83_words.
Print Assumptions C83_numbers.
Print Assumptions C83_values.
Print Assumptions C83_hp_partial.
Print Assumptions C83_round_trip_partial.
Print Assumptions C83_constant_refuted.
Print Assumptions C83_strings_refuted.
Print Assumptions C83_prior_refuted.
Print Assumptions C83_meta_refuted.
Print Assumptions C83_ordinal_refuted.
Print Assumptions C83_name_refuted.
Print Assumptions C83_digit_refuted.
Print Assumptions C83_in_refuted.
Print Assumptions C83_amp_refuted.
Print Assumptions C83_inactive_refuted.
Print Assumptions C84_write_iff.
Print Assumptions C85_file.
Print Assumptions C85_comments.
Print Assumptions C86_string.
Print Assumptions C86_nothing.
Print Assumptions C87_hp_partial.
Print Assumptions C87_round_trip_partial.
Print Assumptions C87_constant_refuted.
Print Assumptions C87_prior_refuted.
Print Assumptions C87_clause_refuted.
Print Assumptions C87_condition_refuted.
Print Assumptions C87_in_refuted.
Print Assumptions C87_nested_refuted.
Print Assumptions C88_write_iff.
Print Assumptions C89_file.
Print Assumptions C89_comments.
Print Assumptions C89_order.
Print Assumptions C89_order_new.
Print Assumptions C90_add.
Print Assumptions C90_order.
Print Assumptions C91_space.
Print Assumptions C91_result.
Print Assumptions C91_raises.
Print Assumptions C91_position_partial.
Print Assumptions C91_position_refuted.
Print Assumptions C92_to_float.
Print Assumptions C92_meta.
Print Assumptions C92_back_partial.
Print Assumptions C93_get_order.
Print Assumptions C93_inverse.
Print Assumptions C93_position.
Print Assumptions C93_check_order.
Print Assumptions C93_total.
Print Assumptions C93_get_value.
Print Assumptions C93_negative_refuted.
Print Assumptions C92_back_refuted.
Print Assumptions C92_meta_refuted.
Print Assumptions C94_load.
Print Assumptions C94_errors.
Print Assumptions C94_dict.
Print Assumptions C94_dump.
Print Assumptions C94_dump_exact.
Print Assumptions C94_space.
Print Assumptions C94_from_json.
Print Assumptions C95_legal_partial.
Print Assumptions C95_vector_partial.
Print Assumptions C95_legal_one.
Print Assumptions C95_vector_one_partial.
Print Assumptions C95_value.
Print Assumptions C95_value_refuses.
Print Assumptions C95_mixed.
Print Assumptions C41_many_partial.
Print Assumptions C96_list_partial.
Print Assumptions C96_mask.
Print Assumptions C96_illegal_partial.
Print Assumptions C96_returns_partial.
Print Assumptions C96_uniform.
Print Assumptions C97_int_partial.
Print Assumptions C97_int_all.
Print Assumptions C97_float.
Print Assumptions C97_ordinal.
Print Assumptions C97_categorical.
Print Assumptions C97_illegal.
Print Assumptions C95_refuted.
Print Assumptions C95_refuted_bool.
Print Assumptions C97_refuted.
Print Assumptions C95_refuted_text.
Print Assumptions C96_refuted.
Print Assumptions C29_refuted.
Print Assumptions C33_refuted.
Print Assumptions C33_refuted_error.
Print Assumptions C66_refuted.
Print Assumptions C99_int.
Print Assumptions C98_values.
Print Assumptions C98_injective.
Print Assumptions C98_monotone.
Print Assumptions C98_unit.
Print Assumptions C100_single.
Print Assumptions C100_array_partial.
Print Assumptions C100_density_partial.
Print Assumptions C100_refuted.
Print Assumptions C98_refuted.
Print Assumptions C101_sample.
Print Assumptions C101_quantize_partial.
Print Assumptions C101_neighbors_partial.
Print Assumptions C101_neighbor_values_partial.
Print Assumptions C101_refuted.
Print Assumptions C102_once.
Print Assumptions C102_stored.
Print Assumptions C99_float_entries.
Print Assumptions C99_float_monotone.
Print Assumptions C99_float_values.
Print Assumptions C102_read.
Print Assumptions C103_error.
Print Assumptions C103_values_partial.
Print Assumptions C103_zero_partial.
Print Assumptions C103_refuted.
Print Assumptions C99_float_refuted.
Print Assumptions C102_refuted.
Print Assumptions C104_values.
Print Assumptions C104_unit.
Print Assumptions C104_range.
Print Assumptions C105_entries.
Print Assumptions C105_values.
Print Assumptions C105_error.
Print Assumptions C105_decimals_partial.
Print Assumptions C104_refuted.
Print Assumptions C105_refuted.
Print Assumptions C106_int.
Print Assumptions C106_int_in.
Print Assumptions C106_log_int.
Print Assumptions C106_float_order.
Print Assumptions C106_float_partial.
Print Assumptions C106_float_in_partial.
Print Assumptions C106_refuted.
Print Assumptions C106_named_refuted.
Print Assumptions C107_int.
Print Assumptions C107_differ_partial.
Print Assumptions C107_same_partial.
Print Assumptions C107_refuted.
Print Assumptions C107_mixed_partial.
Print Assumptions C107_mixed_refuted.
Print Assumptions C108_has_neighbors_partial.
Print Assumptions C108_get_neighbors.
Print Assumptions C108_check_partial.
Print Assumptions C108_check_stricter.
Print Assumptions C108_forbidden.
Print Assumptions C108_has_neighbors_refuted.
Print Assumptions C108_check_refuted.
Print Assumptions C109_value_partial.
Print Assumptions C109_weightless.
Print Assumptions C109_no_exception.
Print Assumptions C109_stops_partial.
Print Assumptions C109_reached_partial.
Print Assumptions C109_exactly_partial.
Print Assumptions C109_refuted.
Print Assumptions C110_counted_partial.
Print Assumptions C110_weighted.
Print Assumptions C110_constant.
Print Assumptions C110_float_partial.
Print Assumptions C110_shaped.
Print Assumptions C110_log.
Print Assumptions C110_log_refuted.
Print Assumptions C110_shaped_refuted.
Print Assumptions C110_units_refuted.
Print Assumptions C111_value_partial.
Print Assumptions C111_vector_partial.
Print Assumptions C111_sampled.
Print Assumptions C111_reached.
Print Assumptions C112_support.
Print Assumptions C112_spread_partial.
Print Assumptions C112_log_partial.
Print Assumptions C112_units_partial.
Print Assumptions C112_log_refuted.
Print Assumptions C111_value_refuted.
Print Assumptions C111_vector_refuted.
Print Assumptions C112_sigma_refuted.
Print Assumptions C113_roundtrip_partial.
Print Assumptions C113_legal_partial.
Print Assumptions C113_unknown_partial.
Print Assumptions C113_decode_partial.
Print Assumptions C113_densities.
Print Assumptions C113_different_partial.
Print Assumptions C113_ordinal_different.
Print Assumptions C113_default_partial.
Print Assumptions C113_given_default.
Print Assumptions C113_constant_partial.
Print Assumptions C115_partial.
Print Assumptions C114_partial.
Print Assumptions C114_exact.
Print Assumptions C114_entry.
Print Assumptions C113_number_refuted.
Print Assumptions C113_wrong_refuted.
Print Assumptions C113_illegal_refuted.
Print Assumptions C113_twice_refuted.
Print Assumptions C113_legal_refuted.
Print Assumptions C113_list_refuted.
Print Assumptions C113_constant_refuted.
Print Assumptions C115_refuted.
Print Assumptions C115_error_refuted.
Print Assumptions C114_refuted.
Print Assumptions C116_reach_partial.
Print Assumptions C116_inactive.
Print Assumptions C116_stays_partial.
Print Assumptions C117_order_partial.
Print Assumptions C117_succeeds_partial.
Print Assumptions C117_again.
Print Assumptions C117_again_succeeds.
Print Assumptions C117_last_partial.
Print Assumptions C116_refuted.
Print Assumptions C117_refuted.
Print Assumptions C117_last_refuted.
Print Assumptions C118_reach_partial.
Print Assumptions C118_refuted.
Print Assumptions C119_same_partial.
Print Assumptions C119_written.
Print Assumptions C119_equal_partial.
Print Assumptions C119_equal_once_partial.
Print Assumptions C119_equal_refuted.
Print Assumptions C119_children_refuted.
Print Assumptions C120_pure.
Print Assumptions C120_plain.
Print Assumptions C122_alone.
Print Assumptions C122_made.
Print Assumptions C122_from_array.
Print Assumptions C122_from_list.
Print Assumptions C122_other_array.
Print Assumptions C122_assignment.
Print Assumptions C122_refused.
Print Assumptions C122_remembered.
Print Assumptions C121_clauses.
Print Assumptions C121_unmoved.
Print Assumptions C121_shift.
Print Assumptions C121_stale.
Print Assumptions C121_iteration.
Print Assumptions C121_given.
Print Assumptions C121_refuted.
Print Assumptions C121_conditions_refuted.
Print Assumptions C122_refuted.
Print Assumptions C122_shared_refuted.
Print Assumptions C123_raises.
Print Assumptions C123_covers.
Print Assumptions C123_stays.
Print Assumptions C123_next_partial.
Print Assumptions C123_same_partial.
Print Assumptions C123_half_refuted.
Print Assumptions C124_vectors.
Print Assumptions C124_values.
Print Assumptions C124_default.
Print Assumptions C124_active.
Print Assumptions C124_allowed_partial.
Print Assumptions C124_hyperparameters_partial.
Print Assumptions C124_condition_partial.
Print Assumptions C124_inactive_partial.
Print Assumptions C124_condition_refuted.
Print Assumptions C125_fills.
Print Assumptions C125_succeeds_partial.
Print Assumptions C125_raises_partial.
Print Assumptions C125_back_partial.
Print Assumptions C125_start_partial.
Print Assumptions C125_default_partial.
Print Assumptions C125_default_refuted.
Print Assumptions C125_float_refuted.
Print Assumptions C126_refl.
Print Assumptions C126_sym.
Print Assumptions C126_trans.
Print Assumptions C126_iff.
Print Assumptions C126_legal.
Print Assumptions C126_legal_vector.
Print Assumptions C126_vector_partial.
Print Assumptions C126_density.
Print Assumptions C126_sample_partial.
Print Assumptions C126_vector_refuted.
Print Assumptions C126_meta_refuted.
Print Assumptions C127_built.
Print Assumptions C127_again_partial.
Print Assumptions C127_equal_partial.
Print Assumptions C127_order.
Print Assumptions C127_default.
Print Assumptions C127_none.
Print Assumptions C127_q.
Print Assumptions C127_probabilities.
Print Assumptions C127_relation.
Print Assumptions C127_reordered.
Print Assumptions C127_log.
Print Assumptions C127_meta.
Print Assumptions C127_weights.
Print Assumptions C127_no_default.
Print Assumptions C127_unknown_key.
Print Assumptions C127_missing_key.
Print Assumptions C127_type.
Print Assumptions C127_dangling.
Print Assumptions C127_again_refuted.
Print Assumptions C127_probabilities_refuted.
Print Assumptions C128_new.
Print Assumptions C128_old.
Print Assumptions C128_json.
Print Assumptions C129_clause_partial.
Print Assumptions C129_relation.
Print Assumptions C129_condition.
Print Assumptions C129_clause_determined.
Print Assumptions C129_condition_partial.
Print Assumptions C129_typed.
Print Assumptions C129_parts.
Print Assumptions C129_relation_refuted.
Print Assumptions C129_condition_refuted.
Print Assumptions C129_conjunction_refuted.
Print Assumptions C130_probability.
Print Assumptions C130_sum.
Print Assumptions C130_choice.
Print Assumptions C130_frequency.
Print Assumptions C130_default_partial.
Print Assumptions C130_default_refuted.
Print Assumptions C130_overflow_refuted.
Print Assumptions C130_nan_refuted.
Print Assumptions C131_choice_partial.
Print Assumptions C131_int_partial.
Print Assumptions C131_entry_partial.
Print Assumptions C131_float.
Print Assumptions C131_constant.
Print Assumptions C131_below_refuted.
Print Assumptions C131_above_refuted.
Print Assumptions C132_column_partial.
Print Assumptions C132_sample_partial.
Print Assumptions C132_ratio_partial.
Print Assumptions C132_law.
Print Assumptions C132_density_partial.
Print Assumptions C132_order_refuted.
Print Assumptions C133_column_partial.
Print Assumptions C133_same_partial.
Print Assumptions C133_uniform_partial.
Print Assumptions C133_conditions_refuted.
Print Assumptions C134_scale.
Print Assumptions C134_sample.
Print Assumptions C134_keeps_partial.
Print Assumptions C134_never_refuted.
Print Assumptions C134_exact_refuted.
Print Assumptions C101_discretized.
Print Assumptions C134_differ.
Print Assumptions C134_linear.
Print Assumptions C106_log_float_order.
Print Assumptions C106_log_refuted.
Print Assumptions C135_independent_partial.
Print Assumptions C135_success_partial.
Print Assumptions C135_sample_partial.
Print Assumptions C136_valid.
Print Assumptions C136_accepts_partial.
Print Assumptions C136_orderly.
Print Assumptions C136_assignment_partial.
Print Assumptions C136_accepted_partial.
Print Assumptions C136_column_partial.
Print Assumptions C136_sample_partial.
Print Assumptions C137_column_partial.
Print Assumptions C137_sample_partial.
Print Assumptions C137_root_partial.
Print Assumptions C137_density_partial.
Print Assumptions C137_refuted.
Print Assumptions C138_neighbour.
Print Assumptions C138_back_partial.
Print Assumptions C138_flat_partial.
Print Assumptions C138_refuted.
Print Assumptions C139_default.
Print Assumptions C139_unique.
Print Assumptions C139_order.
Print Assumptions C139_grow.
Print Assumptions C139_parts.
Print Assumptions C139_joined_partial.
Print Assumptions C139_subspace_partial.
Print Assumptions C140_split_partial.
Print Assumptions C140_join_partial.
Print Assumptions C140_count_partial.
Print Assumptions C140_neighbours_partial.
Print Assumptions C141_grid.
Print Assumptions C141_round_partial.
Print Assumptions C141_accepted_partial.
Print Assumptions C141_ratio_partial.
Print Assumptions C141_neighbours_partial.
Print Assumptions C142_orderly_partial.
Print Assumptions C142_open_partial.
Print Assumptions C142_closed_partial.
Print Assumptions C142_sample_partial.
Print Assumptions C53_items_partial.
Print Assumptions C143_order_partial.
Print Assumptions C144_split_partial.
Print Assumptions C144_open_partial.
Print Assumptions C144_closed_partial.
Print Assumptions C144_count_partial.
Print Assumptions C145_beside_partial.
Print Assumptions C145_under_partial.
Print Assumptions C146_order_partial.
Print Assumptions C147_neighbours_partial.
Print Assumptions C147_complete_partial.
