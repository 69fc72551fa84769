(** Generated by tools/gen_assumptions.py: what every theorem rests on.  Each line
    prints "Closed under the global context". *)
From Verif Require PropAdaptor PropAlloc PropAmplify PropAssert PropBlowup PropBuffer PropCanonical PropCast PropClient PropConcurrent PropContainers PropCopy PropData PropDepth PropDocument PropDump PropEdit PropExec PropExec2 PropFormat PropFrames PropHostile PropInsitu PropInsituAny PropInsituPara PropLenient PropLifetime PropLinked PropOom PropOomClient PropOomPool PropOrder PropOverload PropOverrun PropOverrunPara PropPara PropParaAlloc PropParaFrames PropParaObjects PropParaSession PropPattern PropPatternLife PropPlatform PropPool PropPoolGrowth PropPoolParse PropProgramMemory PropRace PropReads PropReproduce PropRoundTrip PropSession PropSize PropStable PropStorage PropTables PropTail PropTamper PropThreadPool PropTypes PropVarint.
Print Assumptions PropAdaptor.C40_adaptor_content.
Print Assumptions PropAdaptor.C40_adaptor_round_trip.
Print Assumptions PropAlloc.C98_owning.
Print Assumptions PropAlloc.C98_in_place.
Print Assumptions PropAlloc.C98_serialized.
Print Assumptions PropAlloc.C98_bounded.
Print Assumptions PropAmplify.C78_plain_documents_linear.
Print Assumptions PropAmplify.C79_any_document_quadratic_partial.
Print Assumptions PropAmplify.C79_amplification_refuted.
Print Assumptions PropAssert.C94_release.
Print Assumptions PropAssert.C94_exactly.
Print Assumptions PropAssert.C94_otherwise.
Print Assumptions PropBlowup.C80_parallel_size_refuted.
Print Assumptions PropBlowup.C80_library_documents_partial.
Print Assumptions PropBlowup.C80_unsplit_partial.
Print Assumptions PropBuffer.C85_buffer_overwritten.
Print Assumptions PropBuffer.C85_buffer_gone.
Print Assumptions PropCanonical.C58_bytes_determine_content.
Print Assumptions PropCanonical.C59_content_determines_bytes.
Print Assumptions PropCanonical.C60_stable_bytes.
Print Assumptions PropCast.C88_casts_after_copy.
Print Assumptions PropCast.C88_casts_after_insitu.
Print Assumptions PropCast.C88_casts_exact.
Print Assumptions PropCast.C88_null_is_undefined.
Print Assumptions PropClient.C101_programs.
Print Assumptions PropClient.C101_merge_invisible.
Print Assumptions PropClient.C102_insert_refuted.
Print Assumptions PropClient.C102_insert_partial.
Print Assumptions PropClient.C103_entries_refuted.
Print Assumptions PropClient.C103_entries_partial.
Print Assumptions PropClient.C101_nothing_lost.
Print Assumptions PropConcurrent.C07_schedule_independent.
Print Assumptions PropConcurrent.C08_no_race.
Print Assumptions PropConcurrent.C57_any_input_race_free_refuted.
Print Assumptions PropConcurrent.C57_no_dictionary_race_free_partial.
Print Assumptions PropContainers.C17_array.
Print Assumptions PropContainers.C18_map.
Print Assumptions PropContainers.C18_last_write_wins.
Print Assumptions PropContainers.C52_take.
Print Assumptions PropContainers.C18_map_view.
Print Assumptions PropContainers.C20_iteration.
Print Assumptions PropContainers.C20_insertion_order.
Print Assumptions PropContainers.C20_loop.
Print Assumptions PropContainers.C20_array_keys_throw.
Print Assumptions PropContainers.C22_wrapper_total.
Print Assumptions PropContainers.C22_wrapper_exact.
Print Assumptions PropCopy.C89_copies_share_entries.
Print Assumptions PropCopy.C89_copies_independent_partial.
Print Assumptions PropCopy.C89_take_refuted.
Print Assumptions PropData.C23_typed_reads.
Print Assumptions PropData.C23_construction.
Print Assumptions PropData.C23_is_the_value.
Print Assumptions PropData.C23_default_is_empty.
Print Assumptions PropData.C23_typed_reads_view.
Print Assumptions PropData.C48_constructed_and_assigned_partial.
Print Assumptions PropData.C48_view_array_refuted.
Print Assumptions PropData.C48_view_partial.
Print Assumptions PropData.C24_view_read_throws_refuted.
Print Assumptions PropData.C24_view_reads_partial.
Print Assumptions PropData.C34_released_once.
Print Assumptions PropData.C34_released_once_from_value.
Print Assumptions PropData.C50_throwing_assignment_refuted.
Print Assumptions PropData.C50_after_exception_partial.
Print Assumptions PropData.C51_self_assignment_refuted.
Print Assumptions PropData.C51_copy_first_partial.
Print Assumptions PropDepth.C81_depth_limit_refuted.
Print Assumptions PropDepth.C81_depth_linear_partial.
Print Assumptions PropDocument.C11_framing.
Print Assumptions PropDocument.C30_blocks_tile.
Print Assumptions PropDocument.C46_dictionary.
Print Assumptions PropDocument.C43_invalid_data.
Print Assumptions PropDump.C39_sizes_decimal.
Print Assumptions PropDump.C39_dump_outline.
Print Assumptions PropDump.C39_negative_level.
Print Assumptions PropDump.C39_same_for_views.
Print Assumptions PropDump.C39_round_trips.
Print Assumptions PropEdit.C84_edit_cycle.
Print Assumptions PropExec.C68_parallel_parse_completes.
Print Assumptions PropExec.C68_failing_parse_completes.
Print Assumptions PropExec.C69_zero_workers_refuted.
Print Assumptions PropExec.C69_any_positive_number_partial.
Print Assumptions PropExec2.C70_parses_share_the_pool.
Print Assumptions PropFormat.C95_written.
Print Assumptions PropFormat.C95_read.
Print Assumptions PropFrames.C62_parallel_parse_owned.
Print Assumptions PropFrames.C63_failed_parse_keeps_nothing.
Print Assumptions PropFrames.C64_pools_not_shared.
Print Assumptions PropHostile.C12_truncation_refuted.
Print Assumptions PropHostile.C12_truncated_body_partial.
Print Assumptions PropHostile.C14_memory_safety_refuted.
Print Assumptions PropHostile.C14_rejected_partial.
Print Assumptions PropHostile.C14_serialized_partial.
Print Assumptions PropHostile.C15_termination_refuted.
Print Assumptions PropHostile.C15_dictionary_owning_partial.
Print Assumptions PropHostile.C15_short_lengths_partial.
Print Assumptions PropHostile.C16_result_well_formed.
Print Assumptions PropHostile.C16_reads_are_defined.
Print Assumptions PropHostile.C38_extendable_sequential_partial.
Print Assumptions PropHostile.C38_extendable_parallel_refuted.
Print Assumptions PropInsitu.C76_insitu_agrees.
Print Assumptions PropInsitu.C77_views_inside_refuted.
Print Assumptions PropInsitu.C77_views_inside_partial.
Print Assumptions PropInsitu.C42_insitu_exactly_partial.
Print Assumptions PropInsituAny.C77_only_absurd_lengths_partial.
Print Assumptions PropInsituAny.C77_plausible_lengths_partial.
Print Assumptions PropInsituPara.C86_insitu_follows_copy.
Print Assumptions PropInsituPara.C86_custom_refused.
Print Assumptions PropInsituPara.C86_parallel_insitu_exactly.
Print Assumptions PropInsituPara.C77_views_inside_all_schedulers_partial.
Print Assumptions PropInsituPara.C42_insitu_exactly_all_schedulers_partial.
Print Assumptions PropLenient.C73_accepted_means.
Print Assumptions PropLenient.C73_accepted_documents.
Print Assumptions PropLenient.C73_documents_accepted.
Print Assumptions PropLenient.C73_plain_documents_exactly.
Print Assumptions PropLenient.C74_platforms_agree.
Print Assumptions PropLenient.C74_release_accepts.
Print Assumptions PropLenient.C75_normalisation.
Print Assumptions PropLifetime.C108_lifetime.
Print Assumptions PropLinked.C61_linked_containers.
Print Assumptions PropOom.C109_enough_memory.
Print Assumptions PropOom.C109_null_buffer_refuted.
Print Assumptions PropOom.C109_merge_refuted.
Print Assumptions PropOom.C109_bad_alloc_partial.
Print Assumptions PropOomClient.C111_programs.
Print Assumptions PropOomClient.C111_no_effect.
Print Assumptions PropOomClient.C111_reported.
Print Assumptions PropOomClient.C111_enough_memory.
Print Assumptions PropOomPool.C109_bridge_pools_partial.
Print Assumptions PropOomPool.C109_bridge_enough_memory.
Print Assumptions PropOomPool.C109_bridge_merge_refuted.
Print Assumptions PropOrder.C110_order_partial.
Print Assumptions PropOrder.C110_small_documents.
Print Assumptions PropOrder.C110_two_parallel_trips_refuted.
Print Assumptions PropOverload.C87_data_accepts.
Print Assumptions PropOverload.C87_tag_matches_partial.
Print Assumptions PropOverload.C87_tag_refuted.
Print Assumptions PropOverload.C87_view_accepts.
Print Assumptions PropOverload.C87_readers.
Print Assumptions PropOverload.C87_write_read.
Print Assumptions PropOverrun.C91_exactly.
Print Assumptions PropOverrun.C91_only.
Print Assumptions PropOverrunPara.C97_only.
Print Assumptions PropOverrunPara.C97_leads.
Print Assumptions PropOverrunPara.C97_otherwise.
Print Assumptions PropPara.C82_unsplit_is_sequential.
Print Assumptions PropPara.C82_parallel_accepted_means.
Print Assumptions PropPara.C82_parallel_documents_accepted.
Print Assumptions PropPara.C83_tiled_documents_agree_partial.
Print Assumptions PropPara.C83_same_content_refuted.
Print Assumptions PropPara.C83_same_acceptance_refuted.
Print Assumptions PropParaAlloc.C99_owning.
Print Assumptions PropParaAlloc.C99_in_place.
Print Assumptions PropParaAlloc.C99_serialized.
Print Assumptions PropParaAlloc.C99_exception.
Print Assumptions PropParaFrames.C104_pools_of_a_load.
Print Assumptions PropParaFrames.C107_execution.
Print Assumptions PropParaObjects.C104_objects.
Print Assumptions PropParaObjects.C107_objects.
Print Assumptions PropParaObjects.C107_failed_load.
Print Assumptions PropParaSession.C107_load.
Print Assumptions PropParaSession.C107_pools.
Print Assumptions PropParaSession.C107_cycle.
Print Assumptions PropPattern.C25_match_decides.
Print Assumptions PropPattern.C25_map_pattern_history.
Print Assumptions PropPattern.C25_array_pattern_history.
Print Assumptions PropPattern.C25_or_and_pushes.
Print Assumptions PropPattern.C25_leaf_patterns.
Print Assumptions PropPattern.C26_match_preserved.
Print Assumptions PropPattern.C27_match_safe_refuted.
Print Assumptions PropPattern.C27_match_safe_partial.
Print Assumptions PropPatternLife.C90_leaf_patterns_partial.
Print Assumptions PropPatternLife.C90_composite_refuted.
Print Assumptions PropPlatform.C74_platforms_agree_all_schedulers.
Print Assumptions PropPlatform.C74_platforms_agree_in_place.
Print Assumptions PropPlatform.C74_same_outcome.
Print Assumptions PropPlatform.C74_debug_aborts_or_agrees.
Print Assumptions PropPlatform.C74_dictionary_outcome.
Print Assumptions PropPool.C31_alloc_unique_stable.
Print Assumptions PropPool.C31_no_overlap.
Print Assumptions PropPool.C32_destroyed_exactly_once.
Print Assumptions PropPool.C32_all_memory_returned.
Print Assumptions PropPoolGrowth.C96_growth.
Print Assumptions PropPoolGrowth.C96_overhead.
Print Assumptions PropPoolGrowth.C96_any_history.
Print Assumptions PropPoolParse.C92_parses_return.
Print Assumptions PropPoolParse.C93_stopped_pool_refuted.
Print Assumptions PropPoolParse.C93_only_dropped_partial.
Print Assumptions PropProgramMemory.C106_bounded.
Print Assumptions PropProgramMemory.C106_returned.
Print Assumptions PropRace.C57_contended_refuted.
Print Assumptions PropRace.C57_uncontended_partial.
Print Assumptions PropReads.C105_reads.
Print Assumptions PropReproduce.C100_same_document.
Print Assumptions PropReproduce.C100_identical.
Print Assumptions PropRoundTrip.C01_round_trip_normal.
Print Assumptions PropRoundTrip.C01_round_trip_built.
Print Assumptions PropRoundTrip.C02_round_trip_replace.
Print Assumptions PropRoundTrip.C03_insitu_same_content.
Print Assumptions PropRoundTrip.C04_views_inside_buffer.
Print Assumptions PropRoundTrip.C05_copy_is_independent.
Print Assumptions PropRoundTrip.C06_parallel_equals_sequential.
Print Assumptions PropRoundTrip.C09_byte_order.
Print Assumptions PropRoundTrip.C13_trailing_bytes.
Print Assumptions PropRoundTrip.C21_two_round_trips.
Print Assumptions PropRoundTrip.C19_duplicate_keys_refuted.
Print Assumptions PropRoundTrip.C19_lookup_after_round_trip_partial.
Print Assumptions PropRoundTrip.C41_custom_types.
Print Assumptions PropRoundTrip.C42_insitu_custom_refuted.
Print Assumptions PropRoundTrip.C42_insitu_accepts_partial.
Print Assumptions PropRoundTrip.C47_iteration_order_invisible.
Print Assumptions PropRoundTrip.C48_c_strings.
Print Assumptions PropSession.C104_sessions_are_programs.
Print Assumptions PropSession.C104_taken.
Print Assumptions PropSession.C104_load.
Print Assumptions PropSession.C104_undisturbed.
Print Assumptions PropSession.C104_cycle.
Print Assumptions PropSize.C44_any_size_refuted.
Print Assumptions PropSize.C44_below_limit_partial.
Print Assumptions PropStable.C105_unchanged_or_gone.
Print Assumptions PropStable.C105_unchanged.
Print Assumptions PropStable.C105_session.
Print Assumptions PropStorage.C33_storage_released_refuted.
Print Assumptions PropStorage.C33_every_long_payload_leaks_refuted.
Print Assumptions PropStorage.C33_frugal_partial.
Print Assumptions PropStorage.C33_no_leak_before_clear_partial.
Print Assumptions PropTables.C28_dictionary_ids.
Print Assumptions PropTables.C49_register_after_lookup_refuted.
Print Assumptions PropTables.C49_frozen_table_partial.
Print Assumptions PropTables.C29_split_table.
Print Assumptions PropTail.C71_tail_is_ignored.
Print Assumptions PropTail.C13_same_object.
Print Assumptions PropTail.C12_sequential_cut_partial.
Print Assumptions PropTail.C72_split_table_unused.
Print Assumptions PropTail.C72_tables_exchanged.
Print Assumptions PropTail.C12_cut_before_split_table_partial.
Print Assumptions PropTail.C12_silent_loss_refuted.
Print Assumptions PropTamper.C67_split_table.
Print Assumptions PropTamper.C67_dictionary_partial.
Print Assumptions PropTamper.C67_ambiguous_dictionary_refuted.
Print Assumptions PropThreadPool.C35_fifo_exactly_once.
Print Assumptions PropThreadPool.C35_stop_drains.
Print Assumptions PropThreadPool.C36_no_deadlock.
Print Assumptions PropThreadPool.C36_no_lost_wakeup.
Print Assumptions PropThreadPool.C36_every_schedule_ends.
Print Assumptions PropThreadPool.C37_schedule_truthful_refuted.
Print Assumptions PropThreadPool.C37_accepted_runs_partial.
Print Assumptions PropThreadPool.C53_every_stop_drains_refuted.
Print Assumptions PropThreadPool.C53_late_stop_partial.
Print Assumptions PropThreadPool.C54_current_id.
Print Assumptions PropThreadPool.C55_worker_num_refuted.
Print Assumptions PropThreadPool.C55_first_worker_num_partial.
Print Assumptions PropThreadPool.C56_stop_inside_task_refuted.
Print Assumptions PropThreadPool.C56_no_termination_partial.
Print Assumptions PropTypes.C65_variant_storage.
Print Assumptions PropTypes.C65_data_alternatives.
Print Assumptions PropTypes.C66_adaptor_types_partial.
Print Assumptions PropTypes.C66_custom_refuted.
Print Assumptions PropVarint.C10_varint_round_trip.
Print Assumptions PropVarint.C45_unsigned_char_refuted.
Print Assumptions PropVarint.C45_unsigned_char_partial.
