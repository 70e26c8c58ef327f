(** Prints the assumptions of every theorem named in MANIFEST.json (generated from it). *)

From Verif Require AccessProps AnswerProps ApiProps BatchProps BindProps BlockProps.
From Verif Require BridgeProps BuilderProps CargoProps CellProps ChronoProps ClockProps.
From Verif Require ClosureProps CodecProps CodecUtf8 ComponentProps CookieJson CookieProps.
From Verif Require CssMacroText CssProps CssText DomBoot DomListen DomMacroPage.
From Verif Require DomMacroProps DomQueue DomSort DomSsr DomWire EnvProps.
From Verif Require EventProps FetchProps GraphProps HandoverProps HtmlProps InputProps.
From Verif Require InspectProps JsonFinal JsonTextProps LogProps ProxyProps ReactMore.
From Verif Require ReactProps RenderHistory RenderList RenderNest ResourceProps RouterProps.
From Verif Require ScaffoldProps ServerProps SmallProps SsrList StaticProps StaticServe.
From Verif Require StoreProps SuspenseElem SuspenseProps TimerProps UiOnce UiTheorems.
From Verif Require WakerProps WatchPages WatchProps WebsocketProps WireProps.

(** C01 *)
Print Assumptions ReactProps.C01_fresh_reads_refuted.
Print Assumptions ReactProps.C01_fresh_reads_partial.
Print Assumptions ReactProps.C01_fresh_reads_static_partial.

(** C02 *)
Print Assumptions ReactProps.C02_glitch_free_refuted.
Print Assumptions ReactProps.C02_glitch_free_partial.
Print Assumptions ReactProps.C02_glitch_free_static_partial.

(** C03 *)
Print Assumptions ReactProps.C03_once_per_transaction.

(** C04 *)
Print Assumptions ReactProps.C04_no_missed_update_refuted.
Print Assumptions ReactProps.C04_no_missed_update_partial.
Print Assumptions ReactProps.C04_no_missed_update_static_partial.

(** C05 *)
Print Assumptions ReactProps.C05_no_repeat.
Print Assumptions ReactProps.C05_subscribe_all.
Print Assumptions ReactProps.C05_subscribe_all_needs.
Print Assumptions ReactProps.C05_subscribe_all_refuted.

(** C06 *)
Print Assumptions ReactProps.C06_no_call_after_drop.
Print Assumptions ReactProps.C06_silent_after_drop.

(** C07 *)
Print Assumptions GraphProps.C07_replace_parents.
Print Assumptions GraphProps.C07_history.

(** C08 *)
Print Assumptions GraphProps.C08_all_deps.
Print Assumptions ReactMore.C08_set_invalidates.
Print Assumptions ReactMore.C08_equal_set_is_silent.

(** C09 *)
Print Assumptions ReactProps.C09_connected_iff_needed.

(** C10 *)
Print Assumptions ReactProps.C10_read_does_not_connect_refuted.
Print Assumptions ReactProps.C10_read_does_not_connect_partial.
Print Assumptions ReactProps.C10_no_computed_read_partial.

(** C100 *)
Print Assumptions HandoverProps.C100_to_server_partial.
Print Assumptions HandoverProps.C100_from_server_partial.
Print Assumptions HandoverProps.C100_to_page_partial.
Print Assumptions HandoverProps.C100_from_page_partial.
Print Assumptions HandoverProps.C100_bytes_partial.
Print Assumptions HandoverProps.C100_echo_partial.
Print Assumptions HandoverProps.C100_high_refuted.
Print Assumptions HandoverProps.C100_bytes_kept_refuted.
Print Assumptions HandoverProps.C100_bytes_grown_refuted.
Print Assumptions HandoverProps.C100_echo_refuted.

(** C101 *)
Print Assumptions ComponentProps.C101_mount.
Print Assumptions ComponentProps.C101_errors.
Print Assumptions ComponentProps.C101_dom.
Print Assumptions ComponentProps.C101_reach_partial.
Print Assumptions ComponentProps.C101_restricted_refuted.
Print Assumptions ComponentProps.C101_mut_refuted.

(** C102 *)
Print Assumptions CargoProps.C102_infer.
Print Assumptions CargoProps.C102_first.
Print Assumptions CargoProps.C102_program_partial.
Print Assumptions CargoProps.C102_outside.
Print Assumptions CargoProps.C102_named.
Print Assumptions CargoProps.C102_path.
Print Assumptions CargoProps.C102_found.
Print Assumptions CargoProps.C102_target_refuted.
Print Assumptions CargoProps.C102_directory_refuted.
Print Assumptions CargoProps.C102_library_refuted.
Print Assumptions CargoProps.C102_failed_refuted.
Print Assumptions CargoProps.C102_statement_refuted.

(** C103 *)
Print Assumptions ScaffoldProps.C103_project.
Print Assumptions ScaffoldProps.C103_refused.
Print Assumptions ScaffoldProps.C103_builds.
Print Assumptions ScaffoldProps.C103_name_refuted.

(** C104 *)
Print Assumptions AnswerProps.C104_plain.
Print Assumptions AnswerProps.C104_page.
Print Assumptions AnswerProps.C104_updates.
Print Assumptions AnswerProps.C104_url.
Print Assumptions AnswerProps.C104_start.
Print Assumptions AnswerProps.C104_handler.
Print Assumptions AnswerProps.C104_callback.
Print Assumptions AnswerProps.C104_complaint.
Print Assumptions AnswerProps.C104_message.
Print Assumptions AnswerProps.C104_text_partial.
Print Assumptions AnswerProps.C104_html.
Print Assumptions AnswerProps.C104_panic_refuted.
Print Assumptions AnswerProps.C104_charset_refuted.

(** C105 *)
Print Assumptions BuilderProps.C105_header.
Print Assumptions BuilderProps.C105_body.
Print Assumptions BuilderProps.C105_ttl_partial.
Print Assumptions BuilderProps.C105_sent_partial.
Print Assumptions BuilderProps.C105_forever_refuted.
Print Assumptions BuilderProps.C105_minutes_refuted.
Print Assumptions BuilderProps.C105_case_refuted.

(** C106 *)
Print Assumptions CellProps.C106_fair_partial.
Print Assumptions CellProps.C106_closures.
Print Assumptions CellProps.C106_suspense_refuted.
Print Assumptions CellProps.C106_hooks_refuted.

(** C107 *)
Print Assumptions WakerProps.C107_safe_partial.
Print Assumptions WakerProps.C107_freed_last.
Print Assumptions WakerProps.C107_leak.
Print Assumptions WakerProps.C107_leak_refuted.

(** C108 *)
Print Assumptions BlockProps.C108_writer_partial.
Print Assumptions BlockProps.C108_from_slice_partial.
Print Assumptions BlockProps.C108_writes_partial.
Print Assumptions BlockProps.C108_write_refuted.
Print Assumptions BlockProps.C108_layout_refuted.
Print Assumptions BlockProps.C108_unwritten_refuted.
Print Assumptions BlockProps.C108_empty_refuted.
Print Assumptions BlockProps.C108_long_refuted.

(** C109 *)
Print Assumptions ResourceProps.C109_question.
Print Assumptions ResourceProps.C109_equal.
Print Assumptions ResourceProps.C109_map.
Print Assumptions ResourceProps.C109_nan_refuted.

(** C11 *)
Print Assumptions ReactProps.C11_outermost.
Print Assumptions ReactProps.C11_nested.
Print Assumptions ReactProps.C11_refused.
Print Assumptions ReactProps.C11_brackets.

(** C110 *)
Print Assumptions BatchProps.C110_whole_partial.
Print Assumptions BatchProps.C110_at_once_partial.
Print Assumptions BatchProps.C110_hooks.
Print Assumptions BatchProps.C110_outside_refuted.
Print Assumptions BatchProps.C110_first_refuted.

(** C12 *)
Print Assumptions CodecProps.C12_json_roundtrip.

(** C13 *)
Print Assumptions CodecProps.C13_value_roundtrip_partial.
Print Assumptions CodecProps.C13_value_roundtrip_refuted.
Print Assumptions CodecProps.C13_objects_never_decode_refuted.

(** C14 *)
Print Assumptions CodecProps.C14_size_exact.

(** C15 *)
Print Assumptions CodecProps.C15_rust_to_js_partial.
Print Assumptions CodecProps.C15_byte_order_mark_refuted.
Print Assumptions CodecProps.C15_proto_key_refuted.

(** C16 *)
Print Assumptions CodecProps.C16_js_to_rust_partial.
Print Assumptions CodecProps.C16_covers_all.
Print Assumptions CodecProps.C16_js_to_rust_refuted.

(** C17 *)
Print Assumptions CodecProps.C17_no_panic_refuted.
Print Assumptions CodecProps.C17_only_truncation_panics_partial.
Print Assumptions CodecUtf8.C17_strings_are_utf8.

(** C18 *)
Print Assumptions CodecProps.C18_hash_refuted.
Print Assumptions CodecProps.C18_request_hash_refuted.
Print Assumptions CodecProps.C18_hash_partial.
Print Assumptions CodecProps.C18_request_hash_partial.

(** C19 *)
Print Assumptions CodecProps.C19_large_objects_refuted.

(** C20 *)
Print Assumptions JsonFinal.C20_roundtrip_partial.
Print Assumptions JsonFinal.C20_lossless_partial.
Print Assumptions JsonFinal.C20_option_refuted.
Print Assumptions JsonFinal.C20_statement_refuted.

(** C21 *)
Print Assumptions JsonFinal.C21_32bit.
Print Assumptions JsonFinal.C21_64bit_partial.
Print Assumptions JsonFinal.C21_64bit_refuted.

(** C22 *)
Print Assumptions JsonFinal.C22_decode_partial.
Print Assumptions JsonFinal.C22_ends.
Print Assumptions JsonFinal.C22_exclusive.
Print Assumptions JsonFinal.C22_statement_refuted.

(** C23 *)
Print Assumptions DomSort.C23_sort_order.
Print Assumptions DomSort.C23_same_dom_partial.
Print Assumptions DomSort.C23_with_listeners_partial.
Print Assumptions DomSort.C23_same_dom_refuted.
Print Assumptions DomSort.C23_statement_refuted.

(** C24 *)
Print Assumptions DomQueue.C24_sent_once.
Print Assumptions DomQueue.C24_flushed.

(** C25 *)
Print Assumptions DomWire.C25_same_command_partial.
Print Assumptions DomWire.C25_batch_partial.
Print Assumptions DomWire.C25_bytes_partial.
Print Assumptions DomWire.C25_remove_attr_refuted.
Print Assumptions DomWire.C25_statement_refuted.

(** C26 *)
Print Assumptions SsrList.C26_child_list.

(** C27 *)
Print Assumptions DomSsr.C27_same_tree_partial.
Print Assumptions DomSsr.C27_self_insert_refuted.

(** C28 *)
Print Assumptions SsrList.C28_attributes.

(** C29 *)
Print Assumptions HtmlProps.C29_no_injection_partial.
Print Assumptions HtmlProps.C29_style_refuted.
Print Assumptions HtmlProps.C29_case_refuted.
Print Assumptions HtmlProps.C29_statement_refuted.

(** C30 *)
Print Assumptions HtmlProps.C30_exact_partial.
Print Assumptions HtmlProps.C30_up_to_spaces_partial.
Print Assumptions HtmlProps.C30_response_partial.
Print Assumptions HtmlProps.C30_spaces_refuted.
Print Assumptions HtmlProps.C30_raw_refuted.
Print Assumptions HtmlProps.C30_statement_refuted.

(** C31 *)
Print Assumptions RenderList.C31_shows.
Print Assumptions RenderList.C31_keeps.
Print Assumptions RenderList.C31_released.
Print Assumptions RenderList.C31_order.

(** C32 *)
Print Assumptions RenderNest.C32_exact.
Print Assumptions RenderNest.C32_in_order_partial.
Print Assumptions RenderNest.C32_only_then.
Print Assumptions RenderHistory.C32_history.
Print Assumptions RenderHistory.C32_settles.
Print Assumptions RenderHistory.C32_moved.
Print Assumptions RenderNest.C32_refuted.
Print Assumptions RenderNest.C32_list_refuted.

(** C33 *)
Print Assumptions RenderNest.C33_shows.

(** C34 *)
Print Assumptions CssProps.C34_names.
Print Assumptions CssProps.C34_same_name.
Print Assumptions CssProps.C34_inserted.
Print Assumptions CssProps.C34_rule_once.

(** C35 *)
Print Assumptions CssText.C35_means.
Print Assumptions CssText.C35_means_last.

(** C36 *)
Print Assumptions CssText.C36_plain_partial.
Print Assumptions CssText.C36_items_partial.
Print Assumptions CssText.C36_ascii_partial.
Print Assumptions CssText.C36_refuted.
Print Assumptions CssText.C36_refuted_square.
Print Assumptions CssText.C36_refuted_letter.

(** C37 *)
Print Assumptions CssProps.C37_combined.
Print Assumptions CssProps.C37_quiet.
Print Assumptions CssProps.C37_removed_refuted.
Print Assumptions CssProps.C37_suspense_refuted.

(** C38 *)
Print Assumptions SuspenseProps.C38_partial.
Print Assumptions SuspenseProps.C38_settled_after_drop.
Print Assumptions SuspenseProps.C38_changes.
Print Assumptions SuspenseProps.C38_total.
Print Assumptions SuspenseElem.C38_elements_partial.
Print Assumptions SuspenseElem.C38_calls_of.
Print Assumptions SuspenseProps.C38_stale_refuted.
Print Assumptions SuspenseProps.C38_depth_refuted.
Print Assumptions SuspenseProps.C38_unattached_refuted.
Print Assumptions SuspenseElem.C38_twice_refuted.

(** C39 *)
Print Assumptions StoreProps.C39_dispatch.
Print Assumptions StoreProps.C39_call.
Print Assumptions StoreProps.C39_once_partial.
Print Assumptions StoreProps.C39_once_refuted.

(** C40 *)
Print Assumptions StoreProps.C40_delivered.
Print Assumptions StoreProps.C40_once.

(** C41 *)
Print Assumptions StoreProps.C41_delivers.
Print Assumptions StoreProps.C41_removed_refuted.

(** C42 *)
Print Assumptions SmallProps.C42_ranked.
Print Assumptions SmallProps.C42_stateless_partial.
Print Assumptions SmallProps.C42_memo_partial.
Print Assumptions SmallProps.C42_statement_refuted.

(** C43 *)
Print Assumptions FetchProps.C43_history.
Print Assumptions FetchProps.C43_read_starts.
Print Assumptions FetchProps.C43_read_requests.
Print Assumptions FetchProps.C43_restart_partial.
Print Assumptions FetchProps.C43_stuck_refuted.

(** C44 *)
Print Assumptions ServerProps.C44_no_panic.
Print Assumptions ServerProps.C44_answers.
Print Assumptions ServerProps.C44_page_complete.
Print Assumptions ServerProps.C44_no_deadlock.
Print Assumptions ServerProps.C44_sent_once.
Print Assumptions ServerProps.C44_equal_sent_once_partial.
Print Assumptions ServerProps.C44_dedup_refuted.
Print Assumptions ServerProps.C44_equal_sent_once_refuted.

(** C45 *)
Print Assumptions StoreProps.C45_received.
Print Assumptions StoreProps.C45_once.
Print Assumptions StoreProps.C45_woken.
Print Assumptions StoreProps.C45_two_values_refuted.

(** C46 *)
Print Assumptions FetchProps.C46_into.
Print Assumptions FetchProps.C46_into_data.
Print Assumptions FetchProps.C46_published.
Print Assumptions FetchProps.C46_undecodable_refuted.

(** C47 *)
Print Assumptions ApiProps.C47_dispatch.
Print Assumptions ApiProps.C47_only_one.
Print Assumptions ApiProps.C47_unsupported.
Print Assumptions ApiProps.C47_from_bytes.
Print Assumptions ApiProps.C47_injective.

(** C48 *)
Print Assumptions SmallProps.C48_base_dir.
Print Assumptions SmallProps.C48_prefix.
Print Assumptions SmallProps.C48_component_refuted.

(** C49 *)
Print Assumptions SmallProps.C49_first_equals.
Print Assumptions SmallProps.C49_strings.

(** C50 *)
Print Assumptions SmallProps.C50_only_html.
Print Assumptions SmallProps.C50_inserted_partial.
Print Assumptions SmallProps.C50_once_refuted.

(** C51 *)
Print Assumptions ApiProps.C51_panics_partial.
Print Assumptions ApiProps.C51_meaning.
Print Assumptions ApiProps.C51_statement_refuted.
Print Assumptions ApiProps.C51_random_refuted.

(** C52 *)
Print Assumptions RenderList.C52_content_partial.
Print Assumptions RenderList.C52_refuted.

(** C53 *)
Print Assumptions CssText.C53_parts_partial.
Print Assumptions CssText.C53_refuted.
Print Assumptions CssText.C53_refuted_semicolon.

(** C54 *)
Print Assumptions CssProps.C54_refuted.
Print Assumptions CssProps.C54_plain_last.

(** C55 *)
Print Assumptions SuspenseElem.C55_kept.
Print Assumptions SuspenseElem.C55_refuted.
Print Assumptions SuspenseElem.C55_grows.

(** C56 *)
Print Assumptions ReactMore.C56_released_is_dropped.
Print Assumptions ReactMore.C56_dropped_only_if_released.

(** C57 *)
Print Assumptions BridgeProps.C57_access_partial.
Print Assumptions BridgeProps.C57_access_refuted.
Print Assumptions BridgeProps.C57_bigint_refuted.
Print Assumptions BridgeProps.C57_bytes_refuted.
Print Assumptions BridgeProps.C57_get_props_refuted.

(** C58 *)
Print Assumptions BridgeProps.C58_element_unreached.
Print Assumptions BridgeProps.C58_element_refuted.

(** C59 *)
Print Assumptions DomBoot.C59_takes_over.
Print Assumptions DomBoot.C59_takes_over_total.
Print Assumptions DomBoot.C59_later.

(** C60 *)
Print Assumptions EventProps.C60_handler_runs.

(** C61 *)
Print Assumptions DomListen.C61_only_living.
Print Assumptions DomListen.C61_living_heard.

(** C62 *)
Print Assumptions CookieProps.C62_set_get_partial.
Print Assumptions CookieProps.C62_far.
Print Assumptions CookieProps.C62_refuted.
Print Assumptions CookieProps.C62_far_refuted.
Print Assumptions CookieProps.C62_name_refuted.
Print Assumptions CookieProps.C62_prefix_refuted.
Print Assumptions CookieProps.C62_mark_refuted.
Print Assumptions CookieProps.C62_long_refuted.

(** C63 *)
Print Assumptions CookieProps.C63_foreign_partial.
Print Assumptions CookieProps.C63_refuted.

(** C64 *)
Print Assumptions CookieProps.C64_never_strict.
Print Assumptions CookieProps.C64_refuted.

(** C65 *)
Print Assumptions CookieProps.C65_set_get_partial.
Print Assumptions CookieProps.C65_scalars.
Print Assumptions CookieJson.C65_json_set_get_partial.
Print Assumptions CookieJson.C65_json_scalars.
Print Assumptions CookieProps.C65_refuted.

(** C66 *)
Print Assumptions RouterProps.C66_history_partial.
Print Assumptions RouterProps.C66_hash_partial.
Print Assumptions RouterProps.C66_told.
Print Assumptions RouterProps.C66_unobserved_refuted.
Print Assumptions RouterProps.C66_mixed_refuted.
Print Assumptions RouterProps.C66_percent_refuted.

(** C67 *)
Print Assumptions RouterProps.C67_hash_partial.
Print Assumptions RouterProps.C67_history_partial.
Print Assumptions RouterProps.C67_stuck.
Print Assumptions RouterProps.C67_refuted.

(** C68 *)
Print Assumptions RouterProps.C68_inside.
Print Assumptions RouterProps.C68_outside_partial.
Print Assumptions RouterProps.C68_dead.
Print Assumptions RouterProps.C68_refuted.

(** C69 *)
Print Assumptions WebsocketProps.C69_told.
Print Assumptions WebsocketProps.C69_at_once.
Print Assumptions WebsocketProps.C69_session.
Print Assumptions WebsocketProps.C69_silent.

(** C70 *)
Print Assumptions WebsocketProps.C70_sent.
Print Assumptions WebsocketProps.C70_only.
Print Assumptions WebsocketProps.C70_no_throw.
Print Assumptions WebsocketProps.C70_refuted.

(** C71 *)
Print Assumptions WebsocketProps.C71_no_new.
Print Assumptions WebsocketProps.C71_closed_partial.
Print Assumptions WebsocketProps.C71_never_closed.
Print Assumptions WebsocketProps.C71_refuted.

(** C72 *)
Print Assumptions WebsocketProps.C72_reconnects.
Print Assumptions WebsocketProps.C72_one.
Print Assumptions WebsocketProps.C72_host.
Print Assumptions WebsocketProps.C72_refused.

(** C73 *)
Print Assumptions WireProps.C73_requests_partial.
Print Assumptions WireProps.C73_bytes_refuted.
Print Assumptions WireProps.C73_string_refuted.
Print Assumptions WireProps.C73_get_body_refuted.
Print Assumptions WireProps.C73_method_refuted.
Print Assumptions WireProps.C73_reserved_refuted.
Print Assumptions WireProps.C73_latin_refuted.
Print Assumptions WireProps.C73_case_refuted.
Print Assumptions WireProps.C73_nan_refuted.

(** C74 *)
Print Assumptions WireProps.C74_responses_partial.
Print Assumptions WireProps.C74_json_server_then_browser.
Print Assumptions WireProps.C74_twice_refuted.
Print Assumptions WireProps.C74_type_refuted.
Print Assumptions WireProps.C74_utf8_refuted.
Print Assumptions WireProps.C74_bom_refuted.
Print Assumptions WireProps.C74_depth_refuted.
Print Assumptions WireProps.C74_surrogate_refuted.
Print Assumptions WireProps.C74_json_bom_refuted.

(** C75 *)
Print Assumptions WireProps.C75_browser.
Print Assumptions WireProps.C75_server.
Print Assumptions WireProps.C75_refuted.

(** C76 *)
Print Assumptions JsonTextProps.C76_texts_partial.
Print Assumptions JsonTextProps.C76_nan_refuted.
Print Assumptions JsonTextProps.C76_minus_zero_refuted.
Print Assumptions JsonTextProps.C76_depth_refuted.

(** C77 *)
Print Assumptions TimerProps.C77_not_early.
Print Assumptions TimerProps.C77_once.
Print Assumptions TimerProps.C77_dropped.
Print Assumptions TimerProps.C77_drops.
Print Assumptions TimerProps.C77_on_time.
Print Assumptions TimerProps.C77_released.
Print Assumptions TimerProps.C77_long_refuted.
Print Assumptions TimerProps.C77_seconds_refuted.

(** C78 *)
Print Assumptions TimerProps.C78_polled.
Print Assumptions TimerProps.C78_not_after_done.
Print Assumptions TimerProps.C78_one_at_a_time.
Print Assumptions TimerProps.C78_no_spurious_polls.
Print Assumptions TimerProps.C78_later.

(** C79 *)
Print Assumptions TimerProps.C79_only_zero.
Print Assumptions TimerProps.C79_in_order.
Print Assumptions TimerProps.C79_all_zero.
Print Assumptions TimerProps.C79_sleep_refuted.

(** C80 *)
Print Assumptions BindProps.C80_no_errors.
Print Assumptions BindProps.C80_attributes_partial.
Print Assumptions BindProps.C80_texts.
Print Assumptions BindProps.C80_gone.
Print Assumptions BindProps.C80_handlers.
Print Assumptions BindProps.C80_settles.
Print Assumptions BindProps.C80_given_twice_refuted.
Print Assumptions BindProps.C80_class_refuted.

(** C81 *)
Print Assumptions InputProps.C81_follows_partial.
Print Assumptions InputProps.C81_two_way.
Print Assumptions InputProps.C81_ignored.
Print Assumptions InputProps.C81_served.
Print Assumptions InputProps.C81_ignored_refuted.
Print Assumptions InputProps.C81_newlines_refuted.
Print Assumptions InputProps.C81_server_refuted.
Print Assumptions InputProps.C81_removed_value_refuted.

(** C82 *)
Print Assumptions InputProps.C82_unclicked.
Print Assumptions InputProps.C82_toggle_partial.
Print Assumptions InputProps.C82_program_refuted.
Print Assumptions InputProps.C82_click_refuted.
Print Assumptions InputProps.C82_untold_refuted.

(** C83 *)
Print Assumptions InputProps.C83_follows_partial.
Print Assumptions InputProps.C83_refuted.
Print Assumptions InputProps.C83_foreign_refuted.

(** C84 *)
Print Assumptions StaticProps.C84_names.
Print Assumptions StaticProps.C84_changes_partial.
Print Assumptions StaticProps.C84_collision_refuted.
Print Assumptions StaticProps.C84_zeros_refuted.

(** C85 *)
Print Assumptions StaticServe.C85_served_partial.
Print Assumptions StaticServe.C85_all.
Print Assumptions StaticServe.C85_no_extension.
Print Assumptions StaticServe.C85_sharp_refuted.
Print Assumptions StaticServe.C85_extension_refuted.
Print Assumptions StaticServe.C85_leftover_refuted.

(** C86 *)
Print Assumptions StaticServe.C86_fresh_partial.
Print Assumptions StaticServe.C86_missing_refuted.
Print Assumptions StaticServe.C86_source_map_refuted.

(** C87 *)
Print Assumptions WatchProps.C87_not_lost.
Print Assumptions WatchProps.C87_settled_partial.
Print Assumptions WatchProps.C87_version_partial.
Print Assumptions WatchProps.C87_stale_refuted.
Print Assumptions WatchProps.C87_stale_errors_refuted.

(** C88 *)
Print Assumptions WatchPages.C88_pages_partial.
Print Assumptions WatchPages.C88_told.
Print Assumptions WatchPages.C88_overlay_refuted.
Print Assumptions WatchPages.C88_stale_refuted.
Print Assumptions WatchPages.C88_dead_refuted.
Print Assumptions WatchPages.C88_port_refuted.
Print Assumptions WatchPages.C88_host_refuted.

(** C89 *)
Print Assumptions InspectProps.C89_nodes_partial.
Print Assumptions InspectProps.C89_text_partial.
Print Assumptions InspectProps.C89_pseudo_html_partial.
Print Assumptions InspectProps.C89_class_refuted.
Print Assumptions InspectProps.C89_remove_class_refuted.
Print Assumptions InspectProps.C89_callbacks_refuted.
Print Assumptions InspectProps.C89_itself_refuted.
Print Assumptions InspectProps.C89_roots_refuted.
Print Assumptions InspectProps.C89_escape_refuted.

(** C90 *)
Print Assumptions CssMacroText.C90_text_partial.
Print Assumptions CssMacroText.C90_unit_refuted.
Print Assumptions CssMacroText.C90_late_refuted.
Print Assumptions CssMacroText.C90_late_variable.
Print Assumptions CssMacroText.C90_key_refuted.
Print Assumptions CssMacroText.C90_bracket_refuted.
Print Assumptions CssMacroText.C90_lost_refuted.
Print Assumptions CssMacroText.C90_refused.
Print Assumptions CssMacroText.C90_many_refused.

(** C91 *)
Print Assumptions DomMacroProps.C91_tree_partial.
Print Assumptions DomMacroPage.C91_document.
Print Assumptions DomMacroProps.C91_element.
Print Assumptions DomMacroProps.C91_refused.
Print Assumptions DomMacroProps.C91_component_children.
Print Assumptions DomMacroProps.C91_component_children_refuted.
Print Assumptions DomMacroProps.C91_order_refuted.

(** C92 *)
Print Assumptions UiTheorems.C92_document_follows_partial.
Print Assumptions UiTheorems.C92_comes_to_rest.
Print Assumptions UiOnce.C92_one_pass.
Print Assumptions UiTheorems.C92_fragment_refuted.

(** C93 *)
Print Assumptions EnvProps.C93_server.
Print Assumptions EnvProps.C93_argument.
Print Assumptions EnvProps.C93_same_partial.
Print Assumptions EnvProps.C93_case_refuted.
Print Assumptions EnvProps.C93_order_refuted.
Print Assumptions EnvProps.C93_newline_refuted.
Print Assumptions EnvProps.C93_name_refuted.

(** C94 *)
Print Assumptions ClosureProps.C94_accepted.
Print Assumptions ClosureProps.C94_bind_partial.
Print Assumptions ClosureProps.C94_spawn_partial.
Print Assumptions ClosureProps.C94_spawn_takes_partial.
Print Assumptions ClosureProps.C94_rc_partial.
Print Assumptions ClosureProps.C94_rc_paths.
Print Assumptions ClosureProps.C94_order_refuted.
Print Assumptions ClosureProps.C94_spawn_takes_refuted.
Print Assumptions ClosureProps.C94_spawn_field_refuted.
Print Assumptions ClosureProps.C94_bar_refuted.

(** C95 *)
Print Assumptions ProxyProps.C95_get_partial.
Print Assumptions ProxyProps.C95_post_partial.
Print Assumptions ProxyProps.C95_length.
Print Assumptions ProxyProps.C95_refused.
Print Assumptions ProxyProps.C95_elsewhere.
Print Assumptions ProxyProps.C95_headers_refuted.
Print Assumptions ProxyProps.C95_length_refuted.
Print Assumptions ProxyProps.C95_form_refuted.
Print Assumptions ProxyProps.C95_method_refuted.
Print Assumptions ProxyProps.C95_slash_refuted.
Print Assumptions ProxyProps.C95_escape_refuted.

(** C96 *)
Print Assumptions LogProps.C96_shown.
Print Assumptions LogProps.C96_browser_partial.
Print Assumptions LogProps.C96_server_partial.
Print Assumptions LogProps.C96_trace_refuted.
Print Assumptions LogProps.C96_percent_refuted.
Print Assumptions LogProps.C96_level_refuted.
Print Assumptions LogProps.C96_marks_refuted.

(** C97 *)
Print Assumptions ClockProps.C97_clock_partial.
Print Assumptions ClockProps.C97_server_clock.
Print Assumptions ClockProps.C97_elapsed.
Print Assumptions ClockProps.C97_browser_partial.
Print Assumptions ClockProps.C97_early_refuted.
Print Assumptions ClockProps.C97_set_back_refuted.
Print Assumptions ClockProps.C97_ahead_refuted.
Print Assumptions ClockProps.C97_unit_refuted.

(** C98 *)
Print Assumptions ChronoProps.C98_date.
Print Assumptions ChronoProps.C98_datetime_partial.
Print Assumptions ChronoProps.C98_offset.
Print Assumptions ChronoProps.C98_far.
Print Assumptions ChronoProps.C98_valid.
Print Assumptions ChronoProps.C98_year_refuted.
Print Assumptions ChronoProps.C98_sent_on_refuted.

(** C99 *)
Print Assumptions AccessProps.C99_call_partial.
Print Assumptions AccessProps.C99_get_partial.
Print Assumptions AccessProps.C99_errors.
Print Assumptions AccessProps.C99_server.
Print Assumptions AccessProps.C99_statement_refuted.
Print Assumptions AccessProps.C99_raw_refuted.
Print Assumptions AccessProps.C99_escape_refuted.
Print Assumptions AccessProps.C99_wide_refuted.
