{"claims": [
{"property": "C01", "status": "proved", "theorems": ["C01_igp_paths", "C01_same_failures", "C01_half_failed_refuted"], "note": "Assumes, where a theorem says so: networkx, set order and random.choice meet the contract env_ok (Graph.v); no interface listed twice, costs >= 1, source-dest texts unambiguous (well_posed); the run changes no failure state, true when no link is half failed (same_failures); every FlexModel interface has a circuit_id; no half-failed link; no IGP shortcut applies to the demand. Counterexamples to the unrestricted or documented claim: C01_half_failed_refuted."},
{"property": "C02", "status": "proved", "theorems": ["C02_only_usable", "C02_usable_used", "C02_rsvp_flag_refuted"], "note": "Assumes, where a theorem says so: networkx, set order and random.choice meet the contract env_ok (Graph.v); no interface listed twice, costs >= 1, source-dest texts unambiguous (well_posed); the run changes no failure state, true when no link is half failed (same_failures); no IGP shortcut applies to the demand. Counterexamples to the unrestricted or documented claim: C02_rsvp_flag_refuted."},
{"property": "C03", "status": "proved", "theorems": ["C03_unrouted"], "note": "Assumes, where a theorem says so: networkx, set order and random.choice meet the contract env_ok (Graph.v); no interface listed twice, costs >= 1, source-dest texts unambiguous (well_posed); the run changes no failure state, true when no link is half failed (same_failures)."},
{"property": "C04", "status": "proved", "theorems": ["C04_total"], "note": "Assumes, where a theorem says so: networkx, set order and random.choice meet the contract env_ok (Graph.v); no interface listed twice, costs >= 1, source-dest texts unambiguous (well_posed); the run changes no failure state, true when no link is half failed (same_failures); no two interfaces share name and node; no IGP shortcut applies to the demand."},
{"property": "C05", "status": "proved", "theorems": ["C05_split"], "note": "Assumes, where a theorem says so: networkx, set order and random.choice meet the contract env_ok (Graph.v); no interface listed twice, costs >= 1, source-dest texts unambiguous (well_posed); the run changes no failure state, true when no link is half failed (same_failures); no two interfaces share name and node; no IGP shortcut applies to the demand."},
{"property": "C06", "status": "proved", "theorems": ["C06_flex", "C06_perf"], "note": "Assumes, where a theorem says so: networkx, set order and random.choice meet the contract env_ok (Graph.v); no interface listed twice, costs >= 1, source-dest texts unambiguous (well_posed); the run changes no failure state, true when no link is half failed (same_failures); no two interfaces share name and node; no IGP shortcut applies to the demand."},
{"property": "C07", "status": "proved", "theorems": ["C07_ride"], "note": "Assumes, where a theorem says so: networkx, set order and random.choice meet the contract env_ok (Graph.v); no interface listed twice, costs >= 1, source-dest texts unambiguous (well_posed); the run changes no failure state, true when no link is half failed (same_failures)."},
{"property": "C08", "status": "proved", "theorems": ["C08_conservation"], "note": "Assumes, where a theorem says so: networkx, set order and random.choice meet the contract env_ok (Graph.v); no interface listed twice, costs >= 1, source-dest texts unambiguous (well_posed); the run changes no failure state, true when no link is half failed (same_failures); no two interfaces share name and node; no IGP shortcut applies to the demand."},
{"property": "C09", "status": "proved", "theorems": ["C09_path", "C09_update"], "note": "Assumes, where a theorem says so: networkx, set order and random.choice meet the contract env_ok (Graph.v); no interface listed twice, costs >= 1, source-dest texts unambiguous (well_posed); the run changes no failure state, true when no link is half failed (same_failures); costs >= 1, no interface listed twice, no parallel links in a PerformanceModel (sig_ready); between two nodes all LSPs are routed or none."},
{"property": "C10", "status": "proved", "theorems": ["C10_unrouted", "C10_update_settled", "C10_single"], "note": "Assumes, where a theorem says so: networkx, set order and random.choice meet the contract env_ok (Graph.v); no interface listed twice, costs >= 1, source-dest texts unambiguous (well_posed); costs >= 1, no interface listed twice, no parallel links in a PerformanceModel (sig_ready)."},
{"property": "C11", "status": "proved", "theorems": ["C11_reserves"], "note": "Assumes, where a theorem says so: networkx, set order and random.choice meet the contract env_ok (Graph.v); costs >= 1, no interface listed twice, no parallel links in a PerformanceModel (sig_ready)."},
{"property": "C12", "status": "proved", "theorems": ["C12_admission", "C12_update", "C12_never_overbooked_refuted"], "note": "Assumes, where a theorem says so: networkx, set order and random.choice meet the contract env_ok (Graph.v); no interface listed twice, costs >= 1, source-dest texts unambiguous (well_posed); the run changes no failure state, true when no link is half failed (same_failures); between two nodes all LSPs are routed or none. Counterexamples to the unrestricted or documented claim: C12_never_overbooked_refuted."},
{"property": "C13", "status": "proved", "theorems": ["C13_sequence", "C13_update", "C13_any_bandwidth_refuted", "C13_order_irrelevant_refuted"], "note": "Assumes, where a theorem says so: networkx, set order and random.choice meet the contract env_ok (Graph.v); no interface listed twice, costs >= 1, source-dest texts unambiguous (well_posed); the run changes no failure state, true when no link is half failed (same_failures); between two nodes all LSPs are routed or none. Counterexamples to the unrestricted or documented claim: C13_any_bandwidth_refuted, C13_order_irrelevant_refuted."},
{"property": "C14", "status": "proved", "theorems": ["C14_setup", "C14_reserves_configured_refuted"], "note": "Assumes, where a theorem says so: networkx, set order and random.choice meet the contract env_ok (Graph.v); no interface listed twice, costs >= 1, source-dest texts unambiguous (well_posed). Counterexamples to the unrestricted or documented claim: C14_reserves_configured_refuted."},
{"property": "C15", "status": "proved", "theorems": ["C15_path", "C15_flex_contiguous_refuted", "C15_flex_avoids_failed_refuted", "C15_flex_returns_refuted"], "note": "Assumes, where a theorem says so: networkx, set order and random.choice meet the contract env_ok (Graph.v); costs >= 1, no interface listed twice, no parallel links in a PerformanceModel (sig_ready); no parallel links. Counterexamples to the unrestricted or documented claim: C15_flex_contiguous_refuted, C15_flex_avoids_failed_refuted, C15_flex_returns_refuted."},
{"property": "C16", "status": "proved", "theorems": ["C16_moves", "C16_follows_path_refuted", "C16_update_accepts_refuted"], "note": "Assumes, where a theorem says so: networkx, set order and random.choice meet the contract env_ok (Graph.v); costs >= 1, no interface listed twice, no parallel links in a PerformanceModel (sig_ready); no parallel links. Counterexamples to the unrestricted or documented claim: C16_follows_path_refuted, C16_update_accepts_refuted."},
{"property": "C17", "status": "proved", "theorems": ["C17_independent", "C17_bandwidths", "C17_bandwidths_refuted"], "note": "Assumes, where a theorem says so: networkx, set order and random.choice meet the contract env_ok (Graph.v). Counterexamples to the unrestricted or documented claim: C17_bandwidths_refuted."},
{"property": "C18", "status": "proved", "theorems": ["C18_routed_fresh", "C18_stale_refuted"], "note": "Assumes, where a theorem says so: networkx, set order and random.choice meet the contract env_ok (Graph.v). Counterexamples to the unrestricted or documented claim: C18_stale_refuted."},
{"property": "C19", "status": "proved", "theorems": ["C19_update_keeps_input"], "note": ""},
{"property": "C20", "status": "proved", "theorems": ["C20_self"], "note": "Assumes, where a theorem says so: networkx, set order and random.choice meet the contract env_ok (Graph.v); no interface listed twice, costs >= 1, source-dest texts unambiguous (well_posed)."},
{"property": "C21", "status": "proved", "theorems": ["C21_same_success", "C21_same_paths", "C21_same_traffic", "C21_lsps_refuted"], "note": "Assumes, where a theorem says so: networkx, set order and random.choice meet the contract env_ok (Graph.v); no interface listed twice, costs >= 1, source-dest texts unambiguous (well_posed); no two interfaces share name and node; every FlexModel interface has a circuit_id; interface ends are in the model; no half-failed link. Counterexamples to the unrestricted or documented claim: C21_lsps_refuted."},
{"property": "C22", "status": "proved", "theorems": ["C22_verdict", "C22_accepts_exactly"], "note": "Assumes, where a theorem says so: networkx, set order and random.choice meet the contract env_ok (Graph.v); LSPs are unrouted or routed over interfaces of the model; every FlexModel interface has a circuit_id."},
{"property": "C23", "status": "proved", "theorems": ["C23_duplicates_rejected_refuted", "C23_names_irrelevant"], "note": "Assumes, where a theorem says so: networkx, set order and random.choice meet the contract env_ok (Graph.v); every FlexModel interface has a circuit_id. Counterexamples to the unrestricted or documented claim: C23_duplicates_rejected_refuted."},
{"property": "C24", "status": "proved", "theorems": ["C24_circuits", "C24_rsvp_disabled_refuted", "C24_no_circuit_ids_refuted"], "note": "Assumes, where a theorem says so: networkx, set order and random.choice meet the contract env_ok (Graph.v); every FlexModel interface has a circuit_id. Counterexamples to the unrestricted or documented claim: C24_rsvp_disabled_refuted, C24_no_circuit_ids_refuted."},
{"property": "C25", "status": "proved", "theorems": ["C25_circuits"], "note": "Assumes, where a theorem says so: networkx, set order and random.choice meet the contract env_ok (Graph.v)."},
{"property": "C26", "status": "proved", "theorems": ["C26_groups", "C26_parallel_check", "C26_groups_collide_refuted", "C26_parallel_check_refuted"], "note": "Assumes, where a theorem says so: networkx, set order and random.choice meet the contract env_ok (Graph.v); LSPs are unrouted or routed over interfaces of the model. Counterexamples to the unrestricted or documented claim: C26_groups_collide_refuted, C26_parallel_check_refuted."},
{"property": "C27", "status": "proved", "theorems": ["C27_fail_interface", "C27_fail_interface_returns"], "note": "Assumes, where a theorem says so: object keys are unique; objects refer to nodes of the model."},
{"property": "C28", "status": "proved", "theorems": ["C28_unfail_interface", "C28_unfail_link", "C28_raises_unchanged_refuted"], "note": "Assumes, where a theorem says so: networkx, set order and random.choice meet the contract env_ok (Graph.v); keys unique, references inside the model, links paired (wf_net). Counterexamples to the unrestricted or documented claim: C28_raises_unchanged_refuted."},
{"property": "C29", "status": "proved", "theorems": ["C29_fail_node", "C29_fail_node_returns"], "note": "Assumes, where a theorem says so: object keys are unique; objects refer to nodes of the model."},
{"property": "C30", "status": "proved", "theorems": ["C30_round_trip", "C30_any_state_refuted"], "note": "Assumes, where a theorem says so: networkx, set order and random.choice meet the contract env_ok (Graph.v); keys unique, references inside the model, links paired (wf_net); no half-failed link. Counterexamples to the unrestricted or documented claim: C30_any_state_refuted."},
{"property": "C31", "status": "proved", "theorems": ["C31_fail_srlg", "C31_fail_srlg_returns"], "note": "Assumes, where a theorem says so: object keys are unique; objects refer to nodes of the model."},
{"property": "C32", "status": "proved", "theorems": ["C32_interface_stays_failed", "C32_node_stays_failed", "C32_interface_setter_raises", "C32_node_setter_raises"], "note": ""},
{"property": "C33", "status": "proved", "theorems": ["C33_consistent"], "note": "Assumes, where a theorem says so: networkx, set order and random.choice meet the contract env_ok (Graph.v); keys unique, references inside the model, links paired (wf_net); no half-failed link, no up interface on a failed node (consistent); members of failed SRLGs are failed, link ends share SRLGs (srlg_sound)."},
{"property": "C34", "status": "proved", "theorems": ["C34_add_to_failed_srlg_refuted", "C34_add_node_to_failed_srlg_refuted", "C34_remove_from_srlg_refuted", "C34_add_circuit_refuted"], "note": "Counterexamples to the unrestricted or documented claim: C34_add_to_failed_srlg_refuted, C34_add_node_to_failed_srlg_refuted, C34_remove_from_srlg_refuted, C34_add_circuit_refuted."},
{"property": "C35", "status": "proved", "theorems": ["C35_add_demand", "C35_add_demand_frame"], "note": "Assumes, where a theorem says so: object references are in use."},
{"property": "C36", "status": "proved", "theorems": ["C36_add_rsvp_lsp", "C36_add_rsvp_lsp_frame", "C36_stale_cache_refuted"], "note": "Assumes, where a theorem says so: object references are in use. Counterexamples to the unrestricted or documented claim: C36_stale_cache_refuted."},
{"property": "C37", "status": "proved", "theorems": ["C37_add_circuit"], "note": "Assumes, where a theorem says so: object references are in use."},
{"property": "C38", "status": "proved", "theorems": ["C38_keys_unique_history", "C38_keys_unique_from_empty"], "note": "Assumes, where a theorem says so: object keys are unique."},
{"property": "C39", "status": "proved", "theorems": ["C39_rename_refuted", "C39_add_network_interfaces_refuted"], "note": "Counterexamples to the unrestricted or documented claim: C39_rename_refuted, C39_add_network_interfaces_refuted."},
{"property": "C40", "status": "proved", "theorems": ["C40_positive_history"], "note": ""},
{"property": "C41", "status": "proved", "theorems": ["C41_lookups"], "note": "Assumes, where a theorem says so: object keys are unique; objects refer to nodes of the model."},
{"property": "C42", "status": "proved", "theorems": ["C42_manual_metric", "C42_first_assignment_lost_refuted"], "note": "Counterexamples to the unrestricted or documented claim: C42_first_assignment_lost_refuted."},
{"property": "C43", "status": "proved", "theorems": ["C43_effective_metric"], "note": "Assumes, where a theorem says so: networkx, set order and random.choice meet the contract env_ok (Graph.v); costs >= 1, no interface listed twice, no parallel links in a PerformanceModel (sig_ready)."},
{"property": "C44", "status": "proved", "theorems": ["C44_shortest_path", "C44_cost_refuted", "C44_failed_refuted"], "note": "Assumes, where a theorem says so: networkx, set order and random.choice meet the contract env_ok (Graph.v); costs >= 1, no interface listed twice, no parallel links in a PerformanceModel (sig_ready). Counterexamples to the unrestricted or documented claim: C44_cost_refuted, C44_failed_refuted."},
{"property": "C45", "status": "proved", "theorems": ["C45_all_paths", "C45_failed_refuted"], "note": "Assumes, where a theorem says so: networkx, set order and random.choice meet the contract env_ok (Graph.v); costs >= 1, no interface listed twice, no parallel links in a PerformanceModel (sig_ready). Counterexamples to the unrestricted or documented claim: C45_failed_refuted."},
{"property": "C46", "status": "proved", "theorems": ["C46_interface_lsps", "C46_demands_on_lsp", "C46_interface_demands"], "note": ""},
{"property": "C47", "status": "proved", "theorems": ["C47_diagnostics", "C47_initial_lsps_refuted"], "note": "Counterexamples to the unrestricted or documented claim: C47_initial_lsps_refuted."},
{"property": "C48", "status": "proved", "theorems": ["C48_value", "C48_returns", "C48_group_total"], "note": "Assumes, where a theorem says so: networkx, set order and random.choice meet the contract env_ok (Graph.v); no interface listed twice, costs >= 1, source-dest texts unambiguous (well_posed); the run changes no failure state, true when no link is half failed (same_failures); no IGP shortcut applies to the demand."},
{"property": "C49", "status": "proved", "theorems": ["C49_remote_interface"], "note": ""},
{"property": "C50", "status": "proved", "theorems": ["C50_loaded_well_formed", "C50_refs_refuted"], "note": "Assumes, where a theorem says so: object keys are unique. Counterexamples to the unrestricted or documented claim: C50_refs_refuted."},
{"property": "C51", "status": "proved", "theorems": ["C51_loaded_is_described"], "note": "Assumes, where a theorem says so: the file is acceptable and says these rows (SpecLoad.v)."},
{"property": "C52", "status": "proved", "theorems": ["C52_loads_iff", "C52_missing_table", "C52_bad_interface_line", "C52_bad_circuit_id", "C52_unknown_node", "C52_blank_line_after_lsps"], "note": ""},
{"property": "C53", "status": "proved", "theorems": ["C53_table_extent"], "note": ""},
{"property": "C54", "status": "proved", "theorems": ["C54_no_shortcuts", "C54_shortcut_total_refuted"], "note": "Assumes, where a theorem says so: networkx, set order and random.choice meet the contract env_ok (Graph.v); no interface listed twice, costs >= 1, source-dest texts unambiguous (well_posed); the run changes no failure state, true when no link is half failed (same_failures); no IGP shortcut applies to the demand. Counterexamples to the unrestricted or documented claim: C54_shortcut_total_refuted."},
{"property": "C55", "status": "proved", "theorems": ["C55_utilization", "C55_down"], "note": "Assumes, where a theorem says so: networkx, set order and random.choice meet the contract env_ok (Graph.v); no interface listed twice, costs >= 1, source-dest texts unambiguous (well_posed); the run changes no failure state, true when no link is half failed (same_failures)."},
{"property": "C56", "status": "proved", "theorems": ["C56_half_failed", "C56_afterwards_agree"], "note": "Assumes, where a theorem says so: networkx, set order and random.choice meet the contract env_ok (Graph.v)."},
{"property": "C57", "status": "proved", "theorems": ["C57_entries"], "note": "Assumes, where a theorem says so: networkx, set order and random.choice meet the contract env_ok (Graph.v); no interface listed twice, costs >= 1, source-dest texts unambiguous (well_posed); the run changes no failure state, true when no link is half failed (same_failures); no two interfaces share name and node; no IGP shortcut applies to the demand."},
{"property": "C58", "status": "proved", "theorems": ["C58_two_ends", "C58_single_end_refuted"], "note": "Assumes, where a theorem says so: the file is acceptable and says these rows (SpecLoad.v). Counterexamples to the unrestricted or documented claim: C58_single_end_refuted."},
{"property": "C67", "status": "proved", "theorems": ["C67_succeeds_exactly"], "note": "Assumes, where a theorem says so: networkx, set order and random.choice meet the contract env_ok (Graph.v); no interface listed twice, costs >= 1, source-dest texts unambiguous (well_posed); every FlexModel interface has a circuit_id; interface ends are in the model."},
{"property": "C59", "status": "proved", "theorems": ["C59_interface_add_to_srlg", "C59_node_add_to_srlg", "C59_add_srlg", "C59_interface_remove_from_srlg", "C59_node_remove_from_srlg"], "note": ""},
{"property": "C60", "status": "proved", "theorems": ["C60_topology_metric"], "note": ""},
{"property": "C61", "status": "proved", "theorems": ["C61_circuit_failed", "C61_get_circuit", "C61_get_circuit_unknown", "C61_validated_circuit"], "note": "Assumes, where a theorem says so: networkx, set order and random.choice meet the contract env_ok (Graph.v); object keys are unique; objects refer to nodes of the model; every FlexModel interface has a circuit_id."},
{"property": "C65", "status": "proved", "theorems": ["C65_add_node", "C65_change_interface_name", "C65_cost_setter", "C65_capacity_setter", "C65_add_network_interfaces", "C65_separate_nodes_refuted"], "note": "Assumes, where a theorem says so: object references are in use; object keys are unique; objects refer to nodes of the model. Counterexamples to the unrestricted or documented claim: C65_separate_nodes_refuted."},
{"property": "C66", "status": "proved", "theorems": ["C66_interfaces_by_state", "C66_nodes_by_state", "C66_unrouted_demands", "C66_demands_by_node", "C66_orphans", "C66_adjacent_nodes"], "note": "Assumes, where a theorem says so: object keys are unique; objects refer to nodes of the model."},
{"property": "C68", "status": "proved", "theorems": ["C68_interface_failed_setter", "C68_node_failed_setter", "C68_interface_fail", "C68_interface_unfail"], "note": ""},
{"property": "C63", "status": "proved", "theorems": ["C63_unfail_node", "C63_any_outcome", "C63_unfail_node_returns", "C63_round_trip", "C63_free_links_come_up_refuted", "C63_up_node_unchanged_refuted"], "note": "Assumes, where a theorem says so: networkx, set order and random.choice meet the contract env_ok (Graph.v); keys unique, references inside the model, links paired (wf_net); no half-failed link, no up interface on a failed node (consistent); members of failed SRLGs are failed, link ends share SRLGs (srlg_sound); LSPs are unrouted or routed over interfaces of the model; every interface has one other end; no half-failed link. Counterexamples to the unrestricted or documented claim: C63_free_links_come_up_refuted, C63_up_node_unchanged_refuted."},
{"property": "C64", "status": "proved", "theorems": ["C64_unfail_srlg", "C64_unfail_srlg_returns", "C64_links_at_members", "C64_round_trip", "C64_free_links_come_up_refuted", "C64_round_trip_any_refuted"], "note": "Assumes, where a theorem says so: networkx, set order and random.choice meet the contract env_ok (Graph.v); keys unique, references inside the model, links paired (wf_net); no half-failed link, no up interface on a failed node (consistent); members of failed SRLGs are failed, link ends share SRLGs (srlg_sound); LSPs are unrouted or routed over interfaces of the model; every interface has one other end. Counterexamples to the unrestricted or documented claim: C64_free_links_come_up_refuted, C64_round_trip_any_refuted."},
{"property": "C62", "status": "proved", "theorems": ["C62_paths", "C62_connected", "C62_one_route", "C62_entries", "C62_metric_refuted", "C62_each_route_refuted"], "note": "Assumes, where a theorem says so: networkx, set order and random.choice meet the contract env_ok (Graph.v); no interface listed twice, costs >= 1, source-dest texts unambiguous (well_posed); the run changes no failure state, true when no link is half failed (same_failures); object keys are unique; objects refer to nodes of the model; source-dest texts of LSPs tell node pairs apart. Counterexamples to the unrestricted or documented claim: C62_metric_refuted, C62_each_route_refuted."},
{"property": "C69", "status": "proved", "theorems": ["C69_traffic"], "note": "Assumes, where a theorem says so: networkx, set order and random.choice meet the contract env_ok (Graph.v); no interface listed twice, costs >= 1, source-dest texts unambiguous (well_posed); the run changes no failure state, true when no link is half failed (same_failures); object keys are unique; objects refer to nodes of the model; source-dest texts of LSPs tell node pairs apart."},
{"property": "C70", "status": "proved", "theorems": ["C70_elements", "C70_interfaces", "C70_one_place", "C70_all_nodes_refuted", "C70_shared_middle_refuted"], "note": "Assumes, where a theorem says so: networkx, set order and random.choice meet the contract env_ok (Graph.v); LSPs are unrouted or routed over interfaces of the model; every FlexModel interface has a circuit_id. Counterexamples to the unrestricted or documented claim: C70_all_nodes_refuted, C70_shared_middle_refuted."},
{"property": "C71", "status": "proved", "theorems": ["C71_colours", "C71_whole_percent", "C71_always_coloured_refuted"], "note": "Counterexamples to the unrestricted or documented claim: C71_always_coloured_refuted."},
{"property": "C72", "status": "proved", "theorems": ["C72_after_simulation", "C72_sources", "C72_destinations", "C72_lists", "C72_nodes", "C72_no_choice", "C72_both_chosen", "C72_destination_chosen", "C72_source_chosen", "C72_dash_lists_refuted", "C72_dash_sources_refuted"], "note": "Assumes, where a theorem says so: networkx, set order and random.choice meet the contract env_ok (Graph.v). Counterexamples to the unrestricted or documented claim: C72_dash_lists_refuted, C72_dash_sources_refuted."},
{"property": "C73", "status": "proved", "theorems": ["C73_demand_interfaces", "C73_entries", "C73_edges", "C73_reused_ids_refuted", "C73_late_demand_refuted"], "note": "Assumes, where a theorem says so: networkx, set order and random.choice meet the contract env_ok (Graph.v); object keys are unique; objects refer to nodes of the model; circuits pair up the interfaces; circuit_id texts differ at each node. Counterexamples to the unrestricted or documented claim: C73_reused_ids_refuted, C73_late_demand_refuted."},
{"property": "C74", "status": "proved", "theorems": ["C74_demand", "C74_lsp", "C74_interface", "C74_click", "C74_node_interfaces", "C74_lsps_on_interface", "C74_demands_on_interface", "C74_demands_on_lsp", "C74_of_demand", "C74_of_lsp", "C74_fresh_lsp_refuted", "C74_click_dash_refuted"], "note": "Assumes, where a theorem says so: object keys are unique; objects refer to nodes of the model. Counterexamples to the unrestricted or documented claim: C74_fresh_lsp_refuted, C74_click_dash_refuted."},
{"property": "C75", "status": "proved", "theorems": ["C75_lsp_traffic", "C75_returns", "C75_interface", "C75_exact_refuted"], "note": "Assumes, where a theorem says so: networkx, set order and random.choice meet the contract env_ok (Graph.v); no interface listed twice, costs >= 1, source-dest texts unambiguous (well_posed); the run changes no failure state, true when no link is half failed (same_failures); object keys are unique; objects refer to nodes of the model; source-dest texts of LSPs tell node pairs apart. Counterexamples to the unrestricted or documented claim: C75_exact_refuted."},
{"property": "C76", "status": "proved", "theorems": ["C76_spared", "C76_unrouted", "C76_costs", "C76_delivered", "C76_histories", "C76_fail_calls", "C76_unused_link", "C76_lsps_refuted"], "note": "Assumes, where a theorem says so: no LSPs, no half-failed link, costs >= 1, keys unique, source-dest texts unambiguous (plain); no LSPs, well formed, no half-failed link (sound_net); networkx, set order and random.choice meet the contract env_ok (Graph.v). Counterexamples to the unrestricted or documented claim: C76_lsps_refuted."},
{"property": "C77", "status": "proved", "theorems": ["C77_same_paths", "C77_close_traffic", "C77_exact_refuted"], "note": "Assumes, where a theorem says so: no LSPs, no half-failed link, costs >= 1, keys unique, source-dest texts unambiguous (plain); networkx, set order and random.choice meet the contract env_ok (Graph.v). Counterexamples to the unrestricted or documented claim: C77_exact_refuted."},
{"property": "C78", "status": "proved", "theorems": ["C78_added", "C78_add_demand", "C78_lsps_refuted"], "note": "Assumes, where a theorem says so: no LSPs, no half-failed link, costs >= 1, keys unique, source-dest texts unambiguous (plain); object references are in use; networkx, set order and random.choice meet the contract env_ok (Graph.v); no interface listed twice, costs >= 1, source-dest texts unambiguous (well_posed). Counterexamples to the unrestricted or documented claim: C78_lsps_refuted."},
{"property": "C79", "status": "proved", "theorems": ["C79_memoryless", "C79_fail_and_repair"], "note": "Assumes, where a theorem says so: no LSPs, well formed, no half-failed link (sound_net); networkx, set order and random.choice meet the contract env_ok (Graph.v)."},
{"property": "C80", "status": "proved", "theorems": ["C80_traffic", "C80_costs", "C80_perf_refuted"], "note": "Assumes, where a theorem says so: no LSPs, no half-failed link, costs >= 1, keys unique, source-dest texts unambiguous (plain); networkx, set order and random.choice meet the contract env_ok (Graph.v). Counterexamples to the unrestricted or documented claim: C80_perf_refuted."},
{"property": "C81", "status": "proved", "theorems": ["C81_balance", "C81_bounds", "C81_perf_refuted"], "note": "Assumes, where a theorem says so: no LSPs, no half-failed link, costs >= 1, keys unique, source-dest texts unambiguous (plain); networkx, set order and random.choice meet the contract env_ok (Graph.v). Counterexamples to the unrestricted or documented claim: C81_perf_refuted."},
{"property": "C82", "status": "proved", "theorems": ["C82_parallel", "C82_lsps_refuted"], "note": "Assumes, where a theorem says so: no LSPs, no half-failed link, costs >= 1, keys unique, source-dest texts unambiguous (plain); networkx, set order and random.choice meet the contract env_ok (Graph.v). Counterexamples to the unrestricted or documented claim: C82_lsps_refuted."},
{"property": "C83", "status": "proved", "theorems": ["C83_inputs"], "note": "Assumes, where a theorem says so: no LSPs, no half-failed link, costs >= 1, keys unique, source-dest texts unambiguous (plain); networkx, set order and random.choice meet the contract env_ok (Graph.v); the run changes no failure state, true when no link is half failed (same_failures)."},
{"property": "C84", "status": "proved", "theorems": ["C84_frame", "C84_groups", "C84_outages"], "note": ""},
{"property": "C85", "status": "proved", "theorems": ["C85_no_traces", "C85_restored"], "note": ""},
{"property": "C86", "status": "proved", "theorems": ["C86_separate", "C86_own_sets", "C86_single"], "note": ""},
{"property": "C87", "status": "proved", "theorems": ["C87_shared", "C87_first", "C87_empty_refuted", "C87_simulation_refuted"], "note": "Counterexamples to the unrestricted or documented claim: C87_empty_refuted, C87_simulation_refuted."},
{"property": "C88", "status": "proved", "theorems": ["C88_succeeds_exactly", "C88_one_per_pair", "C88_room_for_all", "C88_own_way", "C88_any_model_refuted"], "note": "Assumes, where a theorem says so: networkx, set order and random.choice meet the contract env_ok (Graph.v); no interface listed twice, costs >= 1, source-dest texts unambiguous (well_posed); every FlexModel interface has a circuit_id; interface ends are in the model; bandwidths and capacities are non-negative multiples of 0.1, nothing listed twice (SpecTotal.v); room for all LSPs together on every RSVP interface (SpecTotal.v); one LSP per pair of nodes. Counterexamples to the unrestricted or documented claim: C88_any_model_refuted."},
{"property": "C89", "status": "proved", "theorems": ["C89_same_success", "C89_same_success_lone", "C89_same_lsps", "C89_same_paths", "C89_same_ways", "C89_same_traffic", "C89_same_paths_shortcuts", "C89_same_traffic_shortcuts", "C89_ties_refuted", "C89_shortcuts_refuted"], "note": "Assumes, where a theorem says so: networkx, set order and random.choice meet the contract env_ok (Graph.v); no interface listed twice, costs >= 1, source-dest texts unambiguous (well_posed); object keys are unique; objects refer to nodes of the model; every FlexModel interface has a circuit_id; source-dest texts of LSPs tell node pairs apart; interface ends are in the model; no half-failed link; bandwidths and capacities are non-negative multiples of 0.1, nothing listed twice (SpecTotal.v); room for all LSPs together on every RSVP interface (SpecTotal.v); no LSP has two equally good ways (SpecSame.v); no IGP shortcuts; the least-cost ways of the demand visit the same nodes; one LSP per pair of nodes. Counterexamples to the unrestricted or documented claim: C89_ties_refuted, C89_shortcuts_refuted."},
{"property": "C90", "status": "proved", "theorems": ["C90_demand", "C90_balance", "C90_balance_perf", "C90_whole", "C90_room", "C90_parallel_refuted", "C90_shortcuts_refuted"], "note": "Assumes, where a theorem says so: networkx, set order and random.choice meet the contract env_ok (Graph.v); no interface listed twice, costs >= 1, source-dest texts unambiguous (well_posed); the run changes no failure state, true when no link is half failed (same_failures); no two interfaces share name and node; every FlexModel interface has a circuit_id; interface ends are in the model; no half-failed link; between two nodes all LSPs are routed or none; bandwidths and capacities are non-negative multiples of 0.1, nothing listed twice (SpecTotal.v); room for all LSPs together on every RSVP interface (SpecTotal.v); no IGP shortcuts; no IGP shortcut applies to the demand; routed LSPs take whole ways over up interfaces (SpecBalance.v). Counterexamples to the unrestricted or documented claim: C90_parallel_refuted, C90_shortcuts_refuted."},
{"property": "C91", "status": "proved", "theorems": ["C91_lsps", "C91_spared_lsp", "C91_spared", "C91_unrouted", "C91_delivered", "C91_traffic", "C91_calls", "C91_room_refuted", "C91_ties_refuted"], "note": "Assumes, where a theorem says so: networkx, set order and random.choice meet the contract env_ok (Graph.v); keys unique, references inside the model, links paired (wf_net); no half-failed link, no up interface on a failed node (consistent); members of failed SRLGs are failed, link ends share SRLGs (srlg_sound); no half-failed link; usual model without IGP shortcuts and half-failed links, room for all LSPs on every RSVP interface (SpecMore.v); second model is the first with more interfaces down (SpecMore.v); the LSP has no two equally good ways; the path of the LSP is up; the paths of the demand are up. Counterexamples to the unrestricted or documented claim: C91_room_refuted, C91_ties_refuted."},
{"property": "C92", "status": "proved", "theorems": ["C92_lsps", "C92_demands", "C92_traffic", "C92_calls", "C92_room_refuted"], "note": "Assumes, where a theorem says so: object references are in use; networkx, set order and random.choice meet the contract env_ok (Graph.v); usual model without IGP shortcuts and half-failed links, room for all LSPs on every RSVP interface (SpecMore.v); second model is the first with demands and LSPs added (SpecMore.v); the LSP has no two equally good ways; no LSP added between these nodes; no demand added between these nodes. Counterexamples to the unrestricted or documented claim: C92_room_refuted."},
{"property": "C93", "status": "proved", "theorems": ["C93_room", "C93_success", "C93_lsps", "C93_paths", "C93_traffic", "C93_ties_refuted"], "note": "Assumes, where a theorem says so: networkx, set order and random.choice meet the contract env_ok (Graph.v); object keys are unique; usual model without IGP shortcuts and half-failed links, room for all LSPs on every RSVP interface (SpecMore.v); the LSP has no two equally good ways; the two models hold the same data under the same names (SpecData.v). Counterexamples to the unrestricted or documented claim: C93_ties_refuted."},
{"property": "C94", "status": "proved", "theorems": ["C94_lsps", "C94_paths", "C94_amounts", "C94_traffic", "C94_exact"], "note": "Assumes, where a theorem says so: networkx, set order and random.choice meet the contract env_ok (Graph.v); usual model without IGP shortcuts and half-failed links, room for all LSPs on every RSVP interface (SpecMore.v); the LSP has no two equally good ways."},
{"property": "C95", "status": "proved", "theorems": ["C95_lsps", "C95_paths", "C95_traffic"], "note": "Assumes, where a theorem says so: networkx, set order and random.choice meet the contract env_ok (Graph.v); usual model without IGP shortcuts and half-failed links, room for all LSPs on every RSVP interface (SpecMore.v); the LSP has no two equally good ways; second model is the first with traffic and costs multiplied (SpecData.v)."},
{"property": "C96", "status": "proved", "theorems": ["C96_succeeds", "C96_lsps", "C96_results"], "note": "Assumes, where a theorem says so: networkx, set order and random.choice meet the contract env_ok (Graph.v); keys unique, references inside the model, links paired (wf_net); no half-failed link, no up interface on a failed node (consistent); members of failed SRLGs are failed, link ends share SRLGs (srlg_sound); usual model without IGP shortcuts and half-failed links, room for all LSPs on every RSVP interface (SpecMore.v); the LSP has no two equally good ways; room for all LSPs also on interfaces that are down (SpecData.v)."},
{"property": "C97", "status": "proved", "theorems": ["C97_same_data", "C97_order", "C97_results"], "note": "Assumes, where a theorem says so: networkx, set order and random.choice meet the contract env_ok (Graph.v); usual model without IGP shortcuts and half-failed links, room for all LSPs on every RSVP interface (SpecMore.v); the LSP has no two equally good ways; the two files say the same (SpecFile.v); the file is acceptable and says these rows (SpecLoad.v)."},
{"property": "C98", "status": "proved", "theorems": ["C98_loads_and_simulates", "C98_lsps", "C98_all_files_refuted", "C98_one_way_refuted"], "note": "Assumes, where a theorem says so: networkx, set order and random.choice meet the contract env_ok (Graph.v); objects refer to nodes of the model; the file describes a usual network (SpecFile.v); the file is acceptable and says these rows (SpecLoad.v); usual model without half-failed links, room for all LSPs on every RSVP interface (SpecMore.v). Counterexamples to the unrestricted or documented claim: C98_all_files_refuted, C98_one_way_refuted."},
{"property": "C99", "status": "proved", "theorems": ["C99_reads_lines", "C99_all_files", "C99_same_lines_same_model", "C99_other_ends_refuted", "C99_final_line_refuted"], "note": "Assumes, where a theorem says so: the text consists of these lines (SpecText.v); the bytes are well-formed UTF-8. Counterexamples to the unrestricted or documented claim: C99_other_ends_refuted, C99_final_line_refuted."},
{"property": "C100", "status": "proved", "theorems": ["C100_int", "C100_float", "C100_every_int", "C100_fractions_refuted", "C100_places_refuted"], "note": "Counterexamples to the unrestricted or documented claim: C100_fractions_refuted, C100_places_refuted."},
{"property": "C101", "status": "proved", "theorems": ["C101_tables", "C101_loads"], "note": "Assumes, where a theorem says so: the lines are in the documented layout (SpecText.v); the text consists of these lines (SpecText.v); the bytes are well-formed UTF-8."},
{"property": "C102", "status": "proved", "theorems": ["C102_success", "C102_lsps", "C102_paths", "C102_traffic", "C102_files", "C102_scaled_lsps", "C102_scaled_paths", "C102_scaled_costs", "C102_past_succeeds", "C102_past_lsps", "C102_past", "C102_two_roads_refuted", "C102_scaled_traffic_refuted"], "note": "Assumes, where a theorem says so: networkx, set order and random.choice meet the contract env_ok (Graph.v); object keys are unique; objects refer to nodes of the model; keys unique, references inside the model, links paired (wf_net); no half-failed link, no up interface on a failed node (consistent); members of failed SRLGs are failed, link ends share SRLGs (srlg_sound); the least-cost ways of the demand visit the same nodes; the LSP has no two equally good ways; the two models hold the same data under the same names (SpecData.v); second model is the first with traffic and costs multiplied (SpecData.v); room for all LSPs also on interfaces that are down (SpecData.v); the two files say the same (SpecFile.v); the file describes a usual network (SpecFile.v); the file is acceptable and says these rows (SpecLoad.v); usual model without half-failed links, room for all LSPs on every RSVP interface (SpecMore.v); no LSP in use has two equally good ways (SpecData.v). Counterexamples to the unrestricted or documented claim: C102_two_roads_refuted, C102_scaled_traffic_refuted."},
{"property": "C103", "status": "proved", "theorems": ["C103_lines", "C103_bytes", "C103_shortcuts_refuted", "C103_rounded_refuted"], "note": "Assumes, where a theorem says so: networkx, set order and random.choice meet the contract env_ok (Graph.v); the file describes a usual network (SpecFile.v); the file is acceptable and says these rows (SpecLoad.v); bytes in the documented layout (SpecAnswer.v). Counterexamples to the unrestricted or documented claim: C103_shortcuts_refuted, C103_rounded_refuted."},
{"property": "C104", "status": "proved", "theorems": ["C104_nearest", "C104_routes", "C104_traffic", "C104_errors", "C104_queries", "C104_exact_refuted", "C104_perf_traffic_refuted"], "note": "Assumes, where a theorem says so: networkx, set order and random.choice meet the contract env_ok (Graph.v); no interface listed twice, costs >= 1, source-dest texts unambiguous (well_posed); the run changes no failure state, true when no link is half failed (same_failures); every FlexModel interface has a circuit_id; interface ends are in the model. Counterexamples to the unrestricted or documented claim: C104_exact_refuted, C104_perf_traffic_refuted."},
{"property": "C105", "status": "proved", "theorems": ["C105_routes", "C105_traffic", "C105_queries", "C105_quarters_refuted", "C105_shortcuts_refuted", "C105_decimals_refuted"], "note": "Assumes, where a theorem says so: networkx, set order and random.choice meet the contract env_ok (Graph.v); no interface listed twice, costs >= 1, source-dest texts unambiguous (well_posed); the run changes no failure state, true when no link is half failed (same_failures); no IGP shortcut applies to the demand; amounts are multiples of a half of bounded size (SpecFloat.v). Counterexamples to the unrestricted or documented claim: C105_quarters_refuted, C105_shortcuts_refuted, C105_decimals_refuted."},
{"property": "C106", "status": "proved", "theorems": ["C106_raised", "C106_lowered", "C106_routed", "C106_own_traffic", "C106_set_cost", "C106_lowered_refuted"], "note": "Assumes, where a theorem says so: no LSPs, no half-failed link, costs >= 1, keys unique, source-dest texts unambiguous (plain); no LSPs, well formed, no half-failed link (sound_net); networkx, set order and random.choice meet the contract env_ok (Graph.v). Counterexamples to the unrestricted or documented claim: C106_lowered_refuted."},
{"property": "C107", "status": "proved", "theorems": ["C107_opposite", "C107_even", "C107_traffic_refuted"], "note": "Assumes, where a theorem says so: no LSPs, no half-failed link, costs >= 1, keys unique, source-dest texts unambiguous (plain); networkx, set order and random.choice meet the contract env_ok (Graph.v); no interface listed twice, costs >= 1, source-dest texts unambiguous (well_posed); the run changes no failure state, true when no link is half failed (same_failures); links are usable at the same cost in both directions (SpecCost.v); both ends of a link have the same cost and bandwidth left (SpecCost.v); no LSP and no IGP shortcut carries the demand (SpecCost.v). Counterexamples to the unrestricted or documented claim: C107_traffic_refuted."},
{"property": "C108", "status": "proved", "theorems": ["C108_rest", "C108_start", "C108_triangle"], "note": "Assumes, where a theorem says so: networkx, set order and random.choice meet the contract env_ok (Graph.v); no interface listed twice, costs >= 1, source-dest texts unambiguous (well_posed); the run changes no failure state, true when no link is half failed (same_failures); no LSP and no IGP shortcut carries the demand (SpecCost.v)."},
{"property": "C109", "status": "proved", "theorems": ["C109_renamed", "C109_rename_nodes", "C109_lsps", "C109_dashes_refuted"], "note": "Assumes, where a theorem says so: no LSPs, no half-failed link, costs >= 1, keys unique, source-dest texts unambiguous (plain); networkx, set order and random.choice meet the contract env_ok (Graph.v); no IGP shortcuts; the LSP has no two equally good ways; usual model without half-failed links, room for all LSPs on every RSVP interface (SpecMore.v); different nodes get different names without dash (SpecCost.v). Counterexamples to the unrestricted or documented claim: C109_dashes_refuted."},
{"property": "C110", "status": "proved", "theorems": ["C110_reachable", "C110_traffic", "C110_lsps", "C110_lsps_demands", "C110_lsps_traffic", "C110_errors_refuted"], "note": "Assumes, where a theorem says so: no LSPs, no half-failed link, costs >= 1, keys unique, source-dest texts unambiguous (plain); networkx, set order and random.choice meet the contract env_ok (Graph.v); usual model without IGP shortcuts and half-failed links, room for all LSPs on every RSVP interface (SpecMore.v); the LSP has no two equally good ways; usual model without half-failed links, room for all LSPs on every RSVP interface (SpecMore.v); the two models agree on the links and demands at the given nodes (SpecCost.v); no usable link leads from the given nodes elsewhere (SpecCost.v); no usable link connects the given nodes to others (SpecCost.v); the two models agree on the links, demands and LSPs at the given nodes (SpecCost.v); no RSVP interface that is up leads from the given nodes elsewhere (SpecCost.v); no RSVP interface that is up connects the given nodes to others (SpecCost.v). Counterexamples to the unrestricted or documented claim: C110_errors_refuted."},
{"property": "C111", "status": "proved", "theorems": ["C111_calls", "C111_add_demand", "C111_add_rsvp_lsp", "C111_add_node", "C111_add_circuit", "C111_fail_node", "C111_fail_srlg", "C111_unfail_srlg", "C111_circuit_refuted", "C111_node_refuted", "C111_interfaces_refuted", "C111_member_refuted"], "note": "Assumes, where a theorem says so: networkx, set order and random.choice meet the contract env_ok (Graph.v); object keys are unique; objects refer to nodes of the model; keys unique, references inside the model, links paired (wf_net); no half-failed link, no up interface on a failed node (consistent); members of failed SRLGs are failed, link ends share SRLGs (srlg_sound); LSPs are unrouted or routed over interfaces of the model; every interface has one other end; one of the listed calls (SpecExn.v); objects exist, interfaces of a FlexModel have circuit ids, LSP paths are over interfaces of the model (SpecExn.v); the circuit joins two nodes; in a PerformanceModel no link between them exists (SpecExn.v). Counterexamples to the unrestricted or documented claim: C111_circuit_refuted, C111_node_refuted, C111_interfaces_refuted, C111_member_refuted."},
{"property": "C112", "status": "proved", "theorems": ["C112_node_table", "C112_interface_table", "C112_traffic_table", "C112_columns", "C112_demands", "C112_unrouted_refuted", "C112_long_names_refuted", "C112_blank_names_refuted"], "note": "Assumes, where a theorem says so: names are not empty and have no blanks (SpecPrint.v). Counterexamples to the unrestricted or documented claim: C112_unrouted_refuted, C112_long_names_refuted, C112_blank_names_refuted."},
{"property": "C113", "status": "proved", "theorems": ["C113_border", "C113_at_least", "C113_overload", "C113_border_perf", "C113_room", "C113_plain", "C113_enough_refuted", "C113_perf_refuted"], "note": "Assumes, where a theorem says so: no LSPs, no half-failed link, costs >= 1, keys unique, source-dest texts unambiguous (plain); networkx, set order and random.choice meet the contract env_ok (Graph.v); no interface listed twice, costs >= 1, source-dest texts unambiguous (well_posed); the run changes no failure state, true when no link is half failed (same_failures); no two interfaces share name and node; every FlexModel interface has a circuit_id; interface ends are in the model; no half-failed link; bandwidths and capacities are non-negative multiples of 0.1, nothing listed twice (SpecTotal.v); room for all LSPs together on every RSVP interface (SpecTotal.v); no IGP shortcuts; no IGP shortcut applies to the demand; routed LSPs take whole ways over up interfaces (SpecBalance.v). Counterexamples to the unrestricted or documented claim: C113_enough_refuted, C113_perf_refuted."},
{"property": "C114", "status": "proved", "theorems": ["C114_routed", "C114_delivered", "C114_unused", "C114_through", "C114_least", "C114_dear", "C114_add_circuit", "C114_load_refuted"], "note": "Assumes, where a theorem says so: no LSPs, no half-failed link, costs >= 1, keys unique, source-dest texts unambiguous (plain); object references are in use; networkx, set order and random.choice meet the contract env_ok (Graph.v); the circuit joins two nodes; in a PerformanceModel no link between them exists (SpecExn.v); second model is the first with interfaces added (SpecWider.v); the added interfaces are the two ends of one link (SpecWider.v). Counterexamples to the unrestricted or documented claim: C114_load_refuted."},
{"property": "C115", "status": "proved", "theorems": ["C115_lsps", "C115_kept_lsp", "C115_routed", "C115_delivered", "C115_kept", "C115_through", "C115_least", "C115_dear", "C115_add_circuit", "C115_room_refuted"], "note": "Assumes, where a theorem says so: object references are in use; networkx, set order and random.choice meet the contract env_ok (Graph.v); usual model without IGP shortcuts and half-failed links, room for all LSPs on every RSVP interface (SpecMore.v); the LSP has no two equally good ways; the circuit joins two nodes; in a PerformanceModel no link between them exists (SpecExn.v); the added interfaces are the two ends of one link (SpecWider.v); second model is the first with interfaces added (SpecWider.v); the demand and its LSPs use only interfaces of the first model (SpecWider.v); the link has another way between its ends, or completes a way (SpecWider.v). Counterexamples to the unrestricted or documented claim: C115_room_refuted."},
{"property": "C116", "status": "proved", "theorems": ["C116_routed", "C116_raised_lsp", "C116_raised", "C116_traffic", "C116_lowered_lsp", "C116_set_cost", "C116_unused", "C116_room_refuted"], "note": "Assumes, where a theorem says so: networkx, set order and random.choice meet the contract env_ok (Graph.v); usual model without IGP shortcuts and half-failed links, room for all LSPs on every RSVP interface (SpecMore.v); the LSP has no two equally good ways; second model is the first with other costs (SpecLspCost.v); the demand and its LSPs use only interfaces whose cost is the same (SpecLspCost.v); the interface is on every cheapest way of the LSP (SpecLspCost.v). Counterexamples to the unrestricted or documented claim: C116_room_refuted."},
{"property": "C117", "status": "proved", "theorems": ["C117_lsps", "C117_paths", "C117_traffic", "C117_set_capacity", "C117_one_end", "C117_room_refuted"], "note": "Assumes, where a theorem says so: networkx, set order and random.choice meet the contract env_ok (Graph.v); usual model without IGP shortcuts and half-failed links, room for all LSPs on every RSVP interface (SpecMore.v); the LSP has no two equally good ways; second model is the first with other capacities (SpecCap.v); the interfaces are the two ends of a link and have no other (SpecCap.v); the capacity is in tenths, positive and leaves room for all LSPs (SpecCap.v). Counterexamples to the unrestricted or documented claim: C117_room_refuted."},
{"property": "C118", "status": "proved", "theorems": ["C118_lsps", "C118_others", "C118_lowest", "C118_higher", "C118_set_metric"], "note": "Assumes, where a theorem says so: networkx, set order and random.choice meet the contract env_ok (Graph.v); usual model without IGP shortcuts and half-failed links, room for all LSPs on every RSVP interface (SpecMore.v); the LSP has no two equally good ways; second model is the first with another manual metric of one LSP (SpecSteer.v); reading manual_metric gives this value (SpecSteer.v); the other routed LSPs of the demand have higher metrics (SpecSteer.v)."}
]}
