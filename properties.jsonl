{"id": "C01", "title": "IGP demands take exactly the least-cost paths", "statement": "After update_simulation returns, demand.path of a demand that rides no LSP (no routed LSP from its source to its destination, and no IGP-shortcut node on its paths) lists, each exactly once, all the interface sequences from source to destination of minimum total cost over the interfaces that are not failed and have reservable_bandwidth >= 0; in a FlexModel this includes every combination of equal-cost parallel links.", "quantifier": "every network, every demand, both model classes, every history that led to the state, every set iteration order", "why_tests_cant": "The unit tests compare a handful of small topologies; the claim ranges over all graphs, all costs, all parallel-link multiplicities and all set orders.", "anchors": ["pyNTM/flex_model.py:_route_demands", "pyNTM/flex_model.py:_get_all_paths_mdg", "pyNTM/flex_model.py:_normalize_multidigraph_paths", "pyNTM/performance_model.py:_route_demands", "pyNTM/performance_model.py:_convert_graph_path_to_model_path"]}
{"id": "C02", "title": "RSVP-disabled or over-reserved links are invisible to IGP routing", "statement": "The documented claim that rsvp_enabled=False only keeps RSVP LSPs off an interface is false: a demand whose only unfailed path uses an rsvp_enabled=False interface is Unrouted after update_simulation.  The exact rule is that IGP routing uses an interface if and only if it is unfailed and reservable_bandwidth >= 0, hence never an rsvp_enabled=False one.", "quantifier": "every network, every interface, every demand; plus one concrete counterexample network", "why_tests_cant": "A test only shows that one RSVP-disabled link is or is not used; the exclusion holds for every topology and is a documented-behaviour mismatch.", "anchors": ["pyNTM/flex_model.py:_make_weighted_network_graph_mdg", "pyNTM/performance_model.py:_make_weighted_network_graph", "pyNTM/interface.py:Interface.reservable_bandwidth"]}
{"id": "C03", "title": "A demand is Unrouted exactly when its endpoints are disconnected", "statement": "After update_simulation returns, a demand with no routed LSP from its source to its destination has path == \"Unrouted\" if and only if no sequence of usable interfaces (unfailed, reservable_bandwidth >= 0) leads from its source to its destination.", "quantifier": "every network, every demand, both model classes", "why_tests_cant": "Absence of any path is a statement about all interface sequences.", "anchors": ["pyNTM/flex_model.py:_route_demands", "pyNTM/performance_model.py:_route_demands"]}
{"id": "C04", "title": "Path shares of an IGP demand add up to its traffic", "statement": "For every demand routed on IGP paths without LSPs, the path_traffic values in demand.path_detail add up to exactly demand.traffic in a FlexModel; in a PerformanceModel, which rounds each share to 4 decimals, they add up to it within 0.00005 per path.", "quantifier": "every network, every set of equal-cost paths (any number, any sharing of interfaces), every traffic value (exact arithmetic)", "why_tests_cant": "The split is computed per path from a global next-hop count; conservation depends on the structure of all shortest-path sets, not on sampled ones.", "anchors": ["pyNTM/flex_model.py:_demand_traffic_per_item", "pyNTM/flex_model.py:_find_unique_next_hops", "pyNTM/performance_model.py:_demand_traffic_per_int"]}
{"id": "C05", "title": "Hop-by-hop equal-cost split", "statement": "For every IGP-routed demand in a FlexModel, at every node on its paths the traffic of the demand arriving there (demand.traffic at the source) is divided equally over all the interfaces leaving that node on the demand's paths: the path_traffic of the paths through such an interface adds up to the arriving amount divided by the number of those interfaces, and at the destination the full traffic arrives.", "quantifier": "every network, every node, every next hop, every demand", "why_tests_cant": "Per-hop load balancing over arbitrary DAGs of shortest paths is an inductive property.", "anchors": ["pyNTM/flex_model.py:_demand_traffic_per_item", "pyNTM/flex_model.py:_find_unique_next_hops"]}
{"id": "C06", "title": "Interface traffic is the sum of what the demands put on it", "statement": "After update_simulation of a FlexModel without IGP shortcuts, interface.traffic is \"Down\" for a failed interface and otherwise equals the sum over all routed demands of the path_traffic of those path_detail entries whose path crosses the interface, directly or inside an LSP's path; a PerformanceModel adds the per-demand amount rounded to one decimal for IGP paths.", "quantifier": "every network, every set of demands and LSPs, every interface, every order of the demand set", "why_tests_cant": "Accumulation over an arbitrary number of demands and LSPs.", "anchors": ["pyNTM/flex_model.py:_update_interface_utilization", "pyNTM/flex_model.py:_update_int_traffic_for_end_to_end_lsps", "pyNTM/performance_model.py:_update_interface_utilization"]}
{"id": "C07", "title": "Demands with a routed LSP ride the least-metric LSPs, split evenly", "statement": "After update_simulation returns, if at least one LSP from the demand's source to its destination is routed then demand.path consists of exactly one entry per routed LSP of minimum effective metric between these nodes, each a single LSP, and path_detail gives each of them traffic/n (rounded to 4 decimals in a PerformanceModel), n being their number; these shares add up to the demand's traffic in a FlexModel.", "quantifier": "every network, every LSP group of any size with any mix of manual and topology metrics, every demand", "why_tests_cant": "Depends on every combination of metrics, routed/unrouted group members and group sizes.", "anchors": ["pyNTM/flex_model.py:_route_demands", "pyNTM/flex_model.py:_update_int_traffic_for_end_to_end_lsps", "pyNTM/performance_model.py:_route_demands", "pyNTM/performance_model.py:_lsp_routed_demand_path_detail", "pyNTM/rsvp.py:RSVP_LSP.effective_metric"]}
{"id": "C08", "title": "Flow conservation at every node", "statement": "Flow conservation in a FlexModel without shortcuts: for an IGP-routed demand and any node other than its source and destination, the demand's traffic arriving on the interfaces into the node equals its traffic leaving on the interfaces out of it; out of the source and into the destination it equals the demand's traffic.", "quantifier": "every network, every node, every demand", "why_tests_cant": "Kirchhoff's law for all topologies.", "anchors": ["pyNTM/flex_model.py:_demand_traffic_per_item", "pyNTM/flex_model.py:_update_interface_utilization"]}
{"id": "C09", "title": "A newly signalled LSP takes a least-cost feasible path with fewest hops", "statement": "When an LSP is signalled, the path it gets is a sequence of interfaces from its source to its destination, all of them unfailed, rsvp-enabled and with reservable_bandwidth >= setup_bandwidth at that moment; its total cost is minimal among all such sequences and its hop count minimal among those of minimal cost; path_cost and baseline_path_reservable_bw are the sum of its costs and the minimum of its reservable bandwidths.", "quantifier": "every network state, every LSP, every outcome of the random tie-break, both model classes", "why_tests_cant": "Optimality over all feasible paths and all random choices.", "anchors": ["pyNTM/flex_model.py:_determine_lsp_state_info", "pyNTM/performance_model.py:_determine_lsp_state_info", "pyNTM/master_model.py:_add_lsp_path_data"]}
{"id": "C10", "title": "An LSP is left Unrouted exactly when no feasible path exists", "statement": "When an LSP with distinct end nodes that are in the model is signalled, it ends Unrouted (path and reserved_bandwidth == \"Unrouted\", no interface reservation changed) if and only if no sequence of unfailed, rsvp-enabled interfaces with reservable_bandwidth >= setup_bandwidth leads from its source to its destination.", "quantifier": "every network state, every LSP, both model classes", "why_tests_cant": "Non-existence of a feasible path is universally quantified.", "anchors": ["pyNTM/flex_model.py:_determine_lsp_state_info", "pyNTM/performance_model.py:_determine_lsp_state_info"]}
{"id": "C11", "title": "Signalling an LSP reserves exactly its bandwidth on exactly its path", "statement": "Signalling an LSP adds its reserved_bandwidth to reserved_bandwidth of every interface on the chosen path (each rounded to one decimal) and changes no other interface and no other LSP.", "quantifier": "every network state, every LSP, every random outcome", "why_tests_cant": "Frame property over all other interfaces and LSPs.", "anchors": ["pyNTM/flex_model.py:_determine_lsp_state_info", "pyNTM/performance_model.py:_determine_lsp_state_info", "pyNTM/interface.py:Interface.reserved_bandwidth"]}
{"id": "C12", "title": "Admission control keeps reservable bandwidth non-negative", "statement": "Starting from no reservations, signalling any number of LSPs one after the other keeps reservable_bandwidth >= 0 on every rsvp-enabled interface, hence reserved_bandwidth <= capacity * percent_reservable_bandwidth/100 + 0.05; the 0.05 slack is real: because reservable_bandwidth is rounded to one decimal, an interface can be reserved above its reservable capacity.", "quantifier": "every network, every sequence of LSPs of any length, every random outcome; plus a concrete overbooking counterexample", "why_tests_cant": "An invariant over unbounded sequences of reservations with rounding.", "anchors": ["pyNTM/flex_model.py:_determine_lsp_state_info", "pyNTM/interface.py:Interface.reservable_bandwidth", "pyNTM/master_model.py:_route_parallel_lsp_groups"]}
{"id": "C13", "title": "Interface reservations equal the sum of LSP reservations", "statement": "After the LSPs are signalled, reserved_bandwidth of an interface equals the sum of the reserved_bandwidth of the routed LSPs whose path contains it, provided all signalled bandwidths are multiples of 0.1; without that proviso it is false: two LSPs of 0.5 and 0.25 on one interface make update_simulation raise a ModelException, and whether it raises depends on the order of signalling.", "quantifier": "every network, every sequence of LSPs; plus a concrete counterexample", "why_tests_cant": "Rounding at every addition interacts with the number and order of LSPs.", "anchors": ["pyNTM/interface.py:Interface.reserved_bandwidth", "pyNTM/master_model.py:_reserved_bw_error_checks", "pyNTM/master_model.py:_make_int_info_dict"]}
{"id": "C14", "title": "Setup bandwidth follows configuration or equal share", "statement": "After update_simulation returns, setup_bandwidth of an LSP with a configured_setup_bandwidth is exactly that bandwidth, and setup_bandwidth of any other LSP is the total traffic of the demands between its end nodes divided by the number of LSPs between them.  The one exception: if some but not all LSPs between the two nodes are routed, the routed ones without (non-zero) configured bandwidth may instead have the traffic divided by the number of routed ones.  The bandwidth reserved for an LSP with a configured bandwidth can nevertheless differ from it after such a re-signalling.", "quantifier": "every LSP, every group, every set of demands, both model classes; plus a concrete counterexample", "why_tests_cant": "All combinations of configured and automatic LSPs and demand sets.", "anchors": ["pyNTM/rsvp.py:RSVP_LSP.setup_bandwidth", "pyNTM/flex_model.py:_determine_lsp_state_info", "pyNTM/master_model.py:_route_parallel_lsp_groups"]}
{"id": "C15", "title": "Re-signalling keeps LSP paths contiguous and unfailed without parallel links, but not in a FlexModel with them", "statement": "When part of a group cannot be routed the routed LSPs are re-signalled for a bigger share.  In a model without parallel links the resulting path is again a contiguous least-cost sequence of unfailed rsvp-enabled interfaces with enough bandwidth (counting the LSP's own reservation), and the LSP is left as it was exactly when there is none.  In a FlexModel with parallel links this is false: the new path can list two parallel interfaces one after the other and can contain a failed interface, and update_simulation of such a model can raise TypeError.", "quantifier": "every network state, every LSP, every random outcome; plus concrete FlexModel counterexamples", "why_tests_cant": "Needs all topologies for the positive part and a very specific state for the negative part.", "anchors": ["pyNTM/rsvp.py:RSVP_LSP.find_rsvp_path_w_bw", "pyNTM/flex_model.py:_convert_nx_path_to_model_path_routed_lsp", "pyNTM/flex_model.py:get_shortest_path_for_routed_lsp", "pyNTM/performance_model.py:get_shortest_path_for_routed_lsp"]}
{"id": "C16", "title": "Re-signalling accounting", "statement": "When re-signalling changes an LSP's reserved bandwidth, the old amount is released on the old path and the new amount reserved on the new path (up to the one-decimal rounding) and nothing else changes.  When the requested bandwidth happens to equal the old one but the path changes, reservations are left on the old path.", "quantifier": "every network state, every LSP, every random outcome; plus a concrete counterexample", "why_tests_cant": "Requires states where only part of a group is routable and specific bandwidth coincidences.", "anchors": ["pyNTM/master_model.py:_optimize_parallel_lsp_group_res_bw", "pyNTM/rsvp.py:RSVP_LSP.find_rsvp_path_w_bw"]}
{"id": "C17", "title": "update_simulation does not depend on earlier simulation results", "statement": "Two models with the same objects and configuration (nodes, interfaces, costs, capacities, failures, demands, LSPs) but arbitrary leftovers of earlier runs (traffic, reservations, paths, cached groups, circuits) get the same outcome from update_simulation - the same exception or none, and the same interface traffic and reservations, LSP paths and bandwidths and demand paths - if the random choices are the same.", "quantifier": "every pair of models that differ only in simulation results, every history", "why_tests_cant": "Ranges over all previous histories; a test can only re-run a few.", "anchors": ["pyNTM/flex_model.py:update_simulation", "pyNTM/performance_model.py:update_simulation", "pyNTM/master_model.py:_route_lsps"]}
{"id": "C18", "title": "path_detail of a demand that becomes unrouted is stale", "statement": "The claim that demand.path_detail reflects the latest simulation is false for unrouted demands: a demand that was routed and becomes Unrouted keeps its old path_detail.  For every routed demand path_detail is recomputed by update_simulation.", "quantifier": "every demand; plus a concrete counterexample history", "why_tests_cant": "Needs a history of failures; the positive part ranges over all models.", "anchors": ["pyNTM/flex_model.py:_update_interface_utilization", "pyNTM/performance_model.py:_update_interface_utilization"]}
{"id": "C19", "title": "update_simulation never changes the input data", "statement": "update_simulation (whether it returns or raises) changes no node attribute, no SRLG, no interface name, cost, capacity, end point, SRLG membership or RSVP setting, no demand's end points, traffic or name, no LSP's end points, name or configured bandwidth, and not the sets of objects in the model; interface failure states change only from unfailed to failed.", "quantifier": "every model, every outcome", "why_tests_cant": "Frame property over all objects, including exceptional exits.", "anchors": ["pyNTM/flex_model.py:update_simulation", "pyNTM/performance_model.py:update_simulation"]}
{"id": "C20", "title": "Self-demands and self-LSPs make the simulation fail", "statement": "If a model contains a demand or an LSP whose source and destination are the same node, update_simulation cannot return normally (it raises, typically ValueError), although add_demand and add_rsvp_lsp accept such objects.", "quantifier": "every model containing such an object", "why_tests_cant": "Universal over all models and object positions in the sets.", "anchors": ["pyNTM/flex_model.py:_demand_traffic_per_item", "pyNTM/flex_model.py:_determine_lsp_state_info", "pyNTM/performance_model.py:_demand_traffic_per_int", "pyNTM/master_model.py:add_demand"]}
{"id": "C21", "title": "Set iteration order does not affect IGP results", "statement": "For a model (Flex or Performance) without LSPs, listing the interfaces, nodes and demands in another order (and iterating over sets in another order) changes neither whether update_simulation succeeds nor the set of paths of any demand nor, if no link is half failed, the traffic of any interface. With LSPs this fails: the first of two LSPs competing for bandwidth wins.", "quantifier": "every model without LSPs, every permutation of the sets, every iteration order", "why_tests_cant": "Python set order is arbitrary per process; no finite set of tests covers all orders.", "anchors": ["pyNTM/flex_model.py:update_simulation", "pyNTM/flex_model.py:_route_demands", "pyNTM/flex_model.py:_update_interface_utilization"]}
{"id": "C22", "title": "What validate_model accepts", "statement": "validate_model returns normally if and only if: the interfaces pair up into circuits, every reservation recorded on an interface is at most its capacity and equals (to one decimal) the rounded sum of its LSPs' reservations, both ends of each circuit have the same capacity, node names are unique and, for a PerformanceModel, no node has IGP shortcuts enabled and no two interfaces have the same \"local-remote\" name pair; otherwise it raises a ModelException, and if the interfaces do pair up the exception's list names exactly the failed checks, each once.", "quantifier": "every model state, both model classes", "why_tests_cant": "An if-and-only-if over all states.", "anchors": ["pyNTM/flex_model.py:validate_model", "pyNTM/performance_model.py:validate_model", "pyNTM/master_model.py:_reserved_bw_error_checks", "pyNTM/master_model.py:_validate_circuit_interface_capacity"]}
{"id": "C23", "title": "Duplicate interface names on a node are not rejected", "statement": "The claim that validate_model rejects two interfaces with the same name on the same node is false: the check can never fail; renaming the interfaces in any way does not change whether a model without routed LSPs is accepted.", "quantifier": "every model state (the check has no effect), plus a concrete accepted model", "why_tests_cant": "Shows an absent effect for all states.", "anchors": ["pyNTM/master_model.py:_unique_interface_per_node", "pyNTM/flex_model.py:validate_model", "pyNTM/performance_model.py:validate_model"]}
{"id": "C24", "title": "Circuits pair every interface with its reverse", "statement": "After validate_model returns in a FlexModel whose interfaces all have a circuit_id, the two ends of a circuit have swapped end nodes and the same circuit_id, no interface is in two circuits, and an interface is in a circuit exactly if it or its reverse has reservable_bandwidth >= 0 (rsvp-enabled); so when every interface has, every interface is an end of exactly one circuit.  Two stronger claims are false: an rsvp_enabled=False interface can be an end of a circuit, and without circuit ids an interface can be in no circuit of an accepted model.", "quantifier": "every model state, every order of the interface set; plus two concrete counterexamples", "why_tests_cant": "Partition property over all sets of interfaces.", "anchors": ["pyNTM/flex_model.py:_make_circuits_multidigraph", "pyNTM/flex_model.py:validate_model", "pyNTM/circuit.py:Circuit"]}
{"id": "C25", "title": "PerformanceModel circuit numbering", "statement": "After validate_model returns in a PerformanceModel where all interfaces are rsvp-enabled with reservable_bandwidth >= 0, every interface is an end of exactly one circuit, both ends of a circuit have swapped end nodes and the same integer circuit_id, and different circuits have different circuit_ids 1..n.", "quantifier": "every model state, every order of the interface set", "why_tests_cant": "Partition property over all sets of interfaces.", "anchors": ["pyNTM/performance_model.py:_make_circuits", "pyNTM/performance_model.py:validate_model"]}
{"id": "C26", "title": "Names containing '-' break grouping and the parallel-link check", "statement": "LSPs and demands are grouped by the string \"source-dest\"; when no node name contains '-', the groups are exactly the classes of LSPs with the same source and destination, and the PerformanceModel parallel-link check fires exactly when two interfaces share both end nodes.  With '-' in node names both are false: different node pairs collide.", "quantifier": "every set of LSPs and node names; plus concrete counterexamples", "why_tests_cant": "Ranges over all names.", "anchors": ["pyNTM/master_model.py:parallel_lsp_groups", "pyNTM/master_model.py:parallel_demand_groups", "pyNTM/performance_model.py:_multiple_links_between_nodes"]}
{"id": "C27", "title": "fail_interface fails exactly one link", "statement": "fail_interface either raises and changes nothing, or leaves exactly the named interface and its remote interface failed with reserved_bandwidth 0 and changes nothing else.", "quantifier": "every model state, every interface and node name", "why_tests_cant": "Frame over all objects and all error exits.", "anchors": ["pyNTM/master_model.py:fail_interface", "pyNTM/interface.py:Interface.get_remote_interface", "pyNTM/interface.py:Interface.failed"]}
{"id": "C28", "title": "unfail_interface respects nodes and SRLGs", "statement": "After unfail_interface returns in a model whose interfaces refer to the model's node objects, either the end nodes are both up, neither end is in a failed SRLG and both ends are unfailed, or an end node is failed and nothing changed.  If either end is in a failed SRLG and the nodes are up it raises ModelException and both ends' failure states are not changed from failed to unfailed for members of that SRLG.", "quantifier": "every model state, every interface", "why_tests_cant": "All combinations of node, SRLG and interface states.", "anchors": ["pyNTM/master_model.py:unfail_interface", "pyNTM/interface.py:Interface.failed"]}
{"id": "C29", "title": "fail_node takes down the node and all attached links", "statement": "When fail_node returns, the node and every interface on it and each of their remote interfaces are failed; every other interface and node is unchanged.", "quantifier": "every model state, every node, any number of interfaces", "why_tests_cant": "Loop over arbitrarily many interfaces.", "anchors": ["pyNTM/master_model.py:fail_node"]}
{"id": "C30", "title": "fail then unfail of an interface is a round trip", "statement": "If both ends of a link are up, its nodes are up and it is in no failed SRLG, fail_interface followed by unfail_interface restores both ends to unfailed with no other object's failure state changed (when validation succeeds), in every model.", "quantifier": "every valid model state, every interface", "why_tests_cant": "Universal over states.", "anchors": ["pyNTM/master_model.py:fail_interface", "pyNTM/master_model.py:unfail_interface"]}
{"id": "C31", "title": "fail_srlg fails every member", "statement": "When fail_srlg returns, the SRLG, every member node, every interface on a member node with its remote interface, and every member interface with its remote interface are failed; no object outside this set changes its failure state.", "quantifier": "every model state, every SRLG membership", "why_tests_cant": "Nested loops over arbitrarily many members.", "anchors": ["pyNTM/master_model.py:fail_srlg", "pyNTM/srlg.py:SRLG"]}
{"id": "C32", "title": "A member of a failed SRLG cannot be brought up", "statement": "No call of unfail_interface, unfail_node, unfail_srlg (of another SRLG), Interface.unfail_interface or direct assignment changes a failed node or interface that is a member of a failed SRLG to unfailed; the attempt to set failed = False on it raises ModelException and leaves it failed.", "quantifier": "every model state, every history of such calls", "why_tests_cant": "Invariant over all histories.", "anchors": ["pyNTM/interface.py:Interface.failed", "pyNTM/node.py:Node.failed", "pyNTM/master_model.py:unfail_srlg"]}
{"id": "C33", "title": "Failed state stays consistent over histories of failures and repairs", "statement": "Starting from a model in which no unfailed interface touches a failed node and the two ends of every circuit have the same state, any sequence of fail_interface, unfail_interface, fail_node, unfail_node and update_simulation calls (with exceptions caught) ends in a model with the same property.", "quantifier": "every well-formed starting model, every finite sequence of calls", "why_tests_cant": "Invariant over unbounded histories.", "anchors": ["pyNTM/master_model.py:fail_interface", "pyNTM/master_model.py:unfail_interface", "pyNTM/master_model.py:fail_node", "pyNTM/master_model.py:unfail_node"]}
{"id": "C34", "title": "Failures that are not propagated", "statement": "Three documented invariants are false: adding a node or interface to a failed SRLG does not fail it; Interface.remove_from_srlg brings up only the local end of a failed link; add_circuit on a failed node (or with failed=True) creates unfailed interfaces.", "quantifier": "concrete counterexample histories", "why_tests_cant": "Need particular orders of SRLG and failure calls.", "anchors": ["pyNTM/interface.py:Interface.add_to_srlg", "pyNTM/interface.py:Interface.remove_from_srlg", "pyNTM/flex_model.py:add_circuit", "pyNTM/srlg.py:SRLG"]}
{"id": "C35", "title": "add_demand", "statement": "add_demand raises without changing the set of demands if an end node is unknown (ModelException), the traffic is negative (ValueError) or a demand with the same source, destination and name exists (ModelException); otherwise exactly one demand with the given values, Unrouted, is added - also when the final validation raises.", "quantifier": "every model state, every argument", "why_tests_cant": "All argument combinations including error exits and non-atomic updates.", "anchors": ["pyNTM/master_model.py:add_demand", "pyNTM/demand.py:Demand"]}
{"id": "C36", "title": "add_rsvp_lsp and the stale group cache", "statement": "add_rsvp_lsp raises without changing the set of LSPs if an end node is unknown or the key exists; otherwise exactly one new unrouted LSP is added.  It does not refresh the cached parallel LSP groups: after an earlier update_simulation, traffic_on_lsp of the new LSP can raise KeyError until update_simulation is run again; update_simulation always recomputes the groups.", "quantifier": "every model state, every argument; plus a concrete counterexample history", "why_tests_cant": "Depends on history (cache state).", "anchors": ["pyNTM/master_model.py:add_rsvp_lsp", "pyNTM/master_model.py:parallel_lsp_groups", "pyNTM/rsvp.py:RSVP_LSP.traffic_on_lsp"]}
{"id": "C37", "title": "add_circuit", "statement": "add_circuit adds exactly two interfaces with the given names, costs and capacity, swapped end nodes and the same circuit_id, unless it raises before adding: for a FlexModel when circuit_id is None or already used, for both classes when a cost is below 1, the capacity is not positive or an interface with the same name on the same node exists; a PerformanceModel without explicit circuit_id uses one more than the largest id.", "quantifier": "every model state, every argument", "why_tests_cant": "All argument combinations and error exits.", "anchors": ["pyNTM/flex_model.py:add_circuit", "pyNTM/performance_model.py:add_circuit"]}
{"id": "C38", "title": "Object keys stay unique over histories", "statement": "In every model reached from an empty one (or any model with unique keys) by any sequence of add_node, add_demand, add_rsvp_lsp, add_circuit, add_srlg, failure calls, SRLG membership calls, validate_model and update_simulation, with exceptions caught by the caller, no two demands have the same (source, dest, name), no two LSPs have the same (source, dest, name), no two interfaces the same (name, node), no two nodes the same name and no two SRLGs the same name.", "quantifier": "every finite sequence of calls, every argument", "why_tests_cant": "Invariant over unbounded histories including failed calls.", "anchors": ["pyNTM/master_model.py:add_demand", "pyNTM/master_model.py:add_rsvp_lsp", "pyNTM/master_model.py:add_node", "pyNTM/flex_model.py:add_circuit", "pyNTM/master_model.py:add_srlg"]}
{"id": "C39", "title": "change_interface_name and add_network_interfaces_from_list can create duplicates", "statement": "Key uniqueness is not preserved by change_interface_name nor by add_network_interfaces_from_list: both can produce two interfaces with the same (name, node) in a model that validate_model accepts.", "quantifier": "concrete counterexample histories", "why_tests_cant": "Documents the boundary of the previous invariant.", "anchors": ["pyNTM/master_model.py:change_interface_name", "pyNTM/master_model.py:_make_network_interfaces"]}
{"id": "C40", "title": "Costs and capacities stay positive", "statement": "In every model reached from an empty one by any sequence of public calls (with exceptions caught), every interface has cost >= 1 and capacity > 0 and every demand has traffic >= 0.", "quantifier": "every finite sequence of calls, every argument", "why_tests_cant": "Invariant over unbounded histories.", "anchors": ["pyNTM/interface.py:Interface.cost", "pyNTM/interface.py:Interface.capacity", "pyNTM/demand.py:Demand"]}
{"id": "C41", "title": "Lookups return the right object", "statement": "get_demand_object, get_rsvp_lsp, get_interface_object and get_node_object return an object of the model with the requested names if there is one and raise ModelException otherwise; with unique keys it is the only one.", "quantifier": "every model state, every name", "why_tests_cant": "Universal over states and names.", "anchors": ["pyNTM/master_model.py:get_demand_object", "pyNTM/master_model.py:get_rsvp_lsp", "pyNTM/master_model.py:get_interface_object", "pyNTM/master_model.py:get_node_object"]}
{"id": "C42", "title": "manual_metric life cycle", "statement": "Reading manual_metric of an LSP created with configured_manual_metric m > 0 gives m; the first assignment to manual_metric before any read or simulation is lost (the configured value wins); afterwards assigning v > 0 makes it v, -1 clears it and any other integer raises ModelException leaving it unchanged; a negative configured metric makes every read raise.", "quantifier": "every sequence of reads and assignments", "why_tests_cant": "State machine over all operation sequences.", "anchors": ["pyNTM/rsvp.py:RSVP_LSP.manual_metric", "pyNTM/rsvp.py:RSVP_LSP.effective_metric"]}
{"id": "C43", "title": "effective_metric", "statement": "effective_metric returns the manual metric if one is set; otherwise \"Unrouted\" for an unrouted LSP and, for a routed one, the least total cost of a path of usable interfaces from its source to its destination, whatever path the LSP itself takes.  Apart from taking over the configured metric, as a read of manual_metric does, it changes nothing.", "quantifier": "every model state, every LSP", "why_tests_cant": "Optimality over all paths.", "anchors": ["pyNTM/rsvp.py:RSVP_LSP.effective_metric", "pyNTM/flex_model.py:get_shortest_path", "pyNTM/performance_model.py:get_shortest_path"]}
{"id": "C44", "title": "get_shortest_path", "statement": "get_shortest_path returns the minimum cost over the usable interfaces with reservable_bandwidth >= needed_bw; in a PerformanceModel without parallel links the paths are exactly the minimum-cost interface sequences.  In a FlexModel every such sequence is among the returned paths, but the converse is false: failed or more expensive parallel interfaces are returned too.", "quantifier": "every model state, every pair of nodes, every needed_bw; plus a concrete FlexModel counterexample", "why_tests_cant": "Optimality and completeness over all paths.", "anchors": ["pyNTM/flex_model.py:get_shortest_path", "pyNTM/flex_model.py:_convert_nx_path_to_model_path", "pyNTM/performance_model.py:get_shortest_path"]}
{"id": "C45", "title": "get_all_paths_reservable_bw", "statement": "get_all_paths_reservable_bw returns, for two different nodes of the model, interface sequences that connect them without visiting a node twice, within the cutoff, each interface having reservable_bandwidth >= needed_bw; every such sequence over allowed interfaces is returned.  With include_failed_circuits=False a FlexModel can still return a failed parallel interface.", "quantifier": "every model state, every pair of nodes, cutoff and needed_bw; plus a concrete counterexample", "why_tests_cant": "Soundness and completeness over all simple paths.", "anchors": ["pyNTM/flex_model.py:get_all_paths_reservable_bw", "pyNTM/performance_model.py:get_all_paths_reservable_bw"]}
{"id": "C46", "title": "Interface.lsps, Interface.demands and demands_on_lsp are sound and complete", "statement": "With unique interface keys: interface.lsps(model) is exactly the routed LSPs whose path contains the interface; lsp.demands_on_lsp(model) exactly the demands with the LSP in one of their paths; interface.demands(model) exactly the demands with a path that contains the interface or an LSP whose path contains it.", "quantifier": "every model state with simulated LSPs and demands, every interface and LSP", "why_tests_cant": "If-and-only-if over all states.", "anchors": ["pyNTM/interface.py:Interface.lsps", "pyNTM/interface.py:Interface.demands", "pyNTM/rsvp.py:RSVP_LSP.demands_on_lsp"]}
{"id": "C47", "title": "simulation_diagnostics counts partition LSPs and demands", "statement": "In simulation_diagnostics the LSPs with demands, without demands and unrouted add up to all LSPs, demands riding and not riding LSPs add up to all demands, riding demands are exactly those with an LSP in a path, and unrouted demands are among those not riding.  The unrouted counts are the numbers of demands and LSPs whose path is Unrouted, and no LSP or demand is listed twice.  Before the first simulation unrouted LSPs are counted as routed.", "quantifier": "every model state; plus a concrete counterexample", "why_tests_cant": "Universal over states.", "anchors": ["pyNTM/master_model.py:simulation_diagnostics"]}
{"id": "C48", "title": "traffic_on_lsp", "statement": "After update_simulation of a FlexModel without IGP shortcuts, traffic_on_lsp of a routed LSP equals the sum over the demands between its end nodes of traffic/n if the LSP is one of the n least-metric routed LSPs between them, and 0 otherwise; the group members' values add up to the total traffic of these demands.", "quantifier": "every model, every LSP group, every demand set", "why_tests_cant": "Sum over arbitrary groups and demands.", "anchors": ["pyNTM/rsvp.py:RSVP_LSP.traffic_on_lsp", "pyNTM/flex_model.py:_update_int_traffic_for_end_to_end_lsps"]}
{"id": "C49", "title": "get_remote_interface is an involution on valid models", "statement": "In a model with unique keys whose interfaces pair up by circuit_id, get_remote_interface of an interface is the other end of its circuit, and applying it twice gives the interface back.", "quantifier": "every such model, every interface", "why_tests_cant": "Universal over models.", "anchors": ["pyNTM/interface.py:Interface.get_remote_interface"]}
{"id": "C50", "title": "Loaded models are well formed", "statement": "A model returned by load_model_file has unique interface, node, demand and LSP keys, all costs are >= 1, all capacities > 0, all demand traffic >= 0, nothing is failed and no simulation results are present; if no interface joins a node to itself, every interface, demand and LSP refers to node objects of the model. (Without that proviso the last part is false: the first line that mentions a node may join it to itself, and then the remote node is an object outside the model.)", "quantifier": "every input file that loads, every int/float parser", "why_tests_cant": "Universal over file contents.", "anchors": ["pyNTM/flex_model.py:load_model_file", "pyNTM/performance_model.py:load_model_file", "pyNTM/master_model.py:_add_demand_from_data", "pyNTM/master_model.py:_add_lsp_from_data", "pyNTM/master_model.py:_add_node_from_data"]}
{"id": "C51", "title": "Loader keeps the first of duplicate lines and loses none", "statement": "When load_model_file returns, the interfaces are exactly those described by the lines of INTERFACES_TABLE with, for each (name, node), only the first such line; likewise demands by (source, dest, name) and LSPs by (source, dest, name).", "quantifier": "every input file that loads", "why_tests_cant": "Universal over file contents.", "anchors": ["pyNTM/flex_model.py:_extract_interface_data_and_implied_nodes", "pyNTM/performance_model.py:_extract_interface_data_and_implied_nodes", "pyNTM/master_model.py:_add_demand_from_data", "pyNTM/master_model.py:_add_lsp_from_data"]}
{"id": "C52", "title": "Loader rejections", "statement": "load_model_file raises if one of the three mandatory tables is missing, if (FlexModel) some circuit_id does not appear exactly twice, if a line of INTERFACES_TABLE has too few or too many fields, a cost below 1 or a capacity not above 0, or if a demand or LSP line names an unknown node; in particular a blank line after the RSVP_LSP_TABLE makes it raise.", "quantifier": "every input file", "why_tests_cant": "Universal over file contents.", "anchors": ["pyNTM/flex_model.py:load_model_file", "pyNTM/performance_model.py:load_model_file", "pyNTM/utilities.py:find_end_index"]}
{"id": "C53", "title": "Table extent", "statement": "Each table is read from the second line after its header up to, not including, the next empty line, or to the end of the file if there is none.", "quantifier": "every list of lines", "why_tests_cant": "Index arithmetic over all files.", "anchors": ["pyNTM/utilities.py:find_end_index", "pyNTM/flex_model.py:load_model_file"]}
{"id": "C54", "title": "IGP shortcuts", "statement": "With IGP shortcuts the traffic shares no longer need to add up: there is a FlexModel in which update_simulation returns and the path_traffic values of a demand do not add up to its traffic.  If no node on the least-cost paths has shortcuts enabled, LSPs between other node pairs never appear in the demand's path.", "quantifier": "every model for the positive part; one concrete counterexample", "why_tests_cant": "Needs shortcuts combined with unequal equal-cost paths.", "anchors": ["pyNTM/flex_model.py:find_igp_shortcuts", "pyNTM/flex_model.py:_insert_lsp_shortcuts", "pyNTM/flex_model.py:_demand_traffic_per_item"]}
{"id": "C55", "title": "Utilization", "statement": "interface.utilization is \"Int is down\" exactly when the interface was failed at the last traffic update and otherwise traffic/capacity*100 to within 0.005.", "quantifier": "every model state, every interface", "why_tests_cant": "Universal over values (exact arithmetic).", "anchors": ["pyNTM/interface.py:Interface.utilization", "pyNTM/flex_model.py:_update_interface_utilization"]}
{"id": "C56", "title": "validate_model takes down both ends of half-failed circuits and nothing else", "statement": "When validate_model returns, an interface that is an end of a circuit of which exactly one end was failed is failed with reserved_bandwidth 0; the failure state and reservation of every other interface are unchanged; afterwards the two ends of every circuit have the same failure state.", "quantifier": "every model state, both model classes, every order of the interface set", "why_tests_cant": "The check loops over all circuits while changing interface states; that no later circuit is affected by an earlier one holds only because circuits are disjoint, for every model.", "anchors": ["pyNTM/master_model.py:_validate_circuit_interface_capacity", "pyNTM/flex_model.py:FlexModel.validate_model", "pyNTM/performance_model.py:PerformanceModel.validate_model"]}
{"id": "C57", "title": "The entries of path_detail of an IGP demand", "statement": "For a demand routed on IGP paths, each entry of demand.path_detail has its path under \"items\" (FlexModel) or \"interfaces\" (PerformanceModel); \"splits\" maps every interface of the path, in order, to the product of the numbers of interfaces leaving the nodes passed so far on the demand's paths; path_traffic is demand.traffic divided by these numbers one after the other (rounded to 4 decimals in a PerformanceModel).", "quantifier": "every network, every demand on IGP paths, every path", "why_tests_cant": "The split counts depend on how all equal-cost paths overlap; tests compare a few small diamonds.", "anchors": ["pyNTM/flex_model.py:FlexModel._demand_traffic_per_item", "pyNTM/performance_model.py:PerformanceModel._demand_traffic_per_int"]}
{"id": "C58", "title": "Circuit ends of a loaded FlexModel", "statement": "If no two lines of INTERFACES_TABLE describe the same interface, every circuit_id of a FlexModel returned by load_model_file is on exactly two interfaces. With a repeated line this fails: the check that each circuit_id appears exactly twice counts lines, the repeated line is then dropped, and a loaded interface can be left without another end.", "quantifier": "every input file that loads, every int/float parser", "why_tests_cant": "The interplay of the line count with the removal of duplicates shows only for particular files; the test files have no repeated interface.", "anchors": ["pyNTM/flex_model.py:FlexModel.load_model_file", "pyNTM/flex_model.py:FlexModel._extract_interface_data_and_implied_nodes"]}
{"id": "C67", "title": "When update_simulation succeeds on a model without LSPs", "statement": "On a model without LSPs whose interfaces end at nodes of the model, update_simulation returns without an exception if and only if every demand starts at a node of the model and ends at a different node, no two nodes have the same name, no capacity is negative, the interfaces that are not over-subscribed pair up into circuits (by circuit_id in a FlexModel) with equal capacities, and, in a PerformanceModel, there are no parallel links and no node has IGP shortcuts enabled.", "quantifier": "every model without LSPs with positive interface costs", "why_tests_cant": "Tests trigger single validation errors; they cannot show that no other input makes the simulation raise.", "anchors": ["pyNTM/flex_model.py:FlexModel.update_simulation", "pyNTM/performance_model.py:PerformanceModel.update_simulation", "pyNTM/flex_model.py:FlexModel.validate_model", "pyNTM/performance_model.py:PerformanceModel.validate_model"]}
{"id": "C59", "title": "SRLG membership calls", "statement": "Interface.add_to_srlg puts exactly the interface and the interface at the other end of its link into the SRLG of that name, Node.add_to_srlg exactly the node; the SRLG is created (unfailed) when there is none and create_if_not_present is set, else ModelException is raised and nothing changes. add_srlg appends one unfailed SRLG or, for a name in use, raises and changes nothing. Interface.remove_from_srlg takes exactly the interface and its other end out and then assigns interface.failed = False (on the one interface only); Node.remove_from_srlg likewise for a node. Removing a non-member raises KeyError; when only the other end is missing, the interface itself has already left. No failure state is changed by the add calls.", "quantifier": "every model with unique SRLG names, every interface with a unique other end, every node, name and flag", "why_tests_cant": "Tests add one interface to one SRLG and look at that interface; they cannot show that no other object joins or leaves in any model or that the failing calls leave every object alone.", "anchors": ["pyNTM/interface.py:Interface.add_to_srlg", "pyNTM/interface.py:Interface.remove_from_srlg", "pyNTM/node.py:Node.add_to_srlg", "pyNTM/node.py:Node.remove_from_srlg", "pyNTM/master_model.py:_MasterModel.add_srlg", "pyNTM/srlg.py:SRLG"]}
{"id": "C60", "title": "RSVP_LSP.topology_metric", "statement": "topology_metric of a routed LSP is the sum of the costs of the interfaces on its path; of an LSP that is not routed it is 'Unrouted'; on an LSP whose path is the empty dict it raises KeyError.", "quantifier": "every model state and LSP", "why_tests_cant": "Tests check the sum on one path of one topology.", "anchors": ["pyNTM/rsvp.py:RSVP_LSP.topology_metric"]}
{"id": "C61", "title": "Circuit.failed and get_circuit_object_from_interface", "statement": "Circuit.failed is true exactly when at least one end is failed. get_circuit_object_from_interface returns a circuit of the model one of whose ends is the named interface, raises IndexError exactly when no circuit has that end, and ModelException when there is no such interface. After validate_model has accepted a FlexModel it returns, for every interface that is not over-subscribed, the circuit of the interface and its reverse, and that circuit is failed exactly when the interface is.", "quantifier": "every model with unique keys whose circuits consist of its interfaces; every successful validate_model", "why_tests_cant": "Tests look up one circuit in one loaded model.", "anchors": ["pyNTM/circuit.py:Circuit.failed", "pyNTM/master_model.py:_MasterModel.get_circuit_object_from_interface", "pyNTM/flex_model.py:FlexModel.validate_model"]}
{"id": "C65", "title": "What add_node, change_interface_name, add_network_interfaces_from_list and the cost and capacity setters change", "statement": "add_node rejects a name in use with nothing changed, and otherwise adds exactly that node and validates. change_interface_name changes the name of exactly that interface. The cost and capacity setters change exactly that field, or raise with nothing changed for a cost below 1 or a capacity of 0 or less. add_network_interfaces_from_list either raises because of such a cost or capacity with the model unchanged, or adds, for every entry, an interface with the given data unless an equal one is there, and one node for every new node name, then validates. The node objects of the interfaces it adds are not the node objects of the model, so the failed setter can bring such an interface up on a node that is down.", "quantifier": "every model, every argument (lists of entries of any length)", "why_tests_cant": "Tests add one or two entries and look at counts.", "anchors": ["pyNTM/master_model.py:_MasterModel.add_node", "pyNTM/master_model.py:_MasterModel.change_interface_name", "pyNTM/master_model.py:_MasterModel._make_network_interfaces", "pyNTM/flex_model.py:FlexModel.add_network_interfaces_from_list", "pyNTM/performance_model.py:PerformanceModel.add_network_interfaces_from_list", "pyNTM/interface.py:Interface.cost", "pyNTM/interface.py:Interface.capacity"]}
{"id": "C66", "title": "Queries that select objects", "statement": "get_failed_interface_objects and get_unfailed_interface_objects return exactly the failed and the unfailed interfaces of the model, get_failed_node_objects and get_non_failed_node_objects the nodes, get_unrouted_demand_objects the demands whose path is 'Unrouted', get_demand_objects_source_node and _dest_node the demands from and to a node, get_orphan_node_objects (and is_node_an_orphan) the nodes no interface starts at, and Node.adjacent_nodes the remote nodes of the interfaces of a node.", "quantifier": "every model (with unique node names where node objects are compared)", "why_tests_cant": "Tests compare the result in one model.", "anchors": ["pyNTM/master_model.py:_MasterModel.get_failed_interface_objects", "pyNTM/master_model.py:_MasterModel.get_unfailed_interface_objects", "pyNTM/master_model.py:_MasterModel.get_failed_node_objects", "pyNTM/master_model.py:_MasterModel.get_non_failed_node_objects", "pyNTM/master_model.py:_MasterModel.get_unrouted_demand_objects", "pyNTM/master_model.py:_MasterModel.get_demand_objects_source_node", "pyNTM/master_model.py:_MasterModel.get_orphan_node_objects", "pyNTM/node.py:Node.adjacent_nodes"]}
{"id": "C68", "title": "The failed setters and the fail/unfail methods of Interface", "statement": "interface.failed = True fails the interface and clears its reservations, and changes nothing else. interface.failed = False raises ModelException, with the interface left failed, when the interface is in a failed SRLG; otherwise it brings the interface up when both end nodes are up and leaves it failed (without an exception) when one is down. node.failed sets the state of the node only, and raises with the node left failed when False is assigned in a failed SRLG. Interface.fail_interface takes down exactly the interface and its other end; Interface.unfail_interface raises with nothing changed when an end node is down and otherwise assigns failed = False to the two ends in turn, stopping at the first exception.", "quantifier": "every model state, interface, node and value", "why_tests_cant": "Tests use one interface; they cannot show that every other object and field is left alone.", "anchors": ["pyNTM/interface.py:Interface.failed", "pyNTM/node.py:Node.failed", "pyNTM/interface.py:Interface.fail_interface", "pyNTM/interface.py:Interface.unfail_interface"]}
{"id": "C63", "title": "unfail_node repairs the node and the links that can come up", "statement": "When unfail_node returns, the node is up, exactly the links at the node whose other end node is up have come up (with no reservations), and no other failure state, object or SRLG has changed; none of these links is in a failed SRLG. Whatever the outcome, nothing goes down and nothing away from the node changes; a node in a failed SRLG stays failed and the call raises ModelException. On a valid model where the node and its links are in no failed SRLG and carry no reservations the call returns, and fail_node followed by unfail_node restores every failure state. It is not the case that links free of failed SRLGs always come up: one link in a failed SRLG stops the loop; and calling it on a node that is up may clear reservations and raise.", "quantifier": "every consistent model state, every node, any interface order", "why_tests_cant": "Tests repair one node in one network; which links come up depends on all other failures, SRLGs and the iteration order of a set.", "anchors": ["pyNTM/master_model.py:_MasterModel.unfail_node", "pyNTM/master_model.py:_MasterModel.unfail_interface", "pyNTM/node.py:Node.failed"]}
{"id": "C64", "title": "unfail_srlg repairs its members unless another failure holds them", "statement": "unfail_srlg of an SRLG of the model returns without an exception. Afterwards the SRLG is up; exactly its member nodes that are in no other failed SRLG have come up; every member link with both end nodes up and no other failed SRLG is up; besides member links only links at member nodes can come up, and nothing else changes. When the links at the member nodes are in no other failed SRLG and carry no reservations, exactly those with both end nodes up are up, and fail_srlg followed by unfail_srlg restores every failure state. Without these conditions links at member nodes can stay down silently: when another link of the node is in another failed SRLG, or when an LSP was reserved on the links and no simulation ran in between.", "quantifier": "every consistent model state, every SRLG, any order of nodes and interfaces", "why_tests_cant": "Tests have one SRLG with one or two members; the swallowed exceptions only show up with overlapping SRLGs or reservations.", "anchors": ["pyNTM/master_model.py:_MasterModel.unfail_srlg", "pyNTM/master_model.py:_MasterModel.fail_srlg", "pyNTM/srlg.py:SRLG"]}
{"id": "C62", "title": "The paths of a demand with IGP shortcuts", "statement": "After update_simulation of a FlexModel, the paths of a demand without an LSP of its own come from the least-cost routes between its ends: along one least-cost route the LSP groups are picked (at each node with IGP shortcuts enabled, the least-metric routed LSPs to the farthest later node such an LSP leads to), every least-cost route on which all groups have their stretch has the stretches replaced by an LSP of each group, other routes stay as they are, and of these paths the cheapest, with LSP metrics for LSPs, are kept. Each path leads from source to destination over usable interfaces and routed LSPs of shortcut nodes and leaves no node twice. path_detail divides the traffic at every node by the number of interfaces and LSPs that leave it on the paths. When all least-cost routes visit the same nodes, the paths are exactly these routes with the LSPs in place, and the path traffic adds up to the traffic of the demand. An LSP dearer than the IGP route it replaces is used all the same, and the LSPs of one of several equal-cost routes can be ignored.", "quantifier": "every valid FlexModel with distinct keys, every demand without LSP, every iteration order", "why_tests_cant": "Tests check path_detail of a few fixed networks; the choice of stretches depends on all pairs of nodes of a route and on ties between routes and metrics.", "anchors": ["pyNTM/flex_model.py:FlexModel.find_igp_shortcuts", "pyNTM/flex_model.py:FlexModel._insert_lsp_shortcuts", "pyNTM/flex_model.py:FlexModel._insert_lsps_into_path", "pyNTM/flex_model.py:FlexModel._inspect_for_lsp_metrics", "pyNTM/flex_model.py:FlexModel._route_demands", "pyNTM/flex_model.py:FlexModel._demand_traffic_per_item"]}
{"id": "C69", "title": "Interface traffic of a FlexModel with IGP shortcuts", "statement": "After update_simulation of a FlexModel an interface that is down has traffic 'Down'; the traffic of any other interface is the sum over all demands of: for a demand on its own LSPs, the shares of the LSPs that cross the interface; for any other routed demand, what the paths of its path_detail put on the interface itself plus, for each LSP on these paths, the sum of what the paths put on that LSP, rounded to one decimal, once per crossing of the interface.", "quantifier": "every valid FlexModel with distinct keys, every interface, with or without IGP shortcuts", "why_tests_cant": "Tests compare traffic on a few interfaces of fixed networks; the sum mixes direct, LSP and shortcut traffic over all demands.", "anchors": ["pyNTM/flex_model.py:FlexModel._update_interface_utilization", "pyNTM/flex_model.py:FlexModel._demand_traffic_per_item", "pyNTM/flex_model.py:FlexModel._update_int_traffic_for_end_to_end_lsps"]}
{"id": "C70", "title": "The elements of the weather map", "statement": "create_elements makes, for every circuit of the model and in its order, a node in the middle and a node for each end, with position, name, failed flag and neighbours of the model's nodes, and one edge per interface with the interface's name, cost and utilization, circuit_id and capacity. After validate_model of a FlexModel every available interface has exactly one edge, with its own capacity and circuit_id. With distinct node names without '-', elements with the same id carry the same data. Nodes without interfaces are not on the map, and parallel circuits do not always share their middle node as documented.", "quantifier": "every model state and every circuit", "why_tests_cant": "Tests do not cover the class at all (it is excluded from coverage); any number and direction of circuits is possible.", "anchors": ["pyNTM/weathermap.py:WeatherMap.create_elements", "pyNTM/weathermap.py:WeatherMap.make_json_node", "pyNTM/weathermap.py:WeatherMap.make_json_edge"]}
{"id": "C71", "title": "Colours of the edges", "statement": "An edge is dimgrey if its interface is down, darkviolet from 100 percent, and has the colour of the range that contains its utilization, with both ends included. Every whole percentage has a colour. A utilization between two ranges (24.5 percent) has none.", "quantifier": "every element list of every model, every utilization", "why_tests_cant": "The ranges are parsed from text and the utilization is any number with two decimals.", "anchors": ["pyNTM/weathermap.py:WeatherMap.make_json_edge"]}
{"id": "C72", "title": "Dropdown lists of demands and LSPs", "statement": "For names without '-', get_sources, get_destinations and the lists of all sources and destinations contain each end of a demand or LSP with the chosen other end once and nothing else, the displayed lists are in alphabetical order, and the options are the objects with the chosen ends, each once. The state does not change except for the cache of parallel LSP groups, which is current after update_simulation. A name with '-' makes the lists wrong or raises ValueError.", "quantifier": "every model whose relevant node names contain no '-', every choice of source and destination, every iteration order", "why_tests_cant": "The lists are recovered from joined texts; tests use no map objects.", "anchors": ["pyNTM/weathermap.py:WeatherMap.get_sources", "pyNTM/weathermap.py:WeatherMap.get_destinations", "pyNTM/weathermap.py:WeatherMap.create_weathermap"]}
{"id": "C73", "title": "Highlighted edges", "statement": "The interfaces and LSPs found for demands are exactly those that some path crosses, directly or inside an LSP, each once. The stylesheet entries are exactly the marks of the selected colours, of the interfaces crossed by demands with the ends of the selected demand, of the interfaces of the selected LSP, and of the selected interface. If the texts of circuit_ids tell the interfaces of each node apart, an edge is marked as outgoing exactly if its interface is crossed, as incoming exactly if its other end is crossed, and as chosen exactly if it is the selected interface. Reused circuit_ids mark other links, and a demand that was added after the simulation makes the display of routed demands with its ends fail.", "quantifier": "every model with distinct keys, every combination of selections", "why_tests_cant": "The marks select edges by texts; whether they hit other edges depends on all circuit_ids.", "anchors": ["pyNTM/weathermap.py:WeatherMap.find_demand_interfaces_and_lsps", "pyNTM/weathermap.py:WeatherMap.get_lsp_interface_data", "pyNTM/weathermap.py:WeatherMap.create_weathermap"]}
{"id": "C74", "title": "Selections on the weather map", "statement": "The value of a dropdown option or a click on an edge (node names without '-') selects the object it stands for: demands with a truthful routed flag, interfaces with their own names, remote node, cost and utilization. The lists of LSPs and demands on the selected interface, of demands on the selected LSP, and of interfaces and LSPs of the selected demand are exact. An LSP that was never simulated is flagged routed and its display fails; a click on an edge of a node with '-' in its name gives a wrong remote node.", "quantifier": "every model with distinct keys, every object", "why_tests_cant": "Selections pass through texts and lookups by key; tests use no map objects.", "anchors": ["pyNTM/weathermap.py:WeatherMap.create_weathermap"]}
{"id": "C75", "title": "LSP traffic and interface traffic with IGP shortcuts", "statement": "After update_simulation of a FlexModel in which demands may use LSPs as IGP shortcuts, traffic_on_lsp of an LSP is the sum, over all routed demands, of the path_traffic of the path_detail entries whose path contains the LSP, and it returns whenever the routed LSPs between the same nodes have positive metrics. The traffic of an up interface is what the paths put on it directly plus the traffic_on_lsp of every LSP over it, within 0.05 per demand and LSP crossing; exact equality fails because the share of each demand and LSP is rounded to one decimal.", "quantifier": "every FlexModel, every LSP, every interface, every set of demands and shortcuts", "why_tests_cant": "A sum over arbitrary demands, paths and LSPs, with a bound on accumulated rounding.", "anchors": ["pyNTM/rsvp.py:RSVP_LSP.traffic_on_lsp", "pyNTM/flex_model.py:FlexModel._demand_traffic_per_item", "pyNTM/flex_model.py:FlexModel._update_interface_utilization"]}
{"id": "C76", "title": "Failures disturb only what used them", "statement": "In a model without LSPs, when more interfaces are down: a demand whose paths avoid everything that failed keeps exactly its paths and what it puts on every interface; a demand that was unrouted stays unrouted; no path becomes cheaper; the total routed traffic does not grow. Every history of fail, repair, validate and update_simulation calls on a sound model leads to models of which update_simulation succeeds on all or on none. Failing a link that no path uses changes no demand and no traffic except that link's, which shows Down. With LSPs this is false: failing an unused link can move an LSP.", "quantifier": "every model without LSPs, every set of failures, every history of outage calls", "why_tests_cant": "Compares two simulations of arbitrary topologies.", "anchors": ["pyNTM/flex_model.py:FlexModel.update_simulation", "pyNTM/flex_model.py:FlexModel._update_interface_utilization", "pyNTM/performance_model.py:PerformanceModel.update_simulation", "pyNTM/performance_model.py:PerformanceModel._update_interface_utilization", "pyNTM/flex_model.py:FlexModel._route_demands", "pyNTM/performance_model.py:PerformanceModel._route_demands", "pyNTM/master_model.py:_MasterModel.fail_interface"]}
{"id": "C77", "title": "FlexModel and PerformanceModel agree", "statement": "On a model that both classes accept and that has no LSPs, update_simulation gives every demand the same paths in a FlexModel and in a PerformanceModel, and interface traffic differs by at most 0.05 plus 0.00005 per path for every demand. Exact equality is false: the PerformanceModel rounds.", "quantifier": "every model valid for both classes without LSPs", "why_tests_cant": "Two different implementations compared on all topologies, with a bound on accumulated rounding.", "anchors": ["pyNTM/flex_model.py:FlexModel.update_simulation", "pyNTM/flex_model.py:FlexModel._update_interface_utilization", "pyNTM/performance_model.py:PerformanceModel.update_simulation", "pyNTM/performance_model.py:PerformanceModel._update_interface_utilization"]}
{"id": "C78", "title": "An added demand adds exactly its own load", "statement": "In a model without LSPs, demands added to the model (in particular by add_demand) leave the paths of all other demands unchanged, and the traffic of every up interface grows by exactly what the added demands put on it. With LSPs this is false: the added traffic can keep an LSP from being signalled and so move another demand.", "quantifier": "every model without LSPs, every list of added demands", "why_tests_cant": "Compares two simulations of arbitrary models.", "anchors": ["pyNTM/flex_model.py:FlexModel.update_simulation", "pyNTM/flex_model.py:FlexModel._update_interface_utilization", "pyNTM/performance_model.py:PerformanceModel.update_simulation", "pyNTM/performance_model.py:PerformanceModel._update_interface_utilization", "pyNTM/master_model.py:_MasterModel.add_demand"]}
{"id": "C79", "title": "Only the present failures matter", "statement": "In a sound model without LSPs, the results of update_simulation after any history of fail, repair, validate and update_simulation calls depend only on which interfaces are down at the end. In particular, failing a link, simulating, repairing it and simulating again restores all paths and all traffic.", "quantifier": "every sound model without LSPs, every two histories that end with the same interfaces down", "why_tests_cant": "Histories are unbounded; tests cover single failures.", "anchors": ["pyNTM/flex_model.py:FlexModel.update_simulation", "pyNTM/flex_model.py:FlexModel._update_interface_utilization", "pyNTM/performance_model.py:PerformanceModel.update_simulation", "pyNTM/performance_model.py:PerformanceModel._update_interface_utilization", "pyNTM/master_model.py:_MasterModel.fail_interface", "pyNTM/master_model.py:_MasterModel.unfail_interface"]}
{"id": "C80", "title": "Scaling traffic and costs", "statement": "In a FlexModel without LSPs, multiplying all demands by a factor multiplies the traffic of every interface by exactly that factor. Multiplying all interface costs by a positive factor changes neither paths nor traffic (both classes). A PerformanceModel does not scale exactly.", "quantifier": "every model without LSPs, every factor", "why_tests_cant": "Holds for every topology and factor; tests fix both.", "anchors": ["pyNTM/flex_model.py:FlexModel.update_simulation", "pyNTM/flex_model.py:FlexModel._update_interface_utilization", "pyNTM/performance_model.py:PerformanceModel.update_simulation", "pyNTM/performance_model.py:PerformanceModel._update_interface_utilization"]}
{"id": "C81", "title": "Traffic balance at every node", "statement": "In a FlexModel without LSPs, after update_simulation, at every node the traffic of the outgoing interfaces plus the routed traffic that ends there equals the traffic of the incoming interfaces plus the routed traffic that starts there. With no negative demand, no interface carries less than 0 or more than the total routed traffic. A PerformanceModel does not balance exactly.", "quantifier": "every FlexModel without LSPs, every node, every interface", "why_tests_cant": "Conservation over arbitrary equal-cost splits.", "anchors": ["pyNTM/flex_model.py:FlexModel.update_simulation", "pyNTM/flex_model.py:FlexModel._update_interface_utilization"]}
{"id": "C82", "title": "Parallel links carry equal traffic", "statement": "In a FlexModel without LSPs, two up interfaces between the same two nodes with the same cost carry exactly the same traffic after update_simulation, whatever their capacities. With LSPs this is false.", "quantifier": "every FlexModel without LSPs, every pair of parallel links", "why_tests_cant": "Symmetry over all demands and topologies.", "anchors": ["pyNTM/flex_model.py:FlexModel.update_simulation", "pyNTM/flex_model.py:FlexModel._update_interface_utilization"]}
{"id": "C83", "title": "What simulation results depend on", "statement": "For models without LSPs, the paths and the interface traffic computed by update_simulation depend only on the ends, costs and failures of the interfaces and on the ends and traffic of the demands: not on names, capacities (unless a link has no bandwidth at all), circuit_ids, left-over reservations or earlier results, nor on the order in which sets are enumerated.", "quantifier": "every two models without LSPs that agree on these data", "why_tests_cant": "Relates two arbitrary models.", "anchors": ["pyNTM/flex_model.py:FlexModel.update_simulation", "pyNTM/flex_model.py:FlexModel._update_interface_utilization", "pyNTM/performance_model.py:PerformanceModel.update_simulation", "pyNTM/performance_model.py:PerformanceModel._update_interface_utilization"]}
{"id": "C84", "title": "Which objects a call can change", "statement": "No history of calls on a model changes an interface, node, demand, LSP or SRLG that is neither in the model, nor handed to a call, nor created on the way; no object leaves the model, and only objects created by the calls and nodes handed to add_node enter it. Simulating, validating, failing and repairing change no object outside the model, create nothing, change nothing of a node but its failed flag, and do not change the manual metric an LSP shows.", "quantifier": "every state, every history of API calls, whether they return or raise", "why_tests_cant": "Frame condition over all objects and all histories.", "anchors": ["pyNTM/flex_model.py:FlexModel.update_simulation", "pyNTM/performance_model.py:PerformanceModel.update_simulation", "pyNTM/flex_model.py:FlexModel.validate_model", "pyNTM/performance_model.py:PerformanceModel.validate_model", "pyNTM/master_model.py:_MasterModel.fail_node", "pyNTM/master_model.py:_MasterModel.unfail_node", "pyNTM/rsvp.py:RSVP_LSP.effective_metric"]}
{"id": "C85", "title": "Outages leave no traces", "statement": "If two histories of simulations, validations, failures and repairs of one model end with the same interfaces and nodes failed, the next update_simulation gives the same results after both: same exception if any, same interface traffic and reservations, same LSP paths and demand paths (and path details and circuits when it succeeds), with or without LSPs. In particular a model whose outages are all repaired simulates as if they had never happened. The outcomes of random.choice have to be the same; for a PerformanceModel the circuit numbers too.", "quantifier": "every state, every pair of such histories", "why_tests_cant": "Relates two arbitrary histories of any length.", "anchors": ["pyNTM/flex_model.py:FlexModel.update_simulation", "pyNTM/performance_model.py:PerformanceModel.update_simulation", "pyNTM/master_model.py:_MasterModel.fail_interface", "pyNTM/master_model.py:_MasterModel.unfail_interface", "pyNTM/master_model.py:_MasterModel.unfail_srlg"]}
{"id": "C86", "title": "Separate models do not disturb each other", "statement": "In a program with any number of models, calls on other models (and creating models) do not change which objects a model holds if it has sets of its own, and change no object that no other model holds and that is not handed to a call. A model made from newly created sets holds exactly the given objects and has its own sets for ever. A program with a single model behaves as the single-model theorems say.", "quantifier": "every program history: any creations of models and calls on them, in any order", "why_tests_cant": "Interleavings of arbitrary length over any number of models.", "anchors": ["pyNTM/flex_model.py:FlexModel.__init__", "pyNTM/performance_model.py:PerformanceModel.__init__", "pyNTM/master_model.py:_MasterModel.__init__", "pyNTM/flex_model.py:FlexModel.add_network_interfaces_from_list"]}
{"id": "C87", "title": "Models created without arguments share their sets", "statement": "FlexModel() (and PerformanceModel()) called twice gives two models that hold the same demands and the same LSPs for ever, and the same interfaces and nodes until add_network_interfaces_from_list is called on one of them. Only the first such model of its class is certain to be empty. That a model made without arguments is empty, and that what is done with another model does not change its simulation, are refuted: a demand added to the first model puts traffic on the second.", "quantifier": "every program history; counterexamples by computation", "why_tests_cant": "The sharing only shows when several models are made in one process; the universal statement covers all histories.", "anchors": ["pyNTM/flex_model.py:FlexModel.__init__", "pyNTM/performance_model.py:PerformanceModel.__init__", "pyNTM/master_model.py:_MasterModel.add_demand"]}
{"id": "C88", "title": "When update_simulation succeeds on a model with LSPs", "statement": "On a model with LSPs whose traffic, bandwidths and capacities are non-negative multiples of 0.1, with reservable percentages from 0 to 100, update_simulation returns without an exception if and only if demands and LSPs start at nodes of the model and end at other nodes and the interfaces and nodes pass the checks of C67 - provided signalling never routes only some of the LSPs between two nodes. That is the case when there is at most one LSP from a node to another, and when every RSVP interface has room for all LSPs together; then, moreover, every LSP takes a least-cost way with fewest hops for its own bandwidth whatever the other LSPs do and is Unrouted only when there is no way. Without the proviso the claim is refuted: two LSPs of which only one fits make the simulation reject its own reservations.", "quantifier": "every such model, Flex or Performance, every iteration order; counterexample by computation", "why_tests_cant": "Tests trigger single validation errors; they cannot show that no other input makes the simulation raise, nor that the outcome of signalling does not depend on set order.", "anchors": ["pyNTM/flex_model.py:FlexModel.update_simulation", "pyNTM/performance_model.py:PerformanceModel.update_simulation", "pyNTM/master_model.py:_MasterModel._route_lsps", "pyNTM/flex_model.py:FlexModel.validate_model", "pyNTM/performance_model.py:PerformanceModel.validate_model"]}
{"id": "C89", "title": "Results do not depend on the order of the objects, with LSPs", "statement": "Take two models with the same objects, whatever order their sets are iterated in and whatever random.choice picks, in which every RSVP interface has room for all LSPs together (bandwidths, traffic and capacities being non-negative multiples of 0.1). update_simulation succeeds on both or on neither (also when LSPs lack room, if there is one LSP per pair of nodes). Every LSP is then routed on both, at the same cost and reserving the same bandwidth, or on neither, and every demand has the same set of paths. If moreover no LSP has two equally good ways, LSPs take the same ways and interfaces carry the same traffic. With IGP shortcuts the same holds for demands whose least-cost ways all visit the same nodes. Counterexamples show that the last two conditions are needed: with equally good ways interfaces carry other traffic, and with IGP shortcuts over different nodes a demand gets other paths.", "quantifier": "every such pair of models, Flex or Performance, every iteration order and every choice of random.choice; counterexamples by computation", "why_tests_cant": "Set order and random.choice differ from run to run; a test sees one order and one choice at a time.", "anchors": ["pyNTM/flex_model.py:FlexModel.update_simulation", "pyNTM/performance_model.py:PerformanceModel.update_simulation", "pyNTM/master_model.py:_MasterModel._route_lsps", "pyNTM/rsvp.py:RSVP_LSP.find_rsvp_path_w_bw", "pyNTM/flex_model.py:FlexModel._update_interface_utilization"]}
{"id": "C90", "title": "Traffic balance at every node, with LSPs", "statement": "After a successful update_simulation of a FlexModel without IGP shortcuts whose routed LSPs take whole ways from their source to their destination, traffic balances at every node: what its interfaces carry away plus what routed demands end there equals what interfaces bring in plus what routed demands start there. The same holds demand by demand, and in a PerformanceModel whose routed demands all ride LSPs. LSPs take whole ways whenever no pair of nodes has both routed and unrouted LSPs, so the balance holds on every usual model in which every RSVP interface has room for all LSPs. Counterexamples show that re-signalling over parallel links and the rounding with IGP shortcuts break the balance.", "quantifier": "every well-posed model, every node, every order and choice; counterexamples by computation", "why_tests_cant": "A test compares numbers of one topology; that no traffic is lost or made up at any node of any topology, with traffic shared over LSPs and over equal-cost paths, is a statement about all of them.", "anchors": ["pyNTM/flex_model.py:FlexModel._update_interface_utilization", "pyNTM/performance_model.py:PerformanceModel._update_interface_utilization", "pyNTM/master_model.py:_MasterModel._route_lsps", "pyNTM/flex_model.py:FlexModel.update_simulation"]}
{"id": "C91", "title": "What-if failures in models with LSPs", "statement": "Take a model in which every RSVP interface has room for all LSPs together and no node has IGP shortcuts, and the same model with further interfaces, nodes or SRLGs failed; simulate both. Failures route no further LSP and make no LSP cheaper; an LSP whose path is spared stays routed at the same cost with the same bandwidth (and on the same path if no other is as good). Failures route no further demand and never increase the total routed traffic. A demand whose paths, LSPs included, are spared keeps them and the traffic it puts on each interface; when no demand loses a path the traffic of every interface that is up is unchanged. fail_interface, fail_node and fail_srlg calls lead to such models, and update_simulation succeeds after them iff before. Counterexamples show that without room a spared LSP can lose its path, and that with equally good ways traffic can move.", "quantifier": "every such pair of models, Flex or Performance, every set of failures, every iteration order and choice of random.choice in either run; counterexamples by computation", "why_tests_cant": "Failure analysis relies on comparing two runs over any topology and any set of failures; a test compares two fixed runs.", "anchors": ["pyNTM/master_model.py:_MasterModel.fail_interface", "pyNTM/master_model.py:_MasterModel._route_lsps", "pyNTM/rsvp.py:RSVP_LSP.find_rsvp_path_w_bw", "pyNTM/flex_model.py:FlexModel.update_simulation", "pyNTM/performance_model.py:PerformanceModel.update_simulation"]}
{"id": "C92", "title": "Added demands and LSPs in models with LSPs", "statement": "Take a model in which every RSVP interface has room for all LSPs together and no node has IGP shortcuts, and add demands and LSPs that leave it so; simulate both. LSPs that were there stay routed or unrouted at the same cost (on the same path if no other is as good), and reserve the same bandwidth if it is configured or if neither a demand nor an LSP was added between their ends. Demands that were there stay routed or unrouted; if no LSP was added between their ends they keep their paths and the traffic they put on each interface, and each interface then carries its old traffic plus what the new demands put on it. add_demand and add_rsvp_lsp lead to such models. A counterexample shows that without room for all, an added demand can leave an LSP between other nodes unrouted.", "quantifier": "every such pair of models, Flex or Performance, any number of added demands and LSPs, every iteration order and choice of random.choice in either run; counterexample by computation", "why_tests_cant": "That adding traffic disturbs nothing else holds or fails over all topologies and all orders of signalling; a test adds one demand to one topology.", "anchors": ["pyNTM/master_model.py:_MasterModel.add_demand", "pyNTM/master_model.py:_MasterModel.add_rsvp_lsp", "pyNTM/master_model.py:_MasterModel._route_lsps", "pyNTM/flex_model.py:FlexModel._update_interface_utilization", "pyNTM/performance_model.py:PerformanceModel._update_interface_utilization"]}
{"id": "C93", "title": "Models with the same data simulate alike", "statement": "Take two models that hold the same data in different objects: interfaces, nodes, demands and LSPs pair up by name with the same values, in whatever order they were written down, with other object identities and (in a PerformanceModel) other circuit numbers. No node has IGP shortcuts and every RSVP interface has room for all LSPs together. Then update_simulation succeeds on one iff on the other; LSPs of the same name are routed or not at the same cost with the same reserved and setup bandwidth, and by the same named interfaces when no other way is as good; demands of the same name have the same paths told by names; interfaces of the same name carry the same traffic when every LSP that carries demands has a sole best way. A counterexample shows that the last condition is needed.", "quantifier": "every such pair of models, Flex or Performance, every iteration order and choice of random.choice in either run; counterexample by computation", "why_tests_cant": "Users rebuild a model from a file or a database and expect the same answers; a test compares one pair of models in one order of sets and hashes.", "anchors": ["pyNTM/master_model.py:_MasterModel._route_lsps", "pyNTM/rsvp.py:RSVP_LSP.find_rsvp_path_w_bw", "pyNTM/flex_model.py:FlexModel.update_simulation", "pyNTM/performance_model.py:PerformanceModel.update_simulation", "pyNTM/flex_model.py:FlexModel._update_interface_utilization", "pyNTM/performance_model.py:PerformanceModel._update_interface_utilization"]}
{"id": "C94", "title": "FlexModel and PerformanceModel agree on models with LSPs", "statement": "Take the same objects as a FlexModel and as a PerformanceModel, with room for all LSPs on every RSVP interface and no IGP shortcuts, and simulate both. LSPs are routed or not alike, at the same cost and with the same reserved and setup bandwidth, and on the same path when no other is as good; demands have the same paths. A demand that rides LSPs puts the same traffic on every interface in both; one that does not, the same up to the rounding of the PerformanceModel; so interface traffic differs by no more than the sum of these roundings, and not at all when every demand has a routed LSP between its ends.", "quantifier": "every model that both classes accept, every iteration order and choice of random.choice in either run", "why_tests_cant": "The classes have separate code for the same simulation; tests check each on its own fixed networks.", "anchors": ["pyNTM/master_model.py:_MasterModel._route_lsps", "pyNTM/rsvp.py:RSVP_LSP.find_rsvp_path_w_bw", "pyNTM/flex_model.py:FlexModel.update_simulation", "pyNTM/performance_model.py:PerformanceModel.update_simulation", "pyNTM/flex_model.py:FlexModel._update_interface_utilization", "pyNTM/performance_model.py:PerformanceModel._update_interface_utilization"]}
{"id": "C95", "title": "Scaled traffic and scaled costs with LSPs", "statement": "Take a model with room for all LSPs and no IGP shortcuts, multiply all demands and configured LSP bandwidths by one number and all interface costs and manual metrics by a positive whole number, so that there is still room; simulate both. LSPs are routed or not alike, costs are multiplied by the second number, reserved and setup bandwidth by the first, paths stay when no other was as good; demand paths are the same; in a FlexModel (and in a PerformanceModel if traffic is not multiplied) interface traffic is multiplied by the first number.", "quantifier": "every such pair of models, every two multipliers, Flex or Performance as said, every iteration order and choice of random.choice in either run", "why_tests_cant": "Changing units must not change answers, for all topologies and multipliers; a test uses one network in one unit.", "anchors": ["pyNTM/master_model.py:_MasterModel._route_lsps", "pyNTM/rsvp.py:RSVP_LSP.find_rsvp_path_w_bw", "pyNTM/flex_model.py:FlexModel.update_simulation", "pyNTM/performance_model.py:PerformanceModel.update_simulation", "pyNTM/flex_model.py:FlexModel._update_interface_utilization"]}
{"id": "C96", "title": "Only the present failures matter, also with LSPs", "statement": "Take a model with LSPs, no IGP shortcuts, and room for all LSPs on every RSVP interface whether up or down. After any sequence of fail, unfail and update_simulation calls there is still room, and update_simulation succeeds iff it did before. Two sequences that end with the same interfaces failed lead, after update_simulation, to the same routed LSPs with the same costs and bandwidths (and paths, when no other is as good), the same demand paths, and the same interface traffic when the LSPs that carry demands have sole best ways.", "quantifier": "every such model, Flex or Performance, every two sequences of fail, unfail and update calls, every iteration order and choice of random.choice", "why_tests_cant": "Results must not depend on the history of failures tried before, over all histories; a test tries one.", "anchors": ["pyNTM/master_model.py:_MasterModel.fail_interface", "pyNTM/master_model.py:_MasterModel.unfail_interface", "pyNTM/master_model.py:_MasterModel.fail_node", "pyNTM/master_model.py:_MasterModel.unfail_node", "pyNTM/master_model.py:_MasterModel._route_lsps", "pyNTM/rsvp.py:RSVP_LSP.find_rsvp_path_w_bw", "pyNTM/flex_model.py:FlexModel.update_simulation", "pyNTM/performance_model.py:PerformanceModel.update_simulation"]}
{"id": "C97", "title": "Model files that say the same give the same answers", "statement": "Take two model files whose tables say the same: the same interface, demand and LSP lines as far as they count (the first line with each name), the same last line about each node, and the same node names; in particular a file with its lines or its tables in another order. Both load to models with the same data under the same names. If there is room for all LSPs on every RSVP interface and no node has IGP shortcuts, simulating the two models gives LSPs with the same fate, cost and bandwidth, demands with the same paths told by names, and, when every LSP that carries demands has a sole best way, the same traffic on every interface.", "quantifier": "every pair of acceptable files of either class, with any reading of int and float, every iteration order and choice of random.choice in either run", "why_tests_cant": "Users sort, merge and regenerate model files; a test loads fixed files in one order.", "anchors": ["pyNTM/flex_model.py:FlexModel.load_model_file", "pyNTM/performance_model.py:PerformanceModel.load_model_file", "pyNTM/master_model.py:_MasterModel._add_demand_from_data", "pyNTM/master_model.py:_MasterModel._add_lsp_from_data", "pyNTM/master_model.py:_MasterModel._add_node_from_data", "pyNTM/utilities.py:find_end_index"]}
{"id": "C98", "title": "Files of usual networks load and simulate", "statement": "A file whose lines describe a usual network (every name once; every link in both directions with the same capacity, RSVP setting and circuit id; no parallel links in a PerformanceModel; demands and LSPs between different nodes; bandwidths asked for that are multiples of 0.1; room for all LSPs on every RSVP interface; IGP shortcuts only in a FlexModel, and then no source-dest text of an LSP that is also that of other nodes) loads, and update_simulation succeeds on the model; every LSP line then leads to an LSP on a best way with the bandwidth the line asks for (its own, or an equal share of the demand lines between its ends), or to an unrouted LSP if there is no way at all. Counterexamples show that not every file that loads can be simulated: circuit ids are only counted, and a PerformanceModel loads a link in one direction.", "quantifier": "every acceptable file of either class, with any reading of int and float, every iteration order and choice of random.choice; counterexamples by computation", "why_tests_cant": "That a file of the documented form is enough holds or fails over all files; a test loads fixed ones.", "anchors": ["pyNTM/flex_model.py:FlexModel.load_model_file", "pyNTM/performance_model.py:PerformanceModel.load_model_file", "pyNTM/master_model.py:_MasterModel._add_demand_from_data", "pyNTM/master_model.py:_MasterModel._add_lsp_from_data", "pyNTM/master_model.py:_MasterModel._add_node_from_data", "pyNTM/flex_model.py:FlexModel.update_simulation", "pyNTM/performance_model.py:PerformanceModel.update_simulation", "pyNTM/flex_model.py:FlexModel._make_circuits_multidigraph", "pyNTM/performance_model.py:PerformanceModel._make_circuits"]}
{"id": "C99", "title": "Line ends, a final line end and a signature of a model file do not matter", "statement": "load_model_file reads the bytes of a file as these lines: if the text is well-formed UTF-8 and consists of lines that are each ended by LF, CR or CR LF (in any mixture, the last one possibly by nothing), with or without the UTF-8 signature at the beginning, then the lines are exactly these; so files of the same lines written on different systems load to the same model. Bytes that are not well-formed UTF-8 raise ValueError (UnicodeDecodeError). No line handed to the tables contains a separator, and every text without the unusual separators consists of lines in this sense. Counterexamples: other characters (form feed, vertical tab, U+2028, ...) also split lines; one more line end at the end of a file with LSPs makes the file fail to load.", "quantifier": "every sequence of bytes, both classes; counterexamples by computation", "why_tests_cant": "Tests load fixed files written on one system; the claim is about every mixture of line ends and every text.", "anchors": ["pyNTM/flex_model.py:FlexModel.load_model_file", "pyNTM/performance_model.py:PerformanceModel.load_model_file"]}
{"id": "C100", "title": "How numbers in model files are read", "statement": "Costs, capacities, traffics, metrics and coordinates are read exactly if they are blanks, an optional sign, digits with single underscores between them, and blanks, and the value is the decimal one; everything else is not a number. Percentages and LSP bandwidths may also have a point and an exponent, and the value is the exact decimal one. Every integer can be written. Counterexamples: a demand whose traffic has a fraction makes the file fail to load although LSP bandwidths may have one, and a node's coordinate with a fraction silently becomes 0.", "quantifier": "every text of ASCII characters, every number; counterexamples by computation", "why_tests_cant": "There are infinitely many texts of numbers; tests use a few plain integers.", "anchors": ["pyNTM/flex_model.py:FlexModel.load_model_file", "pyNTM/performance_model.py:PerformanceModel.load_model_file", "pyNTM/master_model.py:_MasterModel._add_demand_from_data", "pyNTM/master_model.py:_MasterModel._add_lsp_from_data", "pyNTM/master_model.py:_MasterModel._add_node_from_data"]}
{"id": "C101", "title": "A file in the documented layout loads to the network it lists", "statement": "Take lines in the documented layout: the tables of interfaces, nodes, demands and (optionally) LSPs in this order, each with its title, a line of headers and its rows, and an empty line between tables, where no header or row is itself a title and no row is empty. If every row has the documented columns, every circuit id occurs twice (FlexModel), and demands and LSPs end at nodes that are mentioned, then the bytes of the file (with any line ends, with or without signature) load, and the model contains exactly the interfaces, nodes, demands and LSPs that the rows describe, with their numbers.", "quantifier": "every list of rows, every file of these lines, both classes", "why_tests_cant": "The round trip holds or fails over all networks; a test loads fixed files.", "anchors": ["pyNTM/flex_model.py:FlexModel.load_model_file", "pyNTM/performance_model.py:PerformanceModel.load_model_file", "pyNTM/master_model.py:_MasterModel._add_demand_from_data", "pyNTM/master_model.py:_MasterModel._add_lsp_from_data", "pyNTM/master_model.py:_MasterModel._add_node_from_data", "pyNTM/utilities.py:find_end_index"]}
{"id": "C102", "title": "With IGP shortcuts, too, only the data count", "statement": "FlexModels with IGP shortcuts and room for all LSPs: two models (or two files) that hold the same data in different objects or another order succeed or fail alike and give every LSP the same bandwidth, cost and (unless it has two equally good ways) path; every demand with a routed LSP of its own, and every demand whose least-cost ways visit the same nodes, takes the same paths, told by names; every interface carries the same traffic when this holds for all demands and no LSP that is used has two equally good ways. The same holds between the results after two histories of failures and repairs that leave the same interfaces down. Multiplying all costs and metrics by z changes no path and no traffic; multiplying also traffic and bandwidths by c multiplies bandwidths and changes no path. Counterexamples: least-cost ways over different nodes make the paths depend on the order; twice the traffic need not give twice the load, since what an LSP takes of a demand without LSP of its own is rounded to one decimal.", "quantifier": "every pair of such models, files or histories, every iteration order and choice of random.choice; counterexamples by computation", "why_tests_cant": "The order in which sets and dictionaries give their elements differs from run to run; tests see one order and one model.", "anchors": ["pyNTM/flex_model.py:FlexModel.update_simulation", "pyNTM/flex_model.py:FlexModel.load_model_file", "pyNTM/flex_model.py:FlexModel._route_demands", "pyNTM/flex_model.py:FlexModel._update_interface_utilization", "pyNTM/flex_model.py:FlexModel._insert_lsp_shortcuts"]}
{"id": "C103", "title": "From the bytes of a model file to the results of its simulation", "statement": "The bytes of a file in the documented layout that describes a usual network with room for all LSPs (any kind of line end, with or without byte order mark) load, and update_simulation() on the loaded model succeeds with these results, told by the lines of the file: every LSP takes a way of least total cost over lines with rsvp enabled, with the fewest interfaces among these, and reserves its configured bandwidth, or else its even share of the traffic of the demand lines with its ends, or has no path because there is no way; every demand with LSP lines of its ends rides exactly those of least metric, any other demand takes exactly the least-cost ways; every interface carries the sum over the demands of the traffic divided evenly, node by node, along these ways (for a demand with LSPs: when its best way is unique). Exceptions with counterexamples: demands in files that enable IGP shortcuts; amounts of a PerformanceModel with parallel ways, which are rounded to one decimal.", "quantifier": "every sequence of bytes in the layout, every such network, every iteration order and choice of random.choice; counterexamples by computation", "why_tests_cant": "Tests load a few files and compare single results; the claim relates every file to every result of its simulation.", "anchors": ["pyNTM/flex_model.py:FlexModel.load_model_file", "pyNTM/flex_model.py:FlexModel.update_simulation", "pyNTM/performance_model.py:PerformanceModel.load_model_file", "pyNTM/performance_model.py:PerformanceModel.update_simulation", "pyNTM/flex_model.py:FlexModel._update_interface_utilization"]}
{"id": "C104", "title": "Floating point arithmetic, networks without LSPs", "statement": "With Python's floats instead of exact numbers, update_simulation() on a network without LSPs succeeds whenever the exact one does, with the same demand paths, failures, circuits and reservations. get_shortest_path() between any two nodes gives the same paths afterwards. It raises an exception exactly when the exact one does, and the same one. In a FlexModel the traffic of every interface differs from the exact value by at most (3 + number of paths of all demands) * 2^-52 of it, and the traffic of every entry of path_detail by at most 3 * 2^-52 of it. Exceptions with counterexamples: the amounts are not always the floats nearest to the exact ones (a demand of 1 spread over ten links and joined again is 0.9999999999999999), and in a PerformanceModel rounding to one decimal may go the other way (0.3 over two ways: 0.1 instead of 0.2 on each). Every arithmetic operation returns the nearest number with 53 significant bits, ties to even.", "quantifier": "every network without LSPs (nodes, interfaces, costs, capacities, demands of any size), every iteration order and choice of random.choice; counterexamples by computation", "why_tests_cant": "Tests compare a few results with literals; whether rounding errors can change a path or pile up depends on all numbers of the network.", "anchors": ["pyNTM/flex_model.py:FlexModel.update_simulation", "pyNTM/performance_model.py:PerformanceModel.update_simulation", "pyNTM/flex_model.py:FlexModel._update_interface_utilization", "pyNTM/performance_model.py:PerformanceModel._update_interface_utilization", "pyNTM/interface.py:Interface.reservable_bandwidth", "pyNTM/flex_model.py:FlexModel.get_shortest_path", "pyNTM/performance_model.py:PerformanceModel.get_shortest_path"]}
{"id": "C105", "title": "Floating point arithmetic, networks with LSPs", "statement": "If capacities, demands, configured bandwidths and the shares of traffic LSPs may ask for are multiples of 0.5 of reasonable size, update_simulation() with Python's floats succeeds whenever the exact one does, with the same LSP paths and path costs, the same setup and reserved bandwidths of LSPs, reserved and reservable bandwidths of interfaces, the same demand paths, failures and circuits; get_shortest_path() with any needed_bw gives the same paths afterwards; in a FlexModel without IGP shortcuts the traffic of interfaces differs by at most (3 + number of paths) * 2^-52 of it. Exceptions with counterexamples: with multiples of 0.25 the float simulation may stop with an error where exact numbers give none (two LSPs of 0.25 on one link: 0.45000000000000001 is rounded to 0.5, the reservations add up to 0.4), and with decimals LSPs may stay unrouted (0.1 + 0.2 exceeds a link of 0.3); and with IGP shortcuts the rounding of what a LSP carries to one decimal may go the other way (1.5 divided over ten ways: a link shows 0.1 instead of 0.2).", "quantifier": "every well posed model whose amounts are multiples of one half up to 2^44 in total, Flex or Performance, every iteration order and choice of random.choice; counterexamples by computation", "why_tests_cant": "Whether rounding changes the result of a comparison in signalling depends on all numbers of the network and the order of LSPs; tests try a few round numbers.", "anchors": ["pyNTM/flex_model.py:FlexModel.update_simulation", "pyNTM/performance_model.py:PerformanceModel.update_simulation", "pyNTM/rsvp.py:RSVP_LSP", "pyNTM/interface.py:Interface.reservable_bandwidth", "pyNTM/master_model.py:_MasterModel._route_lsps", "pyNTM/flex_model.py:FlexModel.get_shortest_path", "pyNTM/performance_model.py:PerformanceModel.get_shortest_path"]}
{"id": "C106", "title": "Changes of interface costs", "statement": "In a model without LSPs: raising costs of interfaces that a demand does not use leaves its paths and the traffic it puts on every interface unchanged, and so does lowering the cost of an interface that is on all of its paths. Whatever costs are set, the same demands are routed; if no cost is lower, no path is cheaper. In a FlexModel the traffic of an interface never grows when its own cost is raised. Assigning interface.cost on a simulated model in such a case and simulating again succeeds and gives the same paths and traffic. Counterexample: lowering the cost of an interface on some of the paths takes the others away.", "quantifier": "every network without LSPs and without half-failed links, every change of costs, every iteration order and choice of random.choice; Flex and Performance models (own traffic: FlexModel, demands not negative)", "why_tests_cant": "Relates the simulations of two models for all networks and all costs; tests compare single networks with literals.", "anchors": ["pyNTM/flex_model.py:FlexModel.update_simulation", "pyNTM/performance_model.py:PerformanceModel.update_simulation", "pyNTM/interface.py:Interface.cost", "pyNTM/flex_model.py:FlexModel._route_demands", "pyNTM/performance_model.py:PerformanceModel._route_demands"]}
{"id": "C107", "title": "Paths in the two directions of a network", "statement": "If every link that routing may use in one direction it may use at the same cost in the other, a demand from B to A routed by the IGP takes exactly the paths of a demand from A to B the other way round: as many, over the other ends of the same links, at the same cost, or both are unrouted. Without LSPs this condition can be checked before the simulation. The traffic is not the same in the two directions: it is divided at forks that differ (counterexample).", "quantifier": "every simulated model, with or without LSPs, every two demands with swapped ends that no LSP and no IGP shortcut carries", "why_tests_cant": "Tests look at single paths; that sets of equal-cost paths mirror each other is a statement about all routes of all networks.", "anchors": ["pyNTM/flex_model.py:FlexModel.update_simulation", "pyNTM/performance_model.py:PerformanceModel.update_simulation", "pyNTM/demand.py:Demand", "pyNTM/flex_model.py:FlexModel._convert_nx_path_to_model_path", "pyNTM/circuit.py:Circuit"]}
{"id": "C108", "title": "Paths from and to the nodes on the way", "statement": "If a path of an IGP demand passes a node, a demand from that node to the same destination takes exactly the continuations of that path, and a demand from the same source to that node exactly its beginnings; so hop-by-hop forwarding agrees with the end-to-end paths. If demands from A to B and from B to C are routed, one from A to C is routed and costs no more than the two together.", "quantifier": "every simulated model, all demands that no LSP and no IGP shortcut carries, all paths and all nodes on them", "why_tests_cant": "A relation between the results for several demands in all networks; tests check demands one at a time.", "anchors": ["pyNTM/flex_model.py:FlexModel.update_simulation", "pyNTM/performance_model.py:PerformanceModel.update_simulation", "pyNTM/demand.py:Demand", "pyNTM/performance_model.py:PerformanceModel.get_shortest_path"]}
{"id": "C109", "title": "Names of nodes do not matter", "statement": "In a model without LSPs, calling the nodes otherwise (different nodes differently, without '-' in the new names) keeps the simulation successful and leaves all paths, what each demand puts on each interface and all interface traffic unchanged. In a model with LSPs for which there is room, it also leaves unchanged which LSPs are routed, at which cost, their setup and reserved bandwidth, and their paths when these are the only best ones; without IGP shortcuts also the demands' paths and (when the LSPs used have only one best way) all interface traffic. Counterexample: with '-' in the new names a PerformanceModel can raise ModelException about parallel interfaces where there are none.", "quantifier": "every network without LSPs and without half-failed links, and every such network with LSPs that has room for all of them; every renaming, every iteration order; Flex and Performance models", "why_tests_cant": "Invariance under all renamings of all networks; a test uses the names it has written down, and sorted or grouped names could matter for others.", "anchors": ["pyNTM/flex_model.py:FlexModel.update_simulation", "pyNTM/performance_model.py:PerformanceModel.update_simulation", "pyNTM/node.py:Node", "pyNTM/flex_model.py:FlexModel._route_demands", "pyNTM/performance_model.py:PerformanceModel._route_demands", "pyNTM/rsvp.py:RSVP_LSP"]}
{"id": "C110", "title": "Parts of a network that are cut off", "statement": "In a model without LSPs, the paths of a demand and what it puts on interfaces depend only on the links at nodes that can be reached from its source: two models that agree on these give the same results for it, however different the rest is. The traffic of the interfaces of a part that no usable link connects to the rest does not depend on the rest. The same holds with LSPs for which there is room, for the LSPs, demands and interface traffic of a part from which no RSVP interface that is up leads out (paths of LSPs, and traffic, as far as the best ways of the LSPs are unique). Counterexample: an inconsistency in another part makes the whole simulation raise.", "quantifier": "every two networks without half-failed links, without LSPs or with room for all their LSPs, that agree on a set of nodes with no way out; every iteration order; Flex and Performance models", "why_tests_cant": "A non-interference statement about arbitrary other parts of a network, over all networks.", "anchors": ["pyNTM/flex_model.py:FlexModel.update_simulation", "pyNTM/performance_model.py:PerformanceModel.update_simulation", "pyNTM/flex_model.py:FlexModel._route_demands", "pyNTM/performance_model.py:PerformanceModel._route_demands", "pyNTM/rsvp.py:RSVP_LSP"]}
{"id": "C111", "title": "A call that raises leaves the model as it was", "statement": "If one of these calls raises, the model has the same objects, circuits and groups as before and no existing object has changed: fail_interface(), fail_interface on an Interface, add_srlg(), Node.add_to_srlg(), Node(), change_interface_name(), setting manual_metric, cost or capacity (in any state); add_demand(), add_rsvp_lsp(), add_node() and add_circuit() on a model that validate_model() accepts; fail_node(), fail_srlg() and unfail_srlg() on a consistent model. Exceptions with counterexamples: PerformanceModel.add_circuit() next to an existing link raises but the interfaces stay and the model can no longer be simulated; PerformanceModel.add_node() with a node that has IGP shortcuts raises but the node stays; add_network_interfaces_from_list() with an unmatched interface raises but the interface stays; Node.remove_from_srlg() raises if another SRLG of the node is failed, but the node has left the SRLG.", "quantifier": "every model state (of the stated soundness), every argument, every exception, every iteration order; Flex and Performance models", "why_tests_cant": "Tests check that an exception is raised for the wrong arguments they chose; that no state and no argument leaves a half-made change behind is a statement about all error paths.", "anchors": ["pyNTM/master_model.py:_MasterModel.add_demand", "pyNTM/master_model.py:_MasterModel.add_rsvp_lsp", "pyNTM/master_model.py:_MasterModel.add_node", "pyNTM/master_model.py:_MasterModel.fail_node", "pyNTM/master_model.py:_MasterModel.fail_srlg", "pyNTM/master_model.py:_MasterModel.unfail_srlg", "pyNTM/flex_model.py:FlexModel.add_circuit", "pyNTM/performance_model.py:PerformanceModel.add_circuit", "pyNTM/node.py:Node.remove_from_srlg", "pyNTM/interface.py:Interface.fail_interface"]}
{"id": "C112", "title": "The printed tables say what is the case", "statement": "display_node_status(), display_interface_status() and display_interfaces_traffic() print a heading and then one line for each node or interface, and for names without blanks the words of that line are the names and the failure state or traffic of this object, whatever their length. With names of at most 12 letters the columns are in line with the headings. display_demand_paths() prints for every routed demand its key, the number of its paths and exactly these paths. Exceptions with counterexamples: a demand without a path is listed with eight paths, the letters of \"Unrouted\"; longer names push the columns aside; names that differ by a blank at the end look alike.", "quantifier": "every model, any names; for the list of demands every model in which all demands are routed", "why_tests_cant": "The functions are excluded from coverage (pragma: no cover); that lines can be read back unambiguously is a statement about all names, and the wrong number of paths appears only for demands that no test displays.", "anchors": ["pyNTM/master_model.py:_MasterModel.display_node_status", "pyNTM/master_model.py:_MasterModel.display_interface_status", "pyNTM/master_model.py:_MasterModel.display_interfaces_traffic", "pyNTM/master_model.py:_MasterModel.display_demand_paths"]}
{"id": "C113", "title": "Traffic across the border of a region", "statement": "Take any set of nodes. After a successful update_simulation of a FlexModel without IGP shortcuts whose routed LSPs take whole ways, what the interfaces leading out of this set carry, plus the routed demands that enter it, equals what the interfaces leading into it carry plus the routed demands that leave it. The interfaces leading out carry at least the routed demands that start inside and end outside. If these demands exceed the capacity of the interfaces leading out that are up, then one of those interfaces shows more traffic than its capacity, whatever the metrics and LSPs. This covers every FlexModel without LSPs and every usual one with room for all LSPs; the balance also holds for a PerformanceModel whose routed demands all ride LSPs. Counterexamples: enough capacity out of the set does not rule out an overload there, since traffic may leave and come back; and the rounding of a PerformanceModel may lose traffic.", "quantifier": "every well-posed model, every set of nodes, every order and choice; counterexamples by computation", "why_tests_cant": "A test picks one network and one set of nodes; the claim is about all 2^n sets in every network, and needs the traffic of all paths of all demands, including those that cross the border several times.", "anchors": ["pyNTM/flex_model.py:FlexModel.update_simulation", "pyNTM/flex_model.py:FlexModel._update_interface_utilization", "pyNTM/flex_model.py:FlexModel._route_demands", "pyNTM/interface.py:Interface.utilization"]}
{"id": "C114", "title": "Added links", "statement": "In a model without LSPs, when links are added: every routed demand stays routed, no path gets dearer, and the total routed traffic does not shrink. A demand whose new paths use nothing new has exactly its old paths and puts on every interface what it did before. A path over an added link takes it once; up to the link and after it, it goes a cheapest way of the old model, and no path costs more than the cheapest way over the link. A link that costs more in both directions than some way between its ends changes no path and no traffic and carries 0. A successful add_circuit between two nodes of the model yields exactly such a model, and update_simulation succeeds on it if it did before. Counterexample: an added link can load an old one beyond its capacity.", "quantifier": "every network without LSPs and without half-failed links, any added interfaces (one added link for the statements about its use), every iteration order and choice of random.choice; Flex and Performance models", "why_tests_cant": "Adding a link can change any subset of the paths of all demands; a test compares two simulations of one network for one new link.", "anchors": ["pyNTM/flex_model.py:FlexModel.add_circuit", "pyNTM/performance_model.py:PerformanceModel.add_circuit", "pyNTM/flex_model.py:FlexModel.update_simulation", "pyNTM/performance_model.py:PerformanceModel.update_simulation"]}
{"id": "C115", "title": "Added links in models with LSPs", "statement": "In a model whose links have room for all LSPs, when links with room are added: every routed LSP stays routed, at no greater cost and with the same setup and reserved bandwidth; every routed demand stays routed and the total routed traffic does not shrink. An LSP whose new path uses nothing new had the same cost and reservation before, and the same path if no other was as good; a demand whose paths and LSPs use nothing new had the same paths, and put the same on every interface if its LSPs have no equally good second path. An LSP over an added link goes a cheapest way of the old model up to the link and after it, and no LSP costs more than a way over the link. A link that costs more in both directions than some way between its ends changes no LSP, demand or traffic and carries 0. A successful add_circuit with capacity for all LSPs yields exactly such a model, and update_simulation succeeds on it if it did before. Counterexample: without room for all LSPs, an added link can leave a routed LSP without a path.", "quantifier": "every network with room for all LSPs, without half-failed links and without IGP shortcuts, any added interfaces (one added link for the statements about its use), every iteration order and choice of random.choice; Flex and Performance models", "why_tests_cant": "An added link can move any subset of the LSPs and with them the traffic of all demands; a test compares two simulations of one network for one new link.", "anchors": ["pyNTM/flex_model.py:FlexModel.add_circuit", "pyNTM/performance_model.py:PerformanceModel.add_circuit", "pyNTM/flex_model.py:FlexModel.update_simulation", "pyNTM/performance_model.py:PerformanceModel.update_simulation"]}
{"id": "C116", "title": "Changes of interface costs in models with LSPs", "statement": "In a model whose links have room for all LSPs: whatever costs are set, the same LSPs are routed with the same setup and reserved bandwidth, and the same demands with the same total traffic. If no cost is lower, no LSP gets cheaper; an LSP over none of the dearer interfaces keeps its cost, and its path if no other was as good; a demand whose paths and LSPs use none of them keeps its paths, and its load if its LSPs have no equally good second path. When the cost of an interface on every cheapest way of an LSP is lowered, the cost of the LSP falls by the difference and its path stays if no other was as good. Assigning interface.cost on a simulated model and simulating again succeeds; if it makes an interface dearer that no LSP and no demand uses, LSPs, paths and traffic stay as they are. Counterexample: without room for all LSPs, making an interface dearer can leave an LSP that does not use it without a path.", "quantifier": "every network with room for all LSPs, without half-failed links and without IGP shortcuts, every change of costs, every iteration order and choice of random.choice; Flex and Performance models", "why_tests_cant": "A change of one cost can move any subset of the LSPs and of the demands; a test compares two simulations of one network.", "anchors": ["pyNTM/interface.py:Interface.cost", "pyNTM/flex_model.py:FlexModel.update_simulation", "pyNTM/performance_model.py:PerformanceModel.update_simulation"]}
{"id": "C117", "title": "Changes of interface capacities in models with LSPs", "statement": "In a model whose links have room for all LSPs before and after capacities are changed: every LSP keeps its cost, setup and reserved bandwidth or stays unrouted, and keeps its path if no other was as good; every demand keeps its paths; if the LSPs that demands ride have no equally good second path, traffic on every interface stays and interface.utilization is that traffic over the new capacity in percent. Assigning interface.capacity at both ends of a link of a simulated model and simulating again succeeds and changes only these capacities; assigning a different one at one end only, of an RSVP enabled interface, makes update_simulation raise. Counterexample: without room for all LSPs, more capacity on a link can leave an LSP that had a path without one.", "quantifier": "every network with room for all LSPs, without half-failed links and without IGP shortcuts, every change of capacities (in tenths, leaving room), every iteration order and choice of random.choice; Flex and Performance models", "why_tests_cant": "That nothing but utilization moves is about every LSP and demand of every network; a test compares two simulations of one network.", "anchors": ["pyNTM/interface.py:Interface.capacity", "pyNTM/interface.py:Interface.utilization", "pyNTM/flex_model.py:FlexModel.update_simulation", "pyNTM/performance_model.py:PerformanceModel.update_simulation"]}
{"id": "C118", "title": "Steering demands with manual_metric", "statement": "In a model whose links have room for all LSPs, changing the manual metric of one LSP changes nothing about the LSPs: each stays unrouted or keeps its cost, setup and reserved bandwidth, and its path if no other was as good; the same demands are routed, with the same total traffic. A demand with other end nodes than the LSP keeps its paths, and its load if its LSPs have no equally good second path. If the LSP is routed and its new metric is below those of the other routed LSPs between its ends, the demands between these nodes ride it alone; if the metric is above that of another routed LSP, they do not ride it. Assigning a positive manual_metric on a simulated model, to an LSP with no configured metric still to be taken over (see C42), and simulating again succeeds and is such a change.", "quantifier": "every network with room for all LSPs, without half-failed links and without IGP shortcuts, every LSP and metric, every iteration order and choice of random.choice; Flex and Performance models", "why_tests_cant": "That a metric moves the demands between two nodes and nothing else is about every LSP and demand of every network; a test looks at one.", "anchors": ["pyNTM/rsvp.py:RSVP_LSP.manual_metric", "pyNTM/rsvp.py:RSVP_LSP.effective_metric", "pyNTM/flex_model.py:FlexModel.update_simulation", "pyNTM/performance_model.py:PerformanceModel.update_simulation"]}
