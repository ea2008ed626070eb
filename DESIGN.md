# Formal model of pyNTM in Coq

Subject: pyNTM 3.4.1 (`/repo`, python).  The code was read as text, never run.
Toolchain: Coq 8.16.1, standard library only.

## Layout

| file (rocq/theories) | contents |
|---|---|
| Base.v | values, exceptions, object records, model state, state-and-exception monad, rounding, small library functions |
| Graph.v | networkx graphs; contract of the networkx calls, set iteration and random.choice (`env_ok`); an executable environment `env_impl` |
| Objects.v | methods of Node, Interface, SRLG, RSVP_LSP, Demand, Circuit and the lookups they use |
| Sim.v | graphs, LSP routing, demand routing, interface traffic, circuits, validate_model, update_simulation, traffic_on_lsp |
| Api.v | public calls that change or query a model; histories of calls (`op`, `run_ops`) |
| Loader.v | load_model_file from a list of lines |
| Text.v | from the bytes of a file to its lines, int() and float() of its fields |
| World.v | several models in one program, with shared default arguments of the constructors |
| Float.v, FloatSim.v | rounding to floats; the functions of Sim.v that compute, with a rounding after every operation |
| MapTypes.v, Map.v | what the weather map computes from a model: elements, colours, dropdown options, selections, stylesheet entries |
| Build.v, Nets.v | helpers for, and, concrete networks used in Examples and counterexamples |
| *Proofs.v, Frames.v, ApiFrames.v, Ecmp.v, SigSeq.v, SigUpdate.v, SigEnd.v, PathQuery.v, LspTraffic.v, RepairCalls.v, RepairAll.v, RepairSrlg.v, RepairTotal.v, Short*.v, MapMore.v, MapLists.v, MapSelect.v, MapEdges.v, WhatIf*.v, OwnApi.v, LoadRun.v, LoadBuild.v | lemmas |
| Spec.v, SpecHist.v, SpecMetric.v, SpecCkt.v, SpecSim.v, SpecSig.v, SpecFlow.v, SpecQuery.v, SpecFail.v, SpecLoad.v, SpecFresh.v, SpecOrder.v, SpecMember.v, SpecInfo.v, SpecRepair.v, SpecShort.v, SpecMap.v, SpecWhatIf.v, SpecOwn.v, SpecWorld.v, SpecTotal.v, SpecSame.v, SpecBalance.v, SpecMore.v, SpecData.v, SpecFile.v, SpecText.v, SpecAnswer.v, SpecFloat.v | definitions used to state the properties; they import the records of Base.v and MapTypes.v (SpecHist.v, SpecFail.v, SpecWhatIf.v, SpecOwn.v and SpecWorld.v also the type of calls, SpecInfo.v that of one result, SpecFresh.v that of environments), not the functions of the model |
| Properties*.v | one theorem per claim, `Print Assumptions` after each, and an Example with a concrete instance |

## How the code is modelled

* A Python object is a reference (`nat`) into a heap of records; a model object
  holds lists of references.  Aliasing (for example an Interface that refers to
  a Node object which is not the model's Node of that name) is therefore visible.
* Every method is a function `st -> st * res A`.  An exception is a value, and
  the state reached when it is raised is kept, as in Python.
* A Python set is a list; its order stands for the arbitrary iteration order.
  Theorems quantify over every list, hence over every order.  Sets of names
  built on the fly are iterated in the order given by `set_iter`, edges of a
  graph in the order given by `edge_iter`; both are arbitrary permutations.
* `random.choice(l)` is `nth (rng c mod length l) l` with an arbitrary `rng`.
* FlexModel and PerformanceModel share most code; a definition that is the same
  in both takes the class as the argument `k : kind`.

### Simplifications (also noted at each definition)

* Numbers: Python floats are exact rationals (`Q`); `round(x, n)` is
  round-half-to-even of the exact value.  Binary rounding error is not modelled in
  Sim.v; FloatSim.v is the same simulation with a rounding after every operation, and
  C104 relates the two.  There `fl` rounds to 53 bits with unbounded exponent (no
  overflow, underflow, infinities or NaN), `sum()` adds from left to right (as Python
  did before 3.12; later versions correct the sum), ints are converted first, and
  negation is exact.
  Counterexamples use values for which Python's arithmetic is exact or the
  effect does not depend on the last bit.
* Interface costs and metrics are integers; names are strings; circuit ids are
  None, int or str; type-check branches for other Python types are not modelled.
* `lines = file.read().splitlines()`, `int(str)` and `float(str)` are inputs or
  oracles of the loader model (Loader.v). Text.v defines them: a text is the string
  of its UTF-8 bytes; digits and blanks outside ASCII, "inf" and "nan" are refused
  there, and the limit of 4300 digits of recent Python versions is left out.
* Python hash collisions and hashes that became stale after a rename are not
  modelled: set membership is `==` (identity first).
* JSON texts passed between callbacks of the weather map are the records they
  encode; a style is a label (`mark`); a selector is the pair of texts it compares.
* Exception messages are short labels.  The list of failed checks attached by
  validate_model is kept.
* Order in which a generator's elements are computed and compared by `min`: the
  elements are computed first, then compared.

### Trusted base

* The Coq kernel.
* What `Print Assumptions` prints: see the section "Assumptions" below.
* The contract `env_ok` of networkx 2.4 `all_shortest_paths`,
  `shortest_path_length`, `all_simple_paths`, of set/edge iteration orders and
  of `random.choice` (Graph.v).  It is a hypothesis of the theorems, not an
  axiom, and GraphProofs.v proves that it can be met (`env_impl_ok`).
* That the definitions transcribe the cited lines (by reading).

### Not modelled

The Dash application, page layout, captions and fixed styles of weathermap.py
(Map.v models what its functions and callbacks compute from the model), display_interface_objects, `__repr__`,
deprecated aliases.  Only World.v has several models in one program; the other
files follow one model.  In World.v a model gets newly created sets or none at
all; handing one set object to two constructors is not modelled.

## Properties and proof plan

* C01-C03 IGP paths: `Sim.route_demand` with `asp_ok`; spec = shortest walks over
  usable interfaces; then frame lemmas to the end of update_simulation.
* C04, C05, C08 ECMP: path weights as products of 1/out-degree; induction on the
  distance to the destination; conservation at each node by grouping paths by
  their first or last hop.
* C57 the entries of path_detail, from the ECMP weights.
* C06 accumulation: invariant of the loop over demands.
* C07 LSP-borne demands: min over effective metrics, loop invariant.
* C09-C11, C14 LSP signalling: Hoare-style specification of `determine_lsp`.
* C12, C13 admission/accounting: invariants over the fold of signalling steps,
  with lemmas on `round1`.
* C15, C16 re-signalling: specification of `optimize_lsp`; counterexamples by
  computation.
* C17 relational proof (IndepProofs.v): two runs from states that agree on the
  input data stay related, statement by statement; counterexample for LSPs that
  lose their group through names with a dash.
* C18 counterexample by computation, and specification of update.
* C19, C32, C33, C38, C40 invariants: a frame relation for each primitive, lifted
  through the monad and through histories.
* C20 contradiction from `path_entry`/`path_min_reservable` on the empty path.
* C21, C67 models without LSPs (OrderProofs.v): update_simulation succeeds exactly
  when every demand starts at a node of the model and ends elsewhere and the model
  is fit (SpecOrder.v); these conditions, the least-cost routes and the ECMP
  weights do not depend on the order of the lists.  The traffic part assumes that
  no link is half failed.  With LSPs the order matters (counterexample).
* C22-C25 characterisation of validate_model and of the circuit-building loop.
* C56 exact effect of the loop over disjoint circuits.
* C26 injectivity of the key for names without '-', counterexamples otherwise.
* C27-C31, C34 failure calls: exact post-states; counterexamples by computation.
* C63, C64 repairs of nodes and SRLGs (SpecRepair.v: `restored`): the loops over
  interfaces and nodes are followed with an invariant that composes restored
  states; success by showing that validation cannot tell failure flags apart.
* C35-C37, C39, C41 exact post-states of the add/get calls.
* C59, C65, C68 exact post-states of the membership calls, the setters and the
  add/edit calls (MemberProofs.v, InfoProofs.v; loop invariant over the entries of
  add_network_interfaces_from_list).
* C60, C61, C66 queries against set-builder specifications; C61 on validated models
  from C24 and C56.
* C42, C43 state machine of the metric; shortest path length.
* C44, C45 path queries against the walk specification; counterexamples.
* C46-C49 queries against set-builder specifications.
* C50-C53, C58 loader: invariant over the lines; specification by rows of the file, first and last occurrence.
* C54 counterexample by computation; positive part from C01.  The theorems about
  IGP paths assume `no_shortcuts_for` (SpecSim.v): the flag may be set on nodes as
  long as no routed LSP starts at such a node and ends further along the route.
* C62, C69, C75 IGP shortcuts (SpecShort.v, ShortPaths.v - ShortLsp.v): the key loop over
  the node paths is followed with an invariant for the dict of LSP groups; the
  replacement loop equals `rides`; traffic totals by exchanging the tails of paths.
* C55 rounding bound.
* C70-C74 weather map (SpecMap.v, Map*.v): element lists as concatenations over the
  circuits; keys of parallel groups split back into names; selection and stylesheet
  entries against set-builder specifications.
* C76-C83 two simulations compared (SpecWhatIf.v, WhatIf*.v), for models without
  LSPs: both runs are characterised by C01, C08 and C67, and the least-cost walks
  and the shares of the two models are compared; histories of calls by an invariant
  for the configuration; balance by telescoping the shares along every path.
  With LSPs C76, C78 and C82 are refuted.
* C84 frame conditions (SpecOwn.v, OwnProofs.v, OwnApi.v): a Hoare logic for
  invariants that updates of the model's own objects keep, through every call;
  the LSPs and interfaces reached through paths and cached groups stay inside the
  model by an invariant of update_simulation.
* C85 from C84 and C17: after outages the input data are those from before except
  for the failed flags.
* C86, C87 several models (World.v, WorldProofs.v): models hold references to sets;
  each call runs on the view of its model and is written back; invariants over
  program histories with the frame conditions of C84.  Counterexamples by
  computation for the default arguments.
* C88 models with LSPs (SigTotal.v, LspTotal.v, LspSucceeds.v, LspExact.v): totality
  of each step of update_simulation; no reservation exceeds what is reservable, so
  that validation reduces to the conditions of C67.  With room for all LSPs the
  admission test never bites, by induction over the signalled LSPs.
* C89 (OrderLsps.v, OrderShort.v): both simulations are described by C88, C03, C07,
  C62 and C69 in terms of the input; the descriptions do not mention any order.
  Counterexamples by computation for ties and for IGP shortcuts.
* C90 (Balance.v): a way from a node to another leaves and enters each node equally
  often but for its ends; summed over the paths and LSPs of a demand (C62), then over
  the demands. LSPs' ways are whole by an invariant of the signalling rounds.
  Counterexamples by computation for parallel links and for IGP shortcuts.
* C91, C92 (MoreLsps.v, DownLsps.v, GrownLsps.v): with room for all, LSPs take their
  own best ways (C88), so fewer interfaces leave fewer ways and spared best ways stay
  best; added objects change no best way. Demands between the same nodes ride the same
  LSPs at the same metrics (Section Pair of MoreLsps.v), and traffic adds up by C62.
  The calls by the frame lemmas of C76 and C78. Counterexamples by computation.
* C93-C96 (MatchLsps.v, DataLsps.v, KindLsps.v): one relation `matched` between two
  models with room for all: objects correspond, costs are multiplied by one number and
  amounts by another. It carries best ways, LSP metrics, demand paths and traffic from
  one simulated model to the other. Same data (C93), the two classes (C94), scaling
  (C95) and two histories with the same failures (C96) are cases of it.
* C97, C98 (FileLsps.v): C51 tells what a loaded model looks like, so two files that
  say the same load to models with the same data (C93). The lines of a usual network
  give all that C88 assumes; bandwidths asked for and room are carried from lines to
  objects by a one-to-one correspondence of LSPs and demands with lines.
  Counterexamples by computation.
* C99-C101 (SpecText.v, TextProofs.v, NumProofs.v): the bytes of a file are decoded,
  split into lines and its numbers read by executable functions (Text.v); each is
  proved against a grammar, in both directions. Then C51 for files in the documented
  layout.
* C102 (MatchShort.v, DataShort.v, SpecData.v): the correspondence of C93-C97 extended
  to IGP shortcuts. The sequence of nodes of a demand determines the groups of LSPs it
  takes (C62); corresponding nodes have corresponding groups, so paths correspond, and
  the amounts on them by induction along the path. Counterexamples by computation.
* C103 (Answers.v, SpecAnswer.v): the results in terms of the lines of a file. The
  loaded model has one object per line (C51), so ways over interfaces and ways over
  lines correspond; the results about routing, signalling and division of traffic
  are then read off, success comes from C98, and C99-C101 lead
  from bytes to lines. The ways of the example are found by listing all walks of
  bounded cost, a procedure proved complete there. Counterexamples by computation.
* C104 (FloatLock.v, FloatFree.v, FloatNearest.v, SpecFloat.v): a relation between a
  state of the exact simulation and one of the float simulation that differ in traffic
  only, kept by every step as long as no comparison can go the other way. Without LSPs
  the only comparisons of computed amounts are those of reservable bandwidth with 0,
  which rounding respects (capacities and percentages are not negative). Traffic is
  related by a bound on the relative error that grows by one rounding per addition.
  Exceptions (FloatFail.v, FloatErr.v): every step fails in both runs with the same
  exception or in neither; the checks of validate_model read exact data only.
* C105 (FloatSig.v, FloatGroups.v, FloatLsps.v, SpecFloat.v): the relation of C104 carried
  through signalling. On multiples of a half of bounded size every sum, difference and
  comparison of signalling is exact after rounding to one decimal, so both simulations
  take the same way, group by group and LSP by LSP. Counterexamples by computation.
  FloatQuery.v: the paths asked for after the simulation, for C104 and C105.
* C106 (SpecCost.v, WhatCost.v): least-cost routes of two models that differ in costs only,
  compared route by route; the comparison of runs is that of C76-C80. A simple route crosses
  an interface at most once, so a lower cost gains at most what every used route gains.
* C107, C108 (SpecCost.v, MirrorProofs.v): from C01: reversing a route along is_reverse, and
  cutting and joining least-cost routes.
* C109, C110 (SpecCost.v, RenameProofs.v, PartProofs.v): routes of one model are routes of
  the other (with other names, inside the part), so are least-cost routes and the forks that
  divide the traffic; then as C76-C80. Success carries over by C67. With LSPs (NameLsps.v,
  PartLsps.v) as C92-C95. Counterexamples by
  computation.
* C111 (SpecExn.v, ExnProofs.v): every way a call can raise is followed. Calls that look
  first have changed nothing by then. The additions change the model and then validate it:
  a valid model with a proper object added is valid, so that validation cannot raise and
  only the look-ups before the change can. Counterexamples by computation.
* C112 (Print.v, SpecPrint.v, PrintProofs.v): the printed lines as texts; a separate reader
  splits a line into words, looks at a column, or reads the list of demands, and recovers
  the data. `repr` of a number is a parameter, pprint of a path is the path.
* C113 (SpecCut.v, CutProofs.v): the balance of C90 at every node, added up over the nodes of
  the region; the lower bound demand by demand, each putting a non-negative amount on every
  interface. Counterexamples by computation.
* C114 (SpecWider.v, WiderProofs.v): the ways of the old model are ways of the new one at the same
  cost; cutting a way at the new link and exchanging its parts. Paths and amounts then as for C76
  and C106; the model after add_circuit by C37 and validate_model on links that are not half failed.
* C115 (SpecWider.v, WiderLsps.v, LaidProofs.v): with room every LSP takes a cheapest way over the
  interfaces that are up and rsvp enabled (C88, C91), so an added link acts on LSPs as on paths in
  C114; demands follow their LSPs as in C91. Counterexample by computation.
* C116 (SpecLspCost.v, CostLsps.v): the ways of the LSPs are the same before and after, only their
  costs differ, so C106's comparison of cheapest ways carries over; demands as for C115, the cost
  setter as for C106 and success by C88. Counterexample by computation.
* C117 (SpecCap.v, CapLsps.v): a change of capacities is a change of costs in C116's sense in which
  no cost differs; which interfaces are open to RSVP does not depend on the capacity, so success
  follows from C88, and a link with unequal ends fails it. Counterexample by computation.
* C118 (SpecSteer.v, SteerLsps.v): with room the way of an LSP is a best way (C88), which no metric
  enters; the metrics of the other LSPs are the same in both simulations, so the least-metric LSPs
  of C07 can be compared. The setter by computation on its automaton (C42), success by C88.

Where a documented behaviour is false of the code, the theorem with the suffix
`_refuted` exhibits a concrete model by computation, next to the theorem that
states what does hold.

## Assumptions

Every theorem of the Properties files is followed by `Print Assumptions`, and
every one prints "Closed under the global context": no axiom of our own and no
axiom of the standard library is used.  (`coqchk -o` lists axioms of
`Coq.ssr.ssrunder`, which are in a library file that gets loaded; no theorem
depends on them.)

## Mutation log

`seeded/LOG.jsonl` has one line per edit tried on a scratch copy of the model. The edits
ran at different times, against the sources of the time. Two kinds of record differ in
what they show:

* Edits by hand: failing proofs were admitted in the scratch copy until it built, and
  `theorems_failed` are the theorems for which `Print Assumptions` then listed an admitted
  lemma. A theorem on that list lost its proof; that it is false was not proved. `breaks` is
  the claim the edit was meant to break.
* Automatic edits (most of the log): the build was run until it stopped. Only the lemma
  where it stopped (`lemmas_failed`) was observed. `claims_resting_on_it` and
  `theorems_resting_on_it` are inferred by following names through the current sources.
  Earlier versions of the log gave these inferred lists as `breaks` and `theorems_failed`,
  which said more than the runs had shown.

The log also has the one automatic edit that survived, of a definition nothing used
(since removed), and two runs that were not completed. 170 automatic edits that did not
type-check are not listed.
