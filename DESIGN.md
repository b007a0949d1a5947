# Design

A shallow Gallina model of the C++ core of cyclus, of what `cli/cycpp.py` generates, and of the
simulation server and the in-memory backend in `cyclus/`, written function by function from `/repo`,
and theorems about it. The properties are in `properties.jsonl`, the theorems
for each property in `MANIFEST.json`, the experiments with wrong programs in `seeded/LOG.jsonl`.

## Conventions

* **Exceptions are values.** A function that may throw returns `result A` (`Ok a | Throw e | UB`)
  together with the state it leaves behind, also when it throws. "Throws and changes nothing" is
  therefore a statement and not an artefact of the model.
* **Undefined behaviour** (null or dangling pointers, reading past the end, out-of-range conversion
  of a double to int, int division by zero, int overflow where it matters, iterator invalidation) is
  the outcome `UB` (`Undef` in the simulation kernel). Nothing is totalised. Theorems about histories
  say nothing about what follows an `UB`.
* **Doubles** are exact rationals (`Q`). Comparisons are the boolean tests the code makes, with its
  tolerances. Rounding is not modelled. Where the code can produce an infinity or a NaN and the
  property depends on it, there is a type with those values (`num` in `GreedyModel.v`, `None` in
  `EnrichModel.v`). `EnrichModel.v`, `PiecewiseModel.v` and the
  distances in `PosModel.v` use Coq's real numbers.
* **ints** are `Z`.
* **Pointers** are indices into a heap that is a list, so aliasing is in the model.
* **Code outside the model** (agents' virtual functions, random numbers, nuclear data, the decay
  solver, how SQLite and pandas compare values, `float_distance`) is an argument of the model, and
  the theorems quantify over it.
* `assert` is compiled out, as in a release build.
* Loops whose termination depends on user code carry `fuel`. Theorems quantify over it.

## Files

All in `rocq/theories`. For each topic:

* `<Topic>Model.v`: definitions only, each citing the file and lines it models;
* `<Topic>Spec.v`: the independent vocabulary of the theorems, where plain Coq does not suffice;
* `<Topic>Proofs*.v`: the proofs;
* `<Topic>Properties.v`: the theorems named in `MANIFEST.json`, each closed by one lemma, with
  `Print Assumptions` and with examples showing that the hypotheses can be met.

A theorem ending in `_refuted` exhibits an execution of the modelled code that contradicts the
property or the documentation. A theorem ending in `_partial` proves less than the property.

`Base.v` has the shared vocabulary (results, rationals, finite maps, list update). The toolkit for
histories of resource operations (`pinv`) is in `ResourceProofs8.v` and `ResourceProofs9.v`.

## Plan and outcome for each property

| id | property | what is modelled | how it is proved | where | status |
|---|---|---|---|---|---|
| C01 | Extracting from a resource conserves its quantity | heap of resources, `Material::ExtractQty/ExtractComp`, `Product::Extract`, trackers | exact post-state of each call (Hoare-style lemmas on the state monad) | `ResourceProperties.v` | proved |
| C02 | Absorbing a resource moves its whole quantity | `Material::Absorb`, `Product::Absorb` with aliasing | exact post-state; separate treatment of `i = j` | `ResourceProperties.v` | proved |
| C03 | Nuclide-wise mass balance of mixing and extraction | `comp_sub`, `comp_add`, `normalize`, thresholding inside extract and absorb | nuclide-wise algebra over Q | `ResourceProperties.v` | proved |
| C04 | Mass is conserved over whole resource histories | all resource operations as a history `run` | induction over histories with the sum over the heap as invariant | `ResourceProperties.v` | proved |
| C05 | Resource state ids and object ids are never reused | global id counters, `BumpStateId`, rows written by `ResTracker` | invariant over histories (`pinv` framework) | `ResourceDbProperties.v` | proved |
| C06 | The Resources table is a well-founded provenance graph | Resources/ResCreators rows and their Parent columns | invariant: every parent is the id of an earlier row | `ResourceDbProperties.v` | proved |
| C07 | The Resources table agrees with the live inventory | Resources rows against the heap | invariant relating the last row of an object to the object | `ReloadProperties.v`, `ResourceDbProperties.v` | proved |
| C08 | Resource buffer quantity accounting | `ResBuf` over the resource heap | invariant over histories of buffer calls interleaved with other code | `BufProperties.v` | proved |
| C09 | Resource buffers are first-in first-out | all pops and pushes of `ResBuf` | refinement to a list, exact effect of each pop | `BufProperties.v` | proved |
| C10 | Popping a quantity returns exactly that quantity | `PopVector`, `Pop(qty)`, `Pop(qty, eps)`, `Squash` | loop invariant; conservation from C01/C02 | `BufProperties.v` | proved |
| C11 | Pushing to a buffer is all-or-nothing | `Push`, `Push(vector)` | case analysis of every exit, post-state unchanged on a throw | `BufProperties.v` | proved |
| C12 | ResMap quantity is never stale with respect to the map itself | `ResMap` with its cached quantity and raw pointers | invariant over histories | `MapProperties.v` | proved |
| C13 | Package fills respect the package limits | `Package::GetFillMass`, all strategies, oracle samples | arithmetic over Q, induction on the sampling loop | `PackageProperties.v` | proved |
| C14 | Packaging a resource conserves mass and respects limits | `Resource::Package<T>`, `PackageExtract` | induction on the list of fills | `ResourceProperties.v` | proved |
| C15 | Re-packaging checks the limits of the target package | `ChangePackage` of materials and products | exact post-state; refutation for materials | `ResourceProperties.v` | partial |
| C16 | Transport units ship only full, legal loads | `TransportUnit::GetTransportUnitFill`, `MaxShippablePackages` with int overflow as UB | arithmetic over Z | `PackageProperties.v` | proved |
| C17 | The greedy solver respects every supply capacity | exchange graph, IEEE quotients, `Capacity`, `UpdateCapacity`, solver loops | loop invariant over the whole solve | `GreedyProperties.v` | proved |
| C18 | The greedy solver never over-satisfies a request | as C17, request side | loop invariant | `GreedyProperties.v` | proved |
| C19 | Exclusive trades are all or nothing | arcs with exclusive values, `float_distance` as a parameter | loop invariant; refutation for exclusive groups | `GreedyProperties.v` | proved |
| C20 | Greedy matching prefers better trades and leaves nothing feasible unmatched | sorting by preference, the two loops | invariant stating exhaustion when a match is made and at the end | `GreedyProperties.v` | proved |
| C21 | Preconditioning only reorders | `GreedyPreconditioner` | permutation and sortedness of the stable sort | `GreedyProperties.v` | proved |
| C22 | Declared commodity priorities reach the solver | `SimInit::LoadSolverInfo` over the declared schema, then the solver | evaluation of the loader; refutation; conditional theorem | `LoadSolverProperties.v` | partial |
| C23 | Exchange translation loses nothing | `ExchangeTranslator`, portfolios, translation context | invariant of the translation, `represents` specification | `ExchangeProperties.v` | proved |
| C24 | Mutual requests count as one demand | `AddMutualReqs`, the mass constraint, translation, solver | composition of C23 and C18; refutation of the documented weights | `ExchangeProperties.v` | partial |
| C25 | Executed trades are exactly the solved trades | `TradeExecutor`, traders as oracles that may throw | grouping lemmas and event traces | `TradeProperties.v` | proved |
| C26 | Every time step runs its phases in the documented order | `Timer::RunSim` as a state machine with arbitrary user programs | induction over steps and fuel; event log | `SimProperties.v` | proved |
| C27 | Registered agents tick and tock exactly once per step | tickers lists, register/unregister, decision map | invariant and trace theorem | `SimProperties.v` | proved |
| C28 | Scheduled builds happen exactly once, at their time | build queue, `SchedBuild`, `DoBuild`, `CreateAgent` | invariant relating queue and log | `SimProperties.v` | proved |
| C29 | Scheduled decommissions happen exactly once | decommission queue, `SchedDecom`, `DoDecom` | invariant relating queue and log | `SimProperties.v` | proved |
| C30 | Agent lifetimes are respected | lifetimes, `Institution::Tock`, `Decommission` | exact effects and trace theorem | `SimProperties.v` | proved |
| C31 | The agent hierarchy is a forest and counters agree with it | parents, children, censuses | invariant (forest, counter equations) | `SimProperties.v` | proved |
| C32 | Prototype creation yields isolated copies | `CreateAgent<T>`, `Clone`/`InitFrom` | exact post-state, frame over later operations | `SimProperties.v` | proved |
| C33 | Every recorded datum is delivered to every backend exactly once, in order | `Recorder`, `Datum`, buffer reuse, backends as oracles | refinement of deliveries to the recorded list | `RecorderProperties.v` | proved |
| C34 | Composition arithmetic laws | compmath on sorted association lists | algebra over Q | `CompProperties.v` | proved |
| C35 | Mass and atom representations agree | `Composition::mass/atom` with and without caching | algebra over Q, simulation of the caching object | `ResourceProperties.v` | proved |
| C36 | Decay results do not depend on the path or on caching | `Composition::Decay`, decay lines, oracle solver | invariant on the decay lines | `ResourceDbProperties.v` | proved |
| C37 | Compositions are recorded once and identified uniquely | `Composition::Record`, ids | invariant over histories | `ResourceDbProperties.v` | proved |
| C38 | Buying policy never requests more than it can store | `MatlBuyPolicy`, all overloads of Init, requests and deliveries | exact post-states and arithmetic, induction over deliveries | `BuyProperties.v` | proved |
| C39 | Active/dormant cycling is well-formed | active/dormant/cumulative cycle with arbitrary sample sequences | induction over time steps | `BuyProperties.v` | proved |
| C40 | Selling policy never offers or ships more than it has | `MatlSellPolicy`, bids and trades | exact post-states; conservation from C10 and C14 | `SellProperties.v` | proved |
| C41 | Total inventory tracking | `TotalInvTracker` over several buffers | invariant over histories | `TrackerProperties.v` | proved |
| C42 | Restart reproduces the schedule and the inventory | `SimInit` snapshot and restart over the event log; `LoadResource` over the resource database | relation between the log up to the snapshot and the loaded state; refutations | `ReloadProperties.v`, `RestartProperties.v` | proved |
| C43 | In-memory query backend returns exactly the matching rows | `cyclus/memback.pyx`: Notify, registry, query, compiled-code cache | refinement to the list of recorded rows | `MemBackProperties.v` | proved |
| C44 | Query injectors restrict and never widen | query conditions, `QueryResult`, `CondInjector`, `PrefixInjector`, SQL text | functional correctness | `QueryProperties.v` | proved |
| C45 | Agent spec strings round-trip and identify archetypes | `AgentSpec` parsing, printing, table names | string lemmas | `SpecProperties.v` | proved |
| C46 | Enrichment balances mass | `toolkit/enrichment.cc` over R | algebra and calculus over R | `EnrichProperties.v` | proved |
| C47 | Piecewise functions are continuous where requested | `PiecewiseFunctionFactory` over R | algebra and limits over R | `PiecewiseProperties.v` | proved |
| C48 | Preferences come from bids or requests and are adjusted once per requester | `ExchangeContext::AddBid`, preference adjustment | exact effect | `ExchangeProperties.v` | proved |
| C49 | No trade beyond what was asked, offered and constrained | translation, solve, back-translation | composition of C17-C20 and C23 | `ExchangeProperties.v` | proved |
| C50 | Asking a material about its content | `MatQuery` and the uranium queries on top of the resource model | exact answers on every reachable world; loop invariant for `Amount`, maximality by the limiting nuclide | `MatQueryProperties.v` | proved |
| C51 | No resource operation crashes on a valid call | all operations of the resource model | partial-correctness triples excluding `UB` over an invariant on pointers, trackers and decay lines, induction over histories | `CrashProperties.v` | proved |
| C52 | The optimisation solver respects supply constraints and serves what it can | `ProgTranslator`, arc costs and pseudo-costs; the COIN solver is any feasible or any optimal solution | characterisation of the program row by row; perturbation arguments for optimal solutions; refutations with proven optima | `ProgProperties.v`, `ProgSolveProperties.v` | proved |
| C53 | Build decisions cover the demand at least cost | producers, builders, building managers, producer managers and supply-demand managers; the integer program of a build decision and the orders read from its solution; the COIN solver is an oracle | refinement of the state to predicates on the history of calls; a cheapest cover is shown to exist by cutting solutions to a finite box; orders are compared with any plan by turning the plan into a solution; induction over the orders carried out for the loop | `SupplyProperties.v` | proved |
| C54 | One resource exchange from first question to last delivery | `ExchangeManager::Execute` and `ResourceExchange` with the greedy solver: traders and agents are arbitrary functions on an arbitrary simulation state that may throw; what they do to requests and bids is a list of constructions | induction over the traders for each phase with invariants on the market, the refinement of the collected market to the reachable markets of C23/C49, composition with the trade theorems of C25 and C49; a computed run with three traders | `DreProperties.v` | proved |
| C55 | What is recorded in a SQLite file is what is read from it | `SqliteBack` and `SqliteDb` over a model of SQLite with tables, affinities, one transaction and statements that may fail and roll back at any point; XML archives of containers and conversions between storage classes are oracles | invariant of the open transaction kept by every datum (rows of each well-behaved title, FieldTypes, statement caches), induction over histories of deliveries and reopenings; read-back cell by cell; refutations by computed runs | `SqlProperties.v` | proved |
| C56 | What the input file says is what the agent gets | the schema and the C++ that `cycpp` generates for the state variables of a class, as data; a compiler check and an interpreter for that C++ over `InfileTree`; libxml2's data types, `boost::lexical_cast` and nuclide names are oracles that agree on numbers | the generated reader is shown correct by induction on the type with an invariant on scopes and declared names, and again for the compiler check; defaults likewise; classes by induction over the variables; the schema by induction on RELAX NG derivations; counterexamples for what is not served | `PpProperties.v` | proved |
| C57 | The agents a simulation starts with are those of the input file | `ParseSpecs`, `LoadSpecs`, `LoadInitialAgents` and `BuildAgent` of `XMLFileLoader` over the input trees of C56 and the contexts of C26-C32; making and configuring an archetype are oracles; user code on entering and on getting a child is any code that does not create or change agents | the context is projected to the part the loader determines; every step of the loader is shown to change that part by exactly one prototype or one agent, user code not at all; induction over the nested lists of the file; totality by an invariant (all agents exist, names found); computed example | `LoaderProperties.v` | proved |
| C58 | Flat input files give each agent once, parents first | `LoadInitialAgents` of `XMLFlatLoader`: the set of names, the table with the last write winning and the round-robin loop with its iterator | permutation invariant of the loop for correctness; a potential argument over two passes of the loop for termination; ranks taken from the creation order for the converse; computed refutations | `LoaderProperties.v` | proved |
| C59 | A saved agent comes back as it was | the six methods `cycpp` generates to clone, save and restore an agent, as lists of statements produced from the annotations as the filters do, and an interpreter for them over members that are values, resource buffers (C08-C11) and trackers; the backend returns what was recorded (C43, C55), reloaded resources are equal in class, quantity and package (C42) | emptying and refilling a buffer computed in general; each method by a pass lemma over the ordered members with a frame (one statement touches one member); capacities after the variables they name; computed refutations | `SaveProperties.v` | proved |
| C60 | A simulation runs with the settings of its input file | the settings part of `XMLFileLoader::LoadSim`, the `Add` and `Get` methods and `InitSim` of `Context`, and the settings part of `SimInit::Init` and `Restart`, over the input trees of C56 and the compositions of C37; `lexical_cast<double>`, `strtod` and nuclide names are oracles; the database returns the rows recorded (C43, C55) | each loader is computed on an element that says a setting (text lemmas for numbers and flags); the tables left are computed in closed form; recipes by an invariant on composition ids and normalised mass vectors; reloading computed on those tables; converse by the same computations; computed refutations | `ConfigProperties.v` | proved |
| C61 | A simulation of the kernel's own facilities trades what they offer and keeps what they get | `Source`, `Sink` and `KFacility` method by method over the materials of C01-C07, the inventories of C08-C11, the exchange and solver of C17-C25 and C54; a step is tick, exchange, tock; the positions of bids in their sets, the solver's float comparison and the preconditioner are arguments | the markets these facilities can post are characterised and shown to meet the hypotheses of the solver and exchange theorems; trade execution by an invariant on the facilities asked and served; a step, then induction on the number of steps with the room still needed; computed refutations | `FacProperties.v` | proved |
| C62 | The server answers every request once, stops the simulation when asked, and is never stuck | the server's action queue, monitor queue, tasks, send queue and the simulation thread's hook as a transition system whose labels say which coroutine or thread goes on next; the backend, the worker functions and the load are oracles; JSON parameters are one string | invariants of the transition system by induction on the schedule (queues, tasks and their messages, the registry, pauses); a terminating strategy for the liveness part; computed schedules and invariants for the refutations | `ServerProperties.v` | proved |
| C63 | An input file converted between XML and JSON says the same | `XmlToJson` and `JsonToXml` with their helpers over XML trees and JSON values, the `InfileTree` queries they use and JsonCpp's treatment of null; the XML text is a list of tokens shown as characters and read back by a lexer and parser without attributes and entities | the members grouped so far as an invariant of the loop over children; parsing the written tokens by induction on the JSON value with a stack of open elements; showing and lexing plain tokens is the identity; sameness by induction on the file; computed refutations | `ConvProperties.v` | proved |
| C64 | An agent's relations of commodities, recipes and resources are those last stated, also after a restart | `CommodityRecipeContext` call by call with its sets and maps as ordered lists (`operator[]` inserts), its snapshot rows and `InitFrom`; a table exists when rows were recorded in it | each call's effect on each answer, then induction on the history; snapshot and restore computed on ordered lists; computed refutations | `RecCtxProperties.v` | proved |
| C65 | Positions keep what they were given and their distances are those on a sphere | `Position`'s setters, readers and rounding over Q, `Distance` over R with the C library's `atan2`; of the text representation just the sign | rounding to the nearest tenth and millionth by floor lemmas, induction on the calls; the haversine by trigonometric identities as the angle of two unit vectors, the triangle inequality by Cauchy-Schwarz; computed refutation | `PosProperties.v` | proved |
| C66 | Warnings stop at their limit and log entries follow the settings | `Warn` with its 32-bit counters and settings; the conditions of the log macros and the logger's settings | the counter of each kind is its number of warnings modulo 2^32, by induction on the sequence; settings by induction on the history; refutations in general | `WarnProperties.v` | proved |


## What is modelled

| model | source |
|---|---|
| `CompModel` | `src/comp_math.cc` |
| `PackageModel` | `src/package.cc`, `src/package.h` |
| `ResourceModel` | `src/resource.*`, `src/material.*`, `src/product.*`, `src/res_tracker.*`, `src/composition.*` |
| `BufModel` | `src/toolkit/res_buf.h`, `src/toolkit/res_manip.cc` |
| `MapModel` | `src/toolkit/res_map.h` |
| `TrackerModel` | `src/toolkit/total_inv_tracker.h` |
| `BuyModel` | `src/toolkit/matl_buy_policy.*` |
| `SellModel` | `src/toolkit/matl_sell_policy.*` |
| `GreedyModel` | `src/exchange_graph.*`, `src/greedy_preconditioner.*`, `src/greedy_solver.*` |
| `LoadSolverModel` | `SimInit::LoadSolverInfo` in `src/sim_init.cc`, the schema in `src/xml_file_loader.cc` |
| `ExchangeModel` | `src/request.h`, `bid.h`, `request_portfolio.h`, `bid_portfolio.h`, `capacity_constraint.h`, `exchange_context.h`, `exchange_translator.h`, parts of `resource_exchange.h` and `exchange_manager.h` |
| `TradeModel` | `src/trade_executor.h` |
| `SimModel` | `src/timer.*`, `src/agent.*`, `src/facility.cc`, `src/institution.cc`, `src/region.cc`, the agent part of `src/context.*` |
| `RestartModel`, `ReloadModel` | `src/sim_init.cc` |
| `RecorderModel` | `src/recorder.*`, `src/datum.*` |
| `QueryModel` | `src/query_backend.*` (conditions, results, injectors), the query text of `src/sqlite_back.cc` |
| `MemBackModel` | `cyclus/memback.pyx` |
| `SpecModel` | `AgentSpec` in `src/dynamic_module.cc` |
| `EnrichModel` | `src/toolkit/enrichment.cc` |
| `PiecewiseModel` | `src/toolkit/symbolic_functions.*`, `src/toolkit/symbolic_function_factories.cc` |
| `MatQueryModel` | `src/toolkit/mat_query.cc`, `src/toolkit/enrichment.cc` 36-82 |
| `ProgSolveModel` | `src/prog_solver.cc` 55-93, `src/exchange_manager.h` 35-68 with that solver |
| `ProgModel` | `src/prog_translator.h/.cc`, `src/exchange_solver.cc` 12-24, 89-101, `src/prog_solver.cc` 57-98 |
| `SupplyModel` | src/toolkit/building_manager.h/.cc, builder.h, commodity_producer.h/.cc, commodity_producer_manager.h/.cc, supply_demand_manager.h/.cc |
| `DreModel` | `src/exchange_manager.h` 35-68, `src/resource_exchange.h` 61-176, `src/trader_management.h` 12-47 |
| `SqlModel` | `src/sqlite_back.h/.cc` (without conditions, 112-128), `src/sqlite_db.h/.cc` |
| `PpModel` | `cli/cycpp.py` 90-152, 489-583 (alias, uitype, schematype), 1205-1381, 1400-1640 (`InfileToDbFilter` without user-supplied code), 1660-1820 (`SchemaFilter`); `src/infile_tree.h/.cc` |
| `LoaderModel` | `src/xml_file_loader.cc` 60-82, 351-450; `src/xml_flat_loader.cc` 47-121; `src/dynamic_module.cc` 35-40; `src/infile_tree.h` 110-139 |
| `SaveModel` | `cli/cycpp.py` 99-106, 1014-1149 (`CloneFilter`, `InitFromCopyFilter`, `InitFromDbFilter`), 1858-2003 (`SnapshotFilter`, `SnapshotInvFilter`, `InitInvFilter`), without user-supplied code, shapes and base-class calls; `src/query_backend.h` 455-477 |
| `FacModel` | `agents/source.cc`; `agents/sink.cc` 15-127 (materials); `agents/k_facility.cc` 40-206 (materials); `agents/source.h` 76-110; `agents/sink.h` 68-118; `agents/k_facility.h` 140-230 |
| `ConfigModel` | `src/xml_file_loader.cc` 129-158, 190-361, 450-495; `src/context.cc` 189-321; `src/timer.cc` 268-281; `src/sim_init.cc` 25-74, 148-348; `src/infile_tree.h` 141-176 |
| `ServerModel` | `cyclus/server.py` 211-305, 381-422; `cyclus/actions.py` 18-236; `cyclus/events.pyx` 15-58; `cyclus/simstate.py` 132-139, 193-220; `src/timer.cc` 26-55 (the hook, 46-48) |
| `ConvModel` | `src/toolkit/infile_converters.cc` 15-162; `src/infile_tree.cc` 42-117; `src/pyne.cc` 15536-15538, 15713-15721 (JsonCpp) |
| `RecCtxModel` | `src/toolkit/commodity_recipe_context.h` 52-102, `src/toolkit/commodity_recipe_context.cc` 9-98; `src/cyc_std.h` 20-24 |
| `PosModel` | `src/toolkit/position.cc` 10-82, 106-111, 161-169 |
| `WarnModel` | `src/error.h` 83-141, `src/error.cc` 13-34; `src/logger.h` 35-63, 85-113, `src/logger.cc` 8-15, 43-65 |

## What is not modelled

* input files written in Python, RelaxNG validation, and the parsing of C++ by the preprocessor `cycpp` (what it generates is modelled, C56 and C59);
* the storage of the HDF5 and CSV backends; SQLite is a model of tables, transactions and failing statements (C55), other backends are what they are told, or an oracle;
* the CBC solver: any feasible or any optimal solution of its program (C52);
* the web page and Jupyter front ends, `cymetric`-style analysis, the command line;
* dynamic loading of modules, the text of log entries, environment lookup, units of measure;
* the random number generator and its distributions as such: their samples are arguments;
* PyNE: atomic masses, decay constants and the CRAM solver are arguments;
* rounding of doubles;
* concurrency other than the server's coroutines and threads (C62): the tickers of one step run in sequence, as without OpenMP.

The simplifications made inside a model are stated at the head of its file and at each definition.

## Findings

Behaviour of the code at the pinned commit that contradicts the documentation or the obvious
expectation. Each item is a theorem with the execution as witness, unless marked "by reading".

Resources and compositions
* A product extracted from an untracked product has a tracker without a context; extracting from it dereferences a null pointer (`C01_untracked_product_refuted`).
* A resource absorbing itself destroys its quantity (`C02_self_absorb_refuted`).
* Absorbing an untracked resource, or extracting from a clone, writes parent ids that no row has (`C06_absorb_untracked_refuted`, `C06_clone_refuted`).
* Unpackaging a material is not recorded (`C07_unpackaging_refuted`).
* `Material::ChangePackage` checks the limits of the package being left (`C15_material_limits_refuted`).
* The decay cache ignores the step length (`C36_step_length_refuted`).
* `Material::Transmute` records the material before it updates the last decay time, so a reload continues from an older time (`C42_decay_time_refuted`).

Buffers, maps, trackers
* A full buffer accepts any number of resources below the tolerance (`C08_capacity_refuted`).
* A vector listing an object twice is accepted (`C08_duplicate_refuted`).
* `Pop(0)` throws, and popping across product qualities throws after removing the resources (`C10_pop_throws_refuted`).
* A bulk product buffer may throw half way through a vector (`C11_all_or_nothing_refuted`).
* `ResMap::quantity` is stale after a change through a retained pointer, and reading an absent key leaves a null pointer (`C12_stale_refuted`, `C12_null_refuted`).
* `TotalInvTracker`: a refused Init keeps the new buffers, non-positive capacities are accepted later, a buffer listed twice counts twice (three `C41_..._refuted`).

Packages and transport units
* With the default minimum 0, strategy "equal" converts an infinite double to int; so does packaging nothing with "first" (`C13_..._refuted`).
* Transport units with the default limits divide by zero or overflow, and "first" may ship nothing although a legal load exists (`C16_..._refuted`).

Exchange
* A zero unit capacity can hide another constraint through a NaN (`C17_zero_unit_refuted`).
* Of several constraints on a request group only the loosest is respected (`C18_every_constraint_refuted`).
* Exclusive node groups are ignored by the greedy solver (`C19_same_object_refuted`).
* Commodity priorities never reach the solver: the loader asks for a column that the schema calls differently (`C22_..._refuted`).
* Mutual requests are weighted by the inverse of the documented weights (`C24_..._refuted`).
* A response to a requester without trades is recorded but not delivered (`C25_recorded_is_delivered_refuted`).
* By reading: `Arc::operator=` (`exchange_graph.h` 78-84) does not copy the preference.

Simulation kernel
* Registering twice gives two ticks; unregistering in one's own tick makes the next listener miss its tick (`C27_..._refuted`).
* A queued build keeps a pointer to a parent that may be gone (`C28_parent_gone_refuted`).
* Orders given during the decommissioning phase for the same step are lost; postponing is ignored (`C29_..._refuted`).
* `lifetime_force` raises in the case it is documented for (`C30_lifetime_force_refuted`).
* Institutions and regions are counted when they leave but not when they enter; rebuilding an agent leaves it with its former parent (`C31_..._refuted`).
* By reading: `GetTreePrintOuts` does not terminate when a child lists its ancestors; `Connect` does not remove the agent from its old parent.

Restart
* An agent that outlives its parent makes every later restart loop forever (`C42_orphan_hangs`, `C42_parents_alive_refuted`).
* An order to decommission an agent that is not alive at the snapshot crashes the restart (`C42_unknown_agent_crashes`, `C42_later_lifetimes_refuted`).
* A build due at the snapshot time is lost, an order given later is restored, an exit before the first snapshot breaks reading (`C42_build_due_refuted`, `C42_later_order_refuted`, `C42_early_exit_refuted`).
* Packages are lost and used-up materials come back full (`C42_package_refuted`, `C42_used_up_refuted`).
* By reading: EnterNotify runs with time 0 during a restart; restart without AgentEntry rows is an IOError.

Policies
* The cumulative cap does not count deliveries into a bulk buffer (`C38_bulk_cap_refuted`).
* An active period of length zero, or a second Init, breaks the cycle (`C39_zero_length_refuted`, `C39_reinit_refuted`).
* The sell policy: transport unit not enforced without packaging, delivered composition differs from the one bid, extra packages of one trade are lost (`C40_..._refuted`).
* By reading (buy policy): a NULL tracker uses an uninitialised pointer; quantising an unlimited amount overflows; a portfolio without commodities divides by zero; a cap given for a buffer of capacity 0 switches the cap off; missing the step at which dormancy ends leaves the policy active for ever.
* By reading (sell policy): `set_package` takes the front of an empty vector when the quantum is below the package minimum; leftovers up to the tolerance are dropped.

Output
* Changing the dump count with data in the buffer loses or corrupts them; a dump count of 0 is undefined; an unfinished datum is delivered with the batch; a failing backend takes the batch from those after it (five `C33_..._refuted`).
* `memback.pyx`: narrowing the registry keeps stale tables, an empty list of conditions is an error, a column named like `val1` loses rows (three `C43_..._refuted`).
* An injector with nothing to inject breaks unconditional queries; the prefix is not applied to schema queries (two `C44_..._refuted`).
* By reading: `SqliteBack::Notify` commits part of a batch when an insertion fails.

Other
* `AgentSpec`: a missing alias stays empty in one constructor; distinct archetypes can share tables (`C45_..._refuted`).
* The enrichment value function has no value at 0 although documented on [0, 1) (`C46_value_at_zero_refuted`).
* By reading (`random_number_generator.h`): the Poisson distributions are built from an uninitialised member, `BinaryDoubleDist` never sets its probability, `NormalDoubleDist` throws for min = max.
- `MatQuery::mass_frac(std::set<Nuc>)` divides by the quantity: for a material emptied to 0 it returns NaN although every single-nuclide fraction is defined (C50, `C50_nuclide_sets`).
- The program of `ProgTranslator` has no row for the quantity of a bid: only the constraints of its portfolio limit it. A bid of 5 in an unconstrained portfolio is matched with 10 in the (proven) optimum (C52, `C52_bid_offer_refuted`); the greedy solver caps it at 5.
- Each arc of a request is bounded by the request's quantity, their sum is not: within a portfolio of two requests of 10, one request gets 20 in the optimum (C52, `C52_request_refuted`).
- With exclusive orders, two exclusive bids of 7 fill a request of 10 with 14 in the optimum (C52, `C52_exclusive_overfill_refuted`): over-satisfying costs less than the pseudo-cost of leaving 3 unmet.
- With exclusive orders switched off, an exclusive bid whose exclusive value is 0 makes the pseudo-cost of unmet demand infinite (`ProgProofs5.o5_infinite`).
- `memback` builds one frame per table and delivery with the field names of the first datum: a later datum of the same delivery that lists the same fields in another order has its values filed under the wrong columns (C43, `C43_mixed_order_refuted`). Across deliveries the columns are matched by name (`C43_fields`).
- `CommodityProducer::Capacity` and `Cost` use `operator[]`: asking about a commodity that is not produced makes the producer a producer of it, with capacity 0 and the cost limit (C53, `C53_ask_refuted`); the same holds for `SupplyDemandManager::DemandFunction`, and `Demand` dereferences the null function it makes.
- `BuildingManager` maps a producer to the last builder that has it: of two builders sharing a producer only one ever gets orders, and it may get two orders for the same producer (C53, `C53_shared_producer_refuted`).
- `BuildingManager::Solve_` truncates the solution to int and does not look at the solver's status: a value a billionth below an integer loses a whole unit (C53, `C53_truncation_refuted`), and an infeasible program (no capacity on offer, `C53_solvable`) yields whatever the solver left behind. Without any producer on offer it takes the address of the first element of empty vectors (`C53_no_offer_undefined`).
- Traders are asked for requests and bids in the order of agent ids, which the code says is to make runs repeatable, but `AdjustAll` copies the requesters to a plain `std::set<Trader*>`: preferences are adjusted in the order of addresses (C54, `C54_adjust_order_refuted`). The same holds for the order in which portfolios of one trader enter the exchange.
- `SqliteBack::Notify` handles only `ValueError`. A value of another type than the first datum of its title had (`bad_any_cast`), or a failing statement, leaves the transaction open: every later `Notify` fails with IOError and everything recorded since is lost (C55, `C55_stuck`, `C55_later_refuted`).
- On `ValueError` it commits what was written before the bad datum, so a refused delivery is partly stored (C55, `C55_all_or_nothing_refuted`).
- `SqliteBack::CreateTable` remembers the table name before creating the table, and leaves rows in FieldTypes when a later field has an unsupported type: later data of that title, although in order, fail in `Prepare` and block the backend (C55, `C55_again_refuted`).
- SQLite stores NaN as NULL, which is read as 0; texts are bound as C strings and cut at the first NUL (C55, `C55_exact_refuted`, `C55_cut`).
- Values go into a SQLite table by position, not by field name, and a datum with fewer fields than the first of its title is stored with NULLs; two titles that differ only in case share a table in SQLite but not in `tbl_names_` (`SqlModel.insert_row`, hypotheses of C55).
- `cycpp` asks `NMatches` for the Python list `['name','item']` when a sequence contains maps: such a variable is accepted by the schema and the reader compiles, but every input is refused with an XPath error (C56, `C56_sequence_of_maps_refuted`).
- The reader generated for a pair in a pair declares `first0` twice in nested scopes that hide each other and does not compile; neither does a default for a vector of vectors, a map of maps or a pair of pairs (C56, `C56_pair_in_pair_refuted`, `C56_nested_default_refuted`).
- A bool written `true` passes the schema and fails in `lexical_cast`; so does a value with a comment beside it and an empty text (`GetString` wants exactly one child node) (C56, `C56_flag_written_true_refuted`, `C56_comment_in_value_refuted`, `C56_empty_text_refuted`).
- The generated `InfileToDb` declares `int i; int n;`: a state variable with one of these names is read into the local variable, a double is silently cut to an integer (C56, `C56_variable_called_n_refuted`).
- An alias equal to the variable's own name overwrites the variable by a pointer to itself: it disappears from the schema, the reader and the database (C56, `C56_alias_equal_to_name_refuted`).
- `ParseSpecs` drops a specification whose `path:lib:agent` it has seen, whatever its alias: an archetype declared twice under different aliases is unknown under the second (C57, `C57_second_alias_refuted`).
- The flat loader walks round and round the set of agents whose parent is not yet built: a parent that is not in the file, or a circle of parents, makes loading run for ever without a message (C58, `C58_missing_parent_never_ends_refuted`).
- In the flat format a second `agent` element of the same name silently replaces the first (C58, `C58_each_element_an_agent_refuted`).
- The generated `SnapshotInv` empties each `ResBuf` and pushes everything back at once: a buffer that crumbs of at most `eps_rsrc` have taken past its capacity (C08) cannot be refilled, so taking a snapshot throws and the inventory is lost (C59, `C59_snapshot_of_overfull_buffer_refuted`).
- A capacity set at run time is not saved; the restored buffer gets the annotated capacity (1e300 without one), and a content larger than that makes the restart fail (C59, `C59_changed_capacity_refuted`).
- The limit of a `TotalInvTracker` member is neither cloned nor saved, and cloning throws unless the constructor gave the tracker its buffers (C59, `C59_tracker_limit_refuted`).
- For a `ResMap` member `SnapshotInv` saves the content, but `InitInv` tests `t in BUFFERS` where the others test the template's name and never restores it; `InitFrom(copy)` shares the resources with the clone (C59, `C59_resource_map_refuted`).
- Only `XMLFileLoader` sets `cy_eps` and `cy_eps_rsrc`; `SimInit` reads the recorded tolerances into `SimInfo` but never puts them in force, so a restarted simulation (new process) computes with 1e-6 whatever the file said (C60, `C60_restart_tolerances_refuted`).
- `LoadTransportUnits` takes the optional `fill_max` as a double with default `DBL_MAX` and passes it as `int`: undefined behaviour for every transport unit without `fill_max` (C60, `C60_unit_without_limit_refuted`).
- A transport unit called `unrestricted` is accepted by the loader (the singleton does not exist yet, unlike `unpackaged`), recorded with its limits, and silently replaced by the unlimited one (C60, `C60_reserved_unit_refuted`).
- An unknown preconditioner name is never reported: reading the column `SolutionOrder` throws first and the handler returns NULL (C22, C60).
- A `Sink` with several `in_commods` asks for its full `capacity` of each of them, and the portfolio's capacity constraint does not stop it from getting all (of several constraints on a request group the solver ignores the tighter ones, `C18_every_constraint_refuted`; here the looser one is the total of the requests): it receives more than its capacity in one step (C61, `C61_sink_capacity_refuted`).
- `Sink` and `KFacility` never look at the space left in their inventory when requesting: once it is full the next delivery makes `Push` throw and the simulation ends (C61, `C61_full_sink_refuted`).
- A `Source` with `capacity` 0 throws from `CapacityConstraint` as soon as its commodity is requested, ending the simulation, instead of offering nothing (C61, `C61_zero_source_refuted`).
- Server: pause goes on the action queue and unpause on the monitor queue, so an unpause sent after a pause can be performed before it; the simulation then stays paused until another unpause is sent (C62, `C62_unpause_refuted`).
- Server: a second pause overwrites `state.tasks['pause']`, so the first one is never cancelled; the action consumer waits for it for ever and nothing is done any more (C62, `C62_two_pauses_refuted`).
- Server: `action_consumer` awaits all staged tasks, a pause among them, so no request made during a pause is begun until it is lifted (C62, `C62_paused_requests_refuted`).
- Server: the hook looks for `state.tasks['pause']` and for an empty action queue; a repeating pause that has been taken from the queue but whose coroutine has not run yet is not seen, and the time step ends (C62, `C62_repeating_pause_refuted`).
- Server: `register_tables` and `deregister_tables` call `send_registry()` without its argument, so the registry event their documentation promises is never sent (C62, `C62_registration_refuted`).
- Server: `shutdown` waits while `qsize() > 1`, so with `when: "empty"` one action may be left undone (C62, `C62_shutdown_refuted`).
- Server: a shutdown "when empty" is awaited by the monitor; behind a pause with two requests waiting it never ends, and the unpause that would release it is never performed (C62, `C62_shutdown_paused_refuted`).
- Server: when a handler is left by an exception or a lost connection its `get_send_data` task is not cancelled and swallows the next message (C62, `C62_reconnect_refuted`).
- Server: the monitor does not catch exceptions of its actions; an unpause with parameters ends the server (C62, `C62_bad_unpause_refuted`).
- Server: `load` does not look at the result of its worker task and always reports "ok" (C62, `C62_loaded_refuted`).
- Server: `main` starts `state.run` before anything is loaded and the `load` action only loads, so the simulation is never run (C62, `C62_never_runs_refuted`).
- Converters: of several elements of one name, an empty first one is lost (null counts as an array in JsonCpp), an empty later one makes the XML malformed (C63, `C63_empty_repeated_refuted`); an empty array becomes a nested element (C63, `C63_empty_array_refuted`).
- Converters: a comment beside a text makes the text disappear; a comment alone makes the conversion throw (C63, `C63_comment_refuted`).
- Converters: markup characters in texts are not escaped (C63, `C63_markup_refuted`); white space is added to a text after an element of the same name that has elements in it (C63, `C63_mixed_refuted`).
- `CommodityRecipeContext`: without input commodities it cannot be restored (C64, `C64_empty_refuted`); recipes of commodities not added and replaced output commodities are lost (C64, `C64_lost_refuted`); `operator==` compares the sets by size only (C64, `C64_equal_refuted`); a question about an unknown resource changes the context (C64, `C64_question_refuted`).
- `Position`: a latitude or longitude of zero is written with a minus sign (C65, `C65_sign_refuted`).
- `Logger::SetNoMem` (used by `--no-mem` of the Python command line) sets `no_agent`: agent entries disappear, memory entries stay (C66, `C66_no_mem_refuted`).
- Warnings: after 2^32 warnings of a kind its counter starts again and they are printed again (C66, `C66_wrap_refuted`).

## Trusted base

* The kernel of Coq 8.16.1 (and of its `vm_compute`, used for concrete examples).
* The reading of the source by hand, including the simplifications stated in the model files.
* The statements in the `*Properties.v` and `*Spec.v` files.
* No axiom is declared in the development. No kernel check is switched off. There are no functors and
  no module types.
* The axioms below come from the standard library's real numbers and are used by the theorems over R
  only. `coqchk` and `vcheck` also list opaque module fields of loaded libraries
  (`Coq.ssr.ssrunder.Under_rel.*`, `Coq.Reals.Rdefinitions.RbaseSymbolsImpl.*`); these are
  definitions hidden behind a signature, not axioms.

What `Print Assumptions` reports:

Theorems not listed here are closed under the global context.

* `C46_amounts`: ClassicalDedekindReals.sig_forall_dec, FunctionalExtensionality.functional_extensionality_dep
* `C46_balance`: ClassicalDedekindReals.sig_forall_dec, FunctionalExtensionality.functional_extensionality_dep
* `C46_no_contrast`: ClassicalDedekindReals.sig_forall_dec, FunctionalExtensionality.functional_extensionality_dep
* `C46_swu`: ClassicalDedekindReals.sig_forall_dec, ClassicalDedekindReals.sig_not_dec, Classical_Prop.classic, FunctionalExtensionality.functional_extensionality_dep
* `C46_swu_is_value_added`: ClassicalDedekindReals.sig_forall_dec, ClassicalDedekindReals.sig_not_dec, Classical_Prop.classic, FunctionalExtensionality.functional_extensionality_dep
* `C46_value`: ClassicalDedekindReals.sig_forall_dec, ClassicalDedekindReals.sig_not_dec, Classical_Prop.classic, FunctionalExtensionality.functional_extensionality_dep
* `C46_value_at_zero_refuted`: ClassicalDedekindReals.sig_forall_dec, ClassicalDedekindReals.sig_not_dec, Classical_Prop.classic, FunctionalExtensionality.functional_extensionality_dep
* `C47_basic_components`: ClassicalDedekindReals.sig_forall_dec, ClassicalDedekindReals.sig_not_dec, FunctionalExtensionality.functional_extensionality_dep
* `C47_before`: ClassicalDedekindReals.sig_forall_dec, FunctionalExtensionality.functional_extensionality_dep
* `C47_continuous`: ClassicalDedekindReals.sig_forall_dec, FunctionalExtensionality.functional_extensionality_dep
* `C47_continuous_everywhere`: ClassicalDedekindReals.sig_forall_dec, FunctionalExtensionality.functional_extensionality_dep
* `C47_curve`: ClassicalDedekindReals.sig_forall_dec, FunctionalExtensionality.functional_extensionality_dep
* `C47_past`: ClassicalDedekindReals.sig_forall_dec, FunctionalExtensionality.functional_extensionality_dep
* `C47_refusal`: ClassicalDedekindReals.sig_forall_dec, FunctionalExtensionality.functional_extensionality_dep
* `C47_shape`: ClassicalDedekindReals.sig_forall_dec, FunctionalExtensionality.functional_extensionality_dep
* `C47_unshifted`: ClassicalDedekindReals.sig_forall_dec, FunctionalExtensionality.functional_extensionality_dep
* `C65_great_circle`: ClassicalDedekindReals.sig_forall_dec, ClassicalDedekindReals.sig_not_dec, Classical_Prop.classic, FunctionalExtensionality.functional_extensionality_dep
* `C65_metric`: ClassicalDedekindReals.sig_forall_dec, ClassicalDedekindReals.sig_not_dec, Classical_Prop.classic, FunctionalExtensionality.functional_extensionality_dep

