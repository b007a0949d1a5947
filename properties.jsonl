{"id": "C01", "title": "Extracting from a resource conserves its quantity", "statement": "When ExtractQty/ExtractComp/Extract on a material or product with quantity Q is asked for q, then either it throws and neither the resource, nor any other resource, nor the output database changes, or it returns a new object holding exactly q and the source holds exactly Q - q, and no other live resource changes quantity or quality. It throws exactly when q exceeds Q (or, for a different composition, when the remaining composition would be negative).", "quantifier": "every resource state, every requested quantity (including zero and negative), every composition, every world of other live resources", "why_tests_cant": "The claim ranges over all real quantities, all compositions and all states of the rest of the world; tests check a handful of numbers.", "anchors": ["src/material.cc: Material::ExtractQty, Material::ExtractComp", "src/product.cc: Product::Extract"]}
{"id": "C02", "title": "Absorbing a resource moves its whole quantity", "statement": "After a.Absorb(b) with a and b distinct objects, a holds the old quantity of a plus that of b, b holds zero, and every other resource is untouched; the sum over all live resources is unchanged. A product absorb of a different quality throws and changes nothing. Absorbing an object into itself destroys its quantity.", "quantifier": "every pair of resources, all quantities and compositions, every decay mode", "why_tests_cant": "Aliasing, decay mode and composition identity multiply the cases beyond what examples can enumerate.", "anchors": ["src/material.cc: Material::Absorb", "src/product.cc: Product::Absorb"]}
{"id": "C03", "title": "Nuclide-wise mass balance of mixing and extraction", "statement": "Mixing two materials gives a material in which the mass of every nuclide is the sum of its masses in the two inputs; extracting a different composition with threshold zero leaves for every nuclide exactly the input mass minus the extracted mass; with a positive threshold the per-nuclide discrepancy before renormalisation is at most the threshold.", "quantifier": "every nuclide, every pair of compositions with positive mass, all quantities", "why_tests_cant": "Per-nuclide balance is a statement over all composition vectors (unbounded maps).", "anchors": ["src/material.cc: Material::Absorb, Material::ExtractComp", "src/comp_math.cc: Add, Sub, Normalize, ApplyThreshold"]}
{"id": "C04", "title": "Mass is conserved over whole resource histories", "statement": "Starting from an empty world, after any sequence of create, extract, absorb, package, re-package, transmute and decay operations (failed ones included), the total quantity of all live resources equals the total quantity supplied by the create operations.", "quantifier": "every finite history of resource operations on any number of resources", "why_tests_cant": "Requires an induction over unbounded histories.", "anchors": ["src/material.cc", "src/product.cc", "src/res_tracker.cc", "src/resource.cc"]}
{"id": "C05", "title": "Resource state ids and object ids are never reused", "statement": "No two Resources rows ever carry the same ResourceId, object ids of different resource objects differ for ever, and the object id of a resource never changes, whatever operations are applied.", "quantifier": "every history of resource operations", "why_tests_cant": "Uniqueness over the life of a simulation is a universally quantified history property.", "anchors": ["src/resource.h: Resource::Resource, state_id, obj_id", "src/resource.cc: BumpStateId", "src/res_tracker.cc: ResTracker::Record"]}
{"id": "C06", "title": "The Resources table is a well-founded provenance graph", "statement": "Each Resources row has parents that are 0 or the ResourceId of a row written earlier (so the ancestry graph is acyclic), a row without parents is written only when a resource is created, and a resource created untracked never writes a row.", "quantifier": "every history of tracked and untracked resource operations", "why_tests_cant": "Acyclicity of an unbounded graph produced by arbitrary histories.", "anchors": ["src/res_tracker.cc: Create, Modify, Extract, Absorb, Package, Record"]}
{"id": "C07", "title": "The Resources table agrees with the live inventory", "statement": "At any moment, for every tracked live resource with quantity above eps_rsrc, the most recent Resources row with its ObjId carries its current state id, quantity, quality and package name.", "quantifier": "every live tracked resource after every history of operations", "why_tests_cant": "Must hold after every prefix of every history; tests look at the end of a few.", "anchors": ["src/res_tracker.cc: ResTracker::Record", "src/material.cc: ChangePackage", "src/product.cc: ChangePackage"]}
{"id": "C08", "title": "Resource buffer quantity accounting", "statement": "After any sequence of successful and failed pushes and pops on a ResBuf, quantity() is exactly the sum of the quantities of the contained objects, count() is their number, no object is contained twice (provided no single vector push lists one object twice); space() is never negative; a push never takes quantity() more than eps_rsrc above the larger of capacity() and the previous quantity(), so if no push is of eps_rsrc or less, quantity() exceeds capacity() by at most eps_rsrc.", "quantifier": "every sequence of buffer operations with any arguments, bulk and non-bulk buffers", "why_tests_cant": "The running total is maintained incrementally, so only an invariant over all histories shows it never drifts.", "anchors": ["src/toolkit/res_buf.h: Push, Pop, PopVector, PopN, PopBack, capacity, UpdateQty"]}
{"id": "C09", "title": "Resource buffers are first-in first-out", "statement": "Non-bulk pops return objects in exactly the order they were pushed: Pop/PopN/PopVector return a prefix of the queue (the last element possibly split, its remainder staying at the front), PopBack returns the newest, and pushes append.", "quantifier": "all interleavings of pushes and pops", "why_tests_cant": "Refinement to an abstract queue for every operation sequence.", "anchors": ["src/toolkit/res_buf.h"]}
{"id": "C10", "title": "Popping a quantity returns exactly that quantity", "statement": "Pop(q) for 0 < q <= quantity() on a content that can be mixed (materials, or products of one quality) returns a resource of exactly q and lowers quantity() by exactly q, and the total over the buffer and the returned resource is unchanged; PopVector(q) returns a list totalling q; asking for more than is present throws and changes nothing.", "quantifier": "every buffer content and every q", "why_tests_cant": "All real q and all contents.", "anchors": ["src/toolkit/res_buf.h: PopVector, Pop(double), Pop(double,double)", "src/toolkit/res_manip.cc: Squash"]}
{"id": "C11", "title": "Pushing to a buffer is all-or-nothing", "statement": "A push (of one object or of a vector of distinct objects that, for a bulk buffer, can be mixed) either throws and leaves buffer and resources unchanged, or adds every given object; it throws exactly when an object has the wrong type, the total would exceed the space by more than eps_rsrc, or an object is already present.", "quantifier": "every buffer, every vector of resources without repetition (repetition is shown to break the buffer)", "why_tests_cant": "Includes repeated elements in one vector and failure in the middle of a vector, which example tests miss.", "anchors": ["src/toolkit/res_buf.h: Push(Resource::Ptr), Push(std::vector<B>)"]}
{"id": "C12", "title": "ResMap quantity is never stale with respect to the map itself", "statement": "After any sequence of ResMap operations, quantity() equals the sum of the quantities the contained resources have now, as long as contained resources are only changed while the map is open for change (through operator[] or an iterator); Pop removes exactly one key; obj_ids/Values restore the same map.", "quantifier": "all histories of map operations", "why_tests_cant": "Cache invalidation bugs appear only under particular operation orders.", "anchors": ["src/toolkit/res_map.h: quantity, operator[], erase, Pop, Values, UpdateQuantity"]}
{"id": "C13", "title": "Package fills respect the package limits", "statement": "GetFillMass(q) returns fills that each lie between fill_min (less eps_rsrc) and fill_max and sum to at most q; what is left over is below max(eps_rsrc, fill_min); it returns no package only when q is below fill_min; strategy 'equal' leaves nothing when enough minimum fills fit.", "quantifier": "every quantity, all limits, all strategies, every random sample sequence", "why_tests_cant": "All real quantities and limits and all random streams.", "anchors": ["src/package.cc: Package::GetFillMass", "src/package.h: ExceedsSplitLimits"]}
{"id": "C14", "title": "Packaging a resource conserves mass and respects limits", "statement": "Resource::Package(pkg) returns packaged resources whose quantities plus the remainder equal the original quantity, each named after the package and within its limits; it never throws because of an over-draw.", "quantifier": "every resource, every package and strategy", "why_tests_cant": "Composition of fill computation and extraction over all quantities.", "anchors": ["src/resource.h: Resource::Package", "src/material.cc: PackageExtract", "src/product.cc: PackageExtract"]}
{"id": "C15", "title": "Re-packaging checks the limits of the target package", "statement": "ChangePackage(p) to a real package succeeds only if the quantity lies within the fill limits of p.", "quantifier": "every resource quantity and every pair of packages", "why_tests_cant": "Depends on the combination of old and new package limits.", "anchors": ["src/material.cc: Material::ChangePackage", "src/product.cc: Product::ChangePackage"]}
{"id": "C16", "title": "Transport units ship only full, legal loads", "statement": "MaxShippablePackages(n) is between 0 and n and equals a sum of loads each between fill_min and fill_max; for the unrestricted unit it is n; no fill between 1 and n makes the computation divide by zero.", "quantifier": "every package count and every transport unit definition", "why_tests_cant": "All integers, including limits where the division is undefined.", "anchors": ["src/package.cc: TransportUnit::GetTransportUnitFill, MaxShippablePackages"]}
{"id": "C17", "title": "The greedy solver respects every supply capacity", "statement": "In the matches returned by the greedy exchange solver, for every bid group and each of its capacity constraints, the sum of matched quantity times the unit capacity of the arc does not exceed the constraint (up to the comparison tolerance of exclusive orders), provided unit capacities are positive; solving such a graph never throws. (A zero unit capacity on an exhausted constraint yields 0/0 and voids the bid's other limits.)", "quantifier": "every exchange graph: any number of groups, nodes, arcs, capacities, preferences, exclusivity flags", "why_tests_cant": "The solver mutates shared capacities while iterating; correctness is an invariant over all graphs.", "anchors": ["src/greedy_solver.cc: SolveGraph, GreedilySatisfySet, Capacity, UpdateCapacity"]}
{"id": "C18", "title": "The greedy solver never over-satisfies a request", "statement": "For every request group the total matched quantity is at most the requested quantity, and for every request node at most its node quantity; if the group has a single capacity constraint (as every translated portfolio without extra constraints has) that constraint holds, and of several constraints at least one holds. (The others may be exceeded.)", "quantifier": "every exchange graph", "why_tests_cant": "As above, for the demand side.", "anchors": ["src/greedy_solver.cc: GreedilySatisfySet", "src/exchange_graph.h: ExchangeNode, RequestGroup"]}
{"id": "C19", "title": "Exclusive trades are all or nothing", "statement": "A match on an exclusive arc carries exactly the arc's exclusive quantity, never part of it; and an exclusive request node and an exclusive bid node are each matched at most once. (Different exclusive bids of the same object are not kept apart.)", "quantifier": "every exchange graph with any mix of exclusive and divisible arcs", "why_tests_cant": "Interaction of exclusivity with capacity updates across all graphs.", "anchors": ["src/greedy_solver.cc: GreedilySatisfySet", "src/exchange_graph.h: Arc, ExchangeNodeGroup::excl_node_groups"]}
{"id": "C20", "title": "Greedy matching prefers better trades and leaves nothing feasible unmatched", "statement": "Within a request group arcs are tried in decreasing preference (average node preference first); when solving ends with a request group unsatisfied, every divisible arc of that group with positive preference has no capacity left on its supply or demand side.", "quantifier": "every exchange graph", "why_tests_cant": "Maximality must hold for all graphs.", "anchors": ["src/greedy_solver.cc: GreedilySatisfySet, AvgPrefComp, ReqPrefComp"]}
{"id": "C21", "title": "Preconditioning only reorders", "statement": "Conditioning a graph changes neither the set of request groups nor the set of nodes in each group, and orders groups by decreasing weight; commodity weights come from the declared priorities.", "quantifier": "every graph and every weight assignment", "why_tests_cant": "All permutations and weights.", "anchors": ["src/greedy_preconditioner.cc", "src/greedy_preconditioner.h"]}
{"id": "C22", "title": "Declared commodity priorities reach the solver", "statement": "If the input file declares solution priorities for commodities then the solver created for the simulation orders requests according to them.", "quantifier": "every input with commodity priorities", "why_tests_cant": "It is an end-to-end property across the loader, the database and the initialiser.", "anchors": ["src/xml_file_loader.cc: LoadSolver, ProcessCommodities", "src/sim_init.cc: LoadPreconditioner"]}
{"id": "C23", "title": "Exchange translation loses nothing", "statement": "Translating an exchange context gives a graph with one node per request and per bid and one arc per bid with positive preference, whose capacities are those of the portfolios' constraints evaluated on the offers; back-translation maps each match to the trade for exactly that request, bid and amount.", "quantifier": "every exchange context", "why_tests_cant": "Bijection between unbounded structures.", "anchors": ["src/exchange_translator.h: Translate, BackTranslateSolution, AddRequest/AddBid", "src/exchange_translation_context.h"]}
{"id": "C24", "title": "Mutual requests count as one demand", "statement": "Requests added with AddMutualReqs can never be satisfied for more than the portfolio quantity in total, where each request's contribution is weighted as documented.", "quantifier": "every set of mutually satisfying requests and every feasible allocation", "why_tests_cant": "All weights and allocations.", "anchors": ["src/request_portfolio.h: AddMutualReqs, DefaultConstraint"]}
{"id": "C25", "title": "Executed trades are exactly the solved trades", "statement": "Trade execution asks each supplier exactly once for exactly its own trades and hands each requester exactly once all responses for its own trades; each trade yields one Transactions row with a fresh transaction id and the real supplier and requester.", "quantifier": "every list of trades over any set of traders", "why_tests_cant": "Grouping and ordering over arbitrary trade lists.", "anchors": ["src/trade_executor.h: ExecuteTrades, GroupTradesBySupplier, GetTradeResponses, SendTradeResources, RecordTrades"]}
{"id": "C26", "title": "Every time step runs its phases in the documented order", "statement": "In each time step the kernel performs build, tick, resource exchange, tock, decision and decommission in this order, each exactly once, for consecutive times from the start time up to the duration (or until a kill is requested, which ends the run after the current step).", "quantifier": "every simulation length, every set of listeners, every schedule of kill and snapshot requests", "why_tests_cant": "Any interleaving of agent actions during the phases.", "anchors": ["src/timer.cc: RunSim, DoBuild, DoTick, DoResEx, DoTock, DoDecision, DoDecom"]}
{"id": "C27", "title": "Registered agents tick and tock exactly once per step", "statement": "In every tick (tock) phase in which nobody unregisters, each registered time listener is called once per registration: Python agents first, then the others, each group in the order of registration, agents that register during the phase included (the Python ones from the next phase on). In the decision phase each listener is called exactly once, in ascending id order. Nobody is called who is not registered at that moment.", "quantifier": "every history of registration, unregistration, building and decommissioning", "why_tests_cant": "All histories, including double registration.", "anchors": ["src/timer.cc: RegisterTimeListener, UnregisterTimeListener, DoTick, DoTock", "src/time_listener.h"]}
{"id": "C28", "title": "Scheduled builds happen exactly once, at their time", "statement": "A build scheduled for a future time t is executed in step t exactly once with the given parent and prototype, in scheduling order; scheduling at or before the current time is rejected without effect.", "quantifier": "every history of scheduling calls from any phase", "why_tests_cant": "All schedules.", "anchors": ["src/timer.cc: SchedBuild, DoBuild", "src/context.cc: SchedBuild"]}
{"id": "C29", "title": "Scheduled decommissions happen exactly once", "statement": "Each agent has at most one pending decommission (the last one scheduled wins): the decommission phase of step t decommissions exactly the agents whose last order before that phase is for t, each exactly once, in the order of those orders; an agent leaves at most once; scheduling in the past is rejected without effect.", "quantifier": "every history of scheduling calls from any phase including from within the decommission phase", "why_tests_cant": "The removal list is edited while it is processed; only some histories show it.", "anchors": ["src/timer.cc: SchedDecom, DoDecom, RemovePendingDecom", "src/context.cc: SchedDecom"]}
{"id": "C30", "title": "Agent lifetimes are respected", "statement": "An agent with lifetime L built at time t has exit time t+L-1; in each step the default institution orders, for that same step, the decommissioning of exactly those children whose exit time has come (facilities only if they agree) and never of an agent with lifetime -1; an ordered agent leaves at the end of that step, and an agent that entered is present until it leaves; the lifetime setter is refused after deployment.", "quantifier": "every build time and lifetime, every behaviour of CheckDecommissionCondition", "why_tests_cant": "All times and lifetimes.", "anchors": ["src/agent.cc: Build, exit_time, lifetime_force", "src/institution.cc: Institution::Tock"]}
{"id": "C31", "title": "The agent hierarchy is a forest and counters agree with it", "statement": "If no agent is built twice and parents are built before their children, then at all times parent and child links are mutual and acyclic; agent ids are always unique and increasing; and the per-prototype and per-spec counts reported by the context equal the numbers of facilities and plain agents that entered and have not left.", "quantifier": "every history of agent construction, building and decommissioning for every agent kind", "why_tests_cant": "All histories and kinds of agents.", "anchors": ["src/agent.cc: Agent, Connect, Build, EnterNotify, Decommission", "src/context.h: RegisterAgent, UnregisterAgent, n_prototypes, n_specs", "src/institution.cc", "src/region.cc"]}
{"id": "C32", "title": "Prototype creation yields isolated copies", "statement": "CreateAgent for a known name returns a fresh, not yet deployed agent that is a clone of the agent last registered under that name, leaving every other agent, the schedule and the counts unchanged; unknown names raise KeyError without effect; a wrong requested type raises CastError and leaves no agent behind.", "quantifier": "every set of prototypes and every sequence of creations", "why_tests_cant": "All sequences.", "anchors": ["src/context.h: CreateAgent", "src/context.cc: AddPrototype"]}
{"id": "C33", "title": "Every recorded datum is delivered to every backend exactly once, in order", "statement": "For any sequence of NewDatum/Record, flushes and closes with a fixed dump count, the concatenation of the batches delivered to each registered backend equals the sequence of recorded data, each with its values and the simulation id.", "quantifier": "every sequence of recording operations, every dump count >= 1, every set of backends", "why_tests_cant": "Buffer reuse and index wrap-around over unbounded histories.", "anchors": ["src/recorder.cc: NewDatum, AddDatum, Flush, Close, set_dump_count", "src/datum.cc"]}
{"id": "C34", "title": "Composition arithmetic laws", "statement": "Normalize(v, x) makes the entries sum to x and keeps all ratios; Add and Sub act nuclide-wise and Sub undoes Add; ApplyThreshold removes exactly the entries of magnitude at most the threshold; AlmostEq is reflexive and symmetric.", "quantifier": "every composition map and every value", "why_tests_cant": "Algebraic laws over all maps.", "anchors": ["src/comp_math.cc", "src/cyc_arithmetic.cc: KahanSum"]}
{"id": "C35", "title": "Mass and atom representations agree", "statement": "A composition made from masses has atom fractions proportional to mass over atomic mass and vice versa: converting and converting back gives the same map, and only valid nuclides and non-negative amounts are accepted.", "quantifier": "every composition and every positive atomic mass table", "why_tests_cant": "All maps.", "anchors": ["src/composition.cc: CreateFromAtom, CreateFromMass, atom, mass"]}
{"id": "C36", "title": "Decay results do not depend on the path or on caching", "statement": "Decaying a composition by a then b steps yields the same cached composition object as decaying once by a+b along one chain, as long as one time-step length is used; repeated requests return the identical object; the result for a given step length is the one computed for that step length.", "quantifier": "every sequence of decay requests on a chain, every pair of step lengths", "why_tests_cant": "The cache is shared and keyed by accumulated steps; only particular request orders reveal a wrong hit.", "anchors": ["src/composition.cc: Decay, NewDecay"]}
{"id": "C37", "title": "Compositions are recorded once and identified uniquely", "statement": "Composition ids are unique and increasing, each composition's rows appear in the database at most once, and whenever a Resources row of a material has been written the rows of its composition have been written too with mass fractions summing to one.", "quantifier": "every history of recordings", "why_tests_cant": "All histories.", "anchors": ["src/composition.cc: Record, id", "src/material.cc: Material::Record"]}
{"id": "C38", "title": "Buying policy never requests more than it can store", "statement": "The total quantity in the requests a material buy policy posts is at most its throughput, its buffer's free space, the gap to its target inventory, the free space of its inventory tracker and (when its buffer is not a bulk buffer) what remains of its cumulative cap; with a quantum, the requests are whole quanta; in dormant periods nothing is requested.", "quantifier": "every configuration and every buffer state and time", "why_tests_cant": "All configurations.", "anchors": ["src/toolkit/matl_buy_policy.cc: GetMatlRequests, set_inv_policy, CheckActiveDormantCumulativeTimes", "src/toolkit/matl_buy_policy.h: TotalAvailable, ReqQty, NReq, dormant"]}
{"id": "C39", "title": "Active/dormant cycling is well-formed", "statement": "Active and dormant periods alternate without gaps or overlaps, each period has the sampled length (at least one step for an active one), and the policy requests only in active steps; with a cumulative cap, a dormant period of the sampled length starts in the step after the cap was reached.", "quantifier": "every sequence of sampled period lengths", "why_tests_cant": "All random sequences.", "anchors": ["src/toolkit/matl_buy_policy.cc: init_active_dormant, SetNextActiveTime, SetNextDormantTime, CheckActiveDormantCumulativeTimes"]}
{"id": "C40", "title": "Selling policy never offers or ships more than it has", "statement": "The bids of a sell policy in response to a request are whole quanta or packages that can be shipped, and together never exceed the request, its throughput or its inventory; collecting bids changes neither the buffer nor any resource. Executing trades whose amounts fit one package removes from the buffer what it hands over: each answered trade gets a material of its own of at most the traded amount, and nothing is lost if the amounts are above twice the resource tolerance.", "quantifier": "every inventory, request list, package and transport unit", "why_tests_cant": "All combinations.", "anchors": ["src/toolkit/matl_sell_policy.cc: Limit, GetMatlBids, GetMatlTrades"]}
{"id": "C41", "title": "Total inventory tracking", "statement": "The tracker's quantity is the sum over its buffers, its space is never negative and never exceeds the sum of buffer spaces when buffers are within capacity, and lowering its capacity below the stored quantity is refused.", "quantifier": "every set of buffers and capacities", "why_tests_cant": "All sets of buffers.", "anchors": ["src/toolkit/total_inv_tracker.h"]}
{"id": "C42", "title": "Restart reproduces the schedule and the inventory", "statement": "Initialising a simulation from the database, at the time t of a snapshot, rebuilds exactly the agents alive at t, each with its prototype, entry time, parent, recorded state and inventories in order, notifies each once and parents first, schedules every decommissioning ordered for t or later and every build ordered for a time after t, and continues the id counters where the snapshot left them, so no agent id is used twice. Every tracked resource holding more than the resource epsilon comes back from its state id with its ids, quantity and quality or mass fractions, whatever was recorded later. This holds when every alive agent's parent is alive, all builds ran to completion, and the decommissioning orders for t or later concern agents that were alive at t and have not been withdrawn.", "quantifier": "every simulation history and snapshot time", "why_tests_cant": "Requires comparing states for all histories.", "anchors": ["src/sim_init.cc: Snapshot, Restart, LoadBuildSched, LoadDecomSched, LoadInitialAgents, LoadNextIds, LoadResource, LoadMaterial, LoadComposition, LoadProduct"]}
{"id": "C43", "title": "In-memory query backend returns exactly the matching rows", "statement": "After any history of recordings, registry changes and queries, a query on a table returns, in order of recording, exactly the rows that were recorded while the registry covered the table since it was last dropped from the registry and that satisfy all conditions; a table without rows is absent; tables the registry does not cover are not held; a later delivery that lists the fields in another order still has each value filed under its own field, as long as the data of one delivery to one table list them alike; at most 256 compiled conditions are kept. This holds for column names that do not collide with the query evaluator's own names, non-empty condition lists, and registries that are not narrowed straight from 'everything' to a set.", "quantifier": "every recording history, every registry and every condition list", "why_tests_cant": "All histories and condition values.", "anchors": ["cyclus/memback.pyx"]}
{"id": "C44", "title": "Query injectors restrict and never widen", "statement": "A query through any pile of condition and prefix injectors over a backend that answers faithfully returns, in order, exactly the rows of the prefixed table satisfying the caller's and all injected conditions, whatever the order of injection; conditions mean the relations their operators name and only six operators are accepted; the SQLite backend answers faithfully. The one excluded case is an empty list of conditions.", "quantifier": "every query, every stack of injectors", "why_tests_cant": "All stacks of injectors.", "anchors": ["src/query_backend.h: CondInjector, PrefixInjector, CmpConds"]}
{"id": "C45", "title": "Agent spec strings round-trip and identify archetypes", "statement": "Printing an agent spec whose parts contain no ':' and parsing it back gives the same path, library and agent; a string is accepted exactly when it has two ':'; a spec read from an input file without alias or library takes the agent name; the printed form identifies the archetype, and two archetypes get the same database table name exactly when their printed forms agree up to the characters / - : . _", "quantifier": "every triple of strings", "why_tests_cant": "All strings.", "anchors": ["src/dynamic_module.cc: AgentSpec, Sanitize, str"]}
{"id": "C46", "title": "Enrichment balances mass", "statement": "For every assay triple with feed assay different from tails assay, feed quantity equals product plus tails, and the U-235 content of feed equals that of product plus tails; the value function is refused outside [0, 1), and inside (0, 1) is the textbook one, non-negative and symmetric; separative work is the value added, proportional to the product, non-negative for 0 < tails < feed <= product < 1 and zero only when nothing is enriched.", "quantifier": "all assays and product quantities", "why_tests_cant": "All real values.", "anchors": ["src/toolkit/enrichment.cc: FeedQty, TailsQty, SwuRequired, ValueFunc"]}
{"id": "C47", "title": "Piecewise functions are continuous where requested", "statement": "A piecewise function is zero before the first start and follows, on each stretch, the component in force there, shifted only vertically; a component added with continuity requested makes no jump at its start, one added without starts at its own value; a component that does not start after all earlier ones is refused without effect, and adding one never changes the function before its start.", "quantifier": "every sequence of added functions and every argument", "why_tests_cant": "All functions and arguments.", "anchors": ["src/toolkit/symbolic_functions.cc: PiecewiseFunction::value", "src/toolkit/symbolic_function_factories.cc: AddFunction"]}
{"id": "C48", "title": "Preferences come from bids or requests and are adjusted once per requester", "statement": "Before adjustment, the preference of a bid for a request is the bid's own preference if it states one and the request's otherwise; adjustment lets each requester, and then each of its ancestors, rewrite only the preferences of bids on that requester's own requests, and the solver sees the result.", "quantifier": "every exchange context, every set of bids and every adjustment behaviour", "why_tests_cant": "All contexts and all adjustment functions.", "anchors": ["src/exchange_context.h: AddBid", "src/resource_exchange.h: AdjustPrefs, AdjustPrefs_", "src/exchange_translator.h"]}
{"id": "C49", "title": "No trade beyond what was asked, offered and constrained", "statement": "Every trade resulting from translating, solving greedily and translating back is for a bid that was made on that request with positive preference; the trades for a request never exceed its quantity, those on a bid never exceed its offer, and the sum over a bid portfolio of traded amounts converted by each constraint's converter does not exceed the constraint. And trading does not stop early: a wanted bid (neither it nor its request exclusive) could give no further amount above the solver's threshold within the request, its portfolio, the offer and the constraints.", "quantifier": "every exchange context with convertible positive conversions", "why_tests_cant": "All exchanges; it spans translation, solving and back-translation.", "anchors": ["src/exchange_translator.h", "src/greedy_solver.cc", "src/exchange_manager.h"]}
{"id": "C50", "title": "Asking a material about its content", "statement": "MatQuery answers are those of the material's current composition (decayed first in lazy mode): mass and atom fractions are between 0 and 1 and all mass fractions together are 1, the mass of a nuclide is its fraction of the quantity and its moles are the grams over the atomic mass, a set of nuclides counts as the sum of its members (not a number for the mass fraction in an emptied material), AlmostEq holds exactly for materials with the same nuclides in close fractions, Amount of a composition is the largest quantity of it of which the material holds every nuclide, so extracting that amount is never refused; uranium assays are between 0 and 1 and assay times uranium is the U-235. No query changes anything but the decay that was due, and a second query changes nothing.", "quantifier": "every history of resource operations, every material, nuclide, set of nuclides and composition", "why_tests_cant": "All reachable materials and compositions; maximality of Amount is a statement about every other quantity.", "anchors": ["src/toolkit/mat_query.cc: qty, mass, moles, mass_frac, atom_frac, AlmostEq, Amount", "src/toolkit/enrichment.cc: UraniumAssayMass, UraniumAssayAtom, UraniumQty", "src/material.cc: comp"]}
{"id": "C51", "title": "No resource operation crashes on a valid call", "statement": "After any history of resource operations, whether they returned or threw, an operation on live handles of the right class never has undefined behaviour: it returns or throws. It is undefined exactly for a dead handle, a handle of the wrong class (absorbing a product into a material), or a packaging whose fill computation is undefined (which cannot happen for a package made by Package::Create and a positive quantity of less than the split limit). The one exception is Product::CreateUntracked, excluded from the histories: a product split off from such a product crashes.", "quantifier": "every history of resource operations (except untracked products) and every next operation", "why_tests_cant": "All histories, including those continuing after exceptions.", "anchors": ["src/material.cc", "src/product.cc", "src/res_tracker.cc", "src/composition.cc", "src/resource.h: Package"]}
{"id": "C52", "title": "The optimisation solver respects supply constraints and serves what it can", "statement": "The linear program made from an exchange graph always has a solution, and is refused (ValueError) exactly when a preference is not positive. Whatever feasible solution the external solver returns, the matches respect every constraint of every supply group, lie once each on arcs of the graph with positive preference, are at most the requested quantity on each arc, are exactly the exclusive quantity on exclusive arcs, and at most one is made among mutually exclusive nodes. Without exclusive orders a cheapest solution gives no request group more than its loosest constraint and leaves no demand unmet along an arc that still has room. The same holds of the trades of a whole exchange solved this way: every bid portfolio's constraints hold exactly, every trade is of a real bid on its own request, exclusive requests and objects are traded once and whole. It does not promise that a bid's own quantity, a single request among several of a portfolio, or a request group with exclusive bids is not exceeded.", "quantifier": "every exchange graph and every feasible (every optimal) solution of its program", "why_tests_cant": "All graphs and all solutions of their linear programs; no solver can be run on all of them.", "anchors": ["src/prog_translator.cc: Translate, XlateGrp_, FromProg, CheckPref", "src/exchange_solver.cc: Cost, PseudoCostByPref", "src/prog_solver.cc: SolveGraph"]}
{"id": "C53", "title": "Build decisions cover the demand at least cost", "statement": "After any history of registrations and settings: a producer answers with the capacity and cost last given to it; the supply of a commodity is the sum of the capacities of the producers of every registered producer manager, each registration counting once however often it was made; the demand is that of the function registered first. A build decision for a positive demand, when costs are non-negative and some producer on offer has a positive capacity, orders at least one each of producers on offer, from builders that have them, covers the demand, costs no more than any other choice of producers on offer that covers it, and has no unit to spare of anything that costs something; for no demand it orders nothing. Ordering for the gap between demand and supply and registering a copy of each producer ordered brings the supply up to the demand. This supposes a solver that finds an exact integer optimum when there is one, and at least one producer on offer.", "quantifier": "every history of calls on producers, builders, building managers, producer managers and supply-demand managers, every commodity, demand and exact solver", "why_tests_cant": "All histories and all integer programs.", "anchors": ["src/toolkit/building_manager.cc: MakeBuildDecision, SetUp_, Solve_", "src/toolkit/commodity_producer.h", "src/toolkit/commodity_producer_manager.cc: TotalCapacity", "src/toolkit/supply_demand_manager.h", "src/toolkit/builder.h"]}
{"id": "C54", "title": "One resource exchange from first question to last delivery", "statement": "Executing an exchange asks every registered trader once for requests, then every trader once for bids, in the order of the ids of their agents, then lets preferences be adjusted, and only then trades anything; an exception leaves all later steps undone. Every bidder is shown every request of the exchange under its commodity, in the order in which they were returned, and the exchange consists of exactly the portfolios that were returned. The table each requester is handed lists all bids to its requests with the preference the bid states, or else that of the request; the trader and then each agent above its manager get it as the previous one left it, and the last one's is what is solved with; if nobody changes it, that is what bids and requests stated. Without bids nothing is traded and no transaction id is used. Otherwise, if suppliers hand over what was agreed, every trade is for a returned bid with positive preference, within the limits of the request and the bid, recorded exactly once with a fresh id, and delivered exactly once to its requester in the agreed quantity.", "quantifier": "every set of traders, every behaviour of their methods (for the contents of the exchange: traders that fill only portfolios of their own), also when they throw, and every set of weights of the solver", "why_tests_cant": "All markets and all trader behaviours, through all steps of the exchange.", "anchors": ["src/exchange_manager.h: Execute", "src/resource_exchange.h: AddAllRequests, AddAllBids, AdjustAll, Empty, trader_compare", "src/trader_management.h", "src/exchange_context.h"]}
{"id": "C55", "title": "What is recorded in a SQLite file is what is read from it", "statement": "For a file written by any number of programs one after the other, each ending at any point, with statements failing at any point: the tables are the titles of the data kept, and for a title whose data always had the same fields with the same supported types, whoever opens the file finds exactly the kept data of that title, in the order in which they were recorded, with their field names and types; asking for a title of which nothing was kept throws ValueError. Kept is everything of an accepted delivery and, of a delivery refused with ValueError, what came before the datum that cannot be stored; nothing of any other delivery. Every value comes back as it was except that NaN comes back as 0 and a text is cut at its first NUL. After an accepted delivery the backend itself answers in the same way. If no statement fails, deliveries of data in good order are all accepted; a delivery that fails other than with ValueError makes the backend refuse all later ones until the file is opened anew.", "quantifier": "every history of deliveries, failures of the database, ends of programs and reopenings, every title", "why_tests_cant": "All histories, failure points and crash points.", "anchors": ["src/sqlite_back.cc: SqliteBack, Notify, CreateTable, BuildStmt, WriteDatum, Bind, Query, GetTableInfo, Tables, ColAsVal, SqlType, Type", "src/sqlite_db.cc: Execute, Prepare, Exec, Step, Bind*, Get*"]}
{"id": "C56", "title": "What the input file says is what the agent gets", "statement": "For the code the preprocessor generates for an agent class: its schema accepts the elements of a configuration exactly when they give every state variable without a default one value of its type and the others at most one; the generated reader compiles; and, run on the document handed to the agent, it records for every state variable the value its element writes down (repeated set elements once, a later map entry replacing an earlier one of the same key) or, when the element is absent or the variable internal, its default, whatever the order of the elements. Types are nested to any depth. The names in the input are those of the alias annotation, or val, first, second, item, key otherwise, and every declared variable is kept when no alias is a variable's name. This holds for classes without sequences of maps, nested pairs, nested default containers, Blob and uuid variables, or variables with the name of one of the generator's own, and for inputs whose values are single non-empty texts and whose flags are 0 or 1; outside these it is refuted.", "quantifier": "every list of state variables, every type, annotation and default, every input document", "why_tests_cant": "All types, all classes and all documents; the generated code differs for each class.", "anchors": ["cli/cycpp.py: VarDeclarationFilter, canonize_alias, InfileToDbFilter._query, _val, read_member, impl, SchemaFilter._buildschema, xml_from_ctx, _type", "src/infile_tree.cc: NMatches, GetString, SubTree", "src/infile_tree.h: Query, OptionalQuery"]}
{"id": "C57", "title": "The agents a simulation starts with are those of the input file", "statement": "When a file of the main format has been loaded into a fresh context, its prototypes are exactly the facilities, institutions and regions of the file, each of the class its configuration element names by alias, with the lifetime the file gives it (or none), configured from its own element and found under its own name; no name is used twice. The agents are exactly one of each region prototype, below it one of each of its institutions, and below that the stated number of each entry of its initial facility list, all entering at the current time, numbered in this order, each with its prototype's class, lifetime and specification, each recorded once and its parent told once. A file whose archetypes are each declared once, whose prototype names differ, whose classes are declared, can be made and read their configuration, and whose deployed prototypes are in the file, is loaded. This holds for user code that, on entering or getting a child, does not itself create or change agents or prototypes. An archetype declared twice under different aliases can only be used by the first (refuted).", "quantifier": "every input tree, every set of archetypes and every such user code", "why_tests_cant": "All input files and all archetypes' reactions.", "anchors": ["src/xml_file_loader.cc: ParseSpecs, LoadSpecs, LoadInitialAgents, BuildAgent", "src/dynamic_module.cc: AgentSpec(InfileTree*)", "src/agent.cc: InfileToDb, InitFrom, Build", "src/context.h: CreateAgent"]}
{"id": "C58", "title": "Flat input files give each agent once, parents first", "statement": "When a file of the flat format has been loaded into a fresh context, its prototypes are exactly those of the file, as in the main format, and its agents are one for each name in the file, created from the prototype and below the parent that the file states last for that name, every parent before its children, each recorded once and its parent told once. A complete file in which every parent is listed and no line of parents is circular is loaded, in whatever order it lists its agents, after at most (agents + 1) squared rounds; no other file is ever loaded: with a missing or circular parent the loader never ends and reports nothing (refuted as an error report), and of two elements with the same name only the last gives an agent (refuted).", "quantifier": "every input tree, every order of agents and every user code that does not itself create agents on entering", "why_tests_cant": "All files and all orders.", "anchors": ["src/xml_flat_loader.cc: LoadInitialAgents", "src/xml_file_loader.cc: BuildAgent, ParseSpecs"]}
{"id": "C59", "title": "A saved agent comes back as it was", "statement": "For the methods the preprocessor generates for an agent class without user-supplied code in its annotations: a clone has the value of every state variable of the original and empty inventories of the same capacities. Taking a snapshot of an agent whose inventories respect their capacities changes neither the agent nor any resource, and hands out each inventory in its order. An agent freshly constructed in another simulation and initialised from the recorded row and the reloaded inventories has every state variable with its recorded value, every inventory holding the reloaded resources in the original order with the same quantity, and the capacity its annotation states, whether a number or another state variable; provided the annotated capacity admits the content and the constructor makes the inventory bulk and package-keeping as it was. Inventories of type ResMap, limits of inventory trackers and capacities changed after construction are not restored.", "quantifier": "every class of state variables, inventories, trackers and aliases in any order, every agent state and every content", "why_tests_cant": "All classes and all agent states; the generated code differs for each class.", "anchors": ["cli/cycpp.py: CloneFilter, InitFromCopyFilter, InitFromDbFilter, SnapshotFilter, SnapshotInvFilter, InitInvFilter, BUFFERS", "src/toolkit/res_buf.h: PopNRes, Push, capacity", "src/toolkit/total_inv_tracker.h: capacity", "src/query_backend.h: GetVal"]}
{"id": "C60", "title": "A simulation runs with the settings of its input file", "statement": "When the control section, commodities, recipes, packages and transport units of an input file have been loaded into a new program, a simulation started from the database has exactly the settings of the file: duration, start month and year, handle, decay mode, time step, seed, stride, inventory flags, both tolerances, the solver with its time limit and flags, under each recipe name the last stated composition with each nuclide's share of the mass (stated by mass or by atom), under each package and transport unit name the stated limits and strategy, and the documented default for everything left out. A simulation restarted from the database at any time by any program has the same settings and continues at that time, whatever was recorded later. Settings with a month from 1 to 12, nuclides that exist with amounts of at least zero, consistent limits, known strategies and distinct names are always loaded. Not so: a restarted simulation does not work with the tolerances of the file, a transport unit without upper limit makes loading undefined, and a transport unit called unrestricted is not the one the file describes.", "quantifier": "every input file, every program state, every later content of the database, every restart time", "why_tests_cant": "All files; the settings pass through text, context, database and context again.", "anchors": ["src/xml_file_loader.cc: LoadControlParams, LoadSolver, ReadRecipe, LoadRecipes, LoadPackages, LoadTransportUnits", "src/context.cc: InitSim, AddRecipe, AddPackage, AddTransportUnit, GetRecipe, GetPackage, GetTransportUnit", "src/sim_init.cc: Init, Restart, LoadInfo, LoadRecipes, LoadPackages, LoadTransportUnits, LoadSolverInfo", "src/infile_tree.h: OptionalQuery"]}
{"id": "C61", "title": "A simulation of the kernel's own facilities trades what they offer and keeps what they get", "statement": "In a simulation whose traders are any number of Source, Sink and KFacility agents, set up with registered recipes, suppliers of positive capacity and inventories with room for what can be asked: any number of steps succeeds. In each step every delivery is of a commodity its supplier offers and its receiver asked for, no supplier sends more than its capacity of that step, no receiver gets more of a commodity than it asked for, no supplier is left with something a consumer of its commodity still lacks (beyond the solver's threshold), and the capacities of a KFacility are its configured ones times its factors to the power of the number of steps. All that was delivered is in the inventories and nothing else is, every delivery has one row in the Transactions table with its two agents and commodity, numbered consecutively. A supplier answers trades within its capacity with new materials of exactly the amounts and of its recipe (or of what was asked for), and refuses trades beyond it; a consumer without room for a delivery fails. It is not true that a Sink takes at most its capacity in a step, that a full Sink stops asking, or that a Source of capacity 0 is idle.", "quantifier": "every list of facilities with any settings, every solver configuration, every number of steps, every list of trades for one facility", "why_tests_cant": "All combinations of facilities and all run lengths; each step depends on the deliveries of the ones before.", "anchors": ["agents/source.cc: GetMatlBids, GetOffer, GetMatlTrades", "agents/sink.cc: GetMatlRequests, AcceptMatlTrades", "agents/k_facility.cc: Tick, Tock, GetMatlRequests, GetMatlBids, GetOffer, GetMatlTrades, AcceptMatlTrades", "src/exchange_manager.h: Execute", "src/timer.cc: RunSim"]}
{"id": "C62", "title": "The server answers every request once, stops the simulation when asked, and is never stuck", "statement": "In the simulation server: every action put on the action queue is begun exactly once and in the order of the queue; every message other than a heartbeat answers one request, with the parameters of that request and with data the backend had by then, no request is answered twice, and once everything is done each echo, load, registry, table-name, table and annotation request has its answer (those for data if loaded or if the data exist); messages leave in the order they were made and none is lost unless a connection ended, then at most one for each; when a time step ends everything asked for has been begun and the repeating actions have been asked for once in each step; between a pause and the next unpause at most one time step ends; a registry message has exactly the names registered and not deregistered since, in order; and unless a pause or a shutdown holds it the server can always finish what was asked for, send everything and let the time step end. It is not true that a pause followed by an unpause goes on, that two pauses can be lifted, that requests are answered during a pause, that registering sends the registry, that a shutdown waits for the empty queue or is always performed, that a client that reconnects gets its answers, that a bad unpause is harmless, that 'loaded ok' means loaded, or that the server as started from the command line runs the simulation.", "quantifier": "every schedule of the threads and coroutines, every sequence of client messages and connections, every initial and repeating actions, every backend content", "why_tests_cant": "Schedules: four coroutines, worker threads and the simulation thread interleave in any way.", "anchors": ["cyclus/server.py: action_consumer, action_monitor, queue_message_action, get_send_data, websocket_handler, heartbeat, main", "cyclus/actions.py: send_message, echo, pause, unpause, register_tables, deregister_tables, send_registry_action, send_table_names, send_table_data, sleep, load, agent_annotations, shutdown", "cyclus/events.pyx: loop, EVENT_ACTIONS, MONITOR_ACTIONS", "cyclus/simstate.py: SimState.load, SimState.run", "src/timer.cc: RunSim"]}
{"id": "C63", "title": "An input file converted between XML and JSON says the same", "statement": "Converting an XML input file to JSON gives one object with the root element as its member, and in it each child element as a member of its name, repeated elements as an array in their order, down to the texts. Converting a JSON document to XML gives a text that an XML parser reads as what the document says. An XML input file converted to JSON and back therefore says the same: every query for the texts at the end of a path of element names has the same answers in the same order. This holds for files whose elements have nothing, one text or elements in them, where an empty element is the only one of its name, elements of one name all have elements in them or none has, and names and texts have no markup characters. It is not true outside of that: an empty element among others of its name is lost or makes the result malformed, an empty array becomes a nested element, a comment beside a text makes the text disappear and a comment alone makes the conversion fail, markup characters are not escaped, and white space is added to a text that follows an element of the same name with elements in it.", "quantifier": "every XML input file and every JSON document, of any depth and size", "why_tests_cant": "All documents; nesting, repetition and indentation interact at every depth.", "anchors": ["src/toolkit/infile_converters.cc: XmlToJson, JsonToXml, AddXmlToJson, JsonInsertOrAppend, AddJsonToXml", "src/infile_tree.cc: GetString, NElements, GetElementName", "src/pyne.cc: Json::Value"]}
{"id": "C64", "title": "An agent's relations of commodities, recipes and resources are those last stated, also after a restart", "statement": "After any sequence of calls of a CommodityRecipeContext, the output commodity, input recipe and output recipe of an input commodity and the commodity of a resource are what the last call that said something about them said (an empty string when none did or the resource was removed), whatever was asked in between; the input and output commodities are those ever added. The fuels of an input file are known as if added in order. A snapshot changes nothing, and a context with at least one input commodity initialised from its rows has the same input commodities, the same answer to every question about one of them or about a resource, the output commodities last stated, and records the same rows again. Contexts that compare equal answer every question alike. It is not true that a context without input commodities can be restored, that recipes of commodities not added or replaced output commodities are restored, that equal contexts have the same output commodities, or that asking about an unknown resource leaves a context equal to its copy.", "quantifier": "every sequence of calls, every name and resource id, every list of fuels, with and without rows of other agents", "why_tests_cant": "Call sequences of any length, with save and restore at any point.", "anchors": ["src/toolkit/commodity_recipe_context.h: out_commod, in_recipe, out_recipe, commod, operator==", "src/toolkit/commodity_recipe_context.cc: AddInCommod, AddRsrc, RemoveRsrc, UpdateRsrc, UpdateInRec, InfileToDb, InitFrom, Snapshot", "src/cyc_std.h: map_compare"]}
{"id": "C65", "title": "Positions keep what they were given and their distances are those on a sphere", "statement": "Setting a latitude, a longitude or both succeeds exactly when they are within 90 and 180 degrees; otherwise it throws and nothing changes. What is read is within the rounding (half of a tenth of a second and half of a millionth of a degree) of what was last set and within the same range, and setting what was read gives the same position again. The distance of two positions is the earth's radius times the angle between their directions from the centre: symmetric, from zero to half the circumference, zero just for the same place, and never longer than over a third position. It is not true that a coordinate of zero is written as positive.", "quantifier": "every sequence of calls, with every latitude and longitude; every two or three positions", "why_tests_cant": "All coordinates and all pairs and triples of positions.", "anchors": ["src/toolkit/position.cc: Position, latitude, longitude, set_position, LatCheck, LonCheck, SetPrecision, Distance, ToStringHelper"]}
{"id": "C66", "title": "Warnings stop at their limit and log entries follow the settings", "statement": "Of the warnings of each kind, whatever the others, the first ones up to the limit are printed in order, then one notice that further ones are suppressed (none when the limit is 0), and nothing more for up to 2^32 warnings of that kind. When warnings are errors each is an exception of its kind and nothing is printed. A log entry is printed exactly when its level is at most the report level last set and its source, agents or memory, is not switched off; core entries are never switched off. Every level is known by its name and any other text is the least verbose level. It is not true that the limit holds for more than 2^32 warnings, nor that SetNoMem switches off entries about memory: it switches off those of agents.", "quantifier": "every sequence of warnings of all kinds, every limit, every sequence of settings, every level and text", "why_tests_cant": "Sequences of any length; the counter is shared by all of the program.", "anchors": ["src/error.h: Warn, Warnings", "src/error.cc: warn_limit, warn_prefixes", "src/logger.h: LOG, CLOG, MLOG, SetNoAgent, SetNoMem, SetReportLevel", "src/logger.cc: ToLogLevel, Initialize"]}
