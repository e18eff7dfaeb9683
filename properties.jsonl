{"id": "C01", "title": "Construction enters the root's initial states", "statement": "After a state machine of a type that compiles is constructed, region r (for every r below the number of initial states in the root's table) is in the r-th initial state of the root table, in table order, with the root as parent; no guard, action, entry or handler callback has run, the deferred queue is empty, and every composite's history is its own list of initial states.", "quantifier": "for every accepted machine (any classes, tables, nesting), every dependency, every region index below the root's region count", "why_tests_cant": "tests construct a handful of machines; the claim is about every table a user can write", "anchors": ["include/hsm/details/sm.h:sm::sm, init_current_state, update_current_regions", "include/hsm/details/collect_initial_states.h:collect_initial_states, fill_initial_state_table"]}
{"id": "C02", "title": "State queries are exact", "statement": "is(region,parent,state) is true exactly when the machine's region 0 is inside `parent` and region `region` is in `state`; two different (parent,state) pairs are never confused; asking for a state or parent that does not occur in the machine always answers false.", "quantifier": "for every accepted machine, every runtime state whose regions hold valid places, every region, parent and state", "why_tests_cant": "index encodings only collide for particular table sizes and orders; tests use tiny tables", "anchors": ["include/hsm/details/sm.h:is, parent_is, currentState, currentParentState", "include/hsm/details/idx.h:getStateIdx, getParentStateIdx, calcParentStateIdx, calcStateIdx"]}
{"id": "C03", "title": "Dispatch table = declared rows (soundness and completeness)", "statement": "The rows tried for an event in a place (parent,state) are exactly the rows the tables declare for it: internal rows of the state / enclosing composite, external rows whose (resolved) source is that state in that parent, rows whose source is the enclosing composite itself, and a deferral if the state's class defers the event; nothing else and nothing missing, in a fixed order.", "quantifier": "for every accepted machine that can be constructed, every event, every place", "why_tests_cant": "the flattening of nested tables and the index arithmetic have unboundedly many shapes", "anchors": ["include/hsm/details/fill_dispatch_table.h:addDispatchTableEntry, addDispatchTableEntryOfSubMachineExits, fill_dispatch_table_with_transitions, fill_dispatch_table_with_deferred_events", "include/hsm/details/flatten_transition_table.h:flatten_transition_table", "include/hsm/details/flatten_internal_transition_table.h:flatten_internal_transition_table"]}
{"id": "C04", "title": "Candidate priority: last declared first, deferral over external over internal", "statement": "For one place and event, candidates are tried in reverse order of declaration in the flattened table; a deferral is tried before every external row, every external row before every internal row.", "quantifier": "for every accepted machine, event, place", "why_tests_cant": "priority among an arbitrary number of overlapping rows cannot be enumerated", "anchors": ["include/hsm/details/fill_dispatch_table.h:push_front in addDispatchTableEntry", "include/hsm/details/sm.h:fill_dispatch_table"]}
{"id": "C05", "title": "First enabled candidate fires, guards after it are not evaluated", "statement": "Handling one region evaluates the guards of its candidates in priority order until the first that returns true; that candidate's transition (and no other) is executed for the region; the guards behind it are never called; a candidate without guard counts as enabled without any call.", "quantifier": "for every candidate list, every guard behaviour (including guards with side effects or that throw), every event payload", "why_tests_cant": "guard behaviours are arbitrary functions of arbitrary state", "anchors": ["include/hsm/details/sm.h:process_event_internal", "include/hsm/details/dispatch_table.h:DispatchTableEntry::executeGuard"]}
{"id": "C06", "title": "Unhandled event: false, nothing changes, handler called exactly once", "statement": "If no active region has any candidate for the event, process_event returns false, calls the root's unexpected-event handler exactly once (with the event and region 0's state object) if there is one and nothing at all otherwise, and leaves places, history and deferred queue unchanged.", "quantifier": "for every accepted machine, every reachable state, every event of the machine", "why_tests_cant": "needs all states and all events", "anchors": ["include/hsm/details/sm.h:process_event, call_unexpected_event_handler", "include/hsm/details/fill_unexpected_event_handler_tables.h"]}
{"id": "C07", "title": "All guards refuse: false, no action, no handler, nothing moves", "statement": "If some region has candidates but every guard tried returns false (and nothing defers), process_event returns false, no action, entry, exit or handler is called, and places, history and deferred queue are unchanged; every candidate's guard was evaluated exactly once, in order.", "quantifier": "for every accepted machine, reachable state, event, guard behaviour that refuses", "why_tests_cant": "guard behaviour space is infinite", "anchors": ["include/hsm/details/sm.h:process_event_internal, process_event"]}
{"id": "C08", "title": "Return value means 'a transition was executed for this event'", "statement": "process_event returns true exactly when at least one region executed a transition (external or internal) for the event and the event was not deferred; it returns false when the event was deferred, refused or unhandled.", "quantifier": "for every accepted machine, state, event, callbacks that do not throw", "why_tests_cant": "requires every history and guard behaviour", "anchors": ["include/hsm/details/sm.h:process_event"]}
{"id": "C09", "title": "Effect order exit, action, entry, initial-entry", "statement": "Executing an external transition calls, in this order and each at most once: on_exit of the source (if it is a plain state with on_exit, or the parent for an exit pseudo state), the row's action, on_entry of the target (if it is a plain state with on_entry), on_entry of the first initial state of the target composite; all receive the same event.", "quantifier": "for every row of every accepted machine", "why_tests_cant": "16 on/off combinations times all target kinds, nested arbitrarily", "anchors": ["include/hsm/details/resolve_state.h:resolveExitAction, resolveNoAction, resolveEntryAction, resolveInitialStateEntryAction, resolveEntryExitAction, resolveAction", "include/hsm/details/has_action.h"]}
{"id": "C10", "title": "Internal transitions do not move and call neither entry nor exit", "statement": "An internal transition leaves every region's place, history and the region count unchanged, calls the row's action with the source object as both source and target, and calls no on_exit or on_entry of the state itself.", "quantifier": "for every accepted machine, state, event", "why_tests_cant": "all states and tables", "anchors": ["include/hsm/details/sm.h:update_current_state", "include/hsm/details/flatten_internal_transition_table.h"]}
{"id": "C11", "title": "Move happens before the effects; an action exception leaves the machine in the target", "statement": "If any of the exit/action/entry callbacks of a fired transition throws, the exception reaches the caller of process_event, the region is already in the transition's target place, callbacks after the throwing one were not called, later regions were not touched, and no anonymous or deferred processing took place.", "quantifier": "for every machine, state, event, every callback that may throw, at every position", "why_tests_cant": "every throw point (crash point) and every behaviour", "anchors": ["include/hsm/details/sm.h:process_event_internal (update_current_state before executeAction)"]}
{"id": "C12", "title": "Guard exception safety", "statement": "If a guard throws, the exception reaches the caller and that region and all later regions keep their place, history and queue; the machine stays usable (still satisfies the runtime invariant).", "quantifier": "for every machine, state, event, every guard that may throw", "why_tests_cant": "every crash point", "anchors": ["include/hsm/details/sm.h:process_event_internal"]}
{"id": "C13", "title": "Target resolution", "statement": "Executing an external transition puts the region in: the first initial state of the target composite for a composite target; the named state inside the named parent for entry and direct targets; the remembered place for history targets; the named state in the row's own parent otherwise.", "quantifier": "for every row, every accepted machine, every runtime state", "why_tests_cant": "all target kinds at all nesting depths", "anchors": ["include/hsm/details/resolve_state.h:resolveDst, resolveDstParent", "include/hsm/details/sm.h:update_current_state"]}
{"id": "C14", "title": "Rows whose source is a composite apply exactly to its direct children", "statement": "A row in any table whose source is a composite state C is a candidate in every direct child of C (and in the place of C itself in the row's parent) and in no grandchild of C.", "quantifier": "for every accepted machine, every composite, every nesting depth", "why_tests_cant": "arbitrary nesting", "anchors": ["include/hsm/details/fill_dispatch_table.h:addDispatchTableEntryOfSubMachineExits", "include/hsm/details/collect_states.h:collect_child_state_typeids"]}
{"id": "C15", "title": "Exit and direct sources apply exactly in the named child of the named parent", "statement": "A row with source exit<P,S> or direct<P,S> is a candidate exactly in place (P,S) among the places whose state is a plain state.", "quantifier": "for every accepted machine", "why_tests_cant": "all tables", "anchors": ["include/hsm/details/resolve_state.h:resolveSrc, resolveSrcParent"]}
{"id": "C16", "title": "Shallow history (single region)", "statement": "In a single-region machine with a history transition, a transition targeting history<C> puts the machine in the place it was in when C was last left (the place occupied at the last external transition taken while C was the enclosing parent), or in C's first initial state if C has never been active.", "quantifier": "for every accepted single-region machine, every sequence of API calls", "why_tests_cant": "depends on the full past of calls", "anchors": ["include/hsm/details/sm.h:update_current_state, m_history"]}
{"id": "C17", "title": "Anonymous transitions run to completion", "statement": "After a transition fires in a single-region machine, enabled anonymous transitions are taken repeatedly until the current place has none enabled; process_event returns only in a place whose anonymous candidates are absent or were all refused.", "quantifier": "for every machine, state, event and guard behaviour", "why_tests_cant": "unbounded chains of anonymous transitions", "anchors": ["include/hsm/details/sm.h:process_anonymous_transitions"]}
{"id": "C18", "title": "Anonymous termination and divergence", "statement": "If the places reachable by anonymous rows carry a rank that strictly decreases along every anonymous row, process_event terminates for all guards and actions; if a cycle of unguarded anonymous rows is reached, process_event never returns.", "quantifier": "for every machine with a ranking; for every cyclic example for every fuel", "why_tests_cant": "non-termination cannot be observed by a test", "anchors": ["include/hsm/details/sm.h:process_anonymous_transitions while(true)"]}
{"id": "C19", "title": "Deferral", "statement": "If the first candidate reached for a region is a deferral, process_event returns false, the event with its current payload is appended at the back of the deferred queue, no guard of that region is called, no handler is called, and that region and later regions are unchanged.", "quantifier": "for every machine, state, event and payload", "why_tests_cant": "all states, all payloads", "anchors": ["include/hsm/details/sm.h:process_event_internal", "include/hsm/details/variant_queue.h:push"]}
{"id": "C20", "title": "One deferred event is recalled per processed event, the oldest one", "statement": "After process_event handled its event (and would return true), exactly one event - the oldest of the queue - is removed and dispatched if the queue is not empty; its outcome does not influence the return value and does not trigger the unexpected-event handler nor a further recall.", "quantifier": "for every machine, state, queue, callback", "why_tests_cant": "queue contents are unbounded", "anchors": ["include/hsm/details/sm.h:process_deferred_events", "include/hsm/details/variant_queue.h:visit"]}
{"id": "C21", "title": "Deferred-event conservation", "statement": "Along any sequence of API calls, number of events pushed = number recalled + number still queued; an event leaves the queue only by being recalled, and calls that do not process an event never change the queue.", "quantifier": "for every machine and every finite sequence of API calls, including calls that throw", "why_tests_cant": "unbounded histories", "anchors": ["include/hsm/details/sm.h:process_deferred_events, process_event_internal"]}
{"id": "C22", "title": "The deferred queue is first in, first out", "statement": "Events are recalled in exactly the order in which they were deferred: the sequence of all recalled events followed by the queue contents equals the sequence of all deferrals.", "quantifier": "for every machine and every finite sequence of API calls", "why_tests_cant": "unbounded histories", "anchors": ["include/hsm/details/variant_queue.h"]}
{"id": "C23", "title": "Orthogonal regions are handled one by one and in isolation", "statement": "An event is offered to regions 0..n-1 in this order; the transition of a region changes only that region's place (and, for history machines, only that region's history entry of the enclosing parent); a region without candidates does not stop later regions.", "quantifier": "for every machine, number of regions, event, guards", "why_tests_cant": "number of regions and combinations unbounded", "anchors": ["include/hsm/details/sm.h:process_event_internal region loop"]}
{"id": "C24", "title": "No undefined behaviour for well-formed machines", "statement": "For a machine that passes an executable well-formedness check (region counts of composites compatible with the root, resolved endpoints inside the machine, default-constructible states, anonymous event not deferred, fewer than 256 regions), no sequence of API calls with arbitrary callbacks reaches undefined behaviour: no read of an uninitialised region, no out-of-range access, no null dereference.", "quantifier": "for every machine passing the check, every finite sequence of API calls, every callback behaviour including exceptions", "why_tests_cant": "absence of undefined behaviour over all histories", "anchors": ["include/hsm/details/sm.h: all members", "include/hsm/details/dispatch_table.h"]}
{"id": "C25", "title": "Entering a composite with more regions than are initialised is undefined behaviour", "statement": "Safety does not hold without the check of C24: there is an accepted machine and a legal two-event sequence that reads a region never initialised.", "quantifier": "existential (refutation of an unconditional safety claim)", "why_tests_cant": "undefined behaviour may look fine in a test run", "anchors": ["include/hsm/details/sm.h:m_currentCombinedState, update_current_regions"]}
{"id": "C26", "title": "set/is round trip and frame", "statement": "set(region,parent,state) followed by the queries reports exactly that parent and state (region 0) or that state (other regions); all other regions, history, queue, dispatch behaviour and the active region count are unchanged and no callback runs.", "quantifier": "for every machine, state, region in range, parent and state of the machine", "why_tests_cant": "all triples, all states", "anchors": ["include/hsm/details/sm.h:set, is"]}
{"id": "C27", "title": "Out-of-range regions throw and change nothing", "statement": "set and (when the parent matches) is with a region index not below the maximal region count throw std::out_of_range and leave the machine unchanged.", "quantifier": "for every machine, state and region number", "why_tests_cant": "all region numbers", "anchors": ["include/hsm/details/sm.h:set, currentState (.at)"]}
{"id": "C28", "title": "set_dependency takes effect for the next event and keeps places", "statement": "After set_dependency(d) every candidate list consists of all rows bound to d followed by the previous candidates; so the first enabled row whose guard accepts under d is executed with d, places/history/queue are unchanged; the unexpected-event handler keeps the dependency given at construction.", "quantifier": "for every machine, state, dependency, event", "why_tests_cant": "all histories of dependency changes", "anchors": ["include/hsm/details/sm.h:set_dependency, fill_dispatch_table"]}
{"id": "C29", "title": "Region counter is 8 bit: at most 255 regions are processed once each, 256 or more never terminate", "statement": "With n <= 255 active regions each region is visited exactly once per event; with n >= 256 initial states in the root table construction does not terminate.", "quantifier": "for every region count", "why_tests_cant": "256-region machines are never tested; non-termination is not testable", "anchors": ["include/hsm/details/sm.h:Region = std::uint8_t, init_current_state, process_event_internal"]}
{"id": "C30", "title": "Combined index is a bijection", "statement": "The number computed for (parent,state) is parentIndex * nStates + stateIndex; dividing and taking the remainder gives back the indices; distinct places get distinct numbers, all below nParents*nStates; absent places get a number outside that range.", "quantifier": "for every machine with fewer than 2^64 places, every pair", "why_tests_cant": "all table sizes including wrap-around of 64-bit arithmetic", "anchors": ["include/hsm/details/index_map.h:GetIdx", "include/hsm/details/idx.h"]}
{"id": "C31", "title": "Transition DSL spellings are equivalent", "statement": "Prefix (target <= source + event [g] / a), postfix (source + event [g] / a = target) and tuple notations build transitions with the same source state, event, guard, action and target; machines differing only in the notation behave identically.", "quantifier": "for every source, event, guard, action, target", "why_tests_cant": "combinations and behavioural equivalence over all histories", "anchors": ["include/hsm/front/transition_dsl.h", "include/hsm/details/state.h:StateBase operators", "include/hsm/front/transition_tuple.h"]}
{"id": "C32", "title": "chain_actions runs all actions left to right with the same arguments", "statement": "A chained action calls each listed action exactly once, in list order, with the same event, source, target and dependencies; nesting of chains is associative; an exception stops the chain after the throwing action.", "quantifier": "for every list of actions, any nesting, any throw point", "why_tests_cant": "unbounded lists and throw points", "anchors": ["include/hsm/details/chain_actions.h"]}
{"id": "C33", "title": "Event queue container semantics", "statement": "The variant queue is a FIFO: visit hands the oldest element to the callable once and removes it even if the callable throws; visiting an empty queue throws and changes nothing; size is the number pushed minus visited.", "quantifier": "for every sequence of push/visit operations", "why_tests_cant": "unbounded operation sequences", "anchors": ["include/hsm/details/variant_queue.h"]}
{"id": "C34", "title": "create_state and reuse_state", "statement": "A transition to a state without default constructor with create_state(f) calls f(event, source) and installs the result as the target object before later callbacks; reuse_state(a) calls a with the existing target object; using an object before it was created is undefined behaviour and creating it first makes it defined.", "quantifier": "for every machine, state and factory behaviour", "why_tests_cant": "order of creation over all histories", "anchors": ["include/hsm/details/create_state.h", "include/hsm/details/reuse_state.h", "include/hsm/details/dispatch_table.h:executeAction"]}
{"id": "C35", "title": "Callback arguments", "statement": "Every guard and action is called with the processed event, the object of the row's resolved source state (the composite object when the row's source is a composite), the object of the resolved target state (the source object for internal transitions), and the dependencies of the row.", "quantifier": "for every callback call of every run", "why_tests_cant": "all runs", "anchors": ["include/hsm/details/dispatch_table.h:DispatchTableEntry"]}
{"id": "C36", "title": "Duplicate table entries are harmless for pure guards", "statement": "Rows of a sub table are registered once for every row targeting the composite; with guards that neither change state nor throw this has no effect on which transition fires, on the moves, on the return value or on the sequence of actions.", "quantifier": "for every candidate list and every pure guard assignment", "why_tests_cant": "needs all guard assignments and duplicate patterns", "anchors": ["include/hsm/details/flatten_transition_table.h", "include/hsm/details/fill_dispatch_table.h: TODO comment lines 144-145"]}
{"id": "C37", "title": "Compile-time acceptance", "statement": "A machine is rejected at compile time if the root has no table, an empty table, no initial state at all, an initial state of the root with its own (internal) table, a composite target without initial state, an endpoint that is not a state of the machine, a deferred event that no row uses, or a recursive nesting of composites; acyclic nestings are always flattened completely.", "quantifier": "for every class environment", "why_tests_cant": "all class environments; infinite template recursion", "anchors": ["include/hsm/details/sm.h:static_asserts", "include/hsm/details/flatten_transition_table.h"]}
{"id": "C38", "title": "on_exit is skipped for rows whose source is marked initial (refutes 'on_exit always runs')", "statement": "The claim 'leaving a state with on_exit by an external transition always calls its on_exit' is false: a row written *state<S> + e = state<T> does not call S's on_exit. Exact characterisation: on_exit of S is called iff the row's source is written as plain state.", "quantifier": "for every external row; existential witness", "why_tests_cant": "needs to consider every spelling", "anchors": ["include/hsm/details/resolve_state.h:resolveExitAction"]}
{"id": "C39", "title": "Anonymous starvation across regions (refutes completion for all regions)", "statement": "In a machine with several regions anonymous processing stops as soon as one region has no anonymous candidate, so an enabled anonymous transition in a later region may never be taken; exact characterisation of the stop condition.", "quantifier": "existential witness plus general stop characterisation", "why_tests_cant": "behaviour across all region combinations", "anchors": ["include/hsm/details/sm.h:process_anonymous_transitions"]}
{"id": "C40", "title": "Multi-region deferral may leave earlier regions moved", "statement": "If region i defers, regions below i may already have executed transitions for the same event, yet process_event returns false, anonymous transitions are not run and the event is queued (and will be offered again to all regions).", "quantifier": "general characterisation plus existential witness", "why_tests_cant": "all region combinations", "anchors": ["include/hsm/details/sm.h:process_event_internal"]}
{"id": "C41", "title": "Internal rows are merged by type", "statement": "Internal rows of one place with identical event, guard type and action type are kept once (the first); rows that differ in one of the types are all kept, in order.", "quantifier": "for every accepted machine", "why_tests_cant": "all tables", "anchors": ["include/hsm/details/flatten_internal_transition_table.h:flatten_internal_transition_table", "include/hsm/details/remove_duplicates.h:remove_duplicate_types"]}
{"id": "C42", "title": "Transition objects have a single owner", "statement": "The owning pointer used for table entries never double-frees, never leaks and never has two owners under any sequence of construct, move-construct, move-assign, swap, reset, release, destroy (self-move included).", "quantifier": "for every finite sequence of pointer operations", "why_tests_cant": "unbounded sequences, aliasing", "anchors": ["include/hsm/details/utils/dunique_ptr.h"]}
{"id": "C43", "title": "Pseudo-state spelling does not change behaviour", "statement": "Prefix notation wraps a pseudo target differently from postfix notation; the two kinds of wrapper lead to the same candidates, targets, effects for entry, exit, direct, history.", "quantifier": "for every row and machine", "why_tests_cant": "all rows", "anchors": ["include/hsm/details/state.h", "include/hsm/details/pseudo_states.h"]}
{"id": "C44", "title": "Every API call preserves the runtime invariant", "statement": "After every API call (returning or throwing) on a well-formed machine the active regions hold valid places, history entries are valid places of their parent, table sizes are unchanged.", "quantifier": "for every well-formed machine, every reachable state, every call", "why_tests_cant": "invariant over all histories", "anchors": ["include/hsm/details/sm.h"]}
{"id": "C45", "title": "Determinism and independence of evaluation budget", "statement": "The behaviour of every API call is a function of the state, event and callbacks: if a call terminates, its result is the same however long one allows it to run.", "quantifier": "for every machine, state, call", "why_tests_cant": "model meta-property over all executions", "anchors": ["include/hsm/details/sm.h"]}
{"id": "C46", "title": "process_event follows a deterministic semantics written in names", "statement": "Whenever process_event returns or throws, its return value, payload and final state are exactly those given by a relational semantics that speaks only about class names, declared rows and places (no index arithmetic, dispatch tables or loops), and that semantics determines the result uniquely; the machine flags it uses are characterised by the declared rows.", "quantifier": "for every accepted machine with at most 255 regions, every reachable state, every event, payload and user code", "why_tests_cant": "quantifies over all programs, states, events and user functions", "anchors": ["include/hsm/details/sm.h", "include/hsm/details/fill_dispatch_table.h", "include/hsm/details/dispatch_table.h", "include/hsm/details/idx.h"]}
{"id": "C47", "title": "status reports exactly the active places and changes nothing", "statement": "status writes one line per active region, in order: the region, the number of its place, the number of region 0's parent and the number of its state; the object is unchanged, equal reports mean equal places in all active regions, and the call is undefined if an active region was never written.", "quantifier": "for every accepted machine with at most 255 regions and every reachable state", "why_tests_cant": "all machines and reachable states", "anchors": ["include/hsm/details/sm.h"]}
{"id": "C48", "title": "Region arguments are taken modulo 256", "statement": "is and set take the region as an 8-bit number: arguments that differ by a multiple of 256 mean the same region, and an argument below 256 means exactly that region.", "quantifier": "for every machine, state and region argument", "why_tests_cant": "all arguments and states", "anchors": ["include/hsm/details/sm.h"]}
{"id": "C49", "title": "The semantics by names describes all runs of process_event", "statement": "On a well-formed machine process_event has a result (value or exception, payload, state) if and only if the relational semantics in names derives it, and it runs forever if and only if the semantics derives nothing.", "quantifier": "for every well-formed machine, reachable state, event, payload and user code", "why_tests_cant": "quantifies over all programs, states, user functions and unbounded executions", "anchors": ["include/hsm/details/sm.h"]}
{"id": "C50", "title": "States made by create_state exist when they are used", "statement": "Let a machine have states that are not default constructible and let a set of objects be promised for every place, such that: nothing is promised for initial places; what is promised for the target of a row is promised for its source or made by the row's action before anything that may throw; guards, actions, reuse_state and the unexpected-event handler only use objects that are default constructible, promised, or made earlier in the same action. If factories return objects and the functions called up to a creation do not throw, no session runs into undefined behaviour and the promised objects exist in every region's place. An executable check decides the condition. Without it the null dereference is reachable, also for the machine of the library's own test.", "quantifier": "for every such machine, every promise, every sequence of API calls, every user code with reliable factories", "why_tests_cant": "absence of null dereferences over all histories, including histories after exceptions", "anchors": ["include/hsm/details/create_state.h", "include/hsm/details/reuse_state.h", "include/hsm/details/dispatch_table.h: executeGuard, executeAction"]}
{"id": "C51", "title": "A machine whose user code may call it again: conservative and independent of budgets", "statement": "Guards, actions, factories, on_entry, on_exit and on_unexpected_event may use the machine they are called from (process_event, set_dependency, is, status) any number of times, before or after their own effects. For user code that does not, sessions are exactly those of the ordinary model. In general, two sufficient budgets for nesting depth and for steps give the same result.", "quantifier": "for every machine, every user code as an interactive program, every sequence of API calls, every depth and fuel", "why_tests_cant": "equality of all runs of two interpreters; all nesting depths", "anchors": ["include/hsm/details/sm.h: process_event, process_event_internal", "include/hsm/details/dispatch_table.h: executeAction, executeGuard"]}
{"id": "C52", "title": "Nested calls are memory safe when guards leave the tables alone", "statement": "For a well formed machine whose user code uses the machine in a well typed way, no session with nested calls runs into undefined behaviour and every state it returns is sound, provided guards neither call set_dependency nor process events. Both provisos are needed: a refusing guard that calls set_dependency, or processes an event whose action does, changes the deque that the loop over the candidates iterates over.", "quantifier": "for every well formed machine, every such user code, every sequence of well typed calls, every depth and fuel", "why_tests_cant": "absence of undefined behaviour over unbounded nesting", "anchors": ["include/hsm/details/sm.h: process_event_internal (range-for over the deque), set_dependency", "include/hsm/details/fill_dispatch_table.h: push_front"]}
{"id": "C53", "title": "Nested events are processed at once, without run to completion", "statement": "An event processed by the last callback of a transition (the action, when neither on_entry of the target nor of its initial state is called) is processed as if the caller had sent it right afterwards. In general there is no run to completion: an event processed by an action is processed after the new place is written and before the target's on_entry; an event processed by a guard does not keep the guard's row from being taken although its source was left; nothing bounds the nesting.", "quantifier": "for every well formed one-region machine without anonymous rows and deferral, every user code, every history; refutations by witness", "why_tests_cant": "equality of runs for every machine and history", "anchors": ["include/hsm/details/dispatch_table.h: executeAction", "include/hsm/details/resolve_state.h: resolveAction", "include/hsm/details/sm.h: process_event_internal, update_current_state"]}
{"id": "C54", "title": "Exactly which machines can run into undefined behaviour", "statement": "For a machine with at most 255 regions per class that does not defer the anonymous event: no legal sequence of API calls with any user code is undefined if and only if all of the following hold. Every registration is in a place of the machine; no class has more initial states than the root; every external row that can be reached (only guarded rows are tried before it) leads to a class of the machine; with history, every reached external row finds an element of the history array, whatever class region 0 can be in at that moment; the objects looked at by reached guards, actions and reuse_state are default constructible; and so is the state in which on_unexpected_event is called, which is any state if the number of active regions can become 0. The condition is decidable, needed also without the condition on the anonymous event, and weaker than well_formed.", "quantifier": "for every accepted program with at most 255 regions; necessity by constructing, for every violation, the user code and API calls that go wrong", "why_tests_cant": "an equivalence between a static condition and the absence of undefined behaviour over all programs, user code and call sequences", "anchors": ["include/hsm/details/sm.h: process_event_internal, update_current_state, call_unexpected_event_handler, set", "include/hsm/details/dispatch_table.h: executeGuard, executeAction", "include/hsm/details/fill_dispatch_table.h"]}
{"id": "C55", "title": "switch_ picks the first case that holds", "statement": "switch_ and lazy_switch_ return the function of the first case whose (evaluated) predicate holds; they compile exactly if there is such a case.", "quantifier": "for every list of cases", "why_tests_cant": "quantifies over all lists of cases; the tests have two cases each", "anchors": ["include/hsm/details/switch.h: switch_, lazy_switch_"]}
{"id": "C56", "title": "for_each and for_each_idx visit every element once, in order", "statement": "for_each calls the closure once per element in order and stops at the first exception, which it passes on; for_each_idx does the same with the elements numbered from 0. The nested loops that fill the table of initial states therefore end without exception and leave, at the number of every parent, the numbers of its initial states in order, whatever was in the table before.", "quantifier": "for every closure with any state and any exceptions, every sequence; for every accepted program", "why_tests_cant": "quantifies over all closures, sequences and programs", "anchors": ["include/hsm/details/for_each.h", "include/hsm/details/for_each_idx.h", "include/hsm/details/collect_initial_states.h: fill_initial_state_table"]}
{"id": "C57", "title": "make_index_map gives first positions", "statement": "make_index_map sends every type id to its first position and has no other keys; on tuples without repetition it agrees with index_of. With repetitions index_of is not an index.", "quantifier": "for every tuple of type ids", "why_tests_cant": "quantifies over all tuples; the test has one of length two", "anchors": ["include/hsm/details/index_map.h: make_index_map, index_of"]}
{"id": "C58", "title": "Collected actions", "statement": "collect_actions_recursive returns, of every type of action in the machine, the first one in the order in which the rows are visited; no type is collected twice and no row is left out.", "quantifier": "for every accepted program", "why_tests_cant": "quantifies over all programs, nested to any depth", "anchors": ["include/hsm/details/collect_actions.h", "include/hsm/details/remove_duplicates.h"]}
{"id": "C59", "title": "Where the regions can be", "statement": "At every moment a region is in a place it can get to from its initial state, or from a place the client set it to, by rows that can be taken: rows before which only rows with guards are tried, and for history targets the initial state of the parent for that region. With one region and no history, and user code that does not throw, the places in which the region can be found between two calls are exactly those of the graph in which anonymous rows without guard are followed at once. Both graphs come with a check that finds dead states.", "quantifier": "for every accepted program with at most 255 regions, every user code and every sequence of calls", "why_tests_cant": "quantifies over all programs, all answers of guards and all event sequences; that a state is dead cannot be observed by running the machine", "anchors": ["include/hsm/details/sm.h: process_event, update_current_state, process_anonymous_transitions, set", "include/hsm/details/fill_dispatch_table.h"]}
{"id": "C60", "title": "The amalgamated header", "statement": "For programs in which only composites have internal rows, no class has two internal rows of the same type, no place has internal rows for one event from the root and from another class, and nothing is deferred, include/hsm/gen/hsm.h does what the other headers do: it compiles, every call has the same answer (process_event has none), the same user code is called with the same arguments in the same order, and regions, history and objects are the same. None of the four conditions can be dropped. In particular an event that is deferred or refused recalls a deferred event there, so that a queue of events that are all deferred again is rotated instead of extended.", "quantifier": "for every accepted program with these conditions, every user code that leaves the data-less noneEvent alone and every sequence of calls (set does not exist there)", "why_tests_cant": "the repository's tests include the other headers only; agreement for all programs and event sequences cannot be tested", "anchors": ["include/hsm/gen/hsm.h: get_internal_transitions, flatten_internal_transition_table, sm, process_event, process_event_internal, process_deferred_events, process_anonymous_transitions", "include/hsm/details/sm.h"]}
{"id": "C61", "title": "Rows added for a new event", "statement": "Adding rows for an event that the program did not have, anywhere in the tables but only from places where an earlier row starts to states that earlier rows name (no composites, no pseudo states of composites, spelled as before in classes with internal rows), changes nothing for clients that never send this event: the same answers, exceptions and undefined behaviour, the same user code called with the same arguments in the same order, the same regions, history, waiting events and objects. None of the conditions can be dropped: a row from a state that was no source switches on its deferral, a row into a composite makes the composite's guards run twice, a new state changes the numbers that status prints, an unmarked initial state in a class with internal rows makes internal guards run twice.", "quantifier": "for every accepted pair of such programs, every user code and every sequence of calls without the new event", "why_tests_cant": "the claim compares two programs over all event sequences; a regression test compares one program with itself", "anchors": ["include/hsm/details/flatten_transition_table.h: flatten_transition_table", "include/hsm/details/fill_dispatch_table.h: fill_dispatch_table_with_transitions, fill_dispatch_table_with_deferred_events", "include/hsm/details/collect_states.h", "include/hsm/details/sm.h"]}
{"id": "C62", "title": "The example programs", "statement": "The turnstile and the cd player of the directory example do what their diagrams say for every sequence of events: every event is answered by true exactly if the diagram has an arrow for it, the machine is in the state of the diagram, and the guards and actions on the arrows have been called once each in this order. So the turnstile is unlocked exactly if the last event was a coin and has blinked once per coin, and the drawer of the player is open exactly if open_close came an odd number of times. A paused song is not resumed: end_pause starts the first song.", "quantifier": "for every sequence of events with any payload, and lambdas that do anything but throw or write to the event", "why_tests_cant": "the assertions in main() of the two programs check one sequence of two events and the initial state", "anchors": ["example/turnstile/main.cpp: Turnstile, main", "example/cdplayer/main.cpp: Playing, CdPlayer, main", "doc/example/turnstile_example.wsd", "doc/example/cdplayer_example.wsd"]}
{"id": "C63", "title": "The text of status", "statement": "The string returned by status() consists of \"[\" region \"] combined: \" number \" parent: \" number \" state: \" number for every active region, without anything between the regions, and it determines how many regions are active and where each is. But the region is a std::uint8_t and is written as the character with this code, not as a number: no region is ever shown as its own number, the digit d between the brackets means region 48 + d, and because region 0 is the character zero a reader of status().c_str() only sees \"[\".", "quantifier": "for every accepted program, every user code, every reachable state", "why_tests_cant": "no test calls status(); a test that compares with one literal would not show that different states have different texts", "anchors": ["include/hsm/details/sm.h: status, Region", "include/hsm/details/idx.h: Idx"]}
{"id": "C64", "title": "The output of hsm::log", "statement": "If every row of a program has hsm::log as its action (or as the first of a chain), no on_exit throws and no row leads to a history, then the lines written during any session are a merge of one walk along declared rows per region: each region starts in its initial state and is where its last line says. For a machine with one region the current state is the target of the last line, and if no row starts at a composite every line starts where the line before ended. Without these conditions it is not so: after a row to a history the last line names the initial state of the composite, a throwing on_exit moves the region without a line, and a row from a composite names the composite instead of the state that is left.", "quantifier": "for every accepted program that logs, every user code whose on_exit does not throw, every session without set of the current state", "why_tests_cant": "the repository's test of logging looks at the state, not at the output; the claim is about all sequences of events, guards and exceptions", "anchors": ["include/hsm/details/log.h: log", "include/hsm/details/dispatch_table.h: make_transition", "include/hsm/details/sm.h: process_event_internal"]}
{"id": "C65", "title": "One table, one region: the program is the machine of the table", "statement": "A program with one transition table and one initial state whose rows have events, lead from and to plain states, and whose classes have no internal rows, defer nothing and are default constructible, behaves for every sequence of events and every user code exactly like the machine written in the table: for an event the rows of the current state for it are tried last row first, the guards are asked until one agrees, the state becomes the row's target, then on_exit of the source (unless it is marked initial), the actions in order and on_entry of the target are called; an exception ends the event after the move; without a row the handler of unexpected events is called, if declared. Results, calls with arguments, final state and user data are those of that machine, no run is undefined or endless. Without guards the state is that of the automaton of the table whatever the user code does. Such a program compiles exactly if no action needs a pointer to the target, the initial state's class declares no internal table and the number of states plus one is below 2^64.", "quantifier": "for every such program of any size, every user code, every sequence of events", "why_tests_cant": "tests run a few tables and sequences; the claim compares the whole chain of flattening, dispatch tables and run time with a ten line interpreter for all of them", "anchors": ["include/hsm/details/sm.h: sm", "include/hsm/details/fill_dispatch_table.h: fill_dispatch_table_with_transitions", "include/hsm/details/dispatch_table.h: make_transition", "include/hsm/details/flatten_internal_transition_table.h: flatten_internal_transition_table"]}
{"id": "C66", "title": "The benchmark programs", "statement": "For a ring of n states (state i leads to state i+1 with event i+1, the last one back to the first with event n) the number of the current state is the number of executed actions modulo n, and exactly that number if event n is never sent; in the last state every other event is then answered with false without a call. Hence the complex benchmark, whose machine has 51 states while main sends only e1 to e50, executes at most 50 actions in its million passes and stays in s50, whereas with 50 states, as in the programs it is compared with, k passes with all events execute 50k actions. In the simple benchmark every pass of the loop ends in Empty, whatever the actions do, and handles all eleven events if they throw nothing.", "quantifier": "for rings of every size below 2^64 - 1, every user code, every sequence of events, every number of passes", "why_tests_cant": "the benchmarks only print a time; nothing checks that transitions happen", "anchors": ["benchmark/complex/ComplexStateMachine.h: ComplexStateMachine", "benchmark/complex/hsm.cpp: main", "benchmark/simple/hsm.cpp: player", "include/hsm/details/sm.h: sm"]}
{"id": "C67", "title": "The order of rows matters only through initial states and candidates", "statement": "Two programs whose tables contain the same rows in any order, with the same order of initial states in each class and the same order of candidates for each event in each place, cannot be told apart by any client: the same answers, exceptions and undefined behaviour, the same calls of user code with the same arguments in the same order, the same places, history, waiting events and objects; the numbers printed by status are those of the same places. In particular neighbouring rows of a table can be exchanged any number of times, and the compiler accepts both programs or neither, if the two rows are about different events or tried in no common place, do not lead into composites, do not change the order of the initial states, name no different states whose internal rows are tried in a common place, and, if the class has internal rows, write a place that both name alike. Without any one of these five conditions some client can tell the programs apart.", "quantifier": "for every two such programs, every user code, every sequence of calls, any number of exchanges", "why_tests_cant": "tests fix one order of the rows; the order decides the numbers of states and parents, the layout of all tables and the order of the internal rows", "anchors": ["include/hsm/details/flatten_transition_table.h: flatten_transition_table", "include/hsm/details/flatten_internal_transition_table.h: flatten_internal_transition_table", "include/hsm/details/fill_dispatch_table.h: fill_dispatch_table_with_transitions", "include/hsm/details/idx.h: getCombinedStateIdx", "include/hsm/details/sm.h: sm"]}
{"id": "C68", "title": "Guards with data members: one copy per table entry", "statement": "A guard that keeps data in itself (a mutable lambda) has one copy per table entry: one for each place in which each row with it is tried, and as many again, in front of the old ones, for each call of set_dependency. A call of a guard finds in its copy exactly what the last call of the same entry left there, or what the row has if there was none; no other entry's calls, no actions and no other events change it, also after exceptions. So a guard that agrees at most n times agrees at most n times per entry, and at most n times the number of copies in all; the guard of one row can agree more than n times, if the row starts at a composite or set_dependency is called. Guards without such data behave as in all other properties.", "quantifier": "for every program, every guard behaviour with any type of data members, every sequence of calls", "why_tests_cant": "tests use guards without data members; which copy is called depends on the place and on earlier set_dependency calls", "anchors": ["include/hsm/details/dispatch_table.h: DispatchTableEntry", "include/hsm/details/fill_dispatch_table.h: addDispatchTableEntry", "include/hsm/details/fill_dispatch_table.h: addDispatchTableEntryOfSubMachineExits", "include/hsm/details/sm.h: process_event_internal", "include/hsm/details/sm.h: set_dependency"]}
{"id": "C69", "title": "History of machines with several regions", "statement": "History is booked under the composite region 0 is in when a region leaves a place. So a region that takes a row to the history of the composite region 0 is in does not move; the place a region leaves while region 0 is in another composite is not remembered, and a later row to the history of its composite leads to where it led before; history leads region r to the place of the composite it left last if region 0 was in the composite then and no departure of region r from elsewhere was booked under the composite since. In particular, if all regions leave a composite with one event and return by history with another, only region 0 is where it was; history<C> can lead a region to a place outside of C.", "quantifier": "for every program with at most 255 regions per class, every moment of every execution, every region", "why_tests_cant": "the history tests of the project have one region; which composite a departure is booked under depends on the order of the regions and on earlier events", "anchors": ["include/hsm/details/sm.h: update_current_state", "include/hsm/details/sm.h: currentParentState"]}
{"id": "C70", "title": "How much user code one event runs", "statement": "In a machine without anonymous rows one call of process_event calls at most max(1, 2 * R * (n * g + a)) callbacks, whether it returns or throws: R regions, g guards among the candidates of any place, a callbacks in the effects of any row, n one more than the number of earlier calls of set_dependency; half of it if no state defers events. With anonymous rows each pass over the regions adds R * (n * g + a). The bound is reached; there is no bound that does not depend on n, the guards of a refused event are asked once more for each call of set_dependency.", "quantifier": "for every program with at most 255 regions per class, every callbacks, every reachable state, every event", "why_tests_cant": "a test sees one event in one state; the number of callbacks depends on the deferred events, the guards' answers and the history of set_dependency calls", "anchors": ["include/hsm/details/sm.h: process_event_internal", "include/hsm/details/sm.h: process_deferred_events", "include/hsm/details/sm.h: process_anonymous_transitions", "include/hsm/details/sm.h: set_dependency", "include/hsm/details/fill_dispatch_table.h: addDispatchTableEntry"]}
{"id": "C71", "title": "Rows that are never taken", "statement": "Of the candidates of a place only those up to the first deferral or row without guard count: two programs with the same class members, places, events and initial states in which these agree behave the same for every client (answers, exceptions, undefined behaviour, calls of user code, world, waiting events, places, history, objects). So a row can be left out if a later row of its table has the same source and event and no guard, or its (non-composite) source defers its event, provided it leads into no composite, its source, target and event are named by other rows of the table, the order of initial states stays, and its states have no internal rows or are named before. What remains compiles. Each of the conditions is needed.", "quantifier": "for all programs, callbacks, fuel, dependencies, worlds and call sequences, any number of rows removed", "why_tests_cant": "tests fix one table; that a row is dead is a statement about all guards, states and events", "anchors": ["include/hsm/details/fill_dispatch_table.h: addDispatchTableEntry", "include/hsm/details/sm.h: process_event_internal", "include/hsm/details/flatten_internal_transition_table.h: flatten_internal_transition_table", "include/hsm/details/collect_states.h: collect_child_states"]}
{"id": "C72", "title": "A composite behaves as a machine of its own", "statement": "Let c be a composite of the machine of root such that, in the places the two machines share, the events E and completion have the same candidates in the machine of c alone. While the machine of root is inside c, it and the machine of c, started in step, give the same answers (exceptions and undefined behaviour included) to every sequence of events of E, queries, set and set_dependency calls, call the same user code in the same order with the same arguments, and stay in step (places, history, waiting events, active regions, objects, world); in particular the whole that has just entered c behaves as a new machine of c. It suffices that the tables outside lead into the part through c only, have no rows about E or completion that start inside, no internal rows about these are offered inside, and completion, history, parallel regions and the handler are used in the part if they are used at all. If several rows lead to c, candidates are repeated: then guards must change nothing, and guards may be asked more often. Each condition is needed.", "quantifier": "for all programs, composites, event sets, callbacks, payloads, fuel, dependencies, reachable states in step, call sequences", "why_tests_cant": "tests exercise a composite in one surrounding machine; that its behaviour does not depend on the rest of the program quantifies over all surroundings", "anchors": ["include/hsm/details/flatten_transition_table.h: flatten_transition_table", "include/hsm/details/fill_dispatch_table.h: fill_dispatch_table_with_external_transitions", "include/hsm/details/sm.h: process_event_internal", "include/hsm/details/sm.h: update_current_state", "include/hsm/details/idx.h: getCombinedStateIdx"]}
{"id": "C73", "title": "One table, several regions: the product of its regions", "statement": "A program with one table (no composites, no internal rows, deferral or completion) and any number of regions up to 255 behaves, for every sequence of events and all user code, as the machine of its table: the regions are given the event in turn, each asks the guards of the rows for its state from the last row to the first and performs the first whose guard agrees; an exception ends the round; the answer is true if one region moved; the handler runs if no region has a row. If guards look at their arguments only and nothing throws, the program is the product of its regions: region r is after the same events where the program with the same rows and the r-th initial state only is, and each answer is the disjunction of the answers of these programs. Both conditions are needed.", "quantifier": "for all one-table programs with 1..255 regions, callbacks, payloads, dependencies, event sequences, fuel above a bound", "why_tests_cant": "tests use particular tables with two or three regions and short event sequences", "anchors": ["include/hsm/details/sm.h: process_event_internal", "include/hsm/details/sm.h: update_current_state", "include/hsm/details/fill_dispatch_table.h: fill_dispatch_table_with_external_transitions", "include/hsm/details/collect_initial_states.h: collect_initial_states"]}
{"id": "C74", "title": "The library is an interpreter of its rows", "statement": "For every program that compiles and has at most 255 regions, all user code and every sequence of calls of the public members (process_event, is, parent_is, set, set_dependency, status), the library does what an interpreter does that has no indices, no flattened tables and no dispatch tables, walks the rows of the program for each event and keeps the places of the regions by name: it ends normally, with undefined behaviour of the same kind, or never, as the interpreter does; each call has the same result, user code is called in the same order with the same arguments, and the data members hold the same afterwards. Malformed programs (rows leading outside the machine, states without objects, endless completion) are included.", "quantifier": "for all programs with at most 255 regions per class, callbacks, payloads, dependencies, call sequences, fuel above 255", "why_tests_cant": "tests compare single results of particular programs; they cannot compare two implementations on all programs, and cannot observe undefined behaviour", "anchors": ["include/hsm/details/sm.h: process_event", "include/hsm/details/sm.h: process_event_internal", "include/hsm/details/sm.h: process_anonymous_transitions", "include/hsm/details/sm.h: is", "include/hsm/details/fill_dispatch_table.h: fill_dispatch_table", "include/hsm/details/flatten_transition_table.h: flatten_transition_table", "include/hsm/details/flatten_internal_transition_table.h: flatten_internal_transition_table"]}
{"id": "C75", "title": "Nothing depends on what types are called", "statement": "Rename the classes, events, guard types and action types of a program one-to-one, and give functor values, callables and dependency tuples any new names: the program compiles exactly if it did before, and with the same user code every sequence of calls ends alike, with the same results, the same numbers in all data members (places, history, number of regions), the corresponding deferred events and objects, the same user data, and the same calls of user code up to the names. Each of the four kinds of types must be renamed one-to-one: two that become one can be noticed.", "quantifier": "for all programs, one-to-one renamings, callbacks, payloads, dependencies, call sequences, fuel", "why_tests_cant": "tests use one naming of each program", "anchors": ["include/hsm/details/index_map.h: index_of", "include/hsm/details/remove_duplicates.h: remove_duplicate_types", "include/hsm/details/flatten_internal_transition_table.h: flatten_internal_transition_table", "include/hsm/details/idx.h: getCombinedStateIdx"]}
{"id": "C76", "title": "Only the classes a program mentions count", "statement": "A state machine depends only on the text of its root class and of the classes named, as source, target or enclosing class, in the tables of such classes. If two sets of class definitions agree on these, they are accepted or rejected alike and every sequence of calls has the same outcome: the same results, data members and calls of user code. Adding, removing or rewriting any other class, or writing the classes in another order, changes nothing. A class that is mentioned can matter.", "quantifier": "for all programs, call sequences, user code, dependencies, fuel", "why_tests_cant": "tests use one set of classes", "anchors": ["include/hsm/details/flatten_transition_table.h: flatten_transition_table", "include/hsm/details/collect_states.h: collect_child_states", "include/hsm/details/collect_initial_states.h: collect_initial_states", "include/hsm/details/resolve_state.h: resolveDst"]}
{"id": "C77", "title": "The library does not look at user data", "statement": "What a machine does depends on events' data, objects, dependencies and other user data only through the answers of user code. Given two sorts of user data, related in any way, and user code that gives the same verdicts and exceptions and related data for related data, every sequence of calls ends alike: the same results, exceptions and undefined behaviour, the same places, history, objects and order of waiting events, the same calls of user code, with related data everywhere. So data can be translated, and whatever all user code keeps (of its world and of events) holds in every reachable state, for the waiting events and for every event given to user code, also after exceptions.", "quantifier": "for all programs, user data types, relations, user code, call sequences, fuel", "why_tests_cant": "a test uses one data type and one user code", "anchors": ["include/hsm/details/sm.h: process_event_internal", "include/hsm/details/dispatch_table.h: executeAction", "include/hsm/details/dispatch_table.h: executeGuard", "include/hsm/details/variant_queue.h: visit"]}
{"id": "C78", "title": "Machines do not disturb each other", "statement": "Two state machine objects in one program, of the same or different classes, used in any order, with user code that leaves the other's data alone: every call has the answer it would have if the other machine did not exist, and both end in the states, with the data, they would have alone.", "quantifier": "for all pairs of programs and reachable or unreachable states, user code, interleavings, fuel", "why_tests_cant": "tests use few interleavings", "anchors": ["include/hsm/details/sm.h: sm"]}
{"id": "C79", "title": "Scripts stand for all user code", "statement": "Whatever the user code, its data, the payloads and the calls: there is a finite list of answers (verdicts and exceptions) such that user code that only reads its answers from that list, with events that carry no data, makes the session end alike: the same results, exceptions or undefined behaviour, the same places, history, waiting events and objects, the same calls of user code with the same arguments. Answers behind the list are not read.", "quantifier": "for all programs, user code, data types, call sequences, fuel", "why_tests_cant": "the property is about all user code", "anchors": ["include/hsm/details/sm.h: process_event_internal", "include/hsm/details/dispatch_table.h: executeGuard", "include/hsm/details/dispatch_table.h: executeAction"]}
{"id": "C80", "title": "All runs of a machine can be explored, exactly", "statement": "Exploring a machine (trying every answer of user code, exceptions included, for every call of a list, from every configuration found) gives, when it comes to an end, exactly the configurations that sessions of these calls can end in: every session of any user code, of any length, with any payloads, ends in one of them (or in undefined behaviour, if that was found), and each of them is the end of a session of a script. So a property of configurations together with absence of undefined behaviour holds in all runs exactly if it holds of the list.", "quantifier": "for all programs, lists of calls without set_dependency, user code, data types, call sequences, sufficient fuel", "why_tests_cant": "a finite number of test runs does not cover all answers of user code and all call sequences", "anchors": ["include/hsm/details/sm.h: process_event", "include/hsm/details/sm.h: process_event_internal", "include/hsm/details/sm.h: set"]}
{"id": "C81", "title": "Exploration ends exactly when it can", "statement": "Exploring a machine gives a finite list of configurations exactly if every session of these calls ends within the fuel and the queue of deferred events stays below some bound. In particular it ends for every machine that defers nothing and whose anonymous rows go down in some rank, for every list of calls: what such a machine can do, for all user code at once, is computable.", "quantifier": "for all programs that compile, lists of calls without set_dependency, fuel", "why_tests_cant": "the bound holds for all sessions of all user code; that a search ends cannot be seen from runs of it", "anchors": ["include/hsm/details/sm.h: process_event", "include/hsm/details/sm.h: process_event_internal", "include/hsm/details/sm.h: process_deferred_events"]}
{"id": "C82", "title": "User code acts only through its answers", "statement": "Every call of a state machine object is a finite tree of questions to user code that does not depend on the user code; the call follows one path of it. So two runs of the same client with different user code are the same, call for call, up to the first question that is answered differently, and the same altogether if there is none.", "quantifier": "for all machines, states of the object, calls, user code of any type of world, clients; events without data", "why_tests_cant": "two test runs with different callbacks show two paths of the tree; that nothing but the answers decides the path holds for all user code", "anchors": ["include/hsm/details/sm.h: process_event", "include/hsm/details/sm.h: process_event_internal", "include/hsm/details/transition.h"]}
{"id": "C83", "title": "Whether two machines can be told apart is decidable", "statement": "Two state machines, with a list of calls for each, can be compared by exploring them side by side. If the comparison says they are the same, no client and no user code can tell them apart: the same results, the same calls of user code in the same order, undefined behaviour in one exactly if in the other. If it says they differ, there is a client and a list of answers of user code that shows it. There is a verdict whenever both machines can be explored. For example: a machine with a sub machine and its rewriting as one table.", "quantifier": "for all pairs of programs that compile, lists of pairs of calls without set_dependency, user code, clients of any length; events without data", "why_tests_cant": "that a rewriting of a state machine changes nothing is a claim about all event sequences and all callbacks", "anchors": ["include/hsm/details/sm.h: process_event", "include/hsm/details/sm.h: is", "include/hsm/details/flatten_transition_table.h"]}
{"id": "C84", "title": "The flow of data is decided by the answers of user code", "statement": "Every call of a state machine object is a finite tree of questions to user code that depends neither on the user code nor on the data of events: every question passes, by number, one of the data the call began with (the event's, those of the waiting events, those of the anonymous event) or one that user code left in an event at an earlier question. So which data user code sees and which data wait afterwards, the result and the state are decided by the answers (yes, no, which exception) alone, for all types of data.", "quantifier": "for all machines, states of the object, calls, types of data and of worlds, user code", "why_tests_cant": "a test sees particular payloads; that no payload is mixed up, duplicated or invented in any run, for any payload type, is a claim about all runs", "anchors": ["include/hsm/details/sm.h: process_event", "include/hsm/details/sm.h: process_event_internal", "include/hsm/details/variant_queue.h: visit", "include/hsm/details/dispatch_table.h: executeAction"]}
{"id": "C85", "title": "Whether two machines can be told apart is decidable, with data", "statement": "The comparison of C83 for events with data: two machines are explored side by side with numbers in place of data. If the comparison says they are the same, no client, user code and type of data can tell them apart: the same results, the same calls of user code with the same data in the same order, undefined behaviour in one exactly if in the other. If it says they differ, there is a client, data and a list of answers that show it. There is a verdict whenever both machines can be explored.", "quantifier": "for all pairs of programs that compile, lists of pairs of calls without set_dependency, types of data and of worlds, user code, clients of any length with any data in the events", "why_tests_cant": "that a rewriting of a state machine changes nothing, payloads included, is a claim about all event sequences, payloads and callbacks", "anchors": ["include/hsm/details/sm.h: process_event", "include/hsm/details/sm.h: is", "include/hsm/details/flatten_transition_table.h", "include/hsm/details/variant_queue.h: visit"]}
{"id": "C86", "title": "Calls of on_entry and on_exit balance", "statement": "For a class whose rows name it when they enter and when they leave it (plain state<..> targets and sources, see entered_by_name and left_by_name; both checkable), as long as only guards and the handler of unexpected events throw and set_current_state is not used: the number of on_entry calls plus the regions that were in the class at the start equals the number of on_exit calls plus the regions that are in it at the end, and at any moment on_exit has not run more often than on_entry and the regions at the start allow. Each condition is needed: with other notations (a marked state, entry, direct, exit, history, a composite around or inside), a throwing action or set_current_state the calls do not balance.", "quantifier": "for all programs that compile with at most 255 regions, classes, user code whose only throwing parts are guards and the handler, reachable states, sequences of calls", "why_tests_cant": "resources acquired in on_entry and released in on_exit: that they never leak is a claim about all event sequences", "anchors": ["include/hsm/details/resolve_state.h: resolveEntryAction", "include/hsm/details/resolve_state.h: resolveExitAction", "include/hsm/details/fill_dispatch_table.h: addDispatchTableEntryOfSubMachineExits", "include/hsm/details/sm.h: update_current_state"]}
{"id": "C87", "title": "Data members of states", "statement": "The data user code works on are exactly what the calls of user code before it left: the library neither changes nor loses them, also when user code throws. The data members of a state are kept from one call that gets the object of this state to the next; a region's turn changes them only if the region is in a place where the event has a row with this state as source or target (or one that creates objects of it); and they never change at all if no row has the state as source or target and there is no handler of unexpected events, which can be checked. There is one object per state and machine: a state used in two composites has one set of data. on_entry of a composite gets the object of its initial state, not its own; an action whose target is a history state gets the initial state, not the one restored.", "quantifier": "for all programs that compile with at most 255 regions, user code, states, data members, sequences of calls", "why_tests_cant": "integration/state_data_members.cpp writes and reads one value per test; that data survive any sequence of events, and who can change them, is a claim about all sequences", "anchors": ["include/hsm/details/dispatch_table.h: Transition", "include/hsm/details/dispatch_table.h: executeGuard", "include/hsm/details/dispatch_table.h: executeAction", "include/hsm/details/traits.h: unwrap_typeid_to_shared_ptr", "include/hsm/details/sm.h: m_statesMap", "test/integration/state_data_members.cpp"]}
{"id": "C88", "title": "How long a deferred event waits", "statement": "A deferred event with n events in front of it gets its turn, with the payload it was deferred with, at the latest during the (n+1)-th call of process_event that returns true, whatever the calls are; and not before n calls returned true or threw. Every call that returns true takes exactly one event from the queue (if there is one), a call that throws takes at most one, no other call takes any. The queue grows only by calls that return false, by at most one each. A deferred event does not get its turn because the machine reached a state that handles it: it waits, for ever if no further event is handled.", "quantifier": "for all programs that compile with at most 255 regions, user code, reachable states, sequences of calls of a client that catches exceptions", "why_tests_cant": "integration/defer_events.cpp defers one or two events and sends one more; how long the n-th event waits is a claim about all queues and all sequences", "anchors": ["include/hsm/details/sm.h: process_event", "include/hsm/details/sm.h: process_deferred_events", "include/hsm/details/variant_queue.h: visit", "test/integration/defer_events.cpp"]}
{"id": "C89", "title": "A law that holds for the rows holds for all runs", "statement": "Give every action, factory, on_entry and on_exit a weight and every place a value. If, in every place where a row is tried, the calls of the row weigh what its move adds to the value (nothing for an internal row), then in every run the calls weigh what the run adds to the value of all regions, whatever guards answer or throw, as long as no other user code throws. If every beginning of the calls weighs at most that, the calls of every run weigh at most that, whatever throws. Both conditions can be checked on the rows. In particular: the action of the anonymous transition in should_execute_anonymous_transition_once.cpp runs at most once in every session, and has run exactly when the machine is in S2 or S3 of SubState2; and the CD player has moved its drawer out once more than in exactly when it is in Open.", "quantifier": "for all programs that compile with at most 255 regions, without history, whose rows lead to places of the machine; all weights and values, user code, reachable states, sequences of calls without set_current_state", "why_tests_cant": "test/integration/reproducer/should_execute_anonymous_transition_once.cpp counts the calls of one session with two events; counting laws are claims about all sessions", "anchors": ["include/hsm/details/dispatch_table.h: executeAction", "include/hsm/details/sm.h: process_event_internal", "include/hsm/details/sm.h: process_anonymous_transitions", "test/integration/reproducer/should_execute_anonymous_transition_once.cpp", "example/cdplayer/main.cpp"]}
{"id": "C90", "title": "Programs that can be read as UML state machines behave as such", "statement": "Uml.v says, for states nested to any depth, what a UML state machine with the given tables does with an event: among the enabled transitions one that starts innermost is taken; the active states from the innermost up to its source are left (on_exit), the action runs, the states from its target down along the initial states are entered (on_entry); internal transitions run the action only; then completion transitions are taken until none is enabled. For every program of a class that can be checked on the tables (one region, composites in the root's table only, rows between states, no on_exit where the library does not call it, events of a composite disjoint from those of its states, no deferral), with guards that change nothing and user code that does not throw: after construction and any calls except set_current_state, process_event returns true exactly if UML takes a transition, and then makes the calls UML prescribes, with the same event object and the same effect on user data, and ends in the active states UML prescribes; otherwise it changes no state and calls nothing but guards and the handler of unexpected events. The CD player example is in this class. Outside the class the library deviates: witnesses for on_exit of starred sources, on_exit inside a composite, conflicts between levels, two levels of nesting, anonymous rows of composites and of the initial state, internal rows that differ in functor values only.", "quantifier": "for all programs that compile and meet uml_like, all user code with pure guards and no exceptions, all sessions without set_current_state, all events and payloads", "why_tests_cant": "the tests compare single transitions with expected states; agreement with another semantics is a claim about all programs and sessions, and the deviations lie where no test looks", "anchors": ["include/hsm/details/sm.h: process_event_internal, apply_anonymous_transitions", "include/hsm/details/fill_dispatch_table.h: addDispatchTableEntry, addDispatchTableEntryOfSubMachineExits", "include/hsm/details/resolve_state.h: resolveAction, resolveEntryExitAction", "example/cdplayer/main.cpp"]}
{"id": "C91", "title": "A switch written by hand is the same program", "statement": "Hand.v gives a small language for state machines written by hand (one variable, one function per event with a switch over the states, if/else over guards, calls, assignments; an exception leaves the function at once) and the program one writes for a table. For every program with one table and one region, all user code and all sequences of events: the library makes the same calls with the same arguments, lets the same exceptions out, and ends in the same state with the same user data as the switch that assigns the variable before the actions. The switch that assigns it after them, as benchmark/complex/switch.cpp does, agrees if on_exit, actions and on_entry do not throw, and not otherwise (witness). The functions in switch.cpp are, for any number n of states, the library's ring machine; but the library is measured with n+1 states and without the closing event, so that in k passes over all events the library makes n transitions and the switch k*n. variant.cpp moves also when the guard refuses: it agrees with switch.cpp only for guards that always agree (witness otherwise).", "quantifier": "for all one-table one-region programs that compile, all user code (for the second version: whose effects do not throw), all event sequences and payloads; for all n for the benchmarks", "why_tests_cant": "the benchmarks compare running times only; nothing checks that the compared programs do the same", "anchors": ["benchmark/complex/switch.cpp", "benchmark/complex/variant.cpp", "benchmark/complex/ComplexStateMachine.h", "benchmark/complex/hsm.cpp", "include/hsm/details/sm.h: process_event_internal"]}
{"id": "C92", "title": "Rows of nested tables stand in the machine once per path", "statement": "The flattened table contains the rows of a nested table once for every path of rows that leads from the root's table into it, not once. For every program that compiles and every enumeration of its paths: the rows of the machine are a permutation of the tables at the ends of the paths. Consequence for the calls: when an event is refused everywhere, a guard that is written in one table only is called (regions in that state) * (dependencies set so far) * (paths to the table) * (rows with that guard) times. For every n there is a program with 2n+1 rows (a tower of n composites, each entered by two rows) that compiles, whose innermost state is reachable, that registers 3*2^n-2 rows and calls its only guard 2^n times for one refused event.", "quantifier": "for all programs that compile, all user code, all running states in which every candidate refuses; for all n (below the size limit of the index type) for the towers", "why_tests_cant": "tests nest one or two levels and look at the state reached, not at how often a guard is called; the growth shows only for many rows into the same composite", "anchors": ["include/hsm/details/flatten_transition_table.h", "include/hsm/details/flatten_internal_transition_table.h", "include/hsm/details/fill_dispatch_table.h", "include/hsm/details/sm.h: process_event_internal"]}
{"id": "C93", "title": "What has to be saved of a machine to restore it", "statement": "A client saves a machine by noting the place of every region and the dependencies it passed, and restores it in a new object: construct with the first dependencies, set_dependency with the later ones in their order, set for every region. For every program without history states and create_state, all user code and every running state in which no event waits, every region is at a place and as many regions are active as in a new machine: the new object is in the saved state, and every sequence of calls afterwards gives the same answers, the same calls of user code, the same final state and the same undefined behaviour as for the saved object. Each condition is needed: with history, with another number of active regions, with waiting events or with created objects there is a program and a state where the restored machine answers differently; with created objects it dereferences a null pointer.", "quantifier": "for all programs that compile, all user code, all reachable states with the stated conditions, all later sequences of calls", "why_tests_cant": "set_state.cpp sets one state and asks is; it never compares the later behaviour with that of a machine that reached the state by events, and has no history, deferred events, created objects or regions of different number", "anchors": ["include/hsm/details/sm.h: set, set_dependency, sm(), update_current_regions, process_event", "include/hsm/details/fill_dispatch_table.h", "test/integration/set_state.cpp"]}
{"id": "C94", "title": "The maps built at compile time", "statement": "For every program whose tables can be flattened, the map of states can be built exactly if no table of the machine names the root as a source or target. For every program that compiles the map gives for every state, and for nothing else, an object of that state's class, null exactly if the class has no default constructor, and these are the objects of a new machine. There is exactly one dispatch table and one table of handlers per event of the machine; their elements are empty, and an index is in range exactly if it is the combined index of a place. The loops that fill the handler tables find the object of every state, stay in range and leave at every place the handler with that state's object.", "quantifier": "for all programs that can be flattened or compile, all states, events, indices and dependencies", "why_tests_cant": "the tests build a few machines; two sequences that are collected separately, with duplicates removed before and after the root is appended, are zipped, and tests cannot show that they agree for every program", "anchors": ["include/hsm/details/make_states_map.h", "include/hsm/details/to_map.h", "include/hsm/details/to_pairs.h", "include/hsm/details/collect_states.h: collect_state_typeids_recursive, collect_states_recursive", "include/hsm/details/make_dispatch_tables.h", "include/hsm/details/make_unexpected_event_handler_tables.h", "include/hsm/details/fill_unexpected_event_handler_tables.h"]}
{"id": "C95", "title": "When only the newest dependency counts", "statement": "set_dependency adds table entries bound to the new dependency and keeps the old ones. For every program and all user code whose guards do not look at the dependency and change nothing when they refuse: two machines in the same state with the same newest dependency give the same answers, make the same calls of actions, on_entry, on_exit and the handler with the same arguments and end in the same state for every sequence of calls, whatever the older dependencies are; of several set_dependency calls in a row only the last counts, and setting the newest dependency again changes nothing. Without either condition this is false: a replaced dependency that no event has seen can still enable a row and is passed to its action.", "quantifier": "for all programs that compile, all such user code, all reachable states, all lists of older dependencies, all later sequences of calls", "why_tests_cant": "dependency_injection.cpp sets a dependency once and processes one event; it has no guard that refuses under the new dependency and no comparison with a machine that was never given the old one", "anchors": ["include/hsm/details/sm.h: set_dependency, process_event_internal, process_anonymous_transitions", "include/hsm/details/fill_dispatch_table.h: addDispatchTableEntry", "include/hsm/details/dispatch_table.h: executeGuard"]}
{"id": "C96", "title": "Whether a client can bring a machine to a goal whatever user code answers can be decided", "statement": "A client that sees the configuration of a machine chooses the calls; user code chooses the answers of guards and where it throws. For every machine whose exploration ends the test of the model answers yes or no. Yes: there is advice, a call per configuration, and a client that follows it brings the machine to the goal with no more calls than there are configurations, for all user code, without undefined behaviour. No: for every client, also one that remembers everything it saw, and every number of calls there are answers with which the goal is not reached. The same for every configuration that calls of the list can lead to: yes means that the goal can be forced whatever happened before, no means that some calls and answers lead to undefined behaviour or to where no client can force it.", "quantifier": "for all machines whose exploration ends, all lists of calls, all goals on configurations, all user code, all clients, all numbers of calls", "why_tests_cant": "a test fixes the answers of its guards and plays one sequence of calls; that a state can always be left, or that a guard can hold the machine for ever, is a statement about all answers and all clients", "anchors": ["include/hsm/details/sm.h: process_event, process_event_internal, is", "include/hsm/details/dispatch_table.h: executeGuard"]}
{"id": "C97", "title": "States that cannot be told apart can be merged", "statement": "For every program with one table and one region the model computes which states no client can tell apart if user code is not told the states, and a program in which each state is replaced by the first one it cannot be told from and the rows of the replaced states are gone. That program compiles if the first one does, has the same initial state and events and no new states. For all such user code and all sequences of events it answers alike, calls the same code with the same event, data and dependency in the same order (on_entry and on_exit of merged states count as the same code if the naming says so), leaves the same user data and is in the state that stands for the state of the first program. If all states can be reached and entering them calls the same code, no one-table program that answers all clients alike has fewer states. User code that looks at the source object it is given can tell the two programs apart.", "quantifier": "for all programs with one table and one region, all namings of code, all user code that does not look at the states, all payloads, dependencies, event sequences, and all other one-table programs", "why_tests_cant": "that two states are equal is a statement about all later events and all answers of guards; that a table cannot be made smaller is a statement about all tables", "anchors": ["include/hsm/details/sm.h: process_event_internal", "include/hsm/details/resolve_state.h: resolveEntryExitAction", "include/hsm/details/fill_dispatch_table.h: fill_dispatch_table_with_transitions", "benchmark/simple/hsm.cpp"]}
{"id": "C98", "title": "Logging changes nothing", "statement": "Functions that only look are added to a program: chained before, after or between the actions of its rows, as on_entry, on_exit or on_unexpected_event of classes that have none. The new program compiles exactly if the old one does. For all user code in which those functions do not throw and change neither the event nor what the user's other code sees, and for all sequences of client calls: if the run of the new program is defined, every call has the same result as in the old one, the places, history, deferred events, number of regions and objects are the same, and without the added functions user code is called in the same order with the same arguments; if it does not end, neither does the old one. A well formed program (C24) has no other runs. Logging every row, entry, exit and unexpected event is such an addition for every program. It can do harm in two ways: a row without effects touches no object, so the object a logged row needs may not exist; and if logging puts all actions into one type, the library drops internal rows.", "quantifier": "for all programs with at most 255 regions, all such additions, all user code that looks only, all dependencies, payloads and call sequences", "why_tests_cant": "whether adding code anywhere in the tables leaves everything else alone concerns all programs and all runs", "anchors": ["include/hsm/details/log.h", "test/integration/transition_logging.cpp", "include/hsm/details/chain_actions.h", "include/hsm/details/resolve_state.h: 80-125", "include/hsm/details/has_action.h"]}
{"id": "C99", "title": "Composites are a notation", "statement": "A well formed program (C24) with composites nested to any depth, internal rows, deferred events, anonymous rows, exit states and direct entries, in which no class has two regions, no row leads to a history and no function creates or reuses states, is equivalent to a program with one table: a state for every place, and in every state a row for every row that could be tried there, in the order in which they are tried. The new table has no composites, no on_entry or on_exit and no internal rows, and it compiles. For all user code and all sequences of events and new dependencies, every defined run of the first is a run of the second with the same results, the same deferred events, the same data of the user and the same calls of user code in the same order with the same arguments, in the place named after the place of the first; if the first does not end, neither does the second. Different places have different names. With history the table made this way does not do the same.", "quantifier": "for all programs of that kind, all user code, all dependencies, payloads and call sequences", "why_tests_cant": "that flattening loses nothing concerns every program and every run", "anchors": ["include/hsm/details/flatten_internal_transition_table.h", "include/hsm/details/flatten_transition_table.h", "include/hsm/details/fill_dispatch_table.h", "include/hsm/details/resolve_state.h", "include/hsm/details/sm.h: process_event"]}
{"id": "C100", "title": "Places of programs with composites that cannot be told apart can be merged", "statement": "A well formed program with composites as in C99 that defers no event and has no anonymous row, written as one table, is one of the programs of C65 with the same events; its states can be merged as in C97. For all user code that is not told the states and all sequences of events, the program with composites and the merged table end every call with the same result, call the same code with the same event, data and dependency in the same order, and leave the same data of the user; the merged table is in the state that stands for the place of the program. If rows lead to all places that rows mention, no one-table program that answers all clients as the program with composites does has fewer states, and this number is attained.", "quantifier": "for all programs of that kind, all user code that is not told the states, all dependencies, payloads and event sequences; for the last part all one-table programs", "why_tests_cant": "that no smaller table does the same concerns all tables and all runs", "anchors": ["include/hsm/details/flatten_internal_transition_table.h", "include/hsm/details/flatten_transition_table.h", "include/hsm/details/fill_dispatch_table.h", "include/hsm/details/sm.h: process_event"]}
{"id": "C101", "title": "States no row leads to can be left out, and then the smallest table is found", "statement": "In a one-table program (C65) the states to which rows lead from the initial state on, where a row behind a row without a guard does not count, can be computed; the program with these states only compiles and, for all user code and all sequences of its events, has the same results, calls with the same arguments, data of the user and state. With it C97 and C100 need no condition on reachability: no one-table program that answers all clients as the program does has fewer states than the trimmed and merged one (for one-table programs if being entered tells none of the states it gets to apart; for programs with composites always), and if every event has a row in a state the program gets to, this number is attained. An event that has rows only in other states is lost.", "quantifier": "for all programs of that kind, all user code, dependencies, payloads and event sequences; for the minimum all one-table programs", "why_tests_cant": "that no smaller table does the same concerns all tables and all runs", "anchors": ["include/hsm/details/fill_dispatch_table.h", "include/hsm/details/flatten_transition_table.h", "include/hsm/details/collect_states.h", "include/hsm/details/sm.h: process_event"]}
{"id": "C102", "title": "Programs that answer alike have the same rows, and the smallest table is unique up to names", "statement": "If two one-table programs (C65) with the same events answer alike the client whose guards answer as the event says, their states can be related such that the initial states are related and related states have, for every event, the same guards in the same order with the same calls, leading to related states, and the same handler where there are no rows; all states either program gets to are related to one the other gets to. Conversely programs with such a relation answer all user code alike. So agreement with that one client implies agreement with all user code, also code that throws. If the programs have only states they get to and no two that cannot be told apart, the relation is one to one: they are the same table up to the names of the states. The trimmed and merged program (C101) is of this kind, so the smallest table is unique, for one-table programs in which being entered tells no states apart and for the programs with composites of C100.", "quantifier": "for all pairs of programs of that kind, all user code, dependencies, payloads and event sequences", "why_tests_cant": "that two programs agree on all runs says something about all their rows, and one client standing for all user code concerns all user code", "anchors": ["include/hsm/details/fill_dispatch_table.h", "include/hsm/details/flatten_transition_table.h", "include/hsm/details/collect_states.h", "include/hsm/details/sm.h: process_event"]}
{"id": "C103", "title": "Whether two programs answer alike can be decided", "statement": "For two one-table programs (C65), and for two programs with composites of the kind of C100, it can be computed whether they have the same events and whether they answer alike. If the answer is yes, then for all user code and all sequences of events they have the same results, the same calls as user code sees them and the same data. If it is no, there is a sequence of events with verdicts of the guards after which the results or the calls differ. The answer is yes exactly if the programs answer alike the client whose guards answer as the event says; so for programs with composites, too, agreement with this one client implies agreement with all user code.", "quantifier": "for all pairs of programs of that kind; for yes all user code, dependencies, payloads and event sequences", "why_tests_cant": "yes concerns all runs with all user code of both programs", "anchors": ["include/hsm/details/fill_dispatch_table.h", "include/hsm/details/flatten_transition_table.h", "include/hsm/details/collect_states.h", "include/hsm/details/sm.h: process_event"]}
