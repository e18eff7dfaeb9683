# Formal model of erikzenker/hsm in Rocq/Coq 8.16.1

## What is modelled

The library (`/repo/include/hsm`) is a C++17/Boost.Hana template library.  A user writes
*classes* with transition tables; at compile time the tables are flattened into index-based
dispatch tables; at run time `hsm::sm` interprets these tables.  The model has three layers.

1. **User input** (`Types.v`, `Dsl.v`): class definitions (table, internal table, on_entry,
   on_exit, on_unexpected_event, defer_events, default constructor or not), state references
   (`state`, `initial`, `direct`, `entry`, `exit`, `history`, each with its C++ wrapper),
   events, guards, actions (plain, `create_state`, `reuse_state`, `chain_actions`).
2. **Compile-time part** (`Static.v`, `Dispatch.v`): `flatten_transition_table`,
   `flatten_internal_transition_table`, `collect_*`, `index_of` (with the mod 2^64 sum used by the
   code), `getCombinedStateIdx`, `resolve*`, `fill_dispatch_table*`,
   `fill_unexpected_event_handler_tables`, `fill_initial_state_table`, and the static assertions as
   the executable check `accepted`.
3. **Run-time part** (`Runtime.v`): every member function of `class sm`, including the constructor.
   The state holds the raw numbers of the C++ object (combined indices, history numbers, arrays of
   deques), not names.

Outcome of a call: `Done a s` (returned), `Threw x s` (exception, with the object state the caller
sees), `Undef u` (undefined behaviour, with its kind), `Timeout` (fuel exhausted).  Theorems never
treat `Timeout` as success: terminating claims prove the result is not `Timeout`, divergence claims
prove `Timeout` for every fuel, and partial-correctness claims name the result.

User callbacks are universally quantified functions on an arbitrary user world `W` and event payload
`V`; each may change both, return anything, or throw.  Every callback call is also recorded in a
trace with its arguments, so the theorems can speak about which callbacks ran in which order.

4. **Library parts used by `sm`** (`VariantQueue.v`, `DuniquePtr.v`): the event queue and the owning
   pointer of the table entries, as operation sequences.

## Specification layer

`Spec.v`, `Semantics.v`, `Reach.v`, `Safe.v`, `Journey.v`, `DslSpec.v`, `Reorder.v`, `Dead.v`, `Part.v`, `Flat.v`, `Joint.v`, `Interp.v`, `Data.v`, `Script.v`, `Explore.v`, `Tree.v`, `Equiv.v`, `SymTree.v`, `SymEquiv.v` state intent on names, without
indices and tables.  Property theorems relate the model to them.  Vocabulary:

* `occurs`, `child`, `is_parent`, `is_state`, `is_place`, `declared`, `candidate`, `candidate_list`
  (`Spec.v`): which rows are there and which are candidates in a place, in order.
* `target_place`, `effects`, `executes`, `takes`, `first_enabled`, `region_step` (`Semantics.v`,
  `Reach.v`): what a row does, which row is taken, what one region does with one event.
* `reachable`, `handling`, `running`, `during`, `turns` (`Reach.v`, `CallFacts.v`): states between
  calls, states within a call, the turns of the regions with one event.
* `well_placed`, `well_formed`, `well_typed`, `goes_wrong` (`Safe.v`): executable checks, undefined
  behaviour.
* `possible`, `rests_in`, `can_sleep`, `exactly_safe`, `never_undefined` (`Exact.v`): the exact conditions
  for the absence of undefined behaviour.
* `visitable`, `arrives`, `stays` (`Graph.v`): graphs of the places a region can be in.
* `journey` (`Journey.v`): the stays of a region inside a parent, for history.
* `ranked`, `trap` (`TermRank.v`, `TrapFacts.v`): termination and divergence of completion.
* `prog`, `uses`, `guards_leave_tables`, `posting` (`Reentry.v`, `ReentryLast.v`): user code that uses
  the machine.
* `denotes`, `differ_in_notation`, `one_spelling`, `same_run` (`DslSpec.v`): programs that differ in
  notation only, runs that look the same.
* `same_frame`, `matching_run`, `told_apart` (`Reorder.v`), `cleaned`, `decisive` (`Dead.v`): two tables
  with the same names, side by side; rows that can be left out.
* `self_contained`, `closed`, `in_step`, `just_entered` (`Part.v`): a composite inside a machine and as a
  machine of its own.
* `one_table`, `joints`, `product`, `parts_of` (`Flat.v`, `Joint.v`): one table with several regions, as a
  machine and as the product of its regions.
* `translated` (`DataUse.v`), `scripted`, `reply` (`Script.v`), `tree`, `interp` (`Tree.v`), `answers` (`TreeUse.v`): what
  the library does with user data; user code as a list of answers; a call as a tree of questions.
* `config`, `explore`, `end_of` (`Explore.v`), `client_of` (`ExploreUse.v`), `compare_machines`, `same_calls`
  (`Equiv.v`), `exactly` (`EquivUse.v`): all configurations of a machine; two machines side by side.
* `fill`, `fits`, `interp` (`SymTree.v`), `known`, `replies` (`SymUse.v`), `compare_with_data`, `alike_calls`
  (`SymEquiv.v`), `valued` (`SymEquivRun.v`): the same with data, which have numbers.

Files named `Props*.v` hold the property theorems and their examples; everything else is proof.

## Simplifications (also in the comments of the definitions)

* In `Runtime.v` callbacks do not call back into the same state machine.  `Reentry.v` is a second
  interpreter in which they may; C51 proves that it agrees with the first one when they do not.  Its
  simplifications: nested calls are given as API calls (`call`); `depth` bounds nesting and `Timeout`
  is its exhaustion; iterator invalidation is modelled by comparing the length of the deque of
  candidates after a guard that refused (`push_front` is the only mutation and always grows it).
* The payload of the caller's event object after an exception and move construction of `sm` are not
  modelled.  The one-argument query `is(state)` is `q_is0`; it is not one of the API calls in `call`
  because it is a special case of the two-argument query.
* Data members of functor objects: `Runtime.v` has none (callbacks share `W`); `Functors.v` has them for
  guards, per table entry.  Actions cannot keep any: the composed action calls const copies
  (resolve_state.h 138-149), a mutable one does not compile there, and inside `chain_actions` each call
  works on a fresh copy (chain_actions.h 13-14).
* Type-checking of user callables is not modelled, apart from `create_state`/`reuse_state` requiring a
  target without default constructor.
* Memory exhaustion, ABI and object lifetimes of dependencies are not modelled.  `status` in `Runtime.v`
  returns the numbers it prints; the text is made of them in `StatusText.v` (default locale and format
  flags of a new `std::stringstream`; execution character set ASCII; `std::uint8_t` is `unsigned char`).
* Boost.Hana / mp11 functions are modelled by their documented meaning: `mp_unique` keeps first
  occurrences; `to_map` keeps the first value of a key and insertion order; `zip` requires equal
  lengths (so a root that is a state of its own machine is rejected); `make_map` requires distinct
  keys; `cartesian_product` is
  first-factor major.
* `for_each.h`, `switch.h`, `collect_actions.h` and `make_index_map` are not used by `class sm` at this
  commit; they are modelled in `Helpers.v`.  `collect_guards.h` does not compile for a table with rows
  (`bh::at_c<3>` of a struct) and is not modelled.
* `include/hsm/gen/hsm.h` (amalgamated, from an older state of the library) is modelled in `Amalgam.v`
  by the functions that differ from the other headers; the functions with the same text are shared.

## Trusted base

* The Coq kernel (8.16.1) and `vm_compute`.
* Axioms: none of our own; `Print Assumptions` under every property theorem (files `Props*.v`)
  prints "Closed under the global context".  A check of the compiled library
  lists seven parameters of the standard library, `Coq.ssr.ssrunder.Under_rel.*`: the standard
  library itself loads them (`Arith`, `Bool`, `List`, via its setoid support); no theorem depends on
  them.
* The correspondence between the model and the C++ source, by reading (file/line comments on every
  definition); the integration tests of the repository are replayed on the model in `Examples.v`, and the unit tests of the
  compile-time functions and of the helper classes in `UnitExamples.v` and `UnitTests.v`.

## Plan per property

| id | modelled by | proof idea |
|----|-------------|-----------|
| C01 | `construct` | unfold constructor loops, region loop lemma for < 256 regions, index lemmas |
| C02 | `q_is`, `q_parent_is` | index bijection (C30), decode/encode lemmas |
| C03 | `fill_dispatch_table` | fold/push_front lemmas: table at enc(p,s) = name-level candidate list |
| C04 | as C03 | candidate list is `rev (internal ++ external ++ deferral)` |
| C05 | `try_entries` | induction on the candidate list, against an inductive "first enabled" relation |
| C06, C07, C08 | `process_event` | induction over the region loop with an outcome accumulator |
| C09, C38 | `resolve_action`, `execute_action` | case analysis on the row against an independent effect list |
| C10 | `update_current_state` | internal flag invariant of the table entries |
| C11, C12 | `process_event` with throwing callbacks | induction over candidates / regions |
| C13 | `resolve_dst(_parent)`, `update_current_state` | case analysis + C30 |
| C14, C15 | candidates | membership lemmas on name-level candidates |
| C16 | runs of API calls | ghost history invariant by induction over the call sequence |
| C17, C18 | `process_anonymous` | fuel induction, ranking argument, cyclic example for all fuel |
| C19, C20, C21, C22 | `process_event`, queue field | induction over regions, then over call sequences with ghost log |
| C23 | region loop | loop invariant: regions other than the current one unchanged |
| C24, C44 | `wf_machine` check, `run` | invariant preserved by every call; UB outcomes excluded |
| C25 | witness | `vm_compute` |
| C26, C27 | `set_state`, `q_is` | list update lemmas |
| C28 | `set_dependency` | C03 for two fills |
| C29 | region loop | measure 255-r; divergence by fuel induction |
| C30 | `index_of`, `combined_idx` | arithmetic on N with mod 2^64 |
| C31, C43 | `Dsl.v` | rows: case analysis; behaviour: lockstep simulation of either machine with the machine of the normal form `respell as_state env` (`Spelling.v`, `SpellRun.v`); one-to-one exchange of wrappers: equality of runs (`Respell.v`) |
| C32 | `exec_body` on `AChain` | induction on nested lists |
| C33 | `VariantQueue.v` | operation sequences vs list spec |
| C34, C35 | `exec_body`, `execute_guard` | trace invariants |
| C36 | `try_entries` with pure guards | dedup lemma for "find first" |
| C37 | `accepted`, `flatten` | fuel irrelevance, cyclic => None, acyclic => Some |
| C39, C40, C41 | witnesses + characterisations | vm_compute and loop lemmas |
| C42 | `DuniquePtr.v` | ownership invariant over operation sequences |
| C45 | all fuelled functions | fuel monotonicity |
| C46 | everything `process_event` uses | refinement of `Semantics.v` |
| C47 | `status` | loop lemma over the active regions, positions are injective |
| C48 | `to_region` | arithmetic modulo 256 |
| C49 | `process_event` | a derivation of `Semantics.v` bounds the number of steps; with C24 and C46 |
| C50 | `create_state`, `reuse_state`, `executeGuard`, `executeAction` | invariant: what is promised for the place of a region, and for the places in the history, exists; factories return objects, so nothing disappears |
| C51 | `Reentry.v` | both interpreters are instances of one with a parameter for running user code |
| C52 | `Reentry.v` | soundness of the state as invariant, induction over depth, then fuel |
| C53 | `Reentry.v` | the action is the last callback: its continuation is the identity |
| C54 | whole run time part | sufficiency: invariant as for C24, with what is known of region 0 after its turn; necessity: for every violated clause a client that sets the regions and sends events, and guards that answer from a script |
| C59 | whole run time part | invariant: every region and every history entry is in the graph; exactness: runs are built in the semantics of names, with guards that answer from a script, and C49 turns them into runs of the model |
| C60 | `Amalgam.v` | the tables of both versions hold the same lists in every cell, although filled in another order; then a simulation of all run-time functions |
| C61 | `Extend.v` | removing the rows of the new event from the flattened table gives the old one; all collections computed without repetitions are equal, the cells of other events equal up to repeated deferral entries; then a simulation of all run-time functions |
| C62 | `Programs.v` | the step of each state and event is computed with symbolic user code, payload, world and fuel; the sequences by induction |
| C63 | `StatusText.v` | the text is uniquely readable: fixed characters, and numbers that end where the digits end |
| C64 | `Log.v` | invariant: the lines so far, marked with their regions, are walks from the initial states to the current places; the region moves before the action, nothing between the two can end the row except on_exit |
| C65 | `Flat.v` | the candidates of a place are the rows of the table (candidate_list); each answer of the interpreter is a derivation of the rules of `Semantics.v`, which C46 makes the result of the program; C18 and C24 exclude the other outcomes |
| C66 | `Ring.v`, `FlatDemo.v` | instances of C65: one event raises the number of the state by one and runs the action once, or does neither |
| C67 | `Reorder.v` | the two machines run side by side, related by the places behind their numbers (ReorderRun); exchanging two rows leaves the candidates of each place (candidate_list) as they are (ReorderSwap) |
| C68 | `Functors.v` | an interpreter whose guards have memory, equal to Runtime.v's if the memory is not used; invariant: the record of guard calls explains the memories (FunctorFacts); entries counted push by push (FunctorCount) |
| C69 | `Journey.v` | consequences of C16_regions: the departure of a region is booked under the class region 0 is in (HistRegions) |
| C70 | `Semantics.v` | each turn of a region asks each guard of its list at most once and runs the effects of at most one row; sums over regions and recalled events (WorkFacts) |
| C71 | `Dead.v` (vocabulary) | simulation of the two machines side by side (ReorderRun, shared with C67): lists of table entries that agree up to the first entry that is always taken; removal from the flattened table (DeadFacts) |
| C72 | `Part.v` (vocabulary) | simulation of whole and part with different numbering of states and parents (PartRun); lists of candidates of a closed part: blocks of the part's rows, once per entrance (PartClosed) |
| C73 | `Flat.v`, `Joint.v` (vocabulary) | the machine of the table refines region by region to `regions_run` (JointFacts); with guards that look at their arguments only, rounds are products (JointApart) |
| C74 | `Interp.v` (an interpreter by names) | simulation: numbers of places against names, tables against `priority`, member by member (InterpFacts) |
| C75 | `Rename.v` (renaming of programs) | every function of the model commutes with the renaming (index and duplicate lemmas for injective maps) |
| C76 | `Context.v` (mentioned classes) | the flattened table and everything read from class definitions agree; all functions of the run time give equal results for machines that look the same (`same_view`) |
| C77, C78 | `Data.v`, `DataUse.v` (related user data) | every function of the run time preserves any relation of user data; invariants and two machines as special relations |
| C79, C80 | `Script.v` (answers read from a list), `Explore.v` (`explore`: trying all answers and calls), `ExploreUse.v` | every function of the run time follows the script of the answers given; a run that does not run out of answers is the same for longer lists; the closure is exact |
| C81 | `ExploreTotal.v` (`within`: indices, objects, events and region counts that can occur; how many answers one call uses), `ExploreEnds.v` | every function stays within a finite set; pigeonhole |
| C82 | `Tree.v` (`tree`, `interp`: questions to user code), `TreeUse.v` (`answers`) | every function of the runtime has a tree; two paths of one tree |
| C83 | `Equiv.v` (`compare_machines`, `same_run`, `blind`), `EquivTotal.v`, `EquivUse.v` | matching trees for every pair found; a script for every difference; finitely many pairs |
| C84 | `SymTree.v` (`tree`, `fill`, `interp`: data by number), `SymUse.v` (`replies`, `known`) | every function of the runtime has a tree that names data by number; one path of it for every list of answers |
| C85 | `SymEquiv.v` (`compare_with_data`, `alike_calls`), `SymEquivRun.v` (`valued`), `SymEquivTotal.v`, `SymUse.v` | matching trees with the same numbers, renumbered after each call; data that are one to one for every difference; finitely many pairs of places |
| C86 | `Balance.v` (`times`, `at_class`, `regions_at`, `entered_by_name`, `left_by_name`), `BalanceFacts.v`, `BalanceDemo.v` | every row counts at most (at least) one exit less (more) than it moves regions out of the class; the sum over a run |
| C87 | `StateData.v` (`world_after`, `given`, `makes`, `reaches`, `members`, `out_of_reach`), `StateDataFacts.v`, `StateDataDemo.v` | the tree of questions of C84 folds user code over its calls; a call that reaches the data belongs to a row about the state |
| C88 | `Waiting.v` (`answer`, `count_told`, `served`), `WaitingFacts.v`, `WaitingDemo.v` | what a call takes from the queue is decided by what it tells the client (`call_answer`), then induction over the calls |
| C89 | `Law.v` (`weight`, `total`, `level`, `gain`, `lawful`, `bounded`), `LawFacts.v`, `LawDemo.v` | every region step adds to the calls and to the value of its region what one row says (`step_law`), then the invariant framework of C86; the checkers run over all (place, row) pairs |
| C90 | `Uml.v` (`transition`, `step`, `stuck`, `plays`, `completes`, `reacts`, `uml_like`, `uml_ok`), `UmlFacts.v`, `UmlDemo.v` | candidates and UML transitions correspond in every place (`cand_transition`, `transition_cand`), all transitions about one event start on one level (`one_level`), then one region step is one UML step (`step_uml`), the anonymous loop is `completes`, and the place is kept as invariant over sessions |
| C91 | `Hand.v` (`stmt`, `exec`, `handles`, `by_hand`, `bench_switch`, `bench_variant`), `HandFacts.v` | the generated switch is the machine of the table of C65 (`handles_reacts`), the benchmark's switch is the generated one for the ring (`bench_handles`) |
| C92 | `Copies.v` (`path`, `written`, `guards_only`, `rows_with`, `tower`), `CopiesFacts.v`, `TowerFacts.v`, `CopiesDemo.v` | induction on the depth-first order of the rows (`visits_paths`), then the refused call of C07 counted (`refused_asks`) |
| C93 | `Restore.v` (`restorable`, `restoring`, `anew`, `later`), `RestoreFacts.v`, `RestoreDemo.v` | invariant of all runs (`reachable_kept`), construction and set computed, the call tree of C84 does not depend on what happened before (`run_past`) |
| C94 | `Maps.v` (`make_states_map`, `make_tables`, `fill_handlers_in`), `MapsFacts.v` | removing duplicates before and after appending the root compared; the three loops folded into one (`foldM_prod`, `foldM_event`) |
| C95 | `Newest.v` (`ignores_dependency`, `refuses_silently`, `same_but_guards`, `same_run`), `NewestFacts.v`, `NewestDemo.v` | simulation through every function of the interpreter (`sim`); older copies of refusing candidates refuse again (`loop_sim`) |
| C96 | `Steer.v` (`leads`, `plan`, `grow`, `forceable`, `recoverable`), `SteerFacts.v`, `SteerUse.v` | attractor of the goal over the explored configurations: a plan is followed by induction over its order (`follow`); outside of a plan that cannot grow the answers are put together call by call (`prevented`) |
| C97 | `Merge.v` (`behind`, `told`, `moves`, `settle`, `merged`, `verdicts`, `imitates`), `MergeFacts.v`, `MergeRun.v`, `MergeLeast.v`, `MergeDemo.v` | pairs of states are removed until the rest is consistent; what is left is an equivalence (`equals_equivalence`) along which rows are played alike (`play_alike`); a removed pair is told apart by events whose data hold the verdicts of the guards (`removed_apart`) |
| C98 | `Probe.v` (`watched`, `looks_only`, `same_but_watched`, `logged`, `recording`), `ProbeFacts.v`, `ProbeRun.v`, `ProbeProgram.v`, `ProbeLog.v`, `ProbeDemo.v` | the interpreter of C74 runs both programs in step; the effects of a row with lookers, lookers left out, are the effects of the row (`effects_kept`); carried over to the library by `interpreter_session` |
| C99 | `Unnest.v` (`unnested`, `one_region`, `translated`, `in_old_words`), `UnnestFacts.v`, `UnnestRun.v`, `UnnestProgram.v` (`same_run`), `UnnestDemo.v` | the choices of the new program in the state named after a place are the choices of the old one in that place (`tries_both`); the interpreter of C74 runs both programs in step (`covers`); carried over to the library by `interpreter_session`; that the new program compiles by `compile_compiles` |
| C100 | `UnnestMerge.v` (`at_once`, `carried`, `smallest`), `UnnestMergeDemo.v` | `unnested` is `flat` (`unnested_flat`); code that is not told the states is told the same behind both namings (`behind_carried`, `told_carried`); C99 and C97 composed (`nested_session`) |
| C101 | `Trim.v` (`tried`, `gets_to`, `trimmed`), `TrimFacts.v`, `TrimNested.v` (`least_table`), `TrimDemo.v` | the computed list is closed and every state in it is led to (`got_iff`); in these states the rows that are tried are the same (`choose_trimmed`), so the machine of C65 reacts alike (`reacts_trimmed`); `merged_least` of C97 applied to the trimmed program |
| C102 | `Unique.v` (`same_rows`, `same_table`, `settled`), `UniqueFacts.v`, `UniqueNested.v`, `UniqueDemo.v` | states reached by the same events are related (`meets`); their views agree, and views that agree for all verdicts force equal rows (`views_rows`); in a settled program states with equal views are equal (`settled_apart`); for the converse `answer_alike` of C97 along the relation (`rows_reacts`) |
| C103 | `Decide.v` (`fits`, `narrow`, `answers_alike`), `DecideFacts.v`, `DecideDemo.v` | pairs of states whose rows do not fit are removed until all do; what is left has the same rows (`fitting_rows`, then C102_answers), what is removed is told apart by some events (`not_fitting_apart`); with composites on the unnested tables |
| C55, C56, C57, C58 | `Helpers.v` | induction on lists; the two loops of `fill_initial_state_table` write every cell once |

## Statements that are false of the code

The following parts of the listed properties do not hold.  The manifest marks these properties as
partial; the part that holds is a theorem with the suffix `_partial`, the rest is refuted by witness.

* C17: anonymous rows that are only in internal tables are never taken (`C17_internal_refuted`).
* C31: an initial state that is also marked in a postfix target counts as a second region
  (`C31_initial_target_refuted`); a class with internal rows whose table writes one exit state in two
  ways tries its internal rows more often (`C31_internal_twice_refuted`).
* C43: for the same reason the candidates may differ (`C43_candidates_refuted`).
* C44: history entries of regions from 1 on may be places of another parent (`C44_history_refuted`).
