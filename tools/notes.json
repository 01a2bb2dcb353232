{
"C01": {
"note": "All schedules of any number of coroutines, any bound; TLM FIFO version includes flush."
},
"C02": {
"note": ""
},
"C03": {
"note": "Safety form of liveness: no sleeping process while the operation could proceed, and a woken process completes when resumed."
},
"C04": {
"note": "num() does not count beyond 1 (C04_num_limit shows an execution with two items). The statement gives its exact value."
},
"C05": {
"note": "C05_peek_none_limit is the two-consumer execution in which a blocking peek returns None."
},
"C06": {
"note": "C06_large is the size >= 2 part; C06_is_full_limit is an execution in which can_put() is true and the put is rejected."
},
"C07": {
"note": "C07_get_ap_limit is the flush execution (7,8 removed; 7,7 written)."
},
"C08": {
"note": "All calls refine a position-by-position sequence specification which determines results and contents."
},
"C09": {
"note": ""
},
"C10": {
"note": "T() modelled as producing a new object per call."
},
"C11": {
"note": "C11_prev_raises_limit shows that the condition on prev() is needed."
},
"C69": {
"note": "C69_copy_limit: a concrete push on the copy seen in the original."
},
"C70": {
"note": "Exact for every content and position."
},
"C71": {
"note": "delete calls itself on the same key (general theorem for every fuel)."
},
"C12": {
"note": "Round trip for every list of fitting fields in both modes; zero width in big-endian mode raises (C12_zero_width)."
},
"C13": {
"note": "Every bit of the packed stream is given by the concatenation specification."
},
"C14": {
"note": "Short reads return 0 and keep the position; the position never passes the end for every history of reads."
},
"C15": {
"note": "C15_big_endian_limit, C15_following_field_limit: concrete wrong results."
},
"C16": {
"note": "C16_position_ignored is the general form of the failure, C16_array_after_field_limit a concrete one."
},
"C17": {
"note": "put_bytes/put_ints do not exist in the code. C17_put_bits_limit: concrete loss."
},
"C72": {
"note": "C72_slice_limit: a concrete wrong value."
},
"C73": {
"note": "C73_wide_little_endian_limit: a neighbouring field read back wrongly."
},
"C18": {
"note": "clog2 is proved for every integer with sufficient fuel, i.e. the loop terminates."
},
"C19": {
"note": "The _limit theorems are the executions showing that the restrictions are needed."
},
"C20": {
"note": "The match is not anchored: C20_unanchored_limit. Patterns with other regular expression operators and /regex/ patterns are outside the model."
},
"C21": {
"note": "All histories of set/reset/set_reset/predict/set_access/randomize."
},
"C22": {
"note": "XpredictX under every policy and map; the byte-enable case is recorded under C29."
},
"C23": {
"note": "Bitwise against the documented policy table."
},
"C24": {
"note": "Register level: any layout of fields with arbitrary histories. Clear-/set-on-write fields are only covered if they differ from their mirror (writing them has a fixed effect)."
},
"C25": {
"note": "Predicted front-door writes, sets, soft resets in any order."
},
"C26": {
"note": "C26_read_only_write_once_limit: a write through a read-only map makes the later real write of a write-once field ineffective in the mirror. User-defined policies excluded."
},
"C27": {
"note": "C27_outside_limit is a field lying outside an 8-bit register, accepted without error."
},
"C28": {
"note": "Bitwise."
},
"C29": {
"note": "C29_byte_enable_limit: when it raises, earlier fields are already updated."
},
"C33": {
"note": "Proved for every schedule; C33_refused_write for refused writes, C33_kept for operations never left; C33_reset_limit and C33_late_release_limit show the conditions are needed.",
"status": "proved"
},
"C74": {
"note": "Front door, automatic prediction, no user callbacks."
},
"C75": {
"note": "C75_write_only_compared_limit: a write-only field fails the check."
},
"C76": {
"note": "All layouts."
},
"C77": {
"note": "Exact characterisation for every list of fields."
},
"C30": {
"note": "C30_three_level_limit: with three splitting levels the addresses repeat and the value is lost."
},
"C31": {
"note": "C31_three_level_limit and C31_mixed_limit show that the conditions are needed."
},
"C32": {
"note": "Soundness for all register trees; unique and RO/WO-shared addresses found in both directions."
},
"C78": {
"note": "C78_burst_limit: a failed burst with status OK."
},
"C79": {
"note": "C79_default_keeps is general; C79_default_limit a concrete stale lookup."
},
"C80": {
"note": ""
},
"C81": {
"note": "C81_noaccess_limit: a NOACCESS field whose desired value changes."
},
"C34": {
"note": "C34_duplicate_names_limit: two types of one name can make it recurse for ever. C34_index_error_limit: the IndexError is reachable."
},
"C35": {
"note": "C35_by_name_limit: after a type override by name, a request by name ignores the instance override. Instance overrides by name are not implemented in the code."
},
"C36": {
"note": "Chains of any length; which override is applicable (instance before type, latest replacing) is C35."
},
"C37": {
"note": "All pool states; resource database refined to a list of values for every history of set and write_by_name."
},
"C38": {
"note": "C38_search_order is exact for every history; C38_last_set_limit: repeating a set makes an older one win."
},
"C39": {
"note": "Every interleaving of resource, resource database and configuration database calls."
},
"C40": {
"note": "C40_totals_limit: a raise beneath a draining object leaves a wrong total for good."
},
"C41": {
"note": ""
},
"C42": {
"note": "C42_every_drain_limit: two drops before the background process runs strand the second drain for ever."
},
"C43": {
"note": "C43_reraise_limit is the execution for the last sentence."
},
"C82": {
"note": "The assignment is inside the branch for a missing object. C82_drain_time_limit: a concrete ignored setting."
},
"C44": {
"note": "Any handlers, catcher queues and catchers issuing messages themselves; also arbitrary set/reset calls on the counts."
},
"C45": {
"note": "Recorded messages raise (C83)."
},
"C46": {
"note": "C46_macro_limit: both wrong outcomes of the plain macros."
},
"C47": {
"note": "C47_file_found is exact; C47_file_limit shows the effect of a 0 setting."
},
"C48": {
"note": "C48_override_limit: a concrete message losing its severity override."
},
"C49": {
"note": "C49_set_action_limit: an action explicitly set to the old default is replaced. C49_other_callback_limit: a callback that is not a catcher behind a catcher raises."
},
"C57": {
"note": "C57_none_limit: typed iteration of None visits nothing."
},
"C83": {
"note": "C83_twice_limit: a message shown twice."
},
"C84": {
"note": "C84_survive gives the exact result; C84_reset_limit a concrete survivor."
},
"C85": {
"note": "For every message whose processing does not end in an exception inside a catcher."
},
"C86": {
"note": "C86_limit: a concrete history."
},
"C50": {
"note": "Proved for every history of the modelled sequencer (requests, grants, exits, driver calls), FIFO mode; relevance is an arbitrary oracle per driver call."
},
"C51": {
"note": "grant_queued_locks slices a UVMQueue, which raises TypeError (see C08)."
},
"C52": {
"note": "C52_lost_limit is the execution for the last sentence."
},
"C87": {
"note": "C87_try_limit: try_next_item after peek makes two grants and the request FIFO overflows."
},
"C88": {
"note": "First-in-first-out mode is C50."
},
"C89": {
"note": "C89_unseen_limit and C89_overtaken_limit are the executions for the last sentence."
},
"C53": {
"note": "Schedules without callbacks (with callbacks trigger() does nothing: C54)."
},
"C54": {
"note": "bool + value is never the object False."
},
"C90": {
"note": "C90_stale_trigger is general in what happens in between (only cancels and wait_on calls)."
},
"C91": {
"note": ""
},
"C92": {
"note": ""
},
"C55": {
"note": "All three policies, every history."
},
"C56": {
"note": "For all non-empty strings; edit scripts are chains of single-character edits."
},
"C93": {
"note": "max_val is 1, so no alternative is below the limit."
},
"C64": {
"note": ""
},
"C67": {
"note": ""
},
"C94": {
"note": ""
},
"C95": {
"note": "Python's own digit formatting is trusted."
},
"C96": {
"note": ""
},
"C61": {
"note": "The mask is computed by shifting -1, which stays -1."
},
"C97": {
"note": "With cycles: C97_self_reference_limit (a self reference leaves the global copy map filled, so later copies of that object do nothing) and C97_cycle_limit (endless recursion)."
},
"C98": {
"note": "The _limit theorems show what happens otherwise: sharing on the right gives False for equal objects one way round, None or lists on the left are ignored, differing strings raise, do_compare of nested objects is ignored. Differing classes below the top are not covered."
},
"C99": {
"note": "C99_shared_limit: with an object held twice, b.compare(a) is False."
},
"C100": {
"note": ""
},
"C68": {
"note": "For every interleaving of calls through all exports. Items are attributed to the latest call of their process; the exports' forwarding is modelled, port binding is not (C63)."
},
"C62": {
"note": "Binding of the exports is C63."
},
"C101": {
"note": "Built on C62."
},
"C66": {
"note": "C66_queue covers every history of set, predictions, get and read, also while a read is on the bus; write() and update() are C102 and C103. One update() at a time, byte enables all ones, no user callbacks."
},
"C102": {
"note": "write() calls set(), so pre_write always finds values not yet updated."
},
"C103": {
"note": "C103_exact gives the exact sequence for every state."
},
"C63": {
"note": "Names and cycles outside the quantifier are covered by C63_names_needed (a provider is lost when full names clash) and C63_cycle_diverges (connect accepts a cycle; resolution recurses without end)."
},
"C104": {
"note": ""
},
"C65": {
"note": ""
},
"C105": {
"note": "C105_nested_limit is the endless walk."
},
"C58": {
"note": "Over the machine of PhaseRunModel: jumps and sync are not implemented by the library and are left out; objections are one step that ends at an arbitrary time."
},
"C59": {
"note": "C59_progress and C59_terminates cover the graphs of the statement, C59_standard_graph the concrete UVM graph; the theorems named _deadlock show that the side conditions are needed (two of them for every graph, three tasks as a concrete schedule)."
},
"C60": {
"note": "C60_before/after/with: insertion into any unshared acyclic graph. C60_linear + C60_query: any construction history of a linear schedule refines list insertion. C60_parallel_keyerror, C60_between_adjacent_keyerror: general theorems on the error cases; C60_query_branching: concrete incompleteness."
},
"C107": {
"note": "C107_byte_enable_limit: with the byte enables of the bus word the prediction raises and the access stays pending. C107_mixed_limit: a read of one word and a write of the other are one access. C107_repeated: registers with repeated addresses."
},
"C108": {
"note": "C108_width_limit: below a wider top map the value is garbled."
},
"C109": {
"note": "Front door, HDL back door without slices; user-defined doors and callbacks are left out."
},
"C110": {
"note": "The device is any function of addresses with stuck-at faults; C110_through_map ties it to the map model."
},
"C111": {
"note": "ModeRO is a model constant (peek called with an integer as output list raises) and only shown as an example."
},
"C112": {
"note": "The report itself formats Python builtins and raises, so refusing is the observable effect."
},
"C113": {
"note": "Recording and the response queue are left out; kill() does not exist in the library."
},
"C114": {
"note": "One starting phase object per value; the objection mechanism itself is C40-C43."
},
"C115": {
"note": "One sequencer; registration of other sequences is the label LOther."
},
"C116": {
"note": "Names, children, constructor refusals and iteration for all call histories."
},
"C117": {
"note": "Relative, absolute, round trip and arbitrary strings; limits by concrete executions."
},
"C118": {
"note": "find_all exact, ordered and framed; find derived from it; iteration limit by a concrete execution."
},
"C119": {
"note": "Soundness over an abstract design given by laws; limit and width cases by theorem and concrete execution."
},
"C120": {
"note": "Exact characterisation for read/write fields, corollary for wirings; coupling limit by a concrete design."
},
"C121": {
"note": "Per register exact; traversal counted exactly; submap limit for all trees."
},
"C122": {
"note": "Exact multiplicities."
},
"C123": {
"note": "Proved for every history; closing twice shown by a concrete execution.",
"status": "proved"
},
"C124": {
"note": "Proved for histories that ask no freed recorder for its handle; the limit is a concrete execution.",
"status": "proved"
},
"C125": {
"note": "Proved for every history of transaction calls without switching recording off; the limit is a concrete execution.",
"status": "proved"
},
"C126": {
"note": "begin_tr()/end_tr() effects for transactions that do not record themselves; main stream, kept recorder and links for every history.",
"status": "proved"
},
"C127": {
"note": "Exact set under the stated hypotheses on register updates (instance given); reach and missing success for any register behaviour.",
"status": "proved"
},
"C128": {
"note": "Proved for every tree and register behaviour.",
"status": "proved"
},
"C129": {
"note": "Proved for every tree and naming.",
"status": "proved"
},
"C130": {
"note": "Proved for every history, cyclic block graphs included.",
"status": "proved"
},
"C131": {
"note": "Proved for every hierarchy; the parts are specified independently of the code.",
"status": "proved"
},
"C132": {
"note": "Proved for every graph and depth limit with plain names (the relation of rows is shown to be deterministic); the limit is a concrete execution.",
"status": "proved"
},
"C133": {
"note": "Proved for every sequence of rows and, with C132, for every printed object.",
"status": "proved"
},
"C134": {
"note": "Proved for every table below the width; the limit is a concrete table.",
"status": "proved"
},
"C135": {
"note": "Proved for every history; the quotient is taken exact (floating point below 2^53).",
"status": "proved"
},
"C136": {
"note": "Proved for every command line; regular expressions are a parameter.",
"status": "proved"
},
"C137": {
"note": "Proved for every command line; matching, regular expressions and integer parsing are parameters; the relations that say what a line means are shown to be deterministic.",
"status": "proved"
},
"C138": {
"note": "Proved for every command line; matching, regular expressions and integer parsing are parameters; the relations that say what a line means are shown to be deterministic.",
"status": "proved"
},
"C141": {
"note": "Proved for every command line; matching, regular expressions and integer parsing are parameters; the relations that say what a line means are shown to be deterministic.",
"status": "proved"
},
"C139": {
"note": "Proved for every set of lines; the last clause is a concrete execution.",
"status": "proved"
},
"C140": {
"note": "Proved for every list of settings.",
"status": "proved"
},
"C142": {
"note": "Proved for every value and state; the scan of the time-out is a parameter.",
"status": "proved"
},
"C143": {
"note": "Proved for every list; the failure of the documented order is a concrete list.",
"status": "proved"
},
"C144": {
"note": "Proved for every reachable pool; scope matching is a parameter.",
"status": "proved"
},
"C145": {
"note": "Proved for every component and list of resources whose names have no regular expression characters.",
"status": "proved"
},
"C146": {
"note": "Proved for every reachable pool; the differences are concrete executions.",
"status": "proved"
},
"C147": {
"note": "Proved for every object graph, for clone false.",
"status": "proved"
},
"C148": {
"note": "Proved for every list of resources.",
"status": "proved"
},
"C149": {
"note": "Proved for every object structure; fuel is existential.",
"status": "proved"
},
"C150": {
"note": "Proved for every object structure and bit stream.",
"status": "proved"
},
"C151": {
"note": "Proved for every object graph and sequence of calls.",
"status": "proved"
},
"C152": {
"note": "Proved for every string and prefix of fields; the failures of the default packer are concrete executions.",
"status": "proved"
},
"C153": {
"note": "Proved for every history.",
"status": "proved"
},
"C154": {
"note": "Proved for every reachable state; accesses run one after the other except that an object copy may come between index and data access.",
"status": "proved"
},
"C155": {
"note": "Proved for every reachable state, with the same restriction.",
"status": "proved"
},
"C156": {
"note": "Proved for every reachable state and later history.",
"status": "proved"
},
"C157": {
"note": "Proved for every history: with overrides if type names are unique, without for any names.",
"status": "proved"
},
"C158": {
"note": "Proved for every history.",
"status": "proved"
},
"C159": {
"note": "Proved for every history and all paths of literal characters.",
"status": "proved"
},
"C160": {
"note": "Proved for every interleaving. The limit theorem shows an execution in which is_relevant() returns 2.",
"status": "proved"
},
"C161": {
"note": "Proved for every history.",
"status": "proved"
},
"C162": {
"note": "Proved for every history.",
"status": "proved"
},
"C163": {
"note": "Proved for every interleaving.",
"status": "proved"
},
"C164": {
"note": "Proved for every interleaving; the raising part for a transfer from any reachable state.",
"status": "proved"
},
"C165": {
"note": "Proved for every interleaving.",
"status": "proved"
},
"C166": {
"note": "Proved for every hierarchy; C166_empty_limit shows the condition on empty paths is needed.",
"status": "proved"
},
"C167": {
"note": "Proved for every register, hierarchy and value.",
"status": "proved"
},
"C168": {
"note": "Proved for every register, hierarchy and value; C168_mirror_limit shows that the mirror and the design differ afterwards.",
"status": "proved"
},
"C169": {
"note": "Proved; every later sequence of calls.",
"status": "proved"
},
"C170": {
"note": "Proved for every design; C170_stuck_limit shows a stuck bit that passes.",
"status": "proved"
},
"C171": {
"note": "Proved for every history; C171_in_force gives the values in force.",
"status": "proved"
},
"C172": {
"note": "Proved for every history; C172_empty_id_limit shows the condition on the empty id is needed.",
"status": "proved"
},
"C173": {
"note": "Proved for every history; C173_flag_limit shows hier=1 and later components.",
"status": "proved"
},
"C174": {
"note": "Proved for every hierarchy, hooks that do not change it.",
"status": "proved"
},
"C175": {
"note": "Proved for every register, hook and callback; C175_plain_limit: a plain function as pre_write raises TypeError.",
"status": "proved"
},
"C176": {
"note": "Proved for every register with fields that do not overlap; C176_wide_limit shows the condition on widths is needed.",
"status": "proved"
},
"C177": {
"note": "Proved for every register, hook and callback.",
"status": "proved"
},
"C178": {
"note": "Proved for every register and callback.",
"status": "proved"
},
"C179": {
"note": "Proved for every register.",
"status": "proved"
},
"C180": {
"note": "Proved for every sequence of calls.",
"status": "proved"
},
"C181": {
"note": "Proved for every sequence of calls.",
"status": "proved"
},
"C182": {
"note": "Proved for every sequence of calls; C182_cases shows that C182_outcome always applies when a map is chosen.",
"status": "proved"
},
"C183": {
"note": "Proved for every sequence of calls.",
"status": "proved"
},
"C184": {
"note": "Proved for every sequence of calls; C184_sub_limit shows a map losing its own settings when it becomes a submap.",
"status": "proved"
},
"C185": {
"note": "Proved for every history; C185_limit shows that the object made by the factory inside uvm_do only selects the branch.",
"status": "proved"
},
"C186": {
"note": "Proved for every history; C186_limit shows a stale depth.",
"status": "proved"
},
"C187": {
"note": "Proved for every state, and every tidy history; C187_limit is a cycle of two parents.",
"status": "proved"
},
"C188": {
"note": "Proved for every history; C188_limit shows the priority -1.",
"status": "proved"
},
"C189": {
"note": "Proved for every assignment of parents; the walk needs as many steps as schedules.",
"status": "proved"
},
"C190": {
"note": "Proved for every graph; C190_ends needs a graph without cycles.",
"status": "proved"
},
"C191": {
"note": "Proved for every graph; C191_limit is the choice that hides a phase.",
"status": "proved"
},
"C192": {
"note": "Proved for every interleaving.",
"status": "proved"
},
"C193": {
"note": "Proved for every sequence of calls, by an invariant of the whole graph and its shared dictionaries; C193_limit shows the two excluded cases. A domain whose user overrides define_domain is not modelled.",
"status": "proved"
},
"C194": {
"note": "Proved for every history of calls by an invariant that orders all registrations; the two limits in brackets are examples C194_limit_*.",
"status": "proved"
},
"C195": {
"note": "Proved for every history; C195_limit shows the need for the condition.",
"status": "proved"
},
"C196": {
"note": "Proved for every history; cocotb Event semantics are stated in WtModel.v.",
"status": "proved"
},
"C197": {
"note": "Refinement to a model without events; proved for every history and any notion of equality of values.",
"status": "proved"
},
"C198": {
"note": "Proved for arbitrary hook, callback and data mover code that changes offset, values and status; changes of other attributes of the operation, e.g. the path, are not modelled.",
"status": "proved"
},
"C199": {
"note": "Proved.",
"status": "proved"
},
"C200": {
"note": "Proved; the choice of the sequencer is the same code for registers.",
"status": "proved"
},
"C201": {
"note": "Proved.",
"status": "proved"
},
"C202": {
"note": "Proved on top of the port model (C63, C104); sockets are connected with sockets only.",
"status": "proved"
},
"C203": {
"note": "Proved on top of the port model (C63, C104); sockets are connected with sockets only.",
"status": "proved"
},
"C204": {
"note": "Proved on top of the port model (C63, C104); sockets are connected with sockets only.",
"status": "proved"
},
"C205": {
"note": "Proved; arbitration is arbitrary, no locks or other drivers on the upstream sequencer, the wake-up of a finished access is that of C89.",
"status": "proved"
},
"C206": {
"note": "Proved, same model as C205.",
"status": "proved"
},
"C207": {
"note": "Proved; what a message does besides being counted is in C44, C45 and C83; the layout of the text is not modelled, its lines are.",
"status": "proved"
},
"C208": {
"note": "Proved, same model as C207.",
"status": "proved"
},
"C209": {
"note": "Proved for messages without elements; the time is any string without a colon.",
"status": "proved"
},
"C210": {
"note": "Proved; when events reach an object is C40-C43.",
"status": "proved"
},
"C211": {
"note": "Proved; floats (%f) are left out.",
"status": "proved"
},
"C212": {
"note": "Proved.",
"status": "proved"
},
"C213": {
"note": "Proved; +uvm_set_type_override does nothing in the code (uvm_root.py:634-641).",
"status": "proved"
},
"C214": {
"note": "Proved; called with level 0. The texts for an unresolved port are never printed, as the phase they depend on is imported before it exists.",
"status": "proved"
},
"C215": {
"note": "Proved; called with level 0.",
"status": "proved"
},
"C216": {
"note": "Proved; null providers are left out, full names of ports differ.",
"status": "proved"
},
"C217": {
"note": "Proved. Only the simulator for which the index of an element is split off is modelled (Verilator).",
"status": "proved"
},
"C218": {
"note": "Proved; C218_half_written_limit shows that poke may have written copies before it fails.",
"status": "proved"
},
"C219": {
"note": "Proved; read and write of a user-defined back door are coroutines, as in uvm_reg_backdoor.py.",
"status": "proved"
},
"C220": {
"note": "Proved for types with unique, proper names, that stand for the type objects.",
"status": "proved"
},
"C221": {
"note": "Proved; C221_missing_limit is an object beneath the one displayed that is missing. Objects with objections have different full names, and totals are not negative.",
"status": "proved"
},
"C222": {
"note": "Proved; the create is one after the first debug pass, for which a detected circle does not start another (C34).",
"status": "proved"
},
"C223": {
"note": "Proved; the documented rule, highest precedence and then newest, is refuted by C223_limit.",
"status": "proved"
},
"C224": {
"note": "Proved.",
"status": "proved"
},
"C225": {
"note": "Proved.",
"status": "proved"
},
"C226": {
"note": "Proved; for the memory walk the rule the code follows is proved and the documented one refuted by C226_walk_limit.",
"status": "proved"
},
"C227": {
"note": "Proved; what a get finds is taken as given here (C37).",
"status": "proved"
},
"C228": {
"note": "Proved for fatal messages that raise; C228_caught_limit shows what happens otherwise. What the factory makes for a name is a parameter (C34 and others).",
"status": "proved"
},
"C229": {
"note": "Proved for graphs without cycles of non-nodes; C229_cycle_limit shows the other case.",
"status": "proved"
},
"C230": {
"note": "",
"status": "proved"
},
"C231": {
"note": "",
"status": "proved"
},
"C232": {
"note": "",
"status": "proved"
},
"C233": {
"note": "",
"status": "proved"
},
"C234": {
"note": "",
"status": "proved"
}
}